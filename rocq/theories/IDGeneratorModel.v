(** Model of CommonC/ConsecutiveIDGenerator.c (the non strict variant) under
    CommonC/ConcurrentIDGenerator.c: any number of threads interleaved at every atomic access,
    under sequential consistency. [W] is the number of pool bytes per sample (8 or 4, line
    57-63); reading [W] neighbouring atomic bytes as one atomic word is taken to be a single
    atomic access, as the code assumes (lines 66-72). With W = 1 the model is also the strict
    variant up to one extra load. *)
From Verif Require Import Base.

Section Model.
Variable W : nat.

(** Where a thread is inside TryAssign. *)
Inductive tpc :=
| TIdle
| TScan (loop : nat)             (* about to test Loop < Count *)
| TProbe (loop loop2 : nat).     (* inside the inner loop *)

(** Lines 47-54; a pool byte is 0 or 255. *)
Record state := mkState { size : nat; pool : list N; pcs : nat -> tpc }.

(** Line 98: the size rounded up to a multiple of the sample. *)
Definition padded (n : nat) : nat := ((n - 1) / W + 1) * W.

(** Lines 92-113, allocation succeeding. ConcurrentIDGenerator.c 44 asserts n >= 1. *)
Definition create (n : nat) : state :=
  mkState n (repeat 0%N n ++ repeat 255%N (padded n - n)) (fun _ => TIdle).

Definition set_pc (f : nat -> tpc) (t : nat) (p : tpc) : nat -> tpc :=
  fun u => if u =? t then p else f u.

Inductive label :=
| Start (t : nat)      (* thread t calls TryAssign *)
| Step (t : nat)       (* thread t makes its next atomic access *)
| Recycle (id : nat).  (* some thread recycles id *)

Inductive event :=
| EStart (t : nat) | EGot (t id : nat) | EFail (t : nat) | ERecycled (id : nat) | ETau.

(** [None]: not possible, a failed CCAssertLog, or an access outside the pool. *)
Definition step (s : state) (l : label) : option (state * event) :=
  match l with
  | Start t => (* line 120 *)
      match pcs s t with
      | TIdle => Some (mkState (size s) (pool s) (set_pc (pcs s) t (TScan 0)), EStart t)
      | _ => None
      end
  | Step t =>
      match pcs s t with
      | TIdle => None
      | TScan loop => (* lines 133-136 *)
          if loop <? size s then
            if loop + W <=? length (pool s) then
              if forallb (fun b => (b =? 255)%N) (slice (pool s) loop W)
              then Some (mkState (size s) (pool s) (set_pc (pcs s) t (TScan (loop + W))), ETau)
              else Some (mkState (size s) (pool s) (set_pc (pcs s) t (TProbe loop loop)), ETau)
            else None
          else Some (mkState (size s) (pool s) (set_pc (pcs s) t TIdle), EFail t)
      | TProbe loop loop2 => (* lines 138-146 *)
          if loop2 <? loop + W then
            match nth_error (pool s) loop2 with
            | Some b =>
                if (b =? 0)%N
                then Some (mkState (size s) (upd (pool s) loop2 255%N) (set_pc (pcs s) t TIdle), EGot t loop2)
                else Some (mkState (size s) (upd (pool s) loop2 255%N) (set_pc (pcs s) t (TProbe loop (loop2 + 1))), ETau)
            | None => None
            end
          else Some (mkState (size s) (pool s) (set_pc (pcs s) t (TScan (loop + W))), ETau)
      end
  | Recycle id => (* lines 154-165 *)
      if id <? size s then
        match nth_error (pool s) id with
        | Some b => if (b =? 0)%N then None
                    else Some (mkState (size s) (upd (pool s) id 0%N) (pcs s), ERecycled id)
        | None => None
        end
      else None
  end.

Fixpoint run (s : state) (ls : list label) : option (state * list event) :=
  match ls with
  | [] => Some (s, [])
  | l :: t => let? (s', e) := step s l in
              let? (s'', es) := run s' t in Some (s'', e :: es)
  end.

End Model.
