(** Model of CommonC/ConcurrentIndexBuffer.c on top of the ID generator model and a single
    atomic slot (ConcurrentBuffer.c 80-90), any number of threads interleaved at every atomic
    access under sequential consistency. *)
From Verif Require Import Base.
From Verif Require IDGeneratorModel.

Section Model.
Variable W : nat.

(** Lines 34-37: the pool, the buffer's pointer (0 is NULL, otherwise index + 1), and for each
    thread inside Stage the index it still has to recycle. *)
Record state := mkState { gen : IDGeneratorModel.state; slot : nat; staging : nat -> option nat }.

(** Lines 45-63, allocations succeeding; the count is neither 0 nor SIZE_MAX. *)
Definition create (n : nat) : state := mkState (IDGeneratorModel.create W n) 0 (fun _ => None).

Definition set_st (f : nat -> option nat) (t : nat) (p : option nat) : nat -> option nat :=
  fun u => if u =? t then p else f u.

Inductive label :=
| Acquire (t : nat)        (* WriteAcquire: begin an attempt to assign an index *)
| AcquireStep (t : nat)    (* its next atomic access; a failed attempt is begun again *)
| Stage (t i : nat)        (* the swap of Stage *)
| StageRecycle (t : nat)   (* its recycle *)
| ReadAcquire (t : nat)
| Discard (i : nat).

Inductive event :=
| EAcquired (t i : nat)    (* WriteAcquire returned i *)
| EStaged (i : nat)
| EReturned (i : nat)      (* Stage gave the unread index back to the pool *)
| ERead (r : option nat)
| EDiscarded (i : nat)
| ETau.

Definition step (s : state) (l : label) : option (state * event) :=
  match l with
  | Acquire t => (* lines 72-77 *)
      match IDGeneratorModel.step W (gen s) (IDGeneratorModel.Start t) with
      | Some (g, _) => Some (mkState g (slot s) (staging s), ETau)
      | None => None
      end
  | AcquireStep t =>
      match IDGeneratorModel.step W (gen s) (IDGeneratorModel.Step t) with
      | Some (g, IDGeneratorModel.EGot u i) => Some (mkState g (slot s) (staging s), EAcquired u i)
      | Some (g, _) => Some (mkState g (slot s) (staging s), ETau)
      | None => None
      end
  | Stage t i => (* lines 93-99 *)
      match staging s t with
      | None =>
          Some (mkState (gen s) (i + 1)
                        (if slot s =? 0 then staging s else set_st (staging s) t (Some (slot s - 1))),
                EStaged i)
      | Some _ => None
      end
  | StageRecycle t => (* line 99 *)
      match staging s t with
      | Some j =>
          match IDGeneratorModel.step W (gen s) (IDGeneratorModel.Recycle j) with
          | Some (g, _) => Some (mkState g (slot s) (set_st (staging s) t None), EReturned j)
          | None => None
          end
      | None => None
      end
  | ReadAcquire t => (* lines 79-91 *)
      Some (mkState (gen s) 0 (staging s), ERead (if slot s =? 0 then None else Some (slot s - 1)))
  | Discard i => (* lines 102-107 *)
      match IDGeneratorModel.step W (gen s) (IDGeneratorModel.Recycle i) with
      | Some (g, _) => Some (mkState g (slot s) (staging s), EDiscarded i)
      | None => None
      end
  end.

Fixpoint run (s : state) (ls : list label) : option (state * list event) :=
  match ls with
  | [] => Some (s, [])
  | l :: t => let? (s', e) := step s l in
              let? (s'', es) := run s' t in Some (s'', e :: es)
  end.

End Model.
