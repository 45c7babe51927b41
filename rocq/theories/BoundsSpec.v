(** What C72 means. *)
From Verif Require Import Base AlignedModel BoundsModel.
Local Open Scope N_scope.

(** The allocation as its user sees it: a size, and the bytes written so far. *)
Record view := mkView { vsize : N; contents : N -> option N }.
Definition unwritten (n : N) : view := mkView n (fun _ => None).
Definition next (v : view) (o : op) : view :=
  match o with
  | Write d b => mkView (vsize v) (fun j => if (Z.of_N j =? d)%Z then Some b else contents v j)
  | Resize n (Some _) _ => mkView n (fun j => if (j <? vsize v) && (j <? n) then contents v j else None)
  | Resize _ None _ => v
  end.
Definition sees (s : state) (v : view) : Prop :=
  size s = vsize v /\ forall j x, j < vsize v -> contents v j = Some x -> memory s (ptr s + j) = x.

(** A block the system gives for an allocation of n bytes: it fits in the address space. *)
Definition given (b n : N) : Prop := 0 < b /\ b + n + 40 < 2 ^ 64.

(** A program that keeps to its allocation: it writes bytes inside it; the system's blocks are good. *)
Fixpoint keeps_to_it (v : view) (ops : list op) : Prop :=
  match ops with
  | [] => True
  | o :: t =>
      match o with
      | Write d b => (0 <= d < Z.of_N (vsize v))%Z /\ b < 256
      | Resize n got g => n + 40 < 2 ^ 64 /\ (forall b, got = Some b -> given b n) /\ forall x, g x < 256
      end /\ keeps_to_it (next v o) t
  end.

(** The 8 bytes after the allocation and the 8 bytes before its header, where a change is noticed, and the 24 bytes around the
    latter that the allocator needs for itself. *)
Definition guarded (s : state) (x : N) : Prop := ptr s - 24 <= x < ptr s - 16 \/ ptr s + size s <= x < ptr s + size s + 8.
Definition reserved (s : state) (x : N) : Prop := ptr s - 32 <= x < ptr s - 24 \/ ptr s - 16 <= x < ptr s.

(** Any writes, anywhere *)
Definition writes (ws : list (Z * N)) : list op := map (fun w => Write (fst w) (snd w)) ws.
