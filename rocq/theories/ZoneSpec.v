(** A zone as its user sees it: a stack of allocations and save marks, newest first. *)
From Verif Require Import Base ZoneModel.
Local Open Scope N_scope.

(** [Live p n c]: n bytes at p, which took c bytes of the zone (padding included). [Mark p]: a save, 16 bytes at p.
    [Gap c]: c bytes left of an entry partly deallocated. *)
Inductive entry := Live (p n c : N) | Mark (p : N) | Gap (c : N).
Definition taken (e : entry) : N := match e with Live _ _ c => c | Mark _ => 16 | Gap c => c end.

(** Deallocating n bytes takes them from the newest entries; what is cut is gone. *)
Fixpoint drop (n : N) (st : list entry) : list entry :=
  match st with
  | [] => []
  | e :: t => if n =? 0 then st else if taken e <=? n then drop (n - taken e) t else Gap (taken e - n) :: t
  end.

(** Restoring goes back to just before the newest save; with none it does nothing. *)
Fixpoint before_mark (st : list entry) : option (list entry) :=
  match st with [] => None | Mark _ :: t => Some t | _ :: t => before_mark t end.

Definition next (st : list entry) (o : op) (x : out) : list entry :=
  match o, x with
  | Alloc n _, Ptr p c => Live p n c :: st
  | AlignedAlloc n _ _, Ptr p c => Live p n c :: st
  | Save _, Ptr p _ => Mark p :: st
  | Dealloc n, _ => drop n st
  | Restore, _ => match before_mark st with Some t => t | None => st end
  | _, _ => st
  end.

(** The bytes an entry gives its user. *)
Definition region (e : entry) : option (N * N) :=
  match e with Live p n _ => Some (p, p + n) | Mark p => Some (p, p + 16) | Gap _ => None end.
Definition apart (e f : entry) : Prop :=
  forall a b c d, region e = Some (a, b) -> region f = Some (c, d) -> b <= c \/ d <= a.

(** All live memory is pairwise disjoint and inside the used part of a block the zone owns. *)
Definition memory_ok (z : zone) (st : list entry) : Prop :=
  ForallOrdPairs apart st /\
  forall e a b, In e st -> region e = Some (a, b) ->
    exists k, In k (blocks z) /\ base k <= a /\ b <= base k + offset k /\ offset k <= blockSize z.

(** The system gives a block that lies below 2^63 and overlaps none the zone has. *)
Definition fresh (z : zone) (got : option N) : Prop :=
  forall a, got = Some a -> a + blockSize z < 2 ^ 63 /\
    forall k, In k (blocks z) -> a + blockSize z <= base k \/ base k + blockSize z <= a.

(** The assertions, alignments that are powers of two, and memory for a save. *)
Definition client_ok (z : zone) (o : op) : Prop :=
  match o with
  | Alloc n got => 0 < n <= blockSize z /\ fresh z got
  | AlignedAlloc n a got => 0 < n /\ n + a <= blockSize z /\ (exists k, k < 64 /\ a = 2 ^ k) /\ fresh z got
  | Save got => got <> None /\ fresh z got
  | Dealloc _ | Restore => True
  end.

Definition result_ok (o : op) (x : out) : Prop :=
  match o with
  | Alloc n got => (exists p, x = Ptr p n) \/ x = Null /\ got = None
  | AlignedAlloc n a got => (exists p c, x = Ptr p c /\ p mod a = 0 /\ n <= c <= n + a) \/ x = Null /\ got = None
  | Save _ => exists p, x = Ptr p 16
  | Dealloc _ | Restore => x = Done
  end.

Fixpoint ok (z : zone) (st : list entry) (ops : list op) : Prop :=
  match ops with
  | [] => True
  | o :: t => client_ok z o ->
      exists z' x, step z o = Some (z', x) /\ result_ok o x /\ memory_ok z' (next st o x) /\ ok z' (next st o x) t
  end.

(** [ops] takes the zone from z, seen as st, to z', seen as st', with the rules kept. *)
Inductive reach : zone -> list entry -> list op -> zone -> list entry -> Prop :=
| reach_nil z st : reach z st [] z st
| reach_cons z st o t z1 x z' st' : client_ok z o -> step z o = Some (z1, x) -> reach z1 (next st o x) t z' st' ->
    reach z st (o :: t) z' st'.

(** Allocations and properly nested saves and restores: [d] saves are still to be restored. *)
Fixpoint balanced (d : nat) (ops : list op) : Prop :=
  match ops with
  | [] => d = 0%nat
  | Dealloc _ :: _ => False
  | Save _ :: t => balanced (S d) t
  | Restore :: t => match d with S d' => balanced d' t | O => False end
  | _ :: t => balanced d t
  end.
