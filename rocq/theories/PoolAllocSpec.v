(** A pool of [max] equal blocks as its user sees it. *)
From Verif Require Import Base PoolAllocModel.
Local Open Scope N_scope.

(** [live]: blocks handed out and not freed. [held]: the user's own references to the pool. *)
Record view := mkView { live : list nat; held : nat }.
Definition start : view := mkView [] 1.

Definition next (v : view) (o : op) (x : out) : view :=
  match o, x with
  | Alloc _, Ptr i => mkView (i :: live v) (held v)
  | Free i, _ => mkView (remove Nat.eq_dec i (live v)) (held v)
  | Retain, _ => mkView (live v) (S (held v))
  | Release, _ => mkView (live v) (pred (held v))
  | _, _ => v
  end.

(** Users free and resize live blocks only, allocate and retain only while they hold the pool, and release
    what they hold. Sizes stay clear of the end of the address space. *)
Definition client_ok (v : view) (o : op) : Prop :=
  match o with
  | Alloc size => (0 < held v)%nat /\ size + 32 < 2 ^ 64
  | Realloc i size => In i (live v) /\ size + 32 < 2 ^ 64
  | Free i => In i (live v)
  | Retain | Release => (0 < held v)%nat
  end.

(** A new block is none of the live ones. Allocation fails exactly when the request does not fit in a block
    beside the 32 bytes of bookkeeping, or every block is live. A block is resized in place, if the size fits. *)
Definition pool_ok (bs : N) (max : nat) (v : view) (o : op) (x : out) : Prop :=
  match o with
  | Alloc size =>
      (x = Null <-> bs < size + 32 \/ length (live v) = max) /\
      (forall i, x = Ptr i -> ~ In i (live v) /\ (i < max)%nat) /\ x <> Done
  | Realloc i size => x = if bs <? size + 32 then Null else Ptr i
  | _ => x = Done
  end.

(** Along a history: as long as the user keeps the rules, each call succeeds without touching freed or foreign
    memory, and does what it should. *)
Fixpoint ok (bs : N) (max : nat) (p : pool) (v : view) (ops : list op) : Prop :=
  match ops with
  | [] => True
  | o :: t => client_ok v o ->
      exists p' x, step p o = Some (p', x) /\ pool_ok bs max v o x /\ ok bs max p' (next v o x) t
  end.

(** The final view of a history that keeps the rules. *)
Inductive reach : pool -> view -> list op -> pool -> view -> Prop :=
| reach_nil p v : reach p v [] p v
| reach_cons p v o p1 x t p2 v2 : client_ok v o -> step p o = Some (p1, x) -> reach p1 (next v o x) t p2 v2 -> reach p v (o :: t) p2 v2.
