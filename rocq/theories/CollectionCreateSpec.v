(** What CCCollectionCreate promises. *)
From Verif Require Import Base CollectionCreateModel.
Local Open Scope N_scope.

(** The hints a word has, without its size: 30 bits. *)
Definition has (h : N) (k : N) : bool := N.testbit h k.
Definition shared (a b : N) : Z := Z.of_nat (countb (fun k => has a (N.of_nat k) && has b (N.of_nat k))%bool (seq 0 30)).

(** The factor for the expected size: 10 for medium, 1 for small, 100 for large. *)
Definition factor (h : N) : Z :=
  match has h 31, has h 30 with
  | false, false => 10 | false, true => 1 | true, false => 100 | true, true => 0
  end%Z.

(** How often implementation [a] is registered: each successful registration adds one, each deregistration takes one. *)
Fixpoint times (n : nat) (a : nat) (cs : list call) : nat :=
  match cs with
  | [] => n
  | Register i ok :: t => times (if ((addr i =? a)%nat && ok)%bool then S n else n) a t
  | Deregister b :: t => times (if (b =? a)%nat then pred n else n) a t
  end.

Definition eligible (hint : N) (i : implementation) : Prop := has hint 6 = true -> ordered i = true.

(** [i] is the first of the best in [r]: everything eligible before it is rated below it, nothing eligible above it. *)
Definition first_best (r : registry) (hint : N) (i : implementation) : Prop :=
  exists w before after, rating i hint = Some w /\ r = before ++ i :: after /\ eligible hint i /\
    (forall j v, In j before -> eligible hint j -> rating j hint = Some v -> (v < w)%Z) /\
    (forall j v, In j after -> eligible hint j -> rating j hint = Some v -> (v <= w)%Z).

(** The ratings of a registry are [int]s above INT_MIN. *)
Definition rated (r : registry) (hint : N) : Prop :=
  forall i, In i r -> exists w, rating i hint = Some w /\ (INT_MIN < w < 2 ^ 31)%Z.
