(** General helpers shared by the models: no CommonC code is modelled here. *)
From Coq Require Export List Arith ZArith NArith Bool Lia.
From Coq Require Export ZifyBool ZifyNat ZifyN.
Export ListNotations.
Open Scope list_scope.

(** Sequencing of computations that may fail. *)
Notation "'let?' x := e 'in' k" :=
  (match e with Some x => k | None => None end)
  (at level 200, x pattern, e at level 100, k at level 200).

(** [upd l i x]: list [l] with position [i] replaced by [x] (unchanged when out of range). *)
Fixpoint upd {A} (l : list A) (i : nat) (x : A) : list A :=
  match l, i with
  | [], _ => []
  | _ :: t, O => x :: t
  | h :: t, S j => h :: upd t j x
  end.

(** [insert_at l i xs]: list [l] with [xs] inserted before position [i]. *)
Definition insert_at {A} (l : list A) (i : nat) (xs : list A) : list A :=
  firstn i l ++ xs ++ skipn i l.

(** [remove_at l i n]: list [l] without the [n] elements from position [i]. *)
Definition remove_at {A} (l : list A) (i n : nat) : list A :=
  firstn i l ++ skipn (i + n) l.

(** [overwrite l i xs]: list [l] with [xs] written over the elements from position [i]. *)
Definition overwrite {A} (l : list A) (i : nat) (xs : list A) : list A :=
  firstn i l ++ xs ++ skipn (i + length xs) l.

(** [slice l i n]: the [n] elements of [l] from position [i]. *)
Definition slice {A} (l : list A) (i n : nat) : list A := firstn n (skipn i l).

Lemma upd_length {A} (l : list A) i x : length (upd l i x) = length l.
Proof. revert i; induction l as [|h t IH]; intros [|i]; cbn; auto. Qed.

Lemma nth_error_upd_eq {A} (l : list A) i x :
  i < length l -> nth_error (upd l i x) i = Some x.
Proof.
  revert i; induction l as [|h t IH]; intros [|i] H; cbn in *; try lia; auto.
  apply IH; lia.
Qed.

Lemma nth_error_upd_ne {A} (l : list A) i j x :
  i <> j -> nth_error (upd l i x) j = nth_error l j.
Proof.
  revert i j; induction l as [|h t IH]; intros [|i] [|j] H; cbn; auto; try lia.
Qed.

Lemma nth_upd_eq {A} (l : list A) i x d :
  i < length l -> nth i (upd l i x) d = x.
Proof.
  revert i; induction l as [|h t IH]; intros [|i] H; cbn in *; try lia; auto.
  apply IH; lia.
Qed.

Lemma nth_upd_ne {A} (l : list A) i j x d :
  i <> j -> nth j (upd l i x) d = nth j l d.
Proof.
  revert i j; induction l as [|h t IH]; intros [|i] [|j] H; cbn; auto; try lia.
Qed.

Lemma upd_overwrite {A} (l : list A) i x :
  i < length l -> upd l i x = overwrite l i [x].
Proof.
  unfold overwrite. revert i; induction l as [|h t IH]; intros [|i] H; cbn in *; try lia; auto.
  f_equal. rewrite IH by lia. cbn. reflexivity.
Qed.

Lemma list_ext_nth_error {A} (l1 l2 : list A) :
  (forall i, nth_error l1 i = nth_error l2 i) -> l1 = l2.
Proof.
  revert l2; induction l1 as [|a l1 IH]; intros [|b l2] H; auto.
  - specialize (H 0); discriminate.
  - specialize (H 0); discriminate.
  - f_equal.
    + specialize (H 0); cbn in H; congruence.
    + apply IH; intros i; apply (H (S i)).
Qed.

Lemma nth_error_firstn {A} (l : list A) n i :
  nth_error (firstn n l) i = if i <? n then nth_error l i else None.
Proof.
  revert n i; induction l as [|a l IH]; intros [|n] [|i]; cbn [firstn nth_error]; auto.
  - destruct (S i <? S n); auto.
  - rewrite IH. reflexivity.
Qed.

Lemma nth_error_skipn {A} (l : list A) n i :
  nth_error (skipn n l) i = nth_error l (n + i).
Proof.
  revert n; induction l as [|a l IH]; intros [|n]; cbn; auto.
  destruct i; auto.
Qed.

Lemma nth_error_app {A} (l1 l2 : list A) i :
  nth_error (l1 ++ l2) i =
    if i <? length l1 then nth_error l1 i else nth_error l2 (i - length l1).
Proof.
  destruct (Nat.ltb_spec i (length l1)) as [H|H].
  - apply nth_error_app1; auto.
  - apply nth_error_app2; auto.
Qed.

Lemma overwrite_length {A} (l : list A) i xs :
  i + length xs <= length l -> length (overwrite l i xs) = length l.
Proof.
  intros H. unfold overwrite. rewrite !app_length, firstn_length, skipn_length. lia.
Qed.

Lemma insert_at_length {A} (l : list A) i xs :
  length (insert_at l i xs) = length l + length xs.
Proof.
  unfold insert_at. rewrite !app_length, firstn_length, skipn_length. lia.
Qed.

Lemma remove_at_length {A} (l : list A) i n :
  i + n <= length l -> length (remove_at l i n) = length l - n.
Proof.
  intros H. unfold remove_at. rewrite !app_length, firstn_length, skipn_length. lia.
Qed.

Lemma slice_length {A} (l : list A) i n :
  i + n <= length l -> length (slice l i n) = n.
Proof.
  intros H. unfold slice. rewrite firstn_length, skipn_length. lia.
Qed.

Lemma nth_error_overwrite {A} (l : list A) i xs j :
  i + length xs <= length l ->
  nth_error (overwrite l i xs) j =
    if (i <=? j) && (j <? i + length xs) then nth_error xs (j - i) else nth_error l j.
Proof.
  intros H. unfold overwrite.
  rewrite !nth_error_app, nth_error_firstn, nth_error_skipn, firstn_length.
  rewrite Nat.min_l by lia.
  destruct (Nat.ltb_spec j i); destruct (Nat.leb_spec i j); try lia; cbn [andb].
  - reflexivity.
  - destruct (Nat.ltb_spec (j - i) (length xs)); destruct (Nat.ltb_spec j (i + length xs));
      try lia; auto.
    f_equal; lia.
Qed.

Lemma nth_error_slice {A} (l : list A) i n j :
  nth_error (slice l i n) j = if j <? n then nth_error l (i + j) else None.
Proof.
  unfold slice. rewrite nth_error_firstn, nth_error_skipn. reflexivity.
Qed.

(** Sum-free counting of a boolean predicate. *)
Definition countb {A} (f : A -> bool) (l : list A) : nat := length (filter f l).

Lemma countb_app {A} (f : A -> bool) l1 l2 : countb f (l1 ++ l2) = countb f l1 + countb f l2.
Proof. unfold countb. rewrite filter_app, app_length. reflexivity. Qed.

Lemma firstn_app_exact {A} (l1 l2 : list A) : firstn (length l1) (l1 ++ l2) = l1.
Proof. rewrite firstn_app, firstn_all, Nat.sub_diag. cbn. apply app_nil_r. Qed.

Lemma skipn_app_exact {A} (l1 l2 : list A) : skipn (length l1) (l1 ++ l2) = l2.
Proof. rewrite skipn_app, skipn_all, Nat.sub_diag. reflexivity. Qed.

Lemma nth_error_Some_lt {A} (l : list A) i x : nth_error l i = Some x -> i < length l.
Proof. intros H. apply nth_error_Some. congruence. Qed.

Lemma nth_error_lt_Some {A} (l : list A) i : i < length l -> exists x, nth_error l i = Some x.
Proof.
  intros H. destruct (nth_error l i) eqn:E; eauto. apply nth_error_None in E. lia.
Qed.

Lemma skipn_skipn {A} n : forall m (l : list A), skipn n (skipn m l) = skipn (n + m) l.
Proof.
  induction m as [|m IH]; intros l.
  - rewrite Nat.add_0_r. reflexivity.
  - destruct l as [|x l]; [rewrite !skipn_nil; reflexivity|].
    rewrite Nat.add_succ_r. cbn [skipn]. apply IH.
Qed.

Lemma NoDup_snoc {A} (l : list A) a : NoDup l -> ~ In a l -> NoDup (l ++ [a]).
Proof.
  intros Hn Ha. apply (NoDup_Add (a := a) (l := l)); [|split; auto].
  rewrite <- (app_nil_r l) at 1. apply Add_app.
Qed.

Lemma remove_NoDup {A} (dec : forall x y : A, {x = y} + {x <> y}) x l : NoDup l -> NoDup (remove dec x l).
Proof.
  induction 1 as [|y l Hy Hn IH]; cbn [remove]; [constructor|].
  destruct (dec x y); auto. constructor; auto. intros H. apply in_remove in H. tauto.
Qed.

Lemma remove_length_NoDup {A} (dec : forall x y : A, {x = y} + {x <> y}) x l :
  NoDup l -> In x l -> length l = S (length (remove dec x l)).
Proof.
  induction 1 as [|y l Hy Hn IH]; cbn [remove In]; [tauto|].
  intros [->|H].
  - destruct (dec x x); [|congruence]. rewrite notin_remove by auto. reflexivity.
  - destruct (dec x y) as [->|]; [contradiction|]. cbn [length]. rewrite IH; auto.
Qed.

Lemma in_remove_iff {A} (dec : forall x y : A, {x = y} + {x <> y}) x y l :
  In y (remove dec x l) <-> In y l /\ y <> x.
Proof.
  split; [apply in_remove|]. intros [? ?]. apply in_in_remove; auto.
Qed.
