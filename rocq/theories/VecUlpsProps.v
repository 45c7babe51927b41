(** C94: the vectorized comparison within a number of representable values
    against the comparison of single numbers (CCFloatEqualUlps, C82). *)

From Coq Require Import Bool.
From Verif Require Import Base FloatModel FloatSpec VecUlpsModel VecUlpsSpec VecUlpsProofs.
Local Open Scope N_scope.

(** The full property is [forall l, vector_ulps l = plain_ulps l] for words
    and allowances; it is false (below).  It holds when no number is negative
    or NaN. *)
Theorem c94_positive_partial : forall l, l <> [] -> Forall positive_lane l -> vector_ulps l = plain_ulps l.
Proof.
  intros l N H. unfold vector_ulps, plain_ulps.
  assert (E : forallb (fun x => xorb (signbit float32 (la x)) (signbit float32 (lb x))) l = false).
  { destruct l as [|x l]; [congruence|]. inversion H as [|y t (A & B & _) T]; subst.
    apply positive_of in A. apply positive_of in B. cbn [forallb].
    rewrite !sign_of by (apply word_of; lia).
    destruct (2147483648 <=? la x) eqn:E1; [lia|]. destruct (2147483648 <=? lb x) eqn:E2; [lia|]. reflexivity. }
  rewrite E. apply map_ext_in. intros x I. rewrite Forall_forall in H. destruct (H x I) as (A & B & M).
  apply lane_positive; assumption.
Qed.

Print Assumptions c94_positive_partial.

(** It holds when the signs differ in every lane. *)
Theorem c94_signs_partial : forall l, Forall signs_differ l -> vector_ulps l = plain_ulps l.
Proof.
  intros l H. unfold vector_ulps, plain_ulps. rewrite Forall_forall in H.
  assert (E : forallb (fun x => xorb (signbit float32 (la x)) (signbit float32 (lb x))) l = true).
  { apply forallb_forall. intros x I. apply signs_of, H, I. }
  rewrite E. apply map_ext_in. intros x I. pose proof (signs_of x (H x I)) as S.
  unfold equal_ulps. destruct (signbit float32 (la x)), (signbit float32 (lb x)); try discriminate S; reflexivity.
Qed.

Print Assumptions c94_signs_partial.

(** Two negative numbers are equal whatever they are, whatever the other lanes
    and whatever the allowance; so -1 and -2 are with allowance 0. *)
Theorem c94_negative_refuted :
  (forall l x k, nth_error l k = Some x -> below_zero (la x) -> below_zero (lb x) -> allowance (lm x) ->
    nth_error (vector_ulps l) k = Some true)
  /\ exists x, below_zero (la x) /\ below_zero (lb x) /\ allowance (lm x)
    /\ plain_ulps [x; x] = [false; false].
Proof.
  split.
  - intros l x k K A B M. unfold vector_ulps.
    assert (E : forallb (fun x => xorb (signbit float32 (la x)) (signbit float32 (lb x))) l = false).
    { destruct (forallb _ l) eqn:E; [|reflexivity]. rewrite forallb_forall in E.
      specialize (E x (nth_error_In _ _ K)). apply below_of in A. apply below_of in B.
      rewrite !sign_of in E by (apply word_of; lia).
      destruct (2147483648 <=? la x) eqn:E1; [|lia]. destruct (2147483648 <=? lb x) eqn:E2; [|lia]. discriminate E. }
    rewrite E, (map_nth_error _ _ _ K). f_equal. apply lane_negative; assumption.
  - exists (mkLane 0xbf800000 0xc0000000 0). cbn [la lb lm]. rewrite !below_of. unfold allowance.
    repeat split; try lia.
Qed.

Print Assumptions c94_negative_refuted.

(** A NaN is equal to anything of the same sign (or any sign, when another
    lane's signs agree); NaN and 1 are with allowance 0. *)
Theorem c94_nan_refuted :
  (forall l x y k, nth_error l k = Some x -> In y l -> (negative float32 (la y) <-> negative float32 (lb y)) ->
    word float32 (la y) -> word float32 (lb y) ->
    not_a_number float32 (la x) \/ not_a_number float32 (lb x) -> word float32 (lb x) -> allowance (lm x) ->
    nth_error (vector_ulps l) k = Some true)
  /\ exists x, not_a_number float32 (la x) /\ positive (lb x) /\ allowance (lm x)
    /\ plain_ulps [x; x] = [false; false].
Proof.
  split.
  - intros l x y k K I S WA WB NA W M. unfold vector_ulps.
    assert (E : forallb (fun x => xorb (signbit float32 (la x)) (signbit float32 (lb x))) l = false).
    { destruct (forallb _ l) eqn:E; [|reflexivity]. rewrite forallb_forall in E.
      specialize (E y I). rewrite !sign_of in E by assumption.
      unfold negative in S. change (2 ^ (ew float32 + mw float32)) with 2147483648 in S.
      destruct (2147483648 <=? la y) eqn:E1; destruct (2147483648 <=? lb y) eqn:E2; cbn [xorb] in E; lia. }
    rewrite E, (map_nth_error _ _ _ K). f_equal. apply lane_nan; assumption.
  - exists (mkLane 0x7fc00000 0x3f800000 0). cbn [la lb lm]. rewrite positive_of, nan_of. unfold allowance.
    repeat split; try lia.
Qed.

Print Assumptions c94_nan_refuted.

(** Whether 1 and -1 are equal depends on the other lane: with signs that
    differ there they are not, with signs that agree they are. *)
Theorem c94_mixed_refuted :
  let x := mkLane 0x3f800000 0xbf800000 0 in let y := mkLane 0x3f800000 0x3f800000 0 in
  vector_ulps [x; x] = [false; false] /\ vector_ulps [x; y] = [true; true]
  /\ plain_ulps [x; y] = [false; true].
Proof. vm_compute. repeat split. Qed.

Print Assumptions c94_mixed_refuted.

(** 1 and the fourth number above it, 2 and infinity, the least number and 0,
    with allowances 4, 4 and 1. *)
Example positive_case :
  let l := [mkLane 0x3f800000 0x3f800004 4; mkLane 0x40000000 0x7f800000 4; mkLane 1 0 1] in
  Forall positive_lane l /\ vector_ulps l = [true; false; true].
Proof.
  split; [|reflexivity].
  repeat constructor; cbn [la lb lm]; try (apply positive_of; lia); unfold allowance; lia.
Qed.

(** The two zeros, and 1 and -2. *)
Example signs_case :
  let l := [mkLane 0 0x80000000 0; mkLane 0x3f800000 0xc0000000 9] in
  Forall signs_differ l /\ vector_ulps l = [true; false].
Proof.
  split; [|reflexivity].
  repeat constructor; cbn [la lb lm]; try (apply word_of; lia);
    unfold negative; change (2 ^ (ew float32 + mw float32)) with 2147483648; lia.
Qed.
