(** Proofs for C94. *)

From Coq Require Import Bool.
From Verif Require Import Base FloatModel FloatSpec FloatProofs VecUlpsModel VecUlpsSpec.
Local Open Scope N_scope.

Lemma sens : sensible float32.
Proof. unfold sensible, float32; cbn [mw ew]; lia. Qed.

Lemma sign_of a : word float32 a -> signbit float32 a = (2147483648 <=? a).
Proof. intros W. rewrite (signbit_ok float32 sens (2 ^ 23) (2 ^ 8)) by (reflexivity || exact W). reflexivity. Qed.

Lemma nan_of a : not_a_number float32 a <-> 2139095040 < a mod 2147483648.
Proof.
  rewrite <- (is_nan_ok float32 sens (2 ^ 23) (2 ^ 8)) by reflexivity.
  unfold is_nan, magnitude_bits. change ((2 ^ ew float32 - 1) * 2 ^ mw float32) with 2139095040.
  change (2 ^ (ew float32 + mw float32)) with 2147483648. apply N.ltb_lt.
Qed.

Lemma is_nan_of a : is_nan float32 a = (2139095040 <? a mod 2147483648).
Proof. reflexivity. Qed.

Lemma key_of a : word float32 a ->
  key a = if 2147483648 <=? a then (- Z.of_N (a mod 2147483648))%Z else Z.of_N (a mod 2147483648).
Proof. intros W. unfold key. rewrite (sign_of a W). reflexivity. Qed.

Lemma word_of a : word float32 a <-> a < 4294967296.
Proof. reflexivity. Qed.

Lemma positive_of a : positive a <-> a <= 2139095040.
Proof.
  unfold positive. rewrite nan_of, word_of. unfold negative.
  change (2 ^ (ew float32 + mw float32)) with 2147483648. split.
  - intros (A & B & C). assert (D : a < 2147483648) by lia. rewrite N.mod_small in C by exact D. lia.
  - intros A. rewrite N.mod_small by lia. lia.
Qed.

Lemma high_mod a : 2147483648 <= a -> a < 4294967296 -> a mod 2147483648 = a - 2147483648.
Proof.
  intros A B. replace a with (a - 2147483648 + 1 * 2147483648) at 1 by lia.
  rewrite N.mod_add by lia. apply N.mod_small; lia.
Qed.

Lemma below_of a : below_zero a <-> 2147483648 <= a <= 4286578688.
Proof.
  unfold below_zero. rewrite nan_of, word_of. unfold negative.
  change (2 ^ (ew float32 + mw float32)) with 2147483648. split.
  - intros (A & B & C). rewrite high_mod in C by lia. lia.
  - intros A. rewrite high_mod by lia. lia.
Qed.

Lemma less_pos a b : a <= 2139095040 -> b <= 2139095040 -> float_less a b = (a <? b).
Proof.
  intros A B. unfold float_less. rewrite !is_nan_of, !key_of by (apply word_of; lia).
  rewrite !N.mod_small by lia.
  destruct (2147483648 <=? a) eqn:E; [lia|]. destruct (2147483648 <=? b) eqn:E2; [lia|].
  destruct (2139095040 <? a) eqn:E3; [lia|]. destruct (2139095040 <? b) eqn:E4; [lia|].
  cbn [negb andb]. lia.
Qed.

Lemma less_neg a b : 2147483648 <= a <= 4286578688 -> 2147483648 <= b <= 4286578688 -> float_less a b = (b <? a).
Proof.
  intros A B. unfold float_less. rewrite !is_nan_of, !key_of by (apply word_of; lia).
  rewrite !high_mod by lia.
  destruct (2147483648 <=? a) eqn:E; [|lia]. destruct (2147483648 <=? b) eqn:E2; [|lia].
  destruct (2139095040 <? a - 2147483648) eqn:E3; [lia|]. destruct (2139095040 <? b - 2147483648) eqn:E4; [lia|].
  cbn [negb andb]. lia.
Qed.

(** Nothing that is not negative is below a negative number or a NaN. *)
Lemma less_high m r : m < 2147483648 -> 2147483648 <= r < 4294967296 -> float_less m r = false.
Proof.
  intros A B. unfold float_less. rewrite !is_nan_of, !key_of by (apply word_of; lia).
  rewrite (high_mod r) by lia. rewrite (N.mod_small m) by lia.
  destruct (2147483648 <=? m) eqn:E; [lia|]. destruct (2147483648 <=? r) eqn:E2; [|lia].
  apply andb_false_intro2. lia.
Qed.

Lemma less_nan_r m r : is_nan float32 r = true -> float_less m r = false.
Proof. intros A. unfold float_less. rewrite A. rewrite andb_false_r. reflexivity. Qed.

Lemma less_nan_l m r : is_nan float32 m = true -> float_less m r = false.
Proof. intros A. unfold float_less. rewrite A. reflexivity. Qed.

Lemma sub_ge a b : b <= a -> a < 4294967296 -> sub_epi32 a b = a - b.
Proof.
  intros A B. unfold sub_epi32. change (2 ^ 32) with 4294967296.
  replace (a + 4294967296 - b) with (a - b + 1 * 4294967296) by lia.
  rewrite N.mod_add by lia. apply N.mod_small; lia.
Qed.

Lemma sub_lt a b : a < b -> b < 4294967296 -> sub_epi32 a b = a + 4294967296 - b.
Proof. intros A B. unfold sub_epi32. change (2 ^ 32) with 4294967296. apply N.mod_small; lia. Qed.

Lemma lane_positive a b m : positive a -> positive b -> allowance m -> lane_ulps a b m = equal_ulps a b m.
Proof.
  rewrite !positive_of. intros A B M. unfold allowance in M. change (2 ^ 31) with 2147483648 in M.
  unfold equal_ulps. rewrite !sign_of by (apply word_of; lia).
  destruct (2147483648 <=? a) eqn:E1; [lia|]. destruct (2147483648 <=? b) eqn:E2; [lia|]. cbn [eqb negb].
  unfold lane_ulps.
  assert (D : sub_epi32 (max_ps a b) (min_ps a b) = get_ulps a b).
  { unfold max_ps, min_ps, get_ulps. rewrite !less_pos by assumption.
    destruct (b <? a) eqn:E3; destruct (a <? b) eqn:E4; try lia; rewrite sub_ge; lia. }
  rewrite D. assert (G : get_ulps a b <= 2139095040) by (unfold get_ulps; destruct (b <? a); lia).
  unfold max_ps. destruct (m <=? 2139095040) eqn:E5.
  - rewrite less_pos by lia. destruct (m <? get_ulps a b) eqn:E6; lia.
  - rewrite less_nan_l; [lia|]. rewrite is_nan_of, N.mod_small by lia. lia.
Qed.

Lemma lane_negative a b m : below_zero a -> below_zero b -> allowance m -> lane_ulps a b m = true.
Proof.
  rewrite !below_of. intros A B M. unfold allowance in M. change (2 ^ 31) with 2147483648 in M.
  unfold lane_ulps. unfold max_ps at 2, min_ps. rewrite !less_neg by assumption.
  apply N.eqb_eq.
  destruct (a <? b) eqn:E1; destruct (b <? a) eqn:E2; try lia.
  - unfold max_ps. rewrite sub_lt by lia. rewrite less_high by lia. reflexivity.
  - unfold max_ps. rewrite sub_lt by lia. rewrite less_high by lia. reflexivity.
  - unfold max_ps. rewrite sub_ge by lia. replace (b - b) with 0 by lia.
    destruct (m <=? 2139095040) eqn:E5.
    + rewrite less_pos by lia. destruct (m <? 0) eqn:E6; lia.
    + rewrite less_nan_l; [lia|]. rewrite is_nan_of, N.mod_small by lia. lia.
Qed.

Lemma lane_nan a b m : not_a_number float32 a \/ not_a_number float32 b -> b < 4294967296 -> allowance m ->
  lane_ulps a b m = true.
Proof.
  intros H B M. unfold allowance in M. change (2 ^ 31) with 2147483648 in M.
  assert (L : float_less a b = false /\ float_less b a = false).
  { rewrite !nan_of in H. destruct H as [H|H].
    - split; [apply less_nan_l|apply less_nan_r]; rewrite is_nan_of; lia.
    - split; [apply less_nan_r|apply less_nan_l]; rewrite is_nan_of; lia. }
  destruct L as [L1 L2]. unfold lane_ulps. unfold max_ps at 2, min_ps. rewrite L1, L2.
  rewrite sub_ge by lia. replace (b - b) with 0 by lia. unfold max_ps. apply N.eqb_eq.
  destruct (m <=? 2139095040) eqn:E5.
  - rewrite less_pos by lia. destruct (m <? 0) eqn:E6; lia.
  - rewrite less_nan_l; [lia|]. rewrite is_nan_of, N.mod_small by lia. lia.
Qed.

Lemma signs_of x : signs_differ x -> xorb (signbit float32 (la x)) (signbit float32 (lb x)) = true.
Proof.
  intros (A & B & C). unfold negative in C. change (2 ^ (ew float32 + mw float32)) with 2147483648 in C.
  rewrite !sign_of by assumption.
  destruct (2147483648 <=? la x) eqn:E1; destruct (2147483648 <=? lb x) eqn:E2; cbn [xorb]; try reflexivity; exfalso; apply C; lia.
Qed.
