(** Proofs for C82 and C83. *)
From Verif Require Import Base FloatModel FloatSpec.
Local Open Scope Z_scope.

Section F.
Variable F : format.
Hypothesis SF : sensible F.
Variables P Q : N.
Hypothesis EP : (2 ^ mw F = P)%N.
Hypothesis EQ : (2 ^ ew F = Q)%N.

Lemma PQ : (2 ^ (ew F + mw F) = Q * P)%N.
Proof. rewrite N.pow_add_r. congruence. Qed.
Lemma PQ2 : (2 ^ (1 + ew F + mw F) = 2 * (Q * P))%N.
Proof. replace (1 + ew F + mw F)%N with (1 + (ew F + mw F))%N by lia. rewrite N.pow_add_r. now rewrite PQ. Qed.
Lemma P2 : (2 <= P)%N.
Proof. destruct SF as [H _]. rewrite <- EP. change 2%N with (2 ^ 1)%N at 1. apply N.pow_le_mono_r; [discriminate|exact H]. Qed.
Lemma Q4 : (4 <= Q)%N.
Proof. destruct SF as [_ H]. rewrite <- EQ. change 4%N with (2 ^ 2)%N at 1. apply N.pow_le_mono_r; [discriminate|exact H]. Qed.
Lemma PZ : 2 ^ Z.of_N (mw F) = Z.of_N P.
Proof. rewrite <- EP, N2Z.inj_pow. reflexivity. Qed.

(** The bits without the sign. *)
Definition magn (a : N) : N := (a mod (Q * P))%N.
Lemma magn_lt a : (magn a < Q * P)%N.
Proof. apply N.mod_lt. pose proof P2. pose proof Q4. nia. Qed.
Lemma magn_div a : (magn a / P)%N = exponent F a.
Proof.
  pose proof P2. pose proof Q4. unfold magn, exponent. rewrite ?EP, ?EQ. rewrite (N.mul_comm Q P), N.mod_mul_r by lia.
  rewrite N.mul_comm, N.div_add, N.div_small by (try lia; apply N.mod_lt; lia). reflexivity.
Qed.
Lemma magn_mod a : (magn a mod P)%N = mantissa F a.
Proof.
  pose proof P2. pose proof Q4. unfold magn, mantissa. rewrite ?EP, ?EQ. rewrite (N.mul_comm Q P), N.mod_mul_r by lia.
  rewrite N.mul_comm, N.mod_add, N.mod_mod by lia. reflexivity.
Qed.
Lemma magn_split a : magn a = (exponent F a * P + mantissa F a)%N.
Proof. pose proof P2. rewrite <- magn_div, <- magn_mod, N.mul_comm. apply N.div_mod. lia. Qed.
Lemma mantissa_lt a : (mantissa F a < P)%N.
Proof. pose proof P2. unfold mantissa. rewrite EP. apply N.mod_lt. lia. Qed.
Lemma exponent_lt a : (exponent F a < Q)%N.
Proof. pose proof Q4. unfold exponent. rewrite EQ. apply N.mod_lt. lia. Qed.
Lemma magn_small m : (m < Q * P)%N -> magn m = m.
Proof. apply N.mod_small. Qed.
Lemma magn_idem a : magn (magn a) = magn a.
Proof. apply magn_small, magn_lt. Qed.
Lemma exponent_magn a : exponent F (magn a) = exponent F a.
Proof. now rewrite <- magn_div, magn_idem, magn_div. Qed.
Lemma mantissa_magn a : mantissa F (magn a) = mantissa F a.
Proof. now rewrite <- magn_mod, magn_idem, magn_mod. Qed.
Lemma absolute_magn a : absolute F (magn a) = absolute F a.
Proof. unfold absolute. now rewrite exponent_magn, mantissa_magn. Qed.

Lemma finite_magn a : finite F a <-> (magn a < (Q - 1) * P)%N.
Proof.
  pose proof P2. pose proof Q4. pose proof (mantissa_lt a). rewrite (magn_split a). unfold finite. rewrite ?EQ. split; nia.
Qed.

Lemma word_sign a : word F a -> if (2 ^ (ew F + mw F) <=? a)%N then a = (magn a + Q * P)%N else a = magn a.
Proof.
  unfold word. rewrite PQ, PQ2. intros H. unfold magn. destruct (N.leb_spec (Q * P) a) as [L|L].
  - rewrite (N.div_mod a (Q * P)) at 1 by (pose proof P2; pose proof Q4; nia). assert (E : (a / (Q * P) = 1)%N).
    { apply N.le_antisymm; [|apply N.div_le_lower_bound; [pose proof P2; pose proof Q4; nia|lia]]. assert (a / (Q * P) < 2)%N by (apply N.div_lt_upper_bound; [pose proof P2; pose proof Q4; nia|lia]). lia. }
    rewrite E. lia.
  - now rewrite N.mod_small.
Qed.

(** The values rise with the bits. *)
Lemma absolute_step m : (m + 1 < Q * P)%N -> absolute F m < absolute F (m + 1).
Proof.
  pose proof P2 as HP. intros H. unfold absolute. rewrite <- !magn_div, <- !magn_mod, (magn_small m), (magn_small (m + 1)), PZ by lia.
  assert (D : (m = P * (m / P) + m mod P)%N) by (apply N.div_mod; lia). assert (L : (m mod P < P)%N) by (apply N.mod_lt; lia).
  set (e := (m / P)%N) in *. set (f := (m mod P)%N) in *. clearbody e f. clear H EP EQ SF.
  assert (Pe : (e = 0)%N \/ exists t, 0 < t /\ 2 ^ (Z.of_N e - 1) = t /\ 2 ^ Z.of_N e = 2 * t).
  { destruct (N.eq_dec e 0) as [|He]; [now left|right]. exists (2 ^ (Z.of_N e - 1)). split; [apply Z.pow_pos_nonneg; lia|]. split; [reflexivity|].
    rewrite <- Z.pow_succ_r by lia. f_equal. lia. }
  destruct (N.eqb_spec (f + 1) P) as [Ef|Ef].
  - assert (E1 : ((m + 1) / P = e + 1)%N) by (symmetry; apply N.div_unique with 0%N; lia).
    assert (E2 : ((m + 1) mod P = 0)%N) by (symmetry; apply N.mod_unique with (e + 1)%N; lia). rewrite E1, E2. clear E1 E2 D.
    destruct (N.eqb_spec (e + 1) 0) as [X|_]; [lia|]. replace (Z.of_N (e + 1) - 1) with (Z.of_N e) by lia. destruct Pe as [->|(t & Ht & T1 & T2)].
    + cbn [N.eqb Z.of_N Z.pow]. lia.
    + rewrite T1, T2. destruct (N.eqb_spec e 0) as [->|He]; [cbn in T2; lia|]. assert (Z.of_N P = Z.of_N f + 1) by lia. nia.
  - assert (E1 : ((m + 1) / P = e)%N) by (symmetry; apply N.div_unique with (f + 1)%N; lia).
    assert (E2 : ((m + 1) mod P = f + 1)%N) by (symmetry; apply N.mod_unique with e; lia). rewrite E1, E2. clear E1 E2 D.
    destruct (N.eqb_spec e 0) as [He|He]; [lia|]. destruct Pe as [->|(t & Ht & T1 & T2)]; [lia|]. rewrite T1, N2Z.inj_add. nia.
Qed.
Lemma absolute_lt m n : (m < n)%N -> (n < Q * P)%N -> absolute F m < absolute F n.
Proof.
  intros H. replace n with (m + 1 + N.of_nat (N.to_nat (n - m - 1)))%N by lia. generalize (N.to_nat (n - m - 1)). clear n H. intros k. induction k as [|k IH]; intros H.
  - rewrite N.add_0_r in *. now apply absolute_step.
  - rewrite Nat2N.inj_succ in *. replace (m + 1 + N.succ (N.of_nat k))%N with (m + 1 + N.of_nat k + 1)%N in * by lia.
    etransitivity; [apply IH; lia|]. now apply absolute_step.
Qed.
Lemma absolute_le m n : (m < Q * P)%N -> (n < Q * P)%N -> (m <= n)%N <-> absolute F m <= absolute F n.
Proof.
  intros Hm Hn. split; intros H.
  - destruct (N.eq_dec m n) as [->|]; [lia|]. apply Z.lt_le_incl, absolute_lt; lia.
  - destruct (N.leb_spec m n) as [|L]; [assumption|]. pose proof (absolute_lt n m L Hm). lia.
Qed.
Lemma absolute_0 : absolute F 0 = 0.
Proof. pose proof P2. pose proof Q4. unfold absolute. rewrite <- magn_div, <- magn_mod, magn_small by nia. rewrite N.div_0_l, N.mod_0_l by lia. reflexivity. Qed.
Lemma absolute_nonneg a : 0 <= absolute F a.
Proof.
  rewrite <- absolute_magn, <- absolute_0. pose proof P2. pose proof Q4. apply absolute_le; [nia|apply magn_lt|lia].
Qed.
Lemma absolute_inj m n : (m < Q * P)%N -> (n < Q * P)%N -> absolute F m = absolute F n -> m = n.
Proof. intros Hm Hn E. pose proof (absolute_le m n Hm Hn). pose proof (absolute_le n m Hn Hm). lia. Qed.

(** A value is representable when it, or what is opposite to it, is the value of finite bits without a sign. *)
Lemma value_of a : word F a -> float_value F a = (if (2 ^ (ew F + mw F) <=? a)%N then - absolute F (magn a) else absolute F (magn a)).
Proof. intros _. unfold float_value. now rewrite absolute_magn. Qed.
Lemma representable_iff v : representable F v <-> exists m, (m < (Q - 1) * P)%N /\ Z.abs v = absolute F m.
Proof.
  pose proof P2 as HP. pose proof Q4 as HQ. split.
  - intros (a & W & Fa & V). exists (magn a). split; [now apply finite_magn|]. rewrite absolute_magn. pose proof (absolute_nonneg a).
    rewrite <- V. unfold float_value. destruct (_ <=? a)%N; lia.
  - intros (m & L & V). pose proof (absolute_nonneg m). assert (Lm : (m < Q * P)%N) by nia. destruct (Z.leb_spec 0 v) as [Hv|Hv].
    + exists m. split; [|split].
      * unfold word. rewrite PQ2. lia.
      * apply finite_magn. now rewrite magn_small.
      * unfold float_value. rewrite PQ. destruct (N.leb_spec (Q * P) m); lia.
    + exists (m + Q * P)%N. assert (Em : magn (m + Q * P) = m).
      { unfold magn. rewrite <- (N.mul_1_l (Q * P)) at 1. rewrite N.mod_add by nia. now apply N.mod_small. }
      split; [|split].
      * unfold word. rewrite PQ2. lia.
      * apply finite_magn. now rewrite Em.
      * unfold float_value. rewrite PQ. destruct (N.leb_spec (Q * P) (m + Q * P)); [|lia]. rewrite <- absolute_magn, Em. lia.
Qed.

Lemma seq_values (g : Z -> Z) m n : (forall x, g (g x) = x) -> (m <= n)%N -> (n < Q * P)%N ->
  exists l, NoDup l /\ length l = N.to_nat (n - m) /\ forall v, In v l <-> exists i, (m < i <= n)%N /\ v = g (absolute F i).
Proof.
  intros G L H. exists (map (fun i => g (absolute F (m + 1 + N.of_nat i))) (seq 0 (N.to_nat (n - m)))). split; [|split].
  - assert (I : forall j k, j <> k -> (j < N.to_nat (n - m))%nat -> (k < N.to_nat (n - m))%nat -> g (absolute F (m + 1 + N.of_nat j)) <> g (absolute F (m + 1 + N.of_nat k))).
    { intros j k Hn Hj Hk E. apply (f_equal g) in E. rewrite !G in E. apply absolute_inj in E; lia. }
    assert (A : forall c s, (s + c <= N.to_nat (n - m))%nat -> NoDup (map (fun i => g (absolute F (m + 1 + N.of_nat i))) (seq s c))).
    { induction c as [|c IH]; intros s Hs; [constructor|]. cbn [seq map]. constructor; [|apply IH; lia]. intros Hi. apply in_map_iff in Hi. destruct Hi as (k & E & Hk).
      apply in_seq in Hk. apply (I k s); [lia|lia|lia|exact E]. }
    apply A. lia.
  - now rewrite map_length, seq_length.
  - intros v. rewrite in_map_iff. split.
    + intros (k & <- & Hk). apply in_seq in Hk. exists (m + 1 + N.of_nat k)%N. split; [lia|reflexivity].
    + intros (i & Hi & ->). exists (N.to_nat (i - m - 1)). split; [do 2 f_equal; lia|apply in_seq; lia].
Qed.

Lemma apart_sym x y n : apart F x y n -> apart F y x n.
Proof. unfold apart. now rewrite (Z.min_comm y x), (Z.max_comm y x). Qed.

Lemma apart_unique x y n k : apart F x y n -> apart F x y k -> n = k.
Proof.
  intros (l & N1 & E1 & L1) (l' & N2 & E2 & L2). subst. apply Nat.le_antisymm; apply NoDup_incl_length; try assumption; intros v Hv.
  - apply E2, E1, Hv.
  - apply E1, E2, Hv.
Qed.

Lemma apart_pos m n : (m <= n)%N -> (n < (Q - 1) * P)%N -> apart F (absolute F m) (absolute F n) (N.to_nat (n - m)).
Proof.
  pose proof P2 as HP. pose proof Q4 as HQ. intros L H. assert (Hn : (n < Q * P)%N) by nia. destruct (seq_values (fun x => x) m n (fun x => eq_refl) L Hn) as (l & N1 & L1 & E1).
  exists l. split; [exact N1|split; [|exact L1]]. intros v. rewrite E1, representable_iff. pose proof (proj1 (absolute_le m n ltac:(lia) Hn) L) as Lmn.
  rewrite Z.min_l, Z.max_r by lia. split.
  - intros (i & Hi & ->). pose proof (absolute_nonneg i). split; [exists i; split; [lia|now apply Z.abs_eq]|]. split; [apply absolute_lt; lia|apply absolute_le; lia].
  - intros ((i & Hi & V) & Lo & Hv). pose proof (absolute_nonneg m). rewrite Z.abs_eq in V by lia. subst v. exists i. split; [|reflexivity].
    assert (Hi' : (i < Q * P)%N) by nia. pose proof (absolute_le i m Hi' ltac:(lia)). pose proof (absolute_le i n Hi' Hn). lia.
Qed.
Lemma apart_neg m n : (m <= n)%N -> (n < (Q - 1) * P)%N -> apart F (- absolute F m) (- absolute F n) (N.to_nat (n - m)).
Proof.
  pose proof P2 as HP. pose proof Q4 as HQ. intros L H. assert (Hn : (n < Q * P)%N) by nia.
  (* the numbers above the lower one: those of the bits m .. n-1 *)
  exists (map (fun i => - absolute F (m + N.of_nat i)) (seq 0 (N.to_nat (n - m)))). pose proof (proj1 (absolute_le m n ltac:(lia) Hn) L) as Lmn. split; [|split].
  - assert (A : forall c s, (s + c <= N.to_nat (n - m))%nat -> NoDup (map (fun i => - absolute F (m + N.of_nat i)) (seq s c))).
    { induction c as [|c IH]; intros s Hs; [constructor|]. cbn [seq map]. constructor; [|apply IH; lia]. intros Hi. apply in_map_iff in Hi. destruct Hi as (k & E & Hk).
      apply in_seq in Hk. assert (E' : absolute F (m + N.of_nat k) = absolute F (m + N.of_nat s)) by lia. apply absolute_inj in E'; lia. }
    apply A. lia.
  - intros v. rewrite in_map_iff, representable_iff, Z.min_r, Z.max_l by lia. split.
    + intros (k & <- & Hk). apply in_seq in Hk. pose proof (absolute_nonneg (m + N.of_nat k)). split; [exists (m + N.of_nat k)%N; split; [lia|lia]|].
      assert (absolute F (m + N.of_nat k) < absolute F n) by (apply absolute_lt; lia). assert (absolute F m <= absolute F (m + N.of_nat k)) by (apply absolute_le; lia). lia.
    + intros ((i & Hi & V) & Lo & Hv). pose proof (absolute_nonneg m). assert (V' : v = - absolute F i) by lia. assert (Hi' : (i < Q * P)%N) by nia.
      pose proof (absolute_le n i Hn Hi'). pose proof (absolute_le m i ltac:(lia) Hi'). exists (N.to_nat (i - m)). split; [rewrite V'; do 2 f_equal; lia|apply in_seq; lia].
  - now rewrite map_length, seq_length.
Qed.

Lemma ulps_ok a b : word F a -> word F b -> finite F a -> finite F b -> (negative F a <-> negative F b) ->
  apart F (float_value F a) (float_value F b) (N.to_nat (get_ulps a b)).
Proof.
  assert (W : forall a b, word F a -> word F b -> finite F a -> finite F b -> (negative F a <-> negative F b) -> (a <= b)%N -> apart F (float_value F a) (float_value F b) (N.to_nat (b - a))).
  { clear a b. intros a b Wa Wb Fa Fb Sg L. rewrite (value_of a Wa), (value_of b Wb). pose proof (word_sign a Wa) as Ea. pose proof (word_sign b Wb) as Eb.
    apply finite_magn in Fa, Fb. unfold negative in Sg. destruct (N.leb_spec (2 ^ (ew F + mw F)) a), (N.leb_spec (2 ^ (ew F + mw F)) b); try lia.
    - replace (b - a)%N with (magn b - magn a)%N by lia. apply apart_neg; lia.
    - replace (b - a)%N with (magn b - magn a)%N by lia. apply apart_pos; lia. }
  intros Wa Wb Fa Fb Sg. unfold get_ulps. destruct (N.ltb_spec b a).
  - apply apart_sym, W; try assumption; [now symmetry|lia].
  - now apply W.
Qed.

Lemma signbit_ok a : word F a -> signbit F a = (2 ^ (ew F + mw F) <=? a)%N.
Proof.
  intros H. pose proof (word_sign a H) as E. pose proof (magn_lt a) as L. unfold signbit. pose proof P2. pose proof Q4. rewrite N.testbit_eqb, PQ. rewrite PQ in E.
  destruct (Q * P <=? a)%N; rewrite E.
  - rewrite <- (N.mul_1_l (Q * P)) at 1. rewrite N.div_add, N.div_small by nia. reflexivity.
  - rewrite N.div_small by lia. reflexivity.
Qed.

Lemma magnitude_bits_ok a : magnitude_bits F a = magn a.
Proof. unfold magnitude_bits. now rewrite PQ. Qed.

Lemma is_nan_ok a : is_nan F a = true <-> not_a_number F a.
Proof.
  unfold is_nan. rewrite magnitude_bits_ok, (magn_split a). rewrite ?EP, ?EQ. pose proof P2. pose proof Q4. pose proof (mantissa_lt a). pose proof (exponent_lt a). unfold not_a_number. rewrite ?EQ.
  destruct (N.ltb_spec ((Q - 1) * P) (exponent F a * P + mantissa F a)) as [L|L]; split; intros X; try easy.
  - assert (exponent F a = Q - 1)%N by nia. split; [assumption|nia].
  - destruct X as [X1 X2]. rewrite X1 in L. lia.
Qed.
Lemma finite_not_nan a : finite F a -> is_nan F a = false.
Proof. intros H. destruct (is_nan F a) eqn:E; [|reflexivity]. apply is_nan_ok in E. destruct E as [E _]. unfold finite in H. lia. Qed.

Lemma float_eq_ok a b : word F a -> word F b -> finite F a -> finite F b -> (float_eq F a b = true <-> float_value F a = float_value F b).
Proof.
  intros Wa Wb Fa Fb. unfold float_eq. rewrite !finite_not_nan, !magnitude_bits_ok by assumption. cbn [negb andb]. rewrite (value_of a Wa), (value_of b Wb).
  pose proof (word_sign a Wa) as Ea. pose proof (word_sign b Wb) as Eb. pose proof (magn_lt a) as La. pose proof (magn_lt b) as Lb.
  pose proof (absolute_nonneg (magn a)) as Na. pose proof (absolute_nonneg (magn b)) as Nb. pose proof absolute_0 as A0. pose proof P2. pose proof Q4. assert (Z0 : (0 < Q * P)%N) by nia.
  rewrite orb_true_iff, andb_true_iff, !N.eqb_eq. split.
  - intros [E|[E1 E2]].
    + rewrite <- E. reflexivity.
    + rewrite E1, E2, A0. destruct (_ <=? a)%N, (_ <=? b)%N; reflexivity.
  - intros E. destruct (_ <=? a)%N, (_ <=? b)%N.
    + left. assert (E' : absolute F (magn a) = absolute F (magn b)) by lia. apply absolute_inj in E'; [|assumption..]. rewrite Ea, Eb, E'. reflexivity.
    + right. assert (E1 : absolute F (magn a) = absolute F 0) by lia. assert (E2 : absolute F (magn b) = absolute F 0) by lia. split; [now apply absolute_inj|now apply absolute_inj].
    + right. assert (E1 : absolute F (magn a) = absolute F 0) by lia. assert (E2 : absolute F (magn b) = absolute F 0) by lia. split; [now apply absolute_inj|now apply absolute_inj].
    + left. apply absolute_inj in E; [|assumption..]. rewrite Ea, Eb, E. reflexivity.
Qed.

Lemma between_powers p f k : 0 <= p -> 0 <= f < 2 ^ p -> 2 ^ p + f = 2 ^ k -> 0 <= k -> f = 0.
Proof.
  intros Hp Hf E Hk. assert (p <= k) by (apply (Z.pow_le_mono_r_iff 2); lia). assert (k < p + 1) by (apply (Z.pow_lt_mono_r_iff 2); [lia|lia|]; rewrite Z.pow_add_r by lia; lia).
  assert (k = p) by lia. subst k. lia.
Qed.

Lemma power_ok a : word F a -> (is_power_of_2 F a = true <-> normal F a /\ power_of_2 (Z.abs (float_value F a)) \/ infinite F a).
Proof.
  intros Wa. pose proof P2 as HP. pose proof Q4 as HQ. pose proof (mantissa_lt a) as Hf. pose proof (exponent_lt a) as He. pose proof (absolute_nonneg a) as Ha.
  unfold is_power_of_2. rewrite N.land_ones. change (a mod 2 ^ mw F)%N with (mantissa F a). rewrite andb_true_iff, negb_true_iff, N.eqb_eq.
  assert (Av : Z.abs (float_value F a) = absolute F a) by (unfold float_value; destruct (_ <=? a)%N; lia). rewrite Av.
  assert (Z0 : float_eq F a 0 = false <-> magn a <> 0%N).
  { unfold float_eq. rewrite !magnitude_bits_ok. assert (M0 : magn 0 = 0%N) by (apply magn_small; nia). rewrite M0. destruct (is_nan F a) eqn:En.
    - cbn [negb andb]. split; [intros _|reflexivity]. apply is_nan_ok in En. destruct En as [En _]. rewrite (magn_split a), En. nia.
    - cbn [negb andb]. assert (N0 : is_nan F 0 = false) by (unfold is_nan; rewrite magnitude_bits_ok, M0; apply N.ltb_ge, N.le_0_l). rewrite N0. cbn [negb andb]. cbn [N.eqb]. rewrite andb_true_r.
      destruct (N.eqb_spec a 0) as [->|Hz]; cbn [orb]; [rewrite M0; split; [discriminate|congruence]|]. destruct (N.eqb_spec (magn a) 0); split; try easy. }
  rewrite Z0, (magn_split a). unfold normal, infinite, finite, absolute. rewrite ?EQ. rewrite PZ. split.
  - intros [Hn Hm]. rewrite Hm in *. assert (exponent F a <> 0%N) by nia. destruct (N.ltb_spec (exponent F a) (Q - 1)) as [L|L]; [left|right; split; [lia|reflexivity]].
    split; [split; assumption|]. destruct (N.eqb_spec (exponent F a) 0); [contradiction|]. exists (Z.of_N (mw F) + (Z.of_N (exponent F a) - 1)). split; [lia|].
    rewrite Z.add_0_r, <- PZ, Z.pow_add_r by lia. reflexivity.
  - intros [[[L N0] (k & Hk & E)]|[E1 E2]].
    + destruct (N.eqb_spec (exponent F a) 0); [contradiction|]. assert (Hm : mantissa F a = 0%N); [|rewrite Hm; split; [nia|reflexivity]].
      set (e1 := Z.of_N (exponent F a) - 1) in *. assert (He1 : 0 <= e1) by (subst e1; lia).
      assert (Hk' : e1 <= k). { apply (Z.pow_le_mono_r_iff 2); [lia|lia|]. rewrite <- E. assert (0 < 2 ^ e1) by (apply Z.pow_pos_nonneg; lia). nia. }
      assert (E' : Z.of_N P + Z.of_N (mantissa F a) = 2 ^ (k - e1)).
      { replace k with (k - e1 + e1) in E by lia. rewrite Z.pow_add_r in E by lia. apply Z.mul_reg_r in E; [exact E|]. assert (0 < 2 ^ e1) by (apply Z.pow_pos_nonneg; lia). lia. }
      rewrite <- PZ in E'. apply between_powers in E'; [lia|lia|rewrite PZ; lia|lia].
    + rewrite E1, E2. split; [assert (3 <= Q - 1)%N by lia; nia|reflexivity].
Qed.
End F.
