(** Fixed width unsigned arithmetic on N and lemmas about bits. No CommonC code here. *)
From Verif Require Import Base.
Local Open Scope N_scope.

Definition M64 : N := 2 ^ 64.
Definition M32 : N := 2 ^ 32.

(** C unsigned arithmetic of width [w]: reduction modulo 2^w. *)
Definition wrap (w x : N) : N := x mod 2 ^ w.
Definition wnot (w x : N) : N := N.lxor x (N.ones w).
Definition wneg (w x : N) : N := (2 ^ w - x mod 2 ^ w) mod 2 ^ w.
Definition wadd (w x y : N) : N := (x + y) mod 2 ^ w.
Definition wsub (w x y : N) : N := (x + (2 ^ w - y mod 2 ^ w)) mod 2 ^ w.
Definition wmul (w x y : N) : N := (x * y) mod 2 ^ w.
Definition wshl (w x n : N) : N := (x * 2 ^ n) mod 2 ^ w.

Lemma pow2_pos n : 0 < 2 ^ n.
Proof. assert (2 ^ n <> 0) by (apply N.pow_nonzero; lia). lia. Qed.

Lemma pow2_nz n : 2 ^ n <> 0.
Proof. apply N.pow_nonzero; lia. Qed.

Lemma testbit_high x n i : x < 2 ^ n -> n <= i -> N.testbit x i = false.
Proof.
  intros Hx Hi. destruct (N.eq_dec x 0) as [->|Hz]; [apply N.bits_0|].
  apply N.bits_above_log2. apply N.log2_lt_pow2; [lia|].
  eapply N.lt_le_trans; [exact Hx|]. apply N.pow_le_mono_r; lia.
Qed.

Lemma lt_pow2_bits x n : (forall i, n <= i -> N.testbit x i = false) -> x < 2 ^ n.
Proof.
  intros H. destruct (N.eq_dec x 0) as [->|Hz]; [apply pow2_pos|].
  apply N.log2_lt_pow2; [lia|].
  destruct (N.lt_ge_cases (N.log2 x) n) as [|Hge]; auto.
  pose proof (N.bit_log2 x Hz) as Hb. rewrite (H _ Hge) in Hb. discriminate.
Qed.

(** Bits of [a * 2^n + r]. *)
Lemma testbit_split a n r i :
  r < 2 ^ n ->
  N.testbit (a * 2 ^ n + r) i = if i <? n then N.testbit r i else N.testbit a (i - n).
Proof.
  intros Hr. destruct (N.ltb_spec i n) as [H|H].
  - rewrite <- (N.mod_pow2_bits_low (a * 2 ^ n + r) n i H).
    rewrite N.add_comm, N.mod_add by apply pow2_nz.
    rewrite N.mod_small by exact Hr. reflexivity.
  - replace i with ((i - n) + n) at 1 by lia.
    rewrite <- N.shiftr_spec by lia. rewrite N.shiftr_div_pow2.
    rewrite N.add_comm, N.div_add by apply pow2_nz. rewrite N.div_small by exact Hr. reflexivity.
Qed.

Lemma testbit_mul_pow2 a n i :
  N.testbit (a * 2 ^ n) i = if i <? n then false else N.testbit a (i - n).
Proof.
  rewrite <- (N.add_0_r (a * 2 ^ n)). rewrite testbit_split by apply pow2_pos.
  rewrite N.bits_0. reflexivity.
Qed.

Lemma testbit_pow2 k i : N.testbit (2 ^ k) i = (i =? k).
Proof.
  destruct (N.eqb_spec i k) as [->|H].
  - apply N.pow2_bits_true.
  - apply N.pow2_bits_false. auto.
Qed.

Lemma testbit_ones n i : N.testbit (N.ones n) i = (i <? n).
Proof.
  destruct (N.ltb_spec i n).
  - apply N.ones_spec_low; auto.
  - apply N.ones_spec_high; auto.
Qed.

Lemma testbit_wrap w x i : N.testbit (wrap w x) i = (i <? w) && N.testbit x i.
Proof.
  unfold wrap. destruct (N.ltb_spec i w).
  - rewrite N.mod_pow2_bits_low; auto.
  - rewrite N.mod_pow2_bits_high; auto.
Qed.

Lemma testbit_wnot w x i : N.testbit (wnot w x) i = xorb (N.testbit x i) (i <? w).
Proof. unfold wnot. rewrite N.lxor_spec, testbit_ones. reflexivity. Qed.

Lemma ones_pred n : N.ones n = 2 ^ n - 1.
Proof. rewrite N.ones_equiv. lia. Qed.

Lemma wneg_pos w x : 0 < x -> x < 2 ^ w -> wneg w x = 2 ^ w - x.
Proof.
  intros H1 H2. unfold wneg. rewrite (N.mod_small x) by exact H2. apply N.mod_small. lia.
Qed.

(** Subtraction from all ones is complement. *)
Lemma wnot_sub w x : x < 2 ^ w -> wnot w x = 2 ^ w - 1 - x.
Proof.
  intros Hx. rewrite <- ones_pred. symmetry.
  destruct (N.eq_dec x 0) as [->|Hz].
  { unfold wnot. rewrite N.lxor_0_l. lia. }
  rewrite N.sub_nocarry_ldiff.
  - apply N.bits_inj. intros i. rewrite N.ldiff_spec, testbit_wnot, testbit_ones.
    destruct (N.ltb_spec i w).
    + destruct (N.testbit x i); reflexivity.
    + rewrite (testbit_high x w i) by auto. reflexivity.
  - apply N.bits_inj. intros i. rewrite N.ldiff_spec, testbit_ones, N.bits_0.
    destruct (N.ltb_spec i w).
    + destruct (N.testbit x i); reflexivity.
    + rewrite (testbit_high x w i) by auto. reflexivity.
Qed.

Lemma wneg_not_pred w x : 0 < x -> x < 2 ^ w -> wneg w x = wnot w (x - 1).
Proof. intros H1 H2. rewrite wneg_pos, wnot_sub by lia. lia. Qed.

Lemma wnot_lt w x : x < 2 ^ w -> wnot w x < 2 ^ w.
Proof. intros H. rewrite wnot_sub by auto. pose proof (pow2_pos w). lia. Qed.

Lemma wnot_invol w x : wnot w (wnot w x) = x.
Proof.
  apply N.bits_inj. intros i. rewrite !testbit_wnot.
  destruct (N.testbit x i), (i <? w); reflexivity.
Qed.

Lemma not_neg_pred w x : 0 < x -> x < 2 ^ w -> wnot w (wneg w x) = x - 1.
Proof. intros H1 H2. rewrite wneg_not_pred, wnot_invol by auto. reflexivity. Qed.

(** Every positive number is an odd multiple of a power of two. *)
Lemma lowest_decomp x : 0 < x -> exists m k, x = m * 2 ^ (k + 1) + 2 ^ k.
Proof.
  intros Hx. induction x as [x IH] using (well_founded_induction N.lt_wf_0).
  destruct (N.even x) eqn:E.
  - apply N.even_spec in E. destruct E as [y Hy].
    destruct (IH y) as (m & k & Hm); [lia|lia|].
    exists m, (k + 1). rewrite Hy, Hm.
    rewrite (N.pow_add_r 2 (k + 1) 1), (N.pow_add_r 2 k 1). change (2 ^ 1) with 2. lia.
  - assert (Ho : N.odd x = true) by (rewrite <- N.negb_even, E; reflexivity).
    apply N.odd_spec in Ho. destruct Ho as [y Hy].
    exists y, 0. change (2 ^ (0 + 1)) with 2. change (2 ^ 0) with 1. lia.
Qed.

Lemma lowest_decomp_bits m k i :
  N.testbit (m * 2 ^ (k + 1) + 2 ^ k) i =
    if i <? k then false else if i =? k then true else N.testbit m (i - (k + 1)).
Proof.
  rewrite testbit_split by (apply N.pow_lt_mono_r; lia).
  rewrite testbit_pow2.
  destruct (N.ltb_spec i (k + 1)), (N.ltb_spec i k), (N.eqb_spec i k); try lia; reflexivity.
Qed.

Lemma lowest_pred_bits m k i :
  N.testbit (m * 2 ^ (k + 1) + 2 ^ k - 1) i =
    if i <? k then true else if i =? k then false else N.testbit m (i - (k + 1)).
Proof.
  pose proof (pow2_pos k).
  replace (m * 2 ^ (k + 1) + 2 ^ k - 1) with (m * 2 ^ (k + 1) + N.ones k)
    by (rewrite ones_pred; lia).
  rewrite testbit_split.
  - rewrite testbit_ones.
    destruct (N.ltb_spec i (k + 1)), (N.ltb_spec i k), (N.eqb_spec i k); try lia; reflexivity.
  - rewrite ones_pred. rewrite N.pow_add_r. change (2 ^ 1) with 2. lia.
Qed.

Lemma pow2_inj a b : 2 ^ a = 2 ^ b -> a = b.
Proof. intros H. apply N.pow_inj_r in H; auto; lia. Qed.

Lemma pow2_lt_iff a b : 2 ^ a < 2 ^ b <-> a < b.
Proof. symmetry. apply N.pow_lt_mono_r_iff. lia. Qed.

Lemma pow2_le_iff a b : 2 ^ a <= 2 ^ b <-> a <= b.
Proof. symmetry. apply N.pow_le_mono_r_iff. lia. Qed.

(** Population count by definition: number of positions below [w] holding a set bit. *)
Definition bit_positions (w : nat) : list N := map N.of_nat (seq 0 w).
Definition popcount (w : nat) (x : N) : N :=
  N.of_nat (length (filter (N.testbit x) (bit_positions w))).
