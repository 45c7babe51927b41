(** Proofs about the bit tricks. *)
From Verif Require Import Base Word BitTricksModel BitTricksSpec.
Local Open Scope N_scope.

Lemma lowest_set_decomp m k :
  m * 2 ^ (k + 1) + 2 ^ k < 2 ^ 64 -> lowest_set (m * 2 ^ (k + 1) + 2 ^ k) = 2 ^ k.
Proof.
  intros Hlt. unfold lowest_set. pose proof (pow2_pos k).
  rewrite wneg_not_pred by lia.
  apply N.bits_inj. intros i.
  rewrite N.land_spec, testbit_wnot, lowest_decomp_bits, lowest_pred_bits, testbit_pow2.
  assert (Hk : k < 64). { apply pow2_lt_iff. lia. }
  destruct (N.ltb_spec i k), (N.eqb_spec i k); try lia; cbn [xorb andb]; auto.
  destruct (N.testbit m (i - (k + 1))) eqn:E; cbn [andb]; auto.
  destruct (N.ltb_spec i 64); [reflexivity|].
  exfalso.
    assert (N.testbit (m * 2 ^ (k + 1) + 2 ^ k) i = true).
    { rewrite lowest_decomp_bits. destruct (N.ltb_spec i k), (N.eqb_spec i k); try lia; auto. }
    rewrite (testbit_high _ 64 i) in * by auto. discriminate.
Qed.

Lemma lowest_set_spec x : 0 < x -> x < 2 ^ 64 -> is_lowest true x (lowest_set x).
Proof.
  intros H1 H2. destruct (lowest_decomp x H1) as (m & k & ->).
  rewrite lowest_set_decomp by auto. exists k. repeat split.
  - rewrite lowest_decomp_bits. rewrite N.ltb_irrefl, N.eqb_refl. reflexivity.
  - intros j Hj. rewrite lowest_decomp_bits. destruct (N.ltb_spec j k); try lia; reflexivity.
Qed.

Lemma lowest_set_zero : lowest_set 0 = 0.
Proof. reflexivity. Qed.

Lemma lowest_unset_as_set x :
  x < 2 ^ 64 - 1 -> lowest_unset x = lowest_set (wnot 64 x).
Proof.
  intros H. unfold lowest_unset, lowest_set. f_equal.
  rewrite wnot_sub by lia. rewrite wneg_pos by lia.
  unfold wadd. rewrite N.mod_small by lia. lia.
Qed.

Lemma lowest_unset_spec x : x < 2 ^ 64 - 1 -> is_lowest false x (lowest_unset x).
Proof.
  intros H. rewrite lowest_unset_as_set by auto.
  destruct (lowest_set_spec (wnot 64 x)) as (k & E & Hk & Hlow).
  { rewrite wnot_sub by lia. lia. }
  { apply wnot_lt. lia. }
  exists k. rewrite E. split; auto.
  assert (k < 64).
  { destruct (N.lt_ge_cases k 64) as [|Hge]; auto.
    rewrite (testbit_high (wnot 64 x) 64 k) in Hk by (auto; apply wnot_lt; lia). discriminate. }
  rewrite testbit_wnot in Hk. destruct (N.ltb_spec k 64); try lia.
  split; [destruct (N.testbit x k); auto; discriminate|].
  intros j Hj. specialize (Hlow j Hj). rewrite testbit_wnot in Hlow.
  destruct (N.ltb_spec j 64); try lia; destruct (N.testbit x j); auto; discriminate.
Qed.

Lemma lowest_unset_all : lowest_unset (2 ^ 64 - 1) = 0.
Proof. reflexivity. Qed.

(** ** Masks *)

(** Some bit of [x] among positions i .. i+s-1 is set. *)
Definition orbits (x s i : N) : bool :=
  existsb (fun j => N.testbit x (i + N.of_nat j)) (seq 0 (N.to_nat s)).

Lemma orbits_true x s i : orbits x s i = true <-> exists j, j < s /\ N.testbit x (i + j) = true.
Proof.
  unfold orbits. rewrite existsb_exists. split.
  - intros (j & Hj & Hb). apply in_seq in Hj. exists (N.of_nat j). split; auto. lia.
  - intros (j & Hj & Hb). exists (N.to_nat j). rewrite N2Nat.id. split; auto. apply in_seq. lia.
Qed.

Lemma smear_step x y s :
  (forall i, N.testbit y i = orbits x s i) ->
  forall i, N.testbit (N.lor y (N.shiftr y s)) i = orbits x (2 * s) i.
Proof.
  intros H i. rewrite N.lor_spec, N.shiftr_spec by lia. rewrite !H.
  apply eq_true_iff_eq. rewrite orb_true_iff, !orbits_true. split.
  - intros [(j & Hj & Hb)|(j & Hj & Hb)].
    + exists j. split; auto; lia.
    + exists (s + j). split; [lia|]. rewrite <- Hb. f_equal; lia.
  - intros (j & Hj & Hb). destruct (N.lt_ge_cases j s).
    + left. exists j; auto.
    + right. exists (j - s). split; [lia|]. rewrite <- Hb. f_equal; lia.
Qed.

Lemma mask_bits x i : N.testbit (mask_for_value x) i = orbits x 64 i.
Proof.
  unfold mask_for_value.
  change 64 with (2 * 32). apply smear_step; clear i.
  change 32 with (2 * 16). apply smear_step.
  change 16 with (2 * 8). apply smear_step.
  change 8 with (2 * 4). apply smear_step.
  change 4 with (2 * 2). apply smear_step.
  change 2 with (2 * 1). apply smear_step.
  intros i. unfold orbits. change (N.to_nat 1) with 1%nat. cbn [seq existsb].
  change (N.of_nat 0) with 0. rewrite N.add_0_r, orb_false_r. reflexivity.
Qed.

Lemma mask_eq x : x < 2 ^ 64 -> mask_for_value x = N.ones (N.size x).
Proof.
  intros H. apply N.bits_inj. intros i. rewrite mask_bits, testbit_ones.
  destruct (N.eq_dec x 0) as [->|Hz].
  { cbn [N.size]. apply eq_true_iff_eq. rewrite orbits_true. split.
    - intros (j & _ & Hb). rewrite N.bits_0 in Hb. discriminate.
    - intros Hl. apply N.ltb_lt in Hl. lia. }
  assert (Hs : N.size x = N.succ (N.log2 x)) by (apply N.size_log2; auto).
  apply eq_true_iff_eq. rewrite orbits_true, N.ltb_lt. rewrite Hs. split.
  - intros (j & Hj & Hb). destruct (N.lt_ge_cases i (N.succ (N.log2 x))); auto.
    rewrite N.bits_above_log2 in Hb by lia. discriminate.
  - intros Hl. exists (N.log2 x - i). split.
    + assert (N.log2 x < 64) by (apply N.log2_lt_pow2; lia). lia.
    + replace (i + (N.log2 x - i)) with (N.log2 x) by lia. apply N.bit_log2; auto.
Qed.

Lemma size_le_iff x k : N.size x <= k <-> x < 2 ^ k.
Proof.
  destruct (N.eq_dec x 0) as [->|Hz].
  - cbn [N.size]. pose proof (pow2_pos k). lia.
  - rewrite N.size_log2 by auto. rewrite N.le_succ_l. symmetry. apply N.log2_lt_pow2. lia.
Qed.

Lemma mask_spec x : x < 2 ^ 64 -> is_least_mask_ge x (mask_for_value x).
Proof.
  intros H. rewrite mask_eq by auto. rewrite ones_pred. repeat split.
  - exists (N.size x). reflexivity.
  - pose proof (proj1 (size_le_iff x (N.size x)) (N.le_refl _)). lia.
  - intros k Hk. pose proof (pow2_pos k).
    assert (x < 2 ^ k) by lia. apply size_le_iff in H1.
    apply N.sub_le_mono_r. apply N.pow_le_mono_r; lia.
Qed.

Lemma highest_spec x : 0 < x -> x < 2 ^ 64 -> is_highest_set x (highest_set x).
Proof.
  intros H1 H2. exists (N.log2 x). repeat split.
  - unfold highest_set. rewrite mask_eq by auto.
    rewrite N.size_log2 by lia. apply N.bits_inj. intros i.
    rewrite N.lxor_spec, N.shiftr_spec, !testbit_ones, testbit_pow2 by lia.
    destruct (N.ltb_spec i (N.succ (N.log2 x))), (N.ltb_spec (i + 1) (N.succ (N.log2 x))),
      (N.eqb_spec i (N.log2 x)); try lia; reflexivity.
  - apply N.bit_log2. lia.
  - intros j Hj. apply N.bits_above_log2; auto.
Qed.

Lemma next_power_spec x : 1 <= x -> x <= 2 ^ 63 -> is_least_power_ge x (next_power_of_2 x).
Proof.
  intros H1 H2. unfold next_power_of_2.
  assert (E : wsub 64 x 1 = x - 1).
  { unfold wsub. change (1 mod 2 ^ 64) with 1.
    replace (x + (2 ^ 64 - 1)) with ((x - 1) + 1 * 2 ^ 64) by lia.
    rewrite N.mod_add by apply pow2_nz. apply N.mod_small. lia. }
  rewrite E, mask_eq by lia. rewrite ones_pred.
  set (k := N.size (x - 1)).
  assert (Hk : k <= 63) by (apply size_le_iff; lia).
  assert (Hp : 2 ^ k <= 2 ^ 63) by (apply pow2_le_iff; auto).
  pose proof (pow2_pos k).
  assert (Ew : wadd 64 (2 ^ k - 1) 1 = 2 ^ k).
  { unfold wadd. rewrite N.mod_small; lia. }
  rewrite Ew. repeat split.
  - exists k; reflexivity.
  - pose proof (proj1 (size_le_iff (x - 1) k) (N.le_refl _)). lia.
  - intros p (j & ->) Hj. apply pow2_le_iff. apply size_le_iff. lia.
Qed.

Lemma next_power_zero : next_power_of_2 0 = 0.
Proof. reflexivity. Qed.

Lemma next_power_big x : 2 ^ 63 < x -> x < 2 ^ 64 -> next_power_of_2 x = 0.
Proof.
  intros H1 H2. unfold next_power_of_2.
  assert (E : wsub 64 x 1 = x - 1).
  { unfold wsub. change (1 mod 2 ^ 64) with 1.
    replace (x + (2 ^ 64 - 1)) with ((x - 1) + 1 * 2 ^ 64) by lia.
    rewrite N.mod_add by apply pow2_nz. apply N.mod_small. lia. }
  rewrite E, mask_eq by lia.
  assert (N.size (x - 1) = 64) as ->.
  { apply N.le_antisymm.
    - apply size_le_iff. lia.
    - destruct (N.le_gt_cases 64 (N.size (x - 1))); auto.
      assert (N.size (x - 1) <= 63) by lia. apply size_le_iff in H0. lia. }
  reflexivity.
Qed.

Lemma mask_lower_spec k : k < 64 -> mask_for_lower_power_of_2 (2 ^ k) = N.ones k.
Proof.
  intros H. unfold mask_for_lower_power_of_2. pose proof (pow2_pos k).
  destruct (N.eqb_spec (2 ^ k) 0); try lia.
  rewrite not_neg_pred; [rewrite ones_pred; reflexivity|lia|apply pow2_lt_iff; auto].
Qed.

Lemma mask_unset_bits x i :
  x < 2 ^ 64 ->
  N.testbit (mask_for_unset_value x) i = (N.size x <=? i) && (i <? 64).
Proof.
  intros H. unfold mask_for_unset_value. rewrite mask_eq by auto.
  rewrite <- ones_pred, N.lxor_spec, !testbit_ones.
  assert (N.size x <= 64) by (apply size_le_iff; auto).
  destruct (N.ltb_spec i 64), (N.ltb_spec i (N.size x)), (N.leb_spec (N.size x) i); try lia; reflexivity.
Qed.

(** ** Population count *)

(** Little-endian bytes. *)
Fixpoint val (bs : list N) : N :=
  match bs with [] => 0 | b :: t => val t * 2 ^ 8 + b end.

Definition bytes_ok (bs : list N) : Prop := Forall (fun b => b < 2 ^ 8) bs.

Lemma val_lt bs : bytes_ok bs -> val bs < 2 ^ (8 * N.of_nat (length bs)).
Proof.
  induction 1 as [|b t Hb Ht IH]; [reflexivity|].
  cbn [val length]. rewrite Nat2N.inj_succ.
  replace (8 * N.succ (N.of_nat (length t))) with (8 * N.of_nat (length t) + 8) by lia.
  rewrite N.pow_add_r. lia.
Qed.

Lemma val_surj n : forall x, x < 2 ^ (8 * N.of_nat n) ->
  exists bs, length bs = n /\ bytes_ok bs /\ val bs = x.
Proof.
  induction n as [|n IH]; intros x Hx.
  - exists []. repeat split; [constructor|]. change (2 ^ (8 * N.of_nat 0)) with 1 in Hx. cbn. lia.
  - destruct (IH (x / 2 ^ 8)) as (bs & Hl & Hb & Hv).
    { apply N.div_lt_upper_bound; [apply pow2_nz|].
      rewrite Nat2N.inj_succ in Hx.
      replace (8 * N.succ (N.of_nat n)) with (8 + 8 * N.of_nat n) in Hx by lia.
      rewrite N.pow_add_r in Hx. exact Hx. }
    exists (x mod 2 ^ 8 :: bs). repeat split.
    + cbn. lia.
    + constructor; auto. apply N.mod_lt. apply pow2_nz.
    + cbn [val]. rewrite Hv. rewrite N.mul_comm. symmetry. apply N.div_mod. apply pow2_nz.
Qed.

Lemma land_split h l M m :
  l < 2 ^ 8 -> m < 2 ^ 8 ->
  N.land (h * 2 ^ 8 + l) (M * 2 ^ 8 + m) = N.land h M * 2 ^ 8 + N.land l m.
Proof.
  intros Hl Hm. apply N.bits_inj. intros i.
  assert (N.land l m < 2 ^ 8).
  { apply lt_pow2_bits. intros j Hj. rewrite N.land_spec, (testbit_high l 8 j) by auto. reflexivity. }
  rewrite N.land_spec, !testbit_split by auto. rewrite !N.land_spec.
  destruct (i <? 8); reflexivity.
Qed.

Lemma land_shiftr_split h l M m s :
  l < 2 ^ 8 -> m < 2 ^ (8 - s) -> s <= 8 ->
  N.land (N.shiftr (h * 2 ^ 8 + l) s) (M * 2 ^ 8 + m) =
  N.land (N.shiftr h s) M * 2 ^ 8 + N.land (N.shiftr l s) m.
Proof.
  intros Hl Hm Hs.
  assert (Hm8 : m < 2 ^ 8).
  { eapply N.lt_le_trans; [exact Hm|]. apply N.pow_le_mono_r; lia. }
  assert (N.land (N.shiftr l s) m < 2 ^ 8).
  { apply lt_pow2_bits. intros j Hj. rewrite N.land_spec, (testbit_high m 8 j) by auto.
    apply andb_false_r. }
  apply N.bits_inj. intros i.
  rewrite N.land_spec, !N.shiftr_spec, !testbit_split by (auto; lia).
  rewrite !N.land_spec, !N.shiftr_spec by lia.
  destruct (N.ltb_spec i 8).
  - destruct (N.ltb_spec (i + s) 8); auto.
    rewrite (testbit_high m (8 - s) i) by (auto; lia). rewrite !andb_false_r. reflexivity.
  - destruct (N.ltb_spec (i + s) 8); try lia.
    f_equal. f_equal. lia.
Qed.

Definition rep (b : N) (n : nat) : N := val (repeat b n).

Definition f1 (b : N) : N := b - N.land (N.shiftr b 1) 0x55.
Definition f2 (b : N) : N := N.land b 0x33 + N.land (N.shiftr b 2) 0x33.
Definition f3 (b : N) : N := (b + N.shiftr b 4) mod 16.

Definition byte_range : list N := map N.of_nat (seq 0 256).
Lemma byte_sweep (P : N -> bool) :
  forallb P byte_range = true -> forall b, b < 2 ^ 8 -> P b = true.
Proof.
  intros H b Hb. rewrite forallb_forall in H. apply H.
  unfold byte_range. apply in_map_iff. exists (N.to_nat b). split; [lia|].
  apply in_seq. change (2 ^ 8) with 256 in Hb. lia.
Qed.

Lemma f1_ok b : b < 2 ^ 8 ->
  N.land (N.shiftr b 1) 0x55 <= b /\ f1 b < 2 ^ 8.
Proof.
  intros Hb.
  pose proof (byte_sweep (fun b => (N.land (N.shiftr b 1) 0x55 <=? b) && (f1 b <? 2 ^ 8))
                (ltac:(vm_compute; reflexivity)) b Hb) as H.
  apply andb_true_iff in H. destruct H as [H1 H2].
  apply N.leb_le in H1. apply N.ltb_lt in H2. auto.
Qed.

Lemma f2_ok b : b < 2 ^ 8 ->
  f2 (f1 b) < 2 ^ 8 /\ f2 (f1 b) mod 16 <= 4 /\ f2 (f1 b) / 16 <= 4.
Proof.
  intros Hb.
  pose proof (byte_sweep (fun b => (f2 (f1 b) <? 2 ^ 8) && (f2 (f1 b) mod 16 <=? 4) && (f2 (f1 b) / 16 <=? 4))
                (ltac:(vm_compute; reflexivity)) b Hb) as H.
  rewrite !andb_true_iff in H. destruct H as [[H1 H2] H3].
  apply N.ltb_lt in H1. apply N.leb_le in H2. apply N.leb_le in H3. auto.
Qed.

Lemma f3_ok b : b < 2 ^ 8 -> f3 (f2 (f1 b)) = popcount 8 b /\ f3 (f2 (f1 b)) <= 8.
Proof.
  intros Hb.
  pose proof (byte_sweep (fun b => (f3 (f2 (f1 b)) =? popcount 8 b) && (f3 (f2 (f1 b)) <=? 8))
                (ltac:(vm_compute; reflexivity)) b Hb) as H.
  rewrite !andb_true_iff in H. destruct H as [H1 H2].
  apply N.eqb_eq in H1. apply N.leb_le in H2. auto.
Qed.

Lemma step1_val bs : bytes_ok bs ->
  N.land (N.shiftr (val bs) 1) (rep 0x55 (length bs)) <= val bs /\
  val bs - N.land (N.shiftr (val bs) 1) (rep 0x55 (length bs)) = val (map f1 bs).
Proof.
  induction 1 as [|b t Hb Ht IH]; [cbn; lia|].
  cbn [val length map]. unfold rep in *. cbn [repeat val].
  rewrite land_shiftr_split by (auto; try lia; reflexivity).
  destruct IH as [IH1 IH2]. destruct (f1_ok b Hb) as [H1 H2].
  split; [lia|]. rewrite <- IH2. unfold f1. lia.
Qed.

Lemma step2_val bs : bytes_ok bs ->
  N.land (val bs) (rep 0x33 (length bs)) + N.land (N.shiftr (val bs) 2) (rep 0x33 (length bs))
  = val (map f2 bs).
Proof.
  induction 1 as [|b t Hb Ht IH]; [reflexivity|].
  cbn [val length map]. unfold rep in *. cbn [repeat val].
  rewrite land_shiftr_split by (auto; try lia; reflexivity).
  rewrite land_split by (auto; reflexivity).
  rewrite <- IH. unfold f2. lia.
Qed.

Lemma step3_val bs : Forall (fun b => b < 2 ^ 8 /\ b mod 16 <= 4 /\ b / 16 <= 4) bs ->
  N.land (val bs + N.shiftr (val bs) 4) (rep 0x0f (length bs)) = val (map f3 bs).
Proof.
  induction 1 as [|b t Hb Ht IH]; [reflexivity|].
  cbn [val length map]. unfold rep in *. cbn [repeat val].
  set (h := val t) in *. destruct Hb as (Hb & Hlo & Hhi).
  assert (Hh16 : h mod 16 <= 4).
  { subst h. inversion Ht as [|c u (Hc & Hc1 & Hc2) Hu]; subst; cbn [val]; [cbn; lia|].
    replace (val u * 2 ^ 8 + c) with (c + (val u * 16) * 16) by (change (2 ^ 8) with 256; lia).
    rewrite N.mod_add by lia. exact Hc1. }
  rewrite !N.shiftr_div_pow2 in *. change (2 ^ 4) with 16 in *.
  assert (E : h * 2 ^ 8 + b + (h * 2 ^ 8 + b) / 16
              = (h + h / 16) * 2 ^ 8 + (b + b / 16 + 16 * (h mod 16))).
  { replace (h * 2 ^ 8 + b) with (b + (h * 16) * 16) at 2 by (change (2 ^ 8) with 256; lia).
    rewrite N.div_add by lia.
    pose proof (N.div_mod h 16 ltac:(lia)). change (2 ^ 8) with 256. lia. }
  rewrite E. rewrite land_split.
  - rewrite IH. f_equal. unfold f3. rewrite N.shiftr_div_pow2. change (2 ^ 4) with 16.
    change 15 with (N.ones 4). rewrite N.land_ones. change (2 ^ 4) with 16.
    rewrite (N.mul_comm 16 (h mod 16)), N.mod_add by lia. reflexivity.
  - pose proof (N.div_mod b 16 ltac:(lia)). change (2 ^ 8) with 256 in *. lia.
  - reflexivity.
Qed.

Lemma seq_shift8 h n : forall s,
  length (filter (fun i => N.testbit h (i - 8)) (map N.of_nat (seq (s + 8) n))) =
  length (filter (N.testbit h) (map N.of_nat (seq s n))).
Proof.
  induction n as [|n IH]; intros s; [reflexivity|].
  cbn [seq map filter]. replace (N.of_nat (s + 8) - 8) with (N.of_nat s) by lia.
  specialize (IH (S s)). replace (S s + 8)%nat with (S (s + 8))%nat in IH by lia.
  destruct (N.testbit h (N.of_nat s)); cbn [length]; [f_equal; exact IH|exact IH].
Qed.

Lemma popcount_split n h l : l < 2 ^ 8 ->
  popcount (8 + n) (h * 2 ^ 8 + l) = popcount 8 l + popcount n h.
Proof.
  intros Hl. unfold popcount, bit_positions.
  rewrite seq_app, map_app, filter_app, app_length, Nat2N.inj_add. f_equal.
  - f_equal. f_equal. apply filter_ext_in. intros i Hi.
    apply in_map_iff in Hi. destruct Hi as (j & <- & Hj). apply in_seq in Hj.
    rewrite testbit_split by auto. destruct (N.ltb_spec (N.of_nat j) 8); try lia; reflexivity.
  - f_equal.
    transitivity (length (filter (fun i => N.testbit h (i - 8)) (map N.of_nat (seq (0 + 8) n)))).
    + f_equal. apply filter_ext_in. intros i Hi.
      apply in_map_iff in Hi. destruct Hi as (j & <- & Hj). apply in_seq in Hj.
      rewrite testbit_split by auto. destruct (N.ltb_spec (N.of_nat j) 8); try lia; reflexivity.
    + apply seq_shift8.
Qed.

Fixpoint nsum (l : list N) : N := match l with [] => 0 | x :: t => x + nsum t end.

Lemma popcount_val bs : bytes_ok bs ->
  popcount (8 * length bs) (val bs) = nsum (map (popcount 8) bs).
Proof.
  induction 1 as [|b t Hb Ht IH]; [reflexivity|].
  cbn [val length map nsum]. replace (8 * S (length t))%nat with (8 + 8 * length t)%nat by lia.
  rewrite popcount_split by auto. rewrite IH. reflexivity.
Qed.

Lemma count_set_spec x : x < 2 ^ 64 -> count_set x = popcount 64 x.
Proof.
  intros Hx. destruct (val_surj 8 x) as (bs & Hl & Hok & <-); [exact Hx|].
  replace (popcount 64 (val bs)) with (popcount (8 * length bs) (val bs)) by (rewrite Hl; reflexivity).
  rewrite popcount_val by auto.
  assert (Hok1 : bytes_ok (map f1 bs)).
  { apply Forall_map. eapply Forall_impl; [|exact Hok]. intros b Hb. apply f1_ok; auto. }
  assert (Hok2 : Forall (fun b => b < 2 ^ 8 /\ b mod 16 <= 4 /\ b / 16 <= 4) (map f2 (map f1 bs))).
  { rewrite map_map. apply Forall_map. eapply Forall_impl; [|exact Hok]. intros b Hb. apply f2_ok; auto. }
  assert (Hok2' : bytes_ok (map f2 (map f1 bs))).
  { eapply Forall_impl; [|exact Hok2]. intros b (H & _). exact H. }
  assert (E3 : map f3 (map f2 (map f1 bs)) = map (popcount 8) bs).
  { rewrite !map_map. apply map_ext_in. intros b Hb. apply f3_ok.
    unfold bytes_ok in Hok. rewrite Forall_forall in Hok. auto. }
  assert (Hle : Forall (fun c => c <= 8) (map (popcount 8) bs)).
  { rewrite <- E3, !map_map. apply Forall_map. eapply Forall_impl; [|exact Hok].
    intros b Hb. apply f3_ok; auto. }
  pose proof (step1_val bs Hok) as [Hs1 Hs1'].
  pose proof (step2_val (map f1 bs) Hok1) as Hs2.
  pose proof (step3_val _ Hok2) as Hs3.
  rewrite !map_length in *. rewrite Hl in *. rewrite E3 in Hs3.
  pose proof (val_lt _ Hok1) as B1. pose proof (val_lt _ Hok2') as B2.
  rewrite map_length, Hl in B1. rewrite map_length, map_length, Hl in B2. change (8 * N.of_nat 8) with 64 in *.
  change (rep 85 8) with 0x5555555555555555 in *.
  change (rep 51 8) with 0x3333333333333333 in *.
  change (rep 15 8) with 0x0f0f0f0f0f0f0f0f in *.
  unfold count_set. cbv zeta.
  assert (W1 : forall a, a <= val bs -> wsub 64 (val bs) a = val bs - a).
  { intros a Ha. unfold wsub. rewrite (N.mod_small a) by lia.
    replace (val bs + (2 ^ 64 - a)) with ((val bs - a) + 1 * 2 ^ 64) by lia.
    rewrite N.mod_add by apply pow2_nz. apply N.mod_small. lia. }
  rewrite W1 by exact Hs1. rewrite Hs1'.
  unfold wadd. rewrite Hs2. rewrite (N.mod_small (val (map f2 (map f1 bs)))) by exact B2.
  set (y := val (map f2 (map f1 bs))) in *.
  assert (Y : y + N.shiftr y 4 < 2 ^ 64).
  { subst y. destruct bs as [|b0 [|b1 [|b2 [|b3 [|b4 [|b5 [|b6 [|b7 [|]]]]]]]]]; try discriminate Hl.
    rewrite N.shiftr_div_pow2. change (2 ^ 4) with 16.
    assert (val (map f2 (map f1 [b0; b1; b2; b3; b4; b5; b6; b7])) < 2 ^ 63).
    { cbn [map val] in *. repeat match goal with H : Forall _ (_ :: _) |- _ => inversion H; clear H; subst end.
      assert (f2 (f1 b7) < 80).
      { clear - H17. destruct H17 as (_ & Hm & Hd).
        pose proof (N.div_mod (f2 (f1 b7)) 16 (N.neq_succ_0 15)). lia. }
      change (2 ^ 8) with 256 in *. change (2 ^ 63) with 9223372036854775808. lia. }
    assert (forall z, z < 2 ^ 63 -> z + z / 16 < 2 ^ 64).
    { intros z Hz. assert (z / 16 <= z) by (apply N.div_le_upper_bound; lia). lia. }
    auto. }
  rewrite (N.mod_small (y + N.shiftr y 4)) by exact Y.
  rewrite Hs3.
  clear - Hle Hl.
  destruct bs as [|b0 [|b1 [|b2 [|b3 [|b4 [|b5 [|b6 [|b7 [|]]]]]]]]]; try discriminate Hl.
  cbn [map val nsum] in *.
  set (c0 := popcount 8 b0) in *. set (c1 := popcount 8 b1) in *. set (c2 := popcount 8 b2) in *.
  set (c3 := popcount 8 b3) in *. set (c4 := popcount 8 b4) in *. set (c5 := popcount 8 b5) in *.
  set (c6 := popcount 8 b6) in *. set (c7 := popcount 8 b7) in *.
  repeat match goal with H : Forall _ (_ :: _) |- _ => inversion H; clear H; subst end.
  clearbody c0 c1 c2 c3 c4 c5 c6 c7.
  unfold wmul. rewrite N.shiftr_div_pow2. rewrite N.add_0_r.
  set (r := c0 + 256 * (c0 + c1 + 256 * (c0 + c1 + c2 + 256 * (c0 + c1 + c2 + c3 +
    256 * (c0 + c1 + c2 + c3 + c4 + 256 * (c0 + c1 + c2 + c3 + c4 + c5 +
    256 * (c0 + c1 + c2 + c3 + c4 + c5 + c6))))))).
  set (s := c0 + (c1 + (c2 + (c3 + (c4 + (c5 + (c6 + c7))))))).
  assert (Hr : r < 2 ^ 56) by (subst r; change (2 ^ 56) with 72057594037927936; lia).
  assert (Hs : s < 2 ^ 8) by (subst s; change (2 ^ 8) with 256; lia).
  set (q := (c1+c2+c3+c4+c5+c6+c7) + 256 * ((c2+c3+c4+c5+c6+c7) + 256 * ((c3+c4+c5+c6+c7) +
     256 * ((c4+c5+c6+c7) + 256 * ((c5+c6+c7) + 256 * ((c6+c7) + 256 * c7)))))).
  match goal with |- (?p mod _) / _ = _ => assert (Ep : p = (r + s * 2 ^ 56) + q * 2 ^ 64) end.
  { subst r s q. change (2 ^ 8) with 256. change (2 ^ 56) with 72057594037927936.
    change (2 ^ 64) with 18446744073709551616. lia. }
  rewrite Ep. rewrite N.mod_add by apply pow2_nz.
  rewrite N.mod_small.
  - rewrite N.div_add by apply pow2_nz. rewrite N.div_small by exact Hr. lia.
  - change (2 ^ 64) with (2 ^ 56 * 2 ^ 8). nia.
Qed.

Lemma popcount_ones k : k <= 64 -> popcount 64 (N.ones k) = k.
Proof.
  intros H.
  assert (Hs : forallb (fun k => popcount 64 (N.ones k) =? k) (map N.of_nat (seq 0 65)) = true)
    by (vm_compute; reflexivity).
  rewrite forallb_forall in Hs. apply N.eqb_eq. apply Hs. apply in_map_iff.
  exists (N.to_nat k). split; [lia|]. apply in_seq. lia.
Qed.

Lemma count_lowest_unset_spec x :
  x < 2 ^ 64 -> is_trailing_zeros 64 x (count_lowest_unset x).
Proof.
  intros H2. unfold count_lowest_unset.
  destruct (N.eqb_spec x 0) as [->|].
  { repeat split; try lia; intros; apply N.bits_0. }
  assert (H1 : 0 < x) by lia.
  destruct (lowest_set_spec x H1 H2) as (k & E & Hk & Hlow).
  assert (Hk64 : k < 64).
  { destruct (N.lt_ge_cases k 64) as [|Hge]; auto. rewrite (testbit_high x 64 k) in Hk by auto. discriminate. }
  rewrite E, mask_lower_spec by auto.
  rewrite count_set_spec, popcount_ones by (try lia; rewrite ones_pred;
    assert (2 ^ k < 2 ^ 64) by (apply pow2_lt_iff; auto); lia).
  split; [lia|]. split; auto.
Qed.

Lemma bit_set_spec n : n <= 64 -> bit_set n = Some (N.ones n).
Proof.
  intros H.
  assert (Hs : forallb (fun n => match bit_set n with Some r => r =? N.ones n | None => false end)
                 (map N.of_nat (seq 0 65)) = true) by (vm_compute; reflexivity).
  rewrite forallb_forall in Hs. specialize (Hs n).
  destruct (bit_set n).
  - f_equal. apply N.eqb_eq. apply Hs. apply in_map_iff.
    exists (N.to_nat n). split; [lia|]. apply in_seq. lia.
  - discriminate Hs. apply in_map_iff.
    exists (N.to_nat n). split; [lia|]. apply in_seq. lia.
Qed.

Lemma land_pred_zero x : 0 < x -> (N.land x (x - 1) = 0 <-> power_of_two x).
Proof.
  intros H1. destruct (lowest_decomp x H1) as (m & k & ->).
  assert (E : N.land (m * 2 ^ (k + 1) + 2 ^ k) (m * 2 ^ (k + 1) + 2 ^ k - 1) = m * 2 ^ (k + 1)).
  { apply N.bits_inj. intros i. rewrite N.land_spec, lowest_decomp_bits, lowest_pred_bits.
    rewrite testbit_mul_pow2.
    destruct (N.ltb_spec i k), (N.ltb_spec i (k + 1)), (N.eqb_spec i k); try lia;
      cbn [andb]; auto; apply andb_diag. }
  rewrite E. split.
  - intros Hz. exists k. lia.
  - intros (j & Hj).
    assert (Hb : forall i, N.testbit (m * 2 ^ (k + 1) + 2 ^ k) i = (i =? j))
      by (intros i; rewrite Hj; apply testbit_pow2).
    pose proof (Hb k) as Hbk. rewrite lowest_decomp_bits, N.ltb_irrefl, N.eqb_refl in Hbk.
    symmetry in Hbk. apply N.eqb_eq in Hbk. subst j.
    pose proof (pow2_pos k). lia.
Qed.

Lemma is_power_of_2_spec x : x < 2 ^ 64 -> (is_power_of_2 x = true <-> power_of_two x).
Proof.
  intros Hx. unfold is_power_of_2. destruct (N.eqb_spec x 0) as [->|Hz]; cbn [negb andb].
  - split; [discriminate|]. intros (k & Hk). pose proof (pow2_pos k). lia.
  - rewrite not_neg_pred by lia. rewrite N.eqb_eq. apply land_pred_zero. lia.
Qed.

(** ** Floats *)

Lemma pow2_units_normal mb e m :
  m < 2 ^ mb -> (power_of_two ((2 ^ mb + m) * 2 ^ e) <-> m = 0).
Proof.
  intros Hm. split.
  - intros (j & Hj).
    assert (Hb : forall i, N.testbit ((2 ^ mb + m) * 2 ^ e) i = (i =? j))
      by (intros i; rewrite Hj; apply testbit_pow2).
    assert (Hb2 : forall i, N.testbit (1 * 2 ^ mb + m) i = (i + e =? j)).
    { intros i. specialize (Hb (i + e)). rewrite testbit_mul_pow2 in Hb.
      destruct (N.ltb_spec (i + e) e); try lia. rewrite <- Hb. f_equal; lia. }
    assert (Htop : mb + e = j).
    { apply N.eqb_eq. rewrite <- Hb2. rewrite testbit_split by auto.
      rewrite N.ltb_irrefl, N.sub_diag. reflexivity. }
    apply N.bits_inj. intros i. rewrite N.bits_0.
    destruct (N.lt_ge_cases i mb).
    + specialize (Hb2 i). rewrite testbit_split in Hb2 by auto.
      destruct (N.ltb_spec i mb); try lia; rewrite Hb2; apply N.eqb_neq; lia.
    + apply (testbit_high m mb); auto.
  - intros ->. exists (mb + e). rewrite N.add_0_r, N.pow_add_r. reflexivity.
Qed.

Lemma float_spec mb eb x (f : N -> bool) :
  (forall x, f x = negb ((x =? 0) || (x =? 2 ^ (mb + eb))) && (x mod 2 ^ mb =? 0)) ->
  f_normal mb eb x -> f_neg mb eb x = false ->
  (f x = true <-> f_power_of_two mb eb x).
Proof.
  intros Hf (He & Hfin) Hneg. rewrite Hf.
  assert (Hx0 : x <> 0).
  { intros ->. apply He. unfold f_exp. rewrite N.div_0_l by apply pow2_nz.
    apply N.mod_0_l. apply pow2_nz. }
  assert (Hx1 : x <> 2 ^ (mb + eb)).
  { intros ->. unfold f_neg in Hneg. rewrite N.pow2_bits_true in Hneg. discriminate. }
  destruct (N.eqb_spec x 0); try lia. destruct (N.eqb_spec x (2 ^ (mb + eb))); try lia.
  cbn [orb negb andb]. rewrite N.eqb_eq. unfold f_power_of_two, f_units.
  destruct (N.eqb_spec (f_exp mb eb x) 0); try lia.
  rewrite pow2_units_normal by (apply N.mod_lt; apply pow2_nz).
  unfold f_mant. tauto.
Qed.

Lemma float32_eq x :
  float32_is_power_of_2 x = negb ((x =? 0) || (x =? 2 ^ (23 + 8))) && (x mod 2 ^ 23 =? 0).
Proof.
  unfold float32_is_power_of_2. change 0x7fffff with (N.ones 23). rewrite N.land_ones. reflexivity.
Qed.

Lemma float64_eq x :
  float64_is_power_of_2 x = negb ((x =? 0) || (x =? 2 ^ (52 + 11))) && (x mod 2 ^ 52 =? 0).
Proof.
  unfold float64_is_power_of_2. change 0xfffffffffffff with (N.ones 52). rewrite N.land_ones. reflexivity.
Qed.
