(** Proofs for C95. *)
From Verif Require Import Base Word BitTricksSpec SimdLaneModel SimdLaneSpec.
From Verif Require BitTricksProofs.
Local Open Scope N_scope.

Lemma width_pos w : width w -> 8 <= w <= 64.
Proof. unfold width; lia. Qed.

Lemma low_mask w b : width w -> N.land b (w - 1) = b mod w.
Proof.
  intros [->|[->|[->| ->]]].
  - change (8 - 1) with (N.ones 3). rewrite N.land_ones. reflexivity.
  - change (16 - 1) with (N.ones 4). rewrite N.land_ones. reflexivity.
  - change (32 - 1) with (N.ones 5). rewrite N.land_ones. reflexivity.
  - change (64 - 1) with (N.ones 6). rewrite N.land_ones. reflexivity.
Qed.

(** Negating modulo 2^v, with 2^v a multiple of w. *)
Lemma neg_mod v w b k : w <> 0 -> 2 ^ v = k * w -> b < 2 ^ v -> wneg v b mod w = (w - b mod w) mod w.
Proof.
  intros W K B. unfold wneg. rewrite (N.mod_small b) by exact B.
  pose proof (N.mod_lt b w W) as L. pose proof (N.div_mod b w W) as D.
  destruct (N.eq_dec b 0) as [->|Hb].
  - rewrite N.sub_0_r, N.mod_same by (rewrite K; intros E; rewrite E in K; pose proof (pow2_pos v); lia).
    rewrite (N.mod_small 0 w) by lia. rewrite N.sub_0_r, N.mod_same by exact W. reflexivity.
  - rewrite (N.mod_small (2 ^ v - b)) by lia. rewrite K.
    assert (Q : b / w < k) by (apply N.div_lt_upper_bound; [exact W|]; rewrite <- (N.mul_comm k w), <- K; exact B).
    replace (k * w - b) with ((w - b mod w) + (k - b / w - 1) * w) by nia.
    apply N.mod_add. exact W.
Qed.

Lemma pow_multiple w v : width w -> v = w \/ v = 32 -> exists k, 2 ^ v = k * w.
Proof.
  intros [->|[->|[->| ->]]] [->| ->].
  - exists (2 ^ 5). reflexivity.
  - exists (2 ^ 29). reflexivity.
  - exists (2 ^ 12). reflexivity.
  - exists (2 ^ 28). reflexivity.
  - exists (2 ^ 27). reflexivity.
  - exists (2 ^ 27). reflexivity.
  - exists (2 ^ 58). reflexivity.
  - exists (2 ^ 26). reflexivity.
Qed.

Lemma wshl_bit w a n i : N.testbit (wshl w a n) i = (i <? w) && (n <=? i) && N.testbit a (i - n).
Proof.
  unfold wshl. change ((a * 2 ^ n) mod 2 ^ w) with (wrap w (a * 2 ^ n)).
  rewrite testbit_wrap, testbit_mul_pow2.
  destruct (N.ltb_spec i n), (N.leb_spec n i); try lia; destruct (i <? w); reflexivity.
Qed.

Lemma rot_bits w a n m j : lane w a -> n < w -> m = (w - n) mod w -> j < w ->
  N.testbit (N.lor (wshl w a n) (N.shiftr a m)) j = N.testbit a ((j + m) mod w).
Proof.
  intros A Hn Hm J. unfold lane in A. rewrite N.lor_spec, wshl_bit, N.shiftr_spec by lia.
  destruct (N.ltb_spec j w); [|lia]. cbn [andb].
  destruct (N.eq_dec n 0) as [->|N0].
  - rewrite N.sub_0_r, N.mod_same in Hm by lia. subst m. rewrite N.add_0_r, N.sub_0_r, N.mod_small by lia.
    cbn [N.leb N.compare]. destruct (0 <=? j) eqn:E; [|lia]. apply orb_diag.
  - rewrite N.mod_small in Hm by lia. subst m.
    destruct (N.leb_spec n j).
    + rewrite (testbit_high a w (j + (w - n))) by (try exact A; lia). rewrite orb_false_r. cbn [andb].
      replace (j + (w - n)) with ((j - n) + 1 * w) by lia. rewrite N.mod_add by lia.
      rewrite N.mod_small by lia. reflexivity.
    + cbn [andb orb]. rewrite N.mod_small by lia. reflexivity.
Qed.

Lemma rot_lane w a n m : lane w a -> lane w (N.lor (wshl w a n) (N.shiftr a m)).
Proof.
  intros A. unfold lane in *. apply lt_pow2_bits. intros i I.
  rewrite N.lor_spec, wshl_bit, N.shiftr_spec by lia.
  destruct (N.ltb_spec i w); [lia|]. rewrite (testbit_high a w (i + m)) by (try exact A; lia). reflexivity.
Qed.

Lemma shr_plain w sg a n : sg = false \/ N.testbit a (w - 1) = false -> shr w sg a n = N.shiftr a n.
Proof. intros [->|E]; unfold shr; [reflexivity|]. rewrite E, andb_false_r. reflexivity. Qed.

Lemma add_mod_case i n w : 0 < w -> i < w -> n < w -> (i + n) mod w = if i + n <? w then i + n else i + n - w.
Proof.
  intros W I L. destruct (N.ltb_spec (i + n) w); [apply N.mod_small; lia|].
  replace (i + n) with ((i + n - w) + 1 * w) at 1 by lia. rewrite N.mod_add by lia. apply N.mod_small; lia.
Qed.

Lemma rot_left_ok w sg a v b : width w -> v = w \/ v = 32 -> lane w a -> b < 2 ^ v ->
  sg = false \/ N.testbit a (w - 1) = false ->
  rotated_left w a b (N.lor (wshl w a (N.land b (w - 1))) (shr w sg a (N.land (wneg v b) (w - 1)))).
Proof.
  intros W V A B S. pose proof (width_pos w W) as P. rewrite shr_plain by exact S.
  rewrite !low_mask by exact W. destruct (pow_multiple w v W V) as [k K].
  rewrite (neg_mod v w b k) by (lia || exact K || exact B).
  pose proof (N.mod_lt b w) as L. split; [apply rot_lane, A|]. intros i I.
  assert (J : (i + b) mod w < w) by (apply N.mod_lt; lia).
  rewrite rot_bits by (auto; lia). f_equal.
  rewrite <- (N.add_mod_idemp_r i b) by lia. set (n := b mod w) in *. assert (n < w) by (apply L; lia).
  rewrite <- N.add_mod by lia. rewrite <- N.add_assoc.
  destruct (N.eq_dec n 0) as [->|N0].
  - replace (i + (0 + (w - 0))) with (i + 1 * w) by lia. rewrite N.mod_add by lia. apply N.mod_small; lia.
  - replace (i + (n + (w - n))) with (i + 1 * w) by lia. rewrite N.mod_add by lia. apply N.mod_small; lia.
Qed.

Lemma rot_right_ok w sg a v b : width w -> v = w \/ v = 32 -> lane w a -> b < 2 ^ v ->
  sg = false \/ N.testbit a (w - 1) = false ->
  rotated_right w a b (N.lor (shr w sg a (N.land b (w - 1))) (wshl w a (N.land (wneg v b) (w - 1)))).
Proof.
  intros W V A B S. pose proof (width_pos w W) as P. rewrite shr_plain by exact S.
  rewrite !low_mask by exact W. destruct (pow_multiple w v W V) as [k K].
  rewrite (neg_mod v w b k) by (lia || exact K || exact B).
  rewrite N.lor_comm. pose proof (N.mod_lt b w) as L. split; [apply rot_lane, A|]. intros i I.
  set (n := b mod w) in *. assert (n < w) by (apply L; lia).
  rewrite rot_bits.
  - unfold n. rewrite N.add_mod_idemp_r by lia. reflexivity.
  - exact A.
  - apply N.mod_lt. lia.
  - destruct (N.eq_dec n 0) as [E|N0].
    + rewrite E, N.sub_0_r, N.mod_same, N.sub_0_r, N.mod_same by lia. reflexivity.
    + rewrite (N.mod_small (w - n)) by lia. replace (w - (w - n)) with n by lia. rewrite N.mod_small by lia. reflexivity.
  - exact I.
Qed.

(** ** Lowest bits *)

Lemma lowest_set_decomp w m k : m * 2 ^ (k + 1) + 2 ^ k < 2 ^ w -> lowest_set w (m * 2 ^ (k + 1) + 2 ^ k) = 2 ^ k.
Proof.
  intros Hlt. unfold lowest_set. pose proof (pow2_pos k). rewrite wneg_not_pred by lia.
  apply N.bits_inj. intros i.
  rewrite N.land_spec, testbit_wnot, lowest_decomp_bits, lowest_pred_bits, testbit_pow2.
  assert (Hk : k < w) by (apply pow2_lt_iff; lia).
  destruct (N.ltb_spec i k), (N.eqb_spec i k); try lia; cbn [xorb andb]; auto.
  destruct (N.testbit m (i - (k + 1))) eqn:E; cbn [andb]; auto.
    destruct (N.ltb_spec i w); [reflexivity|]. exfalso.
    assert (N.testbit (m * 2 ^ (k + 1) + 2 ^ k) i = true).
    { rewrite lowest_decomp_bits. destruct (N.ltb_spec i k), (N.eqb_spec i k); try lia; auto. }
    rewrite (testbit_high _ w i) in * by auto. discriminate.
Qed.

Lemma lowest_set_ok w a : 0 < a -> lane w a -> is_lowest true a (lowest_set w a).
Proof.
  intros H1 H2. destruct (lowest_decomp a H1) as (m & k & ->).
  rewrite lowest_set_decomp by exact H2. exists k. repeat split.
  - rewrite lowest_decomp_bits. rewrite N.ltb_irrefl, N.eqb_refl. reflexivity.
  - intros j Hj. rewrite lowest_decomp_bits. destruct (N.ltb_spec j k); try lia; reflexivity.
Qed.

Lemma lowest_unset_as_set w a : a < 2 ^ w - 1 -> lowest_unset w a = lowest_set w (wnot w a).
Proof.
  intros H. unfold lowest_unset, lowest_set. f_equal.
  rewrite wnot_sub by lia. rewrite wneg_pos by lia.
  unfold wadd. rewrite N.mod_small by lia. lia.
Qed.

Lemma lowest_unset_ok w a : a < 2 ^ w - 1 -> is_lowest false a (lowest_unset w a).
Proof.
  intros H. rewrite lowest_unset_as_set by auto.
  destruct (lowest_set_ok w (wnot w a)) as (k & E & Hk & Hlow).
  { rewrite wnot_sub by lia. lia. }
  { apply wnot_lt. lia. }
  exists k. rewrite E. split; auto.
  assert (k < w).
  { destruct (N.lt_ge_cases k w) as [|Hge]; auto.
    rewrite (testbit_high (wnot w a) w k) in Hk by (auto; apply wnot_lt; lia). discriminate. }
  rewrite testbit_wnot in Hk. destruct (N.ltb_spec k w); try lia.
  split; [destruct (N.testbit a k); auto; discriminate|].
  intros j Hj. specialize (Hlow j Hj). rewrite testbit_wnot in Hlow.
  destruct (N.ltb_spec j w); try lia; destruct (N.testbit a j); auto; discriminate.
Qed.

Lemma lowest_unset_all w : lowest_unset w (2 ^ w - 1) = 0.
Proof.
  unfold lowest_unset. rewrite <- ones_pred. replace (wnot w (N.ones w)) with 0; [reflexivity|].
  unfold wnot. rewrite N.lxor_nilpotent. reflexivity.
Qed.

Lemma lowest_set_zero w : lowest_set w 0 = 0.
Proof. reflexivity. Qed.

(** ** Masks *)

Notation orbits := BitTricksProofs.orbits.

Lemma smear_more x y s t : t <= s -> (forall i, N.testbit y i = orbits x s i) ->
  forall i, N.testbit (smear y t) i = orbits x (s + t) i.
Proof.
  intros T H i. unfold smear. rewrite N.lor_spec, N.shiftr_spec by lia. rewrite !H.
  apply eq_true_iff_eq. rewrite orb_true_iff, !BitTricksProofs.orbits_true. split.
  - intros [(j & Hj & Hb)|(j & Hj & Hb)].
    + exists j. split; auto; lia.
    + exists (t + j). split; [lia|]. rewrite <- Hb. f_equal; lia.
  - intros (j & Hj & Hb). destruct (N.lt_ge_cases j s).
    + left. exists j; auto.
    + right. exists (j - t). split; [lia|]. rewrite <- Hb. f_equal; lia.
Qed.

(** How far the mask reaches. *)
Definition reach (w : N) : N := if w =? 64 then 48 else w.

Lemma mask_bits w a i : width w -> N.testbit (mask w a) i = orbits a (reach w) i.
Proof.
  assert (B : forall i, N.testbit a i = orbits a 1 i).
  { intros k. unfold BitTricksProofs.orbits. change (N.to_nat 1) with 1%nat. cbn [seq existsb].
    change (N.of_nat 0) with 0. rewrite N.add_0_r, orb_false_r. reflexivity. }
  intros [->|[->|[->| ->]]]; revert i.
  - change (forall i, N.testbit (smear (smear (smear a 1) 2) 4) i = orbits a (1 + 1 + 2 + 4) i).
    repeat (apply smear_more; [lia|]). exact B.
  - change (forall i, N.testbit (smear (smear (smear (smear a 1) 2) 4) 8) i = orbits a (1 + 1 + 2 + 4 + 8) i).
    repeat (apply smear_more; [lia|]). exact B.
  - change (forall i, N.testbit (smear (smear (smear (smear (smear a 1) 2) 4) 8) 16) i = orbits a (1 + 1 + 2 + 4 + 8 + 16) i).
    repeat (apply smear_more; [lia|]). exact B.
  - change (forall i, N.testbit (smear (smear (smear (smear (smear (smear a 1) 2) 4) 8) 16) 16) i
       = orbits a (1 + 1 + 2 + 4 + 8 + 16 + 16) i).
    repeat (apply smear_more; [lia|]). exact B.
Qed.

Lemma mask_ones w a : width w -> a < 2 ^ reach w -> mask w a = N.ones (N.size a).
Proof.
  intros W H. apply N.bits_inj. intros i. rewrite mask_bits by exact W. rewrite testbit_ones.
  destruct (N.eq_dec a 0) as [->|Hz].
  { cbn [N.size]. apply eq_true_iff_eq. rewrite BitTricksProofs.orbits_true. split.
    - intros (j & _ & Hb). rewrite N.bits_0 in Hb. discriminate.
    - intros Hl. apply N.ltb_lt in Hl. lia. }
  assert (Hs : N.size a = N.succ (N.log2 a)) by (apply N.size_log2; auto).
  apply eq_true_iff_eq. rewrite BitTricksProofs.orbits_true, N.ltb_lt. rewrite Hs. split.
  - intros (j & Hj & Hb). destruct (N.lt_ge_cases i (N.succ (N.log2 a))); auto.
    rewrite N.bits_above_log2 in Hb by lia. discriminate.
  - intros Hl. exists (N.log2 a - i). split.
    + assert (N.log2 a < reach w) by (apply N.log2_lt_pow2; lia). lia.
    + replace (i + (N.log2 a - i)) with (N.log2 a) by lia. apply N.bit_log2; auto.
Qed.

Notation size_le_iff := BitTricksProofs.size_le_iff.

Lemma mask_ok w a : width w -> a < 2 ^ reach w -> is_least_mask_ge a (mask w a).
Proof.
  intros W H. rewrite mask_ones by auto. rewrite ones_pred. repeat split.
  - exists (N.size a). reflexivity.
  - pose proof (proj1 (size_le_iff a (N.size a)) (N.le_refl _)). lia.
  - intros k Hk. pose proof (pow2_pos k).
    assert (E : a < 2 ^ k) by lia. apply size_le_iff in E.
    apply N.sub_le_mono_r. apply N.pow_le_mono_r; lia.
Qed.

Lemma highest_ok w a : width w -> 0 < a -> a < 2 ^ reach w -> is_highest_set a (highest_set w a).
Proof.
  intros W H1 H2. exists (N.log2 a). repeat split.
  - unfold highest_set. rewrite mask_ones by auto.
    rewrite N.size_log2 by lia. apply N.bits_inj. intros i.
    rewrite N.lxor_spec, N.shiftr_spec, !testbit_ones, testbit_pow2 by lia.
    destruct (N.ltb_spec i (N.succ (N.log2 a))), (N.ltb_spec (i + 1) (N.succ (N.log2 a))),
      (N.eqb_spec i (N.log2 a)); try lia; reflexivity.
  - apply N.bit_log2. lia.
  - intros j Hj. apply N.bits_above_log2; auto.
Qed.

Lemma wsub1 w a : 1 <= a -> a < 2 ^ w -> wsub w a 1 = a - 1.
Proof.
  intros H1 H2. unfold wsub. rewrite (N.mod_small 1) by lia.
  replace (a + (2 ^ w - 1)) with ((a - 1) + 1 * 2 ^ w) by lia.
  rewrite N.mod_add by apply pow2_nz. apply N.mod_small. lia.
Qed.

Lemma reach_le w : width w -> reach w <= w.
Proof. intros [->|[->|[->| ->]]]; unfold reach; cbn; lia. Qed.

Lemma next_pow2_ok w a : width w -> 1 <= a -> a <= 2 ^ (w - 1) -> a <= 2 ^ reach w ->
  is_least_power_ge a (next_pow2 w a).
Proof.
  intros W H1 H2 H3. unfold next_pow2. pose proof (width_pos w W) as P.
  assert (T : 2 ^ w = 2 * 2 ^ (w - 1)).
  { replace w with (N.succ (w - 1)) at 1 by lia. apply N.pow_succ_r'. }
  pose proof (pow2_pos (w - 1)).
  rewrite wsub1 by lia. rewrite mask_ones by (try exact W; lia). rewrite ones_pred.
  set (k := N.size (a - 1)).
  assert (Hk : k <= w - 1) by (apply size_le_iff; lia).
  assert (Hp : 2 ^ k <= 2 ^ (w - 1)) by (apply pow2_le_iff; auto).
  pose proof (pow2_pos k).
  assert (Ew : wadd w (2 ^ k - 1) 1 = 2 ^ k).
  { unfold wadd. rewrite N.mod_small; lia. }
  rewrite Ew. repeat split.
  - exists k; reflexivity.
  - pose proof (proj1 (size_le_iff (a - 1) k) (N.le_refl _)). lia.
  - intros p (j & ->) Hj. apply pow2_le_iff. apply size_le_iff. lia.
Qed.

Lemma next_pow2_big w a : width w -> w <> 64 -> 2 ^ (w - 1) < a -> a < 2 ^ w -> next_pow2 w a = 0.
Proof.
  intros W N64 H1 H2. pose proof (width_pos w W) as P. unfold next_pow2. pose proof (pow2_pos (w - 1)).
  assert (R : reach w = w) by (unfold reach; destruct (N.eqb_spec w 64); [contradiction|reflexivity]).
  rewrite wsub1 by lia. rewrite mask_ones by (try exact W; rewrite R; lia).
  replace (N.size (a - 1)) with w.
  - rewrite ones_pred. unfold wadd. rewrite N.sub_add by (pose proof (pow2_pos w); lia). apply N.mod_same, pow2_nz.
  - apply N.le_antisymm.
    + destruct (N.le_gt_cases w (N.size (a - 1))) as [|L]; [assumption|exfalso].
      assert (L' : N.size (a - 1) <= w - 1) by lia. apply size_le_iff in L'. lia.
    + apply size_le_iff. lia.
Qed.

Lemma next_pow2_zero w : width w -> next_pow2 w 0 = 0 /\ highest_set w 0 = 0.
Proof. intros [->|[->|[->| ->]]]; split; vm_compute; reflexivity. Qed.

Lemma mask_lower_ok w k : k < w -> mask_lower_pow2 w (2 ^ k) = 2 ^ k - 1.
Proof.
  intros H. unfold mask_lower_pow2, mask_eq. pose proof (pow2_pos k).
  destruct (N.eqb_spec (2 ^ k) 0); try lia. unfold all_if.
  rewrite not_neg_pred by (try lia; apply pow2_lt_iff; exact H).
  unfold wnot. rewrite N.lxor_0_l, N.land_comm, N.land_ones. apply N.mod_small.
  assert (2 ^ k < 2 ^ w) by (apply pow2_lt_iff; exact H). lia.
Qed.

Lemma mask_lower_zero w : mask_lower_pow2 w 0 = 0.
Proof.
  unfold mask_lower_pow2, mask_eq. cbn [N.eqb all_if]. unfold wnot at 1. rewrite N.lxor_nilpotent. reflexivity.
Qed.

Lemma ones_shift w : w <= 64 -> N.shiftr (N.ones 64) (64 - w) = N.ones w.
Proof.
  intros H. apply N.bits_inj. intros i. rewrite N.shiftr_spec, !testbit_ones by lia.
  destruct (N.ltb_spec (i + (64 - w)) 64), (N.ltb_spec i w); try lia; reflexivity.
Qed.

Lemma unset_ok w a i : width w -> a < 2 ^ reach w ->
  N.testbit (mask_highest_unset w a) i = (N.size a <=? i) && (i <? w).
Proof.
  intros W H. unfold mask_highest_unset. pose proof (width_pos w W). pose proof (reach_le w W).
  rewrite ones_shift by lia. rewrite mask_ones by auto. rewrite N.lxor_spec, !testbit_ones.
  assert (N.size a <= reach w) by (apply size_le_iff; exact H).
  destruct (N.ltb_spec i w), (N.ltb_spec i (N.size a)), (N.leb_spec (N.size a) i); try lia; reflexivity.
Qed.

(** Two different set bits are no power of two. *)
Lemma two_bits x i j : N.testbit x i = true -> N.testbit x j = true -> i <> j -> ~ power_of_two x.
Proof.
  intros I J D (k & ->). rewrite testbit_pow2 in I, J. apply N.eqb_eq in I, J. congruence.
Qed.

(** ** Counting *)

Notation val := BitTricksProofs.val.
Notation rep := BitTricksProofs.rep.
Notation nsum := BitTricksProofs.nsum.
Notation f1 := BitTricksProofs.f1.
Notation f2 := BitTricksProofs.f2.
Notation f3 := BitTricksProofs.f3.
Notation bytes_ok := BitTricksProofs.bytes_ok.

Lemma shr_masked w sg a n m : n <= w -> m < 2 ^ (w - n) -> N.land (shr w sg a n) m = N.land (N.shiftr a n) m.
Proof.
  intros L H. unfold shr. destruct (sg && N.testbit a (w - 1)); [|reflexivity].
  apply N.bits_inj. intros i. rewrite !N.land_spec, N.lor_spec.
  destruct (N.lt_ge_cases i (w - n)).
  - rewrite N.shiftl_spec_low by lia. rewrite orb_false_r. reflexivity.
  - rewrite (testbit_high m (w - n) i) by auto. rewrite !andb_false_r. reflexivity.
Qed.

Lemma shr_small w sg a n : a < 2 ^ (w - 1) -> shr w sg a n = N.shiftr a n.
Proof. intros H. apply shr_plain. right. apply (testbit_high a (w - 1)); [exact H|lia]. Qed.

Definition bytes_of_width (w : N) (k : nat) : Prop :=
  (w = 8 /\ k = 1%nat) \/ (w = 16 /\ k = 2%nat) \/ (w = 32 /\ k = 4%nat) \/ (w = 64 /\ k = 8%nat).

Lemma top_small w k cs : bytes_of_width w k -> length cs = k -> Forall (fun b => b < 2 ^ 8) cs ->
  (forall d, last cs d < 128 \/ cs = []) -> val cs < 2 ^ (w - 1).
Proof.
  intros W L A T. specialize (T 0).
  destruct W as [(-> & ->)|[(-> & ->)|[(-> & ->)|(-> & ->)]]].
  - destruct cs as [|a [|]]; try discriminate L. cbn [last] in T. cbn [BitTricksProofs.val].
    destruct T as [T|T]; [|discriminate T]. change (2 ^ (8 - 1)) with 128. change (2 ^ 8) with 256. lia.
  - destruct cs as [|a [|b [|]]]; try discriminate L. cbn [last] in T. cbn [BitTricksProofs.val].
    destruct T as [T|T]; [|discriminate T].
    repeat match goal with H : Forall _ (_ :: _) |- _ => inversion H; clear H; subst end.
    change (2 ^ (16 - 1)) with 32768. change (2 ^ 8) with 256 in *. lia.
  - destruct cs as [|a [|b [|c [|d [|]]]]]; try discriminate L. cbn [last] in T. cbn [BitTricksProofs.val].
    destruct T as [T|T]; [|discriminate T].
    repeat match goal with H : Forall _ (_ :: _) |- _ => inversion H; clear H; subst end.
    change (2 ^ (32 - 1)) with 2147483648. change (2 ^ 8) with 256 in *. lia.
  - destruct cs as [|b0 [|b1 [|b2 [|b3 [|b4 [|b5 [|b6 [|b7 [|]]]]]]]]]; try discriminate L.
    cbn [last] in T. cbn [BitTricksProofs.val]. destruct T as [T|T]; [|discriminate T].
    repeat match goal with H : Forall _ (_ :: _) |- _ => inversion H; clear H; subst end.
    change (2 ^ (64 - 1)) with 9223372036854775808. change (2 ^ 8) with 256 in *. lia.
Qed.

Lemma product_top w r s q p : 8 <= w -> p = (r + s * 2 ^ (w - 8)) + q * 2 ^ w -> r < 2 ^ (w - 8) -> s < 128 ->
  forall sg, shr w sg (p mod 2 ^ w) (w - 8) = s.
Proof.
  intros W -> R S sg.
  assert (E : 2 ^ w = 2 ^ (w - 8) * 256) by (change 256 with (2 ^ 8); rewrite <- N.pow_add_r; f_equal; lia).
  assert (E' : 2 ^ (w - 1) = 2 ^ (w - 8) * 128) by (change 128 with (2 ^ 7); rewrite <- N.pow_add_r; f_equal; lia).
  rewrite N.mod_add by apply pow2_nz. rewrite N.mod_small by nia.
  rewrite shr_small by nia. rewrite N.shiftr_div_pow2, N.div_add by apply pow2_nz.
  rewrite N.div_small by exact R. reflexivity.
Qed.

Lemma sum_top w k cs sg : bytes_of_width w k -> length cs = k -> Forall (fun c => c <= 8) cs ->
  shr w sg (wmul w (val cs) (rep 1 k)) (w - 8) = nsum cs.
Proof.
  intros W L A. unfold wmul, BitTricksProofs.rep.
  destruct W as [(-> & ->)|[(-> & ->)|[(-> & ->)|(-> & ->)]]].
  - destruct cs as [|a [|]]; try discriminate L. cbn [BitTricksProofs.val BitTricksProofs.nsum repeat].
    repeat match goal with H : Forall _ (_ :: _) |- _ => inversion H; clear H; subst end.
    apply (product_top 8 0 _ 0); change (2 ^ (8 - 8)) with 1; change (2 ^ 8) with 256; lia.
  - destruct cs as [|a [|b [|]]]; try discriminate L. cbn [BitTricksProofs.val BitTricksProofs.nsum repeat].
    repeat match goal with H : Forall _ (_ :: _) |- _ => inversion H; clear H; subst end.
    apply (product_top 16 a _ b); change (2 ^ (16 - 8)) with 256; change (2 ^ 8) with 256; change (2 ^ 16) with 65536; lia.
  - destruct cs as [|a [|b [|c [|d [|]]]]]; try discriminate L.
    cbn [BitTricksProofs.val BitTricksProofs.nsum repeat].
    repeat match goal with H : Forall _ (_ :: _) |- _ => inversion H; clear H; subst end.
    apply (product_top 32 (a + 256 * (a + b + 256 * (a + b + c))) _ (b + c + d + 256 * (c + d + 256 * d)));
      change (2 ^ (32 - 8)) with 16777216; change (2 ^ 8) with 256; change (2 ^ 32) with 4294967296; lia.
  - destruct cs as [|c0 [|c1 [|c2 [|c3 [|c4 [|c5 [|c6 [|c7 [|]]]]]]]]]; try discriminate L.
    cbn [BitTricksProofs.val BitTricksProofs.nsum repeat].
    repeat match goal with H : Forall _ (_ :: _) |- _ => inversion H; clear H; subst end.
    apply (product_top 64 (c0 + 256 * (c0 + c1 + 256 * (c0 + c1 + c2 + 256 * (c0 + c1 + c2 + c3 +
      256 * (c0 + c1 + c2 + c3 + c4 + 256 * (c0 + c1 + c2 + c3 + c4 + c5 +
      256 * (c0 + c1 + c2 + c3 + c4 + c5 + c6))))))) _
      ((c1+c2+c3+c4+c5+c6+c7) + 256 * ((c2+c3+c4+c5+c6+c7) + 256 * ((c3+c4+c5+c6+c7) +
       256 * ((c4+c5+c6+c7) + 256 * ((c5+c6+c7) + 256 * ((c6+c7) + 256 * c7)))))));
      change (2 ^ (64 - 8)) with 72057594037927936; change (2 ^ 8) with 256;
      change (2 ^ 64) with 18446744073709551616; lia.
Qed.

Lemma width_bytes w : width w -> exists k, bytes_of_width w k /\ w = 8 * N.of_nat k.
Proof.
  intros [->|[->|[->| ->]]]; [exists 1%nat|exists 2%nat|exists 4%nat|exists 8%nat];
    (split; [unfold bytes_of_width; tauto|reflexivity]).
Qed.

Lemma masks w k : bytes_of_width w k ->
  N.shiftr 0x5555555555555555 (64 - w) = rep 0x55 k /\ N.shiftr 0x3333333333333333 (64 - w) = rep 0x33 k /\
  N.shiftr 0x0f0f0f0f0f0f0f0f (64 - w) = rep 0x0f k /\ N.shiftr 0x0101010101010101 (64 - w) = rep 1 k /\
  rep 0x55 k < 2 ^ (w - 1) /\ rep 0x33 k < 2 ^ (w - 2).
Proof. intros [(-> & ->)|[(-> & ->)|[(-> & ->)|(-> & ->)]]]; repeat split; reflexivity. Qed.

Lemma last_in {A} (d : A) l : l <> [] -> In (last l d) l.
Proof.
  induction l as [|a l IH]; intros H; [contradiction|]. destruct l as [|b l]; [left; reflexivity|].
  right. apply IH. discriminate.
Qed.

Lemma count_set_ok w sg a : width w -> lane w a -> count_set w sg a = popcount (N.to_nat w) a.
Proof.
  intros W Hx. destruct (width_bytes w W) as (k & K & E). unfold lane in Hx.
  rewrite E in Hx. destruct (BitTricksProofs.val_surj k a Hx) as (bs & Hl & Hok & <-).
  replace (N.to_nat w) with (8 * length bs)%nat by lia. rewrite BitTricksProofs.popcount_val by auto.
  assert (Hok1 : bytes_ok (map f1 bs)).
  { apply Forall_map. eapply Forall_impl; [|exact Hok]. intros b Hb. apply BitTricksProofs.f1_ok; auto. }
  assert (Hok2 : Forall (fun b => b < 2 ^ 8 /\ b mod 16 <= 4 /\ b / 16 <= 4) (map f2 (map f1 bs))).
  { rewrite map_map. apply Forall_map. eapply Forall_impl; [|exact Hok]. intros b Hb. apply BitTricksProofs.f2_ok; auto. }
  assert (Hok2' : bytes_ok (map f2 (map f1 bs))).
  { eapply Forall_impl; [|exact Hok2]. intros b (H & _). exact H. }
  assert (E3 : map f3 (map f2 (map f1 bs)) = map (popcount 8) bs).
  { rewrite !map_map. apply map_ext_in. intros b Hb. apply BitTricksProofs.f3_ok.
    unfold BitTricksProofs.bytes_ok in Hok. rewrite Forall_forall in Hok. auto. }
  assert (Hle : Forall (fun c => c <= 8) (map (popcount 8) bs)).
  { rewrite <- E3, !map_map. apply Forall_map. eapply Forall_impl; [|exact Hok].
    intros b Hb. apply BitTricksProofs.f3_ok; auto. }
  pose proof (BitTricksProofs.step1_val bs Hok) as [Hs1 Hs1'].
  pose proof (BitTricksProofs.step2_val (map f1 bs) Hok1) as Hs2.
  pose proof (BitTricksProofs.step3_val _ Hok2) as Hs3.
  rewrite !map_length in *. rewrite Hl in *. rewrite E3 in Hs3.
  pose proof (BitTricksProofs.val_lt _ Hok1) as B1. pose proof (BitTricksProofs.val_lt _ Hok2') as B2.
  rewrite map_length, Hl in B1. rewrite map_length, map_length, Hl in B2. rewrite <- E in B1, B2, Hx.
  destruct (masks w k K) as (M1 & M2 & M3 & M4 & S1 & S2). pose proof (width_pos w W) as P.
  unfold count_set. cbv zeta. rewrite M1, M2, M3, M4.
  rewrite (shr_masked w sg _ 1) by (try exact S1; lia).
  assert (W1 : forall a, a <= val bs -> wsub w (val bs) a = val bs - a).
  { intros a Ha. unfold wsub. rewrite (N.mod_small a) by lia.
    replace (val bs + (2 ^ w - a)) with ((val bs - a) + 1 * 2 ^ w) by lia.
    rewrite N.mod_add by apply pow2_nz. apply N.mod_small. lia. }
  rewrite W1 by exact Hs1. rewrite Hs1'. rewrite (shr_masked w sg _ 2) by (try exact S2; lia).
  unfold wadd. rewrite Hs2. rewrite (N.mod_small (val (map f2 (map f1 bs)))) by exact B2.
  set (y := val (map f2 (map f1 bs))) in *.
  assert (Y : y < 2 ^ (w - 1)).
  { apply (top_small w k); [exact K|rewrite !map_length; exact Hl|exact Hok2'|].
    intros d. destruct (map f2 (map f1 bs)) as [|x l] eqn:Q; [right; reflexivity|left].
    rewrite Forall_forall in Hok2. assert (NE : x :: l <> []) by discriminate.
    destruct (Hok2 (last (x :: l) d) (last_in d _ NE)) as (_ & Hm & Hd).
    pose proof (N.div_mod (last (x :: l) d) 16 (N.neq_succ_0 15)). lia. }
  rewrite (shr_small w sg y) by exact Y.
  assert (T : 2 ^ w = 2 * 2 ^ (w - 1)).
  { replace w with (N.succ (w - 1)) at 1 by lia. apply N.pow_succ_r'. }
  assert (Y2 : y + N.shiftr y 4 < 2 ^ w).
  { rewrite N.shiftr_div_pow2. change (2 ^ 4) with 16.
    assert (y / 16 <= y) by (apply N.div_le_upper_bound; lia). lia. }
  rewrite (N.mod_small (y + N.shiftr y 4)) by exact Y2. rewrite Hs3.
  apply sum_top; [exact K|rewrite map_length; exact Hl|exact Hle].
Qed.

Lemma popcount_ones w k : width w -> k <= w -> popcount (N.to_nat w) (N.ones k) = k.
Proof.
  intros W H. apply N.eqb_eq.
  assert (S : forallb (fun k => popcount (N.to_nat w) (N.ones k) =? k) (map N.of_nat (seq 0 (S (N.to_nat w)))) = true)
    by (destruct W as [->|[->|[->| ->]]]; vm_compute; reflexivity).
  rewrite forallb_forall in S. apply S. apply in_map_iff. exists (N.to_nat k). split; [lia|]. apply in_seq. lia.
Qed.

Lemma count_lowest_ok w sg a : width w -> lane w a -> is_trailing_zeros w a (count_lowest_unset w sg a).
Proof.
  intros W H2. unfold count_lowest_unset. pose proof (width_pos w W) as P.
  unfold compare_eq, mask_eq.
  destruct (N.eqb_spec a 0) as [->|].
  { rewrite lowest_set_zero, mask_lower_zero, count_set_ok by (try exact W; unfold lane; apply pow2_pos).
    replace (wadd w (popcount (N.to_nat w) 0) (wmul w (wneg w (all_if w true)) w)) with w.
    - repeat split; try lia; intros; apply N.bits_0.
    - destruct W as [->|[->|[->| ->]]]; vm_compute; reflexivity. }
  destruct (lowest_set_ok w a ltac:(lia) H2) as (k & E & Hk & Hlow). unfold lane in *.
  assert (Hkw : k < w).
  { destruct (N.lt_ge_cases k w) as [|Hge]; auto. rewrite (testbit_high a w k) in Hk by auto. discriminate. }
  pose proof (pow2_pos k). assert (2 ^ k < 2 ^ w) by (apply pow2_lt_iff; auto).
  rewrite E, mask_lower_ok, <- ones_pred by auto.
  rewrite count_set_ok, popcount_ones by (try exact W; try lia; unfold lane; rewrite ones_pred; lia).
  cbn [all_if]. replace (wmul w (wneg w 0) w) with 0 by (destruct W as [->|[->|[->| ->]]]; reflexivity).
  unfold wadd. rewrite N.add_0_r, N.mod_small.
  - split; [lia|]. split; auto.
  - destruct W as [->|[->|[->| ->]]]; (eapply N.lt_trans; [exact Hkw|reflexivity]).
Qed.

(** ** Arithmetic *)

Lemma top_bit w a : 0 < w -> lane w a -> N.testbit a (w - 1) = (2 ^ (w - 1) <=? a).
Proof.
  intros W A. unfold lane in A.
  assert (T : 2 ^ w = 2 * 2 ^ (w - 1)).
  { replace w with (N.succ (w - 1)) at 1 by lia. apply N.pow_succ_r'. }
  pose proof (pow2_pos (w - 1)).
  destruct (N.leb_spec (2 ^ (w - 1)) a) as [L|L].
  - rewrite N.testbit_eqb. apply N.eqb_eq.
    replace a with ((a - 2 ^ (w - 1)) + 1 * 2 ^ (w - 1)) by lia. rewrite N.div_add by lia.
    rewrite N.div_small by lia. reflexivity.
  - apply (testbit_high a (w - 1)); [exact L|lia].
Qed.

Lemma lane_number w sg a : 0 < w -> lane w a -> lane_value w sg a = number w sg a.
Proof.
  intros W A. unfold lane_value, signed_value, number. rewrite top_bit by auto.
  destruct sg; reflexivity.
Qed.

Definition same (w : N) (x y : Z) : Prop := (x mod 2 ^ Z.of_N w = y mod 2 ^ Z.of_N w)%Z.

Lemma pow_Z w : Z.of_N (2 ^ w) = (2 ^ Z.of_N w)%Z.
Proof. rewrite N2Z.inj_pow. reflexivity. Qed.

Lemma pow_Z_pos w : (0 < 2 ^ Z.of_N w)%Z.
Proof. apply Z.pow_pos_nonneg; lia. Qed.

Lemma number_same w sg a : same w (number w sg a) (Z.of_N a).
Proof.
  unfold same, number. destruct (sg && (2 ^ (w - 1) <=? a)); [|reflexivity].
  pose proof (pow_Z_pos w). replace (Z.of_N a - 2 ^ Z.of_N w)%Z with (Z.of_N a + (-1) * 2 ^ Z.of_N w)%Z by lia.
  apply Z.mod_add. lia.
Qed.

Definition in_range (w : N) (sg : bool) (z : Z) : Prop :=
  (if sg then - 2 ^ Z.of_N (w - 1) <= z < 2 ^ Z.of_N (w - 1) else 0 <= z < 2 ^ Z.of_N w)%Z.

Lemma half w : 0 < w -> (2 ^ Z.of_N w = 2 * 2 ^ Z.of_N (w - 1))%Z.
Proof. intros W. replace (Z.of_N w) with (Z.succ (Z.of_N (w - 1))) by lia. apply Z.pow_succ_r. lia. Qed.

Lemma number_range w sg a : 0 < w -> lane w a -> in_range w sg (number w sg a).
Proof.
  intros W A. unfold lane in A. assert (A' : (Z.of_N a < 2 ^ Z.of_N w)%Z) by (rewrite <- pow_Z; lia).
  unfold in_range, number. pose proof (half w W). pose proof (pow_Z_pos (w - 1)).
  destruct sg; cbn [andb]; [|lia].
  destruct (N.leb_spec (2 ^ (w - 1)) a) as [L|L]; apply N2Z.inj_le in L || apply N2Z.inj_lt in L; rewrite pow_Z in L; lia.
Qed.

Lemma same_range w sg x y : 0 < w -> in_range w sg x -> in_range w sg y -> same w x y -> x = y.
Proof.
  intros W X Y S. unfold in_range, same in *. pose proof (half w W) as H. pose proof (pow_Z_pos (w - 1)) as P.
  destruct sg.
  - pose proof (Z.div_mod x (2 ^ Z.of_N w) ltac:(lia)) as D1. pose proof (Z.div_mod y (2 ^ Z.of_N w) ltac:(lia)) as D2.
    rewrite S in D1. set (M := (2 ^ Z.of_N w)%Z) in *. set (q1 := (x / M)%Z) in *. set (q2 := (y / M)%Z) in *.
    assert (x - y = M * (q1 - q2))%Z by lia.
    assert (q1 - q2 = 0)%Z by nia. nia.
  - rewrite !Z.mod_small in S by lia. exact S.
Qed.

Lemma of_wadd w a b : same w (Z.of_N (wadd w a b)) (Z.of_N a + Z.of_N b).
Proof.
  unfold same, wadd. rewrite N2Z.inj_mod, N2Z.inj_add, pow_Z. apply Z.mod_mod. pose proof (pow_Z_pos w). lia.
Qed.
Lemma of_wmul w a b : same w (Z.of_N (wmul w a b)) (Z.of_N a * Z.of_N b).
Proof.
  unfold same, wmul. rewrite N2Z.inj_mod, N2Z.inj_mul, pow_Z. apply Z.mod_mod. pose proof (pow_Z_pos w). lia.
Qed.
Lemma of_wsub w a b : same w (Z.of_N (wsub w a b)) (Z.of_N a - Z.of_N b).
Proof.
  unfold same, wsub. pose proof (pow_Z_pos w) as P. pose proof (N.mod_lt b (2 ^ w) (pow2_nz w)) as L.
  rewrite N2Z.inj_mod, N2Z.inj_add, N2Z.inj_sub, N2Z.inj_mod, pow_Z by lia.
  rewrite Z.mod_mod by lia.
  replace (Z.of_N a + (2 ^ Z.of_N w - Z.of_N b mod 2 ^ Z.of_N w))%Z
    with ((Z.of_N a - Z.of_N b mod 2 ^ Z.of_N w) + 1 * 2 ^ Z.of_N w)%Z by lia.
  rewrite Z.mod_add by lia. apply Zminus_mod_idemp_r.
Qed.
Lemma of_wneg w a : same w (Z.of_N (wneg w a)) (- Z.of_N a).
Proof.
  unfold same, wneg. pose proof (pow_Z_pos w) as P. pose proof (N.mod_lt a (2 ^ w) (pow2_nz w)) as L.
  rewrite N2Z.inj_mod, N2Z.inj_sub, N2Z.inj_mod, pow_Z by lia. rewrite Z.mod_mod by lia.
  replace (2 ^ Z.of_N w - Z.of_N a mod 2 ^ Z.of_N w)%Z with ((0 - Z.of_N a mod 2 ^ Z.of_N w) + 1 * 2 ^ Z.of_N w)%Z by lia.
  rewrite Z.mod_add by lia. rewrite Zminus_mod_idemp_r. reflexivity.
Qed.

Lemma same_trans w x y z : same w x y -> same w y z -> same w x z.
Proof. unfold same. congruence. Qed.
Lemma same_sym w x y : same w x y -> same w y x.
Proof. unfold same. congruence. Qed.
Lemma same_add w x x' y y' : same w x x' -> same w y y' -> same w (x + y) (x' + y').
Proof. unfold same. intros A B. pose proof (pow_Z_pos w). rewrite (Z.add_mod x y), A, B, <- Z.add_mod by lia. reflexivity. Qed.
Lemma same_sub w x x' y y' : same w x x' -> same w y y' -> same w (x - y) (x' - y').
Proof. unfold same. intros A B. rewrite (Zminus_mod x y), A, B, <- Zminus_mod. reflexivity. Qed.
Lemma same_mul w x x' y y' : same w x x' -> same w y y' -> same w (x * y) (x' * y').
Proof. unfold same. intros A B. pose proof (pow_Z_pos w). rewrite (Z.mul_mod x y), A, B, <- Z.mul_mod by lia. reflexivity. Qed.
Lemma same_opp w x x' : same w x x' -> same w (- x) (- x').
Proof. intros A. apply (same_sub w 0 0 x x'); [reflexivity|exact A]. Qed.

Lemma same_modulo w z r : lane w r -> same w (Z.of_N r) z -> modulo w z r.
Proof.
  intros L S. split; [exact L|]. unfold same in S. pose proof (pow_Z_pos w) as P.
  exists (Z.of_N r / 2 ^ Z.of_N w - z / 2 ^ Z.of_N w)%Z.
  pose proof (Z.div_mod (Z.of_N r) (2 ^ Z.of_N w) ltac:(lia)). pose proof (Z.div_mod z (2 ^ Z.of_N w) ltac:(lia)). nia.
Qed.

Lemma w_lanes w a b : lane w (wadd w a b) /\ lane w (wsub w a b) /\ lane w (wmul w a b).
Proof. unfold lane, wadd, wsub, wmul. repeat split; apply N.mod_lt, pow2_nz. Qed.

Lemma madd_ok w sg a b c :
  modulo w (number w sg a * number w sg b + number w sg c) (madd w a b c) /\
  modulo w (- (number w sg a * number w sg b) + number w sg c) (neg_madd w a b c) /\
  modulo w (number w sg a * number w sg b - number w sg c) (msub w a b c) /\
  modulo w (- (number w sg a * number w sg b) - number w sg c) (neg_msub w a b c).
Proof.
  assert (P : same w (Z.of_N (wmul w a b)) (number w sg a * number w sg b)).
  { eapply same_trans; [apply of_wmul|]. apply same_mul; apply same_sym, number_same. }
  assert (Q : same w (Z.of_N (wneg w (wmul w a b))) (- (number w sg a * number w sg b))).
  { eapply same_trans; [apply of_wneg|]. apply same_opp, P. }
  assert (C : same w (Z.of_N c) (number w sg c)) by apply same_sym, number_same.
  unfold madd, neg_madd, msub, neg_msub.
  repeat split; try apply w_lanes; apply same_modulo; try apply w_lanes.
  - eapply same_trans; [apply of_wadd|]. apply same_add; assumption.
  - eapply same_trans; [apply of_wadd|]. apply same_add; assumption.
  - eapply same_trans; [apply of_wsub|]. apply same_sub; assumption.
  - eapply same_trans; [apply of_wsub|]. apply same_sub; assumption.
Qed.

Lemma select_lane w (c : bool) a b : lane w a -> lane w b ->
  N.lor (N.land (all_if w c) a) (and_not w (all_if w c) b) = if c then a else b.
Proof.
  intros A B. unfold lane in *. unfold and_not. destruct c; cbn [all_if].
  - unfold wnot. rewrite N.lxor_nilpotent. cbn [N.land]. rewrite N.lor_0_r, N.land_comm, N.land_ones.
    apply N.mod_small, A.
  - cbn [N.land]. rewrite N.lor_0_l. unfold wnot. rewrite N.lxor_0_l, N.land_comm, N.land_ones.
    apply N.mod_small, B.
Qed.

Lemma min_ok w sg a b : 0 < w -> lane w a -> lane w b ->
  lane w (min_lane w sg a b) /\ number w sg (min_lane w sg a b) = Z.min (number w sg a) (number w sg b).
Proof.
  intros W A B. unfold min_lane, mask_less. cbv zeta. rewrite select_lane by auto. rewrite !lane_number by auto.
  destruct (Z.ltb_spec (number w sg a) (number w sg b)); split; auto; lia.
Qed.
Lemma max_ok w sg a b : 0 < w -> lane w a -> lane w b ->
  lane w (max_lane w sg a b) /\ number w sg (max_lane w sg a b) = Z.max (number w sg a) (number w sg b).
Proof.
  intros W A B. unfold max_lane, mask_less. cbv zeta. rewrite select_lane by auto. rewrite !lane_number by auto.
  destruct (Z.ltb_spec (number w sg b) (number w sg a)); split; auto; lia.
Qed.

Lemma to_lane_ok w z : lane w (to_lane w z) /\ same w (Z.of_N (to_lane w z)) z.
Proof.
  unfold to_lane, lane, same. pose proof (pow_Z_pos w) as P.
  pose proof (Z.mod_pos_bound z (2 ^ Z.of_N w) P) as M. split.
  - apply N2Z.inj_lt. rewrite pow_Z, Z2N.id by lia. lia.
  - rewrite Z2N.id by lia. apply Z.mod_mod. lia.
Qed.

Lemma quot_range w sg x y : 0 < w -> in_range w sg x -> in_range w sg y -> (y <> 0)%Z ->
  ~ (x = - 2 ^ Z.of_N (w - 1) /\ y = -1)%Z -> in_range w sg (Z.quot x y).
Proof.
  intros W X Y N0 L. unfold in_range in *. pose proof (pow_Z_pos (w - 1)) as P. destruct sg.
  - assert (A : (Z.abs (Z.quot x y) * Z.abs y <= Z.abs x)%Z).
    { assert (X0 : (0 <= Z.abs x)%Z) by lia. assert (Y0 : (Z.abs y <> 0)%Z) by lia.
      pose proof (Z.mul_quot_le (Z.abs x) (Z.abs y) X0 Y0) as M. rewrite Z.quot_abs in M by exact N0.
      rewrite Z.mul_comm. apply M. }
    assert (B : (Z.quot x y < 2 ^ Z.of_N (w - 1))%Z).
    { destruct (Z.eq_dec (Z.abs y) 1) as [E|E]; [|nia].
      assert (y = 1 \/ y = -1)%Z as [->| ->] by lia.
      - rewrite Z.quot_1_r. lia.
      - replace (Z.quot x (-1)) with (- x)%Z; [lia|]. change (-1)%Z with (- (1))%Z.
        rewrite Z.quot_opp_r by lia. rewrite Z.quot_1_r. reflexivity. }
    split; [nia|exact B].
  - rewrite Z.quot_div_nonneg by lia. split; [apply Z.div_pos; lia|]. apply Z.div_lt_upper_bound; nia.
Qed.

Lemma rem_range w sg x y : 0 < w -> in_range w sg x -> in_range w sg y -> (y <> 0)%Z -> in_range w sg (Z.rem x y).
Proof.
  intros W X Y N0. unfold in_range in *. pose proof (Z.rem_bound_abs x y N0) as B. destruct sg.
  - lia.
  - rewrite Z.rem_mod_nonneg by lia. pose proof (Z.mod_pos_bound x y ltac:(lia)). lia.
Qed.

Lemma divide_ok w sg a b : width w -> lane w a -> lane w b -> number w sg b <> 0%Z ->
  ~ (number w sg a = - 2 ^ Z.of_N (w - 1) /\ number w sg b = -1)%Z ->
  exists q r, div_lane w sg a b = Some q /\ mod_lane w sg a b = Some r /\ lane w q /\ lane w r /\
    number w sg q = Z.quot (number w sg a) (number w sg b) /\ number w sg r = Z.rem (number w sg a) (number w sg b).
Proof.
  intros W A B N0 L. pose proof (width_pos w W) as P. assert (P0 : 0 < w) by lia.
  pose proof (number_range w sg a P0 A) as RA. pose proof (number_range w sg b P0 B) as RB.
  set (q := to_lane w (Z.quot (number w sg a) (number w sg b))).
  assert (D : div_lane w sg a b = Some q).
  { unfold div_lane. cbv zeta. rewrite !lane_number by auto.
    destruct (Z.eqb_spec (number w sg b) 0); [contradiction|].
    replace (Z.of_N w - 1)%Z with (Z.of_N (w - 1)) by lia.
    destruct (Z.eqb_spec (number w sg a) (- 2 ^ Z.of_N (w - 1))), (Z.eqb_spec (number w sg b) (-1));
      try (exfalso; tauto); rewrite ?andb_false_r; reflexivity. }
  destruct (to_lane_ok w (Z.quot (number w sg a) (number w sg b))) as [LQ SQ]. fold q in LQ, SQ.
  exists q, (wsub w a (wmul w q b)). split; [exact D|]. split; [unfold mod_lane; rewrite D; reflexivity|].
  split; [exact LQ|]. split; [apply w_lanes|]. split.
  - apply (same_range w sg); auto using number_range, quot_range.
    eapply same_trans; [apply number_same|exact SQ].
  - apply (same_range w sg); [exact P0|apply number_range; [exact P0|apply w_lanes]|apply rem_range; auto|].
    eapply same_trans; [apply number_same|]. eapply same_trans; [apply of_wsub|].
    replace (Z.rem (number w sg a) (number w sg b))
      with (number w sg a - Z.quot (number w sg a) (number w sg b) * number w sg b)%Z
      by (pose proof (Z.quot_rem (number w sg a) (number w sg b) N0); lia).
    apply same_sub; [apply same_sym, number_same|].
    eapply same_trans; [apply of_wmul|]. apply same_mul; [exact SQ|apply same_sym, number_same].
Qed.
