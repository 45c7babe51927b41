(** * Proofs about the bit arrays: CCBitsAny, CCBitsMask and single bits *)
From Coq Require Import Permutation.
From Verif Require Import Base Word BitsModel BitsSpec BitsProofs BitsReadProofs.
From Verif Require BitTricksModel BitTricksSpec BitTricksProofs.

Lemma nonzero_cnt w x : (x < 2 ^ N.of_nat w)%N ->
  negb (x =? 0)%N = (0 <? cnt (fun i => N.testbit x (N.of_nat i)) 0 w).
Proof.
  intros H. destruct (N.eqb_spec x 0) as [->|X]; cbn [negb].
  - rewrite cnt_zero; [reflexivity|]. intros. apply N.bits_0.
  - symmetry. apply Nat.ltb_lt. unfold cnt.
    destruct (filter _ _) as [|h t] eqn:F; [|cbn; lia]. exfalso. apply X.
    apply N.bits_inj. intros j. rewrite N.bits_0.
    destruct (N.lt_ge_cases j (N.of_nat w)) as [L|L].
    + destruct (N.testbit x j) eqn:B; auto. exfalso.
      assert (I : In (N.to_nat j) (filter (fun i => N.testbit x (N.of_nat i)) (seq 0 w))).
      { apply filter_In. split; [apply in_seq; lia|]. rewrite N2Nat.id. auto. }
      rewrite F in I. exact I.
    + apply (testbit_high x (N.of_nat w)); auto.
Qed.

Lemma any_words_ok m : array 8 m -> forall n at_, at_ + 8 * n <= length m ->
  any_words n at_ m = Some (0 <? cnt (bit 8 m) (8 * at_) (64 * n)).
Proof.
  intros A. induction n as [|n IH]; intros at_ L; [reflexivity|]. cbn [any_words].
  destruct (read64_ok m at_ A) as (x & -> & Hx & Bx); [lia|].
  rewrite (nonzero_cnt 64) by auto.
  rewrite (cnt_shift (fun i => N.testbit x (N.of_nat i)) (bit 8 m) 0 (8 * at_) 64) by (intros; apply Bx; lia).
  replace (64 * S n) with (64 + 64 * n) by lia. rewrite cnt_split.
  rewrite IH by lia. replace (8 * (at_ + 8)) with (8 * at_ + 64) by lia.
  destruct (Nat.ltb_spec 0 (cnt (bit 8 m) (8 * at_) 64)); f_equal; lia.
Qed.

Lemma any_octets_ok m : array 8 m -> forall n at_, at_ + n <= length m ->
  any_octets n at_ m = Some (0 <? cnt (bit 8 m) (8 * at_) (8 * n)).
Proof.
  intros A. induction n as [|n IH]; intros at_ L; [reflexivity|]. cbn [any_octets].
  rewrite read8_ok by lia. rewrite (nonzero_cnt 8) by (apply (array_nth 8); auto).
  rewrite (cnt_shift (fun i => N.testbit (nth at_ m 0%N) (N.of_nat i)) (bit 8 m) 0 (8 * at_) 8)
    by (intros; rewrite bit8 by lia; reflexivity).
  replace (8 * S n) with (8 + 8 * n) by lia. rewrite cnt_split.
  rewrite IH by lia. replace (8 * (at_ + 1)) with (8 * at_ + 8) by lia.
  destruct (Nat.ltb_spec 0 (cnt (bit 8 m) (8 * at_) 8)); f_equal; lia.
Qed.

Lemma first_cnt m index count : array 8 m -> inside m index count ->
  exists r, first_bits m index count = Some r /\ (r < 256)%N /\
    cnt (fun i => N.testbit r (N.of_nat i)) 0 8 =
      cnt (bit 8 m) index (if index mod 8 + count <? 8 then count else if index mod 8 =? 0 then 0 else 8 - index mod 8).
Proof.
  intros A I. destruct (first_bits_ok m index count A I) as (r & Er & Hr & Br).
  exists r. split; [auto|split; [auto|]].
  destruct (split8 index) as (q & a & E & Ha & Hd & Hm). rewrite Hm, Hd in *.
  set (n := if a + count <? 8 then _ else _).
  assert (Hn : a + n <= 8 /\ n <= count).
  { unfold n. destruct (Nat.ltb_spec (a + count) 8), (Nat.eqb_spec a 0); lia. }
  match goal with |- cnt ?f 0 8 = _ =>
    replace (cnt f 0 8) with (cnt f 0 a + (cnt f a n + cnt f (a + n) (8 - a - n)))
      by (rewrite <- cnt_split; replace a with (0 + a) at 2 by lia; rewrite <- cnt_split; f_equal; lia) end.
  rewrite (cnt_zero _ 0 a), (cnt_zero _ (a + n)).
  - rewrite Nat.add_0_r. cbn [Nat.add]. apply cnt_shift. intros i Hi. rewrite Br by lia.
    replace (within (a + i) a count) with true by (unfold within; lia).
    replace ((a + count <? 8) || negb (a =? 0)) with true by (unfold n in Hi; destruct (Nat.ltb_spec (a + count) 8), (Nat.eqb_spec a 0); cbn; lia).
    cbn [andb]. f_equal. lia.
  - intros i Hi. rewrite Br by lia. unfold n in *. clear n.
    destruct (Nat.ltb_spec (a + count) 8) as [L|L], (Nat.eqb_spec a 0) as [Z|Z]; cbn [orb negb andb];
      try reflexivity; replace (within _ a count) with false by (unfold within; lia); reflexivity.
  - intros i Hi. rewrite Br by lia. replace (within (0 + i) a count) with false by (unfold within; lia).
    now rewrite andb_false_r.
Qed.

Lemma any_range_ok m index count : array 8 m -> inside m index count ->
  let found := 0 <? cnt (bit 8 m) index count in
  (~ any_undefined index count -> any_range m index count = Some found) /\
  (any_undefined index count -> any_range m index count =
     if 0 <? cnt (bit 8 m) index (count - (index + count) mod 8) then Some true else None).
Proof.
  intros A I. pose proof I as [I1 I2]. cbv zeta.
  destruct (first_cnt m index count A I) as (r & Er & Hr & Cr).
  destruct (split_facts index count) as (q & a & E & Ha & Hm & O & C).
  unfold any_range, any_undefined. rewrite Er, (nonzero_cnt 8 r Hr), Cr, Hm.
  destruct C as [(S & -> & -> & ->)|(S & n64 & n8 & rest & -> & -> & -> & H8 & Hrest & Sum)].
  - split; [intros _|lia]. cbn [any_words any_octets].
    replace (a + count <? 8) with true by lia. replace (negb (0 mod 8 =? 0)) with false by reflexivity.
    destruct (0 <? cnt (bit 8 m) index count); reflexivity.
  - set (o := offset8 index) in *.
    replace (a + count <? 8) with false by lia.
    set (h := if a =? 0 then 0 else 8 - a).
    assert (Hh : a = 0 /\ o = q /\ h = 0 \/ a <> 0 /\ o = q + 1 /\ h = 8 - a) by (unfold h; destruct (Nat.eqb_spec a 0); lia).
    clearbody o h.
    rewrite any_words_ok, any_octets_ok by (auto; lia).
    assert (Rm : (index + count) mod 8 = rest).
    { replace (index + count) with (8 * (o + 8 * n64 + n8) + rest) by lia. apply mod8; auto. }
    assert (Hd : a <> 0 -> (a + count) / 8 mod 8 = (n8 + 1) mod 8).
    { intros X. replace (a + count) with (8 * (8 * n64 + n8 + 1) + rest) by lia. rewrite div8 by auto.
      replace (8 * n64 + n8 + 1) with ((n8 + 1) + n64 * 8) by lia. apply Nat.mod_add. lia. }
    assert (Hd0 : (n8 + 1) mod 8 = 0 <-> n8 = 7).
    { clear - H8. split; intros X; [|subst; reflexivity].
      destruct (Nat.lt_ge_cases (n8 + 1) 8); [rewrite Nat.mod_small in X by lia; lia|lia]. }
    assert (Cnt : cnt (bit 8 m) index (count - rest) =
      cnt (bit 8 m) index h + (cnt (bit 8 m) (8 * o) (64 * n64) + cnt (bit 8 m) (8 * (o + n64 * 8)) (8 * n8))).
    { replace (count - rest) with (h + (64 * n64 + 8 * n8)) by lia. rewrite !cnt_split.
      replace (index + h) with (8 * o) by lia. do 2 f_equal. f_equal. lia. }
    assert (Cnt2 : cnt (bit 8 m) index count = cnt (bit 8 m) index (count - rest) + cnt (bit 8 m) (8 * (o + n64 * 8) + 8 * n8) rest).
    { replace count with ((count - rest) + rest) at 1 by lia. rewrite cnt_split. do 2 f_equal. lia. }
    rewrite Rm. rewrite Cnt2, Cnt in *.
    set (c1 := cnt (bit 8 m) index h) in *. set (c2 := cnt (bit 8 m) (8 * o) (64 * n64)) in *.
    set (c3 := cnt (bit 8 m) (8 * (o + n64 * 8)) (8 * n8)) in *.
    assert (Lst : rest <> 0 -> exists x, read8 m (o + n64 * 8 + n8) = Some x /\
      negb (low_bits x rest =? 0)%N = (0 <? cnt (bit 8 m) (8 * (o + n64 * 8) + 8 * n8) rest)).
    { intros R. rewrite read8_ok by lia. eexists. split; [reflexivity|].
      rewrite (nonzero_cnt 64) by (apply low_bits_lt; lia).
      replace 64 with (rest + (64 - rest)) at 1 by lia. rewrite cnt_split, (cnt_zero _ (0 + rest)).
      - rewrite Nat.add_0_r. f_equal. apply cnt_shift. intros i Hi. rewrite low_bits_bit.
        replace (0 + i <? rest) with true by lia. rewrite andb_true_r.
        replace (8 * (o + n64 * 8) + 8 * n8 + i) with (8 * (o + n64 * 8 + n8) + i) by lia. rewrite bit8 by lia. f_equal.
      - intros i Hi. rewrite low_bits_bit. replace (0 + rest + i <? rest) with false by lia. apply andb_false_r. }
    destruct (Nat.ltb_spec 0 c2); [split; intros; [f_equal; lia|replace (0 <? c1 + (c2 + c3)) with true by lia; reflexivity]|].
    destruct (Nat.ltb_spec 0 c1); [split; intros; [f_equal; lia|replace (0 <? c1 + (c2 + c3)) with true by lia; reflexivity]|].
    destruct (Nat.ltb_spec 0 c3); [split; intros; [f_equal; lia|replace (0 <? c1 + (c2 + c3)) with true by lia; reflexivity]|].
    replace (c1 + (c2 + c3)) with 0 by lia. cbn [Nat.add].
    destruct (Nat.eqb_spec rest 0) as [R|R]; cbn [negb].
    { split; [intros _|lia]. rewrite R. reflexivity. }
    destruct (Lst R) as (x & -> & ->).
    destruct (Nat.eqb_spec a 0) as [X|X]; cbn [negb].
    { split; [reflexivity|lia]. }
    rewrite Hd by auto.
    destruct (Nat.eqb_spec n8 7) as [S7|S7].
    + split; [reflexivity|]. intros (_ & _ & _ & K). exfalso. apply K, Hd0. auto.
    + split; [|reflexivity]. intros K. exfalso. apply K. split; [auto|split; [lia|split; [auto|]]].
      intros K'. apply S7, Hd0. auto.
Qed.

(** ** CCBitsMask *)

Lemma positions_ext lo n f g : (forall i, lo <= i < lo + n -> f i = g i) -> positions lo n f = positions lo n g.
Proof. intros H. apply filter_ext_in. intros i Hi. apply in_seq in Hi. auto. Qed.

Lemma positions_app lo n k f : positions lo (n + k) f = positions lo n f ++ positions (lo + n) k f.
Proof. unfold positions. rewrite seq_app, filter_app. reflexivity. Qed.

Lemma positions_none lo n f : (forall i, lo <= i < lo + n -> f i = false) -> positions lo n f = [].
Proof.
  intros H. rewrite (positions_ext _ _ f (fun _ => false) H). unfold positions. induction (seq lo n); auto.
Qed.

Lemma positions_crop base w lo n f p : base <= lo -> lo + n <= base + w ->
  (forall i, base <= i < base + w -> f i = within i lo n && p i) -> positions base w f = positions lo n p.
Proof.
  intros H1 H2 F. replace w with ((lo - base) + (n + (base + w - (lo + n)))) by lia.
  rewrite !positions_app, (positions_none base), (positions_none (base + (lo - base) + n)).
  - rewrite app_nil_r. cbn [app]. replace (base + (lo - base)) with lo by lia. apply positions_ext.
    intros i Hi. rewrite F by lia. replace (within i lo n) with true by (unfold within; lia). reflexivity.
  - intros i Hi. rewrite F by lia. replace (within i lo n) with false by (unfold within; lia). reflexivity.
  - intros i Hi. rewrite F by lia. replace (within i lo n) with false by (unfold within; lia). reflexivity.
Qed.

Lemma set_bits_ok w : forall fuel x base, (x < 2 ^ N.of_nat w)%N -> w < fuel -> w <= 64 ->
  (w = 64 -> x <> (2 ^ 63)%N) ->
  set_bits fuel x base = Some (positions base w (fun i => N.testbit x (N.of_nat (i - base)))).
Proof.
  induction w as [w IH] using lt_wf_ind. intros fuel x base Hx Hf H64 Hlone.
  destruct fuel as [|fuel]; [lia|]. cbn [set_bits].
  destruct (N.eqb_spec x 0) as [->|X].
  { f_equal. symmetry. apply positions_none. intros. apply N.bits_0. }
  assert (Hx64 : (x < 2 ^ 64)%N).
  { eapply N.lt_le_trans; [exact Hx|]. apply N.pow_le_mono_r; lia. }
  destruct (BitTricksProofs.count_lowest_unset_spec x Hx64) as (K1 & K2 & K3).
  set (k := BitTricksModel.count_lowest_unset x) in *. clearbody k.
  assert (Kw : (k < N.of_nat w)%N).
  { destruct (N.lt_ge_cases k (N.of_nat w)) as [|G]; auto. exfalso. apply X. apply N.bits_inj. intros j.
    rewrite N.bits_0. destruct (N.lt_ge_cases j k); auto. apply (testbit_high x (N.of_nat w)); auto. lia. }
  specialize (K2 ltac:(lia)).
  assert (Kl : (k <> 63)%N).
  { intros ->. assert (w = 64) by lia. apply Hlone; auto. apply N.bits_inj. intros j. rewrite testbit_pow2.
    destruct (N.eqb_spec j 63) as [->|]; auto. destruct (N.lt_ge_cases j 63); auto.
    apply (testbit_high x 64); auto. lia. }
  destruct (Nat.leb_spec 64 (N.to_nat k + 1)); [lia|].
  rewrite (IH (w - (N.to_nat k + 1))); try lia.
  - f_equal. replace w with (N.to_nat k + (1 + (w - (N.to_nat k + 1)))) at 2 by lia.
    rewrite !positions_app, (positions_none base (N.to_nat k)).
    + assert (Bk : N.testbit x (N.of_nat (base + N.to_nat k - base)) = true) by (rewrite <- K2; f_equal; lia).
      unfold positions at 2. cbn [seq filter]. rewrite Bk.
      cbn [app]. f_equal; [lia|]. rewrite <- Nat.add_assoc. apply positions_ext. intros i Hi.
      rewrite N.shiftr_spec'. f_equal. lia.
    + intros i Hi. apply K3. lia.
  - rewrite N.shiftr_div_pow2. apply N.div_lt_upper_bound; [apply pow2_nz|]. rewrite <- N.pow_add_r.
    replace (N.of_nat (N.to_nat k + 1) + N.of_nat (w - (N.to_nat k + 1)))%N with (N.of_nat w) by lia. auto.
Qed.

Section Mask.
  Variables a b : list N.
  Hypotheses (A : array 8 a) (B : array 8 b).
  Let p := fun i => bit 8 a i && bit 8 b i.

  Lemma mask_words_ok : forall n at_, at_ + 8 * n <= length a -> at_ + 8 * n <= length b ->
    (forall k, k < n -> ~ lone p (8 * at_ + 64 * k)) ->
    mask_words n at_ a b = Some (positions (8 * at_) (64 * n) p).
  Proof.
    induction n as [|n IH]; intros at_ La Lb Hl; [reflexivity|]. cbn [mask_words].
    destruct (read64_ok a at_ A) as (x & -> & Hx & Bx); [lia|].
    destruct (read64_ok b at_ B) as (y & -> & Hy & By); [lia|].
    assert (L : (N.land x y < 2 ^ N.of_nat 64)%N).
    { apply lt_pow2_bits. intros i Hi. rewrite N.land_spec, (testbit_high x 64 i Hx) by auto. reflexivity. }
    assert (Bxy : forall j, j < 64 -> N.testbit (N.land x y) (N.of_nat j) = p (8 * at_ + j)).
    { intros j Hj. rewrite N.land_spec, Bx, By by auto. reflexivity. }
    rewrite (set_bits_ok 64); auto; try lia.
    2:{ intros _ E. apply (Hl 0 ltac:(lia)). rewrite Nat.add_0_r. split.
      - rewrite <- Bxy by lia. rewrite E, testbit_pow2. reflexivity.
      - intros j Hj. rewrite <- Bxy by lia. rewrite E, testbit_pow2. lia. }
    rewrite IH; try lia.
    - f_equal. replace (64 * S n) with (64 + 64 * n) by lia. rewrite positions_app.
      replace (8 * (at_ + 8)) with (8 * at_ + 64) by lia. f_equal.
      replace (at_ * 8) with (8 * at_) by lia. apply positions_ext. intros i Hi. rewrite Bxy by lia. f_equal. lia.
    - intros k Hk. replace (8 * (at_ + 8) + 64 * k) with (8 * at_ + 64 * S k) by lia. apply Hl. lia.
  Qed.

  Lemma mask_words_lone : forall n at_, at_ + 8 * n <= length a -> at_ + 8 * n <= length b ->
    (exists k, k < n /\ lone p (8 * at_ + 64 * k)) -> mask_words n at_ a b = None.
  Proof.
    induction n as [|n IH]; intros at_ La Lb (k & Hk & Hl); [lia|]. cbn [mask_words].
    destruct (read64_ok a at_ A) as (x & -> & Hx & Bx); [lia|].
    destruct (read64_ok b at_ B) as (y & -> & Hy & By); [lia|].
    destruct k as [|k].
    - replace (N.land x y) with (2 ^ 63)%N; [reflexivity|]. apply N.bits_inj. intros j.
      rewrite testbit_pow2, N.land_spec. destruct (N.lt_ge_cases j 64) as [L|L].
      + specialize (Bx (N.to_nat j) ltac:(lia)). specialize (By (N.to_nat j) ltac:(lia)).
        rewrite N2Nat.id in Bx, By. rewrite Bx, By. rewrite Nat.mul_0_r, Nat.add_0_r in Hl. destruct Hl as [H1 H2].
        change (bit 8 a (8 * at_ + N.to_nat j) && bit 8 b (8 * at_ + N.to_nat j)) with (p (8 * at_ + N.to_nat j)).
        destruct (N.eqb_spec j 63) as [->|Nj]; [symmetry; apply H1|]. symmetry. apply H2. lia.
      + rewrite (testbit_high x 64 j Hx) by auto. destruct (N.eqb_spec j 63); [lia|reflexivity].
    - destruct (set_bits 65 (N.land x y) (at_ * 8)); [|reflexivity]. rewrite IH; [reflexivity|lia|lia|].
      exists k. split; [lia|]. replace (8 * (at_ + 8) + 64 * k) with (8 * at_ + 64 * S k) by lia. auto.
  Qed.
End Mask.

Lemma zero_bits r : (r < 256)%N -> (forall j, j < 8 -> N.testbit r (N.of_nat j) = false) -> r = 0%N.
Proof.
  intros H Z. apply N.bits_inj. intros j. rewrite N.bits_0. destruct (N.lt_ge_cases j 8) as [L|L].
  - specialize (Z (N.to_nat j) ltac:(lia)). rewrite N2Nat.id in Z. auto.
  - apply (testbit_high r 8); auto.
Qed.

Lemma remainder_ok m index count n64 n8 rest : array 8 m ->
  count64 index count = n64 -> count8 index count = n8 -> adjusted index count mod 8 = rest ->
  n8 < 8 -> rest < 8 -> 8 * (offset8 index + n64 * 8) + 8 * n8 + rest <= 8 * length m ->
  (index mod 8 = 0 -> rest = 0 \/ n8 = 0) ->
  exists r, remainder m index count 0 = Some r /\ (r < 2 ^ 64)%N /\
    forall i, i < 64 -> N.testbit r (N.of_nat i) =
      (i <? 8 * n8 + rest) && bit 8 m (8 * (offset8 index + n64 * 8) + i).
Proof.
  intros A E64 E8 Er H8 Hr L Good. unfold remainder. rewrite E64, E8, Er.
  set (at_ := offset8 index + n64 * 8) in *. clearbody at_.
  destruct (gather_ok 0 at_ m A n8 0 0) as (r & -> & R1 & R2); [reflexivity|lia|lia|].
  assert (R3 : forall i, i < 64 -> N.testbit r (N.of_nat i) = (i <? 8 * n8) && bit 8 m (8 * at_ + i)).
  { intros i Hi. rewrite R2 by auto. rewrite N.bits_0. cbn [orb]. apply (f_equal2 andb); [unfold within; lia|f_equal; lia]. }
  destruct (Nat.eqb_spec rest 0) as [Z|Z]; cbn [negb].
  { exists r. split; [reflexivity|split; [auto|]]. intros i Hi. rewrite R3 by auto. f_equal. lia. }
  rewrite read8_ok by lia. set (x := nth (at_ + n8) m 0%N).
  assert (Lx : forall i, N.testbit (low_bits x rest) (N.of_nat i) = (i <? rest) && bit 8 m (8 * at_ + 8 * n8 + i)).
  { intros i. rewrite low_bits_bit, andb_comm. destruct (Nat.ltb_spec i rest); [|reflexivity]. cbn [andb].
    unfold x. rewrite <- bit8 by lia. f_equal. lia. }
  assert (S : exists r2, N.lor r (wshl 64 (low_bits x rest) (N.of_nat (n8 * 8))) = r2 /\ (r2 < 2 ^ 64)%N /\
    forall i, i < 64 -> N.testbit r2 (N.of_nat i) = (i <? 8 * n8 + rest) && bit 8 m (8 * at_ + i)).
  { eexists. split; [reflexivity|split; [apply lor_lt; auto; apply wshl64_lt|]]. intros i Hi.
    rewrite N.lor_spec, wshl_bit, R3 by auto. replace (N.of_nat i <? 64)%N with true by lia. cbn [andb].
    destruct (N.leb_spec (N.of_nat (n8 * 8)) (N.of_nat i)); cbn [andb].
    - replace (i <? 8 * n8) with false by lia. cbn [andb orb].
      replace (N.of_nat i - N.of_nat (n8 * 8))%N with (N.of_nat (i - 8 * n8)) by lia. rewrite Lx.
      apply (f_equal2 andb); [lia|f_equal; lia].
    - rewrite orb_false_r. f_equal. lia. }
  destruct S as (r2 & E2 & S1 & S2).
  destruct (Nat.eqb_spec (index mod 8) 0) as [Y|Y]; cbn [negb].
  - assert (n8 = 0) by (destruct (Good Y); auto; lia). subst n8.
    exists r2. split; [|auto]. rewrite <- E2. do 2 f_equal. unfold wshl. rewrite H. change (2 ^ N.of_nat (0 * 8))%N with 1%N.
    rewrite N.mul_1_r. symmetry. apply N.mod_small. apply low_bits_lt. lia.
  - destruct (Nat.eqb_spec n8 7) as [K|K]; exists r2; (split; [|auto]); rewrite <- E2; [rewrite K|]; reflexivity.
Qed.

Lemma mask_range_ok a b index count : array 8 a -> array 8 b -> length b = length a -> inside a index count ->
  let p := fun i => bit 8 a i && bit 8 b i in
  ~ mask_misplaced index count -> ~ lone_group p index count ->
  exists w h t, mask_range a b index count = Some (w ++ h ++ t) /\ h ++ w ++ t = positions index count p /\
    (index mod 8 = 0 -> h = []) /\ (index mod 8 + count < 72 -> index mod 8 <> 0 -> w = []).
Proof.
  intros A B L I. cbv zeta. intros Good Hl. pose proof I as [I1 I2].
  assert (Ib : inside b index count) by (unfold inside; lia).
  set (p := fun i => bit 8 a i && bit 8 b i) in *.
  destruct (first_bits_ok a index count A I) as (x & Ex & Hx & Bx).
  destruct (first_bits_ok b index count B Ib) as (y & Ey & Hy & By).
  destruct (split_facts index count) as (q & s & E & Hs & Hm & O & C).
  assert (Hd : index / 8 = q) by (subst index; apply div8; auto).
  unfold mask_range. rewrite Ex, Ey. rewrite Hm, Hd in *.
  assert (Lxy : (N.land x y < 2 ^ N.of_nat 8)%N).
  { apply lt_pow2_bits. intros i Hi. rewrite N.land_spec, (testbit_high x 8 i Hx) by auto. reflexivity. }
  assert (Bxy : forall j, j < 8 -> N.testbit (N.land x y) (N.of_nat j) =
    ((s + count <? 8) || negb (s =? 0)) && within j s count && p (8 * q + j)).
  { intros j Hj. rewrite N.land_spec, Bx, By by auto. unfold p.
    destruct (_ || _), (within j s count), (bit 8 a _), (bit 8 b _); reflexivity. }
  destruct C as [(S & Ca & C64 & C8)|(S & n64 & n8 & rest & C64 & C8 & Cr & H8 & Hr & Sum)].
  - replace (s + count <? 8) with true in * by lia. cbn [orb andb] in Bxy.
    rewrite C64. cbn [mask_words].
    assert (Rem : forall m z, remainder m index count z = Some z).
    { intros m z. unfold remainder. rewrite Ca, C8. reflexivity. }
    rewrite !Rem. destruct (Nat.eqb_spec s 0) as [Z|Z]; cbn [negb].
    + rewrite (set_bits_ok 8); auto; try lia.
      exists [], [], (positions index count p). rewrite O. split; [|auto]. f_equal. cbn [app].
      apply positions_crop; try lia. intros i Hi. rewrite Bxy by lia.
      apply (f_equal2 andb); [unfold within; lia|f_equal; lia].
    + rewrite O. rewrite (set_bits_ok 8); auto; try lia.
      exists [], (positions index count p), []. cbn [app]. rewrite app_nil_r. split; [|split; [reflexivity|split; [lia|auto]]].
      change (set_bits 65 (N.land 0 0) ((q + 1) * 8 + 0 * 64)) with (Some (@nil nat)).
      cbn [app]. rewrite app_nil_r. f_equal.
      apply positions_crop; try lia. intros i Hi. rewrite Bxy by lia.
      apply (f_equal2 andb); [unfold within; lia|f_equal; lia].
  - replace (s + count <? 8) with false in Bxy by lia. cbn [orb] in Bxy.
    set (o := offset8 index) in *. rewrite C64.
    assert (Ho : s = 0 /\ o = q \/ s <> 0 /\ o = q + 1) by (destruct (Nat.eqb_spec s 0); lia).
    assert (NL : forall k, k < n64 -> ~ lone p (8 * o + 64 * k)).
    { intros k Hk K. apply Hl. exists k. cbv zeta. change ((index + 7) / 8) with o.
      replace (o * 8 + 64 * k) with (8 * o + 64 * k) by lia. split; [lia|exact K]. }
    rewrite (mask_words_ok a b A B n64 o) by (try lia; exact NL).
    assert (G : index mod 8 = 0 -> rest = 0 \/ n8 = 0).
    { rewrite Hm. intros Z. destruct (Nat.eq_dec rest 0); auto. destruct (Nat.eq_dec n8 0); auto. exfalso. apply Good.
      assert (Ec : count = 64 * n64 + 8 * n8 + rest) by lia. unfold mask_misplaced. split; [lia|].
      replace count with (8 * (8 * n64 + n8) + rest) at 1 by lia. rewrite mod8 by auto. split; [auto|].
      replace count with ((8 * n8 + rest) + n64 * 64) by lia. rewrite Nat.mod_add, Nat.mod_small by lia. lia. }
    destruct (remainder_ok a index count n64 n8 rest A C64 C8 Cr H8 Hr) as (ra & Ra & La & Ba); [fold o; lia|exact G|].
    destruct (remainder_ok b index count n64 n8 rest B C64 C8 Cr H8 Hr) as (rb & Rb & Lb & Bb); [fold o; lia|exact G|].
    fold o in Ba, Bb.
    assert (X0 : s = 0 -> x = 0%N).
    { intros Z. apply zero_bits; auto. intros j Hj. rewrite Bx by auto. replace (s + count <? 8) with false by lia.
      replace (s =? 0) with true by lia. reflexivity. }
    assert (Y0 : s = 0 -> y = 0%N).
    { intros Z. apply zero_bits; auto. intros j Hj. rewrite By by auto. replace (s + count <? 8) with false by lia.
      replace (s =? 0) with true by lia. reflexivity. }
    assert (Rx : (if negb (s =? 0) then 0%N else x) = 0%N) by (destruct (Nat.eqb_spec s 0); cbn [negb]; auto).
    assert (Ry : (if negb (s =? 0) then 0%N else y) = 0%N) by (destruct (Nat.eqb_spec s 0); cbn [negb]; auto).
    rewrite Rx, Ry, Ra, Rb.
    assert (T : set_bits 65 (N.land ra rb) (o * 8 + n64 * 64) =
      Some (positions (8 * o + 64 * n64) (8 * n8 + rest) p)).
    { assert (Bl : forall i, i < 64 -> N.testbit (N.land ra rb) (N.of_nat i) = (i <? 8 * n8 + rest) && p (8 * o + 64 * n64 + i)).
      { intros i Hi. rewrite N.land_spec, Ba, Bb by auto. unfold p.
        replace (8 * (o + n64 * 8) + i) with (8 * o + 64 * n64 + i) by lia.
        destruct (i <? _), (bit 8 a _), (bit 8 b _); reflexivity. }
      rewrite (set_bits_ok 63); try lia.
      - f_equal. apply positions_crop; try lia. intros i Hi. rewrite Bl by lia.
        apply (f_equal2 andb); [unfold within; lia|f_equal; lia].
      - apply lt_pow2_bits. intros i Hi. destruct (N.lt_ge_cases i 64).
        + replace i with (N.of_nat (N.to_nat i)) by lia. rewrite Bl by lia. replace (N.to_nat i <? 8 * n8 + rest) with false by lia. reflexivity.
        + rewrite N.land_spec, (testbit_high ra 64 i La) by auto. reflexivity. }
    rewrite T.
    assert (Pos : positions index count p = positions index (if s =? 0 then 0 else 8 - s) p ++
      positions (8 * o) (64 * n64) p ++ positions (8 * o + 64 * n64) (8 * n8 + rest) p).
    { set (h := if s =? 0 then 0 else 8 - s).
      assert (Hh : index + h = 8 * o) by (unfold h; destruct (Nat.eqb_spec s 0); lia).
      replace count with (h + (64 * n64 + (8 * n8 + rest))) by lia. rewrite (positions_app index h), (positions_app (index + h)).
      rewrite Hh. reflexivity. }
    rewrite Pos.
    destruct (Nat.eqb_spec s 0) as [Z|Z]; cbn [negb].
    + exists (positions (8 * o) (64 * n64) p), [], (positions (8 * o + 64 * n64) (8 * n8 + rest) p).
      split; [reflexivity|split; [reflexivity|split; [reflexivity|lia]]].
    + rewrite (set_bits_ok 8); auto; try lia.
      exists (positions (8 * o) (64 * n64) p), (positions index (8 - s) p), (positions (8 * o + 64 * n64) (8 * n8 + rest) p).
      split; [|split; [reflexivity|split; [lia|]]].
      * f_equal. f_equal. f_equal. apply positions_crop; try lia. intros i Hi. rewrite Bxy by lia.
        cbn [andb]. apply (f_equal2 andb); [unfold within; lia|f_equal; lia].
      * intros H72 _. assert (Z64 : n64 = 0) by lia. rewrite Z64. reflexivity.
Qed.

Lemma mask_range_lone a b index count : array 8 a -> array 8 b -> length b = length a -> inside a index count ->
  lone_group (fun i => bit 8 a i && bit 8 b i) index count -> mask_range a b index count = None.
Proof.
  intros A B L [I1 I2] (k & Hk & Hl). unfold mask_range.
  destruct (split_facts index count) as (q & s & E & Hs & Hm & O & C).
  change ((index + 7) / 8) with (offset8 index) in Hk, Hl. set (o := offset8 index) in *.
  assert (Ho : s = 0 /\ o = q \/ s <> 0 /\ o = q + 1) by (destruct (Nat.eqb_spec s 0); lia).
  destruct C as [(S & Ca & C64 & C8)|(S & n64 & n8 & rest & C64 & C8 & Cr & H8 & Hr & Sum)]; [lia|].
  rewrite C64, mask_words_lone; auto; try lia. exists k. split; [lia|].
  replace (8 * o + 64 * k) with (o * 8 + 64 * k) by lia. exact Hl.
Qed.

(** ** Single bits *)

Lemma to_base_bit w z j : (j < N.of_nat w)%N -> N.testbit (to_base w z) j = Z.testbit z (Z.of_N j).
Proof.
  intros H. unfold to_base. rewrite <- (N2Z.id j) at 1.
  rewrite <- Z.testbit_of_N', Z2N.id; rewrite ?N2Z.id; try lia.
  apply Z.mod_pow2_bits_low. lia.
Qed.

Lemma to_base_lt w z : (to_base w z < 2 ^ N.of_nat w)%N.
Proof.
  unfold to_base. pose proof (Z.mod_pos_bound z (2 ^ Z.of_nat w) ltac:(apply Z.pow_pos_nonneg; lia)) as B.
  apply N2Z.inj_lt. rewrite Z2N.id by lia. rewrite N2Z.inj_pow, nat_N_Z. change (Z.of_N 2) with 2%Z. lia.
Qed.

(** The int of the shift has, in the low [w] bits, just bit [k]. *)
Lemma shift_one_ok w k : width w -> k < w -> w <= 32 \/ k < 31 ->
  exists z, shift_one k = Some z /\ forall j, (j < N.of_nat w)%N -> Z.testbit z (Z.of_N j) = (j =? N.of_nat k)%N.
Proof.
  intros W K D. unfold shift_one. destruct (Nat.ltb_spec k 31).
  - eexists. split; [reflexivity|]. intros j Hj. rewrite Z.pow2_bits_eqb by lia. lia.
  - assert (k = 31 /\ w = 32) as [-> ->] by (unfold width in W; lia). cbn [Nat.eqb].
    eexists. split; [reflexivity|]. intros j Hj.
    rewrite Z.bits_opp by lia. replace (Z.pred (2 ^ 31)) with (Z.ones 31) by reflexivity.
    destruct (N.eqb_spec j (N.of_nat 31)) as [->|N].
    + rewrite Z.ones_spec_high by lia. reflexivity.
    + rewrite Z.ones_spec_low by lia. reflexivity.
Qed.

Lemma bit_upd w m k x i : k < length m -> i < w * length m -> 0 < w ->
  bit w (upd m k x) i = if i / w =? k then N.testbit x (N.of_nat (i mod w)) else bit w m i.
Proof.
  intros Hk Hi Hw. unfold bit. destruct (Nat.eqb_spec (i / w) k) as [->|E].
  - rewrite nth_upd_eq; auto.
  - rewrite nth_upd_ne; auto.
Qed.

Lemma same_position w i j : 0 < w -> i = j <-> i / w = j / w /\ i mod w = j mod w.
Proof.
  intros H. split; [intros ->; auto|]. intros [H1 H2].
  rewrite (Nat.div_mod i w), (Nat.div_mod j w) by lia. congruence.
Qed.

Section Single.
  Variables (w : nat) (m : list N) (index : nat).
  Hypotheses (W : width w) (A : array w m) (I : index < w * length m) (D : w <= 32 \/ index mod w < 31).

  Lemma w_pos : 0 < w. Proof. unfold width in W. lia. Qed.
  Lemma index_mod : index mod w < w. Proof. apply Nat.mod_upper_bound. pose proof w_pos. lia. Qed.
  Lemma word_in : index / w < length m.
  Proof. apply Nat.div_lt_upper_bound; [pose proof w_pos; lia|lia]. Qed.

  Lemma single (f : N -> Z -> N) (g : bool -> bool) :
    (forall x z, (x < 2 ^ N.of_nat w)%N ->
      (forall j, (j < N.of_nat w)%N -> Z.testbit z (Z.of_N j) = (j =? N.of_nat (index mod w))%N) ->
      (f x z < 2 ^ N.of_nat w)%N /\
      forall j, (j < N.of_nat w)%N -> N.testbit (f x z) j =
        if (j =? N.of_nat (index mod w))%N then g (N.testbit x j) else N.testbit x j) ->
    exists m', (let? x := nth_error m (index / w) in
                let? one := shift_one (index mod w) in Some (upd m (index / w) (f x one))) = Some m' /\
      array w m' /\ length m' = length m /\
      forall i, i < w * length m -> bit w m' i = if i =? index then g (bit w m i) else bit w m i.
  Proof.
    intros F. pose proof w_pos as Wp. pose proof index_mod as Im. pose proof word_in as Wi.
    rewrite (nth_error_nth' m 0%N Wi).
    destruct (shift_one_ok w (index mod w) W Im D) as (z & -> & Bz).
    set (x := nth (index / w) m 0%N).
    assert (Hx : (x < 2 ^ N.of_nat w)%N) by (apply array_nth; auto).
    destruct (F x z Hx Bz) as [F1 F2].
    eexists. split; [reflexivity|]. split; [apply array_upd; auto|split; [apply upd_length|]].
    intros i Hi. rewrite bit_upd by auto. pose proof (same_position w i index Wp) as SP.
    assert (Hj : i mod w < w) by (apply Nat.mod_upper_bound; lia).
    destruct (Nat.eqb_spec (i / w) (index / w)) as [E|E], (Nat.eqb_spec i index) as [Q|Q]; try tauto.
    - rewrite F2 by lia. rewrite Q. rewrite N.eqb_refl. reflexivity.
    - rewrite F2 by lia. destruct (N.eqb_spec (N.of_nat (i mod w)) (N.of_nat (index mod w))) as [K|K].
      + exfalso. apply Q, SP. split; [auto|lia].
      + unfold bit. rewrite E. reflexivity.
  Qed.

  Lemma get_ok : get w m index = Some (bit w m index).
  Proof.
    pose proof w_pos as Wp. pose proof index_mod as Im. pose proof word_in as Wi.
    unfold get. rewrite (nth_error_nth' m 0%N Wi).
    destruct (shift_one_ok w (index mod w) W Im D) as (z & -> & Bz).
    f_equal. unfold bit. set (x := nth (index / w) m 0%N).
    assert (E : forall j, N.testbit (N.land x (to_base w z)) j = (j =? N.of_nat (index mod w))%N && N.testbit x j).
    { intros j. rewrite N.land_spec. destruct (N.lt_ge_cases j (N.of_nat w)).
      - rewrite to_base_bit, Bz by auto. apply andb_comm.
      - rewrite (testbit_high (to_base w z) (N.of_nat w)) by (auto; apply to_base_lt).
        rewrite andb_false_r. destruct (N.eqb_spec j (N.of_nat (index mod w))); [lia|reflexivity]. }
    destruct (N.testbit x (N.of_nat (index mod w))) eqn:B.
    - destruct (N.eqb_spec (N.land x (to_base w z)) 0) as [Z|Z]; [|reflexivity].
      specialize (E (N.of_nat (index mod w))). rewrite Z, N.bits_0, N.eqb_refl, B in E. discriminate.
    - replace (N.land x (to_base w z)) with 0%N; [reflexivity|]. symmetry. apply N.bits_inj. intros j.
      rewrite E, N.bits_0. destruct (N.eqb_spec j (N.of_nat (index mod w))) as [->|]; auto.
  Qed.


  Lemma set_ok : exists m', set w m index = Some m' /\ array w m' /\ length m' = length m /\
    forall i, i < w * length m -> bit w m' i = if i =? index then true else bit w m i.
  Proof.
    apply (single (fun x z => N.lor x (to_base w z)) (fun _ => true)). intros x z Hx Bz. split.
    - apply bits_lt. intros j Hj. rewrite N.lor_spec, (testbit_high x _ j Hx Hj).
      apply (testbit_high _ _ j (to_base_lt w z) Hj).
    - intros j Hj. rewrite N.lor_spec, to_base_bit, Bz by auto.
      destruct (j =? N.of_nat (index mod w))%N; [apply orb_true_r|apply orb_false_r].
  Qed.

  Lemma clear_ok : exists m', clear w m index = Some m' /\ array w m' /\ length m' = length m /\
    forall i, i < w * length m -> bit w m' i = if i =? index then false else bit w m i.
  Proof.
    apply (single (fun x z => N.land x (to_base w (Z.lnot z))) (fun _ => false)). intros x z Hx Bz. split.
    - apply bits_lt. intros j Hj. rewrite N.land_spec, (testbit_high x _ j Hx Hj). reflexivity.
    - intros j Hj. rewrite N.land_spec, to_base_bit, Z.lnot_spec, Bz by (auto; lia).
      destruct (j =? N.of_nat (index mod w))%N; [apply andb_false_r|apply andb_true_r].
  Qed.

  Lemma assign_ok v : exists m', assign w m index v = Some m' /\ array w m' /\ length m' = length m /\
    forall i, i < w * length m -> bit w m' i = if i =? index then v else bit w m i.
  Proof.
    apply (single (fun x z => N.lor (N.land x (to_base w (Z.lnot z))) (to_base w (if v then z else 0%Z))) (fun _ => v)).
    intros x z Hx Bz. split.
    - apply bits_lt. intros j Hj. rewrite N.lor_spec, N.land_spec, (testbit_high x _ j Hx Hj).
      apply (testbit_high _ _ j (to_base_lt w _) Hj).
    - intros j Hj. rewrite N.lor_spec, N.land_spec, !to_base_bit, Z.lnot_spec, Bz by (auto; lia).
      destruct v; [rewrite Bz by auto|rewrite Z.bits_0];
        destruct (j =? N.of_nat (index mod w))%N, (N.testbit x j); reflexivity.
  Qed.
End Single.

Lemma shift_undefined w m index : 32 <= index mod w ->
  get w m index = None /\ set w m index = None /\ clear w m index = None /\ forall v, assign w m index v = None.
Proof.
  intros H. assert (E : shift_one (index mod w) = None).
  { unfold shift_one. replace (index mod w <? 31) with false by lia. replace (index mod w =? 31) with false by lia. auto. }
  unfold get, set, clear, assign. rewrite E. destruct (nth_error m (index / w)); auto.
Qed.
