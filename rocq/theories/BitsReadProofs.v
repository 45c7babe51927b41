(** * Proofs about the bit arrays: the operators, single bits, counting and searching *)
From Coq Require Import Permutation.
From Verif Require Import Base Word BitsModel BitsSpec BitsProofs.
From Verif Require BitTricksModel BitTricksSpec BitTricksProofs.

(** ** The operators are bitwise *)

Lemma bits_lt w x : (forall j, N.of_nat w <= j -> N.testbit x j = false)%N -> (x < 2 ^ N.of_nat w)%N.
Proof. apply lt_pow2_bits. Qed.

Lemma bw_const w (v : bool) : bitwise w (fun _ _ => if v : bool then (2 ^ N.of_nat w - 1)%N else 0%N) (fun _ _ => v).
Proof.
  intros x y _ _. destruct v.
  - rewrite <- ones_pred. split.
    + rewrite ones_pred. pose proof (pow2_pos (N.of_nat w)). lia.
    + intros j Hj. rewrite testbit_ones. lia.
  - split; [apply pow2_pos|]. intros. apply N.bits_0.
Qed.

Lemma bw_not w : bitwise w (fun x _ => wnot (N.of_nat w) x) (fun p _ => negb p).
Proof.
  intros x y Hx _. split; [apply wnot_lt; auto|]. intros j Hj. rewrite testbit_wnot.
  replace (j <? N.of_nat w)%N with true by lia. apply xorb_true_r.
Qed.

Lemma bw_copy w : bitwise w (fun _ y => y) (fun _ q => q).
Proof. intros x y _ Hy. split; auto. Qed.

Lemma bw_bin w f op :
  (forall x y j, N.testbit (f x y) j = op (N.testbit x j) (N.testbit y j)) -> op false false = false ->
  bitwise w f op.
Proof.
  intros F O x y Hx Hy. split; [|auto]. apply bits_lt. intros j Hj.
  rewrite F, (testbit_high x _ j Hx), (testbit_high y _ j Hy) by lia. auto.
Qed.

Ltac mspec := change (2 ^ 8 - 1)%N with (N.ones 8);
  rewrite ?N.lor_spec, ?N.land_spec, ?N.lxor_spec, ?testbit_wnot, ?testbit_ones;
  rewrite ?N.lor_spec, ?N.land_spec, ?N.lxor_spec, ?testbit_wnot, ?testbit_ones.
Ltac mbits := intros m x y Hm Hx Hy; split;
  [ change 256%N with (2 ^ N.of_nat 8)%N; apply bits_lt; intros j Hj; mspec;
    rewrite ?(testbit_high m 8 j Hm Hj), ?(testbit_high x 8 j Hx Hj), ?(testbit_high y 8 j Hy Hj);
    replace (j <? 8)%N with false by lia; reflexivity
  | intros j Hj; mspec; replace (j <? 8)%N with true by lia;
    destruct (N.testbit m j), (N.testbit x j), (N.testbit y j); reflexivity ].

Lemma set_range_ok : range_ok_for (fun _ _ => true) (fun a _ => set_range a) true.
Proof.
  intros a b index count A B I L HS.
  refine (range_op_ok _ _ _ _ _ _ true (bw_const 64 true) _ (fun _ => _) (bw_const 8 true) (bw_const 8 true)
    a a index count A A I eq_refl HS); mbits.
Qed.

Lemma clear_range_ok : range_ok_for (fun _ _ => false) (fun a _ => clear_range a) true.
Proof.
  intros a b index count A B I L HS.
  refine (range_op_ok _ _ _ _ _ _ true (bw_const 64 false) _ (fun _ => _) (bw_const 8 false) (bw_const 8 false)
    a a index count A A I eq_refl HS); mbits.
Qed.

Lemma not_range_ok : range_ok_for (fun p _ => negb p) (fun a _ => not_range a) true.
Proof.
  intros a b index count A B I L HS.
  refine (range_op_ok _ _ _ _ _ _ true (bw_not 64) _ (fun _ => _) (bw_not 8) (bw_not 8)
    a a index count A A I eq_refl HS); mbits.
Qed.

Lemma or_range_ok : range_ok_for orb or_range true.
Proof.
  apply range_op_ok; try (apply bw_bin; [apply N.lor_spec|reflexivity]); [|intros _]; mbits.
Qed.

Lemma and_range_ok : range_ok_for andb and_range false.
Proof.
  apply range_op_ok; try (apply bw_bin; [apply N.land_spec|reflexivity]); [|discriminate]; mbits.
Qed.

Lemma xor_range_ok : range_ok_for xorb xor_range true.
Proof.
  apply range_op_ok; try (apply bw_bin; [apply N.lxor_spec|reflexivity]); [|intros _]; mbits.
Qed.

Lemma copy_range_ok : range_ok_for (fun _ q => q) copy_range true.
Proof. apply range_op_ok; try apply bw_copy; [|intros _]; mbits. Qed.

Lemma whole_touched index count : whole index count -> touched index count = count.
Proof.
  unfold whole, touched. intros H. destruct (Nat.ltb_spec (index mod 8 + count) 8) as [L|L]; [auto|].
  destruct H as [H|H]; [|lia].
  destruct (split8 (index + count)) as (q & r & E & Hr & _ & Hm).
  replace (index + count + 7) with (8 * q + 7) by lia. rewrite div8 by lia. lia.
Qed.

Lemma touched_whole index count : 0 < count -> touched index count = count -> whole index count.
Proof.
  unfold whole, touched. intros P. destruct (Nat.ltb_spec (index mod 8 + count) 8) as [L|L]; [auto|].
  intros E. left. destruct (split8 (index + count + 7)) as (q & r & E2 & Hr & Hd & Hm).
  rewrite Hd in E. replace (index + count) with (8 * q + 0) by lia. apply mod8. lia.
Qed.

(** CCBitsAnd on a short range that starts a byte. *)
Lemma and_small a b index count : array 8 a -> array 8 b -> inside a index count ->
  length b = length a -> index mod 8 = 0 -> count < 8 ->
  exists a', and_range a b index count = Some a' /\
    replaced a a' index 8 (fun i => if within i index count then bit 8 a i || bit 8 b i else true).
Proof.
  intros A B [I1 I2] L M C.
  destruct (split_facts index count) as (q & x & E & Hx & Hm & O & S).
  assert (X : x = 0) by lia. clear M. rewrite X in *. clear X x. cbn [Nat.eqb] in O.
  destruct S as [(S & Ha & H64 & H8)|(S & _)]; [|lia].
  unfold and_range, range_op. rewrite Ha, H64, H8, Hm, O. cbn [words octets Nat.eqb negb].
  replace (count <? 8) with true by lia. rewrite !read8_ok, write8_ok by lia.
  replace (negb (0 mod 8 =? 0)) with false by reflexivity.
  eexists. split; [reflexivity|].
  set (f := N.lor _ _).
  assert (F : (f < 256)%N /\ forall j, (j < 8)%nat -> N.testbit f (N.of_nat j) =
    if within j 0 count then N.testbit (nth q a 0%N) (N.of_nat j) || N.testbit (nth q b 0%N) (N.of_nat j) else true).
  { split.
    - unfold f. change 256%N with (2 ^ N.of_nat 8)%N. apply bits_lt. intros j Hj.
      rewrite !N.lor_spec, N.land_spec, testbit_wnot.
      rewrite (testbit_high (nth q a 0%N) 8), (testbit_high (nth q b 0%N) 8), (testbit_high (mask index count) 8);
        auto; try (apply (array_nth 8); auto); try apply mask_lt.
      replace (j <? 8)%N with false by lia. reflexivity.
    - intros j Hj. unfold f. rewrite !N.lor_spec, N.land_spec, testbit_wnot, !mask_bit, Hm by auto.
      replace (N.of_nat j <? 8)%N with true by lia.
      destruct (within j 0 count), (N.testbit (nth q a 0%N) (N.of_nat j)), (N.testbit (nth q b 0%N) (N.of_nat j)); reflexivity. }
  destruct F as [F1 F2]. clearbody f.
  split; [apply array_upd; auto|split; [apply upd_length|]]. intros i Hi. rewrite upd_bit by lia.
  destruct (split8 i) as (q' & r & -> & Hr & -> & ->). rewrite !bit8 by auto.
  destruct (Nat.eqb_spec q' q) as [->|N].
  - replace (within (8 * q + r) index 8) with true by (unfold within; lia). rewrite F2 by auto.
    replace (within (8 * q + r) index count) with (within r 0 count) by (unfold within; lia). reflexivity.
  - replace (within (8 * q' + r) index 8) with false by (unfold within; lia). reflexivity.
Qed.

(** ** Counting *)

Definition cnt (f : nat -> bool) (lo n : nat) : nat := length (filter f (seq lo n)).

Lemma cnt_split f lo n m : cnt f lo (n + m) = cnt f lo n + cnt f (lo + n) m.
Proof. unfold cnt. rewrite seq_app, filter_app, app_length. auto. Qed.

Lemma cnt_shift f g lo lo' n : (forall i, i < n -> f (lo + i) = g (lo' + i)) -> cnt f lo n = cnt g lo' n.
Proof.
  unfold cnt. revert lo lo'. induction n as [|n IH]; intros lo lo' H; [reflexivity|]. cbn [seq filter].
  pose proof (H 0 ltac:(lia)) as H0. rewrite !Nat.add_0_r in H0. rewrite H0.
  assert (E : length (filter f (seq (S lo) n)) = length (filter g (seq (S lo') n))).
  { apply IH. intros i Hi. specialize (H (S i) ltac:(lia)).
    replace (S lo + i) with (lo + S i) by lia. replace (S lo' + i) with (lo' + S i) by lia. auto. }
  destruct (g lo'); cbn [length]; auto.
Qed.

Lemma cnt_zero f lo n : (forall i, i < n -> f (lo + i) = false) -> cnt f lo n = 0.
Proof.
  intros H. rewrite (cnt_shift f (fun _ => false) lo 0 n H). unfold cnt.
  induction (seq 0 n); cbn; auto.
Qed.

Lemma count_set_cnt x : (x < 2 ^ 64)%N ->
  BitTricksModel.count_set x = N.of_nat (cnt (fun i => N.testbit x (N.of_nat i)) 0 64).
Proof.
  intros H. rewrite BitTricksProofs.count_set_spec by auto. unfold popcount, bit_positions, cnt.
  f_equal. generalize (seq 0 64). intros l. induction l as [|h t IH]; [reflexivity|].
  cbn [map filter]. destruct (N.testbit x (N.of_nat h)); cbn [length]; lia.
Qed.

Lemma count_words_ok m : array 8 m -> forall n at_, at_ + 8 * n <= length m ->
  count_words n at_ m = Some (N.of_nat (cnt (bit 8 m) (8 * at_) (64 * n))).
Proof.
  intros A. induction n as [|n IH]; intros at_ L; [reflexivity|]. cbn [count_words].
  destruct (read64_ok m at_ A) as (x & -> & Hx & Bx); [lia|].
  rewrite IH by lia. f_equal. rewrite count_set_cnt by auto.
  replace (64 * S n) with (64 + 64 * n) by lia. rewrite cnt_split.
  rewrite (cnt_shift (fun i => N.testbit x (N.of_nat i)) (bit 8 m) 0 (8 * at_) 64)
    by (intros; apply Bx; lia).
  replace (8 * (at_ + 8)) with (8 * at_ + 64) by lia. lia.
Qed.

Lemma first_bits_ok m index count : array 8 m -> inside m index count ->
  exists r, first_bits m index count = Some r /\ (r < 256)%N /\
   forall j, j < 8 -> N.testbit r (N.of_nat j) =
     ((index mod 8 + count <? 8) || negb (index mod 8 =? 0)) && within j (index mod 8) count && bit 8 m (8 * (index / 8) + j).
Proof.
  intros A [I1 I2]. destruct (split_facts index count) as (q & x & E & Hx & Hm & O & _).
  assert (Hd : index / 8 = q) by (subst index; apply div8; auto).
  unfold first_bits. rewrite Hm, O, Hd.
  assert (G : forall j, j < 8 -> N.testbit (N.land (nth q m 0%N) (mask index count)) (N.of_nat j) =
     within j x count && bit 8 m (8 * q + j)).
  { intros j Hj. rewrite N.land_spec, mask_bit, Hm, bit8 by auto. apply andb_comm. }
  assert (G2 : (N.land (nth q m 0 ) (mask index count) < 256)%N).
  { change 256%N with (2 ^ N.of_nat 8)%N. apply bits_lt. intros j Hj.
    rewrite N.land_spec, (testbit_high (mask index count) 8); auto; [apply andb_false_r|apply mask_lt]. }
  destruct (Nat.eqb_spec x 0) as [X|X]; cbn [negb].
  - destruct (Nat.ltb_spec count 8).
    + rewrite read8_ok by lia. eexists. split; [reflexivity|]. split; [auto|]. intros j Hj. rewrite G by auto.
      replace (x + count <? 8) with true by lia. reflexivity.
    + eexists. split; [reflexivity|]. split; [lia|]. intros j Hj. rewrite N.bits_0.
      replace (x + count <? 8) with false by lia. reflexivity.
  - replace (q + 1 - 1) with q by lia. rewrite read8_ok by lia.
    eexists. split; [reflexivity|]. split; [auto|]. intros j Hj. rewrite G by auto. rewrite orb_true_r. reflexivity.
Qed.

Lemma byte_high m q j : array 8 m -> (8 <= j)%N -> N.testbit (nth q m 0%N) j = false.
Proof. intros A H. apply (testbit_high _ 8); auto. apply (array_nth 8); auto. Qed.

Lemma wshl_bit x n i : N.testbit (wshl 64 x n) i = (i <? 64)%N && (n <=? i)%N && N.testbit x (i - n)%N.
Proof.
  unfold wshl. change ((x * 2 ^ n) mod 2 ^ 64)%N with (wrap 64 (x * 2 ^ n)). rewrite testbit_wrap, testbit_mul_pow2.
  destruct (N.ltb_spec i 64), (N.ltb_spec i n), (N.leb_spec n i); try lia; reflexivity.
Qed.

Lemma gather_ok base at_ m : array 8 m -> forall n loop r, (r < 2 ^ 64)%N ->
  at_ + loop + n <= length m -> loop + n + base <= 8 ->
  exists r', gather n loop base at_ m r = Some r' /\ (r' < 2 ^ 64)%N /\
    forall i, i < 64 -> N.testbit r' (N.of_nat i) = N.testbit r (N.of_nat i) ||
      within i (8 * (loop + base)) (8 * n) && bit 8 m (8 * at_ + (i - 8 * base)).
Proof.
  intros A. induction n as [|n IH]; intros loop r Hr L8 Lm.
  { exists r. split; [reflexivity|]. split; [auto|]. intros i Hi.
    replace (within i (8 * (loop + base)) (8 * 0)) with false by (unfold within; lia). now rewrite orb_false_r. }
  cbn [gather]. rewrite read8_ok by lia.
  set (r1 := N.lor r _).
  assert (B1 : forall i, i < 64 -> N.testbit r1 (N.of_nat i) = N.testbit r (N.of_nat i) ||
     within i (8 * (loop + base)) 8 && bit 8 m (8 * at_ + (i - 8 * base))).
  { intros i Hi. unfold r1. rewrite N.lor_spec. f_equal. rewrite wshl_bit.
    replace (N.of_nat i <? 64)%N with true by lia. cbn [andb]. unfold within.
    destruct (N.leb_spec (N.of_nat ((loop + base) * 8)) (N.of_nat i)); destruct (Nat.leb_spec (8 * (loop + base)) i); try (exfalso; lia); try reflexivity.
    cbn [andb]. destruct (Nat.ltb_spec i (8 * (loop + base) + 8)).
    - replace (8 * at_ + (i - 8 * base)) with (8 * (at_ + loop) + (i - 8 * (loop + base))) by lia.
      rewrite bit8 by lia. cbn [andb]. f_equal. lia.
    - apply byte_high; auto. lia. }
  assert (H1 : (r1 < 2 ^ 64)%N).
  { change 64%N with (N.of_nat 64). apply bits_lt. intros j Hj. unfold r1.
    rewrite N.lor_spec, (testbit_high r 64 j Hr) by lia. rewrite wshl_bit.
    replace (j <? 64)%N with false by lia. reflexivity. }
  destruct (IH (S loop) r1 H1) as (r' & -> & H' & B'); [lia|lia|].
  exists r'. split; [reflexivity|]. split; [auto|]. intros i Hi. rewrite B', B1 by auto.
  rewrite <- orb_assoc. f_equal. rewrite <- andb_orb_distrib_l. f_equal. unfold within. lia.
Qed.

Lemma low_bits_bit x n i : N.testbit (low_bits x n) (N.of_nat i) = N.testbit x (N.of_nat i) && (i <? n).
Proof.
  unfold low_bits. rewrite N.land_spec, <- ones_pred, testbit_ones. f_equal. lia.
Qed.
Lemma low_bits_lt x n : n <= 64 -> (low_bits x n < 2 ^ 64)%N.
Proof.
  intros H. change 64%N with (N.of_nat 64). apply bits_lt. intros j Hj. unfold low_bits.
  rewrite N.land_spec, <- ones_pred, testbit_ones.
  replace (j <? N.of_nat n)%N with false by lia. apply andb_false_r.
Qed.

Lemma lor_lt x y n : (x < 2 ^ n -> y < 2 ^ n -> N.lor x y < 2 ^ n)%N.
Proof.
  intros Hx Hy. apply lt_pow2_bits. intros i Hi. rewrite N.lor_spec.
  rewrite (testbit_high x n), (testbit_high y n); auto.
Qed.
Lemma wshl64_lt x n : (wshl 64 x n < 2 ^ 64)%N.
Proof. unfold wshl. apply N.mod_lt. apply pow2_nz. Qed.

Lemma small64 r : (r < 256)%N -> (r < 2 ^ 64)%N.
Proof. intros H. eapply N.lt_trans; [exact H|reflexivity]. Qed.

Lemma byte_high_bits r i : (r < 256)%N -> 8 <= i -> N.testbit r (N.of_nat i) = false.
Proof. intros H L. apply (testbit_high r 8); [exact H|lia]. Qed.

Ltac seg n := rewrite (cnt_split _ _ n).

Lemma count_range_ok m index count : array 8 m -> inside m index count ->
  count_range m index count = Some (N.of_nat (cnt (bit 8 m) index count)).
Proof.
  intros A I. pose proof I as [I1 I2].
  destruct (first_bits_ok m index count A I) as (r & Er & Hr & Br).
  destruct (split_facts index count) as (q & a & E & Ha & Hm & O & C).
  assert (Hd : index / 8 = q) by (subst index; apply div8; auto).
  rewrite Hm, Hd in Br.
  unfold count_range. rewrite Er, Hm.
  destruct C as [(S & -> & -> & ->)|(S & n64 & n8 & rest & -> & -> & -> & H8 & Hrest & Sum)].
  - cbn [count_words gather]. replace (negb (0 mod 8 =? 0)) with false by reflexivity.
    rewrite count_set_cnt by (apply small64; auto). f_equal. cbn [N.add]. f_equal.
    replace 64 with (a + (count + (64 - a - count))) by lia. rewrite cnt_split, (cnt_split _ _ count).
    rewrite (cnt_zero _ 0 a), (cnt_zero _ (0 + a + count)).
    + rewrite Nat.add_0_r. cbn [Nat.add]. apply cnt_shift. intros i Hi. rewrite Br by lia.
      replace (a + count <? 8) with true by lia. replace (within (a + i) a count) with true by (unfold within; lia).
      cbn [orb andb]. f_equal. lia.
    + intros i Hi. destruct (Nat.lt_ge_cases (0 + a + count + i) 8).
      * rewrite Br by lia. replace (within (0 + a + count + i) a count) with false by (unfold within; lia).
        now rewrite andb_false_r.
      * apply byte_high_bits; auto.
    + intros i Hi. rewrite Br by lia. replace (within (0 + i) a count) with false by (unfold within; lia).
      now rewrite andb_false_r.
  - set (o := offset8 index) in *.
    assert (Ho : a = 0 /\ o = q \/ a <> 0 /\ o = q + 1) by (destruct (Nat.eqb_spec a 0); lia). clearbody o.
    assert (Bh : forall j, j < 8 -> N.testbit r (N.of_nat j) = negb (a =? 0) && within j a count && bit 8 m (8 * q + j)).
    { intros j Hj. rewrite Br by auto. replace (a + count <? 8) with false by lia. reflexivity. }
    set (h := if a =? 0 then 0 else 8 - a).
    assert (Hh : h = 8 * o - index) by (unfold h; destruct (Nat.eqb_spec a 0); lia).
    assert (H0 : cnt (fun i => N.testbit r (N.of_nat i)) 0 8 = cnt (bit 8 m) index h).
    { destruct (Nat.eqb_spec a 0) as [X|X].
      - unfold h. rewrite cnt_zero; [reflexivity|]. intros i Hi. rewrite Bh by lia. reflexivity.
      - unfold h. replace 8 with (a + (8 - a)) at 1 by lia. rewrite cnt_split, cnt_zero.
        + cbn [Nat.add]. apply cnt_shift. intros i Hi. rewrite Bh by lia.
          replace (within (a + i) a count) with true by (unfold within; lia). cbn [negb andb]. f_equal. lia.
        + intros i Hi. rewrite Bh by lia. replace (within (0 + i) a count) with false by (unfold within; lia).
          now rewrite andb_false_r. }
    rewrite count_words_ok by (auto; lia).
    destruct (gather_ok 1 (o + n64 * 8) m A n8 0 r) as (r1 & -> & L1 & B1); [apply small64; auto|lia|lia|].
    assert (Bit1 : forall i, i < 64 -> N.testbit r1 (N.of_nat i) =
       if i <? 8 then N.testbit r (N.of_nat i) else within i 8 (8 * n8) && bit 8 m (8 * (o + n64 * 8) + (i - 8))).
    { intros i Hi. rewrite B1 by auto. destruct (Nat.ltb_spec i 8).
      - replace (within i (8 * (0 + 1)) (8 * n8)) with false by (unfold within; lia). now rewrite orb_false_r.
      - rewrite byte_high_bits by auto. reflexivity. }
    replace count with (h + (64 * n64 + (8 * n8 + rest))) at 1 by lia.
    rewrite (cnt_split (bit 8 m) index h), (cnt_split (bit 8 m) _ (64 * n64)), (cnt_split (bit 8 m) _ (8 * n8)).
    rewrite <- H0.
    replace (index + h) with (8 * o) by lia.
    replace (8 * o + 64 * n64) with (8 * (o + n64 * 8)) by lia.
    set (at_ := o + n64 * 8) in *.
    assert (M1 : cnt (fun i => N.testbit r1 (N.of_nat i)) 8 (8 * n8) = cnt (bit 8 m) (8 * at_) (8 * n8)).
    { apply cnt_shift. intros i Hi. rewrite Bit1 by lia. replace (8 + i <? 8) with false by lia.
      replace (within (8 + i) 8 (8 * n8)) with true by (unfold within; lia). cbn [andb]. f_equal. lia. }
    assert (Z1 : cnt (fun i => N.testbit r1 (N.of_nat i)) 0 8 = cnt (fun i => N.testbit r (N.of_nat i)) 0 8).
    { apply cnt_shift. intros i Hi. rewrite Bit1 by lia. replace (0 + i <? 8) with true by lia. reflexivity. }
    assert (W1 : cnt (fun i => N.testbit r1 (N.of_nat i)) 0 64 =
      cnt (fun i => N.testbit r (N.of_nat i)) 0 8 + cnt (bit 8 m) (8 * at_) (8 * n8)).
    { replace 64 with (8 + (8 * n8 + (56 - 8 * n8))) by lia. rewrite cnt_split, (cnt_split _ _ (8 * n8)).
      rewrite Z1. cbn [Nat.add]. rewrite M1. rewrite (cnt_zero _ (8 + 8 * n8)); [lia|].
      intros i Hi. rewrite Bit1 by lia. replace (8 + 8 * n8 + i <? 8) with false by lia.
      replace (within (8 + 8 * n8 + i) 8 (8 * n8)) with false by (unfold within; lia). reflexivity. }
    destruct (Nat.eqb_spec rest 0) as [R|R]; cbn [negb].
    { rewrite count_set_cnt by auto. f_equal. rewrite W1. subst rest. replace (cnt (bit 8 m) (8 * at_ + 8 * n8) 0) with 0 by reflexivity. lia. }
    rewrite read8_ok by lia. set (t := nth (at_ + n8) m 0%N).
    assert (Bt : forall i, i < 8 -> N.testbit t (N.of_nat i) = bit 8 m (8 * at_ + 8 * n8 + i)).
    { intros i Hi. unfold t. rewrite <- bit8 by auto. f_equal. lia. }
    assert (Ht : forall i, 8 <= i -> N.testbit t (N.of_nat i) = false) by (intros; apply byte_high; auto; lia).
    clearbody t.
    assert (Low : cnt (fun i => N.testbit (low_bits t rest) (N.of_nat i)) 0 64 = cnt (bit 8 m) (8 * at_ + 8 * n8) rest).
    { replace 64 with (rest + (64 - rest)) by lia. rewrite cnt_split, (cnt_zero _ (0 + rest)).
      - rewrite Nat.add_0_r. apply cnt_shift. intros i Hi. rewrite low_bits_bit, Bt by lia.
        replace (0 + i <? rest) with true by lia. now rewrite andb_true_r.
      - intros i Hi. rewrite low_bits_bit. replace (0 + rest + i <? rest) with false by lia. apply andb_false_r. }
    destruct (Nat.eqb_spec a 0) as [X|X]; cbn [negb].
    + rewrite count_set_cnt by (apply lor_lt; auto; apply low_bits_lt; lia). f_equal.
      assert (Z : cnt (fun i => N.testbit r (N.of_nat i)) 0 8 = 0) by (rewrite H0; reflexivity).
      enough (cnt (fun i => N.testbit (N.lor r1 (low_bits t rest)) (N.of_nat i)) 0 64 =
        cnt (bit 8 m) (8 * at_) (8 * n8) + cnt (bit 8 m) (8 * at_ + 8 * n8) rest) by lia.
      rewrite <- M1. replace 64 with (rest + ((8 - rest) + (8 * n8 + (56 - 8 * n8)))) by lia.
      rewrite cnt_split, (cnt_split _ _ (8 - rest)), (cnt_split _ _ (8 * n8)).
      rewrite (cnt_zero _ (0 + rest)), (cnt_zero _ (0 + rest + (8 - rest) + 8 * n8)).
      * replace (0 + rest + (8 - rest)) with 8 by lia.
        enough (cnt (fun i => N.testbit (N.lor r1 (low_bits t rest)) (N.of_nat i)) 0 rest = cnt (bit 8 m) (8 * at_ + 8 * n8) rest /\
          cnt (fun i => N.testbit (N.lor r1 (low_bits t rest)) (N.of_nat i)) 8 (8 * n8) =
          cnt (fun i => N.testbit r1 (N.of_nat i)) 8 (8 * n8)) by lia.
        split; apply cnt_shift; intros i Hi; rewrite N.lor_spec, low_bits_bit.
        -- rewrite Bit1 by lia. replace (0 + i <? 8) with true by lia. rewrite Bh, Bt by lia.
           replace (0 + i <? rest) with true by lia. rewrite andb_true_r. replace (a =? 0) with true by lia. reflexivity.
        -- replace (8 + i <? rest) with false by lia. now rewrite andb_false_r, orb_false_r.
      * intros i Hi. rewrite N.lor_spec, low_bits_bit, Bit1 by lia. replace (0 + rest + (8 - rest) + 8 * n8 + i <? 8) with false by lia.
        replace (within (0 + rest + (8 - rest) + 8 * n8 + i) 8 (8 * n8)) with false by (unfold within; lia).
        replace (0 + rest + (8 - rest) + 8 * n8 + i <? rest) with false by lia. cbn [andb orb]. apply andb_false_r.
      * intros i Hi. rewrite N.lor_spec, low_bits_bit, Bit1 by lia. replace (0 + rest + i <? 8) with true by lia.
        rewrite Bh by lia. replace (a =? 0) with true by lia. replace (0 + rest + i <? rest) with false by lia.
        cbn [negb andb orb]. apply andb_false_r.
    + destruct (Nat.eqb_spec n8 7) as [S7|S7].
      * rewrite !count_set_cnt by (auto; apply low_bits_lt; lia). f_equal. lia.
      * rewrite count_set_cnt by (apply lor_lt; auto; apply wshl64_lt). f_equal.
        enough (cnt (fun i => N.testbit (N.lor r1 (wshl 64 t (N.of_nat (56 + (8 - rest))))) (N.of_nat i)) 0 64 =
          cnt (fun i => N.testbit r (N.of_nat i)) 0 8 + cnt (bit 8 m) (8 * at_) (8 * n8) + cnt (bit 8 m) (8 * at_ + 8 * n8) rest) by lia.
        assert (BB : forall i, i < 64 -> N.testbit (N.lor r1 (wshl 64 t (N.of_nat (56 + (8 - rest))))) (N.of_nat i) =
          N.testbit r1 (N.of_nat i) || (64 - rest <=? i) && N.testbit t (N.of_nat (i - (64 - rest)))).
        { intros i Hi. rewrite N.lor_spec, wshl_bit. replace (N.of_nat i <? 64)%N with true by lia. cbn [andb].
          f_equal. f_equal; [lia|f_equal; lia]. }
        match goal with |- cnt ?f 0 64 = _ =>
          replace (cnt f 0 64) with (cnt f 0 (64 - rest) + cnt f (0 + (64 - rest)) rest)
            by (rewrite <- cnt_split; f_equal; lia) end.
        assert (P2 : cnt (fun i => N.testbit (N.lor r1 (wshl 64 t (N.of_nat (56 + (8 - rest))))) (N.of_nat i)) (0 + (64 - rest)) rest
          = cnt (bit 8 m) (8 * at_ + 8 * n8) rest).
        { apply cnt_shift. intros i Hi. rewrite BB, Bit1 by lia. replace (0 + (64 - rest) + i <? 8) with false by lia.
          replace (within (0 + (64 - rest) + i) 8 (8 * n8)) with false by (unfold within; lia).
          replace (64 - rest <=? 0 + (64 - rest) + i) with true by lia. cbn [andb orb].
          rewrite <- Bt by lia. f_equal. lia. }
        rewrite P2.
        assert (P1 : cnt (fun i => N.testbit (N.lor r1 (wshl 64 t (N.of_nat (56 + (8 - rest))))) (N.of_nat i)) 0 (64 - rest)
          = cnt (fun i => N.testbit r1 (N.of_nat i)) 0 (64 - rest)).
        { apply cnt_shift. intros i Hi. rewrite BB by lia. replace (64 - rest <=? 0 + i) with false by lia. apply orb_false_r. }
        rewrite P1.
        assert (P3 : cnt (fun i => N.testbit r1 (N.of_nat i)) 0 64 = cnt (fun i => N.testbit r1 (N.of_nat i)) 0 (64 - rest)).
        { replace 64 with ((64 - rest) + rest) at 1 by lia. rewrite cnt_split, (cnt_zero _ (0 + (64 - rest))); [lia|].
          intros i Hi. rewrite Bit1 by lia. replace (0 + (64 - rest) + i <? 8) with false by lia.
          replace (within (0 + (64 - rest) + i) 8 (8 * n8)) with false by (unfold within; lia). reflexivity. }
        lia.
Qed.
