(** * C13: bit-array operations affect exactly the requested bits

    An array of base type width [w] is a list of words below [2^w]; its bits are numbered
    from the least significant bit of the first word ([bit]).  The range functions see the
    same memory as bytes (width 8). *)
From Coq Require Import Permutation.
From Verif Require Import Base BitsModel BitsSpec BitsProofs BitsReadProofs BitsScanProofs.

(** ** Single bits

    Right for every base type of 8, 16 or 32 bits; for a 64-bit base type only for the low
    31 bits of each word, since the code shifts an int. *)

Theorem c13_single_bit_partial : forall w m index,
  width w -> array w m -> index < w * length m -> w <= 32 \/ index mod w < 31 ->
  get w m index = Some (bit w m index) /\
  (exists m', set w m index = Some m' /\ one_bit w m m' index true) /\
  (exists m', clear w m index = Some m' /\ one_bit w m m' index false) /\
  (forall v, exists m', assign w m index v = Some m' /\ one_bit w m m' index v).
Proof.
  intros w m index W A I D. split; [|split; [|split]].
  - apply get_ok; auto.
  - apply set_ok; auto.
  - apply clear_ok; auto.
  - intros v. apply assign_ok; auto.
Qed.
Print Assumptions c13_single_bit_partial.

Example c13_single_bit_nonvacuous :
  width 32 /\ array 32 [5; 2 ^ 31]%N /\ 63 < 32 * length [5; 2 ^ 31]%N /\
  get 32 [5; 2 ^ 31]%N 63 = Some true /\ get 32 [5; 2 ^ 31]%N 1 = Some false.
Proof.
  split; [right; right; left; auto|]. split; [repeat constructor|]. split; [cbn; lia|].
  split; vm_compute; reflexivity.
Qed.

(** Bits 32 and up of a 64-bit word: the shift is undefined. *)
Theorem c13_single_bit_refuted : forall m index, 32 <= index mod 64 ->
  get 64 m index = None /\ set 64 m index = None /\ clear 64 m index = None /\
  forall v, assign 64 m index v = None.
Proof. intros m index H. apply shift_undefined. auto. Qed.
Print Assumptions c13_single_bit_refuted.

(** Bit 31 of a 64-bit word: the int is sign extended, so that setting it sets, and clearing
    it clears, all the bits above as well, and reading it reads them. *)
Theorem c13_single_bit_31_refuted :
  exists m, array 64 m /\ 31 < 64 * length m /\
    get 64 m 31 = Some true /\ bit 64 m 31 = false /\
    (forall m', set 64 m 31 = Some m' -> ~ one_bit 64 m m' 31 true) /\
    (forall m', clear 64 m 31 = Some m' -> ~ one_bit 64 m m' 31 false).
Proof.
  exists [2 ^ 40]%N. split; [repeat constructor|]. split; [cbn; lia|].
  split; [vm_compute; reflexivity|]. split; [vm_compute; reflexivity|]. split.
  - intros m' E (_ & _ & H). specialize (H 50 ltac:(cbn; lia)). vm_compute in E. injection E as <-.
    vm_compute in H. discriminate.
  - intros m' E (_ & _ & H). specialize (H 40 ltac:(cbn; lia)). vm_compute in E. injection E as <-.
    vm_compute in H. discriminate.
Qed.
Print Assumptions c13_single_bit_31_refuted.

(** ** Range writes

    For every array and every range in it the functions change the bits up to the end of
    the last byte the range reaches ([touched]): that is the range itself exactly when it
    ends at a byte boundary or inside its first byte ([whole]). *)

Theorem c13_set_range_partial : forall a index count,
  array 8 a -> inside a index count -> whole index count ->
  exists a', set_range a index count = Some a' /\ replaced a a' index count (fun _ => true).
Proof.
  intros a index count A I W.
  pose proof (set_range_ok a a index count A A I eq_refl (or_introl eq_refl)) as H.
  rewrite (whole_touched _ _ W) in H. exact H.
Qed.
Print Assumptions c13_set_range_partial.

Theorem c13_clear_range_partial : forall a index count,
  array 8 a -> inside a index count -> whole index count ->
  exists a', clear_range a index count = Some a' /\ replaced a a' index count (fun _ => false).
Proof.
  intros a index count A I W.
  pose proof (clear_range_ok a a index count A A I eq_refl (or_introl eq_refl)) as H.
  rewrite (whole_touched _ _ W) in H. exact H.
Qed.
Print Assumptions c13_clear_range_partial.

Theorem c13_not_range_partial : forall a index count,
  array 8 a -> inside a index count -> whole index count ->
  exists a', not_range a index count = Some a' /\ replaced a a' index count (fun i => negb (bit 8 a i)).
Proof.
  intros a index count A I W.
  pose proof (not_range_ok a a index count A A I eq_refl (or_introl eq_refl)) as H.
  rewrite (whole_touched _ _ W) in H. exact H.
Qed.
Print Assumptions c13_not_range_partial.

Theorem c13_or_range_partial : forall a b index count,
  array 8 a -> array 8 b -> length b = length a -> inside a index count -> whole index count ->
  exists a', or_range a b index count = Some a' /\
    replaced a a' index count (fun i => bit 8 a i || bit 8 b i).
Proof.
  intros a b index count A B L I W.
  pose proof (or_range_ok a b index count A B I L (or_introl eq_refl)) as H.
  rewrite (whole_touched _ _ W) in H. exact H.
Qed.
Print Assumptions c13_or_range_partial.

Theorem c13_xor_range_partial : forall a b index count,
  array 8 a -> array 8 b -> length b = length a -> inside a index count -> whole index count ->
  exists a', xor_range a b index count = Some a' /\
    replaced a a' index count (fun i => xorb (bit 8 a i) (bit 8 b i)).
Proof.
  intros a b index count A B L I W.
  pose proof (xor_range_ok a b index count A B I L (or_introl eq_refl)) as H.
  rewrite (whole_touched _ _ W) in H. exact H.
Qed.
Print Assumptions c13_xor_range_partial.

Theorem c13_copy_range_partial : forall a b index count,
  array 8 a -> array 8 b -> length b = length a -> inside a index count -> whole index count ->
  exists a', copy_range a b index count = Some a' /\ replaced a a' index count (fun i => bit 8 b i).
Proof.
  intros a b index count A B L I W.
  pose proof (copy_range_ok a b index count A B I L (or_introl eq_refl)) as H.
  rewrite (whole_touched _ _ W) in H. exact H.
Qed.
Print Assumptions c13_copy_range_partial.

(** CCBitsAnd also needs the range not to be a short one at the start of a byte. *)
Theorem c13_and_range_partial : forall a b index count,
  array 8 a -> array 8 b -> length b = length a -> inside a index count -> whole index count ->
  index mod 8 <> 0 \/ 8 <= count ->
  exists a', and_range a b index count = Some a' /\
    replaced a a' index count (fun i => bit 8 a i && bit 8 b i).
Proof.
  intros a b index count A B L I W S.
  pose proof (and_range_ok a b index count A B I L (or_intror S)) as H.
  rewrite (whole_touched _ _ W) in H. exact H.
Qed.
Print Assumptions c13_and_range_partial.

Example c13_range_nonvacuous :
  let a := repeat 165%N 20 in let b := repeat 15%N 20 in
  array 8 a /\ array 8 b /\ length b = length a /\ inside a 5 91 /\ whole 5 91 /\
  (exists a', copy_range a b 5 91 = Some a' /\ a' <> a /\ a' <> b).
Proof.
  cbv zeta. split; [repeat constructor|]. split; [repeat constructor|]. split; [reflexivity|].
  split; [unfold inside; cbn; lia|]. split; [left; reflexivity|].
  eexists. split; [vm_compute; reflexivity|]. split; discriminate.
Qed.

(** What the functions do for every range. *)
Theorem c13_range_extent : forall a b index count,
  array 8 a -> array 8 b -> length b = length a -> inside a index count ->
  (exists a', set_range a index count = Some a' /\
     replaced a a' index (touched index count) (fun _ => true)) /\
  (exists a', clear_range a index count = Some a' /\
     replaced a a' index (touched index count) (fun _ => false)) /\
  (exists a', not_range a index count = Some a' /\
     replaced a a' index (touched index count) (fun i => negb (bit 8 a i))) /\
  (exists a', or_range a b index count = Some a' /\
     replaced a a' index (touched index count) (fun i => bit 8 a i || bit 8 b i)) /\
  (exists a', xor_range a b index count = Some a' /\
     replaced a a' index (touched index count) (fun i => xorb (bit 8 a i) (bit 8 b i))) /\
  (exists a', copy_range a b index count = Some a' /\
     replaced a a' index (touched index count) (fun i => bit 8 b i)) /\
  (exists a', and_range a b index count = Some a' /\
     if negb (index mod 8 =? 0) || (8 <=? count)
     then replaced a a' index (touched index count) (fun i => bit 8 a i && bit 8 b i)
     else replaced a a' index 8 (fun i => if within i index count then bit 8 a i || bit 8 b i else true)).
Proof.
  intros a b index count A B L I.
  split; [exact (set_range_ok a a index count A A I eq_refl (or_introl eq_refl))|].
  split; [exact (clear_range_ok a a index count A A I eq_refl (or_introl eq_refl))|].
  split; [exact (not_range_ok a a index count A A I eq_refl (or_introl eq_refl))|].
  split; [exact (or_range_ok a b index count A B I L (or_introl eq_refl))|].
  split; [exact (xor_range_ok a b index count A B I L (or_introl eq_refl))|].
  split; [exact (copy_range_ok a b index count A B I L (or_introl eq_refl))|].
  destruct (Nat.eqb_spec (index mod 8) 0) as [Z|Z]; cbn [negb orb].
  - destruct (Nat.leb_spec 8 count).
    + apply and_range_ok; auto.
    + apply and_small; auto.
  - apply and_range_ok; auto.
Qed.
Print Assumptions c13_range_extent.

(** Every range that is not [whole] has arrays for which the full property fails: clearing
    it in an array of set bits (and so on for the other functions) changes a bit after its
    end. *)
Theorem c13_range_refuted : forall index count n,
  ~ whole index count -> index + count <= 8 * n ->
  let ones := repeat 255%N n in let zeros := repeat 0%N n in
  (forall a', set_range zeros index count = Some a' -> ~ replaced zeros a' index count (fun _ => true)) /\
  (forall a', clear_range ones index count = Some a' -> ~ replaced ones a' index count (fun _ => false)) /\
  (forall a', not_range zeros index count = Some a' -> ~ replaced zeros a' index count (fun i => negb (bit 8 zeros i))) /\
  (forall a', or_range zeros ones index count = Some a' ->
     ~ replaced zeros a' index count (fun i => bit 8 zeros i || bit 8 ones i)) /\
  (forall a', xor_range zeros ones index count = Some a' ->
     ~ replaced zeros a' index count (fun i => xorb (bit 8 zeros i) (bit 8 ones i))) /\
  (forall a', copy_range zeros ones index count = Some a' ->
     ~ replaced zeros a' index count (fun i => bit 8 ones i)) /\
  (forall a', and_range ones zeros index count = Some a' ->
     ~ replaced ones a' index count (fun i => bit 8 ones i && bit 8 zeros i)).
Proof.
  intros index count n W L. cbv zeta.
  pose (ones := repeat 255%N n). pose (zeros := repeat 0%N n). fold ones zeros.
  assert (Lo : length ones = n) by apply repeat_length. assert (Lz : length zeros = n) by apply repeat_length.
  assert (Ao : array 8 ones) by (apply Forall_forall; intros x H; apply repeat_spec in H; rewrite H; reflexivity).
  assert (Az : array 8 zeros) by (apply Forall_forall; intros x H; apply repeat_spec in H; rewrite H; reflexivity).
  assert (Bz : forall i, bit 8 zeros i = false).
  { intros i. unfold bit, zeros. destruct (Nat.lt_ge_cases (i / 8) n).
    - rewrite nth_repeat. apply N.bits_0.
    - rewrite nth_overflow by (rewrite repeat_length; auto). apply N.bits_0. }
  assert (Bo : forall i, i < 8 * n -> bit 8 ones i = true).
  { intros i Hi. unfold bit, ones. assert (i / 8 < n) by (apply Nat.div_lt_upper_bound; lia).
    rewrite (nth_indep _ 0%N 255%N) by (rewrite repeat_length; auto). rewrite nth_repeat.
    change 255%N with (N.ones 8). rewrite N.ones_spec_low; auto.
    pose proof (Nat.mod_upper_bound i 8). lia. }
  assert (T : count < touched index count /\ index + count < 8 * n /\ 0 < count /\ 8 <= index mod 8 + count).
  { unfold whole, touched in *. destruct (Nat.ltb_spec (index mod 8 + count) 8); [tauto|].
    destruct (split8 (index + count)) as (q & r & E & Hr & Hd & Hm).
    assert (r <> 0) by (intros ->; tauto).
    replace (index + count + 7) with (8 * (q + 1) + (r - 1)) by lia. rewrite div8 by lia.
    pose proof (Nat.mod_upper_bound index 8). lia. }
  destruct T as (T1 & T2 & T3 & T4).
  assert (In : forall a, length a = n -> inside a index count) by (unfold inside; intros; lia).
  set (e := index + count).
  assert (W1 : within e index (touched index count) = true) by (unfold within, e; lia).
  assert (W2 : within e index count = false) by (unfold within, e; lia).
  pose proof (Bo e ltac:(unfold e; lia)) as Boe. pose proof (Bz e) as Bze.
  destruct (c13_range_extent zeros ones index count Az Ao ltac:(lia) (In _ Lz))
    as ((s & Es & _ & _ & Hs) & _ & (t & Et & _ & _ & Ht) & (o & Eo & _ & _ & Ho) & (x & Ex & _ & _ & Hx) & (c & Ec & _ & _ & Hc) & _).
  destruct (c13_range_extent ones zeros index count Ao Az ltac:(lia) (In _ Lo))
    as (_ & (d & Ed & _ & _ & Hd) & _ & _ & _ & _ & (l & El & Hl)).
  assert (LZ : e < 8 * length zeros) by (unfold e; lia). assert (LO : e < 8 * length ones) by (unfold e; lia).
  specialize (Hs e LZ). specialize (Ht e LZ). specialize (Ho e LZ). specialize (Hx e LZ). specialize (Hc e LZ). specialize (Hd e LO).
  rewrite W1 in *. rewrite Bze, ?Boe in *.
  split; [|split; [|split; [|split; [|split; [|split]]]]].
  1: intros a' E (_ & _ & R); rewrite Es in E; injection E as <-; specialize (R e LZ); rewrite W2 in R; congruence.
  1: intros a' E (_ & _ & R); rewrite Ed in E; injection E as <-; specialize (R e LO); rewrite W2 in R; congruence.
  1: intros a' E (_ & _ & R); rewrite Et in E; injection E as <-; specialize (R e LZ); rewrite W2 in R; cbn in Ht; congruence.
  1: intros a' E (_ & _ & R); rewrite Eo in E; injection E as <-; specialize (R e LZ); rewrite W2 in R; cbn in Ho; congruence.
  1: intros a' E (_ & _ & R); rewrite Ex in E; injection E as <-; specialize (R e LZ); rewrite W2 in R; cbn in Hx; congruence.
  1: intros a' E (_ & _ & R); rewrite Ec in E; injection E as <-; specialize (R e LZ); rewrite W2 in R; congruence.
  intros a' E (_ & _ & R). rewrite El in E. injection E as <-. specialize (R e LO). rewrite W2 in R.
  destruct (Nat.eqb_spec (index mod 8) 0) as [Z|Z], (Nat.leb_spec 8 count); cbn [negb orb] in Hl; try lia;
    destruct Hl as (_ & _ & Hl); specialize (Hl e LO); rewrite W1, Boe, Bze in Hl; cbn in Hl; congruence.
Qed.
Print Assumptions c13_range_refuted.

(** CCBitsAnd on a short range at the start of a byte sets bits. *)
Theorem c13_and_range_refuted : exists a b index count,
  array 8 a /\ array 8 b /\ length b = length a /\ inside a index count /\ whole index count /\
  exists a', and_range a b index count = Some a' /\
    bit 8 a index = true /\ bit 8 b index = false /\ bit 8 a' index = true /\
    bit 8 a (index + count) = false /\ bit 8 a' (index + count) = true.
Proof.
  exists [1]%N, [0]%N, 0, 3.
  split; [repeat constructor|]. split; [repeat constructor|]. split; [reflexivity|].
  split; [unfold inside; cbn; lia|]. split; [right; cbn; lia|].
  exists [249]%N. repeat split; vm_compute; reflexivity.
Qed.
Print Assumptions c13_and_range_refuted.

(** ** CCBitsCount: right for every range. *)
Theorem c13_count : forall m index count, array 8 m -> inside m index count ->
  count_range m index count = Some (N.of_nat (length (positions index count (bit 8 m)))).
Proof. exact count_range_ok. Qed.
Print Assumptions c13_count.

Example c13_count_nonvacuous :
  array 8 (repeat 165%N 30) /\ inside (repeat 165%N 30) 3 200 /\ count_range (repeat 165%N 30) 3 200 = Some 100%N.
Proof.
  split; [repeat constructor|]. split; [unfold inside; cbn; lia|]. vm_compute. reflexivity.
Qed.

(** ** CCBitsAny: right for every range but those of [any_undefined], for which the last
    bits are not looked at: the code shifts by more than the width of an int. *)
Theorem c13_any_partial : forall m index count, array 8 m -> inside m index count ->
  ~ any_undefined index count ->
  exists found, any_range m index count = Some found /\
    (found = true <-> exists i, index <= i < index + count /\ bit 8 m i = true).
Proof.
  intros m index count A I D. eexists. split; [apply any_range_ok; auto|].
  rewrite Nat.ltb_lt. unfold cnt. split.
  - destruct (filter _ _) as [|i t] eqn:F; [cbn; lia|]. intros _. exists i.
    assert (K : In i (filter (bit 8 m) (seq index count))) by (rewrite F; left; auto).
    apply filter_In in K. rewrite in_seq in K. auto.
  - intros (i & Hi & B). assert (K : In i (filter (bit 8 m) (seq index count))).
    { apply filter_In. split; [apply in_seq; auto|auto]. }
    destruct (filter _ _); [destruct K|cbn; lia].
Qed.
Print Assumptions c13_any_partial.

Example c13_any_nonvacuous :
  array 8 (repeat 0%N 30 ++ [8]%N) /\ inside (repeat 0%N 30 ++ [8]%N) 8 236 /\ ~ any_undefined 8 236 /\
  any_range (repeat 0%N 30 ++ [8]%N) 8 236 = Some true /\ any_range (repeat 0%N 30 ++ [8]%N) 8 235 = Some false.
Proof.
  split; [repeat constructor|]. split; [unfold inside; cbn; lia|].
  split; [intros (H & _); apply H; reflexivity|]. split; vm_compute; reflexivity.
Qed.

Theorem c13_any_refuted : forall m index count, array 8 m -> inside m index count ->
  any_undefined index count ->
  (forall i, index <= i < index + count - (index + count) mod 8 -> bit 8 m i = false) ->
  any_range m index count = None.
Proof.
  intros m index count A I D Z. rewrite (proj2 (any_range_ok m index count A I) D).
  replace (0 <? _) with false; [reflexivity|]. symmetry. apply Nat.ltb_ge.
  rewrite cnt_zero; [lia|]. intros i Hi. apply Z.
  pose proof (Nat.mod_le (index + count) 8 ltac:(lia)). destruct D as (_ & _ & D & _). lia.
Qed.
Print Assumptions c13_any_refuted.

Example c13_any_refuted_nonvacuous : any_undefined 3 10 /\ any_range [0; 0]%N 3 10 = None.
Proof. split; [|reflexivity]. unfold any_undefined. cbn. lia. Qed.

(** ** CCBitsMask: the indexes stored are those at which both arrays have a set bit, each
    once; in ascending order when the range starts at a byte (or is short). *)
Theorem c13_mask_partial : forall a b index count,
  array 8 a -> array 8 b -> length b = length a -> inside a index count ->
  let both := fun i => bit 8 a i && bit 8 b i in
  ~ mask_misplaced index count -> ~ lone_group both index count ->
  exists l, mask_range a b index count = Some l /\ Permutation l (positions index count both) /\
    (index mod 8 = 0 \/ index mod 8 + count < 72 -> l = positions index count both).
Proof.
  intros a b index count A B L I both G NL.
  destruct (mask_range_ok a b index count A B L I G NL) as (w & h & t & E & P & H1 & H2).
  exists (w ++ h ++ t). split; [exact E|]. unfold both. rewrite <- P. split.
  - rewrite !app_assoc. apply Permutation_app_tail, Permutation_app_comm.
  - intros D. destruct (Nat.eq_dec (index mod 8) 0) as [Z|Z].
    + rewrite (H1 Z). reflexivity.
    + rewrite H2 by (auto; lia). reflexivity.
Qed.
Print Assumptions c13_mask_partial.

Example c13_mask_nonvacuous :
  let a := repeat 165%N 12 in
  array 8 a /\ inside a 5 80 /\ ~ mask_misplaced 5 80 /\
  ~ lone_group (fun i => bit 8 a i && bit 8 a i) 5 80 /\
  (exists l, mask_range a a 5 80 = Some l /\ length l = 40).
Proof.
  cbv zeta. split; [repeat constructor|]. split; [unfold inside; cbn; lia|].
  split; [intros (H & _); discriminate H|]. split.
  - intros (k & H & _ & Z). assert (k = 0) by (cbn in H; lia). subst k. specialize (Z 0 ltac:(lia)). vm_compute in Z. discriminate.
  - eexists. split; vm_compute; reflexivity.
Qed.

(** The order is not ascending in general. *)
Theorem c13_mask_order_refuted : exists a b index count l,
  array 8 a /\ array 8 b /\ length b = length a /\ inside a index count /\
  mask_range a b index count = Some l /\ l <> positions index count (fun i => bit 8 a i && bit 8 b i).
Proof.
  exists (repeat 255%N 9), (repeat 255%N 9), 7, 65. eexists.
  split; [repeat constructor|]. split; [repeat constructor|]. split; [reflexivity|].
  split; [unfold inside; cbn; lia|]. split; [vm_compute; reflexivity|]. vm_compute. discriminate.
Qed.
Print Assumptions c13_mask_order_refuted.

(** A 64-bit group with only its last bit: the code shifts by 64. *)
Theorem c13_mask_lone_refuted : forall a b index count,
  array 8 a -> array 8 b -> length b = length a -> inside a index count ->
  lone_group (fun i => bit 8 a i && bit 8 b i) index count -> mask_range a b index count = None.
Proof. exact mask_range_lone. Qed.
Print Assumptions c13_mask_lone_refuted.

Example c13_mask_lone_nonvacuous :
  let a := [0; 0; 0; 0; 0; 0; 0; 128]%N in
  lone_group (fun i => bit 8 a i && bit 8 a i) 0 64.
Proof.
  cbv zeta. exists 0. split; [cbn; lia|]. split; [reflexivity|]. intros j Hj.
  do 63 (destruct j as [|j]; [reflexivity|]). lia.
Qed.

(** A range from a byte to inside a later one: the last bits are reported at the wrong place. *)
Theorem c13_mask_misplaced_refuted : exists a index count l,
  array 8 a /\ inside a index count /\ mask_misplaced index count /\
  mask_range a a index count = Some l /\
  ~ Permutation l (positions index count (fun i => bit 8 a i && bit 8 a i)).
Proof.
  exists [0; 1]%N, 0, 9. eexists. split; [repeat constructor|]. split; [unfold inside; cbn; lia|].
  split; [unfold mask_misplaced; cbn; lia|]. split; [vm_compute; reflexivity|].
  intros P. assert (H : In 8 [0]) by (eapply Permutation_in; [symmetry; exact P|vm_compute; auto]).
  destruct H as [H|[]]. discriminate H.
Qed.
Print Assumptions c13_mask_misplaced_refuted.
