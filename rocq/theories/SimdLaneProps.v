(** C95: the functions on integer lanes that CommonC/SimdFallback.h supplies.
    Rotations move every bit around the lane, but not for negative signed
    lanes.  Lowest and highest bits, masks, powers of two and counts are those
    of the lane, but masks of 64-bit lanes reach only 48 bits down.  Minimum,
    maximum, clamp, division, remainder and multiply-add are those of the
    numbers. *)
From Verif Require Import Base Word BitTricksSpec SimdLaneModel SimdLaneSpec SimdLaneProofs.
Local Open Scope N_scope.

(** Rotations of unsigned lanes, and of signed ones that are not negative, by
    the lanes of another vector and by a constant. *)
Theorem c95_rotate_partial w sg a b n : width w -> lane w a -> lane w b -> n < 256 ->
  sg = false \/ (0 <= number w sg a)%Z ->
  rotated_left w a b (rotate_left w sg a b) /\ rotated_right w a b (rotate_right w sg a b) /\
  rotated_left w a n (rotate_left_n w sg a n) /\ rotated_right w a n (rotate_right_n w sg a n).
Proof.
  intros W A B L S. pose proof (width_pos w W) as P.
  assert (S' : sg = false \/ N.testbit a (w - 1) = false).
  { destruct S as [S|S]; [left; exact S|]. destruct sg; [right|left; reflexivity].
    rewrite top_bit by (try exact A; lia). unfold number in S. cbn [andb] in S.
    destruct (N.leb_spec (2 ^ (w - 1)) a); [|reflexivity]. unfold lane in A. apply N2Z.inj_lt in A.
    rewrite pow_Z in A. lia. }
  assert (L' : n < 2 ^ 32) by (eapply N.lt_trans; [exact L|reflexivity]).
  split; [apply rot_left_ok; auto|]. split; [apply rot_right_ok; auto|].
  split; [apply rot_left_ok; auto|apply rot_right_ok; auto].
Qed.
Print Assumptions c95_rotate_partial.

(** A negative signed lane is filled with its sign: rotating just the top bit
    left by one gives all bits, not the lowest bit. *)
Theorem c95_rotate_refuted w : width w ->
  rotate_left w true (2 ^ (w - 1)) 1 = 2 ^ w - 1 /\ ~ rotated_left w (2 ^ (w - 1)) 1 (rotate_left w true (2 ^ (w - 1)) 1) /\
  ~ rotated_right w (2 ^ (w - 1)) 1 (rotate_right w true (2 ^ (w - 1)) 1).
Proof.
  intros W. split; [destruct W as [->|[->|[->| ->]]]; vm_compute; reflexivity|].
  split; intros [_ H].
  - destruct W as [->|[->|[->| ->]]]; specialize (H 0 ltac:(lia)); vm_compute in H; discriminate H.
  - destruct W as [->|[->|[->| ->]]];
      [specialize (H 7 ltac:(lia))|specialize (H 15 ltac:(lia))|specialize (H 31 ltac:(lia))|specialize (H 63 ltac:(lia))];
      vm_compute in H; discriminate H.
Qed.
Print Assumptions c95_rotate_refuted.

(** The lowest set and unset bit of a lane; none for a lane without one. *)
Theorem c95_lowest w a : width w -> lane w a ->
  (if a =? 0 then lowest_set w a = 0 else is_lowest true a (lowest_set w a)) /\
  (if a =? 2 ^ w - 1 then lowest_unset w a = 0 else is_lowest false a (lowest_unset w a)).
Proof.
  intros W A. split.
  - destruct (N.eqb_spec a 0) as [->|H]; [apply lowest_set_zero|]. apply lowest_set_ok; [lia|exact A].
  - destruct (N.eqb_spec a (2 ^ w - 1)) as [->|H]; [apply lowest_unset_all|]. apply lowest_unset_ok.
    unfold lane in A. lia.
Qed.
Print Assumptions c95_lowest.

(** The least mask that covers the lane, its highest set bit, the bits above
    that, and the least power of two that is at least the lane (0 if there is
    none in the lane, and for 0): for 64-bit lanes only below 2^48. *)
Theorem c95_mask_partial w a : width w -> lane w a -> w <> 64 \/ a < 2 ^ 48 ->
  is_least_mask_ge a (mask w a) /\
  (0 < a -> is_highest_set a (highest_set w a)) /\
  (forall i, N.testbit (mask_highest_unset w a) i = true <-> i < w /\ forall j, i <= j -> N.testbit a j = false) /\
  (1 <= a <= 2 ^ (w - 1) -> is_least_power_ge a (next_pow2 w a)) /\
  (a = 0 -> highest_set w a = 0) /\ (a = 0 \/ 2 ^ (w - 1) < a -> next_pow2 w a = 0).
Proof.
  intros W A C. assert (R : a < 2 ^ reach w).
  { unfold reach. destruct (N.eqb_spec w 64) as [E|E]; [|exact A]. destruct C as [C|C]; [contradiction|exact C]. }
  split; [apply mask_ok; auto|]. split; [intros H; apply highest_ok; auto|]. split.
  - intros i. rewrite unset_ok by auto. rewrite andb_true_iff, N.leb_le, N.ltb_lt. split.
    + intros (H1 & H2). split; [exact H2|]. intros j J.
      apply (testbit_high a (N.size a)); [apply BitTricksProofs.size_le_iff; lia|lia].
    + intros (H1 & H2). split; [|exact H1]. apply BitTricksProofs.size_le_iff. apply lt_pow2_bits. exact H2.
  - split; [intros (H1 & H2); apply next_pow2_ok; auto; lia|].
    split; [intros ->; apply next_pow2_zero, W|]. intros [->|H]; [apply next_pow2_zero, W|].
    destruct C as [C|C]; [apply next_pow2_big; auto|].
    destruct W as [->|[->|[->| ->]]]; [apply next_pow2_big; auto; unfold width; auto; discriminate..|].
    exfalso. assert (2 ^ 48 < 2 ^ (64 - 1)) by (vm_compute; reflexivity). lia.
Qed.
Print Assumptions c95_mask_partial.

(** The mask of a 64-bit lane with the top bit set misses its 16 lowest bits;
    the highest set bit then comes with bit 15, and the next power of two of
    2^62 + 1 is no power of two. *)
Theorem c95_mask_refuted :
  mask 64 (2 ^ 63) = 2 ^ 64 - 2 ^ 16 /\ ~ is_least_mask_ge (2 ^ 63) (mask 64 (2 ^ 63)) /\
  highest_set 64 (2 ^ 63) = 2 ^ 63 + 2 ^ 15 /\ ~ is_highest_set (2 ^ 63) (highest_set 64 (2 ^ 63)) /\
  mask_highest_unset 64 (2 ^ 63) = 2 ^ 16 - 1 /\
  ~ is_least_power_ge (2 ^ 62 + 1) (next_pow2 64 (2 ^ 62 + 1)).
Proof.
  split; [vm_compute; reflexivity|]. split.
  { intros ((k & E) & _). apply (two_bits (mask 64 (2 ^ 63) + 1) 0 16); [vm_compute; reflexivity|vm_compute; reflexivity|discriminate|].
    exists k. rewrite E. pose proof (pow2_pos k). lia. }
  split; [vm_compute; reflexivity|]. split.
  { intros (k & E & _). apply (two_bits (highest_set 64 (2 ^ 63)) 15 63); [vm_compute; reflexivity|vm_compute; reflexivity|discriminate|].
    exists k. exact E. }
  split; [vm_compute; reflexivity|]. intros (E & _).
  apply (two_bits (next_pow2 64 (2 ^ 62 + 1)) 0 15); [vm_compute; reflexivity|vm_compute; reflexivity|discriminate|exact E].
Qed.
Print Assumptions c95_mask_refuted.

(** The number of set bits, the number of unset bits below the lowest set one
    (all of them for 0), and the bits below a power of two. *)
Theorem c95_count w sg a : width w -> lane w a ->
  count_set w sg a = popcount (N.to_nat w) a /\ is_trailing_zeros w a (count_lowest_unset w sg a) /\
  (forall k, k < w -> a = 2 ^ k -> mask_lower_pow2 w a = 2 ^ k - 1) /\ mask_lower_pow2 w 0 = 0.
Proof.
  intros W A. split; [apply count_set_ok; auto|]. split; [apply count_lowest_ok; auto|].
  split; [intros k K ->; apply mask_lower_ok, K|apply mask_lower_zero].
Qed.
Print Assumptions c95_count.

(** Minimum, maximum and clamp of the numbers in the lanes. *)
Theorem c95_order w sg a b c : width w -> lane w a -> lane w b -> lane w c ->
  number w sg (min_lane w sg a b) = Z.min (number w sg a) (number w sg b) /\
  number w sg (max_lane w sg a b) = Z.max (number w sg a) (number w sg b) /\
  ((number w sg b <= number w sg c)%Z ->
   let r := number w sg (clamp w sg a b c) in
   (number w sg b <= r <= number w sg c)%Z /\
   ((number w sg b <= number w sg a <= number w sg c)%Z -> r = number w sg a)).
Proof.
  intros W A B C. pose proof (width_pos w W) as P. assert (P0 : 0 < w) by lia.
  split; [apply min_ok; auto|]. split; [apply max_ok; auto|]. intros L r. subst r. unfold clamp.
  destruct (max_ok w sg a b P0 A B) as [M1 M2]. destruct (min_ok w sg (max_lane w sg a b) c P0 M1 C) as [_ ->].
  rewrite M2. lia.
Qed.
Print Assumptions c95_order.

(** Division truncates and the remainder goes with it; neither is defined for
    a divisor of 0. *)
Theorem c95_divide w sg a b : width w -> lane w a -> lane w b ->
  (number w sg b = 0%Z -> div_lane w sg a b = None /\ mod_lane w sg a b = None) /\
  (number w sg b <> 0%Z -> ~ (number w sg a = - 2 ^ Z.of_N (w - 1) /\ number w sg b = -1)%Z ->
   exists q r, div_lane w sg a b = Some q /\ mod_lane w sg a b = Some r /\ lane w q /\ lane w r /\
     number w sg q = Z.quot (number w sg a) (number w sg b) /\
     number w sg r = Z.rem (number w sg a) (number w sg b)).
Proof.
  intros W A B. pose proof (width_pos w W) as P. split.
  - intros E. assert (D : div_lane w sg a b = None).
    { unfold div_lane. cbv zeta. rewrite !lane_number by (try assumption; lia). rewrite E. reflexivity. }
    split; [exact D|]. unfold mod_lane. rewrite D. reflexivity.
  - intros N0 L. apply divide_ok; auto.
Qed.
Print Assumptions c95_divide.

(** The multiply-add functions, modulo 2^w. *)
Theorem c95_madd w sg a b c : width w -> lane w a -> lane w b -> lane w c ->
  modulo w (number w sg a * number w sg b + number w sg c) (madd w a b c) /\
  modulo w (- (number w sg a * number w sg b) + number w sg c) (neg_madd w a b c) /\
  modulo w (number w sg a * number w sg b - number w sg c) (msub w a b c) /\
  modulo w (- (number w sg a * number w sg b) - number w sg c) (neg_msub w a b c).
Proof. intros _ _ _ _. apply madd_ok. Qed.
Print Assumptions c95_madd.

(** Concrete lanes. *)
Example c95_ex :
  rotate_left 8 false 0x96 3 = 0xb4 /\ rotate_right 16 false 0x8001 4 = 0x1800 /\
  rotate_left_n 32 false 0x80000001 36 = 0x18 /\
  lowest_set 8 0x58 = 8 /\ lowest_unset 16 0xff07 = 8 /\ mask 16 0x0123 = 0x1ff /\
  highest_set 32 0x00123456 = 0x00100000 /\ next_pow2 8 65 = 128 /\ mask_highest_unset 8 0x14 = 0xe0 /\
  count_set 8 true 0xf1 = 5 /\ count_set 64 true (2 ^ 64 - 1) = 64 /\
  count_lowest_unset 16 true 0x8000 = 15 /\ count_lowest_unset 8 false 0 = 8 /\
  number 8 true (min_lane 8 true 0xfe 3) = (-2)%Z /\ max_lane 8 false 0xfe 3 = 0xfe /\
  clamp 8 true 0x80 0xfb 5 = 0xfb /\
  mod_lane 8 true 0xf9 3 = Some 0xff /\ div_lane 8 true 0xf9 3 = Some 0xfe /\
  div_lane 8 true 0x80 0xff = Some 0x80 /\ div_lane 32 true 0x80000000 0xffffffff = None /\
  neg_msub 8 3 4 5 = 0xef.
Proof. vm_compute. repeat split. Qed.
