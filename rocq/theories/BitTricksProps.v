(** C12: the bit tricks compute their documented functions. *)
From Verif Require Import Base Word BitTricksModel BitTricksSpec BitTricksProofs.
Local Open Scope N_scope.

Theorem c12_lowest_set : forall x, 0 < x -> x < 2 ^ 64 -> is_lowest true x (lowest_set x).
Proof. exact lowest_set_spec. Qed.
Print Assumptions c12_lowest_set.
Example c12_lowest_set_ex : lowest_set 22 = 2 /\ lowest_set 0 = 0 /\ 0 < 22 < 2 ^ 64.
Proof. repeat split. Qed.

Theorem c12_lowest_unset : forall x, x < 2 ^ 64 - 1 -> is_lowest false x (lowest_unset x).
Proof. exact lowest_unset_spec. Qed.
Print Assumptions c12_lowest_unset.
Example c12_lowest_unset_ex : lowest_unset 23 = 8 /\ lowest_unset (2 ^ 64 - 1) = 0 /\ 23 < 2 ^ 64 - 1.
Proof. repeat split. Qed.

Theorem c12_highest_set : forall x, 0 < x -> x < 2 ^ 64 -> is_highest_set x (highest_set x).
Proof. exact highest_spec. Qed.
Print Assumptions c12_highest_set.
Example c12_highest_set_ex : highest_set 22 = 16 /\ highest_set 0 = 0.
Proof. repeat split. Qed.

Theorem c12_mask_for_value : forall x, x < 2 ^ 64 -> is_least_mask_ge x (mask_for_value x).
Proof. exact mask_spec. Qed.
Print Assumptions c12_mask_for_value.
Example c12_mask_for_value_ex : mask_for_value 22 = 31 /\ mask_for_value (2 ^ 63 + 1) = 2 ^ 64 - 1.
Proof. repeat split. Qed.

(** The unset bits above the highest set bit: bit i is in the mask iff i < 64 and x < 2^i. *)
Theorem c12_mask_for_unset_value :
  forall x i, x < 2 ^ 64 ->
    (N.testbit (mask_for_unset_value x) i = true <-> i < 64 /\ x < 2 ^ i).
Proof.
  exact (fun x i H =>
    eq_ind_r (fun b => b = true <-> i < 64 /\ x < 2 ^ i)
      (conj (fun E => let '(conj a b) := proj1 (andb_true_iff _ _) E in
                      conj (proj1 (N.ltb_lt _ _) b) (proj1 (size_le_iff x i) (proj1 (N.leb_le _ _) a)))
            (fun '(conj a b) => proj2 (andb_true_iff _ _)
                      (conj (proj2 (N.leb_le _ _) (proj2 (size_le_iff x i) b)) (proj2 (N.ltb_lt _ _) a))))
      (mask_unset_bits x i H)).
Qed.
Print Assumptions c12_mask_for_unset_value.

Theorem c12_mask_for_lower_power_of_2 :
  forall k, k < 64 -> mask_for_lower_power_of_2 (2 ^ k) = 2 ^ k - 1.
Proof. exact (fun k H => eq_trans (mask_lower_spec k H) (ones_pred k)). Qed.
Print Assumptions c12_mask_for_lower_power_of_2.

(** Inputs without the bit asked for give 0. *)
Theorem c12_absent_bit_is_zero :
  lowest_set 0 = 0 /\ highest_set 0 = 0 /\ lowest_unset (2 ^ 64 - 1) = 0 /\
  mask_for_lower_power_of_2 0 = 0 /\ mask_for_value 0 = 0.
Proof. repeat split. Qed.
Print Assumptions c12_absent_bit_is_zero.

(** Least power of two not below x: the documented domain is limited by representability. *)
Theorem c12_next_power_of_2_partial :
  forall x, 1 <= x -> x <= 2 ^ 63 -> is_least_power_ge x (next_power_of_2 x).
Proof. exact next_power_spec. Qed.
Print Assumptions c12_next_power_of_2_partial.
Example c12_next_power_of_2_ex : next_power_of_2 22 = 32 /\ next_power_of_2 8 = 8 /\ next_power_of_2 (2 ^ 63) = 2 ^ 63.
Proof. repeat split. Qed.

(** Outside that domain the result is 0: there is no representable power of two above 2^63,
    and for 0 the answer should have been 1. *)
Theorem c12_next_power_of_2_refuted :
  ~ is_least_power_ge 0 (next_power_of_2 0) /\
  forall x, 2 ^ 63 < x -> x < 2 ^ 64 -> next_power_of_2 x = 0.
Proof.
  split; [|exact next_power_big].
  intros ((k & Hk) & _). change (next_power_of_2 0) with 0 in Hk. pose proof (pow2_pos k). lia.
Qed.
Print Assumptions c12_next_power_of_2_refuted.

Theorem c12_count_set : forall x, x < 2 ^ 64 -> count_set x = popcount 64 x.
Proof. exact count_set_spec. Qed.
Print Assumptions c12_count_set.
Example c12_count_set_ex : count_set 0xdeadbeefcafe0001 = 36 /\ count_set (2 ^ 64 - 1) = 64.
Proof. vm_compute. split; reflexivity. Qed.

Theorem c12_count_lowest_unset :
  forall x, x < 2 ^ 64 -> is_trailing_zeros 64 x (count_lowest_unset x).
Proof. exact count_lowest_unset_spec. Qed.
Print Assumptions c12_count_lowest_unset.
Example c12_count_lowest_unset_ex : count_lowest_unset 0 = 64 /\ count_lowest_unset (3 * 2 ^ 40) = 40.
Proof. vm_compute. split; reflexivity. Qed.

Theorem c12_bit_set : forall n, n <= 64 -> bit_set n = Some (2 ^ n - 1).
Proof. exact (fun n H => eq_trans (bit_set_spec n H) (f_equal Some (ones_pred n))). Qed.
Print Assumptions c12_bit_set.

Theorem c12_is_power_of_2 : forall x, x < 2 ^ 64 -> (is_power_of_2 x = true <-> power_of_two x).
Proof. exact is_power_of_2_spec. Qed.
Print Assumptions c12_is_power_of_2.
Example c12_is_power_of_2_ex :
  is_power_of_2 0 = false /\ is_power_of_2 (2 ^ 63) = true /\ is_power_of_2 (2 ^ 63 + 1) = false.
Proof. repeat split. Qed.

(** On positive normal floats the tests are exact. *)
Theorem c12_float32_is_power_of_2_partial :
  forall bits, f_normal 23 8 bits -> f_neg 23 8 bits = false ->
    (float32_is_power_of_2 bits = true <-> f_power_of_two 23 8 bits).
Proof. exact (fun b => float_spec 23 8 b float32_is_power_of_2 float32_eq). Qed.
Print Assumptions c12_float32_is_power_of_2_partial.

Theorem c12_float64_is_power_of_2_partial :
  forall bits, f_normal 52 11 bits -> f_neg 52 11 bits = false ->
    (float64_is_power_of_2 bits = true <-> f_power_of_two 52 11 bits).
Proof. exact (fun b => float_spec 52 11 b float64_is_power_of_2 float64_eq). Qed.
Print Assumptions c12_float64_is_power_of_2_partial.

(** 8.0f is a normal positive power of two, 12.0f is not one. *)
Example c12_float_ex :
  f_normal 23 8 0x41000000 /\ f_neg 23 8 0x41000000 = false /\ float32_is_power_of_2 0x41000000 = true /\
  f_normal 23 8 0x41400000 /\ float32_is_power_of_2 0x41400000 = false.
Proof. repeat split; vm_compute; congruence. Qed.

(** Off that domain they are wrong: -1.0f and +infinity are accepted, the smallest
    subnormal (a power of two) is rejected. *)
Theorem c12_float32_is_power_of_2_refuted :
  (float32_is_power_of_2 0xbf800000 = true /\ ~ f_power_of_two 23 8 0xbf800000) /\
  (float32_is_power_of_2 0x7f800000 = true /\ ~ f_power_of_two 23 8 0x7f800000) /\
  (float32_is_power_of_2 1 = false /\ f_power_of_two 23 8 1).
Proof.
  repeat split; try reflexivity.
  - intros (_ & H & _). discriminate H.
  - intros (H & _). apply H. reflexivity.
  - vm_compute. congruence.
  - exists 0. reflexivity.
Qed.
Print Assumptions c12_float32_is_power_of_2_refuted.

Theorem c12_float64_is_power_of_2_refuted :
  (float64_is_power_of_2 0xbff0000000000000 = true /\ ~ f_power_of_two 52 11 0xbff0000000000000) /\
  (float64_is_power_of_2 0x7ff0000000000000 = true /\ ~ f_power_of_two 52 11 0x7ff0000000000000) /\
  (float64_is_power_of_2 1 = false /\ f_power_of_two 52 11 1).
Proof.
  repeat split; try reflexivity.
  - intros (_ & H & _). discriminate H.
  - intros (H & _). apply H. reflexivity.
  - vm_compute. congruence.
  - exists 0. reflexivity.
Qed.
Print Assumptions c12_float64_is_power_of_2_refuted.
