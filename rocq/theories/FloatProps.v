(** C82 and C83. *)
From Verif Require Import Base FloatModel FloatSpec FloatProofs.
Local Open Scope Z_scope.

Lemma sensible32 : sensible float32.
Proof. split; vm_compute; discriminate. Qed.
Lemma sensible64 : sensible float64.
Proof. split; vm_compute; discriminate. Qed.

(** For finite floats of the same sign, CCFloatGetUlps is the number of floats from one to the other. *)
Theorem c82_ulps_partial a b : word float32 a -> word float32 b -> finite float32 a -> finite float32 b -> (negative float32 a <-> negative float32 b) ->
  apart float32 (float_value float32 a) (float_value float32 b) (N.to_nat (get_ulps a b)).
Proof. apply (ulps_ok float32 sensible32 _ _ eq_refl eq_refl). Qed.
Print Assumptions c82_ulps_partial.

(** For them CCFloatEqualUlps tells whether there are no more than the given number. *)
Theorem c82_equal_partial a b max_ulps : word float32 a -> word float32 b -> finite float32 a -> finite float32 b -> (negative float32 a <-> negative float32 b) ->
  (equal_ulps a b max_ulps = true <-> exists n, apart float32 (float_value float32 a) (float_value float32 b) n /\ (n <= N.to_nat max_ulps)%nat).
Proof.
  intros Wa Wb Fa Fb Sg. pose proof (c82_ulps_partial a b Wa Wb Fa Fb Sg) as U. unfold equal_ulps.
  rewrite (signbit_ok float32 sensible32 _ _ eq_refl eq_refl a Wa), (signbit_ok float32 sensible32 _ _ eq_refl eq_refl b Wb).
  assert (E : Bool.eqb (2 ^ (ew float32 + mw float32) <=? a)%N (2 ^ (ew float32 + mw float32) <=? b)%N = true).
  { unfold negative in Sg. destruct (N.leb_spec (2 ^ (ew float32 + mw float32)) a), (N.leb_spec (2 ^ (ew float32 + mw float32)) b); try reflexivity; exfalso.
    - apply (N.lt_irrefl b). eapply N.lt_le_trans; [eassumption|now apply Sg].
    - apply (N.lt_irrefl a). eapply N.lt_le_trans; [eassumption|now apply Sg]. }
  rewrite E. cbn [negb]. rewrite N.leb_le. split.
  - intros L. exists (N.to_nat (get_ulps a b)). split; [exact U|lia].
  - intros (n & An & L). pose proof (apart_unique float32 _ _ _ _ U An). lia.
Qed.
Print Assumptions c82_equal_partial.

(** Finite floats of opposite signs are equal exactly when they are the two zeros, whatever the number. *)
Theorem c82_signs a b max_ulps : word float32 a -> word float32 b -> finite float32 a -> finite float32 b -> ~ (negative float32 a <-> negative float32 b) ->
  (equal_ulps a b max_ulps = true <-> float_value float32 a = float_value float32 b).
Proof.
  intros Wa Wb Fa Fb Sg. unfold equal_ulps.
  rewrite (signbit_ok float32 sensible32 _ _ eq_refl eq_refl a Wa), (signbit_ok float32 sensible32 _ _ eq_refl eq_refl b Wb).
  assert (E : Bool.eqb (2 ^ (ew float32 + mw float32) <=? a)%N (2 ^ (ew float32 + mw float32) <=? b)%N = false).
  { unfold negative in Sg. destruct (N.leb_spec (2 ^ (ew float32 + mw float32)) a), (N.leb_spec (2 ^ (ew float32 + mw float32)) b); try reflexivity; elim Sg; split; intros; try assumption; exfalso.
    - apply (N.lt_irrefl a). eapply N.lt_le_trans; eassumption.
    - apply (N.lt_irrefl b). eapply N.lt_le_trans; eassumption. }
  rewrite E. cbn [negb]. now apply (float_eq_ok float32 sensible32 _ _ eq_refl eq_refl).
Qed.
Print Assumptions c82_signs.

(** The least positive and the greatest negative float are two apart, and not equal with two ulps. *)
Theorem c82_signs_refuted : exists a b, word float32 a /\ word float32 b /\ finite float32 a /\ finite float32 b /\
  apart float32 (float_value float32 a) (float_value float32 b) 2 /\ equal_ulps a b 2 = false.
Proof.
  exists 1%N, 2147483649%N. do 4 (split; [vm_compute; reflexivity|]). split; [|reflexivity].
  exists [0; 1]. split; [repeat constructor; cbn; intuition discriminate|]. split; [|reflexivity].
  assert (E1 : float_value float32 1 = 1) by (vm_compute; reflexivity). assert (E2 : float_value float32 2147483649 = -1) by (vm_compute; reflexivity). rewrite E1, E2. intros v. split.
  - intros [<-|[<-|[]]]; (split; [|lia]); [exists 0%N|exists 1%N]; (split; [vm_compute; reflexivity|split; [vm_compute; reflexivity|vm_compute; reflexivity]]).
  - intros [_ H]. cbn. lia.
Qed.
Print Assumptions c82_signs_refuted.

(** A NaN is equal to itself and to other NaNs, and infinity is equal to the greatest float. *)
Theorem c82_nan_refuted : not_a_number float32 0x7fc00000 /\ float_eq float32 0x7fc00000 0x7fc00000 = false /\ equal_ulps 0x7fc00000 0x7fc00000 0 = true /\
  not_a_number float32 0x7fc00001 /\ equal_ulps 0x7fc00000 0x7fc00001 1 = true /\
  infinite float32 0x7f800000 /\ finite float32 0x7f7fffff /\ equal_ulps 0x7f800000 0x7f7fffff 1 = true.
Proof. repeat split; vm_compute; try discriminate; reflexivity. Qed.
Print Assumptions c82_nan_refuted.

(** 1.0 and the third float after it; the greatest subnormal and the least normal float below 0. *)
Example c82_example : finite float32 0x3f800000 /\ float_value float32 0x3f800000 = 2 ^ 149 /\ get_ulps 0x3f800003 0x3f800000 = 3%N /\
  equal_ulps 0x3f800003 0x3f800000 3 = true /\ equal_ulps 0x3f800003 0x3f800000 2 = false /\
  get_ulps 0x807fffff 0x80800000 = 1%N /\ float_value float32 0x80800000 = float_value float32 0x807fffff - 1.
Proof. repeat split; vm_compute; reflexivity. Qed.

(** CCBitFloat32IsPowerOf2 and CCBitFloat64IsPowerOf2 tell whether the absolute value is a power of 2 for all numbers
    that are not subnormal or infinite; they take the infinities for one and no subnormal number. *)
Theorem c83_power_partial F a : F = float32 \/ F = float64 -> word F a ->
  (is_power_of_2 F a = true <-> normal F a /\ power_of_2 (Z.abs (float_value F a)) \/ infinite F a).
Proof.
  intros [->| ->].
  - exact (power_ok float32 sensible32 _ _ eq_refl eq_refl a).
  - exact (power_ok float64 sensible64 _ _ eq_refl eq_refl a).
Qed.
Print Assumptions c83_power_partial.

(** 2^-149 and 2^-1074 are powers of 2 that are not recognized, and -2 and infinity are not but are taken for them. *)
Theorem c83_power_refuted :
  (float_value float32 1 = 2 ^ 0 /\ is_power_of_2 float32 1 = false) /\ (float_value float64 1 = 2 ^ 0 /\ is_power_of_2 float64 1 = false) /\
  (float_value float32 0xc0000000 = - 2 ^ 150 /\ is_power_of_2 float32 0xc0000000 = true) /\
  (infinite float32 0x7f800000 /\ is_power_of_2 float32 0x7f800000 = true) /\ (infinite float64 0x7ff0000000000000 /\ is_power_of_2 float64 0x7ff0000000000000 = true).
Proof. repeat split; vm_compute; reflexivity. Qed.
Print Assumptions c83_power_refuted.

Example c83_example : normal float32 0x3e800000 /\ float_value float32 0x3e800000 = 2 ^ 147 /\ is_power_of_2 float32 0x3e800000 = true /\
  normal float32 0x3e800001 /\ is_power_of_2 float32 0x3e800001 = false.
Proof. repeat split; vm_compute; try discriminate; reflexivity. Qed.
