(** C20: the integer validators. *)
From Verif Require Import Base ValidateModel ValidateSpec ValidateProofs.
Local Open Scope Z_scope.

(** On little-endian hardware, for all sizes, signs and endiannesses of value and bound. *)
Theorem c20_minimum_partial (ta : itype) (a : list Z) (tb : itype) (b : list Z) : typed ta a -> typed tb b ->
  validate_minimum LittleHw ta a tb b = Some (value LittleHw tb b <=? value LittleHw ta a).
Proof.
  intros Ha Hb. unfold validate_minimum. rewrite order_ok by auto. f_equal.
  destruct (Z.compare_spec (value LittleHw ta a) (value LittleHw tb b)); symmetry; [apply Z.leb_le|apply Z.leb_gt|apply Z.leb_le]; lia.
Qed.
Print Assumptions c20_minimum_partial.
Theorem c20_maximum_partial (ta : itype) (a : list Z) (tb : itype) (b : list Z) : typed ta a -> typed tb b ->
  validate_maximum LittleHw ta a tb b = Some (value LittleHw ta a <=? value LittleHw tb b).
Proof.
  intros Ha Hb. unfold validate_maximum. rewrite order_ok by auto. reflexivity.
Qed.
Print Assumptions c20_maximum_partial.

(** On big-endian hardware byte 0 is taken for the least significant: 256, the bytes 1 0, is rejected for a minimum of 2,
    the bytes 0 2. *)
Theorem c20_big_endian_hardware_refuted : exists t a b, typed t a /\ typed t b /\
  validate_minimum BigHw t a t b = Some false /\ value BigHw t b <= value BigHw t a.
Proof.
  exists {| size := 2; order := Native; sign := false |}, [1; 0], [0; 2].
  unfold typed, bytes_ok. cbn [size length]. repeat split; try lia; repeat constructor; try lia. vm_compute. discriminate.
Qed.
Print Assumptions c20_big_endian_hardware_refuted.

(** -2 in one byte is at least -129 in two, big-endian; -300 in two bytes is not at least -1 in one. *)
Definition s8 := {| size := 1; order := Native; sign := true |}.
Definition s16b := {| size := 2; order := Big; sign := true |}.
Example c20_case : typed s8 [254] /\ typed s16b [255; 127] /\ value LittleHw s8 [254] = -2 /\ value LittleHw s16b [255; 127] = -129 /\
  validate_minimum LittleHw s8 [254] s16b [255; 127] = Some true /\ validate_maximum LittleHw s8 [254] s16b [255; 127] = Some false /\
  validate_minimum LittleHw s16b [254; 212] s8 [255] = Some false.
Proof. unfold typed, bytes_ok. cbn [size length s8 s16b]. repeat split; try lia; repeat constructor; lia. Qed.
