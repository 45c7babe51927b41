(** C17: decimal multiplication. *)
From Verif Require Import Base DecimalModel DecimalSpec DecimalProofs.
Local Open Scope N_scope.

(** Whenever the product, rounded down, fits in 64 bits it is the result, except for the value 0 with an exponent of 20 or
    more. What is missing: that exception, and the saturation of some products that do not fit. *)
Theorem c17_exact32_partial (v c : N) (e : Z) : v < 2 ^ 64 -> c < 2 ^ 32 -> (e < 20)%Z \/ c = 0 \/ v <> 0 ->
  product v c e < 2 ^ 64 -> mul32 v c e = product v c e.
Proof. intros Hv Hc Hz Hp. destruct (Z.lt_ge_cases e 0); [apply mul32_down|apply mul32_up]; auto. Qed.
Print Assumptions c17_exact32_partial.
Theorem c17_exact64_partial (v c : N) (e : Z) : v < 2 ^ 64 -> c < 2 ^ 64 -> (e < 20)%Z \/ c = 0 \/ v <> 0 ->
  product v c e < 2 ^ 64 -> mul64 v c e = product v c e.
Proof. intros Hv Hc Hz Hp. destruct (Z.lt_ge_cases e 0); [apply mul64_down|apply mul64_up]; auto. Qed.
Print Assumptions c17_exact64_partial.

(** Products that do not fit saturate: with an exponent of 20 or more; with a positive exponent while the product stays
    below 2^96 and the coefficient below 2^32/10; and, for the 64-bit coefficient, when a half alone is too large. *)
Theorem c17_saturates_partial (v c : N) (e : Z) : v < 2 ^ 64 ->
  ((20 <= e)%Z -> c <> 0 -> mul32 v c e = UINT64_MAX /\ mul64 v c e = UINT64_MAX) /\
  ((1 <= e < 20)%Z -> c * 10 < 2 ^ 32 -> 2 ^ 64 <= product v c e < 2 ^ 96 -> mul32 v c e = UINT64_MAX) /\
  ((0 <= e < 20)%Z -> c * 10 ^ Z.to_N e < 2 ^ 96 ->
     2 ^ 32 <= v / 2 ^ 32 * c * 10 ^ Z.to_N e \/ 2 ^ 64 <= v mod 2 ^ 32 * c * 10 ^ Z.to_N e -> mul64 v c e = UINT64_MAX).
Proof.
  intros Hv. split; [|split].
  - intros He Hc. unfold mul32, mul64. destruct (Z.leb_spec 20 e); [|lia]. destruct (N.eqb_spec c 0); [lia|]. auto.
  - intros [H1 H2] Hc [H3 H4]. apply mul32_saturates; auto.
  - intros He Hc Hb. apply mul64_saturates; auto.
Qed.
Print Assumptions c17_saturates_partial.

(** 0 * 10^20 is not 0. *)
Theorem c17_zero_refuted : mul32 0 1 20 = UINT64_MAX /\ mul64 0 1 20 = UINT64_MAX /\ product 0 1 20 = 0.
Proof. repeat split. Qed.
Print Assumptions c17_zero_refuted.

(** A product of more than 64 bits can wrap: in the last addition, also with exponent 0, and in the first scaling step. *)
Theorem c17_wraps_refuted :
  (mul32 (2 ^ 33 - 1) (2 ^ 32 - 1) 0 <> UINT64_MAX /\ mul64 (2 ^ 33 - 1) (2 ^ 32 - 1) 0 <> UINT64_MAX /\ 2 ^ 64 <= product (2 ^ 33 - 1) (2 ^ 32 - 1) 0) /\
  (mul32 (2 ^ 32 - 1) (2 ^ 32 - 1) 1 <> UINT64_MAX /\ 2 ^ 64 <= product (2 ^ 32 - 1) (2 ^ 32 - 1) 1).
Proof. vm_compute. repeat split; discriminate. Qed.
Print Assumptions c17_wraps_refuted.

Example c17_case : mul32 123456789012 25 (-2) = 30864197253 /\ product 123456789012 25 (-2) = 30864197253 /\
  mul64 7 123456789 9 = 864197523000000000 /\ mul32 (2 ^ 64 - 1) (10 ^ 9) (-9) = 2 ^ 64 - 1 /\
  mul32 (2 ^ 60) 100 1 = UINT64_MAX /\ 2 ^ 64 <= product (2 ^ 60) 100 1 < 2 ^ 96 /\
  mul64 (2 ^ 60) 100 1 = UINT64_MAX /\ 2 ^ 32 <= 2 ^ 60 / 2 ^ 32 * 100 * 10 ^ Z.to_N 1.
Proof. vm_compute. repeat split; discriminate. Qed.
