(** C18, C19: random numbers. *)
From Verif Require Import Base Word RandomModel RandomSpec RandomProofs.
Local Open Scope N_scope.

(** CCRandomRangei: for every generator output the result is in range, when the width of the range is an int32_t. *)
Theorem c18_range_partial (r : N) (min max : Z) :
  r < 2 ^ 32 -> (- 2 ^ 31 <= min)%Z -> (min <= max)%Z -> (max < 2 ^ 31)%Z -> (max - min + 1 < 2 ^ 31)%Z ->
  exists v, random_rangei r min max = Some v /\ (min <= v <= max)%Z.
Proof.
  intros Hr H1 H2 H3 H4. unfold random_rangei.
  assert (Hi : (- 2 ^ 31 <= to_int32 r < 2 ^ 31)%Z).
  { unfold to_int32. change (2 ^ 32) with 4294967296 in Hr. change (2 ^ 31) with 2147483648. destruct (N.ltb_spec r 2147483648); lia. }
  set (x := to_int32 r) in *. clearbody x.
  assert (I : forall z, (- 2 ^ 31 <= z < 2 ^ 31)%Z -> int32 z = Some z).
  { intros z Hz. unfold int32. destruct (Z.leb_spec (- 2 ^ 31) z), (Z.ltb_spec z (2 ^ 31)); cbn [andb]; lia || reflexivity. }
  rewrite (I (max - min)%Z) by lia. rewrite I by lia. set (w := (max - min + 1)%Z) in *.
  destruct (Z.eqb_spec w 0); [lia|]. destruct (Z.ltb_spec x 0).
  - pose proof (Z.rem_opp_l x w ltac:(lia)). pose proof (Z.rem_bound_pos (- x) w ltac:(lia) ltac:(lia)).
    exists (Z.rem x w + max)%Z. rewrite I by lia. split; [reflexivity|lia].
  - pose proof (Z.rem_bound_pos x w ltac:(lia) ltac:(lia)).
    exists (Z.rem x w + min)%Z. rewrite I by lia. split; [reflexivity|lia].
Qed.
Print Assumptions c18_range_partial.

(** Every value of the range is some generator output's. *)
Theorem c18_every_value_partial (min max v : Z) :
  (- 2 ^ 31 <= min)%Z -> (min <= v <= max)%Z -> (max < 2 ^ 31)%Z -> (max - min + 1 < 2 ^ 31)%Z ->
  exists r, r < 2 ^ 32 /\ random_rangei r min max = Some v.
Proof.
  intros H1 H2 H3 H4. exists (Z.to_N (v - min)).
  assert (Hr : Z.to_N (v - min) < 2 ^ 31) by (change (2 ^ 31) with 2147483648; lia).
  split; [change (2 ^ 32) with (2 * 2 ^ 31); lia|]. unfold random_rangei, to_int32.
  destruct (N.ltb_spec (Z.to_N (v - min)) (2 ^ 31)); [|lia]. rewrite Z2N.id by lia.
  assert (I : forall z, (- 2 ^ 31 <= z < 2 ^ 31)%Z -> int32 z = Some z).
  { intros z Hz. unfold int32. destruct (Z.leb_spec (- 2 ^ 31) z), (Z.ltb_spec z (2 ^ 31)); cbn [andb]; lia || reflexivity. }
  rewrite (I (max - min)%Z) by lia. rewrite I by lia. destruct (Z.eqb_spec (max - min + 1) 0); [lia|].
  destruct (Z.ltb_spec (v - min) 0); [lia|]. rewrite Z.rem_small by lia. rewrite I by lia. f_equal. lia.
Qed.
Print Assumptions c18_every_value_partial.

(** Wider ranges overflow int32_t: undefined behaviour for CCRandomRangei(0, INT32_MAX). *)
Theorem c18_wide_range_refuted : ~ forall r min max,
  r < 2 ^ 32 -> (- 2 ^ 31 <= min)%Z -> (min <= max)%Z -> (max < 2 ^ 31)%Z ->
  exists v, random_rangei r min max = Some v /\ (min <= v <= max)%Z.
Proof.
  intros H. destruct (H 5 0%Z (2 ^ 31 - 1)%Z) as (v & E & _); try lia; try (vm_compute; reflexivity). vm_compute in E. discriminate.
Qed.
Print Assumptions c18_wide_range_refuted.

Theorem c18_randomi_range (r randmax : N) : randmax < 2 ^ 31 -> randomi r randmax <= randmax.
Proof. intros. unfold randomi. pose proof (N.mod_lt r (randmax + 1) ltac:(lia)). lia. Qed.
Print Assumptions c18_randomi_range.

Example c18_case : random_rangei 4294967290 (-3)%Z 5%Z = Some (-1)%Z /\ random_rangei 17 (-3)%Z 5%Z = Some 5%Z.
Proof. vm_compute. auto. Qed.

(** xorshift runs through all 2^32 - 1 non-zero states in one cycle, from every non-zero state. *)
Theorem c19_xorshift_full_period : one_cycle xorshift (2 ^ 32 - 1).
Proof. exact xorshift_cycle. Qed.
Print Assumptions c19_xorshift_full_period.

(** Every seed gives such a state. *)
Theorem c19_seed_nonzero (seed : N) : seed < 2 ^ 32 -> 1 <= seed_xorshift seed <= 2 ^ 32 - 1.
Proof. intros. unfold seed_xorshift. change (2 ^ 32) with 4294967296 in *. destruct (N.eqb_spec seed 0); lia. Qed.
Print Assumptions c19_seed_nonzero.

(** xorwow never merges two states, and never reaches the all-zero words. *)
Theorem c19_xorwow_injective (s1 s2 : xorwow_state) :
  words s1 -> words s2 -> fst (xorwow s1) = fst (xorwow s2) -> s1 = s2.
Proof. apply xorwow_inj. Qed.
Print Assumptions c19_xorwow_injective.

Theorem c19_xorwow_never_zero (seed n : N) : seed < 2 ^ 32 ->
  let s := N.iter n (fun s => fst (xorwow s)) (seed_xorwow seed) in
  words s /\ (a s, b s, c s, d s) <> (0, 0, 0, 0).
Proof.
  intros Hs. pose proof (c19_seed_nonzero seed Hs) as S.
  assert (S0 : 0 < seed_xorshift seed < 2 ^ 32) by (change (2 ^ 32) with 4294967296 in *; lia).
  assert (W0 : words (seed_xorwow seed) /\ (a (seed_xorwow seed), b (seed_xorwow seed), c (seed_xorwow seed), d (seed_xorwow seed)) <> (0, 0, 0, 0)).
  { unfold seed_xorwow, words. cbn [a b c d counter]. set (s0 := seed_xorshift seed) in *. clearbody s0.
    pose proof (xorshift_pos _ S0) as S1. pose proof (xorshift_pos _ S1) as S2. pose proof (xorshift_pos _ S2) as S3.
    pose proof (xorshift_pos _ S3) as S4. pose proof (xorshift_pos _ S4) as S5. split; [tauto|]. intros [= E _ _ _]. lia. }
  cbn zeta. induction n as [|n IH] using N.peano_ind; [exact W0|]. rewrite N.iter_succ.
  set (s := N.iter n _ _) in *. clearbody s. destruct IH as [W NZ]. split; [now apply xorwow_words|].
  unfold xorwow. cbn [fst a b c d]. intros [= E1 E2 E3 E4]. apply NZ. rewrite E2, E3, E4 in *.
  assert (scramble (d s) = scramble 0) as D.
  { change (wshl 32 0 4) with 0 in E1. change (N.lxor 0 0) with 0 in E1. rewrite N.lxor_0_r in E1. exact E1. }
  apply scramble_inj in D. now rewrite D.
Qed.
Print Assumptions c19_xorwow_never_zero.

(** xorwow only comes back to a state after a multiple of 2^32 calls. *)
Theorem c19_xorwow_period (s : xorwow_state) (n : N) : words s ->
  N.iter n (fun s => fst (xorwow s)) s = s -> (2 ^ 32 | n).
Proof.
  intros W E. assert (C : counter (N.iter n (fun s => fst (xorwow s)) s) = (counter s + n * 362437) mod 2 ^ 32).
  { clear E. induction n as [|n IH] using N.peano_ind.
    - cbn [N.iter]. rewrite N.mul_0_l, N.add_0_r, N.mod_small; [reflexivity|apply W].
    - rewrite N.iter_succ. set (t := N.iter n _ _) in *. clearbody t. unfold xorwow. cbn [fst counter]. rewrite IH.
      unfold wadd, wrap. rewrite N.add_mod_idemp_l by discriminate. f_equal. lia. }
  rewrite E in C. assert (Hc : counter s < 2 ^ 32) by apply W.
  assert (D : (2 ^ 32 | 362437 * n)).
  { set (m := 2 ^ 32) in *. assert (m <> 0) by discriminate. clearbody m. pose proof (N.div_mod (counter s + n * 362437) m ltac:(assumption)) as Q.
    rewrite <- C in Q. exists ((counter s + n * 362437) / m). lia. }
  apply N.gauss in D; [exact D|reflexivity].
Qed.
Print Assumptions c19_xorwow_period.

(** What xorwow does not have is a long period from every state: these words return after 31 steps. *)
Theorem c19_xorwow_short_cycle : exists s, words s /\ (a s, b s, c s, d s) <> (0, 0, 0, 0) /\
  let s' := N.iter 31 (fun s => fst (xorwow s)) s in (a s', b s', c s', d s') = (a s, b s, c s, d s).
Proof.
  exists (mkXorwow 1269714484 619192112 783949828 133062468 0). unfold words. cbn [a b c d counter].
  split; [lia|]. split; [discriminate|]. vm_compute. reflexivity.
Qed.
Print Assumptions c19_xorwow_short_cycle.

Example c19_case : map (fun n => N.iter n xorshift 1) [1; 2; 3] = [270369; 67634689; 2647435461] /\ words (seed_xorwow 7).
Proof. split; [vm_compute; reflexivity|]. unfold words. vm_compute. auto. Qed.
