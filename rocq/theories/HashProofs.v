From Verif Require Import Base Word HashModel HashSpec.

Lemma slice_whole {A} (l : list A) : slice l 0 (length l) = l.
Proof. unfold slice. cbn [skipn]. apply firstn_all. Qed.
Lemma slice_rest {A} (l : list A) i : slice l i (length l - i) = skipn i l.
Proof. unfold slice. apply firstn_all2. rewrite skipn_length. lia. Qed.
Lemma skipn_slice {A} (l : list A) i n : skipn i l = slice l i n ++ skipn (i + n) l.
Proof. unfold slice. rewrite <- (firstn_skipn n (skipn i l)) at 1. rewrite skipn_skipn. do 2 f_equal. lia. Qed.

(** * Jenkins *)
Lemma jenkins_body bytes : forall h, jenkins_map bytes h = one_at_a_time_body bytes h.
Proof.
  induction bytes as [|b t IH]; intros h; [reflexivity|]. unfold jenkins_map in *. cbn [fold_left one_at_a_time_body]. rewrite IH. f_equal.
  unfold jenkins_byte, wadd, wshl, W. cbv zeta. rewrite N.shiftr_div_pow2, N.add_mod_idemp_r by discriminate. reflexivity.
Qed.
Lemma jenkins_map_app a b h : jenkins_map (a ++ b) h = jenkins_map b (jenkins_map a h).
Proof. apply fold_left_app. Qed.
Lemma jenkins_loop_spec data pms n : forall l h,
  jenkins_map (skipn (l * pms) data) h = jenkins_map (skipn ((l + n) * pms) data) (jenkins_loop data pms l n h).
Proof.
  induction n as [|n IH]; intros l h; cbn [jenkins_loop]; [now rewrite Nat.add_0_r|].
  rewrite (skipn_slice data (l * pms) pms), jenkins_map_app. replace (l * pms + pms) with (S l * pms) by lia.
  rewrite IH. do 3 f_equal. lia.
Qed.
Lemma jenkins32_spec data pms : pms <> 0 -> jenkins32 data pms = Some (one_at_a_time data).
Proof.
  intros H. unfold jenkins32. destruct (Nat.eqb_spec pms 0); [lia|]. cbv zeta. f_equal. rewrite slice_rest.
  pose proof (jenkins_loop_spec data pms (length data / pms) 0 0%N) as E. cbn [Nat.mul skipn Nat.add] in E. rewrite <- E, jenkins_body.
  unfold one_at_a_time, wadd, wshl, W. cbv zeta. rewrite N.shiftr_div_pow2, !N.add_mod_idemp_r by discriminate. reflexivity.
Qed.

(** * Murmur *)
Local Open Scope N_scope.

Lemma rol_rotl x r : x < W -> 0 < r < 32 -> rol32 x r = rotl x r.
Proof.
  intros Hx Hr. unfold rol32, rotl, wshl, W in *. rewrite N.shiftr_div_pow2.
  set (a := (x * 2 ^ r) mod 2 ^ 32). set (b := x / 2 ^ (32 - r)).
  assert (E : N.land a b = 0).
  { apply N.bits_inj_0. intros i. rewrite N.land_spec. unfold a. fold (wrap 32 (x * 2 ^ r)). rewrite testbit_wrap.
    destruct (N.lt_ge_cases i r).
    - rewrite <- N.shiftl_mul_pow2, N.shiftl_spec_low by auto. now rewrite andb_false_r.
    - rewrite (testbit_high b r i); [apply andb_false_r| |auto]. unfold b. apply N.div_lt_upper_bound; [apply pow2_nz|].
      rewrite <- N.pow_add_r. replace (32 - r + r) with 32 by lia. exact Hx. }
  rewrite <- (N.lxor_lor a b E). symmetry. apply N.add_nocarry_lxor. exact E.
Qed.

Lemma modW x : x mod 2 ^ 32 < W.
Proof. apply N.mod_lt. discriminate. Qed.

Lemma scramble_premix k : scramble k = premix k.
Proof. unfold scramble, premix, wmul. rewrite rol_rotl by (auto using modW; lia). reflexivity. Qed.
Lemma scramble_lt k : scramble k < W.
Proof. apply modW. Qed.

Lemma lxor_ltW x y : x < W -> y < W -> N.lxor x y < W.
Proof.
  intros Hx Hy. apply (lt_pow2_bits _ 32). intros i Hi. rewrite N.lxor_spec, (testbit_high x 32 i), (testbit_high y 32 i) by auto. reflexivity.
Qed.

Lemma mix_spec h k : h < W -> mix h (scramble k) = (rotl (N.lxor h (premix k)) 13 * 5 + 3864292196) mod W.
Proof.
  intros H. unfold mix, wadd, wmul. cbv zeta. rewrite scramble_premix, rol_rotl; [|apply lxor_ltW; auto; rewrite <- scramble_premix; apply scramble_lt|lia].
  unfold W. rewrite N.add_mod_idemp_l by discriminate. reflexivity.
Qed.
Lemma mix_lt h k : mix h k < W.
Proof. apply modW. Qed.

Lemma blocks_spec map rest n : forall i h, h < W -> (4 * (i + n) <= length map)%nat ->
  exists h', murmur_blocks map i n h = Some h' /\ h' < W /\
    murmur3_body (skipn (4 * i) map ++ rest) h = murmur3_body (skipn (4 * (i + n)) map ++ rest) h'.
Proof.
  induction n as [|n IH]; intros i h Hh Hl; cbn [murmur_blocks].
  - exists h. rewrite Nat.add_0_r. auto.
  - assert (exists a b c d, nth_error map (4 * i) = Some a /\ nth_error map (4 * i + 1) = Some b /\ nth_error map (4 * i + 2) = Some c /\
      nth_error map (4 * i + 3) = Some d /\ skipn (4 * i) map = a :: b :: c :: d :: skipn (4 * S i) map) as (a & b & c & d & Ea & Eb & Ec & Ed & Es).
    { assert (L : (4 <= length (skipn (4 * i) map))%nat) by (rewrite skipn_length; lia).
      destruct (skipn (4 * i) map) as [|a [|b [|c [|d r]]]] eqn:E; cbn in L; try lia. exists a, b, c, d.
      pose proof (fun j => nth_error_skipn map (4 * i) j) as X. rewrite E in X.
      pose proof (X 0%nat) as X0. pose proof (X 1%nat) as X1. pose proof (X 2%nat) as X2. pose proof (X 3%nat) as X3. cbn [nth_error] in X0, X1, X2, X3.
      rewrite Nat.add_0_r in X0. repeat split; auto.
      replace (4 * S i)%nat with (4 * i + 4)%nat by lia. rewrite Nat.add_comm, <- skipn_skipn, E. reflexivity. }
    unfold load32. rewrite Ea, Eb, Ec, Ed. rewrite Es. cbn [app murmur3_body].
    set (k := a + 2 ^ 8 * b + 2 ^ 16 * c + 2 ^ 24 * d). change (a + 256 * b + 65536 * c + 16777216 * d) with k.
    rewrite <- mix_spec by auto. destruct (IH (S i) (mix h (scramble k)) (mix_lt _ _)) as (h' & E1 & E2 & E3); [lia|].
    exists h'. split; [exact E1|]. split; [exact E2|]. rewrite E3. do 3 f_equal. lia.
Qed.

Lemma tail_spec tail h : bytes_ok tail -> (length tail < 4)%nat -> murmur_tail tail h = murmur3_body tail h.
Proof.
  intros Hb Hl. unfold bytes_ok in Hb. destruct tail as [|a [|b [|c [|d t]]]]; cbn in Hl; try lia; cbn [murmur_tail murmur3_body]; rewrite ?scramble_premix; auto.
  - inversion Hb as [|? ? Ha Hb']; inversion Hb' as [|? ? Hbb _]; subst. do 2 f_equal.
    rewrite N.shiftl_mul_pow2, <- N.add_nocarry_lxor; [change (2 ^ 8) with 256; lia|].
    apply N.bits_inj_0. intros i. rewrite N.land_spec. destruct (N.lt_ge_cases i 8).
    + rewrite <- N.shiftl_mul_pow2, N.shiftl_spec_low by auto. reflexivity.
    + rewrite (testbit_high a 8 i) by auto. apply andb_false_r.
  - inversion Hb as [|? ? Ha Hb']; inversion Hb' as [|? ? Hbb Hb'']; inversion Hb'' as [|? ? Hc _]; subst. do 2 f_equal.
    assert (E1 : N.lxor (N.shiftl b 8) a = a + 256 * b).
    { rewrite N.shiftl_mul_pow2, <- N.add_nocarry_lxor; [change (2 ^ 8) with 256; lia|].
      apply N.bits_inj_0. intros i. rewrite N.land_spec. destruct (N.lt_ge_cases i 8).
      + rewrite <- N.shiftl_mul_pow2, N.shiftl_spec_low by auto. reflexivity.
      + rewrite (testbit_high a 8 i) by auto. apply andb_false_r. }
    rewrite N.lxor_assoc, E1, N.shiftl_mul_pow2, <- N.add_nocarry_lxor; [change (2 ^ 16) with 65536; lia|].
    apply N.bits_inj_0. intros i. rewrite N.land_spec. destruct (N.lt_ge_cases i 16).
    + rewrite <- N.shiftl_mul_pow2, N.shiftl_spec_low by auto. reflexivity.
    + rewrite (testbit_high (a + 256 * b) 16 i); [apply andb_false_r| |auto]. change (2 ^ 16) with 65536. lia.
Qed.

(** One map. *)
Lemma map_whole_spec map rest h : h < W -> (length map mod 4 = 0)%nat ->
  exists h', murmur_map map h = Some h' /\ h' < W /\ murmur3_body (map ++ rest) h = murmur3_body rest h'.
Proof.
  intros Hh H4. pose proof (Nat.div_mod (length map) 4 ltac:(lia)) as D. unfold murmur_map. set (c := (length map / 4)%nat) in *.
  destruct (blocks_spec map rest c 0 h Hh ltac:(lia)) as (h' & E1 & E2 & E3). rewrite E1.
  rewrite (skipn_all2 map) by lia. cbn [murmur_tail]. exists h'. split; [reflexivity|]. split; [exact E2|].
  rewrite (skipn_all2 map (n := (4 * (0 + c))%nat)) in E3 by lia. exact E3.
Qed.
Lemma map_last_spec map h : h < W -> bytes_ok map -> murmur_map map h = Some (murmur3_body map h).
Proof.
  intros Hh Hb. pose proof (Nat.div_mod (length map) 4 ltac:(lia)) as D. pose proof (Nat.mod_upper_bound (length map) 4 ltac:(lia)).
  unfold murmur_map. set (c := (length map / 4)%nat) in *.
  destruct (blocks_spec map [] c 0 h Hh ltac:(lia)) as (h' & E1 & E2 & E3). rewrite E1, !app_nil_r in *. f_equal.
  rewrite tail_spec.
  - cbn [Nat.mul skipn Nat.add] in E3. rewrite E3. do 2 f_equal. lia.
  - unfold bytes_ok in *. rewrite <- (firstn_skipn (c * 4) map) in Hb. apply Forall_app in Hb. tauto.
  - rewrite skipn_length. lia.
Qed.

Lemma murmur_loop_spec data pms n : (pms mod 4 = 0)%nat -> forall l h, h < W -> ((l + n) * pms <= length data)%nat ->
  exists h', murmur_loop data pms l n h = Some h' /\ h' < W /\
    murmur3_body (skipn (l * pms) data) h = murmur3_body (skipn ((l + n) * pms) data) h'.
Proof.
  intros Hp. induction n as [|n IH]; intros l h Hh Hl; cbn [murmur_loop].
  - exists h. rewrite Nat.add_0_r. auto.
  - destruct (map_whole_spec (slice data (l * pms) pms) (skipn (S l * pms) data) h Hh) as (h1 & E1 & E2 & E3).
    { rewrite slice_length; [auto|nia]. }
    rewrite E1. destruct (IH (S l) h1 E2 ltac:(nia)) as (h2 & F1 & F2 & F3). exists h2. split; [exact F1|]. split; [exact F2|].
    rewrite (skipn_slice data (l * pms) pms). replace (l * pms + pms)%nat with (S l * pms)%nat by lia. rewrite E3, F3. do 2 f_equal. lia.
Qed.

Lemma murmur32_spec data pms : bytes_ok data -> murmur32 data pms = Some (murmur3_32 data 0).
Proof.
  intros Hb. unfold murmur32. set (p0 := (pms / 4 * 4)%nat). set (p := if (p0 =? 0)%nat then 4%nat else p0).
  assert (Hp : (p mod 4 = 0)%nat /\ p <> 0%nat).
  { unfold p. destruct (Nat.eqb_spec p0 0); [auto|]. split; auto. unfold p0. apply Nat.mod_mul. lia. }
  destruct Hp as [Hp Hp0]. cbv zeta. set (c := ((length data / 4) * 4 / p)%nat).
  assert (Hc : (c * p <= length data)%nat).
  { unfold c. pose proof (Nat.mul_div_le (length data / 4 * 4) p Hp0). pose proof (Nat.mul_div_le (length data) 4 ltac:(lia)). lia. }
  destruct (murmur_loop_spec data p c Hp 0 0 eq_refl ltac:(cbn; lia)) as (h & E1 & E2 & E3). rewrite E1.
  rewrite slice_rest, map_last_spec; auto.
  - cbn [Nat.mul skipn Nat.add] in E3. rewrite <- E3. rewrite !N.shiftr_div_pow2. reflexivity.
  - unfold bytes_ok in *. rewrite <- (firstn_skipn (c * p) data) in Hb. apply Forall_app in Hb. tauto.
Qed.
