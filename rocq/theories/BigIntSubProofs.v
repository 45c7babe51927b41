(** Proofs for C14: subtraction of magnitudes, and the calls. *)
From Verif Require Import Base Word BigIntModel BigIntSpec BigIntProofs.
Local Open Scope Z_scope.

Lemma mag_firstn_mod k l : small l -> (k <= length l)%nat -> magnitude l mod pw k = magnitude (firstn k l).
Proof.
  intros Hs Hk. rewrite <- (firstn_skipn k l) at 1. rewrite mag_app.
  replace (length (firstn k l)) with k by (rewrite firstn_length; lia).
  rewrite Z.mul_comm, Z_mod_plus_full. apply Z.mod_small.
  pose proof (mag_bound _ (small_firstn k _ Hs)) as H. rewrite firstn_length, Nat.min_l in H by lia. exact H.
Qed.

Lemma sized_le a b : small a -> small b -> sized a -> sized b -> magnitude a <= magnitude b -> (length a <= length b)%nat.
Proof.
  intros Sa Sb Za Zb H. unfold sized in *. pose proof (mag_bound a Sa). pose proof (size_mono (magnitude a) (magnitude b)). lia.
Qed.

Lemma apply_sub_core b vs : small (limbs b) -> sized (limbs b) -> small vs -> sized vs -> magnitude vs <= magnitude (limbs b) ->
  exists l, apply_sub b vs = Some (mkBig (sign b) l) /\
    (subtractable (magnitude (limbs b)) (magnitude vs) ->
     small l /\ sized l /\ magnitude l = magnitude (limbs b) - magnitude vs) /\
    (magnitude l = magnitude (limbs b) - magnitude vs -> subtractable (magnitude (limbs b)) (magnitude vs)).
Proof.
  intros Sc Zc Sv Zv Hle. destruct b as [sg cs]. cbn [limbs sign] in *. unfold apply_sub. cbn [limbs sign].
  destruct (sub_both cs vs 0 0 0) as [[[r vs'] k] z] eqn:E.
  destruct (sub_both_ok cs vs 0%N 0 0 r vs' k z Sc Sv (N.le_0_l _) E) as (L & Sr & K & V & M & n & N1 & N2 & N3 & N4 & N5).
  pose proof (sized_len _ Zc) as L1. pose proof (sized_len _ Zv) as L2.
  pose proof (sized_le vs cs Sv Sc Zv Zc Hle) as L3.
  rewrite skipn_all2 in V by lia. subst vs'. cbn [magnitude] in M.
  pose proof (mag_bound _ Sc) as Bc. pose proof (mag_bound _ Sv) as Bv. pose proof (mag_bound _ Sr) as Br. rewrite L in Br.
  assert (K0 : k = 0%N).
  { destruct (N.eq_dec k 0) as [|Hk]; [assumption|]. exfalso. assert (Z.of_N k = 1) by lia. rewrite H in M. lia. }
  subst k. assert (M' : magnitude r = magnitude cs - magnitude vs) by lia. clear M.
  specialize (N4 L2 L1). specialize (N5 L3 L1).
  assert (Hz : (z < length cs)%nat).
  { rewrite N3. pose proof (scan_bound (firstn n r)) as S1. rewrite firstn_length in S1. lia. }
  set (m := (length r - (z + 1))%nat).
  replace (length r) with (m + (z + 1))%nat by (unfold m; lia).
  rewrite trim_ok by (unfold m; lia). cbn [N.eqb].
  exists (firstn 1 r ++ skipn (m + 1) r). split; [reflexivity|].
  assert (Cond : size (magnitude vs) = size (magnitude cs) \/ magnitude cs mod 2 ^ (64 * (size (magnitude cs) - 1)) < magnitude vs <-> n = length cs).
  { rewrite N5. unfold sized in Zc, Zv. rewrite <- Zc, <- Zv.
    replace (64 * (Z.of_nat (length cs) - 1)) with (64 * Z.of_nat (length cs - 1)) by lia.
    rewrite <- pw_two, (mag_firstn_mod _ _ Sc) by lia. lia. }
  unfold subtractable. rewrite Cond, <- M'.
  assert (Zn : Z.of_nat (length cs) = size (magnitude cs)) by exact Zc. rewrite <- Zn.
  assert (Sl : small (firstn 1 r ++ skipn (m + 1) r)) by (apply small_app; [now apply small_firstn|now apply small_skipn]).
  assert (Full : n = length cs -> Z.of_nat z + 1 = size (magnitude r)).
  { intros ->. rewrite N3, firstn_all2 by lia. apply scan_size; [assumption|lia]. }
  split.
  - intros [Hn Hd]. specialize (Full Hn). rewrite <- Full in Hd.
    destruct Hd as [Hd|Hd].
    + assert (m = 0%nat) by (unfold m; lia). rewrite H in *. cbn [Nat.add] in *. rewrite firstn_skipn in *.
      split; [assumption|]. split; [|reflexivity]. unfold sized. lia.
    + assert (Hm : (m + 1 = length r)%nat) by (unfold m; lia). rewrite Hm in *. rewrite skipn_all, app_nil_r in *.
      assert (Hmag : magnitude (firstn 1 r) = magnitude r).
      { rewrite <- (mag_firstn_mod 1 r Sr) by lia. apply Z.mod_small. split; [lia|]. apply size_lt; [lia|]. lia. }
      split; [assumption|]. split; [|exact Hmag]. unfold sized. rewrite Hmag, firstn_length. lia.
  - intros Hm.
    assert (Hn : n = length cs).
    { destruct (Nat.eq_dec n (length cs)) as [|Hn]; [assumption|]. exfalso.
      assert (Hz1 : (z + 1 <= n)%nat).
      { rewrite N3. pose proof (scan_bound (firstn n r)) as S1. rewrite firstn_length in S1. lia. }
      assert (Hlen : length (firstn 1 r ++ skipn (m + 1) r) = (z + 1)%nat) by (rewrite app_length, firstn_length, skipn_length; unfold m; lia).
      pose proof (mag_bound _ Sl) as Bl. rewrite Hlen, Hm in Bl.
      assert (Hlast : pw (length cs - 1) <= magnitude r).
      { rewrite <- (firstn_skipn n r), N2, mag_app. rewrite firstn_length, Nat.min_l by lia.
        pose proof (mag_bound _ (small_firstn n _ Sr)). pose proof (sized_lower cs Sc Zc ltac:(lia)) as Lw.
        pose proof (sized_last cs Sc Zc ltac:(lia)) as La.
        destruct (exists_last (l := cs)) as (cs' & x & ->); [destruct cs; cbn in *; [lia|discriminate]|].
        rewrite last_last in La. rewrite app_length in *. cbn [length] in *.
        rewrite skipn_app. replace (n - length cs')%nat with 0%nat by lia. cbn [skipn].
        rewrite mag_app, skipn_length. cbn [magnitude]. replace (length cs' + 1 - 1)%nat with (n + (length cs' - n))%nat by lia.
        rewrite pw_add. pose proof (pw_pos n). pose proof (pw_pos (length cs' - n)).
        pose proof (mag_bound _ (small_skipn n _ (small_app_l _ _ Sc))).
        assert (1 <= Z.of_N x) by lia. nia. }
      pose proof (pw_le (z + 1) (length cs - 1) ltac:(lia)). lia. }
    split; [exact Hn|]. specialize (Full Hn). rewrite <- Full.
    destruct (Nat.eq_dec m 0) as [|Hm0]; [left; unfold m in *; lia|].
    destruct (Nat.eq_dec z 0) as [|Hz0]; [right; lia|]. exfalso.
    assert (Hlow : pw z <= magnitude r) by (apply size_lower; lia).
    (* the leading component kept is zero *)
    destruct (exists_last (l := r)) as (r' & x & Er); [destruct r; cbn in *; [lia|discriminate]|].
    assert (Hx : x = 0%N).
    { destruct (N.eq_dec x 0) as [|Hx]; [assumption|]. exfalso.
      assert (pw (length cs - 1) <= magnitude r).
      { rewrite Er, mag_app. cbn [magnitude]. rewrite Er, app_length in L. cbn [length] in L.
        replace (length cs - 1)%nat with (length r') by lia. pose proof (pw_pos (length r')).
        rewrite Er in Sr. pose proof (mag_bound _ (small_app_l _ _ Sr)). assert (1 <= Z.of_N x) by lia. nia. }
      apply size_ge in H. unfold m in Hm0. lia. }
    subst x.
    assert (Lr : length r = (length r' + 1)%nat) by (rewrite Er, app_length; reflexivity).
    assert (Sr' : small r') by (rewrite Er in Sr; now apply small_app_l in Sr).
    rewrite Er in Hm at 1 2. rewrite firstn_app, skipn_app in Hm.
    replace (1 - length r')%nat with 0%nat in Hm by (unfold m in *; lia). rewrite firstn_O, app_nil_r in Hm.
    replace (m + 1 - length r')%nat with 0%nat in Hm by (unfold m in *; lia). cbn [skipn] in Hm.
    rewrite app_assoc, mag_app in Hm. cbn [magnitude] in Hm.
    assert (Bx : magnitude (firstn 1 r' ++ skipn (m + 1) r') < pw (length (firstn 1 r' ++ skipn (m + 1) r'))).
    { apply mag_bound. apply small_app; [now apply small_firstn|now apply small_skipn]. }
    rewrite app_length, firstn_length, skipn_length in Bx.
    replace (Nat.min 1 (length r') + (length r' - (m + 1)))%nat with z in Bx by (unfold m in *; lia).
    lia.
Qed.

(** Integers of 63 bits and a sign. *)
Lemma abs64_ok v : - 2 ^ 63 < v < 2 ^ 63 -> abs64 v = Some (Z.to_N (Z.abs v)).
Proof.
  intros H. unfold abs64, mask64. destruct (Z.ltb_spec v 0).
  - rewrite Z.lxor_m1_r. unfold Z.lnot.
    replace (Z.pred (- v) - -1) with (Z.abs v) by lia. destruct (Z.ltb_spec (Z.abs v) (2 ^ 63)); [reflexivity|lia].
  - rewrite Z.lxor_0_r, Z.sub_0_r. destruct (Z.ltb_spec v (2 ^ 63)); [|lia]. do 2 f_equal. lia.
Qed.
Lemma abs64_min : abs64 (- 2 ^ 63) = None. Proof. reflexivity. Qed.
Lemma mask_neg v : negb (mask64 v =? 0) = (v <? 0).
Proof. unfold mask64. now destruct (v <? 0). Qed.

Lemma single_sized x : sized [x] <-> Z.of_N x < B.
Proof.
  unfold sized. cbn [length magnitude]. replace (Z.of_N x + 2 ^ 64 * 0) with (Z.of_N x) by lia. split.
  - intros H. assert (H1 : size (Z.of_N x) < Z.of_nat 1 + 1) by lia. apply size_lt in H1; [|lia]. rewrite pw_S, pw_0 in H1. lia.
  - intros H. pose proof (size_pos (Z.of_N x)). pose proof (size_le (Z.of_N x) 1 ltac:(lia)). rewrite pw_S, pw_0 in *. lia.
Qed.
Lemma single_small x : Z.of_N x < B -> small [x].
Proof. intros. apply small_cons; [assumption|apply small_nil]. Qed.

Lemma normal_iff b : normal b <-> small (limbs b) /\ sized (limbs b).
Proof. reflexivity. Qed.

Lemma value_abs b : small (limbs b) -> Z.abs (value b) = magnitude (limbs b).
Proof. intros H. pose proof (mag_bound _ H). unfold value. destruct (sign b); lia. Qed.

Lemma create_ok : canonical create /\ value create = 0.
Proof.
  split; [|reflexivity]. split; [|discriminate]. split; [apply single_small; reflexivity|]. apply (single_sized 0%N). reflexivity.
Qed.

Lemma canonical_intro b : normal b -> value b <> 0 -> canonical b.
Proof. intros H1 H2. split; auto. Qed.

Lemma set_int_ok v : - 2 ^ 63 < v < 2 ^ 63 -> exists r, set_int v = Some r /\ value r = v /\ canonical r.
Proof.
  intros H. unfold set_int. rewrite abs64_ok by assumption. rewrite mask_neg. eexists. split; [reflexivity|].
  assert (V : value (mkBig (v <? 0) [Z.to_N (Z.abs v)]) = v).
  { unfold value. cbn [sign limbs magnitude]. destruct (Z.ltb_spec v 0); lia. }
  split; [exact V|]. split.
  - split; cbn [limbs]; [apply single_small|apply single_sized]; rewrite B_val; lia.
  - rewrite V. cbn [sign]. destruct (Z.ltb_spec v 0); [lia|discriminate].
Qed.

Lemma copyable_iff l : sized l -> (copyable (length l) = true <-> copies (magnitude l)).
Proof.
  intros H. pose proof (sized_len _ H). unfold sized in H. unfold copyable, copies. rewrite <- H.
  rewrite orb_true_iff, !andb_true_iff, !Nat.leb_le, Nat.eqb_eq.
  assert (E : Z.of_nat (length l) mod 16 = Z.of_nat (length l mod 16)) by (rewrite Nat2Z.inj_mod; reflexivity).
  rewrite E. lia.
Qed.

(** Comparison. *)
Lemma compare_from_tail_ok a : forall b, length a = length b -> small a -> small b ->
  compare_from_tail a b = (magnitude (rev a) ?= magnitude (rev b)).
Proof.
  induction a as [|x a IH]; intros [|y b] L Sa Sb; try discriminate; [reflexivity|].
  cbn [compare_from_tail rev]. rewrite !mag_app, !rev_length. cbn [length] in L. injection L as L. rewrite L. cbn [magnitude].
  pose proof (mag_bound _ (small_rev _ (small_tl _ _ Sa))) as Ba. pose proof (mag_bound _ (small_rev _ (small_tl _ _ Sb))) as Bb.
  rewrite rev_length in *. rewrite L in Ba. pose proof (pw_pos (length b)).
  destruct (N.eqb_spec x y) as [->|Hne].
  - rewrite IH by (auto; eapply small_tl; eauto).
    destruct (Z.compare_spec (magnitude (rev a)) (magnitude (rev b))) as [C|C|C]; symmetry.
    + apply Z.compare_eq_iff. lia.
    + apply Z.compare_lt_iff. lia.
    + apply Z.compare_gt_iff. lia.
  - destruct (N.ltb_spec x y); symmetry.
    + apply Z.compare_lt_iff. assert (Z.of_N x + 1 <= Z.of_N y) by lia. nia.
    + apply Z.compare_gt_iff. assert (Z.of_N y + 1 <= Z.of_N x) by lia. nia.
Qed.

Lemma compare_components_ok a b : small a -> small b -> sized a -> sized b ->
  compare_components a b = (magnitude a ?= magnitude b).
Proof.
  intros Sa Sb Za Zb. unfold compare_components. destruct (Nat.eqb_spec (length a) (length b)) as [L|L].
  - rewrite compare_from_tail_ok by (rewrite ?rev_length; auto using small_rev). now rewrite !rev_involutive.
  - pose proof (sized_le a b Sa Sb Za Zb). pose proof (sized_le b a Sb Sa Zb Za).
    destruct (Nat.ltb_spec (length a) (length b)); symmetry; [apply Z.compare_lt_iff|apply Z.compare_gt_iff]; lia.
Qed.

Lemma canonical_sign b : canonical b -> sign b = (value b <? 0).
Proof.
  intros [[S1 Z1] C]. pose proof (mag_bound _ S1). unfold value in *.
  destruct (sign b) eqn:E; symmetry; [apply Z.ltb_lt|apply Z.ltb_ge]; [|lia]. specialize (C eq_refl). lia.
Qed.

Lemma compare_ok a b : canonical a -> canonical b -> compare a b = (value a ?= value b).
Proof.
  intros Ca Cb. pose proof (canonical_sign a Ca) as Ea. pose proof (canonical_sign b Cb) as Eb.
  destruct Ca as [[Sa Za] Ca], Cb as [[Sb Zb] Cb]. unfold compare.
  rewrite compare_components_ok by assumption.
  pose proof (mag_bound _ Sa). pose proof (mag_bound _ Sb). unfold value in *.
  destruct (sign a), (sign b); cbn [Bool.eqb negb].
  - rewrite Z.compare_opp. symmetry. apply Z.compare_antisym.
  - symmetry in Ea, Eb. apply Z.ltb_lt in Ea. symmetry. apply Z.compare_lt_iff. lia.
  - symmetry in Eb. apply Z.ltb_lt in Eb. symmetry. apply Z.compare_gt_iff. lia.
  - reflexivity.
Qed.

(** The branches that subtract. *)
Definition opposite (b : bigint) : bigint := mkBig (negb (sign b)) (limbs b).

Lemma subtract_core b v : normal b -> normal v -> sign b = sign v ->
  (subtract_ok (value b) (value v) -> exists r, subtract b v = Some r /\ value r = value b - value v /\ normal r) /\
  ((exists r, subtract b v = Some r /\ value r = value b - value v) -> subtract_ok (value b) (value v)).
Proof.
  intros [Sb Zb] [Sv Zv] Es. unfold subtract, subtract_ok, larger, smaller.
  rewrite compare_components_ok by assumption. rewrite !value_abs by assumption.
  pose proof (mag_bound _ Sb) as Bb. pose proof (mag_bound _ Sv) as Bv.
  destruct (Z.compare_spec (magnitude (limbs b)) (magnitude (limbs v))) as [C|C|C].
  - destruct (apply_sub_core b (limbs v)) as (l & E & H1 & H2); auto; [lia|]. rewrite E.
    rewrite Z.max_l, Z.min_r by lia. split.
    + intros [H _]. destruct (H1 H) as (S1 & Z1 & M1). eexists. split; [reflexivity|].
      split; [|split; assumption]. unfold value. cbn [sign limbs]. rewrite <- Es. destruct (sign b); lia.
    + intros (r & Er & Vr). injection Er as <-. split; [apply H2|lia]. unfold value in Vr. cbn [sign limbs] in Vr.
      rewrite <- Es in Vr. destruct (sign b); lia.
  - unfold set_big_int. rewrite Z.max_r, Z.min_l by lia.
    pose proof (copyable_iff (limbs v) Zv) as Hc.
    destruct (copyable (length (limbs v))) eqn:Ec.
    + destruct (apply_sub_core (mkBig (sign v) (limbs v)) (limbs b)) as (l & E & H1 & H2); auto; [cbn [limbs]; lia|].
      cbn [limbs sign] in *. rewrite E. split.
      * intros [H _]. destruct (H1 H) as (S1 & Z1 & M1). eexists. split; [reflexivity|].
        split; [|split; assumption]. unfold value. cbn [sign limbs]. rewrite <- Es. destruct (sign b); cbn [negb]; lia.
      * intros (r & Er & Vr). injection Er as <-. unfold value in Vr. cbn [sign limbs] in Vr.
        split; [apply H2|intros _; now apply Hc].
        rewrite <- Es in Vr. destruct (sign b); cbn [negb] in Vr; lia.
    + split.
      * intros [_ H]. exfalso. destruct Hc as [_ Hc]. specialize (Hc (H C)). discriminate.
      * intros (r & Er & _). discriminate.
  - destruct (apply_sub_core b (limbs v)) as (l & E & H1 & H2); auto; [lia|]. rewrite E.
    rewrite Z.max_l, Z.min_r by lia. split.
    + intros [H _]. destruct (H1 H) as (S1 & Z1 & M1). eexists. split; [reflexivity|].
      split; [|split; assumption]. unfold value. cbn [sign limbs]. rewrite <- Es. destruct (sign b); lia.
    + intros (r & Er & Vr). injection Er as <-. split; [apply H2|lia]. unfold value in Vr. cbn [sign limbs] in Vr.
      rewrite <- Es in Vr. destruct (sign b); lia.
Qed.

Lemma subtract_opposite b v : subtract b (opposite v) = subtract b v.
Proof.
  unfold subtract, opposite, set_big_int. cbn [limbs sign].
  destruct (compare_components (limbs b) (limbs v)); try reflexivity.
  destruct (copyable (length (limbs v))); [|reflexivity]. unfold apply_sub. cbn [limbs sign].
  destruct (sub_both (limbs v) (limbs b) 0 0 0) as [[[r vs'] k] z]. destruct vs'; [|reflexivity].
  destruct (trim _ _ _ r) as [l|]; [|reflexivity]. destruct (k =? 0)%N; [reflexivity|]. destruct l as [|c l]; [reflexivity|].
  now destruct (abs64 (signed64 c)).
Qed.

Lemma opposite_value v : value (opposite v) = - value v.
Proof. unfold value, opposite. cbn [sign limbs]. destruct (sign v); cbn [negb]; lia. Qed.

Lemma subtract_core' b v : normal b -> normal v -> sign b <> sign v ->
  (subtract_ok (value b) (value v) -> exists r, subtract b v = Some r /\ value r = value b + value v /\ normal r) /\
  ((exists r, subtract b v = Some r /\ value r = value b + value v) -> subtract_ok (value b) (value v)).
Proof.
  intros Hb Hv Es. destruct (subtract_core b (opposite v)) as [H1 H2]; auto.
  { cbn [opposite sign]. now destruct (sign b), (sign v). }
  rewrite subtract_opposite, opposite_value in *. unfold subtract_ok, larger, smaller in *. rewrite Z.abs_opp in *.
  replace (value b + value v) with (value b - - value v) by lia. split; assumption.
Qed.

Lemma apply_add_value b v : normal b -> normal v -> sign b = sign v ->
  let r := mkBig (sign b) (apply_add (limbs b) (limbs v)) in value r = value b + value v /\ normal r.
Proof.
  intros [Sb Zb] [Sv Zv] Es r. destruct (apply_add_ok _ _ Sb Sv Zb Zv) as (S1 & Z1 & M1).
  split; [|split; assumption]. unfold value, r. cbn [sign limbs]. rewrite <- Es, M1. destruct (sign b); lia.
Qed.

Lemma add_iff a b : normal a -> normal b ->
  (sign a = sign b \/ subtract_ok (value a) (value b) ->
   exists r, add a b = Some r /\ value r = value a + value b /\ normal r) /\
  ((exists r, add a b = Some r /\ value r = value a + value b) -> sign a = sign b \/ subtract_ok (value a) (value b)).
Proof.
  intros Ha Hb. unfold add. destruct (Bool.eqb (sign a) (sign b)) eqn:E.
  - apply eqb_prop in E. split; [intros _|now left]. eexists. split; [reflexivity|]. now apply apply_add_value.
  - assert (E' : sign a <> sign b) by (intros C; rewrite C, eqb_reflx in E; discriminate).
    destruct (subtract_core' a b Ha Hb E') as [H1 H2]. split.
    + intros [H|H]; [contradiction|]. now apply H1.
    + intros H. right. now apply H2.
Qed.

Lemma sub_iff a b : normal a -> normal b ->
  (sign a <> sign b \/ subtract_ok (value a) (value b) ->
   exists r, sub a b = Some r /\ value r = value a - value b /\ normal r) /\
  ((exists r, sub a b = Some r /\ value r = value a - value b) -> sign a <> sign b \/ subtract_ok (value a) (value b)).
Proof.
  intros Ha Hb. unfold sub. destruct (Bool.eqb (sign a) (sign b)) eqn:E; cbn [negb].
  - apply eqb_prop in E. destruct (subtract_core a b Ha Hb E) as [H1 H2]. split.
    + intros [H|H]; [contradiction|]. now apply H1.
    + intros H. right. now apply H2.
  - assert (E' : sign a <> sign b) by (intros C; rewrite C, eqb_reflx in E; discriminate).
    split; [intros _|now left]. eexists. split; [reflexivity|].
    pose proof (apply_add_value a (opposite b) Ha Hb) as H. rewrite opposite_value in H. cbn [opposite sign limbs] in H.
    rewrite <- Z.add_opp_r. apply H. now destruct (sign a), (sign b).
Qed.

(** A 64-bit integer as the second operand. *)
Lemma apply_sub_int b x : normal b -> 0 <= x < 2 ^ 63 ->
  let y := magnitude (limbs b) in
  (subtractable y x \/ y < x ->
   exists r, apply_sub b [Z.to_N x] = Some r /\ value r = (if sign b then - (y - x) else y - x) /\ normal r) /\
  ((exists r, apply_sub b [Z.to_N x] = Some r /\ value r = (if sign b then - (y - x) else y - x)) -> subtractable y x \/ y < x).
Proof.
  intros [Sb Zb] Hx y. assert (Hx1 : Z.of_N (Z.to_N x) < B) by (rewrite B_val; lia).
  assert (Mx : magnitude [Z.to_N x] = x) by (cbn [magnitude]; lia).
  destruct (Z_lt_le_dec y x) as [C|C].
  - split; [intros _|now right].
    assert (Hl : exists c, limbs b = [c] /\ y = Z.of_N c).
    { subst y. pose proof (sized_le (limbs b) [Z.to_N x] Sb (single_small _ Hx1) Zb) as HL. rewrite Mx in HL.
      specialize (HL (proj2 (single_sized _) Hx1) ltac:(lia)). pose proof (sized_len _ Zb).
      destruct (limbs b) as [|c [|c' l]]; cbn [length] in *; [lia| |lia]. exists c. split; [reflexivity|]. cbn [magnitude]. lia. }
    destruct Hl as (c & Hc & Hy). unfold apply_sub. rewrite Hc.
    cbn [sub_both N.eqb andb tl].
    destruct (sub_limb c (Z.to_N x) 0) as (H1 & H2 & H3); [rewrite B_val; lia|lia|lia|].
    cbv zeta in H2, H3. change (N.eqb 0 0) with true in *. rewrite H2 in H3 |- *.
    destruct (Z.ltb_spec (Z.of_N c) (Z.of_N (Z.to_N x) + Z.of_N 0)); [|lia].
    set (comp := wsub 64 c (wadd 64 (Z.to_N x) 0)) in *. clearbody comp.
    assert (Ec : Z.of_N comp = B - (x - y)) by lia.
    assert (Es : signed64 comp = - (x - y)).
    { unfold signed64. change (2 ^ 63)%N with 9223372036854775808%N. rewrite B_val in *. change (2 ^ 63) with 9223372036854775808 in *. change (2 ^ 64) with 18446744073709551616.
      destruct (N.ltb_spec comp 9223372036854775808); lia. }
    assert (Et : (if (comp =? 0)%N then 0%nat else 0%nat) = 0%nat) by (now destruct (comp =? 0)%N). rewrite Et.
    cbn [length Nat.sub Nat.add trim N.eqb]. rewrite Es, abs64_ok by lia.
    eexists. split; [reflexivity|]. split.
    + unfold value. cbn [sign limbs magnitude]. destruct (sign b); cbn [negb]; lia.
    + split; cbn [limbs]; [apply single_small|apply single_sized]; rewrite B_val; lia.
  - destruct (apply_sub_core b [Z.to_N x]) as (l & E & H1 & H2); auto using single_small.
    { now apply single_sized. }
    { rewrite Mx. exact C. }
    rewrite Mx in *. fold y in H1, H2. rewrite E. split.
    + intros [H|H]; [|lia]. destruct (H1 H) as (S1 & Z1 & M1). eexists. split; [reflexivity|].
      split; [|split; assumption]. unfold value. cbn [sign limbs]. destruct (sign b); lia.
    + intros (r & Er & Vr). injection Er as <-. left. apply H2. unfold value in Vr. cbn [sign limbs] in Vr. destruct (sign b); lia.
Qed.

Lemma int_normal v : - 2 ^ 63 < v < 2 ^ 63 -> let b := mkBig (v <? 0) [Z.to_N (Z.abs v)] in normal b /\ value b = v.
Proof.
  intros H b. destruct (set_int_ok v H) as (r & E & V & [C _]). unfold set_int in E. rewrite abs64_ok, mask_neg in E by assumption.
  injection E as <-. split; assumption.
Qed.

Lemma add_int_iff a v : normal a -> - 2 ^ 63 < v < 2 ^ 63 ->
  (sign a = (v <? 0) \/ subtract_int_ok (value a) v ->
   exists r, add_int a v = Some r /\ value r = value a + v /\ normal r) /\
  ((exists r, add_int a v = Some r /\ value r = value a + v) -> sign a = (v <? 0) \/ subtract_int_ok (value a) v).
Proof.
  intros Ha Hv. unfold add_int. rewrite abs64_ok, mask_neg by assumption. unfold subtract_int_ok. rewrite (value_abs a) by exact (proj1 Ha).
  destruct (Bool.eqb (sign a) (v <? 0)) eqn:E.
  - apply eqb_prop in E. split; [intros _|now left]. eexists. split; [reflexivity|].
    destruct (int_normal v Hv) as [N1 V1]. pose proof (apply_add_value a _ Ha N1 E) as H. cbv zeta in H. rewrite V1 in H. exact H.
  - assert (E' : sign a <> (v <? 0)) by (intros C; rewrite C, eqb_reflx in E; discriminate).
    destruct (apply_sub_int a (Z.abs v) Ha ltac:(lia)) as [H1 H2].
    assert (Ev : (if sign a then - (magnitude (limbs a) - Z.abs v) else magnitude (limbs a) - Z.abs v) = value a + v).
    { unfold value. destruct (sign a), (Z.ltb_spec v 0); try congruence; lia. }
    rewrite Ev in H1, H2. split.
    + intros [H|H]; [contradiction|]. now apply H1.
    + intros H. right. now apply H2.
Qed.

Lemma sub_int_iff a v : normal a -> - 2 ^ 63 < v < 2 ^ 63 ->
  (sign a <> (v <? 0) \/ subtract_int_ok (value a) v ->
   exists r, sub_int a v = Some r /\ value r = value a - v /\ normal r) /\
  ((exists r, sub_int a v = Some r /\ value r = value a - v) -> sign a <> (v <? 0) \/ subtract_int_ok (value a) v).
Proof.
  intros Ha Hv. unfold sub_int. rewrite abs64_ok, mask_neg by assumption. unfold subtract_int_ok. rewrite (value_abs a) by exact (proj1 Ha).
  destruct (Bool.eqb (sign a) (v <? 0)) eqn:E; cbn [negb].
  - apply eqb_prop in E.
    destruct (apply_sub_int a (Z.abs v) Ha ltac:(lia)) as [H1 H2].
    assert (Ev : (if sign a then - (magnitude (limbs a) - Z.abs v) else magnitude (limbs a) - Z.abs v) = value a - v).
    { unfold value. destruct (sign a), (Z.ltb_spec v 0); try congruence; lia. }
    rewrite Ev in H1, H2. split.
    + intros [H|H]; [contradiction|]. now apply H1.
    + intros H. right. now apply H2.
  - assert (E' : sign a <> (v <? 0)) by (intros C; rewrite C, eqb_reflx in E; discriminate).
    split; [intros _|now left]. eexists. split; [reflexivity|].
    destruct (int_normal v Hv) as [N1 V1].
    pose proof (apply_add_value a (opposite (mkBig (v <? 0) [Z.to_N (Z.abs v)])) Ha N1) as H. rewrite opposite_value, V1 in H.
    cbn [opposite sign limbs] in H. rewrite <- Z.add_opp_r. apply H. now destruct (sign a), (v <? 0).
Qed.
