(** Proofs for C16. *)
From Verif Require Import Base Word BigIntModel BigIntSpec BigIntProofs BigIntSubProofs BigIntTextProofs BigIntFastModel BigIntFastSpec.
Local Open Scope Z_scope.

Lemma tagged_range w : (w < 2 ^ 64)%N -> inline (fvalue (Tagged w)).
Proof.
  intros H. unfold inline, fvalue. change (2 ^ 64)%N with 18446744073709551616%N in H.
  assert (0 <= Z.of_N w / 2 < 9223372036854775808) by (split; [apply Z.div_pos; lia|apply Z.div_lt_upper_bound; lia]).
  change (2 ^ 62) with 4611686018427387904. change (2 ^ 63) with 9223372036854775808.
  destruct (Z.ltb_spec (Z.of_N w / 2) 4611686018427387904); lia.
Qed.

Lemma get_tagged_ok w : N.odd w = true -> (w < 2 ^ 64)%N -> get_tagged w = Some (fvalue (Tagged w)).
Proof.
  intros Ho H. unfold get_tagged. rewrite Ho. f_equal. rewrite Z.shiftr_div_pow2 by lia. change (2 ^ 1) with 2.
  unfold fvalue, signed64. change (2 ^ 64)%N with 18446744073709551616%N in H. change (2 ^ 63)%N with 9223372036854775808%N.
  change (2 ^ 62) with 4611686018427387904. change (2 ^ 63) with 9223372036854775808. change (2 ^ 64) with 18446744073709551616.
  destruct (N.ltb_spec w 9223372036854775808), (Z.ltb_spec (Z.of_N w / 2) 4611686018427387904).
  - reflexivity.
  - exfalso. assert (Z.of_N w / 2 < 4611686018427387904) by (apply Z.div_lt_upper_bound; lia). lia.
  - exfalso. assert (4611686018427387904 <= Z.of_N w / 2) by (apply Z.div_le_lower_bound; lia). lia.
  - replace (Z.of_N w - 18446744073709551616) with (Z.of_N w + (-9223372036854775808) * 2) by lia. rewrite Z.div_add by lia. lia.
Qed.

Lemma tagged_value_ok v : inline v -> exists w, tagged_value v = Some (Tagged w) /\ N.odd w = true /\ (w < 2 ^ 64)%N /\ fvalue (Tagged w) = v.
Proof.
  unfold inline, tagged_value, TAGGED_MIN, TAGGED_MAX. intros H.
  change (2 ^ 62) with 4611686018427387904 in *.
  destruct (Z.leb_spec v (4611686018427387904 - 1)), (Z.leb_spec (- (4611686018427387904 - 1) - 1) v); try lia. cbn [andb].
  eexists. split; [reflexivity|].
  assert (Hlor : forall x, (N.lor (wshl 64 x 1) 1 = wshl 64 x 1 + 1)%N).
  { intros x. unfold wshl. change (2 ^ 1)%N with 2%N.
    assert (E : ((x * 2) mod 2 ^ 64 = 2 * (x mod 2 ^ 63))%N).
    { change (2 ^ 64)%N with (2 ^ 63 * 2)%N. rewrite N.mul_mod_distr_r by discriminate. lia. }
    rewrite E. now destruct (x mod 2 ^ 63)%N. }
  rewrite Hlor. unfold wshl. change (2 ^ 1)%N with 2%N. change (2 ^ 64)%N with 18446744073709551616%N. change (2 ^ 64) with 18446744073709551616.
  assert (E : exists h, ((Z.to_N (v mod 18446744073709551616)%Z * 2) mod 18446744073709551616 = 2 * h)%N /\ (h < 9223372036854775808)%N /\
                        Z.of_N h = (if v <? 0 then v + 9223372036854775808 else v)).
  { change 18446744073709551616%N with (9223372036854775808 * 2)%N. rewrite N.mul_mod_distr_r by discriminate.
    exists (Z.to_N (v mod 18446744073709551616) mod 9223372036854775808)%N. split; [lia|]. split; [apply N.mod_lt; discriminate|].
    destruct (Z.ltb_spec v 0).
    - replace (v mod 18446744073709551616) with (v + 18446744073709551616).
      2:{ rewrite <- (Z.mod_small (v + 18446744073709551616) 18446744073709551616) by lia.
          replace (v + 18446744073709551616) with (v + 1 * 18446744073709551616) by lia. now rewrite Z.mod_add by lia. }
      replace (Z.to_N (v + 18446744073709551616)) with (Z.to_N (v + 9223372036854775808) + 1 * 9223372036854775808)%N by lia.
      rewrite N.mod_add by discriminate. rewrite N.mod_small by lia. lia.
    - rewrite Z.mod_small by lia. rewrite N.mod_small by lia. lia. }
  destruct E as (h & -> & Hh & Hv). split; [now rewrite N.add_1_r, N.odd_succ, N.even_mul|]. split; [lia|].
  unfold fvalue. change (2 ^ 62) with 4611686018427387904. change (2 ^ 63) with 9223372036854775808.
  replace (Z.of_N (2 * h + 1) / 2) with (Z.of_N h).
  2:{ replace (Z.of_N (2 * h + 1)) with (1 + Z.of_N h * 2) by lia. rewrite Z.div_add by lia. reflexivity. }
  rewrite Hv. destruct (Z.ltb_spec v 0).
  - destruct (Z.ltb_spec (v + 9223372036854775808) 4611686018427387904); lia.
  - destruct (Z.ltb_spec v 4611686018427387904); lia.
Qed.

Lemma tagged_value_none v : ~ inline v -> tagged_value v = None.
Proof.
  unfold inline, tagged_value, TAGGED_MIN, TAGGED_MAX. intros H.
  destruct (Z.leb_spec v (2 ^ 62 - 1)), (Z.leb_spec (- (2 ^ 62 - 1) - 1) v); cbn [andb]; try reflexivity. exfalso. lia.
Qed.

(** The range test is always true (lines 352, 387, 545, 635). *)
Lemma range_test v : (v <=? TAGGED_MAX) || (TAGGED_MIN <=? v) = true.
Proof. unfold TAGGED_MIN, TAGGED_MAX. destruct (Z.leb_spec v (2 ^ 62 - 1)), (Z.leb_spec (- (2 ^ 62 - 1) - 1) v); cbn [orb]; try reflexivity. lia. Qed.

Lemma land_high c : (c < 2 ^ 64)%N -> (N.land c (2 ^ 64 - 2 ^ 63) =? 0)%N = (c <? 2 ^ 63)%N.
Proof.
  intros H. change (2 ^ 64 - 2 ^ 63)%N with (2 ^ 63)%N. apply eq_true_iff_eq. rewrite N.eqb_eq, N.ltb_lt. split.
  - intros E. apply lt_pow2_bits. intros i Hi. destruct (N.eq_dec i 63) as [->|Hne].
    + apply (f_equal (fun x => N.testbit x 63)) in E. rewrite N.land_spec, N.bits_0, testbit_pow2, N.eqb_refl, andb_true_r in E. exact E.
    + apply testbit_high with 64%N; [assumption|lia].
  - intros L. apply N.bits_inj. intros i. rewrite N.land_spec, N.bits_0, testbit_pow2. destruct (N.eqb_spec i 63) as [->|]; [|apply andb_false_r].
    rewrite (testbit_high c 63) by (assumption || lia). reflexivity.
Qed.

Lemma small_component_ok b : normal b -> small_component b = if Z.abs (value b) <? 2 ^ 63 then Some (value b) else None.
Proof.
  intros [S1 Z1]. rewrite value_abs by assumption. unfold small_component.
  pose proof (sized_len _ Z1). destruct b as [s l]. cbn [limbs] in *.
  destruct l as [|c [|c' l]]; [cbn in H; lia| |].
  - assert (Hc : (c < 2 ^ 64)%N) by (apply S1; now left). rewrite land_high by assumption.
    cbn [magnitude]. unfold value. cbn [sign limbs magnitude]. rewrite Z.mul_0_r, Z.add_0_r.
    replace (Z.of_N c <? 2 ^ 63) with (c <? 2 ^ 63)%N; [reflexivity|].
    change (2 ^ 63)%N with 9223372036854775808%N. change (2 ^ 63) with 9223372036854775808.
    destruct (N.ltb_spec c 9223372036854775808), (Z.ltb_spec (Z.of_N c) 9223372036854775808); lia.
  - pose proof (sized_lower _ S1 Z1) as L. cbn [length] in L. specialize (L ltac:(lia)).
    assert (pw 1 <= magnitude (c :: c' :: l)) by (etransitivity; [apply pw_le|exact L]; lia).
    change (pw 1) with 18446744073709551616 in *. destruct (Z.ltb_spec (magnitude (c :: c' :: l)) (2 ^ 63)); [lia|reflexivity].
Qed.

(** A tagged word in a box. *)
Lemma box_ok w : N.odd w = true -> (w < 2 ^ 64)%N ->
  exists b, BigIntModel.set_int (fvalue (Tagged w)) = Some b /\ value b = fvalue (Tagged w) /\ canonical b.
Proof. intros _ H. apply set_int_ok. pose proof (tagged_range w H). unfold inline in *. lia. Qed.

Lemma wf_big b : well_formed (Boxed b) = normal b. Proof. reflexivity. Qed.

(** Adding and subtracting an int64_t. *)
Lemma add_int_tagged w v : N.odd w = true -> (w < 2 ^ 64)%N -> int64 v ->
  let x := fvalue (Tagged w) in
  (inline_ok (x + v) v -> exists r, BigIntFastModel.add_int (Tagged w) v = Some r /\ fvalue r = x + v /\ well_formed_canonical r) /\
  (BigIntFastModel.add_int (Tagged w) v <> None -> inline_ok (x + v) v).
Proof.
  intros Ho Hw Hv x. pose proof (tagged_range w Hw) as Hx. fold x in Hx. cbn [BigIntFastModel.add_int]. rewrite get_tagged_ok by assumption. fold x.
  unfold INT64_MAX, INT64_MIN, inline_ok, inline, int64 in *. rewrite range_test.
  destruct (((0 <? v) && (2 ^ 63 - 1 - v <? x)) || ((v <? 0) && (x <? - 2 ^ 63 - v))) eqn:C.
  - assert (Hout : ~ (- 2 ^ 63 <= x + v < 2 ^ 63)) by lia. clear C.
    destruct (box_ok w Ho Hw) as (b & E & V & Cb). fold x in E, V. rewrite E. split.
    + intros [H|[_ Hne]]; [lia|]. assert (Hr : - 2 ^ 63 < v < 2 ^ 63) by lia.
      destruct (proj1 (add_int_iff b v (proj1 Cb) Hr)) as (r & Er & Vr & Nr).
      * left. rewrite (canonical_sign _ Cb), V. lia.
      * rewrite Er. exists (Boxed r). split; [reflexivity|]. cbn [fvalue well_formed_canonical]. split; [lia|]. apply canonical_intro; [assumption|lia].
    + intros HN. right. split; [assumption|]. intros ->. apply HN. reflexivity.
  - assert (Hin : - 2 ^ 63 <= x + v < 2 ^ 63) by lia. clear C.
    destruct (Z_lt_le_dec (x + v) (2 ^ 62)), (Z_lt_le_dec (x + v) (- 2 ^ 62)).
    1,3,4: rewrite tagged_value_none by (unfold inline; lia); split; [intros [H|[H _]]; lia|congruence].
    destruct (tagged_value_ok (x + v)) as (w' & E & O & L & F); [unfold inline; lia|]. rewrite E. split; [|lia].
    intros _. exists (Tagged w'). split; [reflexivity|]. split; [exact F|]. now split.
Qed.

Lemma sub_int_tagged w v : N.odd w = true -> (w < 2 ^ 64)%N -> int64 v ->
  let x := fvalue (Tagged w) in
  (inline_ok (x - v) v -> exists r, BigIntFastModel.sub_int (Tagged w) v = Some r /\ fvalue r = x - v /\ well_formed_canonical r) /\
  (BigIntFastModel.sub_int (Tagged w) v <> None -> inline_ok (x - v) v).
Proof.
  intros Ho Hw Hv x. pose proof (tagged_range w Hw) as Hx. fold x in Hx. cbn [BigIntFastModel.sub_int]. rewrite get_tagged_ok by assumption. fold x.
  unfold INT64_MAX, INT64_MIN, inline_ok, inline, int64 in *. rewrite range_test.
  destruct (((v <? 0) && (2 ^ 63 - 1 + v <? x)) || ((0 <? v) && (x <? - 2 ^ 63 + v))) eqn:C.
  - assert (Hout : ~ (- 2 ^ 63 <= x - v < 2 ^ 63)) by lia. clear C.
    destruct (box_ok w Ho Hw) as (b & E & V & Cb). fold x in E, V. rewrite E. split.
    + intros [H|[_ Hne]]; [lia|]. assert (Hr : - 2 ^ 63 < v < 2 ^ 63) by lia.
      destruct (proj1 (sub_int_iff b v (proj1 Cb) Hr)) as (r & Er & Vr & Nr).
      * left. rewrite (canonical_sign _ Cb), V. lia.
      * rewrite Er. exists (Boxed r). split; [reflexivity|]. cbn [fvalue well_formed_canonical]. split; [lia|]. apply canonical_intro; [assumption|lia].
    + intros HN. right. split; [assumption|]. intros ->. apply HN. reflexivity.
  - assert (Hin : - 2 ^ 63 <= x - v < 2 ^ 63) by lia. clear C.
    destruct (Z_lt_le_dec (x - v) (2 ^ 62)), (Z_lt_le_dec (x - v) (- 2 ^ 62)).
    1,3,4: rewrite tagged_value_none by (unfold inline; lia); split; [intros [H|[H _]]; lia|congruence].
    destruct (tagged_value_ok (x - v)) as (w' & E & O & L & F); [unfold inline; lia|]. rewrite E. split; [|lia].
    intros _. exists (Tagged w'). split; [reflexivity|]. split; [exact F|]. now split.
Qed.

Lemma wfc_wf f : well_formed_canonical f -> well_formed f.
Proof. destruct f; [auto|intros [H _]; exact H]. Qed.

Lemma add_big_iff f b : well_formed f -> normal b ->
  (add_ok f b -> exists r, add_big f b = Some r /\ fvalue r = fvalue f + value b /\ well_formed r) /\
  ((exists r, add_big f b = Some r /\ fvalue r = fvalue f + value b) -> add_ok f b).
Proof.
  intros Hf Hb. destruct f as [w|a]; cbn [add_big add_ok].
  - destruct Hf as [Ho Hw]. rewrite small_component_ok by assumption. destruct (Z.ltb_spec (Z.abs (value b)) (2 ^ 63)).
    + destruct (add_int_tagged w (value b) Ho Hw) as [H1 H2]; [unfold int64; lia|]. split.
      * intros Hk. destruct (H1 Hk) as (r & E & V & C). exists r. auto using wfc_wf.
      * intros (r & E & V). apply H2. congruence.
    + rewrite get_tagged_ok by assumption. destruct (box_ok w Ho Hw) as (x & E & V & C). rewrite E. rewrite <- V.
      rewrite <- (canonical_sign _ C). destruct (add_iff x b (proj1 C) Hb) as [H1 H2]. split.
      * intros Hk. destruct (H1 Hk) as (r & Er & Vr & Nr). rewrite Er. exists (Boxed r). auto.
      * intros (r & Er & Vr). apply H2. destruct (add x b) as [y|]; [|discriminate]. injection Er as <-. exists y. auto.
  - cbn [well_formed fvalue] in *. destruct (add_iff a b Hf Hb) as [H1 H2]. split.
    + intros Hk. destruct (H1 Hk) as (r & Er & Vr & Nr). rewrite Er. exists (Boxed r). auto.
    + intros (r & Er & Vr). apply H2. destruct (add a b) as [y|]; [|discriminate]. injection Er as <-. exists y. auto.
Qed.

Lemma sub_big_iff f b : well_formed f -> normal b ->
  (sub_ok f b -> exists r, sub_big f b = Some r /\ fvalue r = fvalue f - value b /\ well_formed r) /\
  ((exists r, sub_big f b = Some r /\ fvalue r = fvalue f - value b) -> sub_ok f b).
Proof.
  intros Hf Hb. destruct f as [w|a]; cbn [sub_big sub_ok].
  - destruct Hf as [Ho Hw]. rewrite small_component_ok by assumption. destruct (Z.ltb_spec (Z.abs (value b)) (2 ^ 63)).
    + destruct (sub_int_tagged w (value b) Ho Hw) as [H1 H2]; [unfold int64; lia|]. split.
      * intros Hk. destruct (H1 Hk) as (r & E & V & C). exists r. auto using wfc_wf.
      * intros (r & E & V). apply H2. congruence.
    + rewrite get_tagged_ok by assumption. destruct (box_ok w Ho Hw) as (x & E & V & C). rewrite E. rewrite <- V.
      rewrite <- (canonical_sign _ C). destruct (sub_iff x b (proj1 C) Hb) as [H1 H2]. split.
      * intros Hk. destruct (H1 Hk) as (r & Er & Vr & Nr). rewrite Er. exists (Boxed r). auto.
      * intros (r & Er & Vr). apply H2. destruct (sub x b) as [y|]; [|discriminate]. injection Er as <-. exists y. auto.
  - cbn [well_formed fvalue] in *. destruct (sub_iff a b Hf Hb) as [H1 H2]. split.
    + intros Hk. destruct (H1 Hk) as (r & Er & Vr & Nr). rewrite Er. exists (Boxed r). auto.
    + intros (r & Er & Vr). apply H2. destruct (sub a b) as [y|]; [|discriminate]. injection Er as <-. exists y. auto.
Qed.

Lemma set_big_iff b : normal b ->
  (exists r, set_big b = Some r /\ fvalue r = value b /\ well_formed r /\ (canonical b -> well_formed_canonical r)) <->
  (if Z.abs (value b) <? 2 ^ 63 then inline (value b) else copies (Z.abs (value b))).
Proof.
  intros Hb. unfold set_big. rewrite small_component_ok by assumption. destruct (Z.ltb_spec (Z.abs (value b)) (2 ^ 63)).
  - rewrite range_test. split.
    + intros (r & E & _). destruct (Z_lt_le_dec (value b) (2 ^ 62)), (Z_lt_le_dec (value b) (- 2 ^ 62)).
      1,3,4: rewrite tagged_value_none in E by (unfold inline; lia); discriminate. unfold inline. lia.
    + intros H1. destruct (tagged_value_ok _ H1) as (w & E & O & L & F). exists (Tagged w). split; [exact E|]. split; [exact F|]. split; [now split|]. intros _. now split.
  - rewrite value_abs by exact (proj1 Hb). rewrite <- (copyable_iff _ (proj2 Hb)). unfold set_big_int. split.
    + intros (r & E & _). destruct (copyable (length (limbs b))); [reflexivity|discriminate].
    + intros ->. exists (Boxed (mkBig (sign b) (limbs b))). destruct b as [s l]. cbn [sign limbs fvalue well_formed well_formed_canonical]. auto.
Qed.

(** Comparison. *)
Lemma compare_Z a b : (if a <? b then Lt else if b <? a then Gt else Eq) = (a ?= b).
Proof. destruct (Z.compare_spec a b), (Z.ltb_spec a b), (Z.ltb_spec b a); lia || reflexivity. Qed.

Lemma compare_int_big a v : canonical a -> - 2 ^ 63 < v < 2 ^ 63 -> BigIntModel.compare_int a v = Some (value a ?= v).
Proof.
  intros Ca Hv. destruct (set_int_ok v Hv) as (b & E & V & C). unfold BigIntModel.compare_int. rewrite E. f_equal. rewrite <- V. now apply compare_ok.
Qed.

Lemma compare_big_fast_ok a g : canonical a -> well_formed_canonical g -> compare_big_fast a g = Some (value a ?= fvalue g).
Proof.
  intros Ca Hg. destruct g as [w|b]; cbn [compare_big_fast].
  - destruct Hg as [Ho Hw]. rewrite get_tagged_ok by assumption. apply compare_int_big; [assumption|].
    pose proof (tagged_range w Hw). unfold inline in *. lia.
  - cbn [well_formed_canonical fvalue] in *. f_equal. now apply compare_ok.
Qed.

Lemma compare_fast_ok f g : well_formed_canonical f -> well_formed_canonical g -> compare_fast f g = Some (fvalue f ?= fvalue g).
Proof.
  intros Hf Hg. destruct f as [w|a]; cbn [compare_fast].
  - destruct Hf as [Ho Hw]. rewrite get_tagged_ok by assumption. destruct g as [w'|b].
    + destruct Hg as [Ho' Hw']. rewrite get_tagged_ok by assumption. f_equal. apply compare_Z.
    + cbn [well_formed_canonical] in Hg. rewrite compare_int_big; [|assumption|pose proof (tagged_range w Hw); unfold inline in *; lia].
      cbn [option_map fvalue]. f_equal. symmetry. apply Z.compare_antisym.
  - now apply compare_big_fast_ok.
Qed.
