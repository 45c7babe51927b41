From Verif Require Import Base CollectionCreateModel CollectionCreateSpec.
From Verif Require BitTricksModel Word BitTricksProofs.
Local Open Scope N_scope.

Lemma land_ldiff_bit h x k : N.testbit (N.land x (N.ldiff h SizeMask)) k = (has x k && has h k && negb (N.testbit SizeMask k))%bool.
Proof. unfold has. rewrite N.land_spec, N.ldiff_spec. now rewrite andb_assoc. Qed.

Lemma mask_bits k : k < 32 -> N.testbit SizeMask k = (30 <=? k).
Proof.
  intros H. assert (Q : forallb (fun k => Bool.eqb (N.testbit SizeMask k) (30 <=? k)) (map N.of_nat (seq 0 32)) = true) by reflexivity.
  rewrite forallb_forall in Q. apply eqb_prop, Q. rewrite in_map_iff. exists (N.to_nat k). split; [lia|]. apply in_seq. lia.
Qed.

Lemma high_bit x k : x < 2 ^ 32 -> 32 <= k -> N.testbit x k = false.
Proof.
  intros H Hk. destruct (N.eq_dec x 0) as [->|Nz]; [now rewrite N.bits_0|]. apply N.bits_above_log2.
  apply N.log2_lt_pow2; [lia|]. apply N.lt_le_trans with (2 ^ 32); [exact H|]. now apply N.pow_le_mono_r.
Qed.

Lemma land_small x h : h < 2 ^ 32 -> N.land x (N.ldiff h SizeMask) < 2 ^ 64.
Proof.
  intros H. apply N.lt_le_trans with (2 ^ 32); [|now apply N.pow_le_mono_r].
  assert (Q : N.land x (N.ldiff h SizeMask) = N.land (N.land x (N.ldiff h SizeMask)) (N.ones 32)).
  { apply N.bits_inj. intros k. rewrite (N.land_spec (N.land _ _)), land_ldiff_bit. destruct (N.lt_ge_cases k 32).
    - now rewrite N.ones_spec_low, andb_true_r.
    - unfold has. rewrite (high_bit h) by auto. now rewrite andb_false_r. }
  rewrite Q, N.land_ones. now apply N.mod_lt.
Qed.

Lemma filter_none {A} (f : A -> bool) l : (forall x, In x l -> f x = false) -> filter f l = [].
Proof. induction l as [|x t IH]; intros H; auto. cbn. rewrite (H x) by now left. apply IH. intros y Hy. apply H. now right. Qed.

Lemma count_shared x h : h < 2 ^ 32 -> Z.of_N (BitTricksModel.count_set (N.land x (N.ldiff h SizeMask))) = shared x h.
Proof.
  intros H. rewrite BitTricksProofs.count_set_spec by now apply land_small. unfold Word.popcount, Word.bit_positions, shared, countb.
  rewrite nat_N_Z. f_equal. set (y := N.land x (N.ldiff h SizeMask)).
  replace (seq 0 64) with (seq 0 30 ++ seq 30 34)%list by reflexivity. rewrite map_app, filter_app, app_length.
  rewrite (filter_none _ (map N.of_nat (seq 30 34))), Nat.add_0_r.
  - assert (Q : forall l, (forall k, In k l -> (k < 30)%nat) -> length (filter (N.testbit y) (map N.of_nat l)) =
      length (filter (fun k => (has x (N.of_nat k) && has h (N.of_nat k))%bool) l)).
    { induction l as [|k t IH]; intros Hl; [reflexivity|]. pose proof (Hl k (or_introl eq_refl)) as Hk. cbn [map filter].
      replace (N.testbit y (N.of_nat k)) with (has x (N.of_nat k) && has h (N.of_nat k))%bool.
      - destruct (has x (N.of_nat k) && has h (N.of_nat k))%bool; cbn [length]; rewrite IH; auto; intros z Hz; apply Hl; now right.
      - unfold y. rewrite land_ldiff_bit, mask_bits by lia. replace (30 <=? N.of_nat k) with false by (symmetry; apply N.leb_gt; lia). now rewrite andb_true_r. }
    apply Q. intros k Hk. apply in_seq in Hk. lia.
  - intros z Hz. apply in_map_iff in Hz as (k & <- & Hk). apply in_seq in Hk. unfold y. rewrite land_ldiff_bit.
    destruct (N.lt_ge_cases (N.of_nat k) 32) as [L|G].
    + rewrite mask_bits by auto. replace (30 <=? N.of_nat k) with true by (symmetry; apply N.leb_le; lia). now rewrite andb_false_r.
    + unfold has. rewrite (high_bit h) by auto. now rewrite andb_false_r.
Qed.

Lemma shared_bound a b : (0 <= shared a b <= 30)%Z.
Proof.
  unfold shared, countb. split; [lia|]. assert (Q : forall f (l : list nat), (length (filter f l) <= length l)%nat).
  { intros f l. induction l as [|x t IH]; auto. cbn. destruct (f x); cbn; lia. }
  pose proof (Q (fun k => (has a (N.of_nat k) && has b (N.of_nat k))%bool) (seq 0 30)) as B. rewrite seq_length in B. lia.
Qed.

Lemma factor_index h : h < 2 ^ 32 -> nth_error size_factors (N.to_nat (N.shiftr (N.land h SizeMask) 30)) = Some (factor h).
Proof.
  intros H. assert (Q : N.shiftr (N.land h SizeMask) 30 = N.b2n (has h 30) + 2 * N.b2n (has h 31)).
  { apply N.bits_inj. intros k. rewrite N.shiftr_spec', N.land_spec. destruct (N.eq_dec k 0) as [->|K0].
    - change (0 + 30) with 30. rewrite (mask_bits 30), andb_true_r by lia. fold (has h 30). destruct (has h 30), (has h 31); reflexivity.
    - destruct (N.eq_dec k 1) as [->|K1].
      + change (1 + 30) with 31. rewrite (mask_bits 31), andb_true_r by lia. fold (has h 31). destruct (has h 30), (has h 31); reflexivity.
      + rewrite (high_bit h) by (auto; lia). cbn [andb]. symmetry. apply N.bits_above_log2. destruct (has h 30), (has h 31); cbn; lia. }
  rewrite Q. unfold factor. destruct (has h 30), (has h 31); reflexivity.
Qed.

Lemma factor_bound h : (0 <= factor h <= 100)%Z.
Proof. unfold factor. destruct (has h 31), (has h 30); lia. Qed.

Lemma int_some z : (- 2 ^ 31 <= z < 2 ^ 31)%Z -> int z = Some z.
Proof. intros H. unfold int. replace ((- 2 ^ 31 <=? z) && (z <? 2 ^ 31))%Z with true; auto. symmetry. apply andb_true_iff. split; [apply Z.leb_le|apply Z.ltb_lt]; lia. Qed.

Lemma arith (a x y z : Z) : (0 <= a <= 100 -> 0 <= x <= 30 -> 0 <= y <= 30 -> 0 <= z <= 30 ->
  (let? k := int_mul x 10 in let? k := int_mul k a in let? b := int_mul y (-1) in let? b := int_mul b a in
   let? c := int_mul z (-100) in let? c := int_mul c a in let? ab := int_add k b in int_add ab c) = Some (a * (10 * x - y - 100 * z)))%Z.
Proof.
  intros Ha Hx Hy Hz. unfold int_mul, int_add.
  assert (B : (0 <= x * 10 * a <= 30000 /\ -3000 <= y * -1 * a <= 0 /\ -300000 <= z * -100 * a <= 0)%Z) by nia.
  rewrite (int_some (x * 10)) by lia. rewrite (int_some (x * 10 * a)) by lia. rewrite (int_some (y * -1)) by lia.
  rewrite (int_some (y * -1 * a)) by lia. rewrite (int_some (z * -100)) by lia. rewrite (int_some (z * -100 * a)) by lia.
  rewrite (int_some (x * 10 * a + y * -1 * a)) by lia. rewrite int_some by lia. f_equal. ring.
Qed.

Lemma weight_value h f m s : h < 2 ^ 32 -> hint_weight h f m s = Some (factor h * (10 * shared f h - shared m h - 100 * shared s h))%Z.
Proof.
  intros H. pose proof (arith (factor h) _ _ _ (factor_bound h) (shared_bound f h) (shared_bound m h) (shared_bound s h)) as Q.
  rewrite <- Q. unfold hint_weight. rewrite factor_index by auto. rewrite !count_shared by auto. reflexivity.
Qed.

Lemma weight_bounds h f m s w : h < 2 ^ 32 -> hint_weight h f m s = Some w -> (-303000 <= w <= weight_max)%Z.
Proof.
  intros H E. rewrite weight_value in E by auto.
  assert (Q : forall a b : Z, Some a = Some b -> a = b) by (intros a b X; now injection X). apply Q in E. subst w. clear Q.
  pose proof (factor_bound h) as Bf. pose proof (shared_bound f h) as B1. pose proof (shared_bound m h) as B2. pose proof (shared_bound s h) as B3.
  unfold weight_max.
  set (a := factor h) in *. set (x := shared f h) in *. set (y := shared m h) in *. set (z := shared s h) in *. clearbody a x y z. nia.
Qed.

(** ** The search *)
Lemma order_bit h : needs_order h = has h 6.
Proof.
  unfold needs_order, has, Ordered. change (N.shiftl 1 6) with (2 ^ 6). destruct (N.testbit h 6) eqn:E.
  - apply negb_true_iff, N.eqb_neq. intros Q. assert (T : N.testbit (N.land h (2 ^ 6)) 6 = true) by now rewrite N.land_spec, E, N.pow2_bits_true.
    rewrite Q in T. discriminate.
  - apply negb_false_iff, N.eqb_eq. apply N.bits_inj. intros k. rewrite N.land_spec, N.bits_0. destruct (N.eq_dec k 6) as [->|Nk]; [now rewrite E|].
    rewrite N.pow2_bits_false by auto. apply andb_false_r.
Qed.

Lemma eligible_b h i : eligible h i <-> (negb (needs_order h) || ordered i)%bool = true.
Proof. unfold eligible. rewrite order_bit. destruct (has h 6), (ordered i); cbn; split; auto; intros Q; try discriminate; specialize (Q eq_refl); discriminate. Qed.

(** The invariant: [best] is the first of the best of what was seen. *)
Definition so_far (seen : registry) hint weight (best : option implementation) : Prop :=
  match best with
  | None => weight = INT_MIN /\ forall j, In j seen -> ~ eligible hint j
  | Some i => rating i hint = Some weight /\ first_best seen hint i
  end.

Lemma search_ok hint t : forall seen weight best, rated (seen ++ t) hint -> so_far seen hint weight best ->
  exists weight' best', search t hint (needs_order hint) weight best = Some best' /\ so_far (seen ++ t) hint weight' best'.
Proof.
  induction t as [|i t IH]; intros seen weight best HR HS; cbn [search].
  - rewrite app_nil_r. eauto.
  - assert (Hin : In i (seen ++ i :: t)) by (apply in_app_iff; right; now left).
    destruct (HR i Hin) as (w & Ew & Bw). rewrite Ew.
    replace (seen ++ i :: t) with ((seen ++ [i]) ++ t) in * by now rewrite <- app_assoc.
    destruct ((weight <? w)%Z && (negb (needs_order hint) || ordered i))%bool eqn:C.
    + apply andb_true_iff in C as [C1 C2]. apply Z.ltb_lt in C1. apply IH; auto. split; auto.
      exists w, seen, []. split; auto. split; auto. split; [now apply eligible_b|]. split; [|intros j v []].
      intros j v Hj Ej Rj. destruct best as [b|].
      * destruct HS as [Rb (wb & before & after & E1 & E2 & _ & Hb & Ha)]. rewrite Rb in E1. injection E1 as <-. subst seen.
        apply in_app_iff in Hj as [Hj|[->|Hj]]; [specialize (Hb j v Hj Ej Rj); lia| |specialize (Ha j v Hj Ej Rj); lia].
        rewrite Rb in Rj. injection Rj as <-. exact C1.
      * destruct HS as [_ HN]. destruct (HN j Hj Ej).
    + apply IH; auto. apply andb_false_iff in C. destruct best as [b|].
      * destruct HS as [Rb (wb & before & after & E1 & E2 & E3 & Hb & Ha)]. split; auto. exists wb, before, (after ++ [i]).
        split; auto. split; [subst seen; now rewrite <- app_assoc|]. split; auto. split; auto.
        intros j v Hj Ej Rj. apply in_app_iff in Hj as [Hj|[->|[]]]; [eauto|]. rewrite Ew in Rj. injection Rj as <-.
        rewrite Rb in E1. injection E1 as <-. destruct C as [C|C]; [apply Z.ltb_ge in C; lia|]. apply eligible_b in Ej. congruence.
      * destruct HS as [-> HN]. split; auto. intros j Hj. apply in_app_iff in Hj as [Hj|[->|[]]]; [now apply HN|].
        intros Ej. apply eligible_b in Ej. destruct C as [C|C]; [apply Z.ltb_ge in C; lia|congruence].
Qed.

Lemma create_ok r hint : rated r hint ->
  match create r hint with
  | Some i => first_best r hint i
  | None => forall j, In j r -> ~ eligible hint j
  end.
Proof.
  intros HR. unfold create. destruct (search_ok hint r [] INT_MIN None HR) as (w & best & E & S1).
  - now split.
  - rewrite E. cbn [app] in S1. destruct best as [i|]; [|apply S1]. destruct S1 as [_ F]. pose proof F as (w' & b & a & _ & _ & El & _).
    apply eligible_b in El. now rewrite El.
Qed.

Lemma times_ok a cs : forall r, countb (fun i => (addr i =? a)%nat) (calls r cs) = times (countb (fun i => (addr i =? a)%nat) r) a cs.
Proof.
  induction cs as [|c t IH]; intros r; [reflexivity|]. destruct c as [i ok|b]; cbn [calls times]; rewrite IH; f_equal.
  - unfold register, countb. destruct ok; [|now rewrite andb_false_r]. cbn [filter]. rewrite andb_true_r. destruct (addr i =? a)%nat; reflexivity.
  - clear. induction r as [|i r IH]; [now destruct (b =? a)%nat|]. cbn [deregister]. unfold countb in *. cbn [filter].
    destruct (addr i =? b)%nat eqn:E1.
    + apply Nat.eqb_eq in E1. rewrite E1. destruct (b =? a)%nat; reflexivity.
    + cbn [filter]. destruct (addr i =? a)%nat eqn:E2; cbn [length]; rewrite IH; destruct (b =? a)%nat eqn:E3; auto.
      apply Nat.eqb_eq in E2, E3. apply Nat.eqb_neq in E1. congruence.
Qed.
