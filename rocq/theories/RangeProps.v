(** C21: ranges. C48: minimum, maximum and clamp. *)
From Verif Require Import Base RangeModel RangeSpec.
Local Open Scope Z_scope.

Lemma result_fits t z : fits t z = true -> result t z = Some z.
Proof. intros H. unfold result. now rewrite H. Qed.

Lemma lowest_neg t : lowest t <= 0.
Proof. unfold lowest. pose proof (Z.pow_nonneg 2 (bits t - 1) ltac:(lia)). destruct (signed t); lia. Qed.

(** When the ends do not overflow: *)
Theorem c21_contains_partial (t : ty) (r i : range) : valid t r -> valid t i -> ends t r -> ends t i ->
  exists b, contains t r i = Some b /\ (b = true <-> forall z, mem z i -> mem z r).
Proof.
  unfold valid, ends, mem, contains, add. intros (_ & _ & Lr) (_ & _ & Li) Er Ei.
  destruct (Z.leb_spec (start r) (start i)).
  - rewrite !result_fits by auto. eexists. split; [reflexivity|]. split; intros H'.
    + intros z Hz. lia.
    + specialize (H' (start i + len i) ltac:(lia)). lia.
  - eexists. split; [reflexivity|]. split; [discriminate|]. intros H'. specialize (H' (start i) ltac:(lia)). lia.
Qed.
Print Assumptions c21_contains_partial.

Theorem c21_contains_elements_partial (t : ty) (r i : range) : valid t r -> valid t i -> ends t r -> ends t i -> 0 < len i ->
  exists b, contains t r i = Some b /\ (b = true <-> forall z, elem z i -> elem z r).
Proof.
  unfold valid, ends, elem, contains, add. intros (_ & _ & Lr) (_ & _ & Li) Er Ei Hp.
  destruct (Z.leb_spec (start r) (start i)).
  - rewrite !result_fits by auto. eexists. split; [reflexivity|]. split; intros H'.
    + intros z Hz. lia.
    + pose proof (H' (start i + len i - 1) ltac:(lia)). lia.
  - eexists. split; [reflexivity|]. split; [discriminate|]. intros H'. specialize (H' (start i) ltac:(lia)). lia.
Qed.
Print Assumptions c21_contains_elements_partial.

Theorem c21_intersects_partial (t : ty) (r s : range) : valid t r -> valid t s -> ends t r -> ends t s ->
  exists b, intersects t r s = Some b /\ (b = true <-> exists z, mem z r /\ mem z s).
Proof.
  unfold valid, ends, mem, intersects, add. intros (_ & _ & Lr) (_ & _ & Ls) Er Es. rewrite !result_fits by auto.
  destruct (Z.leb_spec (start r) (start s + len s)).
  - eexists. split; [reflexivity|]. split; intros H'.
    + exists (Z.max (start r) (start s)). lia.
    + destruct H' as (z & ?). lia.
  - eexists. split; [reflexivity|]. split; [discriminate|]. intros (z & ?). lia.
Qed.
Print Assumptions c21_intersects_partial.

Theorem c21_intersection_partial (t : ty) (r s : range) : valid t r -> valid t s -> ends t r -> ends t s ->
  (exists z, mem z r /\ mem z s) ->
  exists x, intersection t r s = Some x /\ valid t x /\ forall z, mem z x <-> mem z r /\ mem z s.
Proof.
  unfold valid, ends, mem, intersection, add, sub, cc_max, cc_min, fits. intros (Fr & Fl & Lr) (Fs & Fm & Ls) Er Es (z & Hz).
  rewrite !result_fits by auto.
  set (st := if start r >? start s then start r else start s).
  set (en := if start r + len r <? start s + len s then start r + len r else start s + len s).
  assert (St : st = Z.max (start r) (start s)) by (unfold st; destruct (start r >? start s) eqn:E; lia).
  assert (En : en = Z.min (start r + len r) (start s + len s)) by (unfold en; destruct (_ <? _) eqn:E; lia).
  pose proof (lowest_neg t). clearbody st en.
  rewrite result_fits by (unfold fits; lia). eexists. split; [reflexivity|]. cbn [start len].
  split; [repeat split; lia|]. intros y. split; lia.
Qed.
Print Assumptions c21_intersection_partial.

(** When an end overflows, the answers are wrong: in uint8_t, 200..300 does not contain 210..220. *)
Theorem c21_overflow_refuted : ~ forall t r i, is_type t -> valid t r -> valid t i ->
  exists b, contains t r i = Some b /\ (b = true <-> forall z, mem z i -> mem z r).
Proof.
  intros H. destruct (H (mkTy false 8) (mkRange 200 100) (mkRange 210 10)) as (b & E & Hb).
  - cbn; auto.
  - repeat split; cbn; lia.
  - repeat split; cbn; lia.
  - vm_compute in E. injection E as <-. destruct Hb as [_ Hb]. discriminate Hb. unfold mem. cbn [start len]. lia.
Qed.
Print Assumptions c21_overflow_refuted.

(** Ranges with nothing in common have an intersection of huge length in an unsigned type. *)
Theorem c21_disjoint_intersection_refuted : ~ forall t r s, is_type t -> valid t r -> valid t s -> ends t r -> ends t s ->
  exists x, intersection t r s = Some x /\ forall z, mem z x <-> mem z r /\ mem z s.
Proof.
  intros H. destruct (H (mkTy false 64) (mkRange 10 5) (mkRange 20 5)) as (x & E & Hx); try (vm_compute; auto 8; fail); try (repeat split; vm_compute; auto; discriminate).
  vm_compute in E. injection E as <-. destruct (Hx 20) as [A _]. unfold mem in A. cbn [start len] in A. lia.
Qed.
Print Assumptions c21_disjoint_intersection_refuted.

Example c21_case : exists t r i, is_type t /\ valid t r /\ valid t i /\ ends t r /\ ends t i /\ 0 < len i /\
  contains t r i = Some true /\ intersects t i r = Some true /\ intersection t r i = Some i.
Proof. exists (mkTy true 32), (mkRange (-10) 50), (mkRange 3 20). repeat split; try (cbn; auto; lia); vm_compute; reflexivity. Qed.

(** C48: minimum, maximum and clamp. *)
Theorem c48_min (x y : Z) : cc_min x y <= x /\ cc_min x y <= y /\ (cc_min x y = x \/ cc_min x y = y).
Proof. unfold cc_min. destruct (Z.ltb_spec x y); lia. Qed.
Print Assumptions c48_min.

Theorem c48_max (x y : Z) : x <= cc_max x y /\ y <= cc_max x y /\ (cc_max x y = x \/ cc_max x y = y).
Proof. unfold cc_max. destruct (x >? y) eqn:E; lia. Qed.
Print Assumptions c48_max.

(** The nearest value of the range. *)
Theorem c48_clamp (v lo hi : Z) : lo <= hi ->
  lo <= cc_clamp v lo hi <= hi /\ forall w, lo <= w <= hi -> Z.abs (v - cc_clamp v lo hi) <= Z.abs (v - w).
Proof.
  intros H. unfold cc_clamp.
  assert (E1 : cc_max v lo = Z.max v lo) by (unfold cc_max; destruct (v >? lo) eqn:E; lia). rewrite E1.
  assert (E2 : forall x, cc_min x hi = Z.min x hi) by (intros x; unfold cc_min; destruct (Z.ltb_spec x hi); lia). rewrite E2. split; [lia|intros w Hw; lia].
Qed.
Print Assumptions c48_clamp.
Example c48_case : cc_clamp (-5) 3 9 = 3 /\ cc_clamp 7 3 9 = 7 /\ cc_clamp 12 3 9 = 9.
Proof. auto. Qed.
