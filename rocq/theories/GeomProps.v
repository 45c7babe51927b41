(** C91: the operations on three-dimensional vectors mean what their names
    say, for all vectors, in exact arithmetic. *)

From Coq Require Import Reals Lra Psatz Bool.
From Verif Require Import GeomModel GeomSpec GeomProofs.
Local Open Scope R_scope.

(** The cross product is at right angles to both factors, forms a right-handed
    system with them, and its length squared is that of the parallelogram. *)
Theorem c91_cross : forall a b,
  inner (cross3 a b) a = 0
  /\ inner (cross3 a b) b = 0
  /\ (forall c, inner (cross3 a b) c = volume a b c)
  /\ inner (cross3 a b) (cross3 a b) = inner a a * inner b b - inner a b * inner a b
  /\ cross3 b a = comb (-1) (cross3 a b) 0 zero3.
Proof.
  intros a b. destruct a as [p q r], b as [s t u].
  repeat split; intros; try (destruct c as [l m n]); red3; try ring.
  f_equal; ring.
Qed.

Print Assumptions c91_cross.

(** Projecting a vector onto another gives a multiple of the other, rejecting
    gives a vector at right angles to it, and the two add up to the vector. *)
Theorem c91_project : forall a b, b <> zero3 ->
  (exists k, project3 a b = comb k b 0 zero3)
  /\ inner (reject3 a b) b = 0
  /\ comb 1 (project3 a b) 1 (reject3 a b) = a.
Proof.
  intros a b Hb. pose proof (inner_pos b Hb) as P. split; [ | split ].
  - exists (inner a b / inner b b). un3. red3. f_equal; ring.
  - un3. red3. field. lra.
  - un3. red3. f_equal; ring.
Qed.

Print Assumptions c91_project.

(** Normalizing a vector other than zero gives the vector of length one with
    the same direction; the zero vector fails the assertion. *)
Theorem c91_normalize : forall a,
  (a <> zero3 -> exists n, normalize3 a = Some n
     /\ len n = 1 /\ a = comb (length3 a) n 0 zero3)
  /\ (a = zero3 -> normalize3 a = None).
Proof.
  intros a. split; intros Ha.
  - pose proof (normalize_some a Ha) as H. eexists. split; [ exact H | ].
    exact (normalize_spec a _ H).
  - apply normalize_none. assumption.
Qed.

Print Assumptions c91_normalize.

(** The distance is a metric, and its square is what the squared distance
    gives. *)
Theorem c91_distance : forall a b c,
  0 <= distance3 a b
  /\ (distance3 a b = 0 <-> a = b)
  /\ distance3 a b = distance3 b a
  /\ distance3 a c <= distance3 a b + distance3 b c
  /\ distance_square3 a b = distance3 a b * distance3 a b
  /\ distance_square3 a b
     = (x3 a - x3 b)^2 + (y3 a - y3 b)^2 + (z3 a - z3 b)^2.
Proof.
  intros a b c.
  change (distance3 a b) with (len (sub3 a b)).
  change (distance3 b a) with (len (sub3 b a)).
  change (distance3 a c) with (len (sub3 a c)).
  change (distance3 b c) with (len (sub3 b c)).
  change (distance_square3 a b) with (inner (sub3 a b) (sub3 a b)).
  repeat split.
  - apply len_nonneg.
  - intros H. apply sub_zero, len_zero, H.
  - intros H. apply len_zero, sub_zero, H.
  - unfold len. f_equal. un3. red3. ring.
  - replace (sub3 a c) with (add3 (sub3 a b) (sub3 b c)); [ apply triangle | ].
    un3. unfold add3, sub3. cbn [x3 y3 z3]. f_equal; ring.
  - symmetry. apply len_sq.
  - un3. red3. ring.
Qed.

Print Assumptions c91_distance.

(** Interpolation starts at the first vector, ends at the second, and is the
    fraction t of the way between. *)
Theorem c91_lerp : forall a b t,
  lerp3 a b 0 = a /\ lerp3 a b 1 = b
  /\ lerp3 a b t = comb (1 - t) a t b
  /\ (0 <= t -> distance3 a (lerp3 a b t) = t * distance3 a b).
Proof.
  intros a b t. repeat split.
  - un3. red3. f_equal; ring.
  - un3. red3. f_equal; ring.
  - un3. red3. f_equal; ring.
  - intros Ht. change (distance3 a (lerp3 a b t)) with (len (sub3 a (lerp3 a b t))).
    change (distance3 a b) with (len (sub3 a b)).
    replace (sub3 a (lerp3 a b t)) with (mul_scalar3 (sub3 a b) t)
      by (un3; red3; f_equal; ring).
    rewrite len_scaled, Rabs_right by lra. reflexivity.
Qed.

Print Assumptions c91_lerp.

(** Clamping gives, in each coordinate, the number of the range nearest to the
    vector's. *)
Theorem c91_clamp : forall a mn mx,
  x3 mn <= x3 mx -> y3 mn <= y3 mx -> z3 mn <= z3 mx ->
  nearest (x3 mn) (x3 mx) (x3 a) (x3 (clamp3 a mn mx))
  /\ nearest (y3 mn) (y3 mx) (y3 a) (y3 (clamp3 a mn mx))
  /\ nearest (z3 mn) (z3 mx) (z3 a) (z3 (clamp3 a mn mx)).
Proof. intros a mn mx Hx Hy Hz. repeat split; apply clamp_nearest; assumption. Qed.

Print Assumptions c91_clamp.

(** The normal of a triangle that is not flat has length one, is at right
    angles to the triangle's sides and is on the side from which the corners
    go round anticlockwise; the reversed normal is its opposite. *)
Theorem c91_normal : forall a b c,
  cross3 (sub3 b a) (sub3 c a) <> zero3 ->
  exists n, normal3 a b c = Some n
    /\ len n = 1 /\ inner n (sub3 b a) = 0 /\ inner n (sub3 c a) = 0
    /\ 0 < volume (sub3 b a) (sub3 c a) n
    /\ normalr3 a b c = Some (comb (-1) n 0 zero3).
Proof.
  intros a b c H. pose proof (len_pos _ H) as L.
  pose proof (normalize_some _ H) as E.
  exists (div_scalar3 (cross3 (sub3 b a) (sub3 c a)) (len (cross3 (sub3 b a) (sub3 c a)))).
  destruct (c91_cross (sub3 b a) (sub3 c a)) as (C1 & C2 & C3 & _ & C5).
  split; [ exact E | ]. split; [ exact (proj1 (normalize_spec _ _ E)) | ].
  split; [ rewrite inner_div by lra; rewrite C1; field; lra | ].
  split; [ rewrite inner_div by lra; rewrite C2; field; lra | ].
  split.
  - rewrite <- C3. rewrite inner_sym, inner_div by lra.
    apply Rdiv_lt_0_compat; [ apply inner_pos, H | exact L ].
  - unfold normalr3, perpr3. rewrite C5.
    set (w := cross3 (sub3 b a) (sub3 c a)) in *. clearbody w.
    assert (N : len (comb (-1) w 0 zero3) = len w).
    { unfold len. f_equal. un3. red3. ring. }
    rewrite normalize_some.
    + rewrite N. f_equal. clear E C1 C2 C3 C5 N H. set (l := len w) in *. clearbody l.
      un3. red3. f_equal; field; lra.
    + intros Z. rewrite <- len_zero, N, len_zero in Z. contradiction.
Qed.

Print Assumptions c91_normal.

(** CCVector3Angle gives the cosine of the angle between the vectors: that
    value lies between -1 and 1, and the angle is the one it is the cosine
    of.  Missing: giving the angle itself. *)
Theorem c91_angle_partial : forall a b, a <> zero3 -> b <> zero3 ->
  -1 <= angle3 a b <= 1
  /\ (exists t, is_angle a b t)
  /\ forall t, is_angle a b t -> angle3 a b = cos t.
Proof.
  intros a b Ha Hb. split; [ exact (angle_range a b Ha Hb) | ]. split.
  { exists (acos (angle3 a b)). split; [ apply acos_bound | ].
    rewrite cos_acos by exact (angle_range a b Ha Hb).
    symmetry. exact (angle_product a b Ha Hb). }
  intros t [_ H]. rewrite <- (angle_product a b Ha Hb) in H.
  pose proof (Rmult_lt_0_compat _ _ (len_pos a Ha) (len_pos b Hb)) as L.
  apply Rmult_eq_reg_l with (r := len a * len b); [ exact H | lra ].
Qed.

Print Assumptions c91_angle_partial.

(** It does not give the angle: a vector and itself enclose the angle 0, and
    the function gives 1. *)
Theorem c91_angle_refuted : exists a b t,
  a <> zero3 /\ b <> zero3 /\ is_angle a b t /\ angle3 a b <> t.
Proof.
  exists (V3 1 0 0), (V3 1 0 0), 0.
  assert (Z : V3 1 0 0 <> zero3) by (intros H; injection H; lra).
  split; [ exact Z | ]. split; [ exact Z | ].
  assert (I : is_angle (V3 1 0 0) (V3 1 0 0) 0).
  { split; [ pose proof PI_RGT_0; lra | ]. rewrite cos_0, len_sq. ring. }
  split; [ exact I | ].
  rewrite (proj2 (proj2 (c91_angle_partial _ _ Z Z)) 0 I), cos_0. lra.
Qed.

Print Assumptions c91_angle_refuted.

(** Parallel vectors are reported parallel, and vectors at right angles are
    reported so; a vector pair is reported only when the parallelogram's
    coordinate areas, or the inner product, are below 10^-6.  Missing: nothing
    follows about the angle of short vectors. *)
Theorem c91_tests_partial : forall a b,
  (cross3 a b = zero3 -> parallel3 a b = true)
  /\ (inner a b = 0 -> ortho3 a b = true)
  /\ (parallel3 a b = true -> inner (cross3 a b) (cross3 a b) < 3 * (/ 1000000 * / 1000000))
  /\ (ortho3 a b = true -> Rabs (inner a b) < / 1000000).
Proof.
  intros a b. split; [ | split; [ | split ] ].
  - intros H. unfold parallel3. rewrite H. cbv zeta.
    rewrite !andb_true_iff, !near_zero_iff. cbn [zero3 x3 y3 z3]. rewrite Rabs_R0. lra.
  - intros H. unfold ortho3. rewrite near_zero_iff. change (dot3 a b) with (inner a b).
    rewrite H, Rabs_R0. lra.
  - unfold parallel3. cbv zeta. rewrite !andb_true_iff, !near_zero_iff.
    destruct (cross3 a b) as [p q r]. unfold inner. cbn [x3 y3 z3].
    intros [ [H1 H2] H3 ].
    apply Rabs_def2 in H1. apply Rabs_def2 in H2. apply Rabs_def2 in H3. nra.
  - unfold ortho3. rewrite near_zero_iff. intros H; exact H.
Qed.

Print Assumptions c91_tests_partial.

(** Two short vectors at right angles are reported parallel, and a short
    vector is reported at right angles to itself. *)
Theorem c91_tests_refuted :
  (exists a b, a <> zero3 /\ b <> zero3 /\ inner a b = 0 /\ parallel3 a b = true)
  /\ (exists a, a <> zero3 /\ ortho3 a a = true).
Proof.
  assert (Z : V3 (/ 10000) 0 0 <> zero3) by (intros H; injection H; lra).
  split.
  - exists (V3 (/ 10000) 0 0), (V3 0 (/ 10000) 0).
    split; [ exact Z | ]. split; [ intros H; injection H; lra | ].
    split; [ red3; ring | ].
    unfold parallel3. cbv zeta. rewrite !andb_true_iff, !near_zero_iff. red3.
    repeat split; apply Rabs_def1; lra.
  - exists (V3 (/ 10000) 0 0). split; [ exact Z | ].
    unfold ortho3. rewrite near_zero_iff. red3. apply Rabs_def1; lra.
Qed.

Print Assumptions c91_tests_refuted.

(** Concrete cases. *)
Example cross_axes : cross3 (V3 1 0 0) (V3 0 1 0) = V3 0 0 1.
Proof. red3. f_equal; ring. Qed.

Example normal_case : cross3 (sub3 (V3 2 0 1) (V3 0 0 1)) (sub3 (V3 0 3 1) (V3 0 0 1)) <> zero3.
Proof. red3. intros H. injection H. lra. Qed.

Example project_case : project3 (V3 3 4 5) (V3 0 2 0) = V3 0 4 0
  /\ reject3 (V3 3 4 5) (V3 0 2 0) = V3 3 0 5.
Proof. split; red3; f_equal; field. Qed.

Example angle_case : is_angle (V3 2 0 0) (V3 0 3 0) (PI / 2).
Proof.
  split; [ pose proof PI_RGT_0; lra | ]. rewrite cos_PI2. red3. ring.
Qed.
