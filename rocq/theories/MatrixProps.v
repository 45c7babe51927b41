(** C92: the 4 by 4 matrices mean what their names say, for all arguments, in
    exact arithmetic. *)

From Coq Require Import Reals Lra Psatz Lia.
From Verif Require Import GeomModel GeomSpec GeomProofs MatrixProofs.
Local Open Scope R_scope.

(** The product of two matrices is the matrix product: applying it applies
    the second matrix and then the first; it is associative, and the identity
    leaves everything as it is. *)
Theorem c92_product : forall a b c v,
  (forall i j, (i < 4)%nat -> (j < 4)%nat ->
     entry (mmul a b) i j = sum4 (fun k => entry a i k * entry b k j))
  /\ (forall i, (i < 4)%nat ->
     coord (mapply a v) i = sum4 (fun k => entry a i k * coord v k))
  /\ mapply (mmul a b) v = mapply a (mapply b v)
  /\ mmul (mmul a b) c = mmul a (mmul b c)
  /\ mmul midentity a = a /\ mmul a midentity = a
  /\ mapply midentity v = v.
Proof.
  intros a b c v. split; [ | split; [ | split; [ | split; [ | split; [ | split ] ] ] ] ].
  - intros i j Hi Hj. apply mmul_entry; assumption.
  - intros i Hi. unm.
    do 4 (destruct i as [ | i ]; [ red3; ring | ]); exfalso; lia.
  - apply mapply_mul.
  - apply mmul_assoc.
  - apply mmul_id_l.
  - apply mmul_id_r.
  - unm. red3. f_equal; ring.
Qed.

Print Assumptions c92_product.

(** Making a matrix takes its entries row by row. *)
Theorem c92_make : forall x1 y1 z1 w1 x2 y2 z2 w2 x3 y3 z3 w3 x4 y4 z4 w4 v,
  mapply (mmake x1 y1 z1 w1 x2 y2 z2 w2 x3 y3 z3 w3 x4 y4 z4 w4) v
  = V4 (x1 * GeomModel.x4 v + y1 * GeomModel.y4 v + z1 * GeomModel.z4 v + w1 * GeomModel.w4 v)
       (x2 * GeomModel.x4 v + y2 * GeomModel.y4 v + z2 * GeomModel.z4 v + w2 * GeomModel.w4 v)
       (x3 * GeomModel.x4 v + y3 * GeomModel.y4 v + z3 * GeomModel.z4 v + w3 * GeomModel.w4 v)
       (x4 * GeomModel.x4 v + y4 * GeomModel.y4 v + z4 * GeomModel.z4 v + w4 * GeomModel.w4 v).
Proof. intros. un4. red3. f_equal; ring. Qed.

Print Assumptions c92_make.

(** A translated matrix moves a position before it applies the matrix, and
    leaves directions alone. *)
Theorem c92_translate : forall m a v,
  mposition (mtranslate m a) v = mposition m (comb 1 v 1 a)
  /\ mdirection (mtranslate m a) v = mdirection m v
  /\ mposition (mtranslation a) v = comb 1 v 1 a.
Proof. intros m a v. unm. un3. red3. repeat split; f_equal; ring. Qed.

Print Assumptions c92_translate.

(** A scaled matrix multiplies the coordinates before it applies the
    matrix. *)
Theorem c92_scale : forall m a v,
  mposition (mscaled m a) v = mposition m (V3 (x3 a * x3 v) (y3 a * y3 v) (z3 a * z3 v))
  /\ mdirection (mscaled m a) v = mdirection m (V3 (x3 a * x3 v) (y3 a * y3 v) (z3 a * z3 v))
  /\ mposition (mscale a) v = V3 (x3 a * x3 v) (y3 a * y3 v) (z3 a * z3 v).
Proof. intros m a v. unm. un3. red3. repeat split; f_equal; ring. Qed.

Print Assumptions c92_scale.

(** A rotation turns every position and direction by the angle about the axis,
    and keeps inner products and handedness; the zero axis fails the
    assertion. *)
Theorem c92_rotation : forall t axis,
  (axis = zero3 -> mrotation t axis = None)
  /\ (axis <> zero3 -> exists r, mrotation t axis = Some r
     /\ (forall v, turned axis t v (mposition r v) /\ mdirection r v = mposition r v)
     /\ mposition r axis = axis
     /\ (forall u v, inner (mposition r u) (mposition r v) = inner u v)
     /\ (forall u v w, volume (mposition r u) (mposition r v) (mposition r w) = volume u v w)
     /\ (forall m, exists m', mrotate m t axis = Some m'
           /\ forall v, mposition m' v = mposition m (mposition r v)
                     /\ mdirection m' v = mdirection m (mdirection r v))).
Proof.
  intros t axis. split; [ intros H; apply rotation_none, H | ]. intros Ha.
  pose proof (normalize_some axis Ha) as Hn.
  destruct (normalize_spec axis _ Hn) as [Ln An].
  set (n := div_scalar3 axis (len axis)) in *.
  assert (N : inner n n = 1) by (rewrite <- len_sq, Ln; ring).
  destruct (rotation_some t axis n Hn) as [r Hr].
  pose proof (rotation_is t axis n r Hn Hr) as Is.
  pose proof (len_pos axis Ha) as L. pose proof (cs1 t) as C.
  exists r. split; [ exact Hr | ].
  split; [ | split; [ | split; [ | split ] ] ].
  - intros v. destruct (Is v) as [D P]. split; [ | congruence ].
    rewrite P, An. apply rod_turned; assumption.
  - rewrite (proj2 (Is axis)). rewrite An at 1 2.
    transitivity (comb (len axis) (rodrigues (cos t) (sin t) n n) 0 zero3).
    + clear. set (l := len axis). clearbody l. clearbody n. unfold rodrigues. un3. red3.
      f_equal; ring.
    + replace (rodrigues (cos t) (sin t) n n) with n; [ reflexivity | ].
      unfold rodrigues. rewrite N. destruct n as [p q r']. cbn [x3 y3 z3]. f_equal; ring.
  - intros u v. rewrite (proj2 (Is u)), (proj2 (Is v)). apply rod_inner; assumption.
  - intros u v w. rewrite (proj2 (Is u)), (proj2 (Is v)), (proj2 (Is w)).
    apply rod_volume; assumption.
  - intros m. exists (mmul m r). unfold mrotate. rewrite Hr. split; [ reflexivity | ].
    assert (W : exists p q r0 s a b c d e f g h,
      r = mmake p q r0 0 s a b 0 c d e 0 0 0 0 1 /\ f = 0 /\ g = 0 /\ h = 0).
    { unfold mrotation in Hr. rewrite Hn in Hr. injection Hr as <-.
      do 9 eexists. exists 0, 0, 0. repeat split. }
    destruct W as (p & q & r0 & s & a & b & c & d & e & f & g & h & -> & _).
    intros v. clear. unm. un3. red3. split; f_equal; ring.
Qed.

Print Assumptions c92_rotation.

(** The rotations about the x, y and z axes are the rotations about the unit
    vectors along those axes, and turning by one angle and then another turns
    by their sum. *)
Theorem c92_rotation_axes : forall s t v,
  mrotation t (V3 1 0 0) = Some (mrotation_x t)
  /\ mrotation t (V3 0 1 0) = Some (mrotation_y t)
  /\ mrotation t (V3 0 0 1) = Some (mrotation_z t)
  /\ mmul (mrotation_x s) (mrotation_x t) = mrotation_x (s + t)
  /\ mmul (mrotation_y s) (mrotation_y t) = mrotation_y (s + t)
  /\ mmul (mrotation_z s) (mrotation_z t) = mrotation_z (s + t)
  /\ mposition (mrotation_z t) v
     = V3 (x3 v * cos t - y3 v * sin t) (x3 v * sin t + y3 v * cos t) (z3 v)
  /\ (forall m u, mapply (mrotate_x m t) u = mapply m (mapply (mrotation_x t) u)
        /\ mapply (mrotate_y m t) u = mapply m (mapply (mrotation_y t) u)
        /\ mapply (mrotate_z m t) u = mapply m (mapply (mrotation_z t) u)).
Proof.
  intros s t v.
  assert (U : forall a, a <> zero3 -> inner a a = 1 -> normalize3 a = Some a).
  { intros a Ha H1. rewrite normalize_some by assumption. f_equal.
    unfold len. rewrite H1, sqrt_1. un3. red3. f_equal; field. }
  assert (N1 : normalize3 (V3 1 0 0) = Some (V3 1 0 0))
    by (apply U; [ intros H; injection H; lra | red3; ring ]).
  assert (N2 : normalize3 (V3 0 1 0) = Some (V3 0 1 0))
    by (apply U; [ intros H; injection H; lra | red3; ring ]).
  assert (N3 : normalize3 (V3 0 0 1) = Some (V3 0 0 1))
    by (apply U; [ intros H; injection H; lra | red3; ring ]).
  unfold mrotation. rewrite N1, N2, N3. clear U N1 N2 N3.
  split; [ | split; [ | split; [ | split; [ | split; [ | split; [ | split ] ] ] ] ] ].
  - unfold mrotation_x. cbv zeta. f_equal. red3. f_equal; f_equal; ring.
  - unfold mrotation_y. cbv zeta. f_equal. red3. f_equal; f_equal; ring.
  - unfold mrotation_z. cbv zeta. f_equal. red3. f_equal; f_equal; ring.
  - unfold mrotation_x. rewrite cos_plus, sin_plus. red3. f_equal; f_equal; ring.
  - unfold mrotation_y. rewrite cos_plus, sin_plus. red3. f_equal; f_equal; ring.
  - unfold mrotation_z. rewrite cos_plus, sin_plus. red3. f_equal; f_equal; ring.
  - unfold mrotation_z. un3. red3. f_equal; ring.
  - intros m u. repeat split; apply mapply_mul.
Qed.

Print Assumptions c92_rotation_axes.

(** The orthographic projection maps exactly the points of its box into the
    cube from -1 to 1, with the near side at -1. *)
Theorem c92_ortho : forall l r b t n f v, l < r -> b < t -> n < f ->
  (in_cube (mposition (mortho l r b t n f) v) <-> in_box l r b t n f v)
  /\ mposition (mortho l r b t n f) (V3 l b (- n)) = V3 (-1) (-1) (-1)
  /\ mposition (mortho l r b t n f) (V3 r t (- f)) = V3 1 1 1
  /\ mproject (mortho l r b t n f) v = mposition (mortho l r b t n f) v.
Proof.
  intros l r b t n f v Hx Hy Hz. split; [ | split; [ | split ] ].
  - destruct v as [x y z].
    replace (mposition (mortho l r b t n f) (V3 x y z))
      with (V3 (2 / (r - l) * x - (r + l) / (r - l)) (2 / (t - b) * y - (t + b) / (t - b))
               (2 / (f - n) * (- z) - (f + n) / (f - n))).
    2: { red3. f_equal; field; lra. }
    unfold in_cube, in_box. cbn [x3 y3 z3].
    rewrite !unit_range by assumption. reflexivity.
  - red3. f_equal; field; lra.
  - red3. f_equal; field; lra.
  - destruct v as [x y z]. red3. f_equal; field; lra.
Qed.

Print Assumptions c92_ortho.

(** The frustum projection maps exactly the points of its pyramid into the
    cube from -1 to 1 (points at depth zero, which it divides by, aside). *)
Theorem c92_frustum : forall l r b t n f v,
  l < r -> b < t -> 0 < n -> n < f -> z3 v <> 0 ->
  (in_cube (mproject (mfrustum l r b t n f) v) <-> in_frustum l r b t n f v)
  /\ mproject (mfrustum l r b t n f) (V3 l b (- n)) = V3 (-1) (-1) (-1)
  /\ mproject (mfrustum l r b t n f) (V3 (r * (f / n)) (t * (f / n)) (- f)) = V3 1 1 1.
Proof.
  intros l r b t n f v Hx Hy Hn Hf Hv. split; [ | split ].
  - destruct v as [x y z]. cbn [z3] in Hv.
    set (d := - z). assert (D : d <> 0) by (unfold d; lra).
    replace z with (- d) by (unfold d; ring). clearbody d. clear Hv z.
    replace (mproject (mfrustum l r b t n f) (V3 x y (- d)))
      with (V3 (2 / (r - l) * (x * n / d) - (r + l) / (r - l))
               (2 / (t - b) * (y * n / d) - (t + b) / (t - b))
               (((f + n) * d - 2 * f * n) / (f - n) / d)).
    2: { red3. f_equal; field; lra. }
    unfold in_cube, in_frustum. cbn [x3 y3 z3]. rewrite !unit_range by assumption.
    replace (- - d) with d by ring.
    assert (Q : -1 <= ((f + n) * d - 2 * f * n) / (f - n) / d <= 1 <-> n <= d <= f).
    { destruct (Rlt_or_le 0 d) as [P | P].
      - rewrite (between_scale d (- d) _ d) by lra.
        rewrite (between_scale (f - n) (- d * (f - n)) _ (d * (f - n))) by lra.
        split; intros [H1 H2]; split; nra.
      - split; [ | lra ]. intros [_ H2]. exfalso.
        assert (P' : 0 < - d) by lra.
        assert (E : ((f + n) * d - 2 * f * n) / (f - n) / d
                    = 1 + 2 * n / (f - n) + 2 * f * n / (f - n) / (- d)) by (field; lra).
        rewrite E in H2.
        assert (0 < 2 * n / (f - n)) by (apply Rdiv_lt_0_compat; lra).
        assert (0 < 2 * f * n / (f - n) / - d).
        { apply Rdiv_lt_0_compat; [ apply Rdiv_lt_0_compat; nra | lra ]. }
        lra. }
    rewrite Q.
    assert (X : forall lo hi e, n <= d -> (lo <= e * n / d <= hi <-> lo * (d / n) <= e <= hi * (d / n))).
    { intros lo hi e P. replace (e * n / d) with (e / (d / n)) by (field; lra).
      apply between_scale; [ apply Rdiv_lt_0_compat; lra | reflexivity | reflexivity ]. }
    split; intros (H1 & H2 & H3); (split; [ | split; [ | exact H3 ] ]);
      apply X; solve [ lra | assumption ].
  - red3. f_equal; field; lra.
  - red3. f_equal; field; lra.
Qed.

Print Assumptions c92_frustum.

(** The perspective projection is the frustum with the given vertical field of
    view and ratio of width to height: its window at the near depth has half
    the height near * tan (fovy / 2). *)
Theorem c92_perspective : forall fovy aspect n f,
  0 < fovy < PI -> 0 < aspect -> 0 < n -> n < f ->
  let h := n * tan (fovy / 2) in
  0 < h /\ mperspective fovy aspect n f = mfrustum (- (h * aspect)) (h * aspect) (- h) h n f.
Proof.
  intros fovy aspect n f Hv Ha Hn Hf h.
  assert (T : 0 < tan (fovy / 2)) by (apply tan_gt_0; lra).
  unfold h. clear h. split; [ apply Rmult_lt_0_compat; lra | ].
  unfold mperspective, mfrustum. cbv zeta. set (u := tan (fovy / 2)) in *. clearbody u.
  assert (0 < n * u) by (apply Rmult_lt_0_compat; lra).
  assert (0 < n * u * aspect) by (apply Rmult_lt_0_compat; lra).
  unfold mmake. f_equal; f_equal; try field; repeat split; lra.
Qed.

Print Assumptions c92_perspective.

(** The functions that change a matrix multiply it by the projection on the
    right, so the projection is applied first. *)
Theorem c92_projected : forall m l r b t n f fovy aspect v,
  mapply (mto_ortho m l r b t n f) v = mapply m (mapply (mortho l r b t n f) v)
  /\ mapply (mto_frustum m l r b t n f) v = mapply m (mapply (mfrustum l r b t n f) v)
  /\ mapply (mto_perspective m fovy aspect n f) v
     = mapply m (mapply (mperspective fovy aspect n f) v).
Proof. intros. repeat split; apply mapply_mul. Qed.

Print Assumptions c92_projected.

(** Concrete cases. *)
Example translate_then_scale :
  mposition (mscaled (mtranslation (V3 1 2 3)) (V3 2 2 2)) (V3 1 1 1) = V3 3 4 5.
Proof. red3. f_equal; ring. Qed.

Example quarter_turn : mposition (mrotation_z (PI / 2)) (V3 1 0 5) = V3 0 1 5.
Proof.
  unfold mrotation_z. rewrite cos_PI2, sin_PI2. red3. f_equal; ring.
Qed.

Example frustum_case : in_frustum (-1) 1 (-1) 1 1 10 (V3 3 (-2) (-4)).
Proof. unfold in_frustum. cbn [x3 y3 z3]. lra. Qed.

Example perspective_case : 0 < PI / 2 < PI.
Proof. pose proof PI_RGT_0. lra. Qed.
