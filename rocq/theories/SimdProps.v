(** C93: whatever instruction set the library is built for, the vector
    functions compute the same vectors, in exact arithmetic. *)

From Coq Require Import Reals Lra List.
From Verif Require Import GeomModel SimdModel SimdSpec SimdProofs.
Import ListNotations.
Local Open Scope R_scope.

#[local] Opaque sqrt Rabs Rmin Rmax lesser greater.

(** The two-dimensional vector functions, which use the instruction set
    inside. *)
Theorem c93_plane : forall i a b t,
  xy (add2 i a b) = each Rplus (xy a) (xy b)
  /\ xy (sub2 i a b) = each Rminus (xy a) (xy b)
  /\ xy (mul2 i a b) = each Rmult (xy a) (xy b)
  /\ xy (div2 i a b) = each Rdiv (xy a) (xy b)
  /\ dot2 i a b = ip (xy a) (xy b)
  /\ length2 i a = norm (xy a)
  /\ distance2 i a b = dist (xy a) (xy b)
  /\ distsq2 i a b = ip (each Rminus (xy a) (xy b)) (each Rminus (xy a) (xy b))
  /\ angle2 i a b = cosine (xy a) (xy b)
  /\ cross2 i a b = plane_cross (xy a) (xy b)
  /\ xy (lerp2 i a b t) = between t (xy a) (xy b)
  /\ xy (project2 i a b) = proj (xy a) (xy b)
  /\ xy (reject2 i a b) = rej (xy a) (xy b)
  /\ (norm (xy a) <> 0 -> exists n, normalize2 i a = Some n /\ xy n = unit (xy a))
  /\ (norm (xy a) = 0 -> normalize2 i a = None).
Proof.
  intros i a b t.
  assert (L : length2 i a = norm (xy a)) by (destruct i; check).
  parts; try exact L.
  1-12: destruct i; check.
  - intros H. unfold normalize2. rewrite L. cbv zeta.
    destruct (Req_EM_T (norm (xy a)) 0) as [E | E]; [ contradiction | ].
    eexists. split; [ reflexivity | ]. open_regs. reflexivity.
  - intros H. unfold normalize2. rewrite L. cbv zeta.
    destruct (Req_EM_T (norm (xy a)) 0); [ reflexivity | contradiction ].
Qed.

Print Assumptions c93_plane.

(** The functions on a register that holds one two-dimensional vector in its
    lower lanes. *)
Theorem c93_two : forall i a b c t,
  lo2 (vadd2 i a b) = each Rplus (lo2 a) (lo2 b)
  /\ lo2 (vsub2 i a b) = each Rminus (lo2 a) (lo2 b)
  /\ lo2 (vmul2 i a b) = each Rmult (lo2 a) (lo2 b)
  /\ lo2 (vdiv2 i a b) = each Rdiv (lo2 a) (lo2 b)
  /\ lo2 (on2s Rplus i a t) = map (fun x => x + t) (lo2 a)
  /\ lo2 (on2s Rminus i a t) = map (fun x => x - t) (lo2 a)
  /\ lo2 (on2s Rmult i a t) = map (fun x => x * t) (lo2 a)
  /\ lo2 (on2s Rdiv i a t) = map (fun x => x / t) (lo2 a)
  /\ lo2 (vdot2 i a b) = all 2 (ip (lo2 a) (lo2 b))
  /\ get1 (vsdot2 i a b) = ip (lo2 a) (lo2 b)
  /\ lo2 (vlength2 i a) = all 2 (norm (lo2 a))
  /\ get1 (vslength2 i a) = norm (lo2 a)
  /\ lo2 (vdistance2 i a b) = all 2 (dist (lo2 a) (lo2 b))
  /\ get1 (vsdistance2 i a b) = dist (lo2 a) (lo2 b)
  /\ lo2 (vdistsq2 i a b) = all 2 (ip (each Rminus (lo2 a) (lo2 b)) (each Rminus (lo2 a) (lo2 b)))
  /\ get1 (vsdistsq2 i a b) = ip (each Rminus (lo2 a) (lo2 b)) (each Rminus (lo2 a) (lo2 b))
  /\ lo2 (vangle2 i a b) = all 2 (cosine (lo2 a) (lo2 b))
  /\ get1 (vsangle2 i a b) = cosine (lo2 a) (lo2 b)
  /\ lo2 (vcross2 i a b) = all 2 (plane_cross (lo2 a) (lo2 b))
  /\ get1 (vscross2 i a b) = plane_cross (lo2 a) (lo2 b)
  /\ lo2 (vlerp2 i a b t) = between t (lo2 a) (lo2 b)
  /\ lo2 (vproject2 i a b) = proj (lo2 a) (lo2 b)
  /\ lo2 (vreject2 i a b) = rej (lo2 a) (lo2 b)
  /\ lo2 (vperp2 i a) = left_turn (lo2 a)
  /\ lo2 (vperpr2 i a) = right_turn (lo2 a)
  /\ lo2 (vneg2 i a) = map Ropp (lo2 a)
  /\ lo2 (vabs2 i a) = map Rabs (lo2 a)
  /\ lo2 (vmin2 i a b) = each smaller (lo2 a) (lo2 b)
  /\ lo2 (vmax2 i a b) = each larger (lo2 a) (lo2 b)
  /\ lo2 (vclamp2 i a b c) = each smaller (each larger (lo2 a) (lo2 b)) (lo2 c).
Proof.
  intros i a b c t. parts.
  all: destruct i; intros; open_regs; compute_lanes; rewrite <- ?lesser_min, <- ?greater_max; same.
Qed.

Print Assumptions c93_two.

(** The comparisons put 1 in a lane where the relation holds, else 0. *)
Theorem c93_two_compare : forall i a b d,
  let holds (P : R -> R -> Prop) u v r := (P u v -> r = 1) /\ (~ P u v -> r = 0) in
  let both P v := holds P (x4 a) (x4 b) (x4 v) /\ holds P (y4 a) (y4 b) (y4 v) in
  both eq (veq2 i a b) /\ both Rlt (vlt2 i a b) /\ both Rle (vle2 i a b)
  /\ both Rgt (vgt2 i a b) /\ both Rge (vge2 i a b)
  /\ holds (fun u v => Rabs (u - v) <= x4 d) (x4 a) (x4 b) (x4 (veqabs2 i a b d))
  /\ holds (fun u v => Rabs (u - v) <= y4 d) (y4 a) (y4 b) (y4 (veqabs2 i a b d))
  /\ holds (fun u v => Rabs (u - v) <= Rmax (Rabs u) (Rabs v) * x4 d)
       (x4 a) (x4 b) (x4 (veqrel2 i a b d))
  /\ holds (fun u v => Rabs (u - v) <= Rmax (Rabs u) (Rabs v) * y4 d)
       (y4 a) (y4 b) (y4 (veqrel2 i a b d)).
Proof.
  intros i a b d holds both. unfold both, holds. clear both holds.
  parts; intros H.
  all: destruct i; open_regs; compute_lanes; cbn [x4 y4] in H;
    try rewrite <- greater_max in H; unfold eq_r, lt_r, le_r, gt_r, ge_r;
    match goal with |- context [if ?c then true else false] => destruct c end;
    cbn [truth]; first [ reflexivity | contradiction ].
Qed.

Print Assumptions c93_two_compare.

(** The functions on a register that holds two two-dimensional vectors. *)
Theorem c93_packed : forall i a b,
  let both f v := lo2 v = f (lo2 a) (lo2 b) /\ hi2 v = f (hi2 a) (hi2 b) in
  both (fun l m => all 2 (ip l m)) (pdot2 i a b)
  /\ both (fun l m => all 2 (norm l)) (plength2 i a)
  /\ both (fun l m => all 2 (cosine l m)) (pangle2 i a b)
  /\ both (fun l m => all 2 (plane_cross l m)) (pcross2 i a b)
  /\ both proj (pproject2 i a b)
  /\ both rej (preject2 i a b)
  /\ both (fun l m => left_turn l) (pperp2 i a)
  /\ both (fun l m => right_turn l) (pperpr2 i a)
  /\ x4 (psdot2 i a b) = ip (lo2 a) (lo2 b) /\ z4 (psdot2 i a b) = ip (hi2 a) (hi2 b)
  /\ x4 (pslength2 i a) = norm (lo2 a) /\ z4 (pslength2 i a) = norm (hi2 a)
  /\ x4 (psangle2 i a b) = cosine (lo2 a) (lo2 b) /\ z4 (psangle2 i a b) = cosine (hi2 a) (hi2 b)
  /\ x4 (pscross2 i a b) = plane_cross (lo2 a) (lo2 b)
  /\ z4 (pscross2 i a b) = plane_cross (hi2 a) (hi2 b)
  /\ (norm (lo2 a) <> 0 -> norm (hi2 a) <> 0 ->
        exists n, pnormalize2 i a = Some n /\ both (fun l m => unit l) n)
  /\ (norm (lo2 a) = 0 \/ norm (hi2 a) = 0 -> pnormalize2 i a = None).
Proof.
  intros i a b both. unfold both. clear both.
  assert (Lx : x4 (plength2 i a) = norm (lo2 a)) by (destruct i; check).
  assert (Ly : y4 (plength2 i a) = norm (lo2 a)) by (destruct i; check).
  assert (Lz : z4 (plength2 i a) = norm (hi2 a)) by (destruct i; check).
  assert (Lw : w4 (plength2 i a) = norm (hi2 a)) by (destruct i; check).
  parts.
  1-24: destruct i; check.
  - intros H1 H2. unfold pnormalize2. cbv zeta. rewrite Lx, Lz.
    destruct (Req_EM_T (norm (lo2 a)) 0); [ contradiction | ].
    destruct (Req_EM_T (norm (hi2 a)) 0); [ contradiction | ].
    eexists. split; [ reflexivity | ].
    unfold lo2 at 1, hi2 at 1, on4, lanes. cbn [x4 y4 z4 w4]. rewrite Lx, Ly, Lz, Lw.
    split; reflexivity.
  - intros H. unfold pnormalize2. cbv zeta. rewrite Lx, Lz.
    destruct (Req_EM_T (norm (lo2 a)) 0); [ reflexivity | ].
    destruct (Req_EM_T (norm (hi2 a)) 0); [ reflexivity | ].
    destruct H; contradiction.
Qed.

Print Assumptions c93_packed.

(** The functions on a register that holds one three-dimensional vector. *)
Theorem c93_three : forall i a b c t,
  xyz (vdot3 i a b) = all 3 (ip (xyz a) (xyz b))
  /\ xyz (vlength3 i a) = all 3 (norm (xyz a))
  /\ xyz (vdistance3 i a b) = all 3 (dist (xyz a) (xyz b))
  /\ xyz (vdistsq3 i a b) = all 3 (ip (each Rminus (xyz a) (xyz b)) (each Rminus (xyz a) (xyz b)))
  /\ xyz (vangle3 i a b) = all 3 (cosine (xyz a) (xyz b))
  /\ xyz (vcross3 i a b) = space_cross (xyz a) (xyz b)
  /\ xyz (vlerp3 a b t) = between t (xyz a) (xyz b)
  /\ xyz (vproject3 i a b) = proj (xyz a) (xyz b)
  /\ xyz (vreject3 i a b) = rej (xyz a) (xyz b)
  /\ xyz (vperp3 i a b c) = space_cross (each Rminus (xyz b) (xyz a)) (each Rminus (xyz c) (xyz a))
  /\ xyz (vperpr3 i a b c) = space_cross (each Rminus (xyz c) (xyz a)) (each Rminus (xyz b) (xyz a))
  /\ (norm (xyz a) <> 0 -> exists n, vnormalize3 i a = Some n /\ xyz n = unit (xyz a))
  /\ (norm (xyz a) = 0 -> vnormalize3 i a = None).
Proof.
  intros i a b c t.
  assert (L : xyz (vlength3 i a) = all 3 (norm (xyz a))) by (destruct i; check).
  parts; try exact L.
  1-10: destruct i; check.
  all: injection L as Lx Ly Lz.
  - intros H. unfold vnormalize3. cbv zeta. rewrite Lx.
    destruct (Req_EM_T (norm (xyz a)) 0); [ contradiction | ].
    eexists. split; [ reflexivity | ].
    unfold xyz at 1, lanes. cbn [x4 y4 z4 w4]. rewrite Lx, Ly, Lz. reflexivity.
  - intros H. unfold vnormalize3. cbv zeta. rewrite Lx.
    destruct (Req_EM_T (norm (xyz a)) 0); [ reflexivity | contradiction ].
Qed.

Print Assumptions c93_three.

(** The normals of a triangle: the vector of length one in the direction of the
    cross product of two sides, in either order; none if the corners are in
    line. *)
Theorem c93_normal : forall i a b c,
  let side := space_cross (each Rminus (xyz b) (xyz a)) (each Rminus (xyz c) (xyz a)) in
  let other := space_cross (each Rminus (xyz c) (xyz a)) (each Rminus (xyz b) (xyz a)) in
  (norm side <> 0 -> exists n, vnormal3 i a b c = Some n /\ xyz n = unit side)
  /\ (norm side = 0 -> vnormal3 i a b c = None)
  /\ (norm other <> 0 -> exists n, vnormalr3 i a b c = Some n /\ xyz n = unit other)
  /\ (norm other = 0 -> vnormalr3 i a b c = None).
Proof.
  intros i a b c side other. unfold vnormal3, vnormalr3.
  destruct (c93_three i a b c 0) as (_ & _ & _ & _ & _ & _ & _ & _ & _ & E & F & _).
  destruct (c93_three i (vperp3 i a b c) a a 0) as (_ & _ & _ & _ & _ & _ & _ & _ & _ & _ & _ & A & B).
  destruct (c93_three i (vperpr3 i a b c) a a 0) as (_ & _ & _ & _ & _ & _ & _ & _ & _ & _ & _ & C & D).
  rewrite E in A, B. rewrite F in C, D. repeat split; assumption.
Qed.

Print Assumptions c93_normal.

(** They agree with the functions on three-dimensional vectors. *)
Theorem c93_three_agree : forall i a b,
  get3 (vcross3 i (load3 a) (load3 b)) = cross3 a b
  /\ get1 (vdot3 i (load3 a) (load3 b)) = dot3 a b
  /\ get1 (vlength3 i (load3 a)) = length3 a
  /\ get1 (vangle3 i (load3 a) (load3 b)) = angle3 a b
  /\ get3 (vproject3 i (load3 a) (load3 b)) = project3 a b
  /\ get3 (vreject3 i (load3 a) (load3 b)) = reject3 a b
  /\ option_map get3 (vnormalize3 i (load3 a)) = normalize3 a.
Proof.
  intros i a b. destruct a as [p q r], b as [s t u].
  assert (L : xyz (vlength3 i (load3 (V3 p q r))) = all 3 (length3 (V3 p q r))).
  { destruct i; unfold length3, dot3; compute_lanes; same. }
  parts.
  1-6: destruct i; unfold cross3, angle3, project3, reject3, project3, sub3, mul_scalar3, length3, dot3;
    compute_lanes; same.
  unfold vnormalize3, normalize3. cbv zeta. injection L as L0 L1 L2. rewrite L0.
  destruct (Req_EM_T (length3 (V3 p q r)) 0); [ reflexivity | ].
  cbn [option_map]. unfold get3, lanes. cbn [x4 y4 z4]. rewrite L0, L1, L2. reflexivity.
Qed.

Print Assumptions c93_three_agree.

(** The functions on a register that holds one four-dimensional vector; the
    cross product is that of the first three coordinates. *)
Theorem c93_four : forall i a b,
  xyzw (vdot4 i a b) = all 4 (ip (xyzw a) (xyzw b))
  /\ xyzw (vlength4 i a) = all 4 (norm (xyzw a))
  /\ xyzw (vdistance4 i a b) = all 4 (dist (xyzw a) (xyzw b))
  /\ xyzw (vdistsq4 i a b)
     = all 4 (ip (each Rminus (xyzw a) (xyzw b)) (each Rminus (xyzw a) (xyzw b)))
  /\ xyzw (vangle4 i a b) = all 4 (cosine (xyzw a) (xyzw b))
  /\ xyzw (vcross4 i a b) = space_cross (xyz a) (xyz b) ++ [0]
  /\ xyzw (vproject4 i a b) = proj (xyzw a) (xyzw b)
  /\ xyzw (vreject4 i a b) = rej (xyzw a) (xyzw b)
  /\ (norm (xyzw a) <> 0 -> exists n, vnormalize4 i a = Some n /\ xyzw n = unit (xyzw a))
  /\ (norm (xyzw a) = 0 -> vnormalize4 i a = None).
Proof.
  intros i a b.
  assert (L : xyzw (vlength4 i a) = all 4 (norm (xyzw a))) by (destruct i; check).
  parts; try exact L.
  5: { destruct i; open_regs; compute_lanes; cbn [app]; same. }
  1-6: destruct i; check.
  all: injection L as Lx Ly Lz Lw.
  - intros H. unfold vnormalize4. cbv zeta. rewrite Lx.
    destruct (Req_EM_T (norm (xyzw a)) 0); [ contradiction | ].
    eexists. split; [ reflexivity | ].
    unfold xyzw at 1, lanes. cbn [x4 y4 z4 w4]. rewrite Lx, Ly, Lz, Lw. reflexivity.
  - intros H. unfold vnormalize4. cbv zeta. rewrite Lx.
    destruct (Req_EM_T (norm (xyzw a)) 0); [ reflexivity | contradiction ].
Qed.

Print Assumptions c93_four.

(** CCVectorize2Normalize, with SSE, SSE2 or SSE3 and a vector loaded by
    CCVectorizeVector2D: the unit vector, unless the vector is zero.  Missing:
    the other instruction sets and ways to load. *)
Theorem c93_normalize_partial : forall i a, i = Sse \/ i = Sse2 \/ i = Sse3 ->
  (norm (xy a) <> 0 -> exists n, vnormalize2 i (load2 a) = Some n /\ lo2 n = unit (xy a))
  /\ (norm (xy a) = 0 -> vnormalize2 i (load2 a) = None).
Proof.
  intros i a Hi.
  assert (Lx : x4 (vlength2 i (load2 a)) = norm (xy a)) by (destruct i; check).
  assert (Ly : y4 (vlength2 i (load2 a)) = norm (xy a)) by (destruct i; check).
  assert (Lz : z4 (vlength2 i (load2 a)) = norm (xy a)).
  { destruct Hi as [H | [H | H] ]; subst i; check. }
  unfold vnormalize2. cbv zeta. rewrite Lx, Lz. split; intros H.
  - destruct (Req_EM_T (norm (xy a)) 0); [ contradiction | ].
    eexists. split; [ reflexivity | ].
    assert (S : has_sse i = true) by (destruct Hi as [-> | [-> | ->] ]; reflexivity).
    unfold vdiv2, on2. rewrite S. unfold lo2, lanes. cbn [x4 y4]. rewrite Lx, Ly. reflexivity.
  - destruct (Req_EM_T (norm (xy a)) 0); [ reflexivity | contradiction ].
Qed.

Print Assumptions c93_normalize_partial.

(** Without SSE and with SSE4.1 it fails its assertion for every vector:
    lanes 2 and 3 of the length are zero. *)
Theorem c93_normalize_refuted : forall a,
  vnormalize2 Plain a = None /\ vnormalize2 Sse41 a = None.
Proof.
  intros a. split; unfold vnormalize2; cbv zeta.
  - destruct (Req_EM_T _ 0); [ reflexivity | ].
    destruct (Req_EM_T _ 0) as [E | E]; [ reflexivity | ].
    exfalso. apply E. open_regs. compute_lanes. reflexivity.
  - destruct (Req_EM_T _ 0); [ reflexivity | ].
    destruct (Req_EM_T _ 0) as [E | E]; [ reflexivity | ].
    exfalso. apply E. open_regs. compute_lanes. apply sqrt_0.
Qed.

Print Assumptions c93_normalize_refuted.

(** Concrete cases. *)
Example packed_case : forall i, pdot2 i (V4 1 2 3 4) (V4 5 6 7 8) = V4 17 17 53 53.
Proof. intros i. destruct i; compute_lanes; f_equal; ring. Qed.

Example norm_case : norm (xy (V2 3 4)) <> 0.
Proof.
  compute_lanes. intros H. apply sqrt_eq_0 in H; lra.
Qed.
