(** Proofs about the vectorized functions. *)

From Coq Require Import Reals Lra List.
From Verif Require Import GeomModel SimdModel SimdSpec.
Import ListNotations.
Local Open Scope R_scope.

Lemma lesser_min : forall a b, lesser a b = Rmin a b.
Proof.
  intros a b. unfold lesser, Rmin.
  destruct (Rlt_dec a b), (Rle_dec a b); lra.
Qed.

Lemma greater_max : forall a b, greater a b = Rmax a b.
Proof.
  intros a b. unfold greater, Rmax.
  destruct (Rgt_dec a b), (Rle_dec a b); lra.
Qed.

#[local] Opaque sqrt Rabs Rmin Rmax lesser greater.

Ltac open_regs := repeat match goal with
  | v : v4 |- _ => let p := fresh "p" in let q := fresh "q" in let r := fresh "r" in
                   let s := fresh "s" in destruct v as [p q r s]
  | v : v2 |- _ => let p := fresh "p" in let q := fresh "q" in destruct v as [p q]
  end.

(** Computes the lanes on both sides. *)
Ltac compute_lanes := cbv beta iota zeta delta
  [ has_sse has_sse3 has_sse41 lane lanes lanes1 set1 shuffle hadd hsub unpacklo dp or_zero flip
    ss1 ss2 with_zero pack2 load2 get2 get1 on2 vadd2 vsub2 vmul2 vdiv2 vmin2 vmax2 veq2 vlt2
    vle2 vgt2 vge2 on2s vdot2 vsdot2 vlength2 vslength2 vdistance2 vsdistance2 vdistsq2 vsdistsq2
    vangle2 vsangle2 vcross2 vscross2 vlerp2 vproject2 vreject2 vclamp2 vperp2 vperpr2 vneg2 vabs2
    veqrel2 veqabs2 add2 sub2 mul2 div2 dot2 length2 distance2 distsq2 angle2 cross2 mul_scalar2
    div_scalar2 lerp2 project2 reject2 on4 pdot2 psdot2 plength2 pslength2 pangle2 psangle2
    pcross2 pscross2 pproject2 preject2 pperp2 pperpr2 vdot3 vlength3 vdistance3 vdistsq3 vangle3
    vcross3 vlerp3 vproject3 vreject3 vperp3 vperpr3 load3 get3 vdot4 vlength4 vdistance4 vdistsq4
    vangle4 vcross4 vproject4 vreject4
    lo2 hi2 xyz xyzw xy each sum ip norm dist cosine times proj rej between plane_cross space_cross
    left_turn right_turn unit all repeat map smaller larger
    x2 y2 x3 y3 z3 x4 y4 z4 w4 N.testbit Pos.testbit N.pred Pos.pred_N Pos.pred_double Pos.pred ].

Ltac same := first
  [ match goal with |- ?u = ?v => constr_eq u v; reflexivity end
  | match goal with |- @eq R _ _ => ring end
  | progress f_equal; same ].

Ltac check := intros; open_regs; compute_lanes; same.

Lemma dot2_lo : forall i a b, lo2 (vdot2 i a b) = all 2 (ip (lo2 a) (lo2 b)).
Proof. destruct i; check. Qed.

Lemma cross2_lo : forall i a b, lo2 (vcross2 i a b) = all 2 (plane_cross (lo2 a) (lo2 b)).
Proof. destruct i; check. Qed.

Lemma angle2_lo : forall i a b, lo2 (vangle2 i a b) = all 2 (cosine (lo2 a) (lo2 b)).
Proof. destruct i; check. Qed.

Ltac parts := repeat match goal with |- _ /\ _ => split end.

