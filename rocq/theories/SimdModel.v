(** Model of the vectorized functions (CommonC/Vector2D.h, Vector3D.h,
    Vector4D.h) under each choice of the instruction set.

    A register of four floats is four real numbers; rounding, NaN and the two
    zeros are left out, as in GeomModel.  CCVectorize*CompareEqualUlps, which
    is about the bits, is in VecUlpsModel. *)

From Coq Require Import Reals NArith.
From Verif Require Import GeomModel.
Local Open Scope R_scope.

(** The instruction sets CommonC/Platform.h 379-396 tells apart for these
    headers: none, SSE, SSE2, SSE3 and SSE4.1, each with all before it. *)
Inductive isa := Plain | Sse | Sse2 | Sse3 | Sse41.

(** CC_HARDWARE_VECTOR_SUPPORT_SSE, _SSE3 and _SSE4_1. *)
Definition has_sse (i : isa) : bool := match i with Plain => false | _ => true end.
Definition has_sse3 (i : isa) : bool := match i with Sse3 | Sse41 => true | _ => false end.
Definition has_sse41 (i : isa) : bool := match i with Sse41 => true | _ => false end.

(** CCVector2D, CommonC/Types.h 33-41 (by its fields x, y). *)
Record v2 := V2 { x2 : R; y2 : R }.

(** ** The intrinsics the code uses *)

Definition lane (v : v4) (k : nat) : R :=
  match k with O => x4 v | S O => y4 v | S (S O) => z4 v | _ => w4 v end.

(** _mm_add_ps, _mm_sub_ps, _mm_mul_ps, _mm_div_ps, _mm_min_ps and _mm_max_ps
    act lane by lane; so do the comparisons under _mm_and_ps with 1.0f. *)
Definition lanes (f : R -> R -> R) (a b : v4) : v4 :=
  V4 (f (x4 a) (x4 b)) (f (y4 a) (y4 b)) (f (z4 a) (z4 b)) (f (w4 a) (w4 b)).
Definition lanes1 (f : R -> R) (a : v4) : v4 := V4 (f (x4 a)) (f (y4 a)) (f (z4 a)) (f (w4 a)).

(** _mm_set1_ps. *)
Definition set1 (b : R) : v4 := V4 b b b b.

(** _mm_shuffle_ps(a, b, _MM_SHUFFLE(p3, p2, p1, p0)). *)
Definition shuffle (a b : v4) (p3 p2 p1 p0 : nat) : v4 :=
  V4 (lane a p0) (lane a p1) (lane b p2) (lane b p3).

(** _mm_hadd_ps, _mm_hsub_ps and _mm_unpacklo_ps. *)
Definition hadd (a b : v4) : v4 := V4 (x4 a + y4 a) (z4 a + w4 a) (x4 b + y4 b) (z4 b + w4 b).
Definition hsub (a b : v4) : v4 := V4 (x4 a - y4 a) (z4 a - w4 a) (x4 b - y4 b) (z4 b - w4 b).
Definition unpacklo (a b : v4) : v4 := V4 (x4 a) (x4 b) (y4 a) (y4 b).

(** _mm_dp_ps: bits 4 to 7 of the mask choose the products that are summed,
    bits 0 to 3 the lanes that receive the sum; the others are zero. *)
Definition dp (a b : v4) (mask : N) : v4 :=
  let pick k r := if N.testbit mask k then r else 0 in
  let s := pick 4%N (x4 a * x4 b) + pick 5%N (y4 a * y4 b)
           + pick 6%N (z4 a * z4 b) + pick 7%N (w4 a * w4 b) in
  V4 (pick 0%N s) (pick 1%N s) (pick 2%N s) (pick 3%N s).

(** _mm_or_ps where in each lane one of the two is +0.0f, all bits zero: the
    result is the other, as of an addition. *)
Definition or_zero (a b : v4) : v4 := lanes Rplus a b.

(** _mm_xor_ps with a mask of sign bits, from lane 3 to lane 0. *)
Definition flip (a : v4) (m3 m2 m1 m0 : bool) : v4 :=
  let f (m : bool) r := if m then - r else r in
  V4 (f m0 (x4 a)) (f m1 (y4 a)) (f m2 (z4 a)) (f m3 (w4 a)).

(** _mm_sqrt_ss, _mm_mul_ss and _mm_div_ss: lane 0 only, the rest of the
    first operand is kept. *)
Definition ss1 (f : R -> R) (a : v4) : v4 := V4 (f (x4 a)) (y4 a) (z4 a) (w4 a).
Definition ss2 (f : R -> R -> R) (a b : v4) : v4 := V4 (f (x4 a) (x4 b)) (y4 a) (z4 a) (w4 a).

(** The value 1 or 0 of a comparison. *)
Definition truth (b : bool) : R := if b then 1 else 0.
Definition eq_r (a b : R) : R := truth (if Req_EM_T a b then true else false).
Definition lt_r (a b : R) : R := truth (if Rlt_dec a b then true else false).
Definition le_r (a b : R) : R := truth (if Rle_dec a b then true else false).
Definition gt_r (a b : R) : R := truth (if Rgt_dec a b then true else false).
Definition ge_r (a b : R) : R := truth (if Rge_dec a b then true else false).

(** ** Two lanes: Vector2D.h *)

(** CCVectorizeVector2DWithZero, Vector2D.h 488-505, CCVectorizeVector2DPack,
    544-551, CCVectorizeVector2D, 512-515, CCVectorizeGetVector2D, 534-537,
    and CCVectorizeGetFloat, 522-532. *)
Definition with_zero (a : v2) : v4 := V4 (x2 a) (y2 a) 0 0.
Definition pack2 (a b : v2) : v4 := V4 (x2 a) (y2 a) (x2 b) (y2 b).
Definition load2 (a : v2) : v4 := pack2 a a.
Definition get2 (v : v4) : v2 := V2 (x4 v) (y4 v).
Definition get1 (v : v4) : R := x4 v.

(** A function that acts on each of the two lanes; without SSE it clears the
    upper two: CCVectorize2Add, Vector2D.h 584-591, Sub 593-600, Mul 602-609,
    Div 611-618, Min 736-743, Max 745-752 and the comparisons 783-826. *)
Definition on2 (f : R -> R -> R) (i : isa) (a b : v4) : v4 :=
  if has_sse i then lanes f a b else V4 (f (x4 a) (x4 b)) (f (y4 a) (y4 b)) 0 0.

Definition vadd2 := on2 Rplus.
Definition vsub2 := on2 Rminus.
Definition vmul2 := on2 Rmult.
Definition vdiv2 := on2 Rdiv.
Definition vmin2 := on2 lesser.
Definition vmax2 := on2 greater.
Definition veq2 := on2 eq_r.
Definition vlt2 := on2 lt_r.
Definition vle2 := on2 le_r.
Definition vgt2 := on2 gt_r.
Definition vge2 := on2 ge_r.

(** CCVectorize2AddScalar, SubScalar, MulScalar and DivScalar, Vector2D.h
    831-865. *)
Definition on2s (f : R -> R -> R) (i : isa) (a : v4) (b : R) : v4 :=
  if has_sse i then lanes f a (set1 b) else V4 (f (x4 a) b) (f (y4 a) b) 0 0.

(** CCVectorize2Dot, Vector2D.h 620-637. *)
Definition vdot2 (i : isa) (a b : v4) : v4 :=
  if has_sse41 i then dp a b 0x33
  else if has_sse3 i then
    let t := vmul2 i a b in
    let t := hadd t t in
    unpacklo t t
  else if has_sse i then
    let t := vmul2 i a b in
    let u := shuffle t t 2 3 0 1 in
    vadd2 i t u
  else
    let r0 := x4 a * x4 b + y4 a * y4 b in
    V4 r0 r0 0 0.

(** CCVectorize2ScalarDot, Vector2D.h 639-652. *)
Definition vsdot2 (i : isa) (a b : v4) : v4 :=
  if has_sse41 i then dp a b 0x31
  else if has_sse3 i then let t := vmul2 i a b in hadd t t
  else if has_sse i then vdot2 i a b
  else V4 (x4 a * x4 b + y4 a * y4 b) 0 0 0.

(** CCVectorize2Length, Vector2D.h 870-879. *)
Definition vlength2 (i : isa) (a : v4) : v4 :=
  let d := vdot2 i a a in
  if has_sse i then lanes1 sqrt d else let r0 := sqrt (x4 d) in V4 r0 r0 0 0.

(** CCVectorize2ScalarLength, Vector2D.h 881-889. *)
Definition vslength2 (i : isa) (a : v4) : v4 :=
  let d := vsdot2 i a a in
  if has_sse i then ss1 sqrt d else V4 (sqrt (x4 d)) 0 0 0.

(** CCVectorize2Distance, ScalarDistance, DistanceSquare and
    ScalarDistanceSquare, Vector2D.h 654-674. *)
Definition vdistance2 (i : isa) (a b : v4) : v4 := vlength2 i (vsub2 i a b).
Definition vsdistance2 (i : isa) (a b : v4) : v4 := vslength2 i (vsub2 i a b).
Definition vdistsq2 (i : isa) (a b : v4) : v4 := let d := vsub2 i a b in vdot2 i d d.
Definition vsdistsq2 (i : isa) (a b : v4) : v4 := let d := vsub2 i a b in vsdot2 i d d.

(** CCVectorize2Angle, Vector2D.h 676-679. *)
Definition vangle2 (i : isa) (a b : v4) : v4 :=
  vdiv2 i (vdot2 i a b) (vmul2 i (vlength2 i a) (vlength2 i b)).

(** CCVectorize2ScalarAngle, Vector2D.h 681-688. *)
Definition vsangle2 (i : isa) (a b : v4) : v4 :=
  if has_sse i then ss2 Rdiv (vsdot2 i a b) (ss2 Rmult (vslength2 i a) (vslength2 i b))
  else vdiv2 i (vsdot2 i a b) (vmul2 i (vslength2 i a) (vslength2 i b)).

(** CCVectorize2Cross, Vector2D.h 690-705. *)
Definition vcross2 (i : isa) (a b : v4) : v4 :=
  if has_sse3 i then
    let t := vmul2 i a (shuffle b b 2 3 0 1) in
    let t := hsub t t in
    unpacklo t t
  else if has_sse i then
    let t := vmul2 i a (shuffle b b 2 3 0 1) in
    let r := vsub2 i t (shuffle t t 3 3 1 1) in
    shuffle r r 2 2 0 0
  else
    let r0 := x4 a * y4 b - y4 a * x4 b in
    V4 r0 r0 0 0.

(** CCVectorize2ScalarCross, Vector2D.h 707-719. *)
Definition vscross2 (i : isa) (a b : v4) : v4 :=
  if has_sse3 i then let t := vmul2 i a (shuffle b b 2 3 0 1) in hsub t t
  else if has_sse i then
    let t := vmul2 i a (shuffle b b 2 3 0 1) in vsub2 i t (shuffle t t 3 3 1 1)
  else V4 (x4 a * y4 b - y4 a * x4 b) 0 0 0.

(** CCVectorize2Lerp, Project, Reject and Clamp, Vector2D.h 721-734 and
    754-757. *)
Definition vlerp2 (i : isa) (a b : v4) (t : R) : v4 :=
  vadd2 i a (on2s Rmult i (vsub2 i b a) t).
Definition vproject2 (i : isa) (a b : v4) : v4 :=
  vmul2 i b (vdiv2 i (vdot2 i a b) (vdot2 i b b)).
Definition vreject2 (i : isa) (a b : v4) : v4 := vsub2 i a (vproject2 i a b).
Definition vclamp2 (i : isa) (a mn mx : v4) : v4 := vmin2 i (vmax2 i a mn) mx.

(** CCVectorize2Perp and PerpR, Vector2D.h 891-915. *)
Definition vperp2 (i : isa) (a : v4) : v4 :=
  if has_sse i then
    let r := flip a true false true false in shuffle r r 2 3 0 1
  else V4 (- y4 a) (x4 a) 0 0.
Definition vperpr2 (i : isa) (a : v4) : v4 :=
  if has_sse i then
    let r := flip a false true false true in shuffle r r 2 3 0 1
  else V4 (y4 a) (- x4 a) 0 0.

(** CCVectorize2Normalize, Vector2D.h 917-923: asserts that lanes 0 and 2 of
    the length are not zero. *)
Definition vnormalize2 (i : isa) (a : v4) : option v4 :=
  let l := vlength2 i a in
  if Req_EM_T (x4 l) 0 then None
  else if Req_EM_T (z4 l) 0 then None
  else Some (vdiv2 i a l).

(** CCVectorize2Neg and Abs, Vector2D.h 925-945. *)
Definition vneg2 (i : isa) (a : v4) : v4 :=
  if has_sse i then flip a true true true true else V4 (- x4 a) (- y4 a) 0 0.
Definition vabs2 (i : isa) (a : v4) : v4 :=
  if has_sse i then lanes1 Rabs a else V4 (Rabs (x4 a)) (Rabs (y4 a)) 0 0.

(** CCVectorize2CompareEqualRelative and CompareEqualAbsolute, Vector2D.h
    771-781. *)
Definition veqrel2 (i : isa) (a b rel : v4) : v4 :=
  vle2 i (vabs2 i (vsub2 i a b)) (vmul2 i (vmax2 i (vabs2 i a) (vabs2 i b)) rel).
Definition veqabs2 (i : isa) (a b d : v4) : v4 := vle2 i (vabs2 i (vsub2 i a b)) d.

(** CCVector2Add, Vector2D.h 206-217, and CCVector2Sub, 219-230. *)
Definition add2 (i : isa) (a b : v2) : v2 :=
  if has_sse3 i then let v := V4 (x2 a) (x2 b) (y2 a) (y2 b) in get2 (hadd v v)
  else if has_sse i then get2 (vadd2 i (with_zero a) (with_zero b))
  else V2 (x2 a + x2 b) (y2 a + y2 b).
Definition sub2 (i : isa) (a b : v2) : v2 :=
  if has_sse3 i then let v := V4 (x2 a) (x2 b) (y2 a) (y2 b) in get2 (hsub v v)
  else if has_sse i then get2 (vsub2 i (with_zero a) (with_zero b))
  else V2 (x2 a - x2 b) (y2 a - y2 b).

(** CCVector2Mul, Vector2D.h 232-239, and CCVector2Div, 241-248. *)
Definition mul2 (i : isa) (a b : v2) : v2 :=
  if has_sse i then get2 (vmul2 i (with_zero a) (with_zero b))
  else V2 (x2 a * x2 b) (y2 a * y2 b).
Definition div2 (i : isa) (a b : v2) : v2 :=
  if has_sse i then get2 (vdiv2 i (with_zero a) (with_zero b))
  else V2 (x2 a / x2 b) (y2 a / y2 b).

(** CCVector2Dot, Vector2D.h 250-257, and CCVector2Length, 447-454. *)
Definition dot2 (i : isa) (a b : v2) : R :=
  if has_sse i then get1 (vsdot2 i (with_zero a) (with_zero b))
  else x2 a * x2 b + y2 a * y2 b.
Definition length2 (i : isa) (a : v2) : R :=
  if has_sse i then get1 (vslength2 i (with_zero a)) else sqrt (dot2 i a a).

(** CCVector2Distance, DistanceSquare, Angle and Cross, Vector2D.h 259-295. *)
Definition distance2 (i : isa) (a b : v2) : R :=
  if has_sse i then get1 (vsdistance2 i (with_zero a) (with_zero b))
  else length2 i (sub2 i a b).
Definition distsq2 (i : isa) (a b : v2) : R :=
  if has_sse i then get1 (vsdistsq2 i (with_zero a) (with_zero b))
  else let d := sub2 i a b in dot2 i d d.
Definition angle2 (i : isa) (a b : v2) : R :=
  if has_sse i then get1 (vsangle2 i (with_zero a) (with_zero b))
  else dot2 i a b / (length2 i a * length2 i b).
Definition cross2 (i : isa) (a b : v2) : R :=
  if has_sse i then get1 (vscross2 i (with_zero a) (with_zero b))
  else x2 a * y2 b - y2 a * x2 b.

(** CCVector2MulScalar and DivScalar, Vector2D.h 434-442. *)
Definition mul_scalar2 (a : v2) (b : R) : v2 := V2 (x2 a * b) (y2 a * b).
Definition div_scalar2 (a : v2) (b : R) : v2 := V2 (x2 a / b) (y2 a / b).

(** CCVector2Lerp, Project and Reject, Vector2D.h 297-315. *)
Definition lerp2 (i : isa) (a b : v2) (t : R) : v2 :=
  if has_sse i then
    let v0 := with_zero a in let v1 := with_zero b in
    get2 (vadd2 i v0 (on2s Rmult i (vsub2 i v1 v0) t))
  else add2 i a (mul_scalar2 (sub2 i b a) t).
Definition project2 (i : isa) (a b : v2) : v2 := mul_scalar2 b (dot2 i a b / dot2 i b b).
Definition reject2 (i : isa) (a b : v2) : v2 := sub2 i a (project2 i a b).

(** CCVector2Normalize, Vector2D.h 456-462. *)
Definition normalize2 (i : isa) (a : v2) : option v2 :=
  let l := length2 i a in
  if Req_EM_T l 0 then None else Some (div_scalar2 a l).

(** ** Two vectors of two lanes: the packed functions of Vector2D.h *)

(** CCVectorize2PackedAdd, Sub, Mul, Div, Vector2D.h 951-985, Min, Max,
    1090-1106, and the comparisons, 1136-1179: all four lanes with and without
    SSE.  CCVectorize2Packed*Scalar, 1184-1218, are these with set1. *)
Definition on4 (f : R -> R -> R) (a b : v4) : v4 := lanes f a b.

(** CCVectorize2PackedDot, Vector2D.h 987-1004. *)
Definition pdot2 (i : isa) (a b : v4) : v4 :=
  if has_sse41 i then or_zero (dp a b 0x33) (dp a b 0xcc)
  else if has_sse3 i then
    let t := on4 Rmult a b in
    let t := hadd t t in
    unpacklo t t
  else if has_sse i then
    let t := on4 Rmult a b in
    let u := shuffle t t 2 3 0 1 in
    on4 Rplus t u
  else
    let r0 := x4 a * x4 b + y4 a * y4 b in
    let r1 := z4 a * z4 b + w4 a * w4 b in
    V4 r0 r0 r1 r1.

(** CCVectorize2ScalarPackedDot, Vector2D.h 1006-1015. *)
Definition psdot2 (i : isa) (a b : v4) : v4 :=
  if has_sse41 i then or_zero (dp a b 0x31) (dp a b 0xc4)
  else if has_sse i then pdot2 i a b
  else V4 (x4 a * x4 b + y4 a * y4 b) 0 (z4 a * z4 b + w4 a * w4 b) 0.

(** CCVectorize2PackedLength, Vector2D.h 1223-1232, and ScalarPackedLength,
    1234-1242. *)
Definition plength2 (i : isa) (a : v4) : v4 :=
  let d := pdot2 i a a in
  if has_sse i then lanes1 sqrt d
  else let r0 := sqrt (x4 d) in let r1 := sqrt (z4 d) in V4 r0 r0 r1 r1.
Definition pslength2 (i : isa) (a : v4) : v4 :=
  let d := psdot2 i a a in
  if has_sse i then lanes1 sqrt d else V4 (sqrt (x4 d)) 0 (sqrt (z4 d)) 0.

(** CCVectorize2PackedAngle and ScalarPackedAngle, Vector2D.h 1039-1047. *)
Definition pangle2 (i : isa) (a b : v4) : v4 :=
  on4 Rdiv (pdot2 i a b) (on4 Rmult (plength2 i a) (plength2 i b)).
Definition psangle2 (i : isa) (a b : v4) : v4 :=
  on4 Rdiv (psdot2 i a b) (on4 Rmult (pslength2 i a) (pslength2 i b)).

(** CCVectorize2PackedCross, Vector2D.h 1049-1064, and ScalarPackedCross,
    1066-1073. *)
Definition pcross2 (i : isa) (a b : v4) : v4 :=
  if has_sse3 i then
    let t := on4 Rmult a (shuffle b b 2 3 0 1) in
    let t := hsub t t in
    unpacklo t t
  else if has_sse i then
    let t := on4 Rmult a (shuffle b b 2 3 0 1) in
    let r := on4 Rminus t (shuffle t t 3 3 1 1) in
    shuffle r r 2 2 0 0
  else
    let r0 := x4 a * y4 b - y4 a * x4 b in
    let r1 := z4 a * w4 b - w4 a * z4 b in
    V4 r0 r0 r1 r1.
Definition pscross2 (i : isa) (a b : v4) : v4 :=
  if has_sse i then pcross2 i a b
  else V4 (x4 a * y4 b - y4 a * x4 b) 0 (z4 a * w4 b - w4 a * z4 b) 0.

(** CCVectorize2PackedProject and Reject, Vector2D.h 1080-1088. *)
Definition pproject2 (i : isa) (a b : v4) : v4 :=
  on4 Rmult b (on4 Rdiv (pdot2 i a b) (pdot2 i b b)).
Definition preject2 (i : isa) (a b : v4) : v4 := on4 Rminus a (pproject2 i a b).

(** CCVectorize2PackedPerp and PerpR, Vector2D.h 1244-1268. *)
Definition pperp2 (i : isa) (a : v4) : v4 :=
  if has_sse i then
    let r := flip a true false true false in shuffle r r 2 3 0 1
  else V4 (- y4 a) (x4 a) (- w4 a) (z4 a).
Definition pperpr2 (i : isa) (a : v4) : v4 :=
  if has_sse i then
    let r := flip a false true false true in shuffle r r 2 3 0 1
  else V4 (y4 a) (- x4 a) (w4 a) (- z4 a).

(** CCVectorize2PackedNormalize, Vector2D.h 1270-1276. *)
Definition pnormalize2 (i : isa) (a : v4) : option v4 :=
  let l := plength2 i a in
  if Req_EM_T (x4 l) 0 then None
  else if Req_EM_T (z4 l) 0 then None
  else Some (on4 Rdiv a l).

(** ** Three lanes: Vector3D.h *)

(** CCVectorize3Dot, Vector3D.h 453-467. *)
Definition vdot3 (i : isa) (a b : v4) : v4 :=
  if has_sse41 i then dp a b 0x77
  else if has_sse i then
    let xyz := lanes Rmult a b in
    let zxy := shuffle xyz xyz 0 1 0 2 in
    let yzx := shuffle xyz xyz 0 0 2 1 in
    lanes Rplus yzx (lanes Rplus xyz zxy)
  else
    let r := x4 a * x4 b + y4 a * y4 b + z4 a * z4 b in V4 r r r r.

(** CCVectorize3Length, Vector3D.h 652-661. *)
Definition vlength3 (i : isa) (a : v4) : v4 :=
  let d := vdot3 i a a in
  if has_sse i then lanes1 sqrt d else let r := sqrt (x4 d) in V4 r r r r.

(** CCVectorize3Distance, DistanceSquare and Angle, Vector3D.h 469-483. *)
Definition vdistance3 (i : isa) (a b : v4) : v4 := vlength3 i (lanes Rminus a b).
Definition vdistsq3 (i : isa) (a b : v4) : v4 := let d := lanes Rminus a b in vdot3 i d d.
Definition vangle3 (i : isa) (a b : v4) : v4 :=
  lanes Rdiv (vdot3 i a b) (lanes Rmult (vlength3 i a) (vlength3 i b)).

(** CCVectorize3Cross, Vector3D.h 485-501. *)
Definition vcross3 (i : isa) (a b : v4) : v4 :=
  if has_sse i then
    let ayzx := shuffle a a 3 0 2 1 in
    let byzx := shuffle b b 3 0 2 1 in
    let r := lanes Rminus (lanes Rmult a byzx) (lanes Rmult ayzx b) in
    shuffle r r 3 0 2 1
  else V4 (y4 a * z4 b - z4 a * y4 b) (z4 a * x4 b - x4 a * z4 b) (x4 a * y4 b - y4 a * x4 b) 0.

(** CCVectorize3Lerp, Project and Reject, Vector3D.h 503-516. *)
Definition vlerp3 (a b : v4) (t : R) : v4 :=
  lanes Rplus a (lanes Rmult (lanes Rminus b a) (set1 t)).
Definition vproject3 (i : isa) (a b : v4) : v4 :=
  lanes Rmult b (lanes Rdiv (vdot3 i a b) (vdot3 i b b)).
Definition vreject3 (i : isa) (a b : v4) : v4 := lanes Rminus a (vproject3 i a b).

(** CCVectorize3Normalize, Vector3D.h 663-669. *)
Definition vnormalize3 (i : isa) (a : v4) : option v4 :=
  let l := vlength3 i a in
  if Req_EM_T (x4 l) 0 then None else Some (lanes Rdiv a l).

(** CCVectorize3Perp, PerpR, Normal and NormalR, Vector3D.h 696-714. *)
Definition vperp3 (i : isa) (a b c : v4) : v4 := vcross3 i (lanes Rminus b a) (lanes Rminus c a).
Definition vperpr3 (i : isa) (a b c : v4) : v4 := vcross3 i (lanes Rminus c a) (lanes Rminus b a).
Definition vnormal3 (i : isa) (a b c : v4) : option v4 := vnormalize3 i (vperp3 i a b c).
Definition vnormalr3 (i : isa) (a b c : v4) : option v4 := vnormalize3 i (vperpr3 i a b c).

(** CCVectorizeVector3D, Vector3D.h 394-397, and CCVectorizeGetVector3D,
    404-407. *)
Definition load3 (a : v3) : v4 := V4 (x3 a) (y3 a) (z3 a) 0.
Definition get3 (v : v4) : v3 := V3 (x4 v) (y4 v) (z4 v).

(** ** Four lanes: Vector4D.h *)

(** CCVectorize4Dot, Vector4D.h 458-473. *)
Definition vdot4 (i : isa) (a b : v4) : v4 :=
  if has_sse41 i then dp a b 0xff
  else if has_sse i then
    let xyzw := lanes Rmult a b in
    let wxyz := shuffle xyzw xyzw 2 1 0 3 in
    let zwxy := shuffle xyzw xyzw 1 0 3 2 in
    let yzwx := shuffle xyzw xyzw 0 3 2 1 in
    lanes Rplus (lanes Rplus yzwx zwxy) (lanes Rplus xyzw wxyz)
  else
    let r := x4 a * x4 b + y4 a * y4 b + z4 a * z4 b + w4 a * w4 b in V4 r r r r.

(** CCVectorize4Length, Vector4D.h 658-667. *)
Definition vlength4 (i : isa) (a : v4) : v4 :=
  let d := vdot4 i a a in
  if has_sse i then lanes1 sqrt d else let r := sqrt (x4 d) in V4 r r r r.

(** CCVectorize4Distance, DistanceSquare and Angle, Vector4D.h 475-489. *)
Definition vdistance4 (i : isa) (a b : v4) : v4 := vlength4 i (lanes Rminus a b).
Definition vdistsq4 (i : isa) (a b : v4) : v4 := let d := lanes Rminus a b in vdot4 i d d.
Definition vangle4 (i : isa) (a b : v4) : v4 :=
  lanes Rdiv (vdot4 i a b) (lanes Rmult (vlength4 i a) (vlength4 i b)).

(** CCVectorize4Cross, Vector4D.h 491-507. *)
Definition vcross4 (i : isa) (a b : v4) : v4 :=
  if has_sse i then
    let ayzx := shuffle a a 3 0 2 1 in
    let byzx := shuffle b b 3 0 2 1 in
    let r := lanes Rminus (lanes Rmult a byzx) (lanes Rmult ayzx b) in
    shuffle r r 3 0 2 1
  else V4 (y4 a * z4 b - z4 a * y4 b) (z4 a * x4 b - x4 a * z4 b) (x4 a * y4 b - y4 a * x4 b) 0.

(** CCVectorize4Project and Reject, Vector4D.h 514-522. *)
Definition vproject4 (i : isa) (a b : v4) : v4 :=
  lanes Rmult b (lanes Rdiv (vdot4 i a b) (vdot4 i b b)).
Definition vreject4 (i : isa) (a b : v4) : v4 := lanes Rminus a (vproject4 i a b).

(** CCVectorize4Normalize, Vector4D.h 669-675. *)
Definition vnormalize4 (i : isa) (a : v4) : option v4 :=
  let l := vlength4 i a in
  if Req_EM_T (x4 l) 0 then None else Some (lanes Rdiv a l).
