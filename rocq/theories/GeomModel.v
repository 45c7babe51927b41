(** Model of the three-dimensional vectors and the 4 by 4 matrices
    (CommonC/Vector3D.h, CommonC/Matrix4.h).

    A float is a real number: rounding, overflow, infinities, NaN and the
    two zeros are left out, so the theorems say which function the formulas
    of the code compute, not how exactly.  sqrtf, sinf, cosf, tanf and fabsf
    are the real functions.  A failed CCAssertLog is None. *)

From Coq Require Import Reals.
Local Open Scope R_scope.

(** CCVector3D, CommonC/Types.h 53-64 (by its fields x, y, z). *)
Record v3 := V3 { x3 : R; y3 : R; z3 : R }.

(** CCVector4D, CommonC/Types.h 79-90 (by its fields x, y, z, w). *)
Record v4 := V4 { x4 : R; y4 : R; z4 : R; w4 : R }.

(** CCMatrix4, CommonC/Types.h 134-144: four columns. *)
Record m4 := M4 { cx : v4; cy : v4; cz : v4; cw : v4 }.

(** CCVector3Add, CommonC/Vector3D.h 147-150. *)
Definition add3 (a b : v3) : v3 := V3 (x3 a + x3 b) (y3 a + y3 b) (z3 a + z3 b).

(** CCVector3Sub, CommonC/Vector3D.h 152-155. *)
Definition sub3 (a b : v3) : v3 := V3 (x3 a - x3 b) (y3 a - y3 b) (z3 a - z3 b).

(** CCVector3Dot, CommonC/Vector3D.h 167-170. *)
Definition dot3 (a b : v3) : R := x3 a * x3 b + y3 a * y3 b + z3 a * z3 b.

(** CCVector3Length, CommonC/Vector3D.h 343-346. *)
Definition length3 (a : v3) : R := sqrt (dot3 a a).

(** CCVector3Distance, CommonC/Vector3D.h 172-175. *)
Definition distance3 (a b : v3) : R := length3 (sub3 a b).

(** CCVector3DistanceSquare, CommonC/Vector3D.h 177-181. *)
Definition distance_square3 (a b : v3) : R := let d := sub3 a b in dot3 d d.

(** CCVector3Angle, CommonC/Vector3D.h 183-186. *)
Definition angle3 (a b : v3) : R := dot3 a b / (length3 a * length3 b).

(** CCVector3Cross, CommonC/Vector3D.h 188-195. *)
Definition cross3 (a b : v3) : v3 :=
  V3 (y3 a * z3 b - z3 a * y3 b)
     (z3 a * x3 b - x3 a * z3 b)
     (x3 a * y3 b - y3 a * x3 b).

(** CCVector3MulScalar, CommonC/Vector3D.h 330-333. *)
Definition mul_scalar3 (a : v3) (b : R) : v3 := V3 (x3 a * b) (y3 a * b) (z3 a * b).

(** CCVector3DivScalar, CommonC/Vector3D.h 335-338. *)
Definition div_scalar3 (a : v3) (b : R) : v3 := V3 (x3 a / b) (y3 a / b) (z3 a / b).

(** CCVector3Lerp, CommonC/Vector3D.h 197-200. *)
Definition lerp3 (a b : v3) (t : R) : v3 := add3 a (mul_scalar3 (sub3 b a) t).

(** CCVector3Project, CommonC/Vector3D.h 202-205. *)
Definition project3 (a b : v3) : v3 := mul_scalar3 b (dot3 a b / dot3 b b).

(** CCVector3Reject, CommonC/Vector3D.h 207-210. *)
Definition reject3 (a b : v3) : v3 := sub3 a (project3 a b).

(** a < b ? a : b, as in CCVector3Min, CommonC/Vector3D.h 214. *)
Definition lesser (a b : R) : R := if Rlt_dec a b then a else b.

(** a > b ? a : b, as in CCVector3Max, CommonC/Vector3D.h 219. *)
Definition greater (a b : R) : R := if Rgt_dec a b then a else b.

(** CCVector3Min, CommonC/Vector3D.h 212-215. *)
Definition min3 (a b : v3) : v3 :=
  V3 (lesser (x3 a) (x3 b)) (lesser (y3 a) (y3 b)) (lesser (z3 a) (z3 b)).

(** CCVector3Max, CommonC/Vector3D.h 217-220. *)
Definition max3 (a b : v3) : v3 :=
  V3 (greater (x3 a) (x3 b)) (greater (y3 a) (y3 b)) (greater (z3 a) (z3 b)).

(** CCVector3Clamp, CommonC/Vector3D.h 222-225. *)
Definition clamp3 (a mn mx : v3) : v3 := min3 (max3 a mn) mx.

(** fabsf(e) < 1e-6f, as in CommonC/Vector3D.h 230 and 235.  The constant is
    taken as 10^-6, which the float constant rounds. *)
Definition near_zero (e : R) : bool := if Rlt_dec (Rabs e) (/ 1000000) then true else false.

(** CCVector3Parallel, CommonC/Vector3D.h 227-231. *)
Definition parallel3 (a b : v3) : bool :=
  let v := cross3 a b in
  (near_zero (x3 v) && near_zero (y3 v) && near_zero (z3 v))%bool.

(** CCVector3Ortho, CommonC/Vector3D.h 233-236. *)
Definition ortho3 (a b : v3) : bool := near_zero (dot3 a b).

(** CCVector3Normalize, CommonC/Vector3D.h 348-354: asserts that the length
    is not zero. *)
Definition normalize3 (a : v3) : option v3 :=
  let l := length3 a in
  if Req_EM_T l 0 then None else Some (div_scalar3 a l).

(** CCVector3Perp, CommonC/Vector3D.h 369-372. *)
Definition perp3 (a b c : v3) : v3 := cross3 (sub3 b a) (sub3 c a).

(** CCVector3PerpR, CommonC/Vector3D.h 374-377. *)
Definition perpr3 (a b c : v3) : v3 := cross3 (sub3 c a) (sub3 b a).

(** CCVector3Normal, CommonC/Vector3D.h 379-382. *)
Definition normal3 (a b c : v3) : option v3 := normalize3 (perp3 a b c).

(** CCVector3NormalR, CommonC/Vector3D.h 384-387. *)
Definition normalr3 (a b c : v3) : option v3 := normalize3 (perpr3 a b c).

(** CCMatrix4Make, CommonC/Matrix4.h 40-45: takes rows, stores columns. *)
Definition mmake (x1 y1 z1 w1 x2 y2 z2 w2 x3 y3 z3 w3 x4 y4 z4 w4 : R) : m4 :=
  M4 (V4 x1 x2 x3 x4) (V4 y1 y2 y3 y4) (V4 z1 z2 z3 z4) (V4 w1 w2 w3 w4).

(** CCMatrix4Identity, CommonC/Matrix4.h 51-54. *)
Definition midentity : m4 :=
  mmake 1 0 0 0  0 1 0 0  0 0 1 0  0 0 0 1.

(** CCMatrix4MakeTranslation, CommonC/Matrix4.h 96-102. *)
Definition mtranslation (a : v3) : m4 :=
  mmake 1 0 0 (x3 a)  0 1 0 (y3 a)  0 0 1 (z3 a)  0 0 0 1.

(** CCMatrix4MakeRotation, CommonC/Matrix4.h 104-116. *)
Definition mrotation (radians : R) (a : v3) : option m4 :=
  let c := cos radians in
  let cp := 1 - c in
  let s := sin radians in
  match normalize3 a with
  | None => None
  | Some v =>
      let vs := mul_scalar3 v s in
      Some (mmake
        (x3 v * x3 v * cp + c) (x3 v * y3 v * cp - z3 vs) (x3 v * z3 v * cp + y3 vs) 0
        (y3 v * x3 v * cp + z3 vs) (y3 v * y3 v * cp + c) (y3 v * z3 v * cp - x3 vs) 0
        (z3 v * x3 v * cp - y3 vs) (z3 v * y3 v * cp + x3 vs) (z3 v * z3 v * cp + c) 0
        0 0 0 1)
  end.

(** CCMatrix4MakeRotationX, CommonC/Matrix4.h 118-127. *)
Definition mrotation_x (radians : R) : m4 :=
  let c := cos radians in let s := sin radians in
  mmake 1 0 0 0  0 c (- s) 0  0 s c 0  0 0 0 1.

(** CCMatrix4MakeRotationY, CommonC/Matrix4.h 129-138. *)
Definition mrotation_y (radians : R) : m4 :=
  let c := cos radians in let s := sin radians in
  mmake c 0 s 0  0 1 0 0  (- s) 0 c 0  0 0 0 1.

(** CCMatrix4MakeRotationZ, CommonC/Matrix4.h 140-149. *)
Definition mrotation_z (radians : R) : m4 :=
  let c := cos radians in let s := sin radians in
  mmake c (- s) 0 0  s c 0 0  0 0 1 0  0 0 0 1.

(** CCMatrix4MakeScale, CommonC/Matrix4.h 151-157. *)
Definition mscale (a : v3) : m4 :=
  mmake (x3 a) 0 0 0  0 (y3 a) 0 0  0 0 (z3 a) 0  0 0 0 1.

(** CCMatrix4MakeOrtho, CommonC/Matrix4.h 159-165. *)
Definition mortho (left right bottom top zNear zFar : R) : m4 :=
  mmake (2 / (right - left)) 0 0 (- ((right + left) / (right - left)))
        0 (2 / (top - bottom)) 0 (- ((top + bottom) / (top - bottom)))
        0 0 (- 2 / (zFar - zNear)) (- ((zFar + zNear) / (zFar - zNear)))
        0 0 0 1.

(** CCMatrix4MakeFrustum, CommonC/Matrix4.h 167-173. *)
Definition mfrustum (left right bottom top zNear zFar : R) : m4 :=
  mmake ((2 * zNear) / (right - left)) 0 ((right + left) / (right - left)) 0
        0 ((2 * zNear) / (top - bottom)) ((top + bottom) / (top - bottom)) 0
        0 0 (- ((zFar + zNear) / (zFar - zNear))) (- ((2 * zFar * zNear) / (zFar - zNear)))
        0 0 (- 1) 0.

(** CCMatrix4MakePerspective, CommonC/Matrix4.h 175-183. *)
Definition mperspective (fovy aspect zNear zFar : R) : m4 :=
  let f := 1 / tan (fovy / 2) in
  mmake (f / aspect) 0 0 0
        0 f 0 0
        0 0 ((zFar + zNear) / (zNear - zFar)) ((2 * zFar * zNear) / (zNear - zFar))
        0 0 (- 1) 0.

(** CCMatrix4Mul, CommonC/Matrix4.h 185-191: v[0] to v[3] of a column are its
    fields x, y, z, w. *)
Definition mmul (a b : m4) : m4 :=
  mmake
    (x4 (cx a) * x4 (cx b) + x4 (cy a) * y4 (cx b) + x4 (cz a) * z4 (cx b) + x4 (cw a) * w4 (cx b))
    (x4 (cx a) * x4 (cy b) + x4 (cy a) * y4 (cy b) + x4 (cz a) * z4 (cy b) + x4 (cw a) * w4 (cy b))
    (x4 (cx a) * x4 (cz b) + x4 (cy a) * y4 (cz b) + x4 (cz a) * z4 (cz b) + x4 (cw a) * w4 (cz b))
    (x4 (cx a) * x4 (cw b) + x4 (cy a) * y4 (cw b) + x4 (cz a) * z4 (cw b) + x4 (cw a) * w4 (cw b))
    (y4 (cx a) * x4 (cx b) + y4 (cy a) * y4 (cx b) + y4 (cz a) * z4 (cx b) + y4 (cw a) * w4 (cx b))
    (y4 (cx a) * x4 (cy b) + y4 (cy a) * y4 (cy b) + y4 (cz a) * z4 (cy b) + y4 (cw a) * w4 (cy b))
    (y4 (cx a) * x4 (cz b) + y4 (cy a) * y4 (cz b) + y4 (cz a) * z4 (cz b) + y4 (cw a) * w4 (cz b))
    (y4 (cx a) * x4 (cw b) + y4 (cy a) * y4 (cw b) + y4 (cz a) * z4 (cw b) + y4 (cw a) * w4 (cw b))
    (z4 (cx a) * x4 (cx b) + z4 (cy a) * y4 (cx b) + z4 (cz a) * z4 (cx b) + z4 (cw a) * w4 (cx b))
    (z4 (cx a) * x4 (cy b) + z4 (cy a) * y4 (cy b) + z4 (cz a) * z4 (cy b) + z4 (cw a) * w4 (cy b))
    (z4 (cx a) * x4 (cz b) + z4 (cy a) * y4 (cz b) + z4 (cz a) * z4 (cz b) + z4 (cw a) * w4 (cz b))
    (z4 (cx a) * x4 (cw b) + z4 (cy a) * y4 (cw b) + z4 (cz a) * z4 (cw b) + z4 (cw a) * w4 (cw b))
    (w4 (cx a) * x4 (cx b) + w4 (cy a) * y4 (cx b) + w4 (cz a) * z4 (cx b) + w4 (cw a) * w4 (cx b))
    (w4 (cx a) * x4 (cy b) + w4 (cy a) * y4 (cy b) + w4 (cz a) * z4 (cy b) + w4 (cw a) * w4 (cy b))
    (w4 (cx a) * x4 (cz b) + w4 (cy a) * y4 (cz b) + w4 (cz a) * z4 (cz b) + w4 (cw a) * w4 (cz b))
    (w4 (cx a) * x4 (cw b) + w4 (cy a) * y4 (cw b) + w4 (cz a) * z4 (cw b) + w4 (cw a) * w4 (cw b)).

(** CCVector4MulScalar, CommonC/Vector4D.h 331-334. *)
Definition mul_scalar4 (a : v4) (b : R) : v4 :=
  V4 (x4 a * b) (y4 a * b) (z4 a * b) (w4 a * b).

(** CCMatrix4MulVector4D, CommonC/Matrix4.h 211-222. *)
Definition mapply (m : m4) (v : v4) : v4 :=
  let x := mul_scalar4 (cx m) (x4 v) in
  let y := mul_scalar4 (cy m) (y4 v) in
  let z := mul_scalar4 (cz m) (z4 v) in
  let w := mul_scalar4 (cw m) (w4 v) in
  V4 (x4 x + x4 y + x4 z + x4 w) (y4 x + y4 y + y4 z + y4 w)
     (z4 x + z4 y + z4 z + z4 w) (w4 x + w4 y + w4 z + w4 w).

(** CCMatrix4MulPositionVector3D, CommonC/Matrix4.h 193-197. *)
Definition mposition (m : m4) (v : v3) : v3 :=
  let r := mapply m (V4 (x3 v) (y3 v) (z3 v) 1) in V3 (x4 r) (y4 r) (z4 r).

(** CCMatrix4MulDirectionVector3D, CommonC/Matrix4.h 199-203. *)
Definition mdirection (m : m4) (v : v3) : v3 :=
  let r := mapply m (V4 (x3 v) (y3 v) (z3 v) 0) in V3 (x4 r) (y4 r) (z4 r).

(** CCMatrix4MulProjectVector3D, CommonC/Matrix4.h 205-209. *)
Definition mproject (m : m4) (v : v3) : v3 :=
  let r := mapply m (V4 (x3 v) (y3 v) (z3 v) 1) in
  mul_scalar3 (V3 (x4 r) (y4 r) (z4 r)) (1 / w4 r).

(** CCMatrix4Translate, CommonC/Matrix4.h 224-227. *)
Definition mtranslate (m : m4) (a : v3) : m4 := mmul m (mtranslation a).

(** CCMatrix4Rotate, CommonC/Matrix4.h 229-232. *)
Definition mrotate (m : m4) (radians : R) (a : v3) : option m4 :=
  match mrotation radians a with None => None | Some r => Some (mmul m r) end.

(** CCMatrix4RotateX, CommonC/Matrix4.h 234-237. *)
Definition mrotate_x (m : m4) (radians : R) : m4 := mmul m (mrotation_x radians).

(** CCMatrix4RotateY, CommonC/Matrix4.h 239-242. *)
Definition mrotate_y (m : m4) (radians : R) : m4 := mmul m (mrotation_y radians).

(** CCMatrix4RotateZ, CommonC/Matrix4.h 244-247. *)
Definition mrotate_z (m : m4) (radians : R) : m4 := mmul m (mrotation_z radians).

(** CCMatrix4Scale, CommonC/Matrix4.h 249-252. *)
Definition mscaled (m : m4) (a : v3) : m4 := mmul m (mscale a).

(** CCMatrix4Ortho, CommonC/Matrix4.h 254-257. *)
Definition mto_ortho (m : m4) (left right bottom top zNear zFar : R) : m4 :=
  mmul m (mortho left right bottom top zNear zFar).

(** CCMatrix4Frustum, CommonC/Matrix4.h 259-262. *)
Definition mto_frustum (m : m4) (left right bottom top zNear zFar : R) : m4 :=
  mmul m (mfrustum left right bottom top zNear zFar).

(** CCMatrix4Perspective, CommonC/Matrix4.h 264-267. *)
Definition mto_perspective (m : m4) (fovy aspect zNear zFar : R) : m4 :=
  mmul m (mperspective fovy aspect zNear zFar).
