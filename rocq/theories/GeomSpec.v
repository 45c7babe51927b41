(** Geometry of three-dimensional space, independent of the formulas in the
    code. *)

From Coq Require Import Reals.
From Verif Require Import GeomModel.
Local Open Scope R_scope.

(** The vector with all coordinates zero. *)
Definition zero3 : v3 := V3 0 0 0.

(** The inner product of two vectors. *)
Definition inner (a b : v3) : R := x3 a * x3 b + y3 a * y3 b + z3 a * z3 b.

(** s times a plus t times b. *)
Definition comb (s : R) (a : v3) (t : R) (b : v3) : v3 :=
  V3 (s * x3 a + t * x3 b) (s * y3 a + t * y3 b) (s * z3 a + t * z3 b).

(** The volume spanned by three vectors, positive when they are
    right-handed. *)
Definition volume (a b c : v3) : R :=
  x3 a * (y3 b * z3 c - z3 b * y3 c)
  - y3 a * (x3 b * z3 c - z3 b * x3 c)
  + z3 a * (x3 b * y3 c - y3 b * x3 c).

(** The Euclidean length. *)
Definition len (a : v3) : R := sqrt (inner a a).

(** t is the angle between the non-zero vectors a and b. *)
Definition is_angle (a b : v3) (t : R) : Prop :=
  0 <= t <= PI /\ inner a b = len a * len b * cos t.

(** The part of v at right angles to the non-zero axis. *)
Definition across (axis v : v3) : v3 := comb 1 v (- (inner v axis / inner axis axis)) axis.

(** w is v turned by the angle t about the axis, anticlockwise seen from the
    axis' tip: the height along the axis stays, and the parts across the axis
    enclose the angle t. *)
Definition turned (axis : v3) (t : R) (v w : v3) : Prop :=
  inner w axis = inner v axis
  /\ inner (across axis v) (across axis w)
     = inner (across axis v) (across axis v) * cos t
  /\ volume (across axis v) (across axis w) axis
     = inner (across axis v) (across axis v) * len axis * sin t
  /\ inner w w = inner v v.

(** r is the number of [lo, hi] nearest to a. *)
Definition nearest (lo hi a r : R) : Prop :=
  lo <= r <= hi /\ forall q, lo <= q <= hi -> Rabs (a - r) <= Rabs (a - q).

(** All coordinates lie between -1 and 1. *)
Definition in_cube (v : v3) : Prop :=
  -1 <= x3 v <= 1 /\ -1 <= y3 v <= 1 /\ -1 <= z3 v <= 1.

(** The point lies in the box seen by a camera at the origin that looks along
    the negative z axis, between the depths near and far. *)
Definition in_box (left right bottom top near far : R) (v : v3) : Prop :=
  left <= x3 v <= right /\ bottom <= y3 v <= top /\ near <= - z3 v <= far.

(** The point lies in the pyramid seen by that camera through the window
    [left, right] by [bottom, top] at depth near, between the depths near and
    far: at depth d the window has grown by the factor d / near. *)
Definition in_frustum (left right bottom top near far : R) (v : v3) : Prop :=
  let k := - z3 v / near in
  left * k <= x3 v <= right * k /\ bottom * k <= y3 v <= top * k /\ near <= - z3 v <= far.

(** The entries of a matrix, by row and column from 0 to 3. *)
Definition coord (v : v4) (i : nat) : R :=
  match i with O => x4 v | 1%nat => y4 v | 2%nat => z4 v | _ => w4 v end.

Definition entry (m : m4) (i j : nat) : R :=
  coord (match j with O => cx m | 1%nat => cy m | 2%nat => cz m | _ => cw m end) i.

(** The sum over k from 0 to 3. *)
Definition sum4 (f : nat -> R) : R := f 0%nat + f 1%nat + f 2%nat + f 3%nat.
