(** What the vector functions compute, on vectors of any dimension given as
    lists of coordinates. *)

From Coq Require Import Reals List.
From Verif Require Import GeomModel SimdModel.
Import ListNotations.
Local Open Scope R_scope.

(** The vectors held by a register. *)
Definition lo2 (v : v4) : list R := [x4 v; y4 v].
Definition hi2 (v : v4) : list R := [z4 v; w4 v].
Definition xyz (v : v4) : list R := [x4 v; y4 v; z4 v].
Definition xyzw (v : v4) : list R := [x4 v; y4 v; z4 v; w4 v].
Definition xy (v : v2) : list R := [x2 v; y2 v].

(** Coordinate by coordinate. *)
Fixpoint each (f : R -> R -> R) (l m : list R) : list R :=
  match l, m with
  | a :: l, b :: m => f a b :: each f l m
  | _, _ => []
  end.

Fixpoint sum (l : list R) : R := match l with [] => 0 | a :: l => a + sum l end.

(** Inner product, length, distance and the cosine of the angle. *)
Definition ip (l m : list R) : R := sum (each Rmult l m).
Definition norm (l : list R) : R := sqrt (ip l l).
Definition dist (l m : list R) : R := norm (each Rminus l m).
Definition cosine (l m : list R) : R := ip l m / (norm l * norm m).

(** s times l, the projection of l onto m, and the rest. *)
Definition times (s : R) (l : list R) : list R := map (fun a => a * s) l.
Definition proj (l m : list R) : list R := times (ip l m / ip m m) m.
Definition rej (l m : list R) : list R := each Rminus l (proj l m).

(** The point the fraction t of the way from l to m. *)
Definition between (t : R) (l m : list R) : list R := each (fun a b => a + t * (b - a)) l m.

(** The z coordinate of the cross product of two plane vectors, and the cross
    product of two spatial ones. *)
Definition plane_cross (l m : list R) : R :=
  match l, m with [a; b], [c; d] => a * d - b * c | _, _ => 0 end.
Definition space_cross (l m : list R) : list R :=
  match l, m with
  | [a; b; c], [d; e; f] => [b * f - c * e; c * d - a * f; a * e - b * d]
  | _, _ => []
  end.

(** A plane vector turned by a right angle, anticlockwise and clockwise. *)
Definition left_turn (l : list R) : list R := match l with [a; b] => [- b; a] | _ => [] end.
Definition right_turn (l : list R) : list R := match l with [a; b] => [b; - a] | _ => [] end.

(** The vector of length one in the direction of l. *)
Definition unit (l : list R) : list R := map (fun a => a / norm l) l.

(** The same number in each of n lanes. *)
Definition all (n : nat) (r : R) : list R := repeat r n.

(** The smaller and the larger number. *)
Definition smaller (a b : R) : R := Rmin a b.
Definition larger (a b : R) : R := Rmax a b.
