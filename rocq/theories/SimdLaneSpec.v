(** What the lane functions are documented to compute (CommonC/Simd64.h and
    Simd128.h): on bits, as numbers, and with the notions of BitTricksSpec
    (lowest and highest set bit, least mask, least power of two). *)
From Verif Require Import Base Word BitTricksSpec.
Local Open Scope N_scope.

(** The widths of lanes, and the contents of a lane. *)
Definition width (w : N) : Prop := w = 8 \/ w = 16 \/ w = 32 \/ w = 64.
Definition lane (w a : N) : Prop := a < 2 ^ w.

(** Every bit moves [n] places up (down), around the end. *)
Definition rotated_left (w a n r : N) : Prop :=
  lane w r /\ forall i, i < w -> N.testbit r ((i + n) mod w) = N.testbit a i.
Definition rotated_right (w a n r : N) : Prop :=
  lane w r /\ forall i, i < w -> N.testbit r i = N.testbit a ((i + n) mod w).

(** The number in a lane. *)
Definition number (w : N) (sg : bool) (a : N) : Z :=
  if sg && (2 ^ (w - 1) <=? a) then (Z.of_N a - 2 ^ Z.of_N w)%Z else Z.of_N a.

(** [z] taken modulo 2^w. *)
Definition modulo (w : N) (z : Z) (r : N) : Prop :=
  lane w r /\ exists q, (Z.of_N r = z + q * 2 ^ Z.of_N w)%Z.
