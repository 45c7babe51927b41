(** Model of the vectorized comparison within a number of representable
    values (CommonC/Vector2D.h 759-769, Vector3D.h 541-551, Vector4D.h
    547-557) on the bits of the lanes.  The instructions treat subnormal
    numbers as numbers (the denormals-are-zero mode is off, its default). *)

From Coq Require Import Bool.
From Verif Require Import Base FloatModel.
Local Open Scope N_scope.

(** The order of two numbers that are not NaN: the two zeros are equal. *)
Definition key (a : N) : Z :=
  if signbit float32 a then (- Z.of_N (magnitude_bits float32 a))%Z
  else Z.of_N (magnitude_bits float32 a).
Definition float_less (a b : N) : bool :=
  negb (is_nan float32 a) && negb (is_nan float32 b) && (key a <? key b)%Z.

(** _mm_max_ps and _mm_min_ps: the second operand unless the first is greater
    or less. *)
Definition max_ps (a b : N) : N := if float_less b a then a else b.
Definition min_ps (a b : N) : N := if float_less a b then a else b.

(** _mm_sub_epi32. *)
Definition sub_epi32 (a b : N) : N := (a + 2 ^ 32 - b) mod 2 ^ 32.

(** One lane of Vector2D.h 765:
    cmpeq(max(sub(max(a, b), min(a, b)), MaxUlps), MaxUlps). *)
Definition lane_ulps (a b m : N) : bool :=
  max_ps (sub_epi32 (max_ps a b) (min_ps a b)) m =? m.

(** A lane of each of the three registers. *)
Record lane := mkLane { la : N; lb : N; lm : N }.

(** CCVectorize2CompareEqualUlps, CCVectorize3CompareEqualUlps and
    CCVectorize4CompareEqualUlps with SSE2, with as many lanes as the list
    has: when the signs differ in all lanes, ==, else the lanes above.  The
    result 1.0f or 0.0f of a lane is a bool. *)
Definition vector_ulps (l : list lane) : list bool :=
  if forallb (fun x => xorb (signbit float32 (la x)) (signbit float32 (lb x))) l
  then map (fun x => float_eq float32 (la x) (lb x)) l
  else map (fun x => lane_ulps (la x) (lb x) (lm x)) l.

(** CCVector2CompareEqualUlps, Vector2D.h 382-385, CCVector3CompareEqualUlps,
    Vector3D.h 278-281, CCVector4CompareEqualUlps, Vector4D.h 279-282, and
    each half of CCVectorize2PackedCompareEqualUlps, Vector2D.h 1113-1122. *)
Definition plain_ulps (l : list lane) : list bool :=
  map (fun x => equal_ulps (la x) (lb x) (lm x)) l.
