(** Model of the integer functions of CommonC/SimdFallback.h on one lane of a
    vector: they act on all lanes alike.  A lane is its bits, a number below
    2^w, for signed and unsigned integers of w = 8, 16, 32 or 64 bits.

    The functions they are built from (CCSimdAdd, CCSimdAnd, CCSimdShiftRight
    ...) are taken as the ARM instructions of Simd64_arm.h and Simd128_arm.h
    do them: arithmetic modulo 2^w, bitwise operations and shifts. *)
From Verif Require Import Base Word.
Local Open Scope N_scope.

(** vshl with a negated count (Simd64_arm.h 368, Simd128_arm.h 539) and vshr_n
    (Simd64_arm.h 372-459): signed lanes are filled with their sign.  The
    count is below w. *)
Definition shr (w : N) (sg : bool) (a n : N) : N :=
  if sg && N.testbit a (w - 1) then N.lor (N.shiftr a n) (N.shiftl (N.ones n) (w - n))
  else N.shiftr a n.

(** CCSimdMaskCompareEqual and CCSimdMaskCompareLessThan: all bits or none. *)
Definition all_if (w : N) (b : bool) : N := if b then N.ones w else 0.
Definition signed_value (w a : N) : Z :=
  if N.testbit a (w - 1) then (Z.of_N a - 2 ^ Z.of_N w)%Z else Z.of_N a.
Definition lane_value (w : N) (sg : bool) (a : N) : Z := if sg then signed_value w a else Z.of_N a.
Definition mask_eq (w a b : N) : N := all_if w (a =? b).
Definition mask_less (w : N) (sg : bool) (a b : N) : N :=
  all_if w (lane_value w sg a <? lane_value w sg b)%Z.

(** SimdFallback.h 254-258: CCSimdAndNot *)
Definition and_not (w a b : N) : N := N.land (wnot w a) b.

(** SimdFallback.h 260-269: CCSimdRotateLeft *)
Definition rotate_left (w : N) (sg : bool) (a b : N) : N :=
  let m := w - 1 in
  N.lor (wshl w a (N.land b m)) (shr w sg a (N.land (wneg w b) m)).

(** SimdFallback.h 271-280: CCSimdRotateLeftN; -n is an int *)
Definition rotate_left_n (w : N) (sg : bool) (a n : N) : N :=
  let m := w - 1 in
  N.lor (wshl w a (N.land n m)) (shr w sg a (N.land (wneg 32 n) m)).

(** SimdFallback.h 282-291: CCSimdRotateRight *)
Definition rotate_right (w : N) (sg : bool) (a b : N) : N :=
  let m := w - 1 in
  N.lor (shr w sg a (N.land b m)) (wshl w a (N.land (wneg w b) m)).

(** SimdFallback.h 293-302: CCSimdRotateRightN *)
Definition rotate_right_n (w : N) (sg : bool) (a n : N) : N :=
  let m := w - 1 in
  N.lor (shr w sg a (N.land n m)) (wshl w a (N.land (wneg 32 n) m)).

(** SimdFallback.h 304-308: CCSimdLowestUnset *)
Definition lowest_unset (w a : N) : N := N.land (wnot w a) (wadd w a 1).

(** SimdFallback.h 310-314: CCSimdLowestSet *)
Definition lowest_set (w a : N) : N := N.land a (wneg w a).

(** SimdFallback.h 341-407: CCSimdMask; the shifts are unsigned.  The lanes of
    64 bits shift by 16 a second time (line 352), not by 32. *)
Definition smear (a n : N) : N := N.lor a (N.shiftr a n).
Definition mask_shifts (w : N) : list N :=
  if w =? 8 then [1; 2; 4]
  else if w =? 16 then [1; 2; 4; 8]
  else if w =? 32 then [1; 2; 4; 8; 16]
  else [1; 2; 4; 8; 16; 16].
Definition mask (w a : N) : N := fold_left smear (mask_shifts w) a.

(** SimdFallback.h 316-325: CCSimdHighestSet *)
Definition highest_set (w a : N) : N := let m := mask w a in N.lxor m (N.shiftr m 1).

(** SimdFallback.h 327-339: CCSimdNextPow2 *)
Definition next_pow2 (w a : N) : N := wadd w (mask w (wsub w a 1)) 1.

(** SimdFallback.h 409-419: CCSimdMaskLowerPow2 *)
Definition mask_lower_pow2 (w a : N) : N :=
  N.land (wnot w (mask_eq w a 0)) (wnot w (wneg w a)).

(** SimdFallback.h 421-428: CCSimdMaskHighestUnset *)
Definition mask_highest_unset (w a : N) : N := N.lxor (N.shiftr (N.ones 64) (64 - w)) (mask w a).

(** SimdFallback.h 441-460: CCSimdCountSet *)
Definition count_set (w : N) (sg : bool) (a : N) : N :=
  let m55 := N.shiftr 0x5555555555555555 (64 - w) in
  let m33 := N.shiftr 0x3333333333333333 (64 - w) in
  let m0f := N.shiftr 0x0f0f0f0f0f0f0f0f (64 - w) in
  let m01 := N.shiftr 0x0101010101010101 (64 - w) in
  let r := wsub w a (N.land (shr w sg a 1) m55) in
  let r := wadd w (N.land r m33) (N.land (shr w sg r 2) m33) in
  let r := N.land (wadd w r (shr w sg r 4)) m0f in
  shr w sg (wmul w r m01) (w - 8).

(** SimdFallback.h 462-465: CCSimdCompareEqual, the mask negated *)
Definition compare_eq (w a b : N) : N := wneg w (mask_eq w a b).

(** SimdFallback.h 430-439: CCSimdCountLowestUnset *)
Definition count_lowest_unset (w : N) (sg : bool) (a : N) : N :=
  let all_zero := wmul w (compare_eq w a 0) w in
  wadd w (count_set w sg (mask_lower_pow2 w (lowest_set w a))) all_zero.

(** SimdFallback.h 580-600: CCSimdMin and CCSimdMax: the lane of the one or the other by a mask *)
Definition min_lane (w : N) (sg : bool) (a b : N) : N :=
  let m := mask_less w sg a b in N.lor (N.land m a) (and_not w m b).
Definition max_lane (w : N) (sg : bool) (a b : N) : N :=
  let m := mask_less w sg b a in N.lor (N.land m a) (and_not w m b).

(** SimdFallback.h 932-936: CCSimdClamp *)
Definition clamp (w : N) (sg : bool) (a lo hi : N) : N := min_lane w sg (max_lane w sg a lo) hi.

(** SimdFallback.h 626-647: CCSimdDiv (CC_SIMD_COMPATIBILITY) and CCSimdMod: C's division of the
    lanes; [None] where it is undefined.  Lanes narrower than an int are
    divided as ints and converted back, so the least number by -1 is defined
    for them. *)
Definition to_lane (w : N) (z : Z) : N := Z.to_N (z mod 2 ^ Z.of_N w).
Definition div_lane (w : N) (sg : bool) (a b : N) : option N :=
  let x := lane_value w sg a in let y := lane_value w sg b in
  if (y =? 0)%Z then None
  else if (32 <=? w) && sg && (x =? - 2 ^ (Z.of_N w - 1))%Z && (y =? -1)%Z then None
  else Some (to_lane w (Z.quot x y)).
Definition mod_lane (w : N) (sg : bool) (a b : N) : option N :=
  match div_lane w sg a b with
  | None => None
  | Some q => Some (wsub w a (wmul w q b))
  end.

(** SimdFallback.h 602-624: CCSimdMadd, CCSimdNegMadd, CCSimdMsub, CCSimdNegMsub *)
Definition madd (w a b c : N) : N := wadd w (wmul w a b) c.
Definition neg_madd (w a b c : N) : N := wadd w (wneg w (wmul w a b)) c.
Definition msub (w a b c : N) : N := wsub w (wmul w a b) c.
Definition neg_msub (w a b c : N) : N := wsub w (wneg w (wmul w a b)) c.
