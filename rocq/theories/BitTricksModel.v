(** Model of CommonC/BitTricks.h on uint64_t values (N below 2^64). *)
From Verif Require Import Base Word.
Local Open Scope N_scope.

(** BitTricks.h 130-133: ~x & (x + 1) *)
Definition lowest_unset (x : N) : N := N.land (wnot 64 x) (wadd 64 x 1).

(** BitTricks.h 136-139: x & -x *)
Definition lowest_set (x : N) : N := N.land x (wneg 64 x).

(** BitTricks.h 156-166 *)
Definition mask_for_value (x : N) : N :=
  let x := N.lor x (N.shiftr x 1) in
  let x := N.lor x (N.shiftr x 2) in
  let x := N.lor x (N.shiftr x 4) in
  let x := N.lor x (N.shiftr x 8) in
  let x := N.lor x (N.shiftr x 16) in
  N.lor x (N.shiftr x 32).

(** BitTricks.h 142-147 *)
Definition highest_set (x : N) : N :=
  let x := mask_for_value x in N.lxor x (N.shiftr x 1).

(** BitTricks.h 150-153: CCBitMaskForValue(x - 1) + 1 *)
Definition next_power_of_2 (x : N) : N := wadd 64 (mask_for_value (wsub 64 x 1)) 1.

(** BitTricks.h 169-173: x? ~-x : 0 *)
Definition mask_for_lower_power_of_2 (x : N) : N :=
  if x =? 0 then 0 else wnot 64 (wneg 64 x).

(** BitTricks.h 176-179: UINT64_MAX ^ CCBitMaskForValue(x) *)
Definition mask_for_unset_value (x : N) : N := N.lxor (2 ^ 64 - 1) (mask_for_value x).

(** BitTricks.h 182-201 *)
Definition count_set (x : N) : N :=
  let x := wsub 64 x (N.land (N.shiftr x 1) 0x5555555555555555) in
  let x := wadd 64 (N.land x 0x3333333333333333) (N.land (N.shiftr x 2) 0x3333333333333333) in
  let x := N.land (wadd 64 x (N.shiftr x 4)) 0x0f0f0f0f0f0f0f0f in
  N.shiftr (wmul 64 x 0x0101010101010101) 56.

(** BitTricks.h 203-212, the portable branch (line 210); the builtin branch is the
    compiler's count of trailing zeros and is not modelled. *)
Definition count_lowest_unset (x : N) : N :=
  if x =? 0 then 64 else count_set (mask_for_lower_power_of_2 (lowest_set x)).

(** BitTricks.h 215-218. [None]: shift by more than the width, undefined. *)
Definition bit_set (n : N) : option N :=
  if n =? 64 then Some (2 ^ 64 - 1)
  else if 64 <? n then None
  else Some (wsub 64 (wshl 64 1 n) 1).

(** BitTricks.h 221-224: x && !(x & ~-x) *)
Definition is_power_of_2 (x : N) : bool :=
  negb (x =? 0) && (N.land x (wnot 64 (wneg 64 x)) =? 0).

(** BitTricks.h 227-231 on the bit pattern of an IEEE-754 binary32:
    [x != 0.0f] is false exactly for the two zeros. *)
Definition float32_is_power_of_2 (bits : N) : bool :=
  negb ((bits =? 0) || (bits =? 0x80000000)) && (N.land bits 0x7fffff =? 0).

(** BitTricks.h 234-238 on the bit pattern of an IEEE-754 binary64. *)
Definition float64_is_power_of_2 (bits : N) : bool :=
  negb ((bits =? 0) || (bits =? 0x8000000000000000)) && (N.land bits 0xfffffffffffff =? 0).
