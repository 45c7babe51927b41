(** Model of CommonC/RangeTemplate.h and ExtremaTemplate.h over the integer types. Every value and every result is
    of one C integer type. *)
From Verif Require Import Base.
Local Open Scope Z_scope.

(** An integer type: signedness and bits. *)
Record ty := mkTy { signed : bool; bits : Z }.
Definition lowest (t : ty) : Z := if signed t then - 2 ^ (bits t - 1) else 0.
Definition highest (t : ty) : Z := if signed t then 2 ^ (bits t - 1) - 1 else 2 ^ bits t - 1.
Definition fits (t : ty) (z : Z) : bool := (lowest t <=? z) && (z <=? highest t).

(** The result of + or - in the type: unsigned types wrap; signed types narrower than int are computed in int and
    converted back, which wraps; the others overflow, which is undefined. NumericTemplate.h 90-98 *)
Definition result (t : ty) (z : Z) : option Z :=
  if fits t z then Some z
  else if signed t && (32 <=? bits t) then None
  else Some (lowest t + (z - lowest t) mod 2 ^ bits t).
Definition add (t : ty) (x y : Z) : option Z := result t (x + y).
Definition sub (t : ty) (x y : Z) : option Z := result t (x - y).

(** ExtremaTemplate.h 39, 43, 47 *)
Definition cc_min (x y : Z) : Z := if x <? y then x else y.
Definition cc_max (x y : Z) : Z := if x >? y then x else y.
Definition cc_clamp (v lo hi : Z) : Z := cc_min (cc_max v lo) hi.

(** Range.h 31-42 *)
Record range := mkRange { start : Z; len : Z }.

(** CCRangeContains, RangeTemplate.h 72-75. The second test is not evaluated when the first is false. *)
Definition contains (t : ty) (r i : range) : option bool :=
  if start r <=? start i
  then let? e1 := add t (start r) (len r) in let? e2 := add t (start i) (len i) in Some (e1 >=? e2)
  else Some false.

(** CCRangeIntersects, lines 77-80 *)
Definition intersects (t : ty) (r s : range) : option bool :=
  let? e := add t (start s) (len s) in
  if start r <=? e then let? e := add t (start r) (len r) in Some (e >=? start s) else Some false.

(** CCRangeGetIntersection, lines 82-87 *)
Definition intersection (t : ty) (r s : range) : option range :=
  let st := cc_max (start r) (start s) in
  let? e1 := add t (start r) (len r) in
  let? e2 := add t (start s) (len s) in
  let? l := sub t (cc_min e1 e2) st in
  Some (mkRange st l).
