(** Model of CommonC/Random.c and the integer functions of CommonC/Random.h. *)
From Verif Require Import Base Word.
Local Open Scope N_scope.

(** CCRandom_xorshift, Random.c 30-37: the new state, which is also the result *)
Definition xorshift (s : N) : N :=
  let s := N.lxor s (wshl 32 s 13) in
  let s := N.lxor s (N.shiftr s 17) in
  N.lxor s (wshl 32 s 5).

(** CCRandomSeed_xorshift, Random.c 44-47 *)
Definition seed_xorshift (seed : N) : N := if seed =? 0 then 1 else seed.

(** CCRandomState_xorwow, Random.h *)
Record xorwow_state := mkXorwow { a : N; b : N; c : N; d : N; counter : N }.

(** CCRandom_xorwow, Random.c 51-67 *)
Definition xorwow (s : xorwow_state) : xorwow_state * N :=
  let t := d s in
  let t := N.lxor t (N.shiftr t 2) in
  let t := N.lxor t (wshl 32 t 1) in
  let t := N.lxor t (N.lxor (a s) (wshl 32 (a s) 4)) in
  let k := wadd 32 (counter s) 362437 in
  (mkXorwow t (a s) (b s) (c s) k, wadd 32 t k).

(** CCRandomSeed_xorwow, Random.c 74-86. C does not fix the order in which the initialisers are evaluated;
    here they run in the order written. *)
Definition seed_xorwow (seed : N) : xorwow_state :=
  let s0 := seed_xorshift seed in
  let s1 := xorshift s0 in let s2 := xorshift s1 in let s3 := xorshift s2 in
  let s4 := xorshift s3 in let s5 := xorshift s4 in
  mkXorwow s1 s2 s3 s4 s5.

(** A uint32_t converted to int32_t, Random.h 367 *)
Definition to_int32 (r : N) : Z := if r <? 2 ^ 31 then Z.of_N r else (Z.of_N r - 2 ^ 32)%Z.

(** int32_t arithmetic: overflow is undefined. *)
Definition int32 (z : Z) : option Z := if ((- 2 ^ 31 <=? z) && (z <? 2 ^ 31))%Z then Some z else None.

(** CCRandomRangei, Random.h 365-369, given what CCRandom() returned. C's % is Z.rem; it is undefined for 0. *)
Definition random_rangei (r : N) (min max : Z) : option Z :=
  let r := to_int32 r in
  let? w := int32 (max - min)%Z in
  let? w := int32 (w + 1)%Z in
  if (w =? 0)%Z then None
  else int32 (Z.rem r w + (if (r <? 0)%Z then max else min))%Z.

(** CCRandomi, Random.h 350-353, RAND_MAX being any value below 2^31 *)
Definition randomi (r randmax : N) : N := r mod (randmax + 1).
