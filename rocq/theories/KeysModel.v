(** Model of the hashers and comparators for dictionary keys, CommonC/TypeCallbacks.c 138-205. [None]: a failed
    assertion or undefined behaviour. Keys are passed by pointer; here by value. *)
From Verif Require Import Base Word BigIntModel BigIntFastModel.
Local Open Scope N_scope.

(** [(uint64_t)CCBigIntGetSign(...) << 63], lines 154, 166, 174, 186 *)
Definition sign_bit (s : bool) : N := if s then 2 ^ 63 else 0.

(** Lines 143-155: CCBigIntHasher; the enumerable visits the components from the first on (C04) *)
Definition big_hash (b : bigint) : N := N.lor (fold_left N.lxor (limbs b) 0) (sign_bit (sign b)).

(** Lines 161-166 and 181-186: the hash of a tagged value. [abs64] is [(Value ^ Mask) - Mask] *)
Definition tagged_hash (w : N) : option N :=
  let? v := get_tagged w in
  let? h := abs64 v in
  let? s := get_sign (Tagged w) in
  Some (N.lor h (sign_bit s)).

(** Lines 157-170: CCBigIntFastHasher *)
Definition fast_hash (f : fast) : option N := match f with Tagged w => tagged_hash w | Boxed b => Some (big_hash b) end.

(** Lines 172-175: CCBigIntLowHasher; CCBigIntGetComponent is BigInt.h 256-261 *)
Definition big_low_hash (b : bigint) : option N :=
  let? c := nth_error (limbs b) 0 in Some (N.lor c (sign_bit (sign b))).

(** Lines 177-190: CCBigIntFastLowHasher *)
Definition fast_low_hash (f : fast) : option N := match f with Tagged w => tagged_hash w | Boxed b => big_low_hash b end.

(** Lines 192-195: CCStringComparator is CCStringEqual; lines 197-200: CCBigIntComparator is CCBigIntCompare, lines 202-205:
    CCBigIntFastComparator is CCBigIntFastCompare on two fast integers. *)
Definition big_comparator : bigint -> bigint -> comparison := BigIntModel.compare.
Definition fast_comparator : fast -> fast -> option comparison := compare_fast.
