(** What C14 and C15 mean. *)
From Verif Require Import Base BigIntModel.
Local Open Scope Z_scope.

(** The number written by base 2^64 digits, least significant first. *)
Fixpoint magnitude (l : list N) : Z :=
  match l with [] => 0 | d :: l => Z.of_N d + 2 ^ 64 * magnitude l end.

Definition value (b : bigint) : Z := if sign b then - magnitude (limbs b) else magnitude (limbs b).

(** The number of base 2^64 digits of a number that is not negative (zero has one). *)
Definition size (x : Z) : Z := Z.log2 x / 64 + 1.

(** Components are 64-bit and as few as possible. *)
Definition normal (b : bigint) : Prop :=
  (forall d, In d (limbs b) -> (d < 2 ^ 64)%N) /\ Z.of_nat (length (limbs b)) = size (magnitude (limbs b)).

(** The one representation of each integer: zero is not negative. *)
Definition canonical (b : bigint) : Prop := normal b /\ (sign b = true -> value b <> 0).

Definition int64 (x : Z) : Prop := - 2 ^ 63 <= x < 2 ^ 63.

(** The numbers [x >= y >= 0] for which the library's subtraction of magnitudes is right: [y] or the borrow reaches
    the leading digit of [x], and the difference has as many digits as [x], or one. *)
Definition subtractable (x y : Z) : Prop :=
  (size y = size x \/ x mod 2 ^ (64 * (size x - 1)) < y) /\ (size (x - y) = size x \/ size (x - y) = 1).

Definition larger (x y : Z) : Z := Z.max (Z.abs x) (Z.abs y).
Definition smaller (x y : Z) : Z := Z.min (Z.abs x) (Z.abs y).

(** A number that CCBigIntSetBigInt can copy: at most 16 digits, or a multiple of 16. *)
Definition copies (x : Z) : Prop := size x <= 16 \/ size x mod 16 = 0.

(** When the library finds the difference of the magnitudes of [x] and [y]; the operation changes [x]. *)
Definition subtract_ok (x y : Z) : Prop :=
  subtractable (larger x y) (smaller x y) /\ (Z.abs x < Z.abs y -> copies (Z.abs y)).

(** The same when [y] is a 64-bit integer. *)
Definition subtract_int_ok (x v : Z) : Prop := subtractable (Z.abs x) (Z.abs v) \/ Z.abs x < Z.abs v.

(** Hexadecimal literals. *)
Definition digit (c : N) : option Z :=
  match c with
  | 48%N => Some 0 | 49%N => Some 1 | 50%N => Some 2 | 51%N => Some 3 | 52%N => Some 4 | 53%N => Some 5 | 54%N => Some 6
  | 55%N => Some 7 | 56%N => Some 8 | 57%N => Some 9
  | 97%N | 65%N => Some 10 | 98%N | 66%N => Some 11 | 99%N | 67%N => Some 12
  | 100%N | 68%N => Some 13 | 101%N | 69%N => Some 14 | 102%N | 70%N => Some 15
  | _ => None
  end.

(** Most significant digit first; [acc] is what has been read. *)
Fixpoint digits (acc : Z) (cs : list N) : option Z :=
  match cs with
  | [] => Some acc
  | c :: cs => match digit c with Some d => digits (16 * acc + d) cs | None => None end
  end.

(** "0x..." and "-0x..." with at least one digit. *)
Definition literal (neg : bool) (cs : list N) : list N := (if neg then [45%N] else []) ++ [48%N; 120%N] ++ cs.
Definition denotes (s : list N) (z : Z) : Prop :=
  exists neg cs n, s = literal neg cs /\ cs <> [] /\ digits 0 cs = Some n /\ z = (if neg then - n else n).
