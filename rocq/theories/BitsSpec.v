(** * What a user of the bit arrays relies on *)
From Verif Require Import Base.

(** Bit [i] of an array of [w]-bit words. *)
Definition bit (w : nat) (m : list N) (i : nat) : bool :=
  N.testbit (nth (i / w) m 0%N) (N.of_nat (i mod w)).

(** An array of [w]-bit words. *)
Definition array (w : nat) (m : list N) : Prop := Forall (fun x => x < 2 ^ N.of_nat w)%N m.

(** The widths of the integer types a bit array can be made of. *)
Definition width (w : nat) : Prop := w = 8 \/ w = 16 \/ w = 32 \/ w = 64.

(** [m'] is [m] with bit [index] changed to [v] and every other bit as it was. *)
Definition one_bit (w : nat) (m m' : list N) (index : nat) (v : bool) : Prop :=
  array w m' /\ length m' = length m /\
  forall i, i < w * length m -> bit w m' i = if i =? index then v else bit w m i.

(** [i] is one of the [count] positions from [index]. *)
Definition within (i index count : nat) : bool := (index <=? i) && (i <? index + count).

(** [a'] is [a] with exactly the bits from [index] to [index + count - 1] replaced. *)
Definition replaced (a a' : list N) (index count : nat) (new : nat -> bool) : Prop :=
  array 8 a' /\ length a' = length a /\
  forall i, i < 8 * length a -> bit 8 a' i = if within i index count then new i else bit 8 a i.

(** The range lies in the array, and (for an empty range) starts before its end. *)
Definition inside (m : list N) (index count : nat) : Prop :=
  index + count <= 8 * length m /\ index < 8 * length m.

(** The range ends at a byte boundary, or inside the byte it starts in. *)
Definition whole (index count : nat) : Prop :=
  (index + count) mod 8 = 0 \/ index mod 8 + count < 8.

(** The number of bits changed when the last byte is taken whole. *)
Definition touched (index count : nat) : nat :=
  if index mod 8 + count <? 8 then count else (index + count + 7) / 8 * 8 - index.

(** The positions of the range at which a predicate holds, in order. *)
Definition positions (index count : nat) (p : nat -> bool) : list nat := filter p (seq index count).

(** The ranges for which CCBitsAny can reach a shift of an int by more than its width: they
    start and end inside different bytes and the number of whole bytes between the two is
    not 7 modulo 8. *)
Definition any_undefined (index count : nat) : Prop :=
  index mod 8 <> 0 /\ 8 <= index mod 8 + count /\ (index + count) mod 8 <> 0 /\
  (index mod 8 + count) / 8 mod 8 <> 0.

(** The ranges for which CCBitsMask misplaces the last bits: they start at a byte, end
    inside one, and have a whole byte after the last whole group of 64 bits. *)
Definition mask_misplaced (index count : nat) : Prop :=
  index mod 8 = 0 /\ count mod 8 <> 0 /\ 8 <= count mod 64.

(** Of the 64 positions from [i], [p] holds at the last one only. *)
Definition lone (p : nat -> bool) (i : nat) : Prop :=
  p (i + 63) = true /\ forall j, j < 63 -> p (i + j) = false.

(** One of the 64-bit groups of the range, counted from the first byte boundary in it, has
    only its last bit. *)
Definition lone_group (p : nat -> bool) (index count : nat) : Prop :=
  exists k, let i := (index + 7) / 8 * 8 + 64 * k in i + 64 <= index + count /\ lone p i.
