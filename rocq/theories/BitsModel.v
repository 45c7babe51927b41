(** * Model of the bit arrays in CommonC/BitsTemplate.h

    A bit array is modelled twice, as the code sees it.  The single-bit functions index
    an array of the base type: a list of [w]-bit words.  The range functions cast the
    array to bytes and to 64-bit words: a list of bytes, on a little-endian machine
    (CC_HARDWARE_ENDIAN_LITTLE; the big-endian branches are not modelled).  Reading or
    writing outside the array is [None].

    Simplifications: sizes and indices are unbounded [nat] (the code's size_t sums do not
    wrap for an array that fits in memory); the 64-bit accesses are allowed at any byte
    address, as on the hardware the library targets; the second array of a two-array
    function is a separate value. *)
From Verif Require Import Base Word.
From Verif Require BitTricksModel.

(** ** Single bits *)

(** The C expression [1 << n] on a 32-bit int.  Shifting into the sign bit gives the most
    negative int on every compiler the library supports (strictly it is undefined in C99);
    a shift of 32 or more is undefined: [None]. *)
Definition shift_one (n : nat) : option Z :=
  if n <? 31 then Some (2 ^ Z.of_nat n)%Z
  else if n =? 31 then Some (- 2 ^ 31)%Z
  else None.

(** Conversion of an int to the [w]-bit base type.  For the 8- and 16-bit types the code
    computes in int and truncates at the assignment, which gives the same bits. *)
Definition to_base (w : nat) (z : Z) : N := Z.to_N (z mod 2 ^ Z.of_nat w)%Z.

(** BitsTemplate.h 62-69 CCBitsGet. *)
Definition get (w : nat) (set : list N) (index : nat) : option bool :=
  let? x := nth_error set (index / w) in
  let? one := shift_one (index mod w) in
  Some (negb (N.land x (to_base w one) =? 0)%N).

(** BitsTemplate.h 71-78 CCBitsSet. *)
Definition set (w : nat) (set : list N) (index : nat) : option (list N) :=
  let? x := nth_error set (index / w) in
  let? one := shift_one (index mod w) in
  Some (upd set (index / w) (N.lor x (to_base w one))).

(** BitsTemplate.h 80-87 CCBitsClear. *)
Definition clear (w : nat) (set : list N) (index : nat) : option (list N) :=
  let? x := nth_error set (index / w) in
  let? one := shift_one (index mod w) in
  Some (upd set (index / w) (N.land x (to_base w (Z.lnot one)))).

(** BitsTemplate.h 89-96 CCBitsAssign. *)
Definition assign (w : nat) (set : list N) (index : nat) (value : bool) : option (list N) :=
  let? x := nth_error set (index / w) in
  let? one := shift_one (index mod w) in
  let shifted := if value then one else 0%Z in
  Some (upd set (index / w) (N.lor (N.land x (to_base w (Z.lnot one))) (to_base w shifted))).

(** ** Memory accesses of the range functions *)

(** Little-endian value of bytes, and the bytes of a value. *)
Fixpoint value (bs : list N) : N :=
  match bs with [] => 0%N | b :: t => (b + 256 * value t)%N end.
Fixpoint bytes (n : nat) (x : N) : list N :=
  match n with O => [] | S n => (x mod 256)%N :: bytes n (x / 256)%N end.

(** Byte access [((uint8_t* )Set)[i]]. *)
Definition read8 (m : list N) (i : nat) : option N := nth_error m i.
Definition write8 (m : list N) (i : nat) (x : N) : option (list N) :=
  if i <? length m then Some (upd m i x) else None.

(** 64-bit access at byte address [i]. *)
Definition read64 (m : list N) (i : nat) : option N :=
  if i + 8 <=? length m then Some (value (slice m i 8)) else None.
Definition write64 (m : list N) (i : nat) (x : N) : option (list N) :=
  if i + 8 <=? length m then Some (overwrite m i (bytes 8 x)) else None.

(** ** The split every range function makes (e.g. BitsTemplate.h 100-102, 132) *)

Definition offset8 (index : nat) : nat := (index + 7) / 8.
Definition adjusted (index count : nat) : nat :=
  if 8 - index mod 8 <=? count then index + count - offset8 index * 8 else 0.
Definition count64 (index count : nat) : nat := adjusted index count / 64.
Definition count8 (index count : nat) : nat :=
  adjusted index count / 8 - count64 index count * 8.

(** The mask of the first byte, e.g. lines 113 and 124.  Line 124 is only reached with
    [Count < 8], where the two expressions are the same.  It is stored in a uint8_t. *)
Definition mask (index count : nat) : N :=
  wrap 8 (N.land (N.shiftl 255 (N.of_nat (index mod 8)%nat))
                 (if (count <? 8)%nat then 2 ^ N.of_nat (index mod 8 + count)%nat - 1 else 255))%N.

(** [x & mask] of a uint8_t and an int mask below 2^n, e.g. line 232. *)
Definition low_bits (x : N) (n : nat) : N := N.land x (2 ^ N.of_nat n - 1)%N.

(** ** The functions that write: CCBitsSetRange, ClearRange, Not, Or, And, Xor, Copy

    The seven functions have one body up to the operators: 64-bit words first, then the
    partial first byte (or the partial only byte), whole bytes, and the last byte.  [a] is
    the array written and [b] the one read (for SetRange, ClearRange and Not, [b] is [a]
    itself and its bytes are read where [a]'s are). *)

(** e.g. BitsTemplate.h 105-108. *)
Fixpoint words (f : N -> N -> N) (n : nat) (at_ : nat) (a b : list N) : option (list N) :=
  match n with
  | O => Some a
  | S n => let? x := read64 a at_ in
           let? y := read64 b at_ in
           let? a := write64 a at_ (f x y) in
           words f n (at_ + 8) a b
  end.

(** e.g. BitsTemplate.h 135-138. *)
Fixpoint octets (f : N -> N -> N) (n : nat) (at_ : nat) (a b : list N) : option (list N) :=
  match n with
  | O => Some a
  | S n => let? x := read8 a at_ in
           let? y := read8 b at_ in
           let? a := write8 a at_ (f x y) in
           octets f n (at_ + 1) a b
  end.

Definition range_op (f64 : N -> N -> N) (first only : N -> N -> N -> N) (f8 last : N -> N -> N)
    (a b : list N) (index count : nat) : option (list N) :=
  let o := offset8 index in
  let n64 := count64 index count in
  let n8 := count8 index count in
  let? a := words f64 n64 o a b in
  let? a :=
    if negb (index mod 8 =? 0) then
      let? x := read8 a (o - 1) in
      let? y := read8 b (o - 1) in
      write8 a (o - 1) (first (mask index count) x y)
    else if count <? 8 then
      let? x := read8 a o in
      let? y := read8 b o in
      write8 a o (only (mask index count) x y)
    else Some a in
  let? a := octets f8 n8 (o + n64 * 8) a b in
  if negb (adjusted index count mod 8 =? 0) then
    octets last 1 (o + n64 * 8 + n8) a b
  else Some a.

(** BitsTemplate.h 98-145 CCBitsSetRange. *)
Definition set_range (a : list N) (index count : nat) : option (list N) :=
  let first m x (_ : N) := N.lor (N.land (2 ^ 8 - 1) m) (N.land x (wnot 8 m)) in
  range_op (fun _ _ => 2 ^ 64 - 1)%N first first (fun _ _ => 2 ^ 8 - 1)%N (fun _ _ => 2 ^ 8 - 1)%N
    a a index count.

(** BitsTemplate.h 147-190 CCBitsClearRange. *)
Definition clear_range (a : list N) (index count : nat) : option (list N) :=
  let first m x (_ : N) := N.land x (wnot 8 m) in
  range_op (fun _ _ => 0%N) first first (fun _ _ => 0%N) (fun _ _ => 0%N) a a index count.

(** BitsTemplate.h 419-466 CCBitsNot. *)
Definition not_range (a : list N) (index count : nat) : option (list N) :=
  let first m x (_ : N) := N.lor (N.land (wnot 8 x) m) (N.land x (wnot 8 m)) in
  range_op (fun x _ => wnot 64 x) first first (fun x _ => wnot 8 x) (fun x _ => wnot 8 x)
    a a index count.

(** BitsTemplate.h 468-509 CCBitsOr. *)
Definition or_range : list N -> list N -> nat -> nat -> option (list N) :=
  let first m x y := N.lor x (N.land y m) in
  range_op N.lor first first N.lor N.lor.

(** BitsTemplate.h 511-558 CCBitsAnd.  Line 541 writes with [|=] where line 531 has [&=]. *)
Definition and_range : list N -> list N -> nat -> nat -> option (list N) :=
  range_op N.land
    (fun m x y => N.land x (N.lor (N.land y m) (wnot 8 m)))
    (fun m x y => N.lor x (N.lor (N.land y m) (wnot 8 m)))
    N.land N.land.

(** BitsTemplate.h 560-601 CCBitsXor. *)
Definition xor_range : list N -> list N -> nat -> nat -> option (list N) :=
  let first m x y := N.lxor x (N.land y m) in
  range_op N.lxor first first N.lxor N.lxor.

(** BitsTemplate.h 603-646 CCBitsCopy. *)
Definition copy_range : list N -> list N -> nat -> nat -> option (list N) :=
  let first m x y := N.lor (N.land x (wnot 8 m)) (N.land y m) in
  range_op (fun _ y => y) first first (fun _ y => y) (fun _ y => y).

(** ** CCBitsCount *)

(** BitsTemplate.h 201-204. *)
Fixpoint count_words (n : nat) (at_ : nat) (m : list N) : option N :=
  match n with
  | O => Some 0%N
  | S n => let? x := read64 m at_ in
           let? c := count_words n (at_ + 8) m in
           Some (BitTricksModel.count_set x + c)%N
  end.

(** BitsTemplate.h 206-215: the bits of the first byte (the whole of a short range). *)
Definition first_bits (m : list N) (index count : nat) : option N :=
  if negb (index mod 8 =? 0) then
    let? x := read8 m (offset8 index - 1) in Some (N.land x (mask index count))
  else if count <? 8 then
    let? x := read8 m (offset8 index) in Some (N.land x (mask index count))
  else Some 0%N.

(** Lines 220-223 with [base] = 1, and 370-374 with [base] = 0: bytes gathered in a word. *)
Fixpoint gather (n : nat) (loop base : nat) (at_ : nat) (m : list N) (r : N) : option N :=
  match n with
  | O => Some r
  | S n => let? x := read8 m (at_ + loop) in
           gather n (S loop) base at_ m (N.lor r (wshl 64 x (N.of_nat ((loop + base) * 8))))
  end.

(** BitsTemplate.h 192-250 CCBitsCount. *)
Definition count_range (m : list N) (index count : nat) : option N :=
  let n64 := count64 index count in
  let n8 := count8 index count in
  let at_ := offset8 index + n64 * 8 in
  let rest := adjusted index count mod 8 in
  let? c := count_words n64 (offset8 index) m in
  let? r := first_bits m index count in
  let? r := gather n8 0 1 at_ m r in
  if negb (rest =? 0) then
    let? x := read8 m (at_ + n8) in
    if negb (index mod 8 =? 0) then
      if n8 =? 7 then
        Some (c + BitTricksModel.count_set r + BitTricksModel.count_set (low_bits x rest))%N
      else
        Some (c + BitTricksModel.count_set
                    (N.lor r (wshl 64 x (N.of_nat (56 + (8 - rest))))))%N
    else Some (c + BitTricksModel.count_set (N.lor r (low_bits x rest)))%N
  else Some (c + BitTricksModel.count_set r)%N.

(** ** CCBitsAny *)

(** BitsTemplate.h 259-262. *)
Fixpoint any_words (n : nat) (at_ : nat) (m : list N) : option bool :=
  match n with
  | O => Some false
  | S n => let? x := read64 m at_ in
           if negb (x =? 0)%N then Some true else any_words n (at_ + 8) m
  end.

(** BitsTemplate.h 277-280. *)
Fixpoint any_octets (n : nat) (at_ : nat) (m : list N) : option bool :=
  match n with
  | O => Some false
  | S n => let? x := read8 m at_ in
           if negb (x =? 0)%N then Some true else any_octets n (at_ + 1) m
  end.

(** BitsTemplate.h 252-304 CCBitsAny.  Line 293 shifts an int by at least 57: undefined. *)
Definition any_range (m : list N) (index count : nat) : option bool :=
  let n64 := count64 index count in
  let n8 := count8 index count in
  let at_ := offset8 index + n64 * 8 in
  let rest := adjusted index count mod 8 in
  let? found := any_words n64 (offset8 index) m in
  if found then Some true else
  let? r := first_bits m index count in
  if negb (r =? 0)%N then Some true else
  let? found := any_octets n8 at_ m in
  if found then Some true else
  if negb (rest =? 0) then
    let? x := read8 m (at_ + n8) in
    if negb (index mod 8 =? 0) then
      if n8 =? 7 then Some (negb (low_bits x rest =? 0)%N) else None
    else Some (negb (low_bits x rest =? 0)%N)
  else Some false.

(** ** CCBitsMask: the indexes at which both arrays have a set bit *)

(** BitsTemplate.h 325-335 (and 347-357, 404-414): the loop over one word's set bits.
    A 64-bit shift by 64 is undefined.  At most 64 rounds ([fuel]). *)
Fixpoint set_bits (fuel : nat) (mask : N) (base : nat) : option (list nat) :=
  match fuel with
  | O => None
  | S fuel =>
    if (mask =? 0)%N then Some [] else
    let i := N.to_nat (BitTricksModel.count_lowest_unset mask) in
    if 64 <=? i + 1 then None else
    let? l := set_bits fuel (N.shiftr mask (N.of_nat (i + 1))) (base + (i + 1)) in
    Some (i + base :: l)
  end.

(** BitsTemplate.h 316-336. *)
Fixpoint mask_words (n : nat) (at_ : nat) (a b : list N) : option (list nat) :=
  match n with
  | O => Some []
  | S n => let? x := read64 a at_ in
           let? y := read64 b at_ in
           let? l := set_bits 65 (N.land x y) (at_ * 8) in
           let? t := mask_words n (at_ + 8) a b in
           Some (l ++ t)
  end.

(** BitsTemplate.h 366-399: the bytes after the words of one array, gathered in a word. *)
Definition remainder (m : list N) (index count : nat) (r : N) : option N :=
  let n8 := count8 index count in
  let at_ := offset8 index + count64 index count * 8 in
  let rest := adjusted index count mod 8 in
  let? r := gather n8 0 0 at_ m r in
  if negb (rest =? 0) then
    let? x := read8 m (at_ + n8) in
    if negb (index mod 8 =? 0) then
      if n8 =? 7 then Some (N.lor r (wshl 64 (low_bits x rest) 56))
      else Some (N.lor r (wshl 64 (low_bits x rest) (N.of_nat (n8 * 8))))
    else Some (N.lor r (low_bits x rest))
  else Some r.

(** BitsTemplate.h 306-417 CCBitsMask: what it stores to [Indexes], in order.  The count
    returned is the number of indexes stored; with a null [Indexes] it is the same. *)
Definition mask_range (a b : list N) (index count : nat) : option (list nat) :=
  let o := offset8 index in
  let? w := mask_words (count64 index count) o a b in
  let? x := first_bits a index count in
  let? y := first_bits b index count in
  let? h := if negb (index mod 8 =? 0) then set_bits 65 (N.land x y) ((o - 1) * 8) else Some [] in
  let? x := remainder a index count (if negb (index mod 8 =? 0) then 0%N else x) in
  let? y := remainder b index count (if negb (index mod 8 =? 0) then 0%N else y) in
  let? t := set_bits 65 (N.land x y) (o * 8 + count64 index count * 64) in
  Some (w ++ h ++ t).
