(** Model of CommonC/BigInt.c.

    A big integer is a sign and its components, least significant first. The paged CCList that holds the
    components is a Coq list here: C04 proves CCList's calls correct on that abstraction, except for the call
    used by [set_big_int]. Allocation succeeds. [None]: a failed assertion or undefined behaviour. The operands
    of a call are distinct objects, except where a comment says otherwise. *)
From Verif Require Import Base Word.
Local Open Scope N_scope.

(** BigInt.h: CCBigIntInfo *)
Record bigint := mkBig { sign : bool; limbs : list N }.

(** Lines 37-54: CCBigIntCreate *)
Definition create : bigint := mkBig false [0].

(** Lines 62-76: CCBigIntSetBigInt copies the 16 element pages (line 44) of [Value] one by one with
    CCListAppendElements. Every page after the first is appended while the last page of [Integer] is full; then
    CCListAppendElements takes a whole page of elements from its argument (List.c 106-119), which is beyond the
    end of the source page unless that page is full. An empty list fails CCArrayGetElementAtIndex's assertion
    (also when [Integer] and [Value] are the same object, which line 69 has just emptied). *)
Definition copyable (n : nat) : bool := ((1 <=? n) && (n <=? 16))%nat || ((1 <=? n) && (n mod 16 =? 0))%nat.
Definition set_big_int (value : bigint) : option bigint :=
  if copyable (length (limbs value)) then Some (mkBig (sign value) (limbs value)) else None.

(** Lines 93-97, 356-357, 400-401, 458-459: [Mask = Value >> 63; (Value ^ Mask) - Mask] on int64_t; [None]: the
    subtraction overflows. *)
Definition mask64 (value : Z) : Z := if (value <? 0)%Z then (-1)%Z else 0%Z.
Definition abs64 (value : Z) : option N :=
  let r := (Z.lxor value (mask64 value) - mask64 value)%Z in
  if (r <? 2 ^ 63)%Z then Some (Z.to_N r) else None.

(** Lines 87-98: CCBigIntSetInt *)
Definition set_int (value : Z) : option bigint :=
  let? a := abs64 value in Some (mkBig (negb (mask64 value =? 0)%Z) [a]).

(** Lines 107-111: the bits of one character *)
Definition hex_bits (chr : N) : option N :=
  if (48 <=? chr) && (chr <=? 57) then Some (chr - 48)
  else if (97 <=? chr) && (chr <=? 102) then Some (chr - 97 + 10)
  else if (65 <=? chr) && (chr <=? 70) then Some (chr - 65 + 10)
  else None.

(** Lines 100-117: CCBigIntParseHex on the first [length] characters of [string]; what is left of [length] is the
    loop's [Length - Loop]. [None]: read past the end. *)
Fixpoint parse_hex (string : list N) (length : nat) (value : N) {struct length} : option N :=
  match length with
  | O => Some value
  | S length =>
      match string with
      | [] => None
      | chr :: string =>
          match hex_bits chr with
          | None => Some value
          | Some bits => parse_hex string length (N.lor value (wshl 64 bits (N.of_nat length * 4)))
          end
      end
  end.

(** CCListReplaceElementAtIndex and CCListRemoveElementAtIndex, with their assertion *)
Definition replace (l : list N) (i : nat) (x : N) : option (list N) := if (i <? length l)%nat then Some (upd l i x) else None.
Definition remove_one (l : list N) (i : nat) : option (list N) := if (i <? length l)%nat then Some (remove_at l i 1) else None.

(** Lines 174-177: the remaining [n] components; [string] starts at the current one. [Index] wraps after the last
    one and is not used again. *)
Fixpoint parse_rest (n : nat) (string : list N) (index : nat) (l : list N) : option (list N) :=
  match n with
  | O => Some l
  | S n =>
      let? value := parse_hex string 16 0 in
      let? l := replace l index value in
      parse_rest n (skipn 16 string) (index - 1) l
  end.

(** Lines 161-177: [n] components are left and no component so far was non-zero; also returns [NonZero] *)
Fixpoint parse_zero (n : nat) (string : list N) (index : nat) (l : list N) : option (list N * bool) :=
  match n with
  | O => Some (l, false)
  | S n =>
      let? value := parse_hex string 16 0 in
      if value =? 0 then
        let? l := remove_one l index in
        parse_zero n (skipn 16 string) (index - 1) l
      else
        let? l := replace l index value in
        let? l := parse_rest n (skipn 16 string) (index - 1) l in
        Some (l, true)
  end.

(** Lines 137-183 *)
Definition parse_digits (sgn : bool) (string : list N) : option bigint :=
  let len := length string in
  let count := Nat.div len 16 in
  let leftover := Nat.modulo len 16 in
  let l := repeat 0 count in
  let index := (count - 1)%nat in
  let? first := (if (leftover =? 0)%nat then Some 0 else parse_hex string leftover 0) in
  if first =? 0 then
    let? (l, nonzero) := parse_zero count (skipn leftover string) index l in
    if nonzero : bool then Some (mkBig sgn l) else Some (mkBig false (l ++ [0]))
  else
    let? l := parse_rest count (skipn leftover string) index (l ++ [first]) in
    Some (mkBig sgn l).

(** Lines 119-187: CCBigIntParse *)
Definition parse (string : list N) : option bigint :=
  match string with
  | [] => None
  | chr :: rest =>
      let sgn := chr =? 45 in
      let string := if sgn then rest else string in
      match string with
      | c0 :: c1 :: (_ :: _) as digits => if (c0 =? 48) && (c1 =? 120) then parse_digits sgn digits else None
      | _ => None
      end
  end.

(** Lines 189-197: CCBigIntSetString; the string's characters are given *)
Definition set_string (string : list N) : option bigint := parse string.

(** Line 215 *)
Definition hex_chr (d : N) : N := if d <? 10 then 48 + d else 97 + (d - 10).

(** Lines 220-223: [n] digits are left *)
Fixpoint print_limb (n : nat) (value : N) : list N :=
  match n with
  | O => []
  | S n => hex_chr (N.land (N.shiftr value (N.of_nat n * 4)) 15) :: print_limb n value
  end.

(** Lines 199-229: CCBigIntGetString *)
Definition get_string (b : bigint) : list N :=
  (if sign b then [45] else []) ++ [48; 120] ++ flat_map (print_limb 16) (rev (limbs b)).

(** CCComparisonResult: [Lt] is ascending, [Gt] descending *)
(** Lines 239-245 on the components from the tail on *)
Fixpoint compare_from_tail (a b : list N) : comparison :=
  match a, b with
  | ca :: a, cb :: b => if ca =? cb then compare_from_tail a b else if ca <? cb then Lt else Gt
  | _, _ => Eq
  end.

(** Lines 231-251: CCBigIntCompareComponents *)
Definition compare_components (a b : list N) : comparison :=
  if (length a =? length b)%nat then compare_from_tail (rev a) (rev b)
  else if (length a <? length b)%nat then Lt else Gt.

(** Lines 253-265: CCBigIntCompareBigInt. Line 258, the same object on both sides, gives what the rest gives. *)
Definition compare (a b : bigint) : comparison :=
  if negb (Bool.eqb (sign a) (sign b)) then if sign a then Lt else Gt
  else let r := compare_components (limbs a) (limbs b) in if sign a then CompOpp r else r.

(** Lines 274-284: CCBigIntCompareInt *)
Definition compare_int (a : bigint) (value : Z) : option comparison := let? b := set_int value in Some (compare a b).

(** Lines 286-296: CCBigIntCompareString *)
Definition compare_string (a : bigint) (value : list N) : option comparison := let? b := set_string value in Some (compare a b).

(** Lines 306-311. [vs]: the values from the current one on ([Value] is null when it is empty: the enumerators keep
    returning null after their end). Returns the components, the values that are left and the carry. When [Integer]
    and [Value] are the same object each component is read before it is written, so the result is the same. *)
Fixpoint add_both (cs vs : list N) (carry : N) : list N * list N * N :=
  match cs with
  | [] => ([], vs, carry)
  | c :: cs' =>
      if (carry =? 0) && match vs with [] => true | _ => false end then (cs, vs, carry)
      else
        let v := match vs with [] => 0 | v :: _ => v end in
        let result := wadd 64 (wadd 64 c v) carry in
        let carry := if (result <=? c) && negb (N.lor v carry =? 0) then 1 else 0 in
        let '(r, vs, carry) := add_both cs' (tl vs) carry in
        (result :: r, vs, carry)
  end.

(** Lines 313-318: the components appended and the carry *)
Fixpoint add_rest (vs : list N) (carry : N) : list N * N :=
  match vs with
  | [] => ([], carry)
  | v :: vs =>
      let result := wadd 64 v carry in
      let carry := if result <? v then 1 else 0 in
      let '(r, carry) := add_rest vs carry in
      (result :: r, carry)
  end.

(** Lines 298-321: CCBigIntApplyAdd *)
Definition apply_add (cs vs : list N) : list N :=
  let '(cs, vs, carry) := add_both cs vs 0 in
  let '(more, carry) := add_rest vs carry in
  cs ++ more ++ (if carry =? 0 then [] else [carry]).

(** Lines 331-342: also returns [LastNonZero] *)
Fixpoint sub_both (cs vs : list N) (carry : N) (index last_non_zero : nat) : list N * list N * N * nat :=
  match cs with
  | [] => ([], vs, carry, last_non_zero)
  | c :: cs' =>
      if (carry =? 0) && match vs with [] => true | _ => false end then (cs, vs, carry, last_non_zero)
      else
        let result := match vs with [] => 0 | v :: _ => v end in
        let next_carry := (c <? result) || (c <? wadd 64 result carry) || (negb (carry =? 0) && (result =? 2 ^ 64 - 1)) in
        let component := wsub 64 c (wadd 64 result carry) in
        let last_non_zero := if component =? 0 then last_non_zero else index in
        let '(r, vs, carry, last_non_zero) := sub_both cs' (tl vs) (if next_carry then 1 else 0) (S index) last_non_zero in
        (component :: r, vs, carry, last_non_zero)
  end.

(** Lines 346-349: [n] rounds are left, [count] is the number of components before the loop *)
Fixpoint trim (n loop count : nat) (l : list N) : option (list N) :=
  match n with
  | O => Some l
  | S n => let? l := remove_one l (count - loop) in trim n (S loop) count l
  end.

(** The int64_t with the same bits *)
Definition signed64 (x : N) : Z := if x <? 2 ^ 63 then Z.of_N x else (Z.of_N x - 2 ^ 64)%Z.

(** Lines 323-359: CCBigIntApplySub; when [Integer] and [Value] are the same object each component is read before it
    is written *)
Definition apply_sub (b : bigint) (vs : list N) : option bigint :=
  let '(cs, vs, carry, last_non_zero) := sub_both (limbs b) vs 0 0 0 in
  match vs with
  | _ :: _ => None
  | [] =>
      let count := length cs in
      let? cs := trim (count - (last_non_zero + 1)) (last_non_zero + 1) count cs in
      if carry =? 0 then Some (mkBig (sign b) cs)
      else match cs with
           | [] => None
           | c :: cs => let? c := abs64 (signed64 c) in Some (mkBig (negb (sign b)) (c :: cs))
           end
  end.

(** Lines 370-384 and 428-442: the branches of CCBigIntAddBigInt and CCBigIntSubBigInt that subtract *)
Definition subtract (b value : bigint) : option bigint :=
  match compare_components (limbs b) (limbs value) with
  | Lt =>
      let? r := set_big_int value in
      let? r := apply_sub r (limbs b) in
      Some (mkBig (negb (sign b)) (limbs r))
  | _ => apply_sub b (limbs value)
  end.

(** Lines 361-385: CCBigIntAddBigInt *)
Definition add (b value : bigint) : option bigint :=
  if Bool.eqb (sign b) (sign value) then Some (mkBig (sign b) (apply_add (limbs b) (limbs value)))
  else subtract b value.

(** Lines 419-443: CCBigIntSubBigInt *)
Definition sub (b value : bigint) : option bigint :=
  if negb (Bool.eqb (sign b) (sign value)) then Some (mkBig (sign b) (apply_add (limbs b) (limbs value)))
  else subtract b value.

(** Lines 396-407: CCBigIntAddInt *)
Definition add_int (b : bigint) (value : Z) : option bigint :=
  let? a := abs64 value in
  if Bool.eqb (sign b) (negb (mask64 value =? 0)%Z) then Some (mkBig (sign b) (apply_add (limbs b) [a]))
  else apply_sub b [a].

(** Lines 454-465: CCBigIntSubInt *)
Definition sub_int (b : bigint) (value : Z) : option bigint :=
  let? a := abs64 value in
  if negb (Bool.eqb (sign b) (negb (mask64 value =? 0)%Z)) then Some (mkBig (sign b) (apply_add (limbs b) [a]))
  else apply_sub b [a].

(** Lines 409-417 and 467-475: CCBigIntAddString, CCBigIntSubString *)
Definition add_string (b : bigint) (value : list N) : option bigint := let? v := set_string value in add b v.
Definition sub_string (b : bigint) (value : list N) : option bigint := let? v := set_string value in sub b v.
