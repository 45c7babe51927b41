(** Format specifiers: CommonC/Logging.c (CCGetFormatSpecifierInfo) and CommonC/CustomFormatSpecifiers.c.
    A C string is the list of its characters before the terminator.  [char] is a byte; the tests on
    characters are those of the "C" locale. *)
From Coq Require Import Ascii List NArith Lia Bool.
From Verif Require Import BitTricksModel.
Import ListNotations.
Open Scope char_scope.
Open Scope N_scope.

(** isdigit *)
Definition is_digit (c : ascii) : bool := (48 <=? N_of_ascii c) && (N_of_ascii c <=? 57).
(** c - '0' *)
Definition digit (c : ascii) : N := N_of_ascii c - 48.

(** CommonC/Logging.h 179-202: CCFormatSpecifierInfo.  [length] is the characters of the length
    modifier packed as in a multi-character constant. *)
Record info : Type := mkinfo {
  left_justified : bool; show_plus : bool; space_prefixed : bool; alt_form : bool; pad_zeros : bool;
  opt_flags : bool;
  opt_width : bool; width : N; width_in_args : bool;
  opt_prec : bool; prec : N; prec_in_args : bool;
  opt_length : bool; length_mod : N }.

(** CommonC/Logging.c 944: memset *)
Definition no_info : info :=
  mkinfo false false false false false false false 0 false false 0 false false 0.

(** 955-982: the flag characters *)
Definition flag_of (c : ascii) (i : info) : option info :=
  let '(mkinfo lj sp sx al pz fl ow w wa op p pa ol le) := i in
  if Ascii.eqb c "-" then Some (mkinfo true sp sx al pz true ow w wa op p pa ol le)
  else if Ascii.eqb c "+" then Some (mkinfo lj true sx al pz true ow w wa op p pa ol le)
  else if Ascii.eqb c " " then Some (mkinfo lj sp true al pz true ow w wa op p pa ol le)
  else if Ascii.eqb c "#" then Some (mkinfo lj sp sx true pz true ow w wa op p pa ol le)
  else if Ascii.eqb c "0" then Some (mkinfo lj sp sx al true true ow w wa op p pa ol le)
  else None.

(** 986-991: a digit of the width.  The value is not reduced: a width that does not fit an int is
    undefined behaviour and outside the theorems. *)
Definition width_digit (c : ascii) (i : info) : info :=
  let '(mkinfo lj sp sx al pz fl ow w wa op p pa ol le) := i in
  mkinfo lj sp sx al pz fl true (w * 10 + digit c) wa op p pa ol le.
(** 993-999 *)
Definition width_star (i : info) : info :=
  let '(mkinfo lj sp sx al pz fl ow w wa op p pa ol le) := i in
  mkinfo lj sp sx al pz fl true w true op p pa ol le.
(** 1003-1007, and 1026 *)
Definition set_prec (b : bool) (i : info) : info :=
  let '(mkinfo lj sp sx al pz fl ow w wa op p pa ol le) := i in
  mkinfo lj sp sx al pz fl ow w wa b p pa ol le.
(** 1011-1015 *)
Definition prec_digit (c : ascii) (i : info) : info :=
  let '(mkinfo lj sp sx al pz fl ow w wa op p pa ol le) := i in
  mkinfo lj sp sx al pz fl ow w wa op (p * 10 + digit c) pa ol le.
(** 1017-1022 *)
Definition prec_star (i : info) : info :=
  let '(mkinfo lj sp sx al pz fl ow w wa op p pa ol le) := i in
  mkinfo lj sp sx al pz fl ow w wa op p true ol le.
(** 1033-1063: [length] becomes [le] *)
Definition set_length (le : N) (i : info) : info :=
  let '(mkinfo lj sp sx al pz fl ow w wa op p pa ol _) := i in
  mkinfo lj sp sx al pz fl ow w wa op p pa true le.

(** 1027: how many digits there are in front of anything else *)
Fixpoint digits_run (s : list ascii) : nat :=
  match s with c :: r => if is_digit c then S (digits_run r) else O | [] => O end.

(** 949-1070: the loop.  [opt] is CurrentOption, [at_] the index of the first character of [s].  The
    cases fall through from one to the next as in the code. *)
Fixpoint scan (opt : nat) (i : info) (at_ : nat) (s : list ascii) : nat * info :=
  match s with
  | [] => (at_, i)
  | c :: r =>
      match (match opt with O => flag_of c i | _ => None end) with
      | Some i' => scan 0 i' (S at_) r
      | None =>
          if Nat.leb opt 1 && is_digit c then scan 1 (width_digit c i) (S at_) r
          else if Nat.leb opt 1 && Ascii.eqb c "*" then scan 2 (width_star i) (S at_) r
          else if Nat.leb opt 2 && Ascii.eqb c "." then scan 2 (set_prec true i) (S at_) r
          else if Nat.leb opt 2 && opt_prec i && is_digit c then scan 2 (prec_digit c i) (S at_) r
          else if Nat.leb opt 2 && opt_prec i && Ascii.eqb c "*" then scan 3 (prec_star i) (S at_) r
          else if Nat.leb opt 2 && opt_prec i && Ascii.eqb c "-" then
            (S at_ + digits_run r, set_prec false i)%nat
          else if Ascii.eqb c "h" || Ascii.eqb c "l" then
            scan 3 (set_length ((length_mod i * 256 + N_of_ascii c) mod 2 ^ 32) i) (S at_) r
          else if Ascii.eqb c "j" || Ascii.eqb c "z" || Ascii.eqb c "t" || Ascii.eqb c "L" then
            (S at_, set_length (N_of_ascii c) i)
          else (at_, i)
      end
  end.

(** Logging.c 942-1073: CCGetFormatSpecifierInfo.  The index it returns is the one of the conversion
    character. *)
Definition get_info (s : list ascii) : nat * info :=
  match s with
  | c :: r => if Ascii.eqb c "%" then scan 0 no_info 1 r else scan 0 no_info 0 s
  | [] => (0%nat, no_info)
  end.

(** The character at an index of a C string; the terminator at its end. *)
Definition char_at (s : list ascii) (n : nat) : option ascii :=
  if Nat.leb n (length s) then Some (nth n s zero) else None.

(** The variable arguments after the default promotions.  va_arg with another type than the one
    passed is undefined behaviour. *)
Inductive arg : Type :=
| AInt (n : N)       (* int, unsigned int, wint_t: 32 bits *)
| ALong (n : N)      (* long, long long, intmax_t, size_t, ptrdiff_t: 64 bits *)
| ADouble (n : N)
| ALongDouble (n : N)
| APtr (o : object)
with object : Type :=
| ONull
| OText (s : list ascii)                  (* a C string *)
| OString (s : list ascii)                (* a CCString with these characters *)
| OArray (t : element) (l : list arg)     (* the elements after promotion *)
| OOther (n : N)
with element : Type :=
| EChar | EShort | EInt | ELong | EFloat | EDouble | ELongDouble | EWide | EPtr.

Definition next_int (a : list arg) : option (N * list arg) :=
  match a with AInt n :: r => Some (n, r) | _ => None end.
Definition next_long (a : list arg) : option (N * list arg) :=
  match a with ALong n :: r => Some (n, r) | _ => None end.
Definition next_double (a : list arg) : option (N * list arg) :=
  match a with ADouble n :: r => Some (n, r) | _ => None end.
Definition next_long_double (a : list arg) : option (N * list arg) :=
  match a with ALongDouble n :: r => Some (n, r) | _ => None end.
Definition next_ptr (a : list arg) : option (object * list arg) :=
  match a with APtr o :: r => Some (o, r) | _ => None end.

(** What a filter does with the message: msg->write and msg->remove. *)
Inductive act : Type := Write (s : list ascii) | Remove (n : N).

(** A specifier filter: from the rest of the format string (it begins at the '%'), the arguments and
    the message so far to how much of the format it takes (0: not its specifier), the arguments left
    and what it does to the message.  [None] is undefined behaviour. *)
Definition filter : Type := list ascii -> list arg -> list ascii -> option (nat * list arg * list act).

(** An int converted to size_t, as in the comparisons of 128-161 of CustomFormatSpecifiers.c *)
Definition to_size (n : N) : N := let n := n mod 2 ^ 32 in if n <? 2 ^ 31 then n else 2 ^ 64 - 2 ^ 32 + n.

Definition code (c : ascii) : N := N_of_ascii c.
Definition len_hh : N := code "h" * 256 + code "h".
Definition len_h : N := code "h".
Definition len_l : N := code "l".
Definition len_ll : N := code "l" * 256 + code "l".
Definition len_j : N := code "j".
Definition len_z : N := code "z".
Definition len_t : N := code "t".
Definition len_L : N := code "L".

(** CustomFormatSpecifiers.c 47-88: whether the value is 64 bits wide in the arguments *)
Definition is_long (le : N) : bool :=
  (le =? len_l) || (le =? len_ll) || (le =? len_j) || (le =? len_z) || (le =? len_t).
(** 47-90: Size * 8 *)
Definition bit_count (le : N) : nat :=
  if le =? len_hh then 8%nat else if le =? len_h then 16%nat else if is_long le then 64%nat else 32%nat.

Definition bit_char (b : bool) : ascii := if b then "1" else "0".
(** 90-95: Bits[(Count - Loop) - 1] is bit Loop of the value *)
Definition bits_of (count : nat) (value : N) : list ascii :=
  map (fun k => bit_char (N.testbit value (N.of_nat (count - 1 - k)))) (seq 0 count).

(** 134-139, 147-152, 164-169: writes of up to 20 characters until [n] are written *)
Fixpoint pad (fuel : nat) (c : ascii) (n : N) : list act :=
  match fuel with
  | O => []
  | S f => if n =? 0 then []
           else let k := if 20 <? n then 20 else n in
                Write (repeat c (N.to_nat k)) :: pad f c (n - k)
  end.

(** 98-125: which of the bits are shown.  [None]: Formatted points in front of Bits. *)
Definition shown_bits (i : info) (count : nat) (value : N) : option (list ascii) :=
  let bits := bits_of count value in
  if alt_form i then
    let high := N.to_nat (count_set (mask_for_value (highest_set value))) in
    if Nat.eqb high 0 then Some (firstn 1 bits)
    else if Nat.leb high count then Some (firstn high (skipn (count - high) bits)) else None
  else Some bits.

(** 128-170: what is written for the digits [f] *)
Definition write_bits (i : info) (f : list ascii) : list act :=
  let len := N.of_nat (length f) in
  let p := to_size (prec i) in
  let w := to_size (width i) in
  let after := if opt_prec i && (len <? p) then len + (p - len) else len in
  (if negb (left_justified i) && opt_width i && (after <? w)
   then pad (N.to_nat w) (if pad_zeros i then "0" else " ") (w - after) else []) ++
  (if opt_prec i && (len <? p) then pad (N.to_nat p) "0" (p - len) else []) ++
  [Write f] ++
  (if left_justified i && opt_width i && (after <? w) then pad (N.to_nat w) " " (w - after) else []).

Definition with_width (n : N) (i : info) : info :=
  let '(mkinfo lj sp sx al pz fl ow w wa op p pa ol le) := i in
  mkinfo lj sp sx al pz fl ow n wa op p pa ol le.
Definition with_prec (n : N) (i : info) : info :=
  let '(mkinfo lj sp sx al pz fl ow w wa op p pa ol le) := i in
  mkinfo lj sp sx al pz fl ow w wa op n pa ol le.

(** 41 *)
Definition take_width (i : info) (a : list arg) : option (info * list arg) :=
  if opt_width i && width_in_args i
  then match next_int a with Some (n, a) => Some (with_width n i, a) | None => None end
  else Some (i, a).
(** 42 *)
Definition take_prec (i : info) (a : list arg) : option (info * list arg) :=
  if opt_prec i && prec_in_args i
  then match next_int a with Some (n, a) => Some (with_prec n i, a) | None => None end
  else Some (i, a).

(** 35-177: CCBinaryFormatSpecifier *)
Definition binary : filter := fun s a _ =>
  let '(n, i) := get_info s in
  if Ascii.eqb (nth n s zero) "B" then
    match take_width i a with
    | None => None
    | Some (i, a) =>
        match take_prec i a with
        | None => None
        | Some (i, a) =>
            match (if is_long (length_mod i) then next_long a else next_int a) with
            | None => None
            | Some (value, a) =>
                match shown_bits i (bit_count (length_mod i)) value with
                | None => None
                | Some f => Some (S n, a, write_bits i f)
                end
            end
        end
    end
  else Some (0%nat, a, []).

(** Reading a number in decimal into a size_t: 193-194, 380-381.  What is left begins with the first
    other character. *)
Fixpoint read_number (v : N) (s : list ascii) : N * list ascii :=
  match s with
  | c :: r => if is_digit c then read_number ((v * 10 + digit c) mod 2 ^ 64) r else (v, s)
  | [] => (v, [])
  end.

Definition starts (p s : list ascii) : bool :=
  if list_eq_dec ascii_dec (firstn (length p) s) p then true else false.

(** 365-392: CCDeletionFormatSpecifier *)
Definition deletion : filter := fun s a _ =>
  match s with
  | p :: f =>
      if Ascii.eqb p "%" then
        match (match f with
               | c :: r =>
                   if Ascii.eqb c "*" then match next_long a with Some (n, a) => Some (n, a, r) | None => None end
                   else if is_digit c then let '(n, r) := read_number (digit c) r in Some (n, a, r)
                   else Some (1, a, f)
               | [] => Some (1, a, f)
               end) with
        | None => None
        | Some (n, a, r) =>
            if starts ["D"; "E"; "L"] r then Some (length s - length r + 3, a, [Remove n])%nat
            else Some (0%nat, a, [])
        end
      else Some (0%nat, a, [])
  | [] => Some (0%nat, a, [])
  end.

(** 394-433: CCStringFormatSpecifier; the string is written with all its characters, from its buffer
    or from a copy (which is assumed to be allocated). *)
Definition string_filter : filter := fun s a _ =>
  if starts ["%"; "S"] s then
    match next_ptr a with
    | Some (ONull, a) => Some (2%nat, a, [Write ["("; "n"; "u"; "l"; "l"; ")"]])
    | Some (OString t, a) => Some (2%nat, a, [Write t])
    | _ => None
    end
  else Some (0%nat, a, []).

(** ** The C library's formatting *)

(** A directive of the C standard's grammar. *)
Inductive amount : Type := Absent | Number (digits : list ascii) | Star.
Record directive : Type := mkdir {
  d_flags : list ascii; d_width : amount; d_prec : amount; d_length : list ascii; d_conv : ascii }.

Definition is_flag (c : ascii) : bool :=
  existsb (Ascii.eqb c) ["-"; "+"; " "; "#"; "0"].
Fixpoint span (p : ascii -> bool) (s : list ascii) : list ascii * list ascii :=
  match s with
  | c :: r => if p c then let '(a, b) := span p r in (c :: a, b) else ([], s)
  | [] => ([], [])
  end.

(** The standard's grammar (C11 7.21.6.1): flags, width, precision, length modifier, conversion. *)
Definition parse_width (s : list ascii) : amount * list ascii :=
  match s with
  | c :: r => if Ascii.eqb c "*" then (Star, r)
              else match span is_digit s with ([], s) => (Absent, s) | (d, s) => (Number d, s) end
  | [] => (Absent, [])
  end.
Definition parse_prec (s : list ascii) : amount * list ascii :=
  match s with
  | c :: r =>
      if Ascii.eqb c "." then
        match r with
        | c' :: r' => if Ascii.eqb c' "*" then (Star, r')
                      else let '(d, s) := span is_digit r in (Number d, s)
        | [] => (Number [], [])
        end
      else (Absent, s)
  | [] => (Absent, [])
  end.
Definition parse_length (s : list ascii) : list ascii * list ascii :=
  match s with
  | c :: r =>
      if Ascii.eqb c "h" || Ascii.eqb c "l" then
        match r with
        | c' :: r' => if Ascii.eqb c' c then ([c; c], r') else ([c], r)
        | [] => ([c], r)
        end
      else if Ascii.eqb c "j" || Ascii.eqb c "z" || Ascii.eqb c "t" || Ascii.eqb c "L" then ([c], r)
      else ([], s)
  | [] => ([], [])
  end.
Definition parse_directive (s : list ascii) : option (directive * list ascii) :=
  let '(f, s) := span is_flag s in
  let '(w, s) := parse_width s in
  let '(p, s) := parse_prec s in
  let '(l, s) := parse_length s in
  match s with
  | c :: r => Some (mkdir f w p l c, r)
  | [] => None
  end.

(** The type of the value each conversion takes, with its length modifier. *)
Inductive value_type : Type := TInt | TLong | TDouble | TLongDouble | TPtr.
Definition among (c : ascii) (l : list ascii) : bool := existsb (Ascii.eqb c) l.
Definition type_of (d : directive) : option value_type :=
  let c := d_conv d in
  let l := d_length d in
  if among c ["d"; "i"; "o"; "u"; "x"; "X"] then
    match l with
    | [] => Some TInt
    | [m] => if Ascii.eqb m "h" then Some TInt else if Ascii.eqb m "L" then None else Some TLong
    | m :: _ => if Ascii.eqb m "h" then Some TInt else Some TLong
    end
  else if among c ["f"; "F"; "e"; "E"; "g"; "G"; "a"; "A"] then
    match l with
    | [] => Some TDouble
    | [m] => if Ascii.eqb m "L" then Some TLongDouble else if Ascii.eqb m "l" then Some TDouble else None
    | _ => None
    end
  else if Ascii.eqb c "c" then
    match l with [] => Some TInt | [m] => if Ascii.eqb m "l" then Some TInt else None | _ => None end
  else if Ascii.eqb c "s" then
    match l with [] => Some TPtr | [m] => if Ascii.eqb m "l" then Some TPtr else None | _ => None end
  else if Ascii.eqb c "p" then match l with [] => Some TPtr | _ => None end
  else None.

Definition take_value (t : value_type) (a : list arg) : option (arg * list arg) :=
  match t, a with
  | TInt, AInt n :: r => Some (AInt n, r)
  | TLong, ALong n :: r => Some (ALong n, r)
  | TDouble, ADouble n :: r => Some (ADouble n, r)
  | TLongDouble, ALongDouble n :: r => Some (ALongDouble n, r)
  | TPtr, APtr o :: r => Some (APtr o, r)
  | _, _ => None
  end.
Definition take_star (w : amount) (a : list arg) : option (list arg * list arg) :=
  match w with
  | Star => match a with AInt n :: r => Some ([AInt n], r) | _ => None end
  | _ => Some ([], a)
  end.

(** How the C library shows one directive, given the arguments it takes (a width, a precision and the
    value).  Nothing is assumed about it. *)
Definition printer : Type := directive -> list arg -> list ascii.

(** vsnprintf and vsprintf (C11 7.21.6.12-13).  Conversions outside the standard, "%n" and "%%" with
    options are undefined here.  [fuel]: a bound on the characters left. *)
Fixpoint vprint (P : printer) (fuel : nat) (s : list ascii) (a : list arg) : option (list ascii) :=
  match fuel with
  | O => None
  | S fuel =>
      match s with
      | [] => Some []
      | c :: r =>
          if Ascii.eqb c "%" then
            match r with
            | c' :: r' =>
                if Ascii.eqb c' "%" then
                  match vprint P fuel r' a with Some o => Some ("%" :: o) | None => None end
                else
                  match parse_directive r with
                  | None => None
                  | Some (d, rest) =>
                      match type_of d with
                      | None => None
                      | Some t =>
                          match take_star (d_width d) a with
                          | None => None
                          | Some (w, a) =>
                              match take_star (d_prec d) a with
                              | None => None
                              | Some (p, a) =>
                                  match take_value t a with
                                  | None => None
                                  | Some (v, a) =>
                                      match vprint P fuel rest a with
                                      | Some o => Some (P d (w ++ p ++ [v]) ++ o)
                                      | None => None
                                      end
                                  end
                              end
                          end
                      end
                  end
            | [] => None
            end
          else match vprint P fuel r a with Some o => Some (c :: o) | None => None end
      end
  end.
Definition print (P : printer) (s : list ascii) (a : list arg) : option (list ascii) :=
  vprint P (S (length s)) s a.

(** ** The array specifier *)

(** CustomFormatSpecifiers.c 264-350: the type the elements are read with.  [None]: nothing is printed. *)
Definition element_of (c : ascii) (le : N) : option element :=
  if among c ["d"; "i"; "o"; "u"; "x"; "X"] then
    Some (if le =? len_hh then EChar else if le =? len_h then EShort
          else if is_long le then ELong else EInt)
  else if among c ["f"; "F"; "e"; "E"; "g"; "G"; "a"; "A"] then
    Some (if le =? len_l then EDouble else if le =? len_L then ELongDouble else EFloat)
  else if Ascii.eqb c "c" then Some (if le =? len_l then EWide else EChar)
  else if among c ["s"; "p"] then Some EPtr
  else None.

Definition element_eqb (x y : element) : bool :=
  match x, y with
  | EChar, EChar | EShort, EShort | EInt, EInt | ELong, ELong | EFloat, EFloat
  | EDouble, EDouble | ELongDouble, ELongDouble | EWide, EWide | EPtr, EPtr => true
  | _, _ => false
  end.

(** 238-258: CC_PRINT_ARRAY.  The buffer for one element is assumed to be allocated.  [None]: past the
    end of the array, or an element the specifier cannot show. *)
Fixpoint print_array (P : printer) (spec : list ascii) (sep : list ascii) (l : list arg) (count : nat)
  : option (list act) :=
  match count, l with
  | O, _ => Some []
  | S k, v :: l =>
      match print P spec [v] with
      | None => None
      | Some o =>
          match k with
          | O => Some [Write o]
          | S _ => match print_array P spec sep l k with
                   | Some r => Some (Write o :: Write sep :: r)
                   | None => None
                   end
          end
      end
  | S _, [] => None
  end.

(** 213: strchr(Format, ']') *)
Fixpoint find (c : ascii) (s : list ascii) : option nat :=
  match s with
  | x :: r => if Ascii.eqb x c then Some O else match find c r with Some n => Some (S n) | None => None end
  | [] => None
  end.

(** 200-220: the separator, and the format from the ']' on.  [None]: undefined behaviour; [Some None]:
    returns 0 (with the arguments already taken). *)
Definition separator (f : list ascii) (a : list arg)
  : option (list ascii * list ascii * list arg + list arg) :=
  match f with
  | c :: r =>
      if Ascii.eqb c "]" then Some (inl ([","; " "], f, a))
      else if Ascii.eqb c "*" then
        match next_ptr a with
        | Some (OText t, a) =>
            match r with
            | c' :: _ => if Ascii.eqb c' "]" then Some (inl (t, r, a)) else Some (inr a)
            | [] => Some (inr a)
            end
        | _ => None
        end
      else match find "]" f with
           | Some n => Some (inl (firstn n f, skipn n f, a))
           | None => Some (inr a)
           end
  | [] => Some (inr a)
  end.

(** 179-363: CCArrayFormatSpecifier *)
Definition array (P : printer) : filter := fun s a _ =>
  if starts ["%"; "["] s then
    match (match skipn 2 s with
           | c :: r =>
               if Ascii.eqb c "*" then match next_long a with Some (n, a) => Some (Some (n, a, r)) | None => None end
               else if is_digit c then let '(n, r) := read_number (digit c) r in Some (Some (n, a, r))
               else Some None
           | [] => Some None
           end) with
    | None => None
    | Some None => Some (0%nat, a, [])
    | Some (Some (count, a, f)) =>
        match separator f a with
        | None => None
        | Some (inr a) => Some (0%nat, a, [])
        | Some (inl (sep, f, a)) =>
            let f := skipn 1 f in
            let '(n, i) := get_info f in
            let taken := (length s - length f + n + 1)%nat in
            if count =? 0 then Some (taken, a, [])
            else
              match next_ptr a with
              | None => None
              | Some (o, a) =>
                  match element_of (nth n f zero) (length_mod i) with
                  | None => Some (taken, a, [])
                  | Some t =>
                      match o with
                      | OArray t' l =>
                          if element_eqb t t' then
                            match print_array P ("%" :: firstn (S n) f) sep l (N.to_nat count) with
                            | Some acts => Some (taken, a, acts)
                            | None => None
                            end
                          else None
                      | _ => None
                      end
                  end
              end
        end
    end
  else Some (0%nat, a, []).
