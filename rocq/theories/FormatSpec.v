(** Specification of the format specifiers (C76). *)
From Coq Require Import Ascii List NArith Lia Bool.
From Verif Require Import FormatModel.
Import ListNotations.
Open Scope char_scope.
Open Scope N_scope.

(** ** How a directive is written *)

Definition show_width (w : amount) : list ascii :=
  match w with Absent => [] | Number ds => ds | Star => ["*"] end.
Definition show_prec (p : amount) : list ascii :=
  match p with Absent => [] | Number ds => "." :: ds | Star => ["."; "*"] end.
(** Everything after the '%' *)
Definition options (d : directive) : list ascii :=
  d_flags d ++ show_width (d_width d) ++ show_prec (d_prec d) ++ d_length d ++ [d_conv d].
Definition show (d : directive) : list ascii := "%" :: options d.

Definition a_flag (c : ascii) : Prop := In c ["-"; "+"; " "; "#"; "0"].
Definition a_digit (c : ascii) : Prop := In c ["0"; "1"; "2"; "3"; "4"; "5"; "6"; "7"; "8"; "9"].
Definition length_modifiers : list (list ascii) :=
  [[]; ["h"; "h"]; ["h"]; ["l"]; ["l"; "l"]; ["j"]; ["z"]; ["t"]; ["L"]].

(** A directive as the C standard writes them.  A width does not begin with 0 (that is a flag). *)
Record wf (d : directive) : Prop := {
  wf_flags : Forall a_flag (d_flags d);
  wf_width : match d_width d with
             | Number ds => Forall a_digit ds /\ ds <> [] /\ hd_error ds <> Some "0"
             | _ => True
             end;
  wf_prec : match d_prec d with Number ds => Forall a_digit ds | _ => True end;
  wf_length : In (d_length d) length_modifiers;
  wf_conv : ~ a_flag (d_conv d) /\ ~ a_digit (d_conv d) /\
            ~ In (d_conv d) ["*"; "."; "h"; "l"; "j"; "z"; "t"; "L"; "%"; "["] }.

(** The number a text of digits stands for *)
Fixpoint decimal_from (v : N) (ds : list ascii) : N :=
  match ds with [] => v | c :: r => decimal_from (10 * v + (N_of_ascii c - 48)) r end.
Definition decimal (ds : list ascii) : N := decimal_from 0 ds.

(** The length modifier as a multi-character constant *)
Fixpoint packed (l : list ascii) (v : N) : N :=
  match l with [] => v | c :: r => packed r (v * 256 + N_of_ascii c) end.

Definition has (c : ascii) (l : list ascii) : bool := if in_dec ascii_dec c l then true else false.

(** The description of a directive: each field says what the text says. *)
Record describes (d : directive) (i : info) : Prop := {
  ds_left : left_justified i = has "-" (d_flags d);
  ds_plus : show_plus i = has "+" (d_flags d);
  ds_space : space_prefixed i = has " " (d_flags d);
  ds_alt : alt_form i = has "#" (d_flags d);
  ds_zero : pad_zeros i = has "0" (d_flags d);
  ds_flags : opt_flags i = negb (Nat.eqb (length (d_flags d)) 0);
  ds_width : match d_width d with
             | Absent => opt_width i = false
             | Number ds => opt_width i = true /\ width_in_args i = false /\ width i = decimal ds
             | Star => opt_width i = true /\ width_in_args i = true
             end;
  ds_prec : match d_prec d with
            | Absent => opt_prec i = false
            | Number ds => opt_prec i = true /\ prec_in_args i = false /\ prec i = decimal ds
            | Star => opt_prec i = true /\ prec_in_args i = true
            end;
  ds_length : opt_length i = negb (Nat.eqb (length (d_length d)) 0) /\ length_mod i = packed (d_length d) 0 }.

(** ** What a filter leaves behind *)

Definition apply_act (m : list ascii) (x : act) : list ascii :=
  match x with
  | Write s => m ++ s
  | Remove n => firstn (length m - N.to_nat n) m
  end.
Definition apply (acts : list act) (m : list ascii) : list ascii := fold_left apply_act acts m.

(** ** Binary *)

(** The arguments a width or precision takes, and its value. *)
Inductive resolved : amount -> list arg -> option N -> Prop :=
| res_absent : resolved Absent [] None
| res_number ds : resolved (Number ds) [] (Some (decimal ds))
| res_star n : resolved Star [AInt n] (Some n).

Definition bits_in (l : list ascii) : option nat :=
  if list_eq_dec ascii_dec l ["h"; "h"] then Some 8%nat
  else if list_eq_dec ascii_dec l ["h"] then Some 16%nat
  else if list_eq_dec ascii_dec l [] then Some 32%nat
  else if list_eq_dec ascii_dec l ["L"] then None
  else Some 64%nat.
(** The argument of a value of so many bits: what is narrower than an int is promoted. *)
Definition value_arg (bits : nat) (v : N) : arg := if Nat.eqb bits 64 then ALong v else AInt v.
Definition arg_bits (bits : nat) : N := if Nat.eqb bits 64 then 64 else 32.

(** The value of a text of binary digits *)
Fixpoint binary_from (v : N) (ds : list ascii) : option N :=
  match ds with
  | [] => Some v
  | c :: r => if Ascii.eqb c "0" then binary_from (2 * v) r
              else if Ascii.eqb c "1" then binary_from (2 * v + 1) r else None
  end.
(** The digits shown for a value: all of its bits, or with '#' only up to the highest bit set. *)
Definition digits_of (alt : bool) (bits : nat) (v : N) (ds : list ascii) : Prop :=
  binary_from 0 ds = Some (v mod 2 ^ N.of_nat bits) /\
  if alt then ds = ["0"] \/ hd_error ds = Some "1" else length ds = bits.

(** Width and precision as for the standard's integer conversions: the precision is the least number
    of digits; the width is filled with blanks, or with zeros if '0' is given without '-' and without
    a precision. *)
Definition filled (n : option N) (l : nat) : nat :=
  match n with Some n => N.to_nat n - l | None => 0 end.
Definition laid_out (flags : list ascii) (w p : option N) (ds : list ascii) : list ascii :=
  let body := repeat "0" (filled p (length ds)) ++ ds in
  let fill := filled w (length body) in
  if has "-" flags then body ++ repeat " " fill
  else repeat (if has "0" flags && match p with None => true | _ => false end then "0" else " ") fill ++ body.

Definition fits (n : option N) : Prop := match n with Some n => n < 2 ^ 31 | None => True end.

(** ** Arrays *)

Definition promotes (t : element) (v : arg) : Prop :=
  match t, v with
  | (EChar | EShort | EInt | EWide), AInt _ | ELong, ALong _ | (EFloat | EDouble), ADouble _
  | ELongDouble, ALongDouble _ | EPtr, APtr _ => True
  | _, _ => False
  end.
(** The element type of each conversion *)
Definition elements (d : directive) : option element :=
  match type_of d with
  | Some TInt =>
      Some (if ascii_dec (d_conv d) "c" then (if list_eq_dec ascii_dec (d_length d) ["l"] then EWide else EChar)
            else if list_eq_dec ascii_dec (d_length d) ["h"; "h"] then EChar
            else if list_eq_dec ascii_dec (d_length d) ["h"] then EShort else EInt)
  | Some TLong => Some ELong
  | Some TDouble => Some (if list_eq_dec ascii_dec (d_length d) ["l"] then EDouble else EFloat)
  | Some TLongDouble => Some ELongDouble
  | Some TPtr => Some EPtr
  | None => None
  end.
Fixpoint join (sep : list ascii) (l : list (list ascii)) : list ascii :=
  match l with
  | [] => []
  | [x] => x
  | x :: r => x ++ sep ++ join sep r
  end.

(** How the count and the separator are written, with the arguments they take. *)
Inductive count_text : list ascii -> list arg -> N -> Prop :=
| count_number ds : Forall a_digit ds -> ds <> [] -> decimal ds < 2 ^ 64 -> count_text ds [] (decimal ds)
| count_star n : count_text ["*"] [ALong n] n.
Inductive separator_text : list ascii -> list arg -> list ascii -> Prop :=
| sep_default : separator_text [] [] [","; " "]
| sep_literal t : t <> [] -> (forall c, hd_error t = Some c -> ~ a_digit c /\ c <> "*") -> ~ In "]" t ->
    separator_text t [] t
| sep_star t : separator_text ["*"] [APtr (OText t)] t.

(** A filter that leaves a specifier alone *)
Definition declines (f : filter) (s : list ascii) (a : list arg) (m : list ascii) : Prop :=
  f s a m = Some (0%nat, a, []).

Definition no_star (d : directive) : Prop := d_width d <> Star /\ d_prec d <> Star.
