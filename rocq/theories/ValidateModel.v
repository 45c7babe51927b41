(** Model of the integer case of CommonC/ValidateMinimum.c and CommonC/ValidateMaximum.c, which differ only in what they
    return. Bytes are integers 0..255; an access outside the data is [None]. *)
From Verif Require Import Base.
Local Open Scope Z_scope.

(** CCReflectEndian and the part of CCReflectInteger that is used, Reflect.h 93-105 *)
Inductive endian := Native | Big | Little.
Record itype := { size : nat; order : endian; sign : bool }.
(** The hardware: CC_HARDWARE_ENDIAN_LITTLE or CC_HARDWARE_ENDIAN_BIG, lines 29-37 *)
Inductive hardware := LittleHw | BigHw.

(** Is the endianness CC_REFLECT_SWAPPED_ENDIAN? lines 54-80 *)
Definition swapped (h : hardware) (e : endian) : bool :=
  match h, e with LittleHw, Big => true | BigHw, Little => true | _, _ => false end.

(** Data[Start + (Invert * k)]: Start 0 and Invert 1, or Start size - 1 and Invert -1 *)
Definition byte (h : hardware) (t : itype) (d : list Z) (k : nat) : option Z :=
  if swapped h (order t) then (if (k <? size t)%nat then nth_error d (size t - 1 - k) else None) else nth_error d k.

(** Lines 82, 83; a size of 0 indexes far outside *)
Definition neg (h : hardware) (t : itype) (d : list Z) : option bool :=
  if (size t =? 0)%nat then None
  else let? b := byte h t d (size t - 1) in Some (Z.testbit b 7 && sign t).

(** The loops of lines 95-98, 103-106, 137-140, 145-148: [n] bytes downwards from [loop]; is one different from [pad]? *)
Fixpoint differs (get : nat -> option Z) (pad : Z) (loop n : nat) : option bool :=
  match n with
  | O => Some false
  | S m => let? b := get (loop - 1)%nat in if b =? pad then differs get pad (loop - 1) m else Some true
  end.

(** The loops of lines 109-116, 151-158 *)
Fixpoint compare_down (ga gb : nat -> option Z) (loop : nat) : option comparison :=
  match loop with
  | O => Some Eq
  | S k => let? a := ga k in let? b := gb k in if a <? b then Some Lt else if b <? a then Some Gt else compare_down ga gb k
  end.

(** Lines 82-161: the order of the value to the bound *)
Definition order_of (h : hardware) (ta : itype) (a : list Z) (tb : itype) (b : list Z) : option comparison :=
  let? na := neg h ta a in
  let? nb := neg h tb b in
  let sa := size ta in
  let sb := size tb in
  let ga := byte h ta a in
  let gb := byte h tb b in
  match (na : bool), (nb : bool) with
  | true, true =>
      if (sb <? sa)%nat then
        let? x := differs ga 255 sa (sa - sb) in
        if (x : bool) then Some Lt else compare_down ga gb sb
      else
        let? x := differs gb 255 sb (sb - sa) in
        if (x : bool) then Some Gt else compare_down ga gb sa
  | true, false => Some Lt
  | false, true => Some Gt
  | false, false =>
      if (sb <? sa)%nat then
        let? x := differs ga 0 sa (sa - sb) in
        if (x : bool) then Some Gt else compare_down ga gb sb
      else
        let? x := differs gb 0 sb (sb - sa) in
        if (x : bool) then Some Lt else compare_down ga gb sa
  end.

(** CCReflectValidateMinimum, CCReflectValidateMaximum, lines 39-228: the values returned at lines 97, 105, 114, 115, 118, 121, 126,
    139, 147, 156, 157 and 160 *)
Definition validate_minimum (h : hardware) (ta : itype) (a : list Z) (tb : itype) (b : list Z) : option bool :=
  let? c := order_of h ta a tb b in Some (match c with Lt => false | Eq | Gt => true end).
Definition validate_maximum (h : hardware) (ta : itype) (a : list Z) (tb : itype) (b : list Z) : option bool :=
  let? c := order_of h ta a tb b in Some (match c with Gt => false | Eq | Lt => true end).
