(** Model of the integer and endian-dependent values of the binary serialisation of CommonC/Reflect.c (984-1381),
    on little-endian hardware.

    Simplifications: a value in memory is the list of its bytes in address order; a stream is the list of the bytes written to
    it, or of those that can be read from it (reading past its end is [None]). [None] is also a failed assertion, and a write
    beyond the 64 bytes of the local buffer. *)
From Verif Require Import Base ReflectStreamModel.
Local Open Scope N_scope.

(** Reflect.h: CCReflectEndian *)
Inductive endian := Native | Big | Little.
Definition is_big (e : endian) : bool := match e with Big => true | _ => false end.

(** The bytes from the lowest to the highest (1062-1079: Start and Invert), and back *)
Definition lowest_first (e : endian) (bs : list N) : list N := if is_big e then rev bs else bs.

(** 984-1058 *)
Definition serialize_endian (source : endian) (bs : list N) (destination : endian) : option (list N) :=
  if Bool.eqb (is_big source) (is_big destination) then Some bs
  else if (length bs <=? 64)%nat then Some (rev bs) else None.

(** 1191-1265 *)
Definition deserialize_endian (destination : endian) (size : nat) (source : endian) (s : list N) : option (list N * list N) :=
  if Bool.eqb (is_big source) (is_big destination) then take_bytes size s
  else if (size <=? 64)%nat then let? (bs, s) := take_bytes size s in Some (rev bs, s) else None.

(** 0x7f >> Mask and ~(0x7f >> Mask) as a byte *)
Definition low (mask : N) : N := N.shiftr 127 mask.
Definition high (mask : N) : N := 255 - low mask.

(** 1109, 1147: the bytes up to the last that is not 0, or only the first *)
Fixpoint trim (bs : list N) : list N :=
  match bs with
  | [] => []
  | b :: t => b :: if forallb (N.eqb 0) t then [] else trim t
  end.

(** 1111-1137, 1149-1173: [carry] is what Buffer[Count] holds so far. Buffer[Count + 1] is 0 before it is assigned. *)
Fixpoint encode (offset carry count : N) (bs : list N) : list N :=
  match bs with
  | [] => []
  | b :: t =>
      let mask := (count + offset) mod 8 in
      let value := N.lor carry (N.land b (low mask)) in
      let remainder := N.land b (high mask) in
      match t with
      | [] => if remainder =? 0 then [value] else [N.lor value 128; N.shiftr remainder 1]
      | _ => N.lor value 128 :: encode offset (N.shiftr remainder 1) (count + 1) t
      end
  end.

(** 1102-1105: ((0xff * byte) - 1) as a byte when the sign is set, else the byte *)
Definition invert (sign : bool) (b : N) : N := if sign then (255 * b + 255) mod 256 else b.

(** 1060-1176 *)
Definition serialize_variable (signed : bool) (source : endian) (bs : list N) : option (list N) :=
  if ((length bs =? 0) || negb (length bs <=? 64))%nat then None
  else
    let l := lowest_first source bs in
    let out :=
      if signed
      then let sign := N.testbit (last l 0) 7 in encode 1 (if sign then 64 else 0) 0 (trim (map (invert sign) l))
      else encode 0 0 0 (trim l) in
    if (length out <=? 64)%nat then Some out else None.

(** Data[i] |= v *)
Definition or_at (i : N) (v : N) (data : list N) : list N := upd data (N.to_nat i) (N.lor (nth (N.to_nat i) data 0) v).

(** 1311-1336, 1354-1377. Count - 1 is SIZE_MAX when Count is 0. *)
Fixpoint decode (offset : N) (size : nat) (count : N) (data : list N) (s : list N) : option (list N * list N) :=
  match s with
  | [] => None
  | v :: s =>
      let mask := (count + offset) mod 8 in
      let data := if count <? N.of_nat size then or_at count (N.land v (low mask)) data else data in
      let remainder := N.land v (high mask) in
      if negb (remainder =? 0)
      then
        let data := if (negb (count =? 0)) && (count - 1 <? N.of_nat size) then or_at (count - 1) ((2 * remainder) mod 256) data else data in
        if N.testbit remainder 7 then decode offset size (count + 1) data s else Some (data, s)
      else Some (if N.of_nat size <=? count then repeat 255 size else data, s)
  end.

(** 1267-1381 (Size is not 0) *)
Definition deserialize_variable (signed : bool) (destination : endian) (size : nat) (s : list N) : option (list N * list N) :=
  if (size =? 0)%nat then None
  else if signed
  then
    let? (data, r) := decode 1 size 0 (repeat 0 size) s in
    let data := upd data (size - 1) (N.land (nth (size - 1) data 0) 127) in
    let data := if N.testbit (hd 0 s) 6 then map (fun b => 255 - b) data else data in
    Some (lowest_first destination data, r)
  else
    let? (data, r) := decode 0 size 0 (repeat 0 size) s in
    Some (lowest_first destination data, r).

(** 1178-1189 *)
Definition serialize_integer (source : endian) (bs : list N) (signed fixed : bool) (prefer : nat) (destination : endian) : option (list N) :=
  if (prefer <=? length bs)%nat || negb fixed then serialize_variable signed source bs else serialize_endian source bs destination.

(** 1370-1381 *)
Definition deserialize_integer (destination : endian) (size : nat) (signed fixed : bool) (prefer : nat) (source : endian) (s : list N) : option (list N * list N) :=
  if (prefer <=? size)%nat || negb fixed then deserialize_variable signed destination size s else deserialize_endian destination size source s.
