(** Model of CCReflectSerializeBinaryType and CCReflectDeserializeBinaryType (CommonC/Reflect.c 1407-1944).

    Simplifications: the types of the program are the entries of a table; a type read is an entry added to the table, from
    [base] on. Static pointers and opaque types are left out, and so are pointers with an allocator of their own, which the
    code refuses (1537). The pointer to the destructor of a dynamic pointer (1539, 1758) is written and read by functions
    given by the program, [put_destructor] and [get_destructor]. The name of a field is a number, 0 is none. The dictionary
    of the indexes given so far is the list of the types in the order of their indexes (C57). *)
From Verif Require Import Base ReflectStreamModel ReflectIntegerModel ReflectValueModel.
Local Open Scope N_scope.

(** Reflect.h 67-71 *)
Inductive ownership := Weak | Transfer | Retain.

(** Reflect.h 73-150 *)
Record field := mkField { name : N; offset : N; field_type : tid }.

Inductive type :=
| TPointer (t : tid) (o : ownership) (destructor : N)
| TInteger (size : N) (e : endian) (signed fixed : bool)
| TFloat (size : N) (e : endian)
| TStruct (size : N) (fields : list field)
| TArray (t : tid) (count : N)
| TValidator (t : tid) (validate : value -> value)
| TEnumerable (t : tid) (count : N).

(** The type as CCReflectSerializeBinary and CCReflectDeserializeBinary see it *)
Definition described (d : type) : descriptor :=
  match d with
  | TPointer t _ _ => DPointer t
  | TInteger size e signed fixed => DInteger (N.to_nat size) e signed fixed
  | TFloat size e => DFloat (N.to_nat size) e
  | TStruct _ fields => DStruct (map field_type fields)
  | TArray t count => DArray t (N.to_nat count)
  | TValidator t validate => DValidator t validate
  | TEnumerable t count => DEnumerable t count
  end.

(** The values of CCReflectOwnership and CCReflectEndian (Reflect.h 67-71, 92-96) *)
Definition ownership_code (o : ownership) : N := match o with Weak => 0 | Transfer => 1 | Retain => 2 end.
Definition endian_code (e : endian) : N := match e with Native => 0 | Big => 1 | Little => 2 end.
Definition ownership_of (c : N) : option ownership := match c with 0 => Some Weak | 1 => Some Transfer | 2 => Some Retain | _ => None end.
Definition endian_of (c : N) : option endian := match c with 0 => Some Native | 1 => Some Big | 2 => Some Little | _ => None end.

(** 1430-1503: the byte for a type with the lookup ID *)
Definition lookup_byte (id : N) : option N :=
  if id <=? 127 then Some (N.lor id 128)
  else if id <=? 127 + 8 then Some (N.lor (id - 128) 8)
  else if id <=? 127 + 8 + 12 then let id := id - (128 + 8) in Some (N.lor (4 * ((id + 4) / 4) + id mod 4) 32)
  else if id <=? 127 + 8 + 12 + 2 then let id := id - (128 + 8 + 12) in Some (N.lor (4 * id) 3)
  else if id <=? 127 + 8 + 12 + 2 + 5 then let id := id - (128 + 8 + 12 + 2) in Some (if id <? 4 then N.lor (4 * id) 19 else 35)
  else None.

(** 1679-1750: the lookup ID for the byte *)
Definition lookup_id (b : N) : option N :=
  if negb (N.land b 128 =? 0) then Some (N.lxor b 128)
  else if b / 8 =? 1 then Some (N.land b 7 + 128)
  else if (b / 16 =? 2) && negb (N.land b 12 =? 0) then let b := N.land b 15 in Some ((b / 4 - 1) * 4 + N.land b 3 + 128 + 8)
  else if (b / 16 =? 0) && (N.land b 3 =? 3) then Some (N.land (b / 4) 1 + 128 + 8 + 12)
  else if (b / 16 =? 1) && (N.land b 3 =? 3) then Some (N.land (b / 4) 3 + 128 + 8 + 12 + 2)
  else if (b / 16 =? 2) && (N.land b 3 =? 3) then Some (128 + 8 + 12 + 2 + 4)
  else None.

(** A size_t with a variable length *)
Definition put_size (n : N) : option (list N) := serialize_variable false Native (to_bytes 8 n).
Definition get_size (s : list N) : option (N * list N) := let? (bs, s) := deserialize_variable false Native 8 s in Some (of_bytes bs, s).

(** The index of a type that has one *)
Fixpoint index_of (t : tid) (seen : list tid) : option nat :=
  match seen with [] => None | x :: seen => if (x =? t)%nat then Some 0%nat else let? i := index_of t seen in Some (S i) end.

Section Put.
Variables (types : tid -> type) (lookup : option (tid -> N)) (put_destructor : N -> list N).

(** A writer that gives indexes to types: the bytes and the types with indexes afterwards *)
Definition putter := list tid -> option (list N * list tid).

(** The index of a type, followed by the type itself the first time: 1519-1529, 1567-1578, 1605-1616, 1633-1644 *)
Definition put_reference (put : tid -> putter) (t : tid) : putter := fun seen =>
  match index_of t seen with
  | Some i => let? a := put_size (N.of_nat i) in Some (a, seen)
  | None => let? a := put_size (N.of_nat (length seen)) in let? (b, seen) := put t seen in Some (a ++ b, seen)
  end.

(** 1563-1579 *)
Fixpoint put_fields (put : tid -> putter) (fields : list field) : putter := fun seen =>
  match fields with
  | [] => Some ([], seen)
  | f :: fields =>
      let? a := put_size (offset f) in
      let? (b, seen) := put_reference put (field_type f) seen in
      let? (c, seen) := put_fields put fields seen in
      Some (a ++ b ++ c, seen)
  end.

(** 1421-1649. The fuel bounds how deep types are nested. *)
Fixpoint put_type (fuel : nat) (t : tid) : putter := fun seen =>
  match fuel with
  | O => None
  | S fuel =>
      let seen := seen ++ [t] in
      match (let? lookup := lookup in lookup_byte (lookup t)) with
      | Some b => Some ([b], seen)
      | None =>
          match types t with
          | TPointer t' o destructor =>
              let? (a, seen) := put_reference (put_type fuel) t' seen in
              Some (4 + ownership_code o :: a ++ put_destructor destructor, seen)
          | TInteger size e signed fixed =>
              let? a := put_size size in
              Some (16 + (if signed then 8 else 0) + (if fixed then 4 else 0) + endian_code e :: a, seen)
          | TFloat size e => let? a := put_size size in Some (32 + endian_code e :: a, seen)
          | TStruct size fields =>
              let? a := put_size size in
              let? b := put_size (N.of_nat (length fields)) in
              let? (c, seen) := put_fields (put_type fuel) fields seen in
              Some (48 :: a ++ b ++ c, seen)
          | TArray t' count =>
              let? a := put_size count in
              let? (b, seen) := put_reference (put_type fuel) t' seen in
              Some (80 :: a ++ b, seen)
          | TValidator _ _ => None
          | TEnumerable t' count =>
              let? a := serialize_variable true Native (to_bytes 8 count) in
              let? (b, seen) := put_reference (put_type fuel) t' seen in
              Some (112 :: a ++ b, seen)
          end
      end
  end.

(** 1651-1658 *)
Definition write_type (fuel : nat) (t : tid) : option (list N) := let? (out, _) := put_type fuel t [] in Some out.

End Put.

Section Get.
Variables (base : nat) (find : option (N -> option tid)) (get_destructor : list N -> option (N * list N)).

(** The types made (the one at address [base + i] at index [i]), the array Types, and the stream *)
Record reading := mkReading { made : list type; found : list tid; stream : list N }.

Definition getter := reading -> option (tid * reading).

(** CCMemoryZoneAllocate and CCArrayAppendElement. The memory is not initialised. *)
Definition allocate (r : reading) : tid * reading :=
  let a := (base + length (made r))%nat in (a, mkReading (made r ++ [TFloat 0 Native]) (found r ++ [a]) (stream r)).
Definition store (a : tid) (d : type) (r : reading) : reading := mkReading (upd (made r) (a - base) d) (found r) (stream r).
Definition read_size (r : reading) : option (N * reading) := let? (n, s) := get_size (stream r) in Some (n, mkReading (made r) (found r) s).

(** 1769-1772, 1837-1840, 1884-1887, 1905-1908 *)
Definition get_reference (get : getter) : getter := fun r =>
  let? (i, r) := read_size r in
  if i <? N.of_nat (length (found r)) then let? t := nth_error (found r) (N.to_nat i) in Some (t, r) else get r.

(** 1831-1841 *)
Fixpoint get_fields (get : getter) (n : nat) (r : reading) : option (list field * reading) :=
  match n with
  | O => Some ([], r)
  | S n =>
      let? (o, r) := read_size r in
      let? (t, r) := get_reference get r in
      let? (fields, r) := get_fields get n r in
      Some (mkField 0 o t :: fields, r)
  end.

(** 1674-1914 *)
Fixpoint get_type (fuel : nat) : getter := fun r =>
  match fuel, stream r with
  | O, _ | _, [] => None
  | S fuel, b :: s =>
      let r := mkReading (made r) (found r) s in
      match find, (let? _ := find in lookup_id b) with
      | Some find, Some id => let? t := find id in Some (t, mkReading (made r) (found r ++ [t]) s)
      | _, _ =>
          match b / 16 with
          | 0 =>
              let (a, r) := allocate r in
              let? o := ownership_of (N.land b 3) in
              let? (t, r) := get_reference (get_type fuel) r in
              if N.land b 4 =? 0 then None
              else
                let? (destructor, s) := get_destructor (stream r) in
                Some (a, store a (TPointer t o destructor) (mkReading (made r) (found r) s))
          | 1 =>
              let (a, r) := allocate r in
              let? e := endian_of (N.land b 3) in
              let? (size, r) := read_size r in
              Some (a, store a (TInteger size e (negb (N.land b 8 =? 0)) (negb (N.land b 4 =? 0))) r)
          | 2 =>
              let (a, r) := allocate r in
              let? e := endian_of (N.land b 3) in
              let? (size, r) := read_size r in
              Some (a, store a (TFloat size e) r)
          | 3 =>
              let? (size, r) := read_size r in
              let? (count, r) := read_size r in
              let (a, r) := allocate r in
              let? (fields, r) := get_fields (get_type fuel) (N.to_nat count) r in
              Some (a, store a (TStruct size fields) r)
          | 5 =>
              let (a, r) := allocate r in
              let? (count, r) := read_size r in
              let? (t, r) := get_reference (get_type fuel) r in
              Some (a, store a (TArray t count) r)
          | 7 =>
              let (a, r) := allocate r in
              let? (bs, s) := deserialize_variable true Native 8 (stream r) in
              let? (t, r) := get_reference (get_type fuel) (mkReading (made r) (found r) s) in
              Some (a, store a (TEnumerable t (of_bytes bs)) r)
          | _ => None
          end
      end
  end.

(** 1916-1925: the type, the table with the types made, and the rest of the stream *)
Definition read_type (types : tid -> type) (fuel : nat) (s : list N) : option (tid * (tid -> type) * list N) :=
  let? (a, r) := get_type fuel (mkReading [] [] s) in
  Some (a, fun t => if (t <? base)%nat then types t else nth (t - base) (made r) (TFloat 0 Native), stream r).

End Get.
