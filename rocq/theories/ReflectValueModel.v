(** Model of CCReflectSerializeBinary and CCReflectDeserializeBinary (CommonC/Reflect.c 1953-2063, 2128-2280).

    Simplifications: a type is an index into the table [env] of the program's reflected types, so types can be recursive; a
    structure is the list of its fields' values (offsets and padding left out), a dynamic pointer the value it points to, an
    enumerable the list of its elements. Static pointers and opaque types, which are serialised by functions of the program,
    are left out. A validator is the function that CCReflectValidate (64-110) makes of the value read.

    The memory the elements of an enumerable take comes from the zone. While an element is read, the zone is saved and then
    restored (2256-2258, 2269-2271), so whatever the element took from the zone itself, the elements of the enumerables in it,
    does not belong to it any more: [Released]. *)
From Verif Require Import Base ReflectStreamModel ReflectIntegerModel.
Local Open Scope N_scope.

Inductive value :=
| Bytes (bs : list N)
| Parts (vs : list value)
| Pointer (v : option value)
| Elements (vs : list value)
| Released.

Definition tid := nat.

(** Reflect.h 96-170 *)
Inductive descriptor :=
| DInteger (size : nat) (e : endian) (signed fixed : bool)
| DFloat (size : nat) (e : endian)
| DStruct (fields : list tid)
| DArray (t : tid) (count : nat)
| DPointer (t : tid)
| DValidator (t : tid) (validate : value -> value)
| DEnumerable (t : tid) (count : N).

Definition size_max : N := 2 ^ 64 - 1.

(** What is left of a value read between CCMemoryZoneSave and CCMemoryZoneRestore *)
Fixpoint release (v : value) : value :=
  match v with
  | Bytes bs => Bytes bs
  | Parts vs => Parts (map release vs)
  | Pointer None => Pointer None
  | Pointer (Some v) => Pointer (Some (release v))
  | Elements vs => Elements (map (fun _ => Released) vs)
  | Released => Released
  end.

Section Serialize.
Variables (env : tid -> descriptor) (wire : endian) (prefer : nat).

Fixpoint write_each (f : value -> option (list N)) (vs : list value) : option (list N) :=
  match vs with [] => Some [] | v :: vs => let? a := f v in let? b := write_each f vs in Some (a ++ b) end.

Fixpoint write_fields (f : tid -> value -> option (list N)) (ts : list tid) (vs : list value) : option (list N) :=
  match ts, vs with
  | [], [] => Some []
  | t :: ts, v :: vs => let? a := f t v in let? b := write_fields f ts vs in Some (a ++ b)
  | _, _ => None
  end.

(** 1953-2063. [None]: the value is not of the type, or the fuel (the depth of the value) is too small. *)
Fixpoint serialize (fuel : nat) (t : tid) (v : value) : option (list N) :=
  match fuel with
  | O => None
  | S fuel =>
      match env t, v with
      | DInteger size e signed fixed, Bytes bs => if (length bs =? size)%nat then serialize_integer e bs signed fixed prefer wire else None
      | DFloat size e, Bytes bs => if (length bs =? size)%nat then serialize_endian e bs wire else None
      | DStruct ts, Parts vs => write_fields (serialize fuel) ts vs
      | DArray t count, Parts vs => if (length vs =? count)%nat then write_each (serialize fuel t) vs else None
      | DPointer _, Pointer None => Some [0]
      | DPointer t, Pointer (Some v) => let? o := serialize fuel t v in Some (1 :: o)
      | DValidator t _, v => serialize fuel t v
      | DEnumerable t count, Elements vs =>
          let? header := serialize_variable true Native (to_bytes 8 count) in
          let? body := (if count =? size_max
                        then let? o := write_each (fun v => let? o := serialize fuel t v in Some (1 :: o)) vs in Some (o ++ [0])
                        else write_each (serialize fuel t) vs) in
          Some (header ++ body)
      | _, _ => None
      end
  end.

Definition reader := list N -> option (value * list N).

Fixpoint read_each (f : reader) (n : nat) (s : list N) : option (list value * list N) :=
  match n with O => Some ([], s) | S n => let? (v, s) := f s in let? (vs, s) := read_each f n s in Some (v :: vs, s) end.

Fixpoint read_fields (f : tid -> reader) (ts : list tid) (s : list N) : option (list value * list N) :=
  match ts with [] => Some ([], s) | t :: ts => let? (v, s) := f t s in let? (vs, s) := read_fields f ts s in Some (v :: vs, s) end.

(** 2245-2262: an element after every byte that is not 0 *)
Fixpoint read_while (f : reader) (fuel : nat) (s : list N) : option (list value * list N) :=
  match fuel, s with
  | O, _ | _, [] => None
  | S fuel, x :: s => if x =? 0 then Some ([], s) else let? (v, s) := f s in let? (vs, s) := read_while f fuel s in Some (v :: vs, s)
  end.

(** An element of an enumerable: 2254-2258, 2267-2271 *)
Definition read_element (f : reader) : reader := fun s => let? (v, s) := f s in Some (release v, s).

(** 2128-2280 *)
Fixpoint deserialize (fuel : nat) (t : tid) (s : list N) : option (value * list N) :=
  match fuel with
  | O => None
  | S fuel =>
      match env t with
      | DInteger size e signed fixed => let? (bs, s) := deserialize_integer e size signed fixed prefer wire s in Some (Bytes bs, s)
      | DFloat size e => let? (bs, s) := deserialize_endian e size wire s in Some (Bytes bs, s)
      | DStruct ts => let? (vs, s) := read_fields (deserialize fuel) ts s in Some (Parts vs, s)
      | DArray t count => let? (vs, s) := read_each (deserialize fuel t) count s in Some (Parts vs, s)
      | DPointer t =>
          match s with
          | [] => None
          | x :: s => if x =? 0 then Some (Pointer None, s) else let? (v, s) := deserialize fuel t s in Some (Pointer (Some v), s)
          end
      | DValidator t validate => let? (v, s) := deserialize fuel t s in Some (validate v, s)
      | DEnumerable t _ =>
          let? (bs, s) := deserialize_variable true Native 8 s in
          let count := of_bytes bs in
          let? (vs, s) := (if count =? size_max then read_while (read_element (deserialize fuel t)) (S (length s)) s
                           else read_each (read_element (deserialize fuel t)) (N.to_nat count) s) in
          Some (Elements vs, s)
      end
  end.

End Serialize.
