(** Model of CCReflectTypeSize (CommonC/Reflect.c 32-62).

    Simplifications: a type is a tree, so that a type that is an array of itself, on which the code does not end, is not
    one. The types a pointer, a struct or an enumerable refers to are left out, for the code does not look at them. *)
From Verif Require Import Base.
Local Open Scope N_scope.

(** Reflect.h 73-175 (the parts CCReflectTypeSize reads). [Unsupported] is any other identifier *)
Inductive type :=
| Pointer
| Integer (size : N)
| Float (size : N)
| Struct (size : N)
| Opaque (size : N)
| Array (t : type) (count : N)
| Validator (t : type)
| Enumerable
| Unsupported.

(** The product of two values of size_t, of 64 bits *)
Definition times (a b : N) : N := (a * b) mod 2 ^ 64.

(** Reflect.c 32-62. [pointer] and [enumerable] are sizeof(void* ) and sizeof(CCEnumerable). [None] is the failed assertion
    (61) *)
Fixpoint type_size (pointer enumerable : N) (t : type) : option N :=
  match t with
  | Pointer => Some pointer
  | Integer size => Some size
  | Float size => Some size
  | Struct size => Some size
  | Opaque size => Some size
  | Array t count => match type_size pointer enumerable t with Some s => Some (times s count) | None => None end
  | Validator t => type_size pointer enumerable t
  | Enumerable => Some enumerable
  | Unsupported => None
  end.
