(** Model of CCReflectCopy (CommonC/Reflect.c 815-982).

    Simplifications: the objects that pointers point to are the entries of a list, an address is an index into it, and an
    object has a reference count (CCRetain) and a value. A structure is the list of its fields' values (offsets and padding
    left out). Validators, opaque types (which are copied by functions of the program) and static pointers are left out;
    allocators and destructors are not followed, and memory is always available.

    As when values are read (C61), what an element of an enumerable takes from the zone while it is copied is given back after
    the element (970-972): [Gone]. *)
From Verif Require Import Base ReflectTypeModel.
Local Open Scope N_scope.

Definition addr := nat.

Inductive datum :=
| Raw (bs : list N)
| Group (vs : list datum)
| Ptr (p : option addr)
| Enumerated (vs : list datum)
| Gone.

Record object := mkObject { refs : N; content : datum }.

Definition type_id := nat.

(** A pointer to [None] is a void pointer. *)
Inductive layout :=
| Plain (size : nat)
| Fields (ts : list type_id)
| Several (t : type_id) (count : nat)
| PointerTo (t : option type_id) (o : ownership)
| Enumeration (t : type_id).

(** Reflect.h 403-409 *)
Inductive assignment := ATransfer | AShare | ACopy.

(** What is left of a value that was made between CCMemoryZoneSave and CCMemoryZoneRestore *)
Fixpoint give_back (v : datum) : datum :=
  match v with
  | Raw bs => Raw bs
  | Group vs => Group (map give_back vs)
  | Ptr p => Ptr p
  | Enumerated vs => Enumerated (map (fun _ => Gone) vs)
  | Gone => Gone
  end.
Definition give_back_object (o : object) : object := mkObject (refs o) (give_back (content o)).

Section Copy.
Variables (env : type_id -> layout) (how : assignment) (weak_too : bool).

(** 848-868: whether the object behind a pointer that is not NULL (and not void) is copied *)
Definition follows (o : ownership) : bool :=
  match o with Weak => weak_too | Retain => match how with AShare => false | _ => true end | Transfer => true end.

(** CCRetain *)
Definition retain (a : addr) (heap : list object) : option (list object) :=
  let? o := nth_error heap a in Some (upd heap a (mkObject (refs o + 1) (content o))).

(** The fields of a structure, the elements of an array (898-902, 941-944) or of an enumerable (966-973) *)
Fixpoint copy_list (copy : type_id -> datum -> list object -> option (datum * list object)) (in_zone : bool) (ts : list type_id) (vs : list datum) (heap : list object) : option (list datum * list object) :=
  match ts, vs with
  | [], [] => Some ([], heap)
  | t :: ts, v :: vs =>
      let? (v', heap') := copy t v heap in
      let (v', heap') := if in_zone then (give_back v', firstn (length heap) heap' ++ map give_back_object (skipn (length heap) heap')) else (v', heap') in
      let? (vs', heap'') := copy_list copy in_zone ts vs heap' in
      Some (v' :: vs', heap'')
  | _, _ => None
  end.

(** 815-982. Assignment is 0 for a transfer without CCReflectAssignmentCopyWeakRefs. [None]: the value is not of the type, the
    fuel is too small, or a pointer that is followed or retained leads nowhere. *)
Fixpoint copy (fuel : nat) (t : type_id) (v : datum) (heap : list object) : option (datum * list object) :=
  match fuel with
  | O => None
  | S fuel =>
      match env t, v with
      | Plain size, Raw bs => if (length bs =? size)%nat then Some (Raw bs, heap) else None
      | Fields ts, Group vs => let? (vs, heap) := copy_list (copy fuel) false ts vs heap in Some (Group vs, heap)
      | Several t count, Group vs => let? (vs, heap) := copy_list (copy fuel) false (repeat t count) vs heap in Some (Group vs, heap)
      | PointerTo _ _, Ptr None => Some (Ptr None, heap)
      | PointerTo t o, Ptr (Some a) =>
          match how, weak_too with
          | ATransfer, false => Some (Ptr (Some a), heap)
          | _, _ =>
              match t with
              | None => match o with Retain => let? heap := retain a heap in Some (Ptr (Some a), heap) | _ => Some (Ptr (Some a), heap) end
              | Some t =>
                  if follows o
                  then
                    let? source := nth_error heap a in
                    let a' := length heap in
                    let? (v, heap) := copy fuel t (content source) (heap ++ [mkObject 1 Gone]) in
                    Some (Ptr (Some a'), upd heap a' (mkObject 1 v))
                  else match o with Retain => let? heap := retain a heap in Some (Ptr (Some a), heap) | _ => Some (Ptr (Some a), heap) end
              end
          end
      | Enumeration t, Enumerated vs => let? (vs, heap) := copy_list (copy fuel) true (map (fun _ => t) vs) vs heap in Some (Enumerated vs, heap)
      | _, _ => None
      end
  end.

End Copy.
