(** Model of the enumerables of memory zones (MemoryZone.c 245-355, MemoryZone.h 235-265).

    A zone is the list of its blocks in order; a block is referred to by its position in that list. A step is [None] when
    the code dereferences NULL or divides by zero. Simplifications: offsets given by the user are not negative; counts
    and indices are unbounded (the only one that would wrap is the index of a batch without elements, which is never
    used: it is 0 here). *)
From Verif Require Import Base EnumerableModel.
From Verif Require Import ZoneModel.
Local Open Scope N_scope.

(** Enumerator.h 50-54 with the reference to the current block. [z_before] and [z_limit] are the extra words: the number
    of elements in the batches before this one, and the number of elements asked for. *)
Record zenum := mkZenum { z_ref : option nat; z_ptr : N; z_count : nat; z_stride : N; z_index : nat; z_before : nat; z_limit : nat }.

(** MemoryZone.h 235-265: CCMemoryZoneBlockGetPointer, from the block at position [i]: the block, the pointer and the
    size that can be read from it *)
Fixpoint get_pointer (bs : list block) (i : nat) (off : N) : option (nat * N * N) :=
  match bs with
  | [] => None
  | k :: t => if off <? offset k then Some (i, base k + off, offset k - off) else get_pointer t (S i) (off - offset k)
  end.

(** [Block->offset / stride] *)
Definition fits (size stride : N) : nat := N.to_nat (size / stride).

(** MemoryZone.c 332-355: CCMemoryZoneBlockGetEnumerable for the block at position [k]. [None]: the division by a stride
    of zero. *)
Definition zcreate (bs : list block) (k : nat) (off stride : N) (count : nat) : option zenum :=
  if stride =? 0 then None
  else match get_pointer (skipn k bs) k off with
       | Some (i, p, size) => Some (mkZenum (Some i) p (Nat.min (fits size stride) count) stride 0 0 count)
       | None => Some (mkZenum None 0 (Nat.min (fits 0 stride) count) stride 0 0 count)
       end.

(** MemoryZone.c 327-329: the end of the handler *)
Definition zresult (e : zenum) : result :=
  if Nat.leb (z_count e) (z_index e) then None else Some (z_ptr e + N.of_nat (z_index e) * z_stride e).

Definition zindex (e : zenum) (i : nat) : zenum :=
  mkZenum (z_ref e) (z_ptr e) (z_count e) (z_stride e) i (z_before e) (z_limit e).

(** MemoryZone.c 259-298: the next action *)
Definition znext (bs : list block) (e : zenum) : option (zenum * result) :=
  if Nat.eqb (z_before e + z_count e) (z_limit e) then Some (e, None)
  else let? r := z_ref e in
       let? cur := nth_error bs r in
       match nth_error bs (S r) with
       | Some k =>
           let before := (z_before e + z_count e)%nat in
           let n := Nat.min (fits (offset k) (z_stride e)) (z_limit e - before) in
           let e := mkZenum (Some (S r)) (base k) n (z_stride e) 0 before (z_limit e) in
           Some (e, zresult e)
       | None =>
           let n := fits (offset cur) (z_stride e) in
           if Nat.eqb n (z_count e) then Some (e, None)
           else let e := mkZenum (Some r) (z_ptr e) n (z_stride e) (S (z_index e)) (z_before e) (z_limit e) in
                Some (e, zresult e)
       end.

(** MemoryZone.c 300-322: the previous action *)
Definition zprev (bs : list block) (e : zenum) : option (zenum * result) :=
  if Nat.eqb (z_before e) 0 then Some (e, None)
  else let? r := z_ref e in
       match r with
       | 0%nat => None
       | S r =>
           let? k := nth_error bs r in
           let n := fits (offset k) (z_stride e) in
           let '(p, n) := if Nat.ltb (z_before e) n then (base k + N.of_nat (n - z_before e) * z_stride e, z_before e)
                          else (base k, n) in
           let e := mkZenum (Some r) p n (z_stride e) (n - 1) (z_before e - n) (z_limit e) in
           Some (e, zresult e)
       end.

(** MemoryZone.c 249-257: the loops of the head and tail actions. [fuel] bounds the steps: each moves to another block,
    but for one step that stays in the last block. *)
Fixpoint zwhile (fuel : nat) (f : zenum -> option (zenum * result)) (e : zenum) : option zenum :=
  match fuel with
  | O => None
  | S n => let? (e, r) := f e in match r with Some _ => zwhile n f e | None => Some e end
  end.

(** MemoryZone.c 245-330: CCMemoryZoneEnumerableHandler *)
Definition zhandler (bs : list block) (e : zenum) (a : action) : option (zenum * result) :=
  match a with
  | Head => let? e := zwhile (2 + length bs) (zprev bs) e in let e := zindex e 0 in Some (e, zresult e)
  | Tail => let? e := zwhile (2 + length bs) (znext bs) e in let e := zindex e (z_count e - 1) in Some (e, zresult e)
  | Next => znext bs e
  | Previous => zprev bs e
  | Current => Some (e, zresult e)
  end.

(** Enumerable.h 141-221 for the batch format: CCEnumerableGetCurrent, GetHead, GetTail, Next and Previous *)
Definition zstep (bs : list block) (e : zenum) (a : action) : option (zenum * result) :=
  let at_ i := Some (z_ptr e + N.of_nat i * z_stride e) in
  match a with
  | Current => Some (e, if Nat.eqb (z_count e) 0 then None else at_ (z_index e))
  | Head | Tail => zhandler bs e a
  | Next =>
      if Nat.eqb (z_count e) 0 then Some (e, None)
      else if Nat.ltb (z_index e + 1) (z_count e) then Some (zindex e (z_index e + 1), at_ (z_index e + 1)%nat)
      else zhandler bs e Next
  | Previous =>
      if Nat.eqb (z_count e) 0 then Some (e, None)
      else if Nat.ltb 0 (z_index e) then Some (zindex e (z_index e - 1), at_ (z_index e - 1)%nat)
      else zhandler bs e Previous
  end.
