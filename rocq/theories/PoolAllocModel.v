(** Model of the pool allocator: CommonC/PoolAllocator.c 29-56, PoolAllocator.h 34-58, and the callbacks in
    Allocator.c 416-462, reached through CCMemoryAllocate, CCMemoryReallocate and CCMemoryDeallocate.
    Sizes are size_t. A block's pool reference (16 bytes) and allocator header (16 bytes) come before the
    user's bytes. The pool's own reference count is the number of live blocks plus the user's references;
    it is not bounded here. Sequential: the pool has no locking. *)
From Verif Require Import Base Word AlignedModel.
Local Open Scope N_scope.

Record pool := mkPool
  { blockSize : N; count : nat; max : nat; base : N;       (* base: the field called pool *)
    available : list nat;                                   (* top of the stack first *)
    indexes : nat -> nat;                                   (* ref.index of each block *)
    owned : nat -> bool;                                    (* ref.pool of each block is not NULL *)
    references : nat }.                                     (* retain count; 0: the pool has been freed *)

(** CCPoolAllocatorCreate, lines 29-49, with malloc's result P. [junk]: the unwritten ref.index fields. *)
Definition create (size a : N) (m : nat) (P : N) (junk : nat -> nat) : pool :=
  let bs := align (wadd 64 size 32) a in
  mkPool bs 0 m (wsub 64 (align (wadd 64 P (48 + 8 * N.of_nat m + 32)) a) 32) [] junk (fun _ => false) 1.

(** The bytes asked from malloc, line 33. *)
Definition created_bytes (size a : N) (m : nat) : N := 48 + 8 * N.of_nat m + align (wadd 64 size 32) a * N.of_nat m.

Definition tset {X} (f : nat -> X) (t : nat) (x : X) : nat -> X := fun u => if Nat.eqb u t then x else f u.

(** The user's pointer to block i: past the pool reference and the header. *)
Definition pointer (p : pool) (i : nat) : N := base p + blockSize p * N.of_nat i + 32.

Inductive op := Alloc (size : N) | Realloc (i : nat) (size : N) | Free (i : nat) | Retain | Release.
Inductive out := Ptr (i : nat) | Null | Done.

Definition step (p : pool) (o : op) : option (pool * out) :=
  match references p with
  | O => None                                              (* use after free *)
  | S r =>
      match o with
      | Alloc size => (* Allocator.c 530-531, 416-441 *)
          let newsize := wadd 64 size 16 in
          if negb (size <? newsize) then Some (p, Null)
          else if blockSize p <? wadd 64 newsize 16 then Some (p, Null)
          else match available p with
          | i :: rest =>
              Some (mkPool (blockSize p) (count p) (max p) (base p) rest (indexes p) (tset (owned p) i true) (S (references p)), Ptr i)
          | [] =>
              if Nat.eqb (count p) (max p) then Some (p, Null)
              else let i := count p in
                   Some (mkPool (blockSize p) (S (count p)) (max p) (base p) [] (tset (indexes p) i i)
                           (tset (owned p) i true) (S (references p)), Ptr i)
          end
      | Realloc i size => (* 575-585, 443-450 *)
          let newsize := wadd 64 size 16 in
          if owned p i
          then if negb (size <? newsize) then Some (p, Null)
               else if blockSize p <? wadd 64 newsize 16 then Some (p, Null) else Some (p, Ptr i)
          else None
      | Free i => (* 452-462, the last reference to the block *)
          if owned p i
          then if Nat.ltb (length (available p)) (max p)
               then Some (mkPool (blockSize p) (count p) (max p) (base p) (indexes p i :: available p) (indexes p)
                            (tset (owned p) i false) r, Done)
               else None                                   (* would write past the index array *)
          else None
      | Retain => Some (mkPool (blockSize p) (count p) (max p) (base p) (available p) (indexes p) (owned p) (S (references p)), Done)
      | Release => (* CCPoolAllocatorDestroy, lines 51-56 *)
          Some (mkPool (blockSize p) (count p) (max p) (base p) (available p) (indexes p) (owned p) r, Done)
      end
  end.

Fixpoint run (p : pool) (ops : list op) : option (pool * list out) :=
  match ops with
  | [] => Some (p, [])
  | o :: t => let? (p', x) := step p o in
              let? (p'', xs) := run p' t in Some (p'', x :: xs)
  end.
