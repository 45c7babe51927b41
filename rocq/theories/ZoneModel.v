(** Model of memory zones: CommonC/MemoryZone.c 79-243. The system allocator is the environment: [got] is what a
    new block's CCMalloc gives (the address of its data). A failed assertion is [None]. Sizes are not
    bounded by 2^64 here except in the alignment arithmetic; a zone's sizes are at most the memory in use.
    The saved states live in the zone's memory: users do not write there. *)
From Verif Require Import Base Word AlignedModel.
Local Open Scope N_scope.

(** MemoryZone.h 40-48: the address of the data, and the offset of its free part. *)
Record block := mkBlock { base : N; offset : N }.
(** MemoryZone.h 50-55. [blocks]: the last one first; the zone's own block is at the end of the list.
    [states]: the sizes of the saved states, newest first (MemoryZone.h 35-38). *)
Record zone := mkZone { blockSize : N; blocks : list block; states : list N }.

(** Lines 79-102 *)
Definition create (bs addr : N) : zone := mkZone (if bs <? 16 then 16 else bs) [mkBlock addr 0] [].

(** Line 161 *)
Definition bump (n : N) (ss : list N) : list N := match ss with [] => [] | s :: t => s + n :: t end.

(** CCMemoryZoneAllocate, lines 129-164 *)
Definition allocate (z : zone) (n : N) (got : option N) : option (zone * option N) :=
  if (n =? 0) || (blockSize z <? n) then None
  else match blocks z with
  | [] => None
  | b :: rest =>
      if blockSize z <? offset b + n
      then match got with
           | None => Some (z, None)
           | Some a => Some (mkZone (blockSize z) (mkBlock a n :: b :: rest) (bump n (states z)), Some a)
           end
      else Some (mkZone (blockSize z) (mkBlock (base b) (offset b + n) :: rest) (bump n (states z)), Some (base b + offset b))
  end.

(** The padding CCMemoryZoneAlignedAllocate adds, lines 117-122 *)
Definition padding (z : zone) (n a : N) : option N :=
  match blocks z with
  | [] => None
  | b :: _ =>
      let o := base b + offset b in
      let pad := wsub 64 (align o a) o in
      Some (if blockSize z - offset b <? n + pad then a else pad)
  end.

(** Lines 111-127 *)
Definition aligned_allocate (z : zone) (n a : N) (got : option N) : option (zone * option N) :=
  if n =? 0 then None
  else
    let? pad := padding z n a in
    let? (z', p) := allocate z (n + pad) got in
    Some (z', match p with Some p => Some (align p a) | None => None end).

(** Lines 170-187 *)
Fixpoint dealloc_states (n : N) (ss : list N) : list N :=
  match ss with
  | [] => []
  | s :: t => if s <? n then dealloc_states (n - s) t else s - n :: t
  end.

(** Lines 189-220 *)
Fixpoint dealloc_blocks (n : N) (bs : list block) : list block :=
  match bs with
  | [] => []
  | b :: rest =>
      if offset b <? n
      then match rest with
           | [] => [mkBlock (base b) 0]
           | _ => dealloc_blocks (n - offset b) rest
           end
      else mkBlock (base b) (offset b - n) :: rest
  end.

(** CCMemoryZoneDeallocate, lines 166-221 *)
Definition deallocate (z : zone) (n : N) : zone :=
  mkZone (blockSize z) (dealloc_blocks n (blocks z)) (dealloc_states n (states z)).

Inductive op :=
| Alloc (n : N) (got : option N)
| AlignedAlloc (n a : N) (got : option N)
| Dealloc (n : N)
| Save (got : option N)       (* lines 223-235 *)
| Restore.                    (* lines 237-243 *)

(** [Ptr p c]: the pointer, and how much the zone grew. *)
Inductive out := Ptr (p c : N) | Null | Done.

Definition step (z : zone) (o : op) : option (zone * out) :=
  match o with
  | Alloc n got =>
      let? (z', p) := allocate z n got in Some (z', match p with Some p => Ptr p n | None => Null end)
  | AlignedAlloc n a got =>
      let? pad := padding z n a in
      let? (z', p) := aligned_allocate z n a got in
      Some (z', match p with Some p => Ptr p (n + pad) | None => Null end)
  | Dealloc n => Some (deallocate z n, Done)
  | Save got =>
      let? (z', p) := allocate z 16 got in
      let? p := p in                       (* the state is written without a test for NULL *)
      Some (mkZone (blockSize z') (blocks z') (0 :: states z'), Ptr p 16)
  | Restore => Some (match states z with [] => z | s :: _ => deallocate z (s + 16) end, Done)
  end.

Fixpoint run (z : zone) (ops : list op) : option (zone * list out) :=
  match ops with
  | [] => Some (z, [])
  | o :: t => let? (z', x) := step z o in
              let? (z'', xs) := run z' t in Some (z'', x :: xs)
  end.
