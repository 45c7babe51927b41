(** Model of the zone and autorelease allocators: CommonC/Allocator.c 280-411 on MemoryZone.h 267-283 and the zones of
    ZoneModel.v. They differ only in the references they hold on the zone, which are not modelled: the zone lives on. One thread.

    A pointer and size here are what CCMemoryAllocate and CCMemoryReallocate (lines 534-545, 577-582) see: the first 16
    bytes of the memory are CCAllocatorHeader. What a CCZoneMemoryHeader (16 bytes before the pointer) says is the record
    [handle] instead of bytes in memory; users do not write there. Reallocations are given the allocation's own zone, or none.
    alignof(max_align_t) is 16. [None]: a failed assertion or undefined behaviour. *)
From Verif Require Import Base Word AlignedModel ZoneModel.
Local Open Scope N_scope.

Record handle := mkHandle { at_ : N; hsize : N }.

(** Lines 287-298 and 354-365. NULL from the zone is written to (line 294). *)
Definition zalloc (z : zone) (size : N) (got : option N) : option (zone * handle) :=
  if size + 16 <? blockSize z then
    let? (z, head) := aligned_allocate z (size + 16) 16 got in
    let? head := head in
    Some (z, mkHandle (head + 16) size)
  else None.

(** MemoryZone.h 267-283: CCMemoryZoneGetBlockForPointer; the blocks are tried from the first on. *)
Definition block_for (z : zone) (p : N) : option block :=
  find (fun k => (base k <=? p) && (p <? base k + offset k)) (rev (blocks z)).

(** Whether the block has none after it (line 318: [!Block->next]) *)
Definition is_last (z : zone) (k : block) : bool :=
  match blocks z with b :: _ => (base b =? base k) | [] => false end.

(** memcpy of n bytes; [None]: the regions overlap. The source has to be in [lo, hi) *)
Definition memcpy (m : mem) (dst src n lo hi : N) : option mem :=
  if (lo <=? src) && (src + n <=? hi) && ((dst + n <=? src) || (src + n <=? dst)) then Some (memmove m dst src n) else None.

(** Lines 331-341 and 398-406: to new memory. [k]: the block the old memory is in *)
Definition zmove (z : zone) (m : mem) (h : handle) (k : block) (size : N) (got : option N) : option (zone * mem * handle) :=
  let? (z', head) := aligned_allocate z (size + 16) 16 got in
  let? head := head in
  let p := head + 16 in
  let? m := memcpy m p (at_ h) size (base k) (base k + blockSize z) in
  Some (z', m, mkHandle p size).

(** Lines 300-342 and 367-407 *)
Definition zrealloc (z : zone) (m : mem) (h : handle) (size : N) (got : option N) : option (zone * mem * handle) :=
  if size + 16 <? blockSize z then
    if size <=? hsize h then Some (z, m, h)                           (* line 311 *)
    else
      let? k := block_for z (at_ h) in                                (* lines 313-316 *)
      let off := at_ h - base k in
      if is_last z k && (wsub 64 (offset k) (hsize h) =? off) && (off + size <=? blockSize z) (* lines 318-320 *)
      then let? (z, _) := allocate z (size - hsize h) got in Some (z, m, mkHandle (at_ h) size)
      else zmove z m h k size got
  else None.

(** Users of one zone: allocations by these allocators, and others made in the zone directly. A freed allocation's memory stays
    with the zone (lines 344-349, 409-411). *)
Inductive op :=
| New (size : N) (got : option N)
| Put (i : nat) (j v : N)
| Resize (i : nat) (size : N) (got : option N)
| Free (i : nat)
| Other (n : N) (got : option N).
Record state := mkState { zn : zone; memory : mem; live : list (option handle) }.

Definition handle_of (s : state) (i : nat) : option handle := let? h := nth_error (live s) i in h.

Definition step (s : state) (o : op) : option state :=
  match o with
  | New size got => let? (z, h) := zalloc (zn s) size got in Some (mkState z (memory s) (live s ++ [Some h]))
  | Put i j v => let? h := handle_of s i in Some (mkState (zn s) (fun x => if x =? at_ h + j then v else memory s x) (live s))
  | Resize i size got =>
      let? h := handle_of s i in
      let? x := zrealloc (zn s) (memory s) h size got in
      match x with (z, m, h') => Some (mkState z m (upd (live s) i (Some h'))) end
  | Free i => let? h := handle_of s i in Some (mkState (zn s) (memory s) (upd (live s) i None))
  | Other n got => let? (z, _) := allocate (zn s) n got in Some (mkState z (memory s) (live s))
  end.
