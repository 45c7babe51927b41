(** Model of the bounds checking allocator: CommonC/Allocator.c 170-228, reached through CCMemoryAllocate, CCMemoryReallocate
    and CCMemoryDeallocate (509-592, 632-666), for one allocation. Memory and the system allocator are those of
    AlignedModel.v. Pointers and size_t are 8 bytes, little-endian; both headers are 16 bytes. One thread; the client
    has the only reference and sets no destructor. The size is at most 2^64 - 41, so that no sum wraps (with a larger
    one line 173 asks malloc for too little; see [asked]). *)
From Verif Require Import Base Word AlignedModel.
Local Open Scope N_scope.

Definition store8 (m : mem) (a v : N) : mem := fun x => if x =? a then v else m x.

(** The size line 173 and line 200 pass to the system allocator, for a user's size (CCMemoryAllocate adds 16, line 534) *)
Definition asked (n : N) : N := wadd 64 (wadd 64 n 16) 24.

(** Lines 176-180 and 203-207: the guard bytes of the block at [b]; [size] includes the header *)
Definition mark (m : mem) (b size : N) : mem :=
  fold_left (fun m i => store8 (store8 m (b + 8 + i) i) (b + 8 + (8 + size + i)) i) [0; 1; 2; 3; 4; 5; 6; 7] m.

(** Lines 194-198 and 221-225; [false]: an assertion fails *)
Definition checked (m : mem) (b : N) : bool :=
  let cur := load64 m b in
  forallb (fun i => (m (b + 8 + i) =? i) && (m (b + 8 + (8 + cur + i)) =? i)) [0; 1; 2; 3; 4; 5; 6; 7].

(** The address of the block (line 173's malloc) whose user pointer is [p]: lines 184, 192, 219 (16 bytes) and
    CCAllocatorHeader (16 bytes) *)
Definition block_of (p : N) : N := p - 32.

(** CCMemoryAllocate (lines 526-545) with BoundsCheckAllocator (lines 171-188): the memory and the user's pointer. The header is
    the allocator's index and the reference count, 4 bytes each, and the destructor, 8 bytes. *)
Definition allocate (m : mem) (n : N) (got : option N) : option (mem * N) :=
  let size := wadd 64 n 16 in
  if n <? size then
    let? b := got in
    let m := store64 (mark m b size) b size in
    Some (store64 (store64 m (b + 16) (5 + 2 ^ 32 * 1)) (b + 24) 0, b + 32)
  else None.

(** What a call comes to. [Astray]: another allocator's function, or a destructor that was never set, is called. *)
Inductive outcome := Fine | Alarm | Astray.

(** The header's allocator and reference count *)
Definition index (m : mem) (p : N) : N := load64 m (p - 16) mod 2 ^ 32.
Definition ref_count (m : mem) (p : N) : N := load64 m (p - 16) / 2 ^ 32.
Definition destructor (m : mem) (p : N) : N := load64 m (p - 8).

(** CCMemoryReallocate (lines 554-592) with BoundsCheckReallocator (lines 190-215): memory and the new pointer, if there is one. An
    index below 0 (the memory is lost) or one of another allocator leads astray; one of CC_ALLOCATORS_MAX or more fails the assertion of line 575. *)
Definition reallocate (m : mem) (p oldsize n : N) (got : option N) (garbage : mem) : mem * option N * outcome :=
  let i := index m p in
  if 2 ^ 31 <=? i then (m, None, Astray)
  else if 20 <=? i then (m, None, Alarm)
  else if negb (i =? 5) then (m, None, Astray)
  else
    let size := wadd 64 n 16 in
    if n <? size then
      let b := block_of p in
      if checked m b then
        match got with
        | None => (m, None, Fine)
        | Some b' =>
            let m := realloc_mem m b (asked oldsize) b' (asked n) garbage in
            (store64 (mark m b' size) b' size, Some (b' + 32), Fine)
        end
      else (m, None, Alarm)
    else (m, None, Fine).

(** CCMemoryDeallocate (lines 632-666) with BoundsCheckDeallocator (lines 217-228): whether the block was given back to the system *)
Definition deallocate (m : mem) (p : N) : bool * outcome :=
  let i := index m p in
  if 2 ^ 31 <=? i then (false, Fine) (* line 639 *)
  else
    let count := wsub 32 (ref_count m p) 1 in
    if 20 <=? i then (false, Alarm)                 (* line 649 *)
    else if 2 ^ 31 <=? count then (false, Alarm)    (* line 650 *)
    else if negb (count =? 0) then (false, Fine)
    else if negb (destructor m p =? 0) || negb (i =? 5) then (false, Astray)
    else if checked m (block_of p) then (true, Fine) else (false, Alarm).

(** The user of the allocation: writes at any distance from the pointer, and resizes. *)
Inductive op := Write (d : Z) (v : N) | Resize (n : N) (got : option N) (garbage : mem).
Record state := mkState { memory : mem; ptr : N; size : N }.

Definition step (s : state) (o : op) : state * outcome :=
  match o with
  | Write d v => (mkState (store8 (memory s) (Z.to_N (Z.of_N (ptr s) + d)) v) (ptr s) (size s), Fine)
  | Resize n got garbage =>
      match reallocate (memory s) (ptr s) (size s) n got garbage with
      | (m, Some p, x) => (mkState m p n, x)
      | (m, None, x) => (mkState m (ptr s) (size s), x)
      end
  end.

(** A program, up to its first call that does not go well *)
Fixpoint run (s : state) (ops : list op) : state * outcome :=
  match ops with
  | [] => (s, Fine)
  | o :: t => match step s o with (s, Fine) => run s t | (s, x) => (s, x) end
  end.
