(** Model of the aligned allocator: CommonC/Allocator.c 121-167, reached through CCMemoryAllocate and
    CCMemoryReallocate (509-545, 554-588), Alignment.h 29.
    Memory is a function from addresses to bytes. The system allocator is the environment: it may return
    any address, realloc keeps the common prefix of the block and leaves garbage beyond, and frees
    the old block (whose bytes then become garbage too if the block moved). Pointers are 8 bytes, so both headers
    are 16 bytes. Writing the 16-byte header at an address that is not a multiple of 8 (alignments below
    8) is taken to work. *)
From Verif Require Import Base Word.
Local Open Scope N_scope.

Definition mem := N -> N.

(** CC_ALIGN on 64-bit words, Alignment.h 29 *)
Definition align (x a : N) : N := N.land (wsub 64 (wadd 64 x a) 1) (wnot 64 (wsub 64 a 1)).

(** An 8-byte little-endian load and store. *)
Definition load64 (m : mem) (a : N) : N :=
  m a + 256 * (m (a + 1) + 256 * (m (a + 2) + 256 * (m (a + 3) +
  256 * (m (a + 4) + 256 * (m (a + 5) + 256 * (m (a + 6) + 256 * m (a + 7))))))).
Definition store64 (m : mem) (a v : N) : mem :=
  fun x => if (a <=? x) && (x <? a + 8) then (v / 256 ^ (x - a)) mod 256 else m x.

(** memmove, n bytes from src to dst *)
Definition memmove (m : mem) (dst src n : N) : mem :=
  fun x => if (dst <=? x) && (x <? dst + n) then m (src + (x - dst)) else m x.

(** What the user holds. [total] is the size of the system block, known only to the system. *)
Record block := mkBlock { ptr : N; head_ : N; total : N }.

(** Line 132 (and 150, 152): where the allocator's pointer goes in the block at Head. *)
Definition place (head a : N) : N := wsub 64 (align (wadd 64 head 32) a) 16.

(** AlignedAllocator, lines 127-139. [got]: what malloc returns. *)
Definition alloc_aligned (m : mem) (a size : N) (got : option N) : option (mem * block) :=
  let total := wadd 64 (wadd 64 size a) 16 in
  let? head := got in
  let p := place head a in
  Some (store64 (store64 m (wsub 64 p 16) head) (wsub 64 p 8) a, mkBlock p head total).

(** What realloc leaves in memory. *)
Definition realloc_mem (m : mem) (old oldtotal new newtotal : N) (garbage : mem) : mem :=
  if new =? old then fun x => if (new + oldtotal <=? x) && (x <? new + newtotal) then garbage x else m x
  else fun x => if (new <=? x) && (x <? new + newtotal)
                then if x - new <? oldtotal then m (old + (x - new)) else garbage x
                else if (old <=? x) && (x <? old + oldtotal) then garbage x
                else m x.

(** AlignedReallocator, lines 141-162. *)
Definition realloc_aligned (m : mem) (b : block) (size : N) (got : option N) (garbage : mem) : mem * option block :=
  let head := load64 m (wsub 64 (ptr b) 16) in
  let a := load64 m (wsub 64 (ptr b) 8) in
  let newtotal := wadd 64 (wadd 64 size a) 16 in
  match got with
  | None => (m, None)
  | Some new =>
      let m1 := realloc_mem m head (total b) new newtotal garbage in
      if new =? head then (m1, Some (mkBlock (ptr b) new newtotal))
      else
        let p := place new a in
        let src := wadd 64 (wsub 64 (place head a) head) new in
        let m2 := memmove m1 p src size in
        (store64 (store64 m2 (wsub 64 p 16) new) (wsub 64 p 8) a, Some (mkBlock p new newtotal))
  end.

(** CCMemoryAllocate 526-544: the user's pointer is 16 bytes further. The header written there (allocator,
    reference count, destructor) is an arbitrary 16-byte content [hdr]. *)
Definition allocate (m : mem) (a size : N) (got : option N) (hdr : N -> N) : option (mem * block) :=
  let newsize := wadd 64 size 16 in
  if size <? newsize then
    let? (m1, b) := alloc_aligned m a newsize got in
    Some ((fun x => if (ptr b <=? x) && (x <? ptr b + 16) then hdr (x - ptr b) else m1 x), b)
  else None.
Definition user (b : block) : N := wadd 64 (ptr b) 16.

(** CCMemoryReallocate 575-585 *)
Definition reallocate (m : mem) (b : block) (size : N) (got : option N) (garbage : mem) : mem * option block :=
  let newsize := wadd 64 size 16 in
  if size <? newsize then realloc_aligned m b newsize got garbage else (m, None).

(** A block and its user: writes inside it, and resizes. *)
Inductive op := Write (i v : N) | Resize (n : N) (got : option N) (garbage : mem).
Record state := mkState { memory : mem; blk : block; size : N }.

Definition step (s : state) (o : op) : option state :=
  match o with
  | Write i v =>
      if i <? size s
      then Some (mkState (fun x => if x =? user (blk s) + i then v else memory s x) (blk s) (size s))
      else None
  | Resize n got garbage =>
      match reallocate (memory s) (blk s) n got garbage with
      | (m, Some b) => Some (mkState m b n)
      | (m, None) => Some (mkState m (blk s) (size s))
      end
  end.
Fixpoint run (s : state) (ops : list op) : option state :=
  match ops with [] => Some s | o :: t => let? s' := step s o in run s' t end.
