(** Model of the custom and the callback allocator, CommonC/Allocator.c 52-118, and CommonC/CallbackAllocator.h.

    Memory is blocks of words, a word being what a pointer takes up. A block is named by a number that was never used
    before and a pointer is a block and a position in it. Functions are numbers. [None] is undefined behaviour: an access
    outside of a block or to one that was given back, or a call of something that is not a function.
    Simplifications: sizes are in words; what the functions of a custom allocator do is what malloc, realloc and free
    do, with an outcome chosen by the call; a callback is told of an event and chooses a size. *)
From Verif Require Import Base.

Notation fn := nat (only parsing).

(** A word: a pointer to a function or NULL, a value of the user, or never set. *)
Inductive word := Fn (f : option fn) | Value (v : N) | Unset.

Definition ptr : Type := nat * nat.
Definition memory : Type := list (option (list word)).

(** What realloc does: fail, keep the block where it is, or move it. *)
Inductive outcome := Fail | Stay | Move.

Definition block (m : memory) (b : nat) : option (list word) := match nth_error m b with Some o => o | None => None end.
Definition resize (ws : list word) (n : nat) : list word := firstn n ws ++ repeat Unset (n - length ws).

(** [p[i]], where [i] may be behind the pointer *)
Definition at_ (p : ptr) (i : Z) : option nat := let i := (Z.of_nat (snd p) + i)%Z in if (i <? 0)%Z then None else Some (Z.to_nat i).
Definition load (m : memory) (p : ptr) (i : Z) : option word := let? ws := block m (fst p) in let? i := at_ p i in nth_error ws i.
Definition store (m : memory) (p : ptr) (i : Z) (w : word) : option memory :=
  let? ws := block m (fst p) in let? i := at_ p i in
  if i <? length ws then Some (upd m (fst p) (Some (upd ws i w))) else None.

(** Pointer arithmetic *)
Definition forward (p : ptr) (n : nat) : ptr := (fst p, snd p + n).
Definition back (p : ptr) (n : nat) : option ptr := if n <=? snd p then Some (fst p, snd p - n) else None.

(** malloc, realloc and free; [None] for the latter two: not the start of a live block *)
Definition malloc (m : memory) (n : nat) (ok : bool) : memory * option ptr :=
  if ok then (m ++ [Some (repeat Unset n)], Some (length m, 0)) else (m, None).
Definition realloc (m : memory) (p : ptr) (n : nat) (how : outcome) : option (memory * option ptr) :=
  if snd p =? 0 then
    let? ws := block m (fst p) in
    Some match how with
         | Fail => (m, None)
         | Stay => (upd m (fst p) (Some (resize ws n)), Some p)
         | Move => (upd m (fst p) None ++ [Some (resize ws n)], Some (length m, 0))
         end
  else None.
Definition free (m : memory) (p : ptr) : option memory :=
  if snd p =? 0 then let? _ := block m (fst p) in Some (upd m (fst p) None) else None.

(** The user's reads and writes *)
Inductive access := Read (p : ptr) (i : nat) | Write (p : ptr) (i : nat) (v : N).
Definition touch (m : memory) (a : access) : option (memory * option word) :=
  match a with
  | Read p i => let? w := load m p (Z.of_nat i) in Some (m, Some w)
  | Write p i v => let? m := store m p (Z.of_nat i) (Value v) in Some (m, None)
  end.

(** The results of an operation on memory *)
Inductive result := Returned (p : option ptr) | Freed | Seen (w : option word).

(** ** The custom allocator *)
(** The three functions that are the data of CC_CUSTOM_ALLOCATOR (Allocator.h 44-52) *)
Record functions := mkFunctions { f_alloc : option fn; f_realloc : option fn; f_free : option fn }.

(** A call of one of them with its arguments *)
Inductive call := CallAlloc (f : fn) (size : nat) | CallRealloc (f : fn) (p : ptr) (size : nat) | CallFree (f : fn) (p : ptr).

(** The function in a word. [None]: it isn't one. *)
Definition callee (w : word) : option fn := match w with Fn f => f | _ => None end.

(** Lines 53-68: CustomAllocator *)
Definition custom_alloc (m : memory) (data : option functions) (size : nat) (ok : bool) : option (memory * list call * option ptr) :=
  match data with
  | Some (mkFunctions (Some a) r d) =>
      let (m, p) := malloc m (size + 3) ok in
      match p with
      | Some p =>
          let? m := store m p 0 (Fn (Some a)) in let p := forward p 1 in
          let? m := store m p 0 (Fn r) in let p := forward p 1 in
          let? m := store m p 0 (Fn d) in let p := forward p 1 in
          Some (m, [CallAlloc a (size + 3)], Some p)
      | None => Some (m, [CallAlloc a (size + 3)], None)
      end
  | _ => Some (m, [], None)
  end.

(** 70-77: CustomReallocator *)
Definition custom_realloc (m : memory) (data : option functions) (p : ptr) (size : nat) (how : outcome) : option (memory * list call * option ptr) :=
  let? p := back p 3 in
  let? w := load m p 1 in let? f := callee w in
  let? (m, q) := realloc m p (size + 3) how in
  Some (m, [CallRealloc f p (size + 3)], match q with Some q => Some (forward q 3) | None => None end).

(** 79-83: CustomDeallocator *)
Definition custom_free (m : memory) (p : ptr) : option (memory * list call) :=
  let? p := back p 3 in
  let? w := load m p 2 in let? f := callee w in
  let? m := free m p in
  Some (m, [CallFree f p]).

Inductive op :=
| Alloc (data : option functions) (size : nat) (ok : bool)
| Realloc (data : option functions) (p : ptr) (size : nat) (how : outcome)
| Dealloc (p : ptr)
| Access (a : access).

Definition custom_step (m : memory) (o : op) : option (memory * list call * result) :=
  match o with
  | Alloc d n ok => let? (m, l, p) := custom_alloc m d n ok in Some (m, l, Returned p)
  | Realloc d p n how => let? (m, l, p) := custom_realloc m d p n how in Some (m, l, Returned p)
  | Dealloc p => let? (m, l) := custom_free m p in Some (m, l, Freed)
  | Access a => let? (m, w) := touch m a in Some (m, [], Seen w)
  end.

(** ** The callback allocator *)
(** CallbackAllocator.h 32-38: CCCallbackAllocatorEvent *)
Inductive event := AllocatePre | AllocatePost | ReallocatePre | ReallocatePost | DeallocatePre.

(** A call of a callback: the event, the pointer and the size it is told. *)
Record told := mkTold { t_callback : fn; t_event : event; t_pointer : option ptr; t_size : option nat }.

Definition tell (f : option fn) (e : event) (p : option ptr) (size : option nat) : list told :=
  match f with Some f => [mkTold f e p size] | None => [] end.

(** The size after a callback, which stores [size'] there. *)
Definition changed (f : option fn) (size size' : nat) : nat := match f with Some _ => size' | None => size end.

(** Lines 87-97: CallbackAllocator. What the second call stores in the size is not used. *)
Definition callback_alloc (m : memory) (f : option fn) (size size' : nat) (ok : bool) : option (memory * list told * option ptr) :=
  let pre := tell f AllocatePre None (Some size) in
  let size := changed f size size' in
  let (m, p) := malloc m (size + 1) ok in
  match p with
  | Some p => let? m := store m p 0 (Fn f) in let p := forward p 1 in Some (m, pre ++ tell f AllocatePost (Some p) (Some size), Some p)
  | None => Some (m, pre ++ tell f AllocatePost None (Some size), None)
  end.

(** 99-110: CallbackReallocator *)
Definition callback_realloc (m : memory) (data : option fn) (p : ptr) (size size' : nat) (how : outcome) : option (memory * list told * option ptr) :=
  let? w := load m p (-1) in
  let? f := match w with Fn f => Some f | _ => None end in
  let pre := tell f ReallocatePre (Some p) (Some size) in
  let size := changed f size size' in
  let? p := back p 1 in
  let? (m, q) := realloc m p (size + 1) how in
  let q := match q with Some q => Some (forward q 1) | None => None end in
  Some (m, pre ++ tell f ReallocatePost q (Some size), q).

(** 112-118: CallbackDeallocator *)
Definition callback_free (m : memory) (p : ptr) : option (memory * list told) :=
  let? w := load m p (-1) in
  let? f := match w with Fn f => Some f | _ => None end in
  let? b := back p 1 in
  let? m := free m b in
  Some (m, tell f DeallocatePre (Some p) None).

(** [size']: what the callback stores in the size when it is told before the allocation *)
Inductive cop :=
| CAlloc (f : option fn) (size size' : nat) (ok : bool)
| CRealloc (data : option fn) (p : ptr) (size size' : nat) (how : outcome)
| CDealloc (p : ptr)
| CAccess (a : access).

Definition callback_step (m : memory) (o : cop) : option (memory * list told * result) :=
  match o with
  | CAlloc f n n' ok => let? (m, l, p) := callback_alloc m f n n' ok in Some (m, l, Returned p)
  | CRealloc d p n n' how => let? (m, l, p) := callback_realloc m d p n n' how in Some (m, l, Returned p)
  | CDealloc p => let? (m, l) := callback_free m p in Some (m, l, Freed)
  | CAccess a => let? (m, w) := touch m a in Some (m, [], Seen w)
  end.

(** A program's calls, with the calls of functions and the results of each *)
Section Run.
Context {St O L : Type} (step : St -> O -> option (St * list L * result)).

Fixpoint run (m : St) (os : list O) : option (St * list (list L * result)) :=
  match os with
  | [] => Some (m, [])
  | o :: os => let? (m, l, r) := step m o in let? (m, rs) := run m os in Some (m, (l, r) :: rs)
  end.

End Run.
