(** What the custom and the callback allocator promise. There is no header here: a block is what it was allocated with
    and the words the user has. *)
From Verif Require Import Base FnAllocModel.

Section Blocks.
Context {F : Type}.

(** The blocks so far, the live ones with what they were allocated with and their words *)
Record ablock := mkAblock { owner : F; words : list word }.
Definition blocks : Type := list (option ablock).

Definition find (s : blocks) (b : nat) : option ablock := match nth_error s b with Some o => o | None => None end.

(** The words kept by a change of the size, and new ones *)
Definition kept (ws : list word) (n : nat) : list word := firstn n ws ++ repeat Unset (n - length ws).

(** The blocks after a change of size, and the block the user has then *)
Definition resized (s : blocks) (b : nat) (x : ablock) (n : nat) (how : outcome) : blocks * option nat :=
  let x := mkAblock (owner x) (kept (words x) n) in
  match how with
  | Fail => (s, None)
  | Stay => (upd s b (Some x), Some b)
  | Move => (upd s b None ++ [Some x], Some (length s))
  end.

(** The user's block at a pointer, when the user's part of a block starts at position [h] *)
Definition user_block (h : nat) (s : blocks) (p : ptr) : option (nat * ablock) :=
  if snd p =? h then let? x := find s (fst p) in Some (fst p, x) else None.

(** Only the words of the user are read and written *)
Definition user_access (h : nat) (s : blocks) (a : access) : option (blocks * option word) :=
  match a with
  | Read p i => let? (b, x) := user_block h s p in let? w := nth_error (words x) i in Some (s, Some w)
  | Write p i v =>
      let? (b, x) := user_block h s p in
      if i <? length (words x) then Some (upd s b (Some (mkAblock (owner x) (upd (words x) i (Value v)))), None)
      else None
  end.

End Blocks.
Arguments ablock : clear implicits. Arguments blocks : clear implicits.

(** ** Custom: a block is resized and given back with the functions it was allocated with, which see a block that starts
    three words before the user's and is three words longer. *)
Definition custom_spec (s : blocks functions) (o : op) : option (blocks functions * list call * result) :=
  match o with
  | Alloc (Some d) n ok =>
      match f_alloc d with
      | Some a =>
          if ok then Some (s ++ [Some (mkAblock d (repeat Unset n))], [CallAlloc a (n + 3)], Returned (Some (length s, 3)))
          else Some (s, [CallAlloc a (n + 3)], Returned None)
      | None => Some (s, [], Returned None)
      end
  | Alloc None _ _ => Some (s, [], Returned None)
  | Realloc _ p n how =>
      let? (b, x) := user_block 3 s p in
      let? r := f_realloc (owner x) in
      let (s, b') := resized s b x n how in
      Some (s, [CallRealloc r (b, 0) (n + 3)], Returned (match b' with Some b' => Some (b', 3) | None => None end))
  | Dealloc p =>
      let? (b, x) := user_block 3 s p in
      let? d := f_free (owner x) in
      Some (upd s b None, [CallFree d (b, 0)], Freed)
  | Access a => let? (s, w) := user_access 3 s a in Some (s, [], Seen w)
  end.

(** ** Callback: the callback of a block is told before and after, with the pointers the allocator takes and returns,
    and the size it stores the first time is the size of the block. *)
Definition callback_spec (s : blocks (option fn)) (o : cop) : option (blocks (option fn) * list told * result) :=
  match o with
  | CAlloc (Some f) n n' ok =>
      let p := if ok then Some (length s, 1) else None in
      Some (if ok then s ++ [Some (mkAblock (Some f) (repeat Unset n'))] else s,
            [mkTold f AllocatePre None (Some n); mkTold f AllocatePost p (Some n')], Returned p)
  | CAlloc None n _ ok =>
      Some (if ok then s ++ [Some (mkAblock None (repeat Unset n))] else s, [], Returned (if ok then Some (length s, 1) else None))
  | CRealloc _ p n n' how =>
      let? (b, x) := user_block 1 s p in
      let (s, b') := resized s b x (match owner x with Some _ => n' | None => n end) how in
      let q := match b' with Some b' => Some (b', 1) | None => None end in
      Some (s, match owner x with
               | Some f => [mkTold f ReallocatePre (Some p) (Some n); mkTold f ReallocatePost q (Some n')]
               | None => []
               end, Returned q)
  | CDealloc p =>
      let? (b, x) := user_block 1 s p in
      Some (upd s b None, match owner x with Some f => [mkTold f DeallocatePre (Some p) None] | None => [] end, Freed)
  | CAccess a => let? (s, w) := user_access 1 s a in Some (s, [], Seen w)
  end.

(** What is in memory: in front of the words of the user is what the block was allocated with. *)
Definition layout {F} (header : F -> list word) (s : blocks F) : memory := map (option_map (fun x => header (owner x) ++ words x)) s.
Definition custom_header (d : functions) : list word := [Fn (f_alloc d); Fn (f_realloc d); Fn (f_free d)].
Definition callback_header (f : option fn) : list word := [Fn f].

(** The address CCMemoryAllocate returns (Allocator.c 526-552) for a block at address [base]: behind the allocator's
    words of 8 bytes and the 16 bytes of CCAllocatorHeader (Allocator.h 85-93). *)
Definition user_address (base : N) (p : ptr) : N := base + 8 * N.of_nat (snd p) + 16.

(** Alignment for every type: alignof(max_align_t) is 16 where pointers have 8 bytes *)
Definition aligned (a : N) : Prop := (a mod 16 = 0)%N.
