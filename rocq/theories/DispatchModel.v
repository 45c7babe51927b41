(** Model of how an allocation finds its allocator: CommonC/Allocator.c 456-666 (CCMemoryAllocate, CCMemoryReallocate, CCMemoryRetain,
    CCMemoryDeallocate, CCAllocatorAdd), groups of allocators (CommonC/Allocator.h 39-46) and static memory (Allocator.h 194-246,
    Allocator.c 255-276).

    The functions of an allocator are not modelled here: what they return is given with the call, and each call is logged. They keep
    the bytes of CCAllocatorHeader when they move memory. Memory is named by the address of its header; 0 is NULL. *)
From Verif Require Import Base.
Local Open Scope N_scope.

(** Allocator.h 34-37: CCAllocatorType. For a group [data] says which. *)
Record atype := mkType { index : Z; data : N }.
(** Allocator.h 39-43: CCAllocatorGroup; count is the number of allocators *)
Record group := mkGroup { current : nat; items : list atype }.
(** Allocator.c 476-480: which functions of an allocator there are *)
Record slot := mkSlot { has_alloc : bool; has_realloc : bool; has_free : bool }.
(** Allocator.h 85-93: CCAllocatorHeader without the destructor *)
Record header := mkHeader { allocator : Z; refs : Z }.

Record state := mkState { groups : list group; slots : list slot; mems : list (N * header) }.

(** Allocator.c 470-495: the ten allocators, and room for ten more *)
Definition initial : state := mkState [] (repeat (mkSlot true true true) 10 ++ repeat (mkSlot false false false) 10) [].

(** The calls of an allocator's functions: its index, the arguments and the result *)
Inductive call :=
| CallAlloc (i : Z) (d : N) (size : N) (got : N)
| CallRealloc (i : Z) (d : N) (p : N) (size : N) (got : N)
| CallFree (i : Z) (p : N).

(** Allocator.c 518-524: line 522 for group [g] *)
Definition advance (gs : list group) (g : nat) : list group :=
  match nth_error gs g with
  | Some x => if (current x + 1 <? length (items x))%nat then upd gs g (mkGroup (current x + 1) (items x)) else gs
  | None => gs
  end.

(** Allocator.c 511-529: follows the groups to the allocator to be used. [None]: there is no such group or it is empty or the groups
    contain each other; [Some (_, None)]: CC_NULL_ALLOCATOR *)
Fixpoint resolve (fuel : nat) (gs : list group) (ty : atype) : option (list group * option atype) :=
  match fuel with
  | O => None
  | S f =>
      if (index ty <? 0)%Z then
        if (index ty =? -2)%Z then
          let g := N.to_nat (data ty) in
          match nth_error gs g with
          | None => None
          | Some x =>
              match nth_error (items x) (current x) with
              | None => None
              | Some ty' => match resolve f gs ty' with None => None | Some (gs', r) => Some (advance gs' g, r) end
              end
          end
        else Some (gs, None)
      else Some (gs, Some ty)
  end.

Definition limit : N := 2 ^ 64.
Definition header_size : N := 16.

Fixpoint find_mem (p : N) (l : list (N * header)) : option header :=
  match l with [] => None | (q, h) :: r => if q =? p then Some h else find_mem p r end.
Definition drop_mem (p : N) (l : list (N * header)) : list (N * header) := filter (fun x => negb (fst x =? p)) l.

Inductive op :=
| Group (tys : list atype)                          (* CC_ALLOCATORS *)
| Add (i : Z) (s : slot)
| Alloc (ty : atype) (size got : N)
| Realloc (ty : atype) (p size got : N)
| Retain (p : N)
| Free (p : N).

(** [Off]: the allocator's function can not give this address; [Bad]: undefined behaviour or a failed assertion *)
Inductive outcome := Off | Bad | To (s : state) (calls : list call) (result : N).

Definition get_slot (s : state) (i : Z) : option slot := if (i <? 0)%Z then None else nth_error (slots s) (Z.to_nat i).

(** CCMemoryAllocate: Allocator.c 509-556 *)
Definition allocate (s : state) (ty : atype) (size got : N) : outcome :=
  match resolve (length (groups s) + 1) (groups s) ty with
  | None => Bad
  | Some (gs, None) => To (mkState gs (slots s) (mems s)) [] 0
  | Some (gs, Some ty') =>
      match get_slot s (index ty') with
      | None => Bad
      | Some sl =>
          let s' := mkState gs (slots s) (mems s) in
          if has_alloc sl then
            let new := (size + header_size) mod limit in
            if size <? new then
              let calls := [CallAlloc (index ty') (data ty') new got] in
              if got =? 0 then To s' calls 0
              else match find_mem got (mems s) with
                   | Some _ => Off
                   | None => To (mkState gs (slots s) ((got, mkHeader (index ty') 1) :: mems s)) calls got
                   end
            else To s' [] 0
          else To s' [] 0
      end
  end.

(** CCMemoryReallocate: Allocator.c 558-592. Memory that this model makes never has a negative index (lines 563-575). *)
Definition reallocate (s : state) (ty : atype) (p size got : N) : outcome :=
  if p =? 0 then allocate s ty size got
  else match find_mem p (mems s) with
       | None => Bad
       | Some h =>
           match get_slot s (allocator h) with
           | None => Bad
           | Some sl =>
               let new := (size + header_size) mod limit in
               if size <? new then
                 if has_realloc sl then
                   let calls := [CallRealloc (allocator h) (if (index ty =? allocator h)%Z then data ty else 0) p new got] in
                   if got =? 0 then To s calls 0
                   else match find_mem got (drop_mem p (mems s)) with
                        | Some _ => Off
                        | None => To (mkState (groups s) (slots s) ((got, h) :: drop_mem p (mems s))) calls got
                        end
                 else To s [] 0
               else To s [] 0
           end
       end.

Definition step (s : state) (o : op) : outcome :=
  match o with
  | Group tys => To (mkState (groups s ++ [mkGroup 0 tys]) (slots s) (mems s)) [] (N.of_nat (length (groups s)))
  (* Allocator.c 497-507 *)
  | Add i sl => if ((3 <? i) && (i <? Z.of_nat (length (slots s))))%Z then To (mkState (groups s) (upd (slots s) (Z.to_nat i) sl) (mems s)) [] 0 else Bad
  | Alloc ty size got => allocate s ty size got
  | Realloc ty p size got => reallocate s ty p size got
  (* Allocator.c 594-612 *)
  | Retain p => match find_mem p (mems s) with None => Bad | Some h => To (mkState (groups s) (slots s) ((p, mkHeader (allocator h) (refs h + 1)) :: drop_mem p (mems s))) [] p end
  (* Allocator.c 632-666 *)
  | Free p =>
      match find_mem p (mems s) with
      | None => Bad
      | Some h =>
          match get_slot s (allocator h) with
          | None => Bad
          | Some sl =>
              if (refs h - 1 <? 0)%Z then Bad
              else if (refs h - 1 =? 0)%Z then To (mkState (groups s) (slots s) (drop_mem p (mems s))) (if has_free sl then [CallFree (allocator h) p] else []) 0
              else To (mkState (groups s) (slots s) ((p, mkHeader (allocator h) (refs h - 1)) :: drop_mem p (mems s))) [] 0
          end
      end
  end.

(** ** Static memory

    Allocator.h 204-212 and 237-246: the words of the struct that CC_STATIC_ALLOC makes of a type with the given size and alignment,
    up to the type itself. The header is two words, the first holds the index and the number of references. [pad] is what is in the
    padding before the type. *)
Definition align_up (n a : N) : N := (n + a - 1) / a * a.
Definition ptr_offset (alignment : N) : N := align_up 24 alignment.
Definition words (stored : N) (pad : N -> N) (offset : N) : N :=
  if offset =? 0 then stored else if offset <? 24 then 0 else pad offset.

(** Allocator.c 558-592 on static memory: the header is taken to be right before the type, line 562, and the size right before that,
    line 266. [None]: memory that is not static; otherwise whether the resize succeeds, with the pointer as it was *)
Definition static_resize (stored alignment : N) (pad : N -> N) (size : N) : option bool :=
  let ptr := ptr_offset alignment in
  if words stored pad (ptr - 16) mod 2 ^ 32 =? 0 then
    let new := (size + header_size) mod limit in
    Some ((size <? new) && (new <=? words stored pad (ptr - 24)))
  else None.

(** Allocator.h 210, 243: what is stored as the size *)
Definition stored_size (size : N) : N := header_size + size.
Definition stored_bss : N := 0.
(** Allocator.h 98: the number of references static memory starts with *)
Definition static_header : header := mkHeader 0 0.
