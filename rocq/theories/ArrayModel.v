(** Model of CommonC/Array.c and the inline accessors of CommonC/Array.h.

    Storage is a list of cells, one per element slot of the allocated block
    (the byte size of the block is always a multiple of [Array->size], so
    capacity is counted in elements). A cell is [None] while its content is
    indeterminate. Simplifications: the arithmetic on counts and sizes is
    unbounded (no [size_t] overflow of [chunks * chunkSize * size]); elements
    are abstract values copied as a whole. *)
From Verif Require Import Base.

Section Model.
Context {A : Type}.

Local Notation cell := (option A).

(** Array.h 43-47: CCArrayInfo { size, chunkSize, count, data }; [data = None] is a NULL pointer. *)
Record array := mkArray { chunkSize : nat; count : nat; data : option (list cell) }.

(** Return values: an index, SIZE_MAX on failure, an element, or nothing. *)
Inductive ret := RIndex (i : nat) | RFail | RElem (c : cell) | RVoid.

(** The public calls. [None] elements stand for a NULL pointer argument. *)
Inductive op :=
| Append (e : option A)
| AppendMany (es : option (list A)) (n : nat)
| Replace (i : nat) (e : option A)
| ReplaceMany (i : nat) (es : option (list A)) (n : nat)
| CopyMany (i dst n : nat)
| Insert (i : nat) (e : option A)
| InsertMany (i : nat) (es : option (list A)) (n : nat)
| RemoveMany (i n : nat)
| RemoveAll
| Get (i : nat).

(** CCRealloc: keeps the common prefix, new cells are indeterminate. [ok = false] models
    an allocation failure, in which case the old block is still valid. *)
Definition realloc (d : option (list cell)) (n : nat) : list cell :=
  let old := match d with Some l => l | None => [] end in
  firstn n old ++ repeat None (n - length old).

(** memcpy of [xs] into the block at slot [i]; [None]: writes outside the block. *)
Definition write (d : option (list cell)) (i : nat) (xs : list cell) : option (list cell) :=
  match d with
  | Some l => if i + length xs <=? length l then Some (overwrite l i xs) else None
  | None => None
  end.

(** memmove of [n] slots from [src] to [dst]; [None]: leaves the block. *)
Definition move (d : option (list cell)) (dst src n : nat) : option (list cell) :=
  match d with
  | Some l => if (src + n <=? length l) && (dst + n <=? length l)
              then Some (overwrite l dst (slice l src n)) else None
  | None => None
  end.

(** memcpy of [n] elements from a caller's buffer (NULL: nothing is copied).
    The caller's buffer must hold at least [n] elements. *)
Definition copy_in (d : option (list cell)) (i : nat) (es : option (list A)) (n : nat)
  : option (option (list cell)) :=
  match es with
  | None => Some d
  | Some xs => if n <=? length xs
               then match write d i (map Some (firstn n xs)) with
                    | Some l => Some (Some l) | None => None end
               else None
  end.

(** Array.c 37-56: CCArrayCreate. [ok = false]: the data allocation failed. *)
Definition create (chunk : nat) (ok : bool) : array :=
  mkArray chunk 0 (if ok then Some (repeat None chunk) else None).

Definition is_null (d : option (list cell)) : bool :=
  match d with Some _ => false | None => true end.

(** Array.c 68 and 152: the growth condition of the single element calls. *)
Definition grow1 (a : array) : bool :=
  (count a mod chunkSize a =? 0) && (negb (count a =? 0) || is_null (data a)).

(** Array.c 90-91 and 176-177: the growth condition of the multi element calls. *)
Definition growN (a : array) (n : nat) : bool :=
  let rem := count a mod chunkSize a in
  (chunkSize a - rem <? n) || ((rem =? 0) && (negb (count a =? 0) || is_null (data a))).

(** Array.c 68-78 / 91-101: reallocate when the condition holds; [None]: allocation failed. *)
Definition ensure (a : array) (need : bool) (chunks : nat) (ok : bool) : option array :=
  if need then
    if ok then Some (mkArray (chunkSize a) (count a) (Some (realloc (data a) (chunks * chunkSize a))))
    else None
  else Some a.

(** Array.c 140, 141, 208: [Array->count > (Index + Count - 1)] in size_t arithmetic. *)
Definition range_assert (a : array) (i n : nat) : bool :=
  negb (i + n =? 0) && (i + n - 1 <? count a).

Definition with_data (a : array) (c : nat) (d : option (list cell)) : array :=
  mkArray (chunkSize a) c d.

Definition lift (o : option (option (list cell))) (a : array) (c : nat) (r : ret)
  : option (array * ret) :=
  match o with Some d => Some (with_data a c d, r) | None => None end.

(** One call. [ok] tells whether an allocation made by this call succeeds.
    [None]: a CCAssertLog precondition fails, or the call accesses memory outside
    its block (undefined behaviour). *)
Definition step (a : array) (o : op) (ok : bool) : option (array * ret) :=
  match o with
  | Append e => (* Array.c 64-83 *)
      match ensure a (grow1 a) (count a / chunkSize a + 1) ok with
      | None => Some (a, RFail)
      | Some b =>
          lift (copy_in (data b) (count b) (option_map (fun x => [x]) e) 1)
               b (count b + 1) (RIndex (count b))
      end
  | AppendMany es n => (* Array.c 85-109 *)
      if n =? 0 then None else
      match ensure a (growN a n) ((count a + n) / chunkSize a + 1) ok with
      | None => Some (a, RFail)
      | Some b => lift (copy_in (data b) (count b) es n) b (count b + n) (RIndex (count b))
      end
  | Replace i e => (* Array.c 111-117 *)
      if i <? count a then
        lift (copy_in (data a) i (option_map (fun x => [x]) e) 1) a (count a) RVoid
      else None
  | ReplaceMany i es n => (* Array.c 119-126 *)
      if (i <? count a) && negb (n =? 0) then
        lift (copy_in (data a) i es n) a (count a) RVoid
      else None
  | CopyMany i dst n => (* Array.c 137-145 *)
      if range_assert a i n && range_assert a dst n && negb (n =? 0) then
        lift (option_map Some (move (data a) dst i n)) a (count a) RVoid
      else None
  | Insert i e => (* Array.c 147-168 *)
      if i <? count a then
        match ensure a (grow1 a) (count a / chunkSize a + 1) ok with
        | None => Some (a, RFail)
        | Some b =>
            match move (data b) (i + 1) i (count b + 1 - (i + 1)) with
            | None => None
            | Some l => lift (copy_in (Some l) i (option_map (fun x => [x]) e) 1)
                             b (count b + 1) (RIndex i)
            end
        end
      else None
  | InsertMany i es n => (* Array.c 170-195 *)
      if (i <? count a) && negb (n =? 0) then
        match ensure a (growN a n) ((count a + n) / chunkSize a + 1) ok with
        | None => Some (a, RFail)
        | Some b =>
            match move (data b) (i + n) i (count b + n - (i + n)) with
            | None => None
            | Some l => lift (copy_in (Some l) i es n) b (count b + n) (RIndex i)
            end
        end
      else None
  | RemoveMany i n => (* Array.c 205-212; CCArrayRemoveElementAtIndex (197-203) is n = 1 *)
      if range_assert a i n then
        lift (option_map Some (move (data a) i (i + n) (count a - (i + n))))
             a (count a - n) RVoid
      else None
  | RemoveAll => (* Array.c 214-219 *)
      Some (with_data a 0 (data a), RVoid)
  | Get i => (* Array.h 343-349: CCArrayGetElementAtIndex, read by the caller *)
      if i <? count a then
        match data a with
        | Some l => match nth_error l i with Some c => Some (a, RElem c) | None => None end
        | None => None
        end
      else None
  end.

(** A history of calls, each with its allocation outcome. *)
Fixpoint run (a : array) (ops : list (op * bool)) : option (array * list ret) :=
  match ops with
  | [] => Some (a, [])
  | (o, ok) :: t =>
      match step a o ok with
      | None => None
      | Some (a', r) =>
          match run a' t with
          | None => None
          | Some (a'', rs) => Some (a'', r :: rs)
          end
      end
  end.

End Model.
Arguments array : clear implicits.
Arguments ret : clear implicits.
Arguments op : clear implicits.
