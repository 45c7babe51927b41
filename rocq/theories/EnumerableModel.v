(** Model of CommonC/Enumerable.h, Enumerable.c, CircularEnumerable.h, CircularEnumerable.c and of the handlers in
    LinkedList.c, Queue.c, List.c, CollectionList.c and CollectionArray.c.

    A pointer handed to the user is [Some address], NULL is [None]. A step is [None] when the code dereferences NULL
    or a dead node. Simplifications: index arithmetic is unbounded (the only place it would wrap is the index of an
    empty enumerable, which is never used); the stride and address arithmetic are exact; the fixed batch format,
    which nothing in the library uses, is left out. *)
From Verif Require Import Base LinkedListModel QueueModel.
From Verif Require ArrayModel ListModel.

(** Enumerable.h 36-47: CCEnumerableAction *)
Inductive action := Current | Head | Tail | Next | Previous.

Definition result := option N.
Local Open Scope N_scope.

(** ** Batches *)
(** Enumerator.h 50-54. [extra0] and [extra1] are the two extra words, used as nodes by the paged list. *)
Record batch := mkBatch { b_ptr : N; b_count : nat; b_stride : N; b_index : nat; b_extra0 : option nat; b_extra1 : option nat }.

Definition b_at (b : batch) (i : nat) : result := Some (b_ptr b + N.of_nat i * b_stride b).
Definition b_set (b : batch) (i : nat) : batch := mkBatch (b_ptr b) (b_count b) (b_stride b) i (b_extra0 b) (b_extra1 b).

(** Enumerable.h 141-221 for the batch format: CCEnumerableGetCurrent, GetHead, GetTail, Next and Previous *)
Definition batch_step (handler : batch -> action -> option (batch * result)) (b : batch) (a : action) : option (batch * result) :=
  match a with
  | Current => Some (b, if Nat.eqb (b_count b) 0 then None else b_at b (b_index b))
  | Head | Tail => handler b a
  | Next =>
      if Nat.eqb (b_count b) 0 then Some (b, None)
      else if Nat.ltb (b_index b + 1) (b_count b) then Some (b_set b (b_index b + 1), b_at b (b_index b + 1))
      else handler b Next
  | Previous =>
      if Nat.eqb (b_count b) 0 then Some (b, None)
      else if Nat.ltb 0 (b_index b) then Some (b_set b (b_index b - 1), b_at b (b_index b - 1))
      else handler b Previous
  end.

(** Enumerable.h 122-139: CCEnumerableCreate *)
Definition batch_create (ptr stride : N) (count : nat) : batch := mkBatch ptr count stride 0 None None.

(** Enumerable.c 29-46: CCEnumerableHandler *)
Definition batch_handler (b : batch) (a : action) : option (batch * result) :=
  match a with
  | Head => Some (b_set b 0, if Nat.eqb (b_count b) 0 then None else Some (b_ptr b))
  | Tail => Some (b_set b (b_count b - 1), if Nat.eqb (b_count b) 0 then None else b_at b (b_count b - 1))
  | _ => Some (b, None)
  end.

(** ** Circular buffers *)
(** Enumerator.h 55-59 *)
Record circular := mkCircular { c_ptr : N; c_count : nat; c_stride : N; c_index : nat; c_max : nat; c_start : nat }.

Definition c_at (c : circular) (i : nat) : result := Some (c_ptr c + N.of_nat (Nat.modulo i (c_max c)) * c_stride c).
Definition c_set (c : circular) (i : nat) : circular := mkCircular (c_ptr c) (c_count c) (c_stride c) i (c_max c) (c_start c).

(** CircularEnumerable.h 48-70: CCCircularEnumerableCreate. [None]: assertions. *)
Definition circular_create (ptr stride : N) (count start max : nat) : option circular :=
  if (Nat.leb count max && Nat.ltb start max)%bool then Some (mkCircular ptr count stride start max start) else None.

(** CircularEnumerable.c 28-45: CCCircularEnumerableHandler *)
Definition circular_handler (c : circular) (a : action) : option (circular * result) :=
  match a with
  | Head => Some (c_set c (c_start c), if Nat.eqb (c_count c) 0 then None else c_at c (c_start c))
  | Tail => let i := (c_count c - 1 + c_start c)%nat in
            Some (c_set c i, if Nat.eqb (c_count c) 0 then None else c_at c i)
  | _ => Some (c, None)
  end.

(** Enumerable.h 141-221 for the circular format *)
Definition circular_step (c : circular) (a : action) : option (circular * result) :=
  match a with
  | Current => Some (c, if Nat.eqb (c_count c) 0 then None else c_at c (c_index c))
  | Head | Tail => circular_handler c a
  | Next =>
      if Nat.eqb (c_count c) 0 then Some (c, None)
      else if Nat.ltb (c_index c + 1) (c_count c + c_start c) then Some (c_set c (c_index c + 1), c_at c (c_index c + 1))
      else circular_handler c Next
  | Previous =>
      if Nat.eqb (c_count c) 0 then Some (c, None)
      else if Nat.ltb (c_start c) (c_index c) then Some (c_set c (c_index c - 1), c_at c (c_index c - 1))
      else circular_handler c Previous
  end.

(** ** Linked lists *)
(** Enumerator.h 42-45 as used by LinkedList.c: the current node, the head and the tail once known. *)
Record internal := mkInternal { i_ref : option addr; i_ptr : option addr; i_extra0 : option addr; i_extra1 : option addr }.

Definition i_set (s : internal) (p : option addr) : internal := mkInternal (i_ref s) p (i_extra0 s) (i_extra1 s).

(** A node's data, at a fixed distance behind its links (LinkedList.h). [data] maps a node to the address of its data. *)
Definition node_data (data : addr -> N) (p : option addr) : result := option_map data p.

(** CCLinkedListEnumerateNext and CCLinkedListEnumeratePrevious of a possibly NULL node: asserted not NULL. *)
Definition deref (f : addr -> option (option addr)) (p : option addr) : option (option addr) :=
  match p with Some a => f a | None => None end.

(** LinkedList.c 233-252: CCLinkedListGetEnumerable *)
Definition linked_create (fuel : nat) (h : heap) (list : addr) : option internal :=
  let? head := get_head fuel h list in Some (mkInternal (Some list) (Some head) (Some head) None).

(** LinkedList.c 201-231: CCLinkedListEnumerableHandler (the internal format sends every action to the handler,
    Enumerable.h 145-146, 163, 168, 194, 220) *)
Definition linked_step (fuel : nat) (h : heap) (data : addr -> N) (s : internal) (a : action) : option (internal * result) :=
  let? s :=
    match a with
    | Head => Some (i_set s (i_extra0 s))
    | Tail =>
        let? s := match i_extra1 s with
                  | Some _ => Some s
                  | None => let? t := deref (fun a => Some (get_tail fuel h a)) (match i_ptr s with Some p => Some p | None => i_ref s end) in
                            let? t := t in
                            Some (mkInternal (i_ref s) (i_ptr s) (i_extra0 s) (Some t))
                  end in
        Some (i_set s (i_extra1 s))
    | Next =>
        let? n := deref (get_next h) (i_ptr s) in
        let e1 := match n, i_extra1 s with None, None => i_ptr s | _, e => e end in
        Some (mkInternal (i_ref s) n (i_extra0 s) e1)
    | Previous =>
        let? p := deref (get_prev h) (i_ptr s) in Some (i_set s p)
    | Current => Some s
    end in
  Some (s, node_data data (i_ptr s)).

(** Queue.c 135-152: CCQueueGetEnumerable *)
Definition queue_create (q : queue) : internal := mkInternal None (qtail q) (qtail q) (qhead q).

(** Queue.c 108-133: CCQueueEnumerableHandler *)
Definition queue_enum_step (h : heap) (data : addr -> N) (s : internal) (a : action) : option (internal * result) :=
  let? s :=
    match a with
    | Head => Some (i_set s (i_extra0 s))
    | Tail => Some (i_set s (i_extra1 s))
    | Next => let? p := deref (get_prev h) (i_ptr s) in Some (i_set s p)
    | Previous => let? p := deref (get_next h) (i_ptr s) in Some (i_set s p)
    | Current => Some s
    end in
  Some (s, node_data data (i_ptr s)).

(** CollectionList.c 148-176: CCCollectionListEnumerator. The collection is a linked list behind the node
    [sentinel]; [last] is its data.end field. *)
Definition collection_list_step (h : heap) (data : addr -> N) (sentinel : addr) (last : option addr) (s : internal) (a : action)
  : option (internal * result) :=
  let? s :=
    match a with
    | Head => let? n := get_next h sentinel in Some (i_set s n)
    | Tail => Some (i_set s last)
    | Next => let? n := deref (get_next h) (i_ptr s) in Some (i_set s n)
    | Previous =>
        let? p := deref (get_prev h) (i_ptr s) in
        Some (i_set s (match p with Some a => if Nat.eqb a sentinel then None else p | None => None end))
    | Current => Some s
    end in
  Some (s, node_data data (i_ptr s)).

(** CollectionArray.c 247-272: CCCollectionArrayEnumerator; the collection's array holds [n] elements of size
    [size] from address [base]. Head and Tail set the batch up again; the other actions reach the handler only at
    the ends. *)
Definition collection_array_handler (base size : N) (n : nat) (b : batch) (a : action) : option (batch * result) :=
  match a with
  | Head => let b := mkBatch (if Nat.eqb n 0 then 0 else base) n size 0 (b_extra0 b) (b_extra1 b) in
            Some (b, if Nat.eqb n 0 then None else Some base)
  | Tail => let b := mkBatch (if Nat.eqb n 0 then 0 else base) n size (n - 1) (b_extra0 b) (b_extra1 b) in
            Some (b, if Nat.eqb n 0 then None else Some (base + N.of_nat (n - 1) * size))
  | _ => Some (b, None)
  end.

(** ** The paged list *)
Section List.
Context {A : Type}.

(** [storage p] is the address of the storage of page [p], [size] the element size. *)
Variables (storage : nat -> N) (size : N) (l : ListModel.plist A).

Definition load_page (b : batch) (p : nat) (at_end : bool) : option batch :=
  let? n := ListModel.page_count l p in
  Some (mkBatch (storage p) n (b_stride b) (if at_end then n - 1 else 0)%nat (Some p) (b_extra1 b)).

Definition no_page (b : batch) (extra1 : option nat) : batch := mkBatch 0 0 (b_stride b) 0 None extra1.

(** List.c 359-381: CCListGetEnumerable *)
Definition list_create : option batch :=
  let? n := ListModel.page_count l 0 in
  Some (mkBatch (storage 0) n size 0 (Some 0%nat) (ListModel.last l)).

(** List.c 270-357: CCListEnumerableHandler *)
Definition list_handler (b : batch) (a : action) : option (batch * result) :=
  match a with
  | Head => (* 274-285, 356 *)
      let? b := load_page b 0 false in
      Some (b, if Nat.eqb (b_count b) 0 then None else Some (b_ptr b))
  | Tail => (* 287-303 *)
      let? t := match b_extra1 b with
                | Some t => Some t
                | None => match b_extra0 b with Some _ => Some (length (ListModel.pages l) - 1)%nat | None => None end
                end in
      let? b := load_page b t true in
      let b := mkBatch (b_ptr b) (b_count b) (b_stride b) (b_index b) (b_extra0 b) (Some t) in
      Some (b, if Nat.eqb (b_count b) 0 then None else b_at b (b_index b))
  | Next => (* 305-327, 356 *)
      let? p := b_extra0 b in
      if Nat.ltb (S p) (length (ListModel.pages l)) then
        let? b := load_page b (S p) false in
        Some (b, if Nat.eqb (b_count b) 0 then None else Some (b_ptr b))
      else Some (no_page b (match b_extra1 b with None => Some p | e => e end), None)
  | Previous => (* 329-350 *)
      let? p := b_extra0 b in
      match p with
      | S q =>
          let? b := load_page b q true in
          Some (b, if Nat.eqb (b_count b) 0 then None else b_at b (b_index b))
      | O => Some (no_page b (b_extra1 b), None)
      end
  | Current => Some (b, if Nat.eqb (b_count b) 0 then None else Some (b_ptr b))
  end.

End List.
