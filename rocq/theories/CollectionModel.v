(** Model of CommonC/Collection.c, OrderedCollection.c, CollectionEnumerator.h and of the three implementations in
    CollectionArray.c, CollectionFastArray.c and CollectionList.c, on top of the models of CCArray and CCLinkedList.

    A CCCollectionEntry is a number and NULL is 0. An element is an abstract value copied as a whole. A call is [None]
    when an assertion fails or the code touches memory that is not a live node or element.
    Simplifications: elements are never passed as NULL; counts are unbounded, and a size_t is an integer in which
    SIZE_MAX is -1, SIZE_MAX - 1 is -2 and so on (negative numbers compare above the others); a new node's address is
    one that was never used before; the temporary collections of entries that some calls build (CCCollectionCreate with
    CC_STD_ALLOCATOR) and the collections passed as arguments are sequences, read from the first to the last or
    backwards, and building them does not run out of memory; a destructor only looks at its element. *)
From Verif Require Import Base.
From Verif Require ArrayModel LinkedListModel.

(** CollectionTypes.h 114: CCCollectionEntry *)
Notation entry := nat (only parsing).

Section Model.
Context {A : Type}.

(** Whether the two allocations an insertion may make succeed: growing the array, and creating a node. *)
Record alloc := mkAlloc { grow_ok : bool; node_ok : bool }.

(** CollectionEnumerator.h: the state of an enumerator, in batch format (position and count) or in internal format
    (the current node). *)
Inductive enum := Batch (count : nat) (index : Z) | Internal (p : option nat).
Inductive action := Current | Head | Tail | Next | Previous.

(** ** CollectionInterface.h: CCCollectionInterface and CCOrderedCollectionInterface.
    The optional callbacks find, allEntries, insertCollection and findCollection are NULL in all three
    implementations and left out. *)
Record interface (St : Type) := mkInterface {
  i_count : St -> nat;
  i_insert : St -> A -> alloc -> option (St * entry);
  i_remove : St -> entry -> option St;
  i_element : St -> entry -> option A;
  i_enumerator : St -> enum -> action -> option (enum * option A);
  i_enumerator_entry : St -> enum -> option (St * entry);
  i_destroy : St -> option St;
  i_remove_all : option (St -> option St);
  i_remove_collection : option (St -> list entry -> option St);
  o_insert : St -> A -> nat -> alloc -> option (St * entry);
  o_entry : St -> nat -> option (St * entry);
  o_index : St -> entry -> option Z;
  o_replace : option (St -> A -> nat -> option (St * entry));
  o_remove : option (St -> nat -> option St);
  o_append : option (St -> A -> alloc -> option (St * entry));
  o_prepend : option (St -> A -> alloc -> option (St * entry));
  o_element : option (St -> nat -> option A);
  o_last_entry : option (St -> option entry);
  o_remove_last : option (St -> option St) }.
Arguments i_count {St}. Arguments i_insert {St}. Arguments i_remove {St}. Arguments i_element {St}.
Arguments i_enumerator {St}. Arguments i_enumerator_entry {St}. Arguments i_destroy {St}. Arguments i_remove_all {St}.
Arguments i_remove_collection {St}. Arguments o_insert {St}. Arguments o_entry {St}. Arguments o_index {St}.
Arguments o_replace {St}. Arguments o_remove {St}. Arguments o_append {St}. Arguments o_prepend {St}.
Arguments o_element {St}. Arguments o_last_entry {St}. Arguments o_remove_last {St}.

(** ** Calls on CCArray, with their results *)
(** CCArrayAppendElement; SIZE_MAX is -1 *)
Definition arr_append (a : ArrayModel.array A) (x : A) (ok : bool) : option (ArrayModel.array A * Z) :=
  let? (a', r) := ArrayModel.step a (ArrayModel.Append (Some x)) ok in
  match r with
  | ArrayModel.RIndex i => Some (a', Z.of_nat i)
  | ArrayModel.RFail => Some (a', -1)%Z
  | _ => None
  end.

(** CCArrayInsertElementAtIndex *)
Definition arr_insert (a : ArrayModel.array A) (i : nat) (x : A) (ok : bool) : option (ArrayModel.array A * Z) :=
  let? (a', r) := ArrayModel.step a (ArrayModel.Insert i (Some x)) ok in
  match r with
  | ArrayModel.RIndex i => Some (a', Z.of_nat i)
  | ArrayModel.RFail => Some (a', -1)%Z
  | _ => None
  end.

(** CCArrayReplaceElementAtIndex *)
Definition arr_replace (a : ArrayModel.array A) (i : nat) (x : A) : option (ArrayModel.array A) :=
  option_map fst (ArrayModel.step a (ArrayModel.Replace i (Some x)) true).

(** CCArrayRemoveElementAtIndex; an index near SIZE_MAX fails the bounds assertion *)
Definition arr_remove (a : ArrayModel.array A) (i : Z) : option (ArrayModel.array A) :=
  if (i <? 0)%Z then None else option_map fst (ArrayModel.step a (ArrayModel.RemoveMany (Z.to_nat i) 1) true).

(** CCArrayGetElementAtIndex, read by the caller; an indeterminate element is not a value *)
Definition arr_get (a : ArrayModel.array A) (i : Z) : option A :=
  if (i <? 0)%Z then None
  else match ArrayModel.step a (ArrayModel.Get (Z.to_nat i)) true with
       | Some (_, ArrayModel.RElem (Some x)) => Some x
       | _ => None
       end.

(** CollectionArray.c 247-272 and CollectionFastArray.c 148-173 together with the batch format of
    CollectionEnumerator.h 126-206 *)
Definition batch_enumerator (a : ArrayModel.array A) (e : enum) (act : action) : option (enum * option A) :=
  let n := ArrayModel.count a in
  let at_ (i : Z) := let? x := arr_get a i in Some (Batch n i, Some x) in
  match act with
  | Head => if n =? 0 then Some (Batch n 0, None) else at_ 0%Z
  | Tail => if n =? 0 then Some (Batch n (-1), None) else at_ (Z.of_nat n - 1)%Z
  | Current =>
      match e with
      | Batch c i => if c =? 0 then Some (e, None) else let? x := arr_get a i in Some (e, Some x)
      | Internal _ => None
      end
  | Next =>
      match e with
      | Batch c i =>
          if c =? 0 then Some (e, None)
          else if (i + 1 <? Z.of_nat c)%Z then let? x := arr_get a (i + 1) in Some (Batch c (i + 1), Some x)
          else Some (e, None)
      | Internal _ => None
      end
  | Previous =>
      match e with
      | Batch c i =>
          if c =? 0 then Some (e, None)
          else if (0 <? i)%Z then let? x := arr_get a (i - 1) in Some (Batch c (i - 1), Some x)
          else Some (e, None)
      | Internal _ => None
      end
  end.

(** ** CollectionFastArray.c *)
(** 133-136: CCCollectionFastArrayInsert, and 217-220: CCOrderedCollectionFastArrayAppend. SIZE_MAX + 1 is NULL. *)
Definition fast_insert (a : ArrayModel.array A) (x : A) (al : alloc) : option (ArrayModel.array A * entry) :=
  let? (a, i) := arr_append a x (grow_ok al) in Some (a, Z.to_nat (i + 1)).

(** 138-141: CCCollectionFastArrayRemove *)
Definition fast_remove (a : ArrayModel.array A) (e : entry) : option (ArrayModel.array A) :=
  arr_remove a (Z.of_nat e - 1).

(** 143-146: CCCollectionFastArrayElement *)
Definition fast_element (a : ArrayModel.array A) (e : entry) : option A := arr_get a (Z.of_nat e - 1).

(** 175-178: CCCollectionFastArrayEnumeratorEntry *)
Definition fast_enumerator_entry (a : ArrayModel.array A) (e : enum) : option (ArrayModel.array A * entry) :=
  match e with Batch _ i => Some (a, Z.to_nat (i + 1)) | Internal _ => None end.

(** 180-183: CCCollectionFastArrayRemoveAll *)
Definition fast_remove_all (a : ArrayModel.array A) : option (ArrayModel.array A) :=
  option_map fst (ArrayModel.step a ArrayModel.RemoveAll true).

(** 185-195: CCCollectionFastArrayRemoveCollection: from the last of the entries to the first *)
Definition fast_remove_collection (a : ArrayModel.array A) (es : list entry) : option (ArrayModel.array A) :=
  fold_left (fun s e => let? a := s in fast_remove a e) (rev es) (Some a).

(** 197-203: CCOrderedCollectionFastArrayInsert *)
Definition fast_insert_at (a : ArrayModel.array A) (x : A) (i : nat) (al : alloc) : option (ArrayModel.array A * entry) :=
  let? (a, i) := if i =? ArrayModel.count a then arr_append a x (grow_ok al) else arr_insert a i x (grow_ok al) in
  Some (a, Z.to_nat (i + 1)).

(** 205-210: CCOrderedCollectionFastArrayReplace *)
Definition fast_replace (a : ArrayModel.array A) (x : A) (i : nat) : option (ArrayModel.array A * entry) :=
  let? a := arr_replace a i x in Some (a, i + 1).

(** 53-80: the interface. 85-93: an entry is an index plus one. *)
Definition fast_interface : interface (ArrayModel.array A) := {|
  i_count := @ArrayModel.count A;
  i_insert := fast_insert;
  i_remove := fast_remove;
  i_element := fast_element;
  i_enumerator := batch_enumerator;
  i_enumerator_entry := fast_enumerator_entry;
  i_destroy := fun a => Some (ArrayModel.mkArray (ArrayModel.chunkSize a) 0 None);
  i_remove_all := Some fast_remove_all;
  i_remove_collection := Some fast_remove_collection;
  o_insert := fast_insert_at;
  o_entry := fun a i => Some (a, i + 1);
  o_index := fun a e => Some (Z.of_nat e - 1)%Z;
  o_replace := Some fast_replace;
  o_remove := Some (fun a i => arr_remove a (Z.of_nat i));
  o_append := Some fast_insert;
  o_prepend := None;
  o_element := Some (fun a i => arr_get a (Z.of_nat i));
  o_last_entry := None;
  o_remove_last := None |}.

(** 112-131: CCCollectionFastArrayConstructor *)
Definition fast_create (chunk : nat) (ok : bool) : ArrayModel.array A := ArrayModel.create chunk ok.

(** ** CollectionArray.c *)
(** 33-41: the array, the head of the list of entries, and the memory of the entries: their links and indices. [fresh]
    is the next address. *)
Record acoll := mkAcoll {
  a_array : ArrayModel.array A;
  a_entries : option nat;
  a_heap : LinkedListModel.heap;
  a_index : nat -> Z;
  a_fresh : nat }.

(** 91-108: FindEntryForIndex from node [n]. The bound on the loop is never reached in a proper list; reaching it is
    [None]. *)
Fixpoint find_entry (fuel : nat) (h : LinkedListModel.heap) (index : nat -> Z) (n : option nat) (i : Z) : option entry :=
  match n with
  | None => Some 0
  | Some n =>
      match fuel with
      | 0 => None
      | S f =>
          let? nx := LinkedListModel.get_next h n in
          if (index n =? i)%Z then Some n else find_entry f h index nx i
      end
  end.

(** 123-126: ConvertEntryToIndex *)
Definition entry_to_index (s : acoll) (e : entry) : option Z :=
  if e =? 0 then Some (-1)%Z else let? _ := a_heap s e in Some (a_index s e).

(** 110-121: ConvertIndexToEntry. A NULL node is inserted into an existing list: an assertion. *)
Definition index_to_entry (s : acoll) (i : Z) (ok : bool) : option (acoll * entry) :=
  let? n := find_entry (a_fresh s) (a_heap s) (a_index s) (a_entries s) i in
  if negb (n =? 0) then Some (s, n)
  else if ok then
    let n := a_fresh s in
    let h := LinkedListModel.hset (a_heap s) n (Some (LinkedListModel.mkNode None None)) in
    let index := fun b => if b =? n then i else a_index s b in
    match a_entries s with
    | Some l => let? (h, l) := LinkedListModel.insert (n + 1) h l n in Some (mkAcoll (a_array s) (Some l) h index (n + 1), n)
    | None => Some (mkAcoll (a_array s) (Some n) h index (n + 1), n)
    end
  else match a_entries s with Some _ => None | None => Some (s, 0) end.

(** Index comparison [x >= y] of two size_t *)
Definition index_ge (x y : Z) : bool :=
  if (x <? 0)%Z then (0 <=? y)%Z || (y <=? x)%Z else (0 <=? y)%Z && (y <=? x)%Z.

(** 128-142: ShiftEntriesDownAfterIndex ([by] is -1) and ShiftEntriesUpAfterIndex ([by] is 1) *)
Fixpoint shift_entries (fuel : nat) (h : LinkedListModel.heap) (index : nat -> Z) (n : option nat) (i by_ : Z) : option (nat -> Z) :=
  match n with
  | None => Some index
  | Some n =>
      match fuel with
      | 0 => None
      | S f =>
          let? nx := LinkedListModel.get_next h n in
          shift_entries f h (if index_ge (index n) i then fun b => if b =? n then (index n + by_)%Z else index b else index) nx i by_
      end
  end.

(** 144-155: RemoveEntry *)
Definition remove_entry (s : acoll) (e : entry) : option acoll :=
  if e =? 0 then Some s
  else
    let? nd := a_heap s e in
    let l := match LinkedListModel.prev nd with None => LinkedListModel.next nd | Some _ => a_entries s end in
    let? h := LinkedListModel.destroy_node (a_heap s) e in
    let? index := shift_entries (a_fresh s) h (a_index s) l (a_index s e) (-1) in
    Some (mkAcoll (a_array s) l h index (a_fresh s)).

(** 157-160: RemoveEntryForIndex *)
Definition remove_entry_for_index (s : acoll) (i : Z) : option acoll :=
  let? e := find_entry (a_fresh s) (a_heap s) (a_index s) (a_entries s) i in remove_entry s e.

Definition with_array (s : acoll) (a : ArrayModel.array A) : acoll :=
  mkAcoll a (a_entries s) (a_heap s) (a_index s) (a_fresh s).

(** 180-214: CCCollectionArrayConstructor *)
Definition array_create (chunk : nat) (ok : bool) : acoll :=
  mkAcoll (ArrayModel.create chunk ok) None (fun _ => None) (fun _ => 0%Z) 1.

(** 216-222: CCCollectionArrayDestructor *)
Definition array_destroy (s : acoll) : option acoll :=
  let? (h, _) := match a_entries s with
                 | Some l => LinkedListModel.destroy (a_fresh s) (a_heap s) (Some l)
                 | None => Some (a_heap s, [])
                 end in
  Some (mkAcoll (ArrayModel.mkArray (ArrayModel.chunkSize (a_array s)) 0 None) None h (a_index s) (a_fresh s)).

(** 229-234: CCCollectionArrayInsert *)
Definition array_insert (s : acoll) (x : A) (al : alloc) : option (acoll * entry) :=
  let? (a, i) := arr_append (a_array s) x (grow_ok al) in index_to_entry (with_array s a) i (node_ok al).

(** 236-240: CCCollectionArrayRemove *)
Definition array_remove (s : acoll) (e : entry) : option acoll :=
  let? i := entry_to_index s e in
  let? a := arr_remove (a_array s) i in
  remove_entry (with_array s a) e.

(** 242-245: CCCollectionArrayElement *)
Definition array_element (s : acoll) (e : entry) : option A :=
  let? i := entry_to_index s e in arr_get (a_array s) i.

(** 274-277: CCCollectionArrayEnumeratorEntry *)
Definition array_enumerator_entry (s : acoll) (e : enum) : option (acoll * entry) :=
  match e with Batch _ i => index_to_entry s i true | Internal _ => None end.

(** 279-287: CCOrderedCollectionArrayInsert *)
Definition array_insert_at (s : acoll) (x : A) (i : nat) (al : alloc) : option (acoll * entry) :=
  let? (a, i) := if i =? ArrayModel.count (a_array s) then arr_append (a_array s) x (grow_ok al)
                 else arr_insert (a_array s) i x (grow_ok al) in
  let? index := shift_entries (a_fresh s) (a_heap s) (a_index s) (a_entries s) i 1 in
  index_to_entry (mkAcoll a (a_entries s) (a_heap s) index (a_fresh s)) i (node_ok al).

(** 289-294: CCOrderedCollectionArrayReplace *)
Definition array_replace (s : acoll) (x : A) (i : nat) : option (acoll * entry) :=
  let? a := arr_replace (a_array s) i x in index_to_entry (with_array s a) (Z.of_nat i) true.

(** 296-300: CCOrderedCollectionArrayRemove *)
Definition array_remove_at (s : acoll) (i : nat) : option acoll :=
  let? a := arr_remove (a_array s) (Z.of_nat i) in remove_entry_for_index (with_array s a) (Z.of_nat i).

(** 62-86: the interface. 302-305: CCOrderedCollectionArrayElement *)
Definition array_interface : interface acoll := {|
  i_count := fun s => ArrayModel.count (a_array s);
  i_insert := array_insert;
  i_remove := array_remove;
  i_element := array_element;
  i_enumerator := fun s => batch_enumerator (a_array s);
  i_enumerator_entry := array_enumerator_entry;
  i_destroy := array_destroy;
  i_remove_all := None;
  i_remove_collection := None;
  o_insert := array_insert_at;
  o_entry := fun s i => index_to_entry s (Z.of_nat i) true;
  o_index := entry_to_index;
  o_replace := Some array_replace;
  o_remove := Some array_remove_at;
  o_append := None;
  o_prepend := None;
  o_element := Some (fun s i => arr_get (a_array s) (Z.of_nat i));
  o_last_entry := None;
  o_remove_last := None |}.

(** ** CollectionList.c *)
(** 33-41: the sentinel node with its end and count, and the memory of the nodes: their links and elements *)
Record lcoll := mkLcoll {
  l_sentinel : nat;
  l_end : option nat;
  l_count : nat;
  l_heap : LinkedListModel.heap;
  l_data : nat -> option A;
  l_fresh : nat }.

(** 103-106: CCCollectionListConstructor *)
Definition list_create : lcoll :=
  mkLcoll 1 None 0 (fun b => if b =? 1 then Some (LinkedListModel.mkNode None None) else None) (fun _ => None) 2.

(** 108-111: CCCollectionListDestructor *)
Definition list_destroy (s : lcoll) : option lcoll :=
  let? (h, _) := LinkedListModel.destroy (l_fresh s) (l_heap s) (Some (l_sentinel s)) in
  Some (mkLcoll (l_sentinel s) None 0 h (l_data s) (l_fresh s)).

(** LinkedList.c 27-44: CCLinkedListCreateNode, successful *)
Definition list_new_node (s : lcoll) (x : A) : lcoll :=
  mkLcoll (l_sentinel s) (l_end s) (l_count s)
    (LinkedListModel.hset (l_heap s) (l_fresh s) (Some (LinkedListModel.mkNode None None)))
    (fun b => if b =? l_fresh s then Some x else l_data s b) (l_fresh s + 1).

(** 123-124 and 196-197: appending the node behind the end *)
Definition list_append_node (s : lcoll) (n : nat) : option lcoll :=
  let e := match l_end s with Some e => e | None => l_sentinel s end in
  let? (h, e) := LinkedListModel.append true 2 (l_fresh s) (l_heap s) e n in
  Some (mkLcoll (l_sentinel s) (Some e) (l_count s) h (l_data s) (l_fresh s)).

Definition list_set_count (s : lcoll) (n : nat) : lcoll :=
  mkLcoll (l_sentinel s) (l_end s) n (l_heap s) (l_data s) (l_fresh s).

(** 118-129: CCCollectionListInsert *)
Definition list_insert (s : lcoll) (x : A) (al : alloc) : option (lcoll * entry) :=
  if node_ok al then
    let n := l_fresh s in
    let? s := list_append_node (list_new_node s x) n in
    Some (list_set_count s (l_count s + 1), n)
  else Some (s, 0).

(** 131-141: CCCollectionListRemove. CCLinkedListIsHead of a NULL pointer is an assertion. *)
Definition list_remove (s : lcoll) (e : entry) : option lcoll :=
  let? nx := LinkedListModel.get_next (l_heap s) e in
  let? l_end :=
    match nx with
    | None =>
        let? p := LinkedListModel.get_prev (l_heap s) e in
        let? p := p in
        let? pp := LinkedListModel.get_prev (l_heap s) p in
        Some (match pp with None => None | Some _ => Some p end)
    | Some _ => Some (l_end s)
    end in
  let? h := LinkedListModel.destroy_node (l_heap s) e in
  Some (mkLcoll (l_sentinel s) l_end (l_count s - 1) h (l_data s) (l_fresh s)).

(** 143-146: CCCollectionListElement, read by the caller *)
Definition list_element (s : lcoll) (e : entry) : option A :=
  let? _ := l_heap s e in l_data s e.

(** 148-176: CCCollectionListEnumerator *)
Definition list_enumerator (s : lcoll) (e : enum) (act : action) : option (enum * option A) :=
  let? p := match e with Internal p => Some p | Batch _ _ => match act with Head | Tail => Some None | _ => None end end in
  let? p := match act with
            | Head => LinkedListModel.get_next (l_heap s) (l_sentinel s)
            | Tail => Some (l_end s)
            | Next => let? p := p in LinkedListModel.get_next (l_heap s) p
            | Previous =>
                let? p := p in
                let? q := LinkedListModel.get_prev (l_heap s) p in
                Some (match q with Some q => if q =? l_sentinel s then None else Some q | None => None end)
            | Current => Some p
            end in
  match p with
  | None => Some (Internal None, None)
  | Some n => let? x := list_element s n in Some (Internal (Some n), Some x)
  end.

(** 178-181: CCCollectionListEnumeratorEntry *)
Definition list_enumerator_entry (s : lcoll) (e : enum) : option (lcoll * entry) :=
  match e with Internal p => Some (s, match p with Some n => n | None => 0 end) | Batch _ _ => None end.

(** 212-215 and 221-224: the walks of CCOrderedCollectionListEntry, [steps] links on or until NULL *)
Fixpoint walk (get : nat -> option (option nat)) (steps : nat) (n : option nat) : option (option nat) :=
  match steps, n with
  | S k, Some n => let? m := get n in walk get k m
  | _, _ => Some n
  end.

(** 206-228: CCOrderedCollectionListEntry *)
Definition list_entry (s : lcoll) (i : nat) : option (option nat) :=
  if i <=? l_count s / 2 then
    let? n := LinkedListModel.get_next (l_heap s) (l_sentinel s) in
    walk (LinkedListModel.get_next (l_heap s)) i n
  else if negb (l_count s =? i) then
    walk (LinkedListModel.get_prev (l_heap s)) (l_count s - 1 - i) (l_end s)
  else Some None.

Definition ptr (p : option nat) : entry := match p with Some n => n | None => 0 end.

(** 183-204: CCOrderedCollectionListInsert *)
Definition list_insert_at (s : lcoll) (x : A) (i : nat) (al : alloc) : option (lcoll * entry) :=
  if node_ok al then
    let n := l_fresh s in
    let s := list_new_node s x in
    let? nx := list_entry s i in
    let? s :=
      match nx with
      | Some nx =>
          let? (h, _) := LinkedListModel.insert_before (l_fresh s) (l_heap s) nx n in
          Some (mkLcoll (l_sentinel s) (l_end s) (l_count s) h (l_data s) (l_fresh s))
      | None => list_append_node s n
      end in
    Some (list_set_count s (l_count s + 1), n)
  else Some (s, 0).

(** 234-243: the search of CCOrderedCollectionListIndex *)
Fixpoint list_search (fuel : nat) (h : LinkedListModel.heap) (n : option nat) (e : entry) (loop : nat) : option Z :=
  match n with
  | None => Some (-1)%Z
  | Some n =>
      match fuel with
      | 0 => None
      | S f =>
          if n =? e then Some (Z.of_nat loop)
          else let? nx := LinkedListModel.get_next h n in list_search f h nx e (loop + 1)
      end
  end.

(** 230-246: CCOrderedCollectionListIndex *)
Definition list_index (s : lcoll) (e : entry) : option Z :=
  let? nx := LinkedListModel.get_next (l_heap s) e in
  match nx with
  | None => Some (Z.of_nat (l_count s) - 1)%Z
  | Some _ =>
      let? n := LinkedListModel.get_next (l_heap s) (l_sentinel s) in
      list_search (l_fresh s) (l_heap s) n e 0
  end.

(** 253-256: CCOrderedCollectionListRemoveLast *)
Definition list_remove_last (s : lcoll) : option lcoll :=
  match l_end s with Some e => list_remove s e | None => Some s end.

(** 58-81: the interface. 248-251: CCOrderedCollectionListEntryLast *)
Definition list_interface : interface lcoll := {|
  i_count := l_count;
  i_insert := list_insert;
  i_remove := list_remove;
  i_element := list_element;
  i_enumerator := list_enumerator;
  i_enumerator_entry := list_enumerator_entry;
  i_destroy := list_destroy;
  i_remove_all := None;
  i_remove_collection := None;
  o_insert := list_insert_at;
  o_entry := fun s i => let? p := list_entry s i in Some (s, ptr p);
  o_index := list_index;
  o_replace := None;
  o_remove := None;
  o_append := None;
  o_prepend := None;
  o_element := None;
  o_last_entry := Some (fun s => Some (ptr (l_end s)));
  o_remove_last := Some list_remove_last |}.

(** ** Collection.c and OrderedCollection.c *)
(** The public calls. [cmp x y] is whether the comparator (or memcmp) finds the element [x] equal to [y]. *)
Inductive op :=
| Insert (x : A) (al : alloc)
| Remove (e : entry)
| RemoveAll
| InsertMany (xs : list A)
| RemoveMany (es : list entry)
| GetElement (e : entry)
| GetCount
| AllEntries
| Find (cmp : A -> A -> bool) (x : A)
| FindMany (cmp : A -> A -> bool) (xs : list A)
| Forward | Backward
| InsertAt (x : A) (i : nat) (al : alloc)
| Append (x : A) (al : alloc)
| Prepend (x : A) (al : alloc)
| ReplaceAt (x : A) (i : nat) (al : alloc)
| RemoveAt (i : nat)
| RemoveLast
| EntryAt (i : nat)
| LastEntry
| IndexOf (e : entry)
| ElementAt (i : nat)
| LastElement.

Inductive ret :=
| RVoid | REntry (e : entry) | REntries (es : list entry) | RElement (x : option A) | RElements (xs : list A)
| RCount (n : nat) | RIndex (i : Z).

Section Generic.
Context {St : Type} (I : interface St).

(** The results of a call: the new state, what it returns, and the elements it passes to the destructor, in order. *)
Local Notation result := (option (St * ret * list A)).

(** Collection.c 411-417, CollectionEnumerator.h: CCCollectionGetEnumerator then a loop over the elements from the
    current one, [act] being Next or Previous. *)
Fixpoint enumerate_from (fuel : nat) (s : St) (e : enum) (x : option A) (act : action) : option (list A) :=
  match x with
  | None => Some []
  | Some x =>
      match fuel with
      | 0 => None
      | S f =>
          let? (e, y) := i_enumerator I s e act in
          let? xs := enumerate_from f s e y act in
          Some (x :: xs)
      end
  end.

Definition enumerate (s : St) : option (list A) :=
  let? (e, _) := i_enumerator I s (Internal None) Head in
  let? (e, x) := i_enumerator I s e Current in
  enumerate_from (i_count I s + 1) s e x Next.

Definition enumerate_back (s : St) : option (list A) :=
  let? (e, _) := i_enumerator I s (Internal None) Head in
  let? (e, x) := i_enumerator I s e Tail in
  enumerate_from (i_count I s + 1) s e x Previous.

(** Collection.c 285-290: CCCollectionGetElement *)
Definition get_element (s : St) (e : entry) : option (option A) :=
  if e =? 0 then Some None else option_map Some (i_element I s e).

(** Passing an element to the destructor if there is one. A NULL element would be a misuse of the destructor. *)
Definition destruct_element (dtor : bool) (x : option (option A)) : option (list A) :=
  if dtor then let? x := x in let? x := x in Some [x] else Some [].

(** Collection.c 193-205: CCCollectionRemoveElement *)
Definition remove_element (dtor : bool) (s : St) (e : entry) : option (St * list A) :=
  if e =? 0 then Some (s, [])
  else
    let? d := destruct_element dtor (get_element s e) in
    let? s := i_remove I s e in
    Some (s, d).

(** Collection.c 278-281: the loop of CCCollectionRemoveCollection *)
Fixpoint remove_elements (dtor : bool) (s : St) (es : list entry) : option (St * list A) :=
  match es with
  | [] => Some (s, [])
  | e :: t =>
      let? (s, d) := remove_element dtor s e in
      let? (s, d') := remove_elements dtor s t in
      Some (s, d ++ d')
  end.

(** Collection.c 264-267: the destructor on each of the entries *)
Fixpoint destruct_elements (dtor : bool) (s : St) (es : list entry) : option (list A) :=
  match es with
  | [] => Some []
  | e :: t =>
      let? d := destruct_element dtor (get_element s e) in
      let? d' := destruct_elements dtor s t in
      Some (d ++ d')
  end.

(** Collection.c 252-283: CCCollectionRemoveCollection *)
Definition remove_collection (dtor : bool) (s : St) (es : list entry) : option (St * list A) :=
  match i_remove_collection I with
  | Some f =>
      let? d := destruct_elements dtor s es in
      let? s := f s es in
      Some (s, d)
  | None => remove_elements dtor s es
  end.

(** Collection.c 328-336: the loop of CCCollectionGetAllEntries *)
Fixpoint entries_from (fuel : nat) (s : St) (e : enum) (x : option A) : option (St * list entry) :=
  match x with
  | None => Some (s, [])
  | Some _ =>
      match fuel with
      | 0 => None
      | S f =>
          let? (s, n) := i_enumerator_entry I s e in
          let? (e, y) := i_enumerator I s e Next in
          let? (s, es) := entries_from f s e y in
          Some (s, n :: es)
      end
  end.

(** Collection.c 320-340: CCCollectionGetAllEntries *)
Definition all_entries (s : St) : option (St * list entry) :=
  let? (e, _) := i_enumerator I s (Internal None) Head in
  let? (e, x) := i_enumerator I s e Current in
  entries_from (i_count I s + 1) s e x.

(** Collection.c 207-218: CCCollectionRemoveAllElements *)
Definition remove_all (dtor : bool) (s : St) : option (St * list A) :=
  match i_remove_all I with
  | Some f => let? s := f s in Some (s, [])
  | None => let? (s, es) := all_entries s in remove_collection dtor s es
  end.

(** Collection.c 235-239 and 244-247: the loops of CCCollectionInsertCollection *)
Fixpoint insert_elements (s : St) (xs : list A) : option (St * list entry) :=
  match xs with
  | [] => Some (s, [])
  | x :: t =>
      let? (s, e) := i_insert I s x (mkAlloc true true) in
      let? (s, es) := insert_elements s t in
      Some (s, e :: es)
  end.

(** Collection.c 358-380: the loop of CCCollectionFindElement *)
Fixpoint find_from (fuel : nat) (s : St) (cmp : A -> A -> bool) (x : A) (e : enum) (y : option A) : option (St * entry) :=
  match y with
  | None => Some (s, 0)
  | Some y =>
      match fuel with
      | 0 => None
      | S f =>
          if cmp y x then i_enumerator_entry I s e
          else let? (e, y) := i_enumerator I s e Next in find_from f s cmp x e y
      end
  end.

(** Collection.c 342-384: CCCollectionFindElement *)
Definition find_element (s : St) (cmp : A -> A -> bool) (x : A) : option (St * entry) :=
  let? (e, _) := i_enumerator I s (Internal None) Head in
  let? (e, y) := i_enumerator I s e Current in
  find_from (i_count I s + 1) s cmp x e y.

(** Collection.c 386-409: CCCollectionFindCollection *)
Fixpoint find_elements (s : St) (cmp : A -> A -> bool) (xs : list A) : option (St * list entry) :=
  match xs with
  | [] => Some (s, [])
  | x :: t =>
      let? (s, e) := find_element s cmp x in
      let? (s, es) := find_elements s cmp t in
      Some (s, if e =? 0 then es else e :: es)
  end.

(** OrderedCollection.c 31-37: CCOrderedCollectionInsertElementAtIndex *)
Definition insert_at_index (s : St) (x : A) (i : nat) (al : alloc) : option (St * entry) :=
  if i <=? i_count I s then o_insert I s x i al else None.

(** OrderedCollection.c 39-45: CCOrderedCollectionAppendElement *)
Definition append_element (s : St) (x : A) (al : alloc) : option (St * entry) :=
  match o_append I with Some f => f s x al | None => insert_at_index s x (i_count I s) al end.

(** OrderedCollection.c 47-53: CCOrderedCollectionPrependElement *)
Definition prepend_element (s : St) (x : A) (al : alloc) : option (St * entry) :=
  match o_prepend I with Some f => f s x al | None => insert_at_index s x 0 al end.

(** OrderedCollection.c 113-119: CCOrderedCollectionGetEntryAtIndex *)
Definition entry_at_index (s : St) (i : nat) : option (St * entry) :=
  if i <? i_count I s then o_entry I s i else None.

(** OrderedCollection.c 139-146: CCOrderedCollectionGetElementAtIndex *)
Definition element_at_index (s : St) (i : nat) : option (St * option A) :=
  if i <? i_count I s then
    match o_element I with
    | Some f => let? x := f s i in Some (s, Some x)
    | None => let? (s, e) := entry_at_index s i in let? x := get_element s e in Some (s, x)
    end
  else None.

(** The destructor on the element at an index, if there is one *)
Definition destruct_at_index (dtor : bool) (s : St) (i : nat) : option (St * list A) :=
  if dtor then
    let? (s, x) := element_at_index s i in
    let? d := destruct_element true (Some x) in
    Some (s, d)
  else Some (s, []).

(** OrderedCollection.c 79-94: CCOrderedCollectionRemoveElementAtIndex *)
Definition remove_at_index (dtor : bool) (s : St) (i : nat) : option (St * list A) :=
  if i <? i_count I s then
    match o_remove I with
    | Some f =>
        let? (s, d) := destruct_at_index dtor s i in
        let? s := f s i in
        Some (s, d)
    | None => let? (s, e) := entry_at_index s i in remove_element dtor s e
    end
  else None.

(** OrderedCollection.c 55-77: CCOrderedCollectionReplaceElementAtIndex *)
Definition replace_at_index (dtor : bool) (s : St) (x : A) (i : nat) (al : alloc) : option (St * entry * list A) :=
  if i <? i_count I s then
    match o_replace I with
    | Some f =>
        let? (s, d) := destruct_at_index dtor s i in
        let? (s, e) := f s x i in
        Some (s, e, d)
    | None =>
        let? (s, e) := insert_at_index s x i al in
        let? (s, d) := remove_at_index dtor s (i + 1) in
        Some (s, e, d)
    end
  else None.

(** OrderedCollection.c 96-111: CCOrderedCollectionRemoveLastElement *)
Definition remove_last (dtor : bool) (s : St) : option (St * list A) :=
  if i_count I s =? 0 then None
  else
    match o_remove_last I with
    | Some f =>
        let? (s, d) := destruct_at_index dtor s (i_count I s - 1) in
        let? s := f s in
        Some (s, d)
    | None => remove_at_index dtor s (i_count I s - 1)
    end.

(** OrderedCollection.c 121-130: CCOrderedCollectionGetLastEntry *)
Definition last_entry (s : St) : option (St * entry) :=
  if i_count I s =? 0 then Some (s, 0)
  else match o_last_entry I with
       | Some f => let? e := f s in Some (s, e)
       | None => entry_at_index s (i_count I s - 1)
       end.

(** OrderedCollection.c 148-153: CCOrderedCollectionGetLastElement *)
Definition last_element (s : St) : option (St * option A) :=
  let? (s, e) := last_entry s in let? x := get_element s e in Some (s, x).

Definition returning (r : option (St * entry)) : result := let? (s, e) := r in Some (s, REntry e, []).
Definition removing (r : option (St * list A)) : result := let? (s, d) := r in Some (s, RVoid, d).
Definition listing (r : option (St * list entry)) : result := let? (s, es) := r in Some (s, REntries es, []).
Definition showing (r : option (St * option A)) : result := let? (s, x) := r in Some (s, RElement x, []).

(** One call on a collection with ([dtor] is true) or without a destructor.
    Collection.c 186-191: CCCollectionInsertElement, 292-297: CCCollectionGetCount.
    OrderedCollection.c 132-137: CCOrderedCollectionGetIndex. *)
Definition step (dtor : bool) (s : St) (o : op) : result :=
  match o with
  | Insert x al => returning (i_insert I s x al)
  | Remove e => removing (remove_element dtor s e)
  | RemoveAll => removing (remove_all dtor s)
  | InsertMany xs => listing (insert_elements s xs)
  | RemoveMany es => removing (remove_collection dtor s es)
  | GetElement e => let? x := get_element s e in Some (s, RElement x, [])
  | GetCount => Some (s, RCount (i_count I s), [])
  | AllEntries => listing (all_entries s)
  | Find cmp x => returning (find_element s cmp x)
  | FindMany cmp xs => listing (find_elements s cmp xs)
  | Forward => let? xs := enumerate s in Some (s, RElements xs, [])
  | Backward => let? xs := enumerate_back s in Some (s, RElements xs, [])
  | InsertAt x i al => returning (insert_at_index s x i al)
  | Append x al => returning (append_element s x al)
  | Prepend x al => returning (prepend_element s x al)
  | ReplaceAt x i al => let? (s, e, d) := replace_at_index dtor s x i al in Some (s, REntry e, d)
  | RemoveAt i => removing (remove_at_index dtor s i)
  | RemoveLast => removing (remove_last dtor s)
  | EntryAt i => returning (entry_at_index s i)
  | LastEntry => returning (last_entry s)
  | IndexOf e => let? i := o_index I s e in Some (s, RIndex i, [])
  | ElementAt i => showing (element_at_index s i)
  | LastElement => showing (last_element s)
  end.

(** A history of calls: the final state, and for each call what it returned and destroyed *)
Fixpoint run (dtor : bool) (s : St) (ops : list op) : option (St * list (ret * list A)) :=
  match ops with
  | [] => Some (s, [])
  | o :: t =>
      let? (s, r, d) := step dtor s o in
      let? (s, rs) := run dtor s t in
      Some (s, (r, d) :: rs)
  end.

(** Collection.c 129-143: CCCollectionDestructor, run by CCCollectionDestroy (179-184): the elements passed to the
    destructor *)
Definition destroy (dtor : bool) (s : St) : option (St * list A) :=
  let? d := if dtor then enumerate s else Some [] in
  let? s := i_destroy I s in
  Some (s, d).

End Generic.
End Model.
Arguments op : clear implicits.
Arguments ret : clear implicits.
Arguments interface : clear implicits.
Arguments acoll : clear implicits.
Arguments lcoll : clear implicits.
