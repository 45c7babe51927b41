(** Model of the reflection mappers of the containers, CommonC/ReflectedTypes.c 1445-1633, 1690-1737, 1812-1859 and 1953-1993:
    the mapper shows the contents of a container to a handler and the unmapper builds a container of what it is shown.
    Copying a container through reflection is the one after the other (Reflect.c).

    [None] is a failed assertion, a read of memory that was never set, or a NULL dereference. The containers are the
    models of Array.c, List.c, LinkedList.c, Queue.c, HashMap.c, Dictionary.c and Collection.c, and the values shown are walked with the model of
    Enumerable.c. Simplifications: what is shown is passed on unchanged (the copying of the elements themselves is
    CCReflectCopy, modelled in ReflectCopyModel); a copy is built in memory of its own, so that walking the original is
    not affected; allocators, and the reference counts of the containers, are left out. *)
From Verif Require Import Base LinkedListModel QueueModel EnumerableModel.
From Verif Require ArrayModel ListModel HashMapModel MapperModel DictionaryModel CollectionModel.

(** What is shown for a handle: the handle itself, retained, or the contents.
    ReflectedTypes.c 1449-1457, 1488-1499, 1546-1557, 1694-1711, 1589-1600, 1816-1832, 1957-1968 *)
Inductive shown (C : Type) := Handle (h : option C) | Contents (c : C).
Arguments Handle {C}. Arguments Contents {C}.

Definition show {C} (i : MapperModel.intent) (h : option C) : shown C :=
  match i, h with
  | MapperModel.Transfer, _ | MapperModel.Share, _ | _, None => Handle h
  | _, Some c => Contents c
  end.

(** What is handed over in the end: the same handle, or one of a container that was built.
    ReflectedTypes.c 1462, 1479, 1504, 1537, 1562, 1580, 1716, 1735, 1973, 1991 *)
Inductive received (C D : Type) := Same (h : option C) | Built (d : D).
Arguments Same {C D}. Arguments Built {C D}.

Definition receive {C D} (build : C -> option D) (s : shown C) : option (received C D) :=
  match s with
  | Handle h => Some (Same h)
  | Contents c => let? d := build c in Some (Built d)
  end.

(** ** Walking what is shown *)
Section Fill.
Context {St A C : Type} (step : St -> action -> option (St * result)) (mem : N -> A) (put : C -> A -> option C).

(** ReflectedTypes.c 1519-1524, 1571, 1982: [for (...; Element; Element = CCEnumerableNext(&Enumerable))]. [mem] is what
    is at an address. *)
Fixpoint fill (fuel : nat) (s : St) (r : result) (c : C) : option C :=
  match r with
  | None => Some c
  | Some a =>
      match fuel with
      | 0 => None
      | S f => let? c := put c (mem a) in let? (s, r) := step s Next in fill f s r c
      end
  end.

Definition fill_all (fuel : nat) (s : St) (c : C) : option C := let? (s, r) := step s Current in fill fuel s r c.

End Fill.

(** ** CCArray *)
Section Array.
Context {A : Type}.

(** The elements at CCArrayGetData. [None]: one was never set. *)
Fixpoint all_set (l : list (option A)) : option (list A) :=
  match l with [] => Some [] | x :: t => let? x := x in let? t := all_set t in Some (x :: t) end.

(** ReflectedTypes.c 1456 and 1466-1470: CCArrayAppendElements of the data and count. [created], [ok]: the storage can
    be allocated, and grown. *)
Definition build_array (chunk : nat) (created ok : bool) (a : ArrayModel.array A) : option (ArrayModel.array A) :=
  let? xs := all_set (firstn (ArrayModel.count a) (match ArrayModel.data a with Some d => d | None => [] end)) in
  let? (b, _) := ArrayModel.step (ArrayModel.create chunk created) (ArrayModel.AppendMany (Some xs) (ArrayModel.count a)) ok in
  Some b.

(** 1445-1481: CCReflectCCArrayMapper and CCReflectCCArrayUnmapper *)
Definition copy_array (i : MapperModel.intent) (chunk : nat) (created ok : bool) (h : option (ArrayModel.array A)) :=
  receive (build_array chunk created ok) (show i h).

End Array.

(** ** CCList *)
Section List.
Context {A : Type} (mem : N -> A) (storage : nat -> N) (size : N).

(** ReflectedTypes.c 1571: CCListAppendElement, whose result is not looked at. [env k]: the allocations of the [k]th
    call. *)
Definition put_list (env : nat -> ListModel.env) (c : nat * ListModel.plist A) (x : A) : option (nat * ListModel.plist A) :=
  let? (l, _) := ListModel.append (snd c) (Some x) (env (fst c)) in Some (S (fst c), l).

(** 1553-1556 and 1566-1571 *)
Definition build_list (fuel chunk page : nat) (env : nat -> ListModel.env) (l : ListModel.plist A) : option (ListModel.plist A) :=
  let? b := list_create storage size l in
  let? l0 := ListModel.create chunk page (env 0) in
  let? c := fill_all (batch_step (list_handler storage l)) mem (put_list env) fuel b (1, l0) in
  Some (snd c).

(** 1542-1582: CCReflectCCListMapper and CCReflectCCListUnmapper *)
Definition copy_list (i : MapperModel.intent) (fuel chunk page : nat) (env : nat -> ListModel.env) (h : option (ListModel.plist A)) :=
  receive (build_list fuel chunk page env) (show i h).

End List.

(** ** CCLinkedList *)
(** Nodes with the value behind their links, and the addresses the allocator is going to give out. *)
Record nodes (A : Type) := mkNodes { n_heap : heap; n_value : addr -> A; n_next : list addr }.
Arguments mkNodes {A}. Arguments n_heap {A}. Arguments n_value {A}. Arguments n_next {A}.

(** LinkedList.c 33-45: CCLinkedListCreateNode. [None]: out of memory; the unmappers use the NULL they get. *)
Definition create_node {A} (s : nodes A) (x : A) : option (nodes A * addr) :=
  match n_next s with
  | [] => None
  | n :: t => Some (mkNodes (hset (n_heap s) n (Some (mkNode None None))) (fun b => if b =? n then x else n_value s b) t, n)
  end.

Section LinkedList.
Context {A : Type} (mem : N -> A) (data : addr -> N).

(** ReflectedTypes.c 1514-1524: the first element makes the list, the others are appended to the last node. *)
Definition put_linked (fuel : nat) (c : nodes A * option (addr * addr)) (x : A) : option (nodes A * option (addr * addr)) :=
  let? (s, n) := create_node (fst c) x in
  match snd c with
  | None => Some (s, Some (n, n))
  | Some (first, last) =>
      let? (h, last) := append true 2 fuel (n_heap s) last n in
      Some (mkNodes h (n_value s) (n_next s), Some (first, last))
  end.

(** 1495-1498 and 1508-1526; the handle of the original is the node [list] in [h] *)
Definition build_linked (fuel : nat) (s : nodes A) (c : heap * addr) : option (nodes A * option addr) :=
  let '(h, list) := c in
  let? e := linked_create fuel h list in
  let? c := fill_all (linked_step fuel h data) mem (put_linked fuel) fuel e (s, None) in
  Some (fst c, option_map fst (snd c)).

(** 1484-1539: CCReflectCCLinkedListMapper and CCReflectCCLinkedListUnmapper *)
Definition copy_linked (i : MapperModel.intent) (fuel : nat) (s : nodes A) (h : option (heap * addr)) :=
  receive (build_linked fuel s) (show i h).

(** ** CCQueue *)
(** ReflectedTypes.c 1982: CCQueuePush of CCQueueCreateNode (Queue.h 146-149 is CCLinkedListCreateNode) *)
Definition put_queue (fuel : nat) (c : nodes A * queue) (x : A) : option (nodes A * queue) :=
  let? (s, n) := create_node (fst c) x in
  let? (h, q) := qpush fuel (n_heap s) (snd c) n in
  Some (mkNodes h (n_value s) (n_next s), q).

(** 1964-1967 and 1977-1982 *)
Definition build_queue (fuel : nat) (s : nodes A) (c : heap * queue) : option (nodes A * queue) :=
  let '(h, q) := c in
  fill_all (queue_enum_step h data) mem (put_queue fuel) fuel (queue_create q) (s, qcreate).

(** 1953-1993: CCReflectCCQueueMapper and CCReflectCCQueueUnmapper *)
Definition copy_queue (i : MapperModel.intent) (fuel : nat) (s : nodes A) (h : option (heap * queue)) :=
  receive (build_queue fuel s) (show i h).

End LinkedList.

(** ** CCHashMap *)
Section Map.
Context {K V C : Type} (hash : K -> N) (eqk : K -> K -> bool) (junk : V) (put : C -> K -> V -> option C).

(** ReflectedTypes.c 1726 and 1847: the keys and values are walked together and the values behind the two pointers [put].
    [hash] is the hasher of the map shown, [junk] what is in the memory of a value that was never set. *)
Fixpoint fill_map (fuel : nat) (m : HashMapModel.hashmap K V) (ks : N) (k : option N) (vs : N) (v : option N) (n : C) : option C :=
  match k, v with
  | Some ke, Some ve =>
      match fuel with
      | 0 => None
      | S f =>
          match HashMapModel.step hash eqk m (HashMapModel.GetKey ke), HashMapModel.step hash eqk m (HashMapModel.GetEntry ve) with
          | Some (_, HashMapModel.RKey (Some key)), Some (_, HashMapModel.RValue (Some value)) =>
              let? n := put n key (match value with Some v => v | None => junk end) in
              let? (ks, k) := HashMapModel.enum_step m ks Next in
              let? (vs, v) := HashMapModel.enum_step m vs Next in
              fill_map f m ks k vs v n
          | _, _ => None
          end
      end
  | _, _ => Some n
  end.

(** 1703-1705 and 1726; 1823-1825 and 1847: from the current key and value on *)
Definition fill_from (fuel : nat) (m : HashMapModel.hashmap K V) (n : C) : option C :=
  let? e := HashMapModel.head_entry m in
  let? (ks, k) := HashMapModel.enum_step m e Current in
  let? (vs, v) := HashMapModel.enum_step m e Current in
  fill_map fuel m ks k vs v n.

End Map.

Section HashMap.
Context {K V : Type} (hash hash' : K -> N) (eqk : K -> K -> bool) (junk : V).

(** 1701-1710 and 1720-1726. [hash'] is the hasher of the type. *)
Definition build_map (fuel bc : nat) (m : HashMapModel.hashmap K V) : option (HashMapModel.hashmap K V) :=
  let? n := HashMapModel.create bc in
  fill_from hash eqk junk (HashMapModel.set_value hash' eqk) fuel m n.

(** 1690-1737: CCReflectCCHashMapMapper and CCReflectCCHashMapUnmapper *)
Definition copy_map (i : MapperModel.intent) (fuel bc : nat) (h : option (HashMapModel.hashmap K V)) :=
  receive (build_map fuel bc) (show i h).

End HashMap.

(** ** CCDictionary *)
Section Dictionary.
Context {K V : Type} (hash hash' : K -> N) (eqk : K -> K -> bool) (junk : V) (full : nat -> nat -> bool).

(** ReflectedTypes.c 1847: CCDictionarySetValue, with the calls of the destructors *)
Definition put_dictionary (c : DictionaryModel.dict K V * list (DictionaryModel.event K V)) (k : K) (v : V) :=
  let? (d, evs) := DictionaryModel.d_set_value hash' eqk full (fst c) k v in Some (d, snd c ++ evs).

(** 1822-1831 and 1837-1847. [s], [kd], [vd]: the size hint and the destructors of the type. *)
Definition build_dictionary (fuel : nat) (s : DictionaryModel.size_hint) (kd vd : bool) (d : DictionaryModel.dict K V) :=
  let? n := DictionaryModel.d_create s kd vd in
  fill_from hash eqk junk put_dictionary fuel (DictionaryModel.dmap d) (n, []).

(** 1812-1859: CCReflectCCDictionaryMapper and CCReflectCCDictionaryUnmapper *)
Definition copy_dictionary (i : MapperModel.intent) (fuel : nat) (s : DictionaryModel.size_hint) (kd vd : bool) (h : option (DictionaryModel.dict K V)) :=
  receive (build_dictionary fuel s kd vd) (show i h).

End Dictionary.

(** ** CCCollection *)
Section Collection.
Context {A St Tt : Type} (I : CollectionModel.interface A St) (J : CollectionModel.interface A Tt).

(** ReflectedTypes.c 1613 and 1618: CCOrderedCollectionAppendElement or CCCollectionInsertElement, whose results are not
    looked at. [env k]: the allocations of the [k]th call. *)
Definition put_collection (ordered : bool) (env : nat -> CollectionModel.alloc) (c : nat * Tt) (x : A) : option (nat * Tt) :=
  let? (t, _) := if ordered then CollectionModel.append_element J (snd c) x (env (fst c)) else CollectionModel.i_insert _ J (snd c) x (env (fst c)) in
  Some (S (fst c), t).

(** 1609-1619: the loop; [e], [x] are the enumerator and the current element *)
Fixpoint fill_collection (ordered : bool) (env : nat -> CollectionModel.alloc) (fuel : nat) (s : St) (e : CollectionModel.enum) (x : option A) (c : nat * Tt) : option (nat * Tt) :=
  match x with
  | None => Some c
  | Some x =>
      match fuel with
      | 0 => None
      | S f =>
          let? c := put_collection ordered env c x in
          let? (e, y) := CollectionModel.i_enumerator _ I s e CollectionModel.Next in
          fill_collection ordered env f s e y c
      end
  end.

(** 1596-1599 and 1604-1619 ([t]: the new collection); Collection.c 411-433: CCCollectionGetEnumerable *)
Definition build_collection (ordered : bool) (env : nat -> CollectionModel.alloc) (fuel : nat) (t : Tt) (s : St) : option Tt :=
  let? (e, _) := CollectionModel.i_enumerator _ I s (CollectionModel.Internal None) CollectionModel.Head in
  let? (e, x) := CollectionModel.i_enumerator _ I s e CollectionModel.Current in
  let? c := fill_collection ordered env fuel s e x (0, t) in Some (snd c).

(** 1585-1633: CCReflectCCCollectionMapper and CCReflectCCCollectionUnmapper *)
Definition copy_collection (i : MapperModel.intent) (ordered : bool) (env : nat -> CollectionModel.alloc) (fuel : nat) (t : Tt) (h : option St) :=
  receive (build_collection ordered env fuel t) (show i h).

End Collection.
