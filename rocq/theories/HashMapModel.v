(** Model of CommonC/HashMapSeparateChainingArray.c and of CommonC/HashMap.c on top of it.

    Simplifications: a CCArray is a list (C01 proves that it behaves as one), allocation succeeds, and a key or value
    is a single datum rather than bytes. The hasher and the comparator (or the default hash and memcmp) are the
    parameters [hash] and [eqk]. A call is [None] when it has undefined behaviour or fails an assertion. *)
From Verif Require Import Base Word BitTricksModel.
From Verif Require EnumerableModel.
Local Open Scope N_scope.

(** HashMapSeparateChainingArray.c 110-112 *)
Definition RESERVED : N := 2 ^ 62 - 1.
Definition EMPTY : N := 2 ^ 63.
Definition INIT : N := 2 ^ 62.

(** 114-117, 119-122 *)
Definition is_empty (h : N) : bool := negb (N.land h EMPTY =? 0).
Definition is_init (h : N) : bool := negb (N.land h INIT =? 0).

(** 79-92: IndexToEntry. [None]: a shift by the width of the type. *)
Definition index_to_entry (bc b i : N) : option N :=
  let mask := mask_for_value (wadd 64 bc 1) in
  let shift := count_set mask in
  if 64 <=? shift then None
  else Some (if N.land i (N.shiftr (wnot 64 mask) shift) =? i then N.lor (wshl 64 i shift) (wadd 64 b 1) else 0).

(** 94-108: EntryToIndex *)
Definition entry_to_index (bc e : N) : option (option (N * N)) :=
  if e =? 0 then Some None
  else
    let mask := mask_for_value (wadd 64 bc 1) in
    let shift := count_set mask in
    if 64 <=? shift then None
    else Some (Some (wsub 64 (N.land e mask) 1, N.shiftr (N.land e (wnot 64 mask)) shift)).

Section Map.
Context {K V : Type} (hash : K -> N) (eqk : K -> K -> bool).

(** 124-152: an item is a hash, a key and a value; [None] is a value never written. *)
Record item := mkItem { ihash : N; ikey : K; ival : option V }.

(** HashMapSeparateChainingArray.h 34-37 and the bucketCount of HashMapInterface.h. A bucket is [None] before its
    first use. *)
Record hashmap := mkMap { bucketCount : nat; count : nat; buckets : option (list (option (list item))) }.

(** HashMap.c 38-72, HashMapSeparateChainingArray.c 264-276 *)
Definition create (bc : nat) : option hashmap := if Nat.leb 1 bc then Some (mkMap bc 0 None) else None.

(** 235-257: the loop of GetKey *)
Fixpoint find_item (h : N) (k : K) (items : list item) (i : nat) : option nat :=
  match items with
  | [] => None
  | it :: t => if (h =? N.land (ihash it) (wnot 64 INIT)) && eqk k (ikey it) then Some i else find_item h k t (S i)
  end.

(** 220-262: GetKey: the masked hash, the bucket, and the item when there is one *)
Definition get_key (m : hashmap) (k : K) : option (N * nat * option nat) :=
  let h := N.land (hash k) RESERVED in
  let b := N.to_nat (h mod N.of_nat (bucketCount m)) in
  match buckets m with
  | None => Some (h, b, None)
  | Some bs =>
      let? bk := nth_error bs b in
      match bk with
      | None => Some (h, b, None)
      | Some items => Some (h, b, find_item h k items 0)
      end
  end.

(** 177-188: the first removed item of a bucket *)
Fixpoint find_empty (items : list item) (i : nat) : option nat :=
  match items with
  | [] => None
  | it :: t => if is_empty (ihash it) then Some i else find_empty t (S i)
  end.

(** 154-198: AddValue *)
Definition add_value (m : hashmap) (b : nat) (h : N) (k : K) (v : option V) : option (hashmap * nat) :=
  let h := match v with Some _ => N.lor h INIT | None => h end in
  let bs := match buckets m with Some bs => bs | None => repeat None (bucketCount m) end in
  let? bk := nth_error bs b in
  let items := match bk with Some items => items | None => [] end in
  let? (items, i) :=
    match find_empty items 0 with
    | Some i =>
        let? it := nth_error items i in
        Some (upd items i (mkItem h k (match v with Some _ => v | None => ival it end)), i)
    | None => Some (items ++ [mkItem h k v], length items)
    end in
  Some (mkMap (bucketCount m) (count m + 1) (Some (upd bs b (Some items))), i).

(** The item of a bucket (CCArrayGetElementAtIndex twice), and storing it back *)
Definition item_at (m : hashmap) (b i : nat) : option item :=
  let? bs := buckets m in let? bk := nth_error bs b in let? items := bk in nth_error items i.

Definition set_item (m : hashmap) (b i : nat) (it : item) : option hashmap :=
  let? bs := buckets m in let? bk := nth_error bs b in let? items := bk in
  Some (mkMap (bucketCount m) (count m) (Some (upd bs b (Some (upd items i it))))).

(** The item behind an entry, asserted not removed (305-314, 351-359, 368-376, 384-394); [Some None] for entry 0 *)
Definition entry_item (m : hashmap) (e : N) : option (option (nat * nat * item)) :=
  let? x := entry_to_index (N.of_nat (bucketCount m)) e in
  match x with
  | None => Some None
  | Some (b, i) =>
      let? it := item_at m (N.to_nat b) (N.to_nat i) in
      if is_empty (ihash it) then None else Some (Some (N.to_nat b, N.to_nat i, it))
  end.

(** 200-218: RemoveValue *)
Definition remove_item (m : hashmap) (e : N) : option hashmap :=
  let? x := entry_item m e in
  match x with
  | None => Some m
  | Some (b, i, it) =>
      let? m := set_item m b i (mkItem (N.land (N.lor (ihash it) EMPTY) (wnot 64 INIT)) (ikey it) (ival it)) in
      Some (mkMap (bucketCount m) (count m - 1) (buckets m))
  end.

Definition to_entry (m : hashmap) (b i : nat) : option N := index_to_entry (N.of_nat (bucketCount m)) (N.of_nat b) (N.of_nat i).

(** 411-431: SetValue *)
Definition set_value (m : hashmap) (k : K) (v : V) : option hashmap :=
  let? (h, b, r) := get_key m k in
  match r with
  | Some i =>
      let? it := item_at m b i in
      set_item m b i (mkItem (if is_init h then ihash it else N.lor (ihash it) INIT) (ikey it) (Some v))
  | None => let? (m, _) := add_value m b h k (Some v) in Some m
  end.

(** ** Enumeration *)
Fixpoint first_live (items : list item) (i : nat) : option nat :=
  match items with
  | [] => None
  | it :: t => if is_empty (ihash it) then first_live t (S i) else Some i
  end.

(** 499-512 and 554-569: the loops of GetHeadEntry and GetNextEntry, from bucket [b], item [start] *)
Fixpoint scan_up (bs : list (option (list item))) (b start : nat) : option (nat * nat) :=
  match bs with
  | [] => None
  | None :: t => scan_up t (S b) start
  | Some items :: t =>
      match first_live (skipn start items) start with Some i => Some (b, i) | None => scan_up t (S b) 0 end
  end.

(** The last live item among the first [n] of a bucket *)
Fixpoint last_live (items : list item) (n : nat) : option nat :=
  match n with
  | O => None
  | S i => match nth_error items i with
           | Some it => if is_empty (ihash it) then last_live items i else Some i
           | None => last_live items i
           end
  end.

(** 524-537 and 586-601: the loops of GetTailEntry and GetPrevEntry over the first [n] buckets. [upto]: the items
    below it in the last of them, or all. *)
Fixpoint scan_down (bs : list (option (list item))) (n : nat) (upto : option nat) : option (nat * nat) :=
  match n with
  | O => None
  | S b => match nth_error bs b with
           | Some (Some items) =>
               match last_live items (match upto with Some u => u | None => length items end) with
               | Some i => Some (b, i)
               | None => scan_down bs b None
               end
           | _ => scan_down bs b upto
           end
  end.

Definition position_entry (m : hashmap) (p : option (nat * nat)) : option N :=
  match p with Some (b, i) => to_entry m b i | None => Some 0 end.

(** 493-516 *)
Definition head_entry (m : hashmap) : option N :=
  match buckets m with None => Some 0 | Some bs => position_entry m (scan_up bs 0 0) end.

(** 518-541 *)
Definition tail_entry (m : hashmap) : option N :=
  match buckets m with None => Some 0 | Some bs => position_entry m (scan_down bs (length bs) None) end.

(** 543-573. [None] for entry 0: uninitialised indexes are used. *)
Definition next_entry (m : hashmap) (e : N) : option N :=
  match buckets m with
  | None => Some 0
  | Some bs =>
      let? x := entry_to_index (N.of_nat (bucketCount m)) e in
      let? (b, i) := x in
      position_entry m (scan_up (skipn (N.to_nat b) bs) (N.to_nat b) (S (N.to_nat i)))
  end.

(** 575-605 *)
Definition prev_entry (m : hashmap) (e : N) : option N :=
  match buckets m with
  | None => Some 0
  | Some bs =>
      let? x := entry_to_index (N.of_nat (bucketCount m)) e in
      let? (b, i) := x in
      position_entry m (scan_down bs (S (N.to_nat b)) (Some (N.to_nat i)))
  end.

(** 607-641: CCHashMapSeparateChainingArrayEnumerator. The state is the entry (extra[0]); the pointer returned is
    the key or value of the entry, NULL for entry 0, and is represented by the entry. *)
Definition enum_step (m : hashmap) (e : N) (a : EnumerableModel.action) : option (N * option N) :=
  let? e := match a with
            | EnumerableModel.Head => head_entry m
            | EnumerableModel.Tail => tail_entry m
            | EnumerableModel.Next => next_entry m e
            | EnumerableModel.Previous => prev_entry m e
            | EnumerableModel.Current => Some e
            end in
  Some (e, if e =? 0 then None else Some e).

(** 439-464 and 466-491: GetKeys and GetValues, in order *)
Definition live_items (m : hashmap) : list item :=
  match buckets m with
  | None => []
  | Some bs => filter (fun it => negb (is_empty (ihash it))) (concat (map (fun bk => match bk with Some l => l | None => [] end) bs))
  end.

(** HashMap.c 91-99: the loop of CCHashMapRehash, copying from [m] to [n] from entry [e] on. [fuel]: at most one
    round per item. *)
Fixpoint copy_entries (fuel : nat) (m n : hashmap) (e : N) : option hashmap :=
  if e =? 0 then Some n
  else match fuel with
       | O => None
       | S f =>
           let? x := entry_item m e in
           let? (_, _, it) := x in
           (* the value is copied whether or not it was ever written *)
           let? n := match ival it with
                     | Some v => set_value n (ikey it) v
                     | None =>
                         let? (h, b, r) := get_key n (ikey it) in
                         match r with
                         | Some i => let? o := item_at n b i in
                                     set_item n b i (mkItem (if is_init h then ihash o else N.lor (ihash o) INIT) (ikey o) None)
                         | None => let? (n, _) := add_value n b (N.lor h INIT) (ikey it) None in Some n
                         end
                     end in
           let? e := next_entry m e in
           copy_entries f m n e
       end.

Definition slots (m : hashmap) : nat := match buckets m with None => 0 | Some bs => length (concat (map (fun bk => match bk with Some l => l | None => [] end) bs)) end.

(** HashMap.c 80-106: CCHashMapRehash (no implementation provides its own) *)
Definition rehash (m : hashmap) (bc : nat) : option hashmap :=
  let? n := create bc in
  let? e := head_entry m in
  copy_entries (slots m) m n e.

(** ** The interface *)
Inductive op :=
| SetValue (k : K) (v : V)
| GetValue (k : K)
| RemoveValue (k : K)
| FindKey (k : K)
| EntryForKey (k : K)
| IsInitialized (e : N)
| GetKey (e : N)
| GetEntry (e : N)
| SetEntry (e : N) (v : V)
| RemoveEntry (e : N)
| GetCount
| GetKeys
| GetValues
| Rehash (bc : nat).

(** [RValue]: NULL or the contents behind the pointer. *)
Inductive ret :=
| RUnit
| RValue (v : option (option V))
| REntry (e : N)
| RCreated (e : N) (created : bool)
| RBool (b : bool)
| RKey (k : option K)
| RCount (n : nat)
| RKeys (l : list K)
| RValues (l : list (option V)).

Definition step (m : hashmap) (o : op) : option (hashmap * ret) :=
  match o with
  | SetValue k v => let? m := set_value m k v in Some (m, RUnit)
  | GetValue k => (* 402-409 *)
      let? (_, b, r) := get_key m k in
      match r with
      | Some i => let? it := item_at m b i in Some (m, RValue (Some (ival it)))
      | None => Some (m, RValue None)
      end
  | RemoveValue k => (* 433-437 *)
      let? (_, b, r) := get_key m k in
      match r with
      | Some i => let? e := to_entry m b i in let? m := remove_item m e in Some (m, RUnit)
      | None => Some (m, RUnit)
      end
  | FindKey k => (* 319-328 *)
      let? (_, b, r) := get_key m k in
      match r with
      | Some i => let? e := to_entry m b i in Some (m, REntry e)
      | None => Some (m, REntry 0)
      end
  | EntryForKey k => (* 330-345 *)
      let? (h, b, r) := get_key m k in
      match r with
      | Some i => let? e := to_entry m b i in Some (m, RCreated e false)
      | None => let? (m, i) := add_value m b h k None in let? e := to_entry m b i in Some (m, RCreated e true)
      end
  | IsInitialized e => (* 301-317 *)
      let? x := entry_item m e in
      Some (m, RBool (match x with Some (_, _, it) => is_init (ihash it) | None => false end))
  | GetKey e => (* 347-362 *)
      let? x := entry_item m e in
      Some (m, RKey (match x with Some (_, _, it) => Some (ikey it) | None => None end))
  | GetEntry e => (* 364-379, HashMap.c 167-174 *)
      let? x := entry_item m e in
      Some (m, RValue (match x with Some (_, _, it) => Some (ival it) | None => None end))
  | SetEntry e v => (* 381-395, HashMap.c 176-183 *)
      let? x := entry_item m e in
      match x with
      | None => Some (m, RUnit)
      | Some (b, i, it) =>
          let? m := set_item m b i (mkItem (N.lor (ihash it) INIT) (ikey it) (Some v)) in Some (m, RUnit)
      end
  | RemoveEntry e => (* 397-400, HashMap.c 185-192 *)
      let? m := remove_item m e in Some (m, RUnit)
  | GetCount => Some (m, RCount (count m)) (* 296-299 *)
  | GetKeys => Some (m, RKeys (map ikey (live_items m)))
  | GetValues => Some (m, RValues (map ival (live_items m)))
  | Rehash bc => let? m := rehash m bc in Some (m, RUnit)
  end.

Fixpoint run (m : hashmap) (ops : list op) : option (hashmap * list ret) :=
  match ops with
  | [] => Some (m, [])
  | o :: t => let? (m, r) := step m o in let? (m, rs) := run m t in Some (m, r :: rs)
  end.

End Map.
Arguments item : clear implicits.
Arguments hashmap : clear implicits.
Arguments op : clear implicits.
Arguments ret : clear implicits.
