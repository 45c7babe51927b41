(** Model of the two data-oriented hash maps: CommonC/HashMapSeparateChainingArrayDataOrientedHash.c (hashes apart from
    keys and values; "Hash" below) and CommonC/HashMapSeparateChainingArrayDataOrientedAll.c (hashes, keys and values
    each apart; "All" below), with CommonC/HashMap.c on top of them.

    Simplifications: those of HashMapModel.v. The entry encoding and the hash bits, whose text is the same in the three
    files, are HashMapModel's (Hash 79-122, All 79-122). *)
From Verif Require Import Base Word BitTricksModel.
From Verif Require Import HashMapModel.
From Verif Require EnumerableModel.
Local Open Scope N_scope.

(** An array of buckets: NULL before the first use, as is each bucket. *)
Definition table (A : Type) : Type := option (list (option (list A))).

(** Reading and writing through CCArrayGetElementAtIndex twice. [None]: an index out of bounds or a NULL array. *)
Definition tget {A} (t : table A) (b i : nat) : option A :=
  let? bs := t in let? bk := nth_error bs b in let? l := bk in nth_error l i.

Definition tset {A} (t : table A) (b i : nat) (x : A) : option (table A) :=
  let? bs := t in let? bk := nth_error bs b in let? l := bk in
  if Nat.ltb i (length l) then Some (Some (upd bs b (Some (upd l i x)))) else None.

(** Creating the array of buckets and the bucket when they are NULL, then CCArrayAppendElement (Hash 152-163, 181 and
    184-200; All 132-143, 159 and 162-175, 178-191). The index of the new element is returned. *)
Definition tappend {A} (bc : nat) (t : table A) (b : nat) (x : A) : option (table A * nat) :=
  let bs := match t with Some bs => bs | None => repeat None bc end in
  let? bk := nth_error bs b in
  let l := match bk with Some l => l | None => [] end in
  Some (Some (upd bs b (Some (l ++ [x]))), length l).

(** ** The hashes (the same text in both files) *)
(** Hash 167-178, All 147-156: the first removed slot of a bucket *)
Fixpoint hfind_empty (l : list N) (i : nat) : option nat :=
  match l with
  | [] => None
  | h :: t => if is_empty h then Some i else hfind_empty t (S i)
  end.

Definition hreusable (hs : table N) (b : nat) : option (option nat) :=
  match hs with
  | None => Some None
  | Some bs => let? bk := nth_error bs b in Some (match bk with Some l => hfind_empty l 0 | None => None end)
  end.

(** The asserted hash behind an entry (Hash 313-316, 360, 376, 390-393, 214-216; All 304-307, 351, 367, 381-384,
    203-205) *)
Definition hentry (bc : nat) (hs : table N) (e : N) : option (option (nat * nat * N)) :=
  let? x := entry_to_index (N.of_nat bc) e in
  match x with
  | None => Some None
  | Some (b, i) =>
      let? h := tget hs (N.to_nat b) (N.to_nat i) in
      if is_empty h then None else Some (Some (N.to_nat b, N.to_nat i, h))
  end.

Fixpoint hfirst_live (l : list N) (i : nat) : option nat :=
  match l with
  | [] => None
  | h :: t => if is_empty h then hfirst_live t (S i) else Some i
  end.

(** Hash 501-514 and 556-571, All 492-505 and 547-562 *)
Fixpoint hscan_up (bs : list (option (list N))) (b start : nat) : option (nat * nat) :=
  match bs with
  | [] => None
  | None :: t => hscan_up t (S b) start
  | Some l :: t =>
      match hfirst_live (skipn start l) start with Some i => Some (b, i) | None => hscan_up t (S b) 0 end
  end.

Fixpoint hlast_live (l : list N) (n : nat) : option nat :=
  match n with
  | O => None
  | S i => match nth_error l i with
           | Some h => if is_empty h then hlast_live l i else Some i
           | None => hlast_live l i
           end
  end.

(** Hash 526-539 and 588-603, All 517-530 and 579-594 *)
Fixpoint hscan_down (bs : list (option (list N))) (n : nat) (upto : option nat) : option (nat * nat) :=
  match n with
  | O => None
  | S b => match nth_error bs b with
           | Some (Some l) =>
               match hlast_live l (match upto with Some u => u | None => length l end) with
               | Some i => Some (b, i)
               | None => hscan_down bs b None
               end
           | _ => hscan_down bs b upto
           end
  end.

Definition hentry_of (bc : nat) (p : option (nat * nat)) : option N :=
  match p with Some (b, i) => index_to_entry (N.of_nat bc) (N.of_nat b) (N.of_nat i) | None => Some 0 end.

(** Hash 495-518, All 486-509: GetHeadEntry *)
Definition hhead (bc : nat) (hs : table N) : option N :=
  match hs with None => Some 0 | Some bs => hentry_of bc (hscan_up bs 0 0) end.

(** Hash 520-543, All 511-534: GetTailEntry *)
Definition htail (bc : nat) (hs : table N) : option N :=
  match hs with None => Some 0 | Some bs => hentry_of bc (hscan_down bs (length bs) None) end.

(** Hash 545-575, All 536-566: GetNextEntry. [None] for entry 0: uninitialised indexes are used. *)
Definition hnext (bc : nat) (hs : table N) (e : N) : option N :=
  match hs with
  | None => Some 0
  | Some bs =>
      let? x := entry_to_index (N.of_nat bc) e in
      let? (b, i) := x in
      hentry_of bc (hscan_up (skipn (N.to_nat b) bs) (N.to_nat b) (S (N.to_nat i)))
  end.

(** Hash 577-607, All 568-598: GetPrevEntry *)
Definition hprev (bc : nat) (hs : table N) (e : N) : option N :=
  match hs with
  | None => Some 0
  | Some bs =>
      let? x := entry_to_index (N.of_nat bc) e in
      let? (b, i) := x in
      hentry_of bc (hscan_down bs (S (N.to_nat b)) (Some (N.to_nat i)))
  end.

(** Hash 609-642, All 600-633: the enumerator, with the entry standing for the pointer as in HashMapModel.v *)
Definition henum (bc : nat) (hs : table N) (e : N) (a : EnumerableModel.action) : option (N * option N) :=
  let? e := match a with
            | EnumerableModel.Head => hhead bc hs
            | EnumerableModel.Tail => htail bc hs
            | EnumerableModel.Next => hnext bc hs e
            | EnumerableModel.Previous => hprev bc hs e
            | EnumerableModel.Current => Some e
            end in
  Some (e, if e =? 0 then None else Some e).

(** Hash 448-462 and 475-489, All 439-453 and 466-480: the elements of a table in the live slots, in order *)
Fixpoint hlive_bucket {A} (l : list N) (bk : option (list A)) (i : nat) : option (list A) :=
  match l with
  | [] => Some []
  | h :: t =>
      let? r := hlive_bucket t bk (S i) in
      if is_empty h then Some r else let? xs := bk in let? x := nth_error xs i in Some (x :: r)
  end.

Fixpoint hlive_buckets {A} (bs : list (option (list N))) (t : table A) (b : nat) : option (list A) :=
  match bs with
  | [] => Some []
  | None :: u => hlive_buckets u t (S b)
  | Some l :: u =>
      let? ts := t in let? bk := nth_error ts b in
      let? xs := hlive_bucket l bk 0 in let? r := hlive_buckets u t (S b) in Some (xs ++ r)
  end.

Definition hlive {A} (hs : table N) (t : table A) : option (list A) :=
  match hs with None => Some [] | Some bs => hlive_buckets bs t 0 end.

Definition hslots (hs : table N) : nat :=
  match hs with None => 0 | Some bs => length (concat (map (fun bk => match bk with Some l => l | None => [] end) bs)) end.

Section Split.
Context {K V : Type} (hash : K -> N) (eqk : K -> K -> bool).

(** The bucket loop of GetKey (Hash 240-261, All 229-250); [key i] reads the key in slot [i]. *)
Fixpoint hfind (h : N) (k : K) (l : list N) (key : nat -> option K) (i : nat) : option (option nat) :=
  match l with
  | [] => Some None
  | x :: t =>
      if h =? N.land x (wnot 64 INIT)
      then let? k0 := key i in if eqk k k0 then Some (Some i) else hfind h k t key (S i)
      else hfind h k t key (S i)
  end.

(** ** Hash: the hashes, and items of a key and a value *)
Record hmap := mkH { hbc : nat; hcount : nat; hhashes : table N; hbuckets : table (K * option V) }.

(** Hash 268-281, HashMap.c 38-72 *)
Definition h_create (bc : nat) : option hmap := if Nat.leb 1 bc then Some (mkH bc 0 None None) else None.

(** Hash 225-266: GetKey *)
Definition h_get_key (m : hmap) (k : K) : option (N * nat * option nat) :=
  let h := N.land (hash k) RESERVED in
  let b := N.to_nat (h mod N.of_nat (hbc m)) in
  match hhashes m with
  | None => Some (h, b, None)
  | Some bs =>
      let? bk := nth_error bs b in
      match bk with
      | None => Some (h, b, None)
      | Some l => let? r := hfind h k l (fun i => option_map fst (tget (hbuckets m) b i)) 0 in Some (h, b, r)
      end
  end.

(** Hash 144-203: AddValue *)
Definition h_add_value (m : hmap) (b : nat) (h : N) (k : K) (v : option V) : option (hmap * nat) :=
  let h := match v with Some _ => N.lor h INIT | None => h end in
  let? r := hreusable (hhashes m) b in
  match r with
  | Some i =>
      let? hs := tset (hhashes m) b i h in
      let? it := tget (hbuckets m) b i in
      let? bs := tset (hbuckets m) b i (k, match v with Some _ => v | None => snd it end) in
      Some (mkH (hbc m) (hcount m + 1) hs bs, i)
  | None =>
      let? (hs, _) := tappend (hbc m) (hhashes m) b h in
      let? (bs, i) := tappend (hbc m) (hbuckets m) b (k, v) in
      Some (mkH (hbc m) (hcount m + 1) hs bs, i)
  end.

Definition h_to_entry (m : hmap) (b i : nat) : option N := index_to_entry (N.of_nat (hbc m)) (N.of_nat b) (N.of_nat i).

(** Hash 205-223: RemoveValue *)
Definition h_remove (m : hmap) (e : N) : option hmap :=
  let? x := hentry (hbc m) (hhashes m) e in
  match x with
  | None => Some m
  | Some (b, i, h) =>
      let? hs := tset (hhashes m) b i (N.land (N.lor h EMPTY) (wnot 64 INIT)) in
      Some (mkH (hbc m) (hcount m - 1) hs (hbuckets m))
  end.

(** Marking a slot initialised and storing a value in it *)
Definition h_write (m : hmap) (b i : nat) (h : N) (v : option V) : option hmap :=
  let? hs := tset (hhashes m) b i h in
  let? it := tget (hbuckets m) b i in
  let? bs := tset (hbuckets m) b i (fst it, v) in
  Some (mkH (hbc m) (hcount m) hs bs).

(** Hash 414-433: SetValue; [v] is [None] when CCHashMapRehash copies a value never written. *)
Definition h_set_value (m : hmap) (k : K) (v : option V) : option hmap :=
  let? (h, b, r) := h_get_key m k in
  match r with
  | Some i => let? x := tget (hhashes m) b i in h_write m b i (if is_init h then x else N.lor x INIT) v
  | None => let? (m, _) := h_add_value m b (N.lor h INIT) k v in Some m
  end.

(** HashMap.c 94-99: the loop of CCHashMapRehash *)
Fixpoint h_copy_entries (fuel : nat) (m n : hmap) (e : N) : option hmap :=
  if e =? 0 then Some n
  else match fuel with
       | O => None
       | S f =>
           let? x := hentry (hbc m) (hhashes m) e in
           let? (b, i, _) := x in
           let? it := tget (hbuckets m) b i in
           let? n := h_set_value n (fst it) (snd it) in
           let? e := hnext (hbc m) (hhashes m) e in
           h_copy_entries f m n e
       end.

(** HashMap.c 80-106 *)
Definition h_rehash (m : hmap) (bc : nat) : option hmap :=
  let? n := h_create bc in
  let? e := hhead (hbc m) (hhashes m) in
  h_copy_entries (hslots (hhashes m)) m n e.

Definition h_step (m : hmap) (o : op K V) : option (hmap * ret K V) :=
  match o with
  | SetValue k v => let? m := h_set_value m k (Some v) in Some (m, RUnit)
  | GetValue k => (* Hash 405-412 *)
      let? (_, b, r) := h_get_key m k in
      match r with
      | Some i => let? it := tget (hbuckets m) b i in Some (m, RValue (Some (snd it)))
      | None => Some (m, RValue None)
      end
  | RemoveValue k => (* Hash 435-439 *)
      let? (_, b, r) := h_get_key m k in
      match r with
      | Some i => let? e := h_to_entry m b i in let? m := h_remove m e in Some (m, RUnit)
      | None => Some (m, RUnit)
      end
  | FindKey k => (* Hash 325-334 *)
      let? (_, b, r) := h_get_key m k in
      match r with
      | Some i => let? e := h_to_entry m b i in Some (m, REntry e)
      | None => Some (m, REntry 0)
      end
  | EntryForKey k => (* Hash 336-351 *)
      let? (h, b, r) := h_get_key m k in
      match r with
      | Some i => let? e := h_to_entry m b i in Some (m, RCreated e false)
      | None => let? (m, i) := h_add_value m b h k None in let? e := h_to_entry m b i in Some (m, RCreated e true)
      end
  | IsInitialized e => (* Hash 307-323 *)
      let? x := hentry (hbc m) (hhashes m) e in
      Some (m, RBool (match x with Some (_, _, h) => is_init h | None => false end))
  | GetKey e => (* Hash 353-367 *)
      let? x := hentry (hbc m) (hhashes m) e in
      match x with
      | Some (b, i, _) => let? it := tget (hbuckets m) b i in Some (m, RKey (Some (fst it)))
      | None => Some (m, RKey None)
      end
  | GetEntry e => (* Hash 369-383, HashMap.c 167-174 *)
      let? x := hentry (hbc m) (hhashes m) e in
      match x with
      | Some (b, i, _) => let? it := tget (hbuckets m) b i in Some (m, RValue (Some (snd it)))
      | None => Some (m, RValue None)
      end
  | SetEntry e v => (* Hash 385-398, HashMap.c 176-183 *)
      let? x := hentry (hbc m) (hhashes m) e in
      match x with
      | Some (b, i, h) => let? m := h_write m b i (N.lor h INIT) (Some v) in Some (m, RUnit)
      | None => Some (m, RUnit)
      end
  | RemoveEntry e => let? m := h_remove m e in Some (m, RUnit) (* Hash 400-403, HashMap.c 185-192 *)
  | GetCount => Some (m, RCount (hcount m)) (* Hash 302-305 *)
  | GetKeys => let? l := hlive (hhashes m) (hbuckets m) in Some (m, RKeys (map fst l)) (* Hash 441-466 *)
  | GetValues => let? l := hlive (hhashes m) (hbuckets m) in Some (m, RValues (map snd l)) (* Hash 468-493 *)
  | Rehash bc => let? m := h_rehash m bc in Some (m, RUnit)
  end.

Fixpoint h_run (m : hmap) (ops : list (op K V)) : option (hmap * list (ret K V)) :=
  match ops with
  | [] => Some (m, [])
  | o :: t => let? (m, r) := h_step m o in let? (m, rs) := h_run m t in Some (m, r :: rs)
  end.

(** ** All: hashes, keys and values *)
Record amap := mkA { abc : nat; acount : nat; ahashes : table N; akeys : table K; avalues : table (option V) }.

(** All 257-271, HashMap.c 38-72 *)
Definition a_create (bc : nat) : option amap := if Nat.leb 1 bc then Some (mkA bc 0 None None None) else None.

(** All 214-255: GetKey *)
Definition a_get_key (m : amap) (k : K) : option (N * nat * option nat) :=
  let h := N.land (hash k) RESERVED in
  let b := N.to_nat (h mod N.of_nat (abc m)) in
  match ahashes m with
  | None => Some (h, b, None)
  | Some bs =>
      let? bk := nth_error bs b in
      match bk with
      | None => Some (h, b, None)
      | Some l => let? r := hfind h k l (tget (akeys m) b) 0 in Some (h, b, r)
      end
  end.

(** All 124-192: AddValue. CCArrayReplaceElementAtIndex with NULL does nothing (Array.c 116). *)
Definition a_add_value (m : amap) (b : nat) (h : N) (k : K) (v : option V) : option (amap * nat) :=
  let h := match v with Some _ => N.lor h INIT | None => h end in
  let? r := hreusable (ahashes m) b in
  match r with
  | Some i =>
      let? hs := tset (ahashes m) b i h in
      let? ks := tset (akeys m) b i k in
      let? old := tget (avalues m) b i in
      let? vs := match v with Some _ => tset (avalues m) b i v | None => Some (avalues m) end in
      Some (mkA (abc m) (acount m + 1) hs ks vs, i)
  | None =>
      let? (hs, _) := tappend (abc m) (ahashes m) b h in
      let? (ks, _) := tappend (abc m) (akeys m) b k in
      let? (vs, i) := tappend (abc m) (avalues m) b v in
      Some (mkA (abc m) (acount m + 1) hs ks vs, i)
  end.

Definition a_to_entry (m : amap) (b i : nat) : option N := index_to_entry (N.of_nat (abc m)) (N.of_nat b) (N.of_nat i).

(** All 194-212: RemoveValue *)
Definition a_remove (m : amap) (e : N) : option amap :=
  let? x := hentry (abc m) (ahashes m) e in
  match x with
  | None => Some m
  | Some (b, i, h) =>
      let? hs := tset (ahashes m) b i (N.land (N.lor h EMPTY) (wnot 64 INIT)) in
      Some (mkA (abc m) (acount m - 1) hs (akeys m) (avalues m))
  end.

Definition a_write (m : amap) (b i : nat) (h : N) (v : option V) : option amap :=
  let? hs := tset (ahashes m) b i h in
  let? vs := tset (avalues m) b i v in
  Some (mkA (abc m) (acount m) hs (akeys m) vs).

(** All 405-424: SetValue; [v] as for [h_set_value] *)
Definition a_set_value (m : amap) (k : K) (v : option V) : option amap :=
  let? (h, b, r) := a_get_key m k in
  match r with
  | Some i => let? x := tget (ahashes m) b i in a_write m b i (if is_init h then x else N.lor x INIT) v
  | None => let? (m, _) := a_add_value m b (N.lor h INIT) k v in Some m
  end.

(** HashMap.c 94-99 *)
Fixpoint a_copy_entries (fuel : nat) (m n : amap) (e : N) : option amap :=
  if e =? 0 then Some n
  else match fuel with
       | O => None
       | S f =>
           let? x := hentry (abc m) (ahashes m) e in
           let? (b, i, _) := x in
           let? k := tget (akeys m) b i in
           let? v := tget (avalues m) b i in
           let? n := a_set_value n k v in
           let? e := hnext (abc m) (ahashes m) e in
           a_copy_entries f m n e
       end.

(** HashMap.c 80-106 *)
Definition a_rehash (m : amap) (bc : nat) : option amap :=
  let? n := a_create bc in
  let? e := hhead (abc m) (ahashes m) in
  a_copy_entries (hslots (ahashes m)) m n e.

Definition a_step (m : amap) (o : op K V) : option (amap * ret K V) :=
  match o with
  | SetValue k v => let? m := a_set_value m k (Some v) in Some (m, RUnit)
  | GetValue k => (* All 396-403 *)
      let? (_, b, r) := a_get_key m k in
      match r with
      | Some i => let? v := tget (avalues m) b i in Some (m, RValue (Some v))
      | None => Some (m, RValue None)
      end
  | RemoveValue k => (* All 426-430 *)
      let? (_, b, r) := a_get_key m k in
      match r with
      | Some i => let? e := a_to_entry m b i in let? m := a_remove m e in Some (m, RUnit)
      | None => Some (m, RUnit)
      end
  | FindKey k => (* All 316-325 *)
      let? (_, b, r) := a_get_key m k in
      match r with
      | Some i => let? e := a_to_entry m b i in Some (m, REntry e)
      | None => Some (m, REntry 0)
      end
  | EntryForKey k => (* All 327-342 *)
      let? (h, b, r) := a_get_key m k in
      match r with
      | Some i => let? e := a_to_entry m b i in Some (m, RCreated e false)
      | None => let? (m, i) := a_add_value m b h k None in let? e := a_to_entry m b i in Some (m, RCreated e true)
      end
  | IsInitialized e => (* All 298-314 *)
      let? x := hentry (abc m) (ahashes m) e in
      Some (m, RBool (match x with Some (_, _, h) => is_init h | None => false end))
  | GetKey e => (* All 344-358 *)
      let? x := hentry (abc m) (ahashes m) e in
      match x with
      | Some (b, i, _) => let? k := tget (akeys m) b i in Some (m, RKey (Some k))
      | None => Some (m, RKey None)
      end
  | GetEntry e => (* All 360-374, HashMap.c 167-174 *)
      let? x := hentry (abc m) (ahashes m) e in
      match x with
      | Some (b, i, _) => let? v := tget (avalues m) b i in Some (m, RValue (Some v))
      | None => Some (m, RValue None)
      end
  | SetEntry e v => (* All 376-389, HashMap.c 176-183 *)
      let? x := hentry (abc m) (ahashes m) e in
      match x with
      | Some (b, i, h) => let? m := a_write m b i (N.lor h INIT) (Some v) in Some (m, RUnit)
      | None => Some (m, RUnit)
      end
  | RemoveEntry e => let? m := a_remove m e in Some (m, RUnit) (* All 391-394, HashMap.c 185-192 *)
  | GetCount => Some (m, RCount (acount m)) (* All 293-296 *)
  | GetKeys => let? l := hlive (ahashes m) (akeys m) in Some (m, RKeys l) (* All 432-457 *)
  | GetValues => let? l := hlive (ahashes m) (avalues m) in Some (m, RValues l) (* All 459-484 *)
  | Rehash bc => let? m := a_rehash m bc in Some (m, RUnit)
  end.

Fixpoint a_run (m : amap) (ops : list (op K V)) : option (amap * list (ret K V)) :=
  match ops with
  | [] => Some (m, [])
  | o :: t => let? (m, r) := a_step m o in let? (m, rs) := a_run m t in Some (m, r :: rs)
  end.

End Split.
Arguments hmap : clear implicits.
Arguments amap : clear implicits.
