(** What a user of a collection relies on, in terms of a ledger: the elements in order, each with the entry that
    denotes it. The user can keep the ledger from the calls made and the entries returned. *)
From Verif Require Import Base CollectionModel.
From Coq Require Import Permutation.

Inductive impl := ArrayBacked | FastArrayBacked | ListBacked.

Section Spec.
Context {A : Type}.

Definition ledger := list (entry * A).
Definition elements (l : ledger) : list A := map snd l.
Definition entries (l : ledger) : list entry := map fst l.

Definition lookup (l : ledger) (e : entry) : option A :=
  match find (fun p => fst p =? e) l with Some p => Some (snd p) | None => None end.

Definition without (es : list entry) (l : ledger) : ledger :=
  filter (fun p => negb (existsb (Nat.eqb (fst p)) es)) l.

Definition is_insertion (o : op A) : bool :=
  match o with Insert _ _ | InsertAt _ _ _ | Append _ _ | Prepend _ _ | ReplaceAt _ _ _ => true | _ => false end.

Definition allocations (o : op A) : alloc :=
  match o with
  | Insert _ al | InsertAt _ _ al | Append _ al | Prepend _ al | ReplaceAt _ _ al => al
  | _ => mkAlloc true true
  end.

(** Every allocation the call makes succeeds. *)
Definition allocates (o : op A) : bool := (grow_ok (allocations o) && node_ok (allocations o))%bool.

(** The elements after a call, each with its entry when it was there before. *)
Definition keep (l : ledger) : list (option entry * A) := map (fun p => (Some (fst p), snd p)) l.

Definition after (l : ledger) (o : op A) : list (option entry * A) :=
  match o with
  | Insert x _ | Append x _ => keep l ++ [(None, x)]
  | InsertMany xs => keep l ++ map (pair None) xs
  | Prepend x _ => (None, x) :: keep l
  | InsertAt x i _ => insert_at (keep l) i [(None, x)]
  | ReplaceAt x i _ => upd (keep l) i (None, x)
  | Remove e => keep (without [e] l)
  | RemoveMany es => keep (without es l)
  | RemoveAll => []
  | RemoveAt i => keep (remove_at l i 1)
  | RemoveLast => keep (removelast l)
  | _ => keep l
  end.

(** The new elements take the returned entries, in order. *)
Fixpoint fill (l : list (option entry * A)) (es : list entry) : ledger :=
  match l with
  | [] => []
  | (Some e, x) :: t => (e, x) :: fill t es
  | (None, x) :: t => (hd 0 es, x) :: fill t (tl es)
  end.

Definition returned (r : ret A) : list entry :=
  match r with REntry e => [e] | REntries es => es | _ => [] end.

(** A fast array's entries are good until the next change: they are renumbered. *)
Definition renumber (l : list (option entry * A)) : ledger := combine (seq 1 (length l)) (map snd l).

(** The ledger after call [o] returned [r]. An insertion that returns NULL inserted nothing. *)
Definition next (im : impl) (l : ledger) (o : op A) (r : ret A) : ledger :=
  if (is_insertion o && match r with REntry 0 => true | _ => false end)%bool then l
  else match im with
       | FastArrayBacked => renumber (after l o)
       | _ => fill (after l o) (returned r)
       end.

(** The caller's obligations: entries are ones the ledger lists (or NULL where that is allowed), indices are in range.
    Entries passed to a fast array for removal ascend. An array backed collection does not survive a failed
    allocation, nor does the replacement of an element in a list backed one. *)
Definition valid (im : impl) (l : ledger) (o : op A) : Prop :=
  match o with
  | Remove e | GetElement e => e = 0 \/ In e (entries l)
  | RemoveMany es => NoDup es /\ incl es (entries l) /\ (im = FastArrayBacked -> forall i j a b, i < j -> nth_error es i = Some a -> nth_error es j = Some b -> a < b)
  | IndexOf e => In e (entries l)
  | InsertAt _ i _ => i <= length l
  | ReplaceAt _ i _ => i < length l
  | RemoveAt i | EntryAt i | ElementAt i => i < length l
  | RemoveLast => l <> []
  | _ => True
  end /\
  match im with
  | ArrayBacked => allocates o = true
  | FastArrayBacked => True
  | ListBacked => match o with ReplaceAt _ _ _ => allocates o = true | _ => True end
  end.

(** Entries are not NULL and denote one element each. *)
Definition well_formed (im : impl) (l : ledger) : Prop :=
  NoDup (entries l) /\ ~ In 0 (entries l) /\ (im = FastArrayBacked -> entries l = seq 1 (length l)).

(** The entry returned denotes the element at position [i] of the new ledger. *)
Definition returns_entry_at (l' : ledger) (i : nat) (r : ret A) : Prop :=
  exists e, r = REntry e /\ nth_error (entries l') i = Some e.

Definition first_equal (cmp : A -> A -> bool) (x : A) (l : ledger) : option (entry * A) :=
  find (fun p => cmp (snd p) x) l.

(** What call [o] may return, [l'] being the ledger after it. *)
Definition answer (l : ledger) (o : op A) (r : ret A) (l' : ledger) : Prop :=
  match o with
  | Insert _ _ | Append _ _ => returns_entry_at l' (length l) r
  | InsertAt _ i _ | ReplaceAt _ i _ => returns_entry_at l' i r
  | Prepend _ _ => returns_entry_at l' 0 r
  | InsertMany _ => r = REntries (skipn (length l) (entries l'))
  | Remove _ | RemoveMany _ | RemoveAll | RemoveAt _ | RemoveLast => r = RVoid
  | GetElement e => r = RElement (lookup l e)
  | GetCount => r = RCount (length l)
  | AllEntries => r = REntries (entries l)
  | Find cmp x => r = REntry (match first_equal cmp x l with Some p => fst p | None => 0 end)
  | FindMany cmp xs =>
      r = REntries (flat_map (fun x => match first_equal cmp x l with Some p => [fst p] | None => [] end) xs)
  | Forward => r = RElements (elements l)
  | Backward => r = RElements (rev (elements l))
  | EntryAt i => returns_entry_at l i r
  | LastEntry => r = REntry (last (entries l) 0)
  | IndexOf e => exists i, nth_error (entries l) i = Some e /\ r = RIndex (Z.of_nat i)
  | ElementAt i => r = RElement (nth_error (elements l) i)
  | LastElement => r = RElement (match rev (elements l) with x :: _ => Some x | [] => None end)
  end.

Definition answer_ok (im : impl) (l : ledger) (o : op A) (r : ret A) : Prop :=
  well_formed im (next im l o r) /\
  (answer l o r (next im l o r) \/ (is_insertion o = true /\ allocates o = false /\ r = REntry 0)).

(** The elements that leave the collection. *)
Definition leaving (l : ledger) (o : op A) (r : ret A) : list A :=
  match o with
  | Remove e => match lookup l e with Some x => [x] | None => [] end
  | RemoveMany es => flat_map (fun e => match lookup l e with Some x => [x] | None => [] end) es
  | RemoveAll => elements l
  | RemoveAt i => match nth_error (elements l) i with Some x => [x] | None => [] end
  | ReplaceAt _ i _ =>
      match r with
      | REntry 0 => []
      | _ => match nth_error (elements l) i with Some x => [x] | None => [] end
      end
  | RemoveLast => match rev (elements l) with x :: _ => [x] | [] => [] end
  | _ => []
  end.

(** The elements that enter it. *)
Definition entering (o : op A) (r : ret A) : list A :=
  match o with
  | Insert x _ | InsertAt x _ _ | Append x _ | Prepend x _ | ReplaceAt x _ _ =>
      match r with REntry 0 => [] | _ => [x] end
  | InsertMany xs => xs
  | _ => []
  end.

(** The one case in which a call lets elements go without destroying them. *)
Definition forgets (im : impl) (o : op A) : bool :=
  match im, o with FastArrayBacked, RemoveAll => true | _, _ => false end.

Section Runs.
Context {St : Type} (I : interface A St).

(** The caller respects [valid] with respect to the ledger kept so far. *)
Fixpoint valid_run (im : impl) (dtor : bool) (s : St) (l : ledger) (ops : list (op A)) : Prop :=
  match ops with
  | [] => True
  | o :: t =>
      valid im l o /\
      match step I dtor s o with Some (s', r, _) => valid_run im dtor s' (next im l o r) t | None => True end
  end.
End Runs.

(** Every answer is right, and with a destructor exactly the leaving elements are destroyed. *)
Fixpoint follows (im : impl) (dtor : bool) (l : ledger) (ops : list (op A)) (rs : list (ret A * list A)) : Prop :=
  match ops, rs with
  | [], [] => True
  | o :: t, (r, d) :: rs =>
      answer_ok im l o r /\
      d = (if (dtor && negb (forgets im o))%bool then leaving l o r else []) /\
      follows im dtor (next im l o r) t rs
  | _, _ => False
  end.

Fixpoint ledger_after (im : impl) (l : ledger) (ops : list (op A)) (rs : list (ret A * list A)) : ledger :=
  match ops, rs with
  | o :: t, (r, _) :: rs => ledger_after im (next im l o r) t rs
  | _, _ => l
  end.

(** All the elements that entered, and all the calls of the destructor. *)
Fixpoint entered (ops : list (op A)) (rs : list (ret A * list A)) : list A :=
  match ops, rs with
  | o :: t, (r, _) :: rs => entering o r ++ entered t rs
  | _, _ => []
  end.

Definition destroyed (rs : list (ret A * list A)) : list A := flat_map snd rs.

(** ** Plain sequences: what index based calls show, whatever the implementation *)
Definition by_index (o : op A) : bool :=
  match o with Remove _ | RemoveMany _ | GetElement _ | IndexOf _ => false | _ => true end.

Definition in_range (n : nat) (o : op A) : Prop :=
  match o with
  | InsertAt _ i _ => i <= n
  | ReplaceAt _ i _ | RemoveAt i | EntryAt i | ElementAt i => i < n
  | RemoveLast => 0 < n
  | _ => True
  end.

(** Answers without the entries themselves: only whether they are NULL and how many there are. *)
Inductive shown := Nothing | Entry (is_null : bool) | Entries (n : nat) | Element (x : option A) | Elements (xs : list A) | Count (n : nat) | Index (i : Z).

Definition show (r : ret A) : shown :=
  match r with
  | RVoid => Nothing
  | REntry e => Entry (e =? 0)
  | REntries es => Entries (length es)
  | RElement x => Element x
  | RElements xs => Elements xs
  | RCount n => Count n
  | RIndex i => Index i
  end.

Definition plain (l : list A) (o : op A) : list A * shown :=
  match o with
  | Insert x _ | Append x _ => (l ++ [x], Entry false)
  | Prepend x _ => (x :: l, Entry false)
  | InsertAt x i _ => (insert_at l i [x], Entry false)
  | ReplaceAt x i _ => (upd l i x, Entry false)
  | RemoveAt i => (remove_at l i 1, Nothing)
  | RemoveLast => (removelast l, Nothing)
  | RemoveAll => ([], Nothing)
  | InsertMany xs => (l ++ xs, Entries (length xs))
  | GetCount => (l, Count (length l))
  | AllEntries => (l, Entries (length l))
  | Find cmp x => (l, Entry (negb (existsb (fun y => cmp y x) l)))
  | FindMany cmp xs => (l, Entries (length (filter (fun x => existsb (fun y => cmp y x) l) xs)))
  | Forward => (l, Elements l)
  | Backward => (l, Elements (rev l))
  | EntryAt i => (l, Entry false)
  | LastEntry => (l, Entry (match l with [] => true | _ => false end))
  | ElementAt i => (l, Element (nth_error l i))
  | LastElement => (l, Element (match rev l with x :: _ => Some x | [] => None end))
  | Remove _ | RemoveMany _ | GetElement _ | IndexOf _ => (l, Nothing)
  end.

Fixpoint plain_run (l : list A) (ops : list (op A)) : list A * list shown :=
  match ops with
  | [] => (l, [])
  | o :: t => let (l', a) := plain l o in let (l'', t') := plain_run l' t in (l'', a :: t')
  end.

Fixpoint in_range_run (l : list A) (ops : list (op A)) : Prop :=
  match ops with
  | [] => True
  | o :: t => by_index o = true /\ allocates o = true /\ in_range (length l) o /\ in_range_run (fst (plain l o)) t
  end.

(** ** Lifetime of an entry *)
(** The element a call inserts. *)
Definition inserts (o : op A) : option A :=
  match o with Insert x _ | InsertAt x _ _ | Append x _ | Prepend x _ | ReplaceAt x _ _ => Some x | _ => None end.

(** The call takes away the element that entry [e] denotes. *)
Definition takes_away (l : ledger) (o : op A) (e : entry) : Prop :=
  match o with
  | Remove e' => e' = e
  | RemoveMany es => In e es
  | RemoveAll => True
  | RemoveAt i | ReplaceAt _ i _ => nth_error (entries l) i = Some e
  | RemoveLast => nth_error (entries l) (length l - 1) = Some e
  | _ => False
  end.

Fixpoint left_alone (im : impl) (l : ledger) (ops : list (op A)) (rs : list (ret A * list A)) (e : entry) : Prop :=
  match ops, rs with
  | o :: t, (r, _) :: rs => ~ takes_away l o e /\ left_alone im (next im l o r) t rs e
  | _, _ => True
  end.

(** No call removes all the elements of a fast array that has some. *)
Fixpoint never_forgets (im : impl) (l : ledger) (ops : list (op A)) (rs : list (ret A * list A)) : Prop :=
  match ops, rs with
  | o :: t, (r, _) :: rs => (forgets im o = true -> l = []) /\ never_forgets im (next im l o r) t rs
  | _, _ => True
  end.

End Spec.
Arguments ledger : clear implicits.
Arguments shown : clear implicits.

(** After any valid history, whatever entries it used, every entry the ledger lists still denotes its element: reading
    through it gives the element, its index is the element's position, and removing through it removes exactly that
    element. *)
Definition denotes {A St} (I : interface A St) (dtor : bool) (s : St) (l : ledger A) : Prop :=
  step I dtor s Forward = Some (s, RElements (elements l), []) /\
  step I dtor s AllEntries = Some (s, REntries (entries l), []) /\
  forall i e x, nth_error l i = Some (e, x) ->
    step I dtor s (GetElement e) = Some (s, RElement (Some x), []) /\
    step I dtor s (IndexOf e) = Some (s, RIndex (Z.of_nat i), []) /\
    exists s', step I dtor s (Remove e) = Some (s', RVoid, if dtor then [x] else []) /\
      step I dtor s' Forward = Some (s', RElements (remove_at (elements l) i 1), []).
