(** What a dictionary does, for programs that use an entry at once after looking it up. *)
From Verif Require Import Base HashMapModel DictionaryModel.

Section Spec.
Context {K V : Type} (hash : K -> N) (eqk : K -> K -> bool) (full : nat -> nat -> bool).

(** ** Programs *)
Inductive action :=
| Put (k : K) (v : V)       (* CCDictionarySetValue *)
| Read (k : K)              (* CCDictionaryGetValue *)
| Delete (k : K)            (* CCDictionaryRemoveValue *)
| Store (k : K) (v : V)     (* CCDictionarySetEntry(CCDictionaryEntryForKey(k), v) *)
| Change (k : K) (v : V)    (* CCDictionarySetEntry(CCDictionaryFindKey(k), v) *)
| ReadAt (k : K)            (* CCDictionaryGetEntry(CCDictionaryFindKey(k)) *)
| KeyAt (k : K)             (* CCDictionaryGetKey(CCDictionaryFindKey(k)) *)
| DeleteAt (k : K)          (* CCDictionaryRemoveEntry(CCDictionaryFindKey(k)) *)
| Has (k : K)               (* CCDictionaryEntryIsInitialized(CCDictionaryFindKey(k)) *)
| Size.                     (* CCDictionaryGetCount *)

(** The call [o], then the call [f e] with the entry [o] returned *)
Definition and_then (d : dict K V) (o : dop K V) (f : N -> dop K V) : option (dict K V * ret K V * list (event K V)) :=
  let? x := d_step hash eqk full d o in
  match x with
  | (d, REntry e, ev) => let? y := d_step hash eqk full d (f e) in match y with (d, r, ev') => Some (d, r, ev ++ ev') end
  | _ => None
  end.

Definition act (d : dict K V) (a : action) : option (dict K V * ret K V * list (event K V)) :=
  match a with
  | Put k v => d_step hash eqk full d (DSetValue k v)
  | Read k => d_step hash eqk full d (DGetValue k)
  | Delete k => d_step hash eqk full d (DRemoveValue k)
  | Store k v => and_then d (DEntryForKey k) (fun e => DSetEntry e v)
  | Change k v => and_then d (DFindKey k) (fun e => DSetEntry e v)
  | ReadAt k => and_then d (DFindKey k) (fun e => DGetEntry e)
  | KeyAt k => and_then d (DFindKey k) (fun e => DGetKey e)
  | DeleteAt k => and_then d (DFindKey k) (fun e => DRemoveEntry e)
  | Has k => and_then d (DFindKey k) (fun e => DIsInitialized e)
  | Size => d_step hash eqk full d DGetCount
  end.

Fixpoint acts (d : dict K V) (l : list action) : option (dict K V * list (ret K V) * list (event K V)) :=
  match l with
  | [] => Some (d, [], [])
  | a :: t =>
      let? x := act d a in
      match x with (d, r, ev) =>
        let? y := acts d t in match y with (d, rs, evs) => Some (d, r :: rs, ev ++ evs) end
      end
  end.

(** ** The specification: an association list, and the destructor calls *)
Section Events.
Variables kd vd : bool. (* whether there is a key destructor, a value destructor *)

Definition key_gone (k : K) : list (event K V) := if kd then [DestroyKey (Some k)] else [].
Definition value_gone (v : V) : list (event K V) := if vd then [DestroyValue (Some (Some v))] else [].

Definition lookup (l : list (K * V)) (k : K) : option (K * V) := find (fun x => eqk k (fst x)) l.
Definition replace (l : list (K * V)) (k : K) (v : V) : list (K * V) := map (fun x => if eqk k (fst x) then (fst x, v) else x) l.
Definition without (l : list (K * V)) (k : K) : list (K * V) := filter (fun x => negb (eqk k (fst x))) l.

Definition spec (l : list (K * V)) (a : action) : list (K * V) * ret K V * list (event K V) :=
  match a with
  | Put k v | Store k v =>
      match lookup l k with
      | Some (_, v0) => (replace l k v, RUnit, value_gone v0)
      | None => ((k, v) :: l, RUnit, [])
      end
  | Change k v =>
      match lookup l k with
      | Some (_, v0) => (replace l k v, RUnit, value_gone v0)
      | None => (l, RUnit, [])
      end
  | Delete k | DeleteAt k =>
      match lookup l k with
      | Some (k0, v0) => (without l k, RUnit, key_gone k0 ++ value_gone v0)
      | None => (l, RUnit, [])
      end
  | Read k | ReadAt k => (l, RValue (option_map (fun x => Some (snd x)) (lookup l k)), [])
  | KeyAt k => (l, RKey (option_map fst (lookup l k)), [])
  | Has k => (l, RBool (match lookup l k with Some _ => true | None => false end), [])
  | Size => (l, RCount (length l), [])
  end.

Fixpoint specs (l : list (K * V)) (p : list action) : list (K * V) * list (ret K V) * list (event K V) :=
  match p with
  | [] => (l, [], [])
  | a :: t => match spec l a with (l, r, ev) => match specs l t with (l, rs, evs) => (l, r :: rs, ev ++ evs) end end
  end.

(** Destroying the dictionary *)
Definition all_gone (l : list (K * V)) : list (event K V) := flat_map (fun x => key_gone (fst x) ++ value_gone (snd x)) l.

End Events.

(** ** Counting destructor calls *)
Definition keys_destroyed (evs : list (event K V)) : list (option K) := flat_map (fun x => match x with DestroyKey k => [k] | _ => [] end) evs.
Definition values_destroyed (evs : list (event K V)) : list (option (option V)) := flat_map (fun x => match x with DestroyValue v => [v] | _ => [] end) evs.

(** The values a program stores and the keys it adds *)
Fixpoint values_stored (l : list (K * V)) (p : list action) : list V :=
  match p with
  | [] => []
  | a :: t =>
      match a with
      | Put _ v | Store _ v => [v]
      | Change k v => match lookup l k with Some _ => [v] | None => [] end
      | _ => []
      end ++ values_stored (fst (fst (spec false false l a))) t
  end.

Fixpoint keys_added (l : list (K * V)) (p : list action) : list K :=
  match p with
  | [] => []
  | a :: t =>
      match a with
      | Put k _ | Store k _ => match lookup l k with Some _ => [] | None => [k] end
      | _ => []
      end ++ keys_added (fst (fst (spec false false l a))) t
  end.

(** ** Entries *)
(** The actions that can renumber the entries, in the state they are carried out in *)
Definition grows (d : dict K V) (a : action) : bool :=
  match a with Put _ _ | Store _ _ => full (count (dmap d)) (bucketCount (dmap d)) | _ => false end.

(** No action grows the dictionary or deletes [k]. *)
Fixpoint keeps (d : dict K V) (k : K) (p : list action) : Prop :=
  match p with
  | [] => True
  | a :: t =>
      grows d a = false /\ match a with Delete k' | DeleteAt k' => eqk k k' = false | _ => True end /\
      match act d a with Some (d, _, _) => keeps d k t | None => True end
  end.

End Spec.
Arguments action : clear implicits.
