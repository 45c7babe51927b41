(** Model of CommonC/Dictionary.c on CommonC/DictionaryHashMap.c (the only implementation registered by default).

    Simplifications: those of HashMapModel.v. The destructor callbacks are recorded as events, in order. The test of the
    load factor against 0.75f (floating point) is the parameter [full], a function of the count and the number of
    buckets about which nothing is assumed. The choice of the implementation is that of collections (C54). *)
From Verif Require Import Base HashMapModel.
Local Open Scope N_scope.

(** DictionaryHashMap.c 71-82 *)
Definition bucket_sizes : list N :=
  [3; 6; 11; 19; 32; 52; 85; 118;
   155; 237; 390; 672; 1065; 1732; 2795; 4543;
   7391; 12019; 19302; 31324; 50629; 81956; 132580; 214215;
   346784; 561026; 907847; 1468567; 2376414; 3844982; 6221390; 10066379;
   16287773; 26354132; 42641916; 68996399; 111638327; 180634415; 292272755; 472907503].

(** DictionaryHashMap.c 137-145: the number of buckets to grow to *)
Definition next_size (bc : nat) : nat :=
  match find (fun s => N.of_nat bc <? s) bucket_sizes with Some s => N.to_nat s | None => bc end.

(** DictionaryHashMap.c 109-123 with DictionaryInterface.h: the size hints. Both size bits together give no buckets. *)
Inductive size_hint := Small | Medium | Large | BothBits.
Definition initial_size (s : size_hint) : nat := match s with Small => 3 | Medium => 118 | Large => 1065 | BothBits => 0 end.

Section Dictionary.
Context {K V : Type} (hash : K -> N) (eqk : K -> K -> bool) (full : nat -> nat -> bool).

(** Dictionary.h 81-87; [keyd] and [vald]: whether there is a destructor for keys and for values *)
Record dict := mkDict { dmap : hashmap K V; keyd : bool; vald : bool }.

(** A call of a destructor, with what the pointer it gets points to *)
Inductive event := DestroyKey (k : option K) | DestroyValue (v : option (option V)).

(** Dictionary.c 145-179, DictionaryHashMap.c 96-126 *)
Definition d_create (s : size_hint) (kd vd : bool) : option dict := let? m := create (initial_size s) in Some (mkDict m kd vd).

Definition on (d : dict) (m : hashmap K V) : dict := mkDict m (keyd d) (vald d).

(** DictionaryHashMap.c 135-148 and 170-183 *)
Definition grow (m : hashmap K V) : option (hashmap K V) :=
  if full (count m) (bucketCount m) then let? (m, _) := step hash eqk m (Rehash (next_size (bucketCount m))) in Some m else Some m.

(** Dictionary.c 238-243, DictionaryHashMap.c 133-151 *)
Definition d_entry_for_key (d : dict) (k : K) : option (dict * N) :=
  let? m := grow (dmap d) in
  let? (m, r) := step hash eqk m (EntryForKey k) in
  match r with RCreated e _ => Some (on d m, e) | _ => None end.

(** Dictionary.c 254-259, DictionaryHashMap.c 128-131 *)
Definition d_find_key (d : dict) (k : K) : option N :=
  let? (_, r) := step hash eqk (dmap d) (FindKey k) in match r with REntry e => Some e | _ => None end.

(** Dictionary.c 245-252 *)
Definition d_initialized (d : dict) (e : N) : option bool :=
  if e =? 0 then Some false
  else let? (_, r) := step hash eqk (dmap d) (IsInitialized e) in match r with RBool b => Some b | _ => None end.

(** Dictionary.c 261-268 and 278-285. [None]: NULL *)
Definition d_get_entry (d : dict) (e : N) : option (option (option V)) :=
  if e =? 0 then Some None
  else let? (_, r) := step hash eqk (dmap d) (GetEntry e) in match r with RValue v => Some v | _ => None end.

Definition d_get_key (d : dict) (e : N) : option (option K) :=
  if e =? 0 then Some None
  else let? (_, r) := step hash eqk (dmap d) (GetKey e) in match r with RKey k => Some k | _ => None end.

(** Dictionary.c 194 and 206: the value destructor, if there is one and the entry is initialised *)
Definition destroy_value (d : dict) (e : N) : option (list event) :=
  if vald d
  then let? i := d_initialized d e in
       if i then let? v := d_get_entry d e in Some [DestroyValue v] else Some []
  else Some [].

(** Dictionary.c 205 *)
Definition destroy_key (d : dict) (e : N) : option (list event) :=
  if keyd d then let? k := d_get_key d e in Some [DestroyKey k] else Some [].

(** Dictionary.c 188-197 *)
Definition d_set_entry (d : dict) (e : N) (v : V) : option (dict * list event) :=
  if e =? 0 then Some (d, [])
  else let? ev := destroy_value d e in
       let? (m, _) := step hash eqk (dmap d) (SetEntry e v) in
       Some (on d m, ev).

(** Dictionary.c 199-209 *)
Definition d_remove_entry (d : dict) (e : N) : option (dict * list event) :=
  if e =? 0 then Some (d, [])
  else let? ek := destroy_key d e in
       let? ev := destroy_value d e in
       let? (m, _) := step hash eqk (dmap d) (RemoveEntry e) in
       Some (on d m, ek ++ ev).

(** Dictionary.c 211-224, DictionaryHashMap.c 168-186 *)
Definition d_set_value (d : dict) (k : K) (v : V) : option (dict * list event) :=
  if negb (vald d)
  then let? m := grow (dmap d) in let? (m, _) := step hash eqk m (SetValue k v) in Some (on d m, [])
  else let? (d, e) := d_entry_for_key d k in
       if e =? 0 then None else d_set_entry d e v.

(** Dictionary.c 226-236, DictionaryHashMap.c 188-191 *)
Definition d_remove_value (d : dict) (k : K) : option (dict * list event) :=
  if negb (keyd d) && negb (vald d)
  then let? (m, _) := step hash eqk (dmap d) (RemoveValue k) in Some (on d m, [])
  else let? e := d_find_key d k in d_remove_entry d e.

(** Dictionary.c 121-143: the loop over the enumerator, standing at entry [e]. [fuel]: at most one round per item. *)
Fixpoint destroy_from (fuel : nat) (d : dict) (e : N) : option (list event) :=
  if e =? 0 then Some []
  else match fuel with
       | O => None
       | S f =>
           let? ek := destroy_key d e in
           let? ev := destroy_value d e in
           let? e := next_entry (dmap d) e in
           let? r := destroy_from f d e in
           Some (ek ++ ev ++ r)
       end.

Definition d_destroy (d : dict) : option (list event) :=
  if keyd d || vald d then let? e := head_entry (dmap d) in destroy_from (slots (dmap d)) d e else Some [].

(** ** The interface *)
Inductive dop :=
| DSetValue (k : K) (v : V)
| DGetValue (k : K)
| DRemoveValue (k : K)
| DFindKey (k : K)
| DEntryForKey (k : K)
| DIsInitialized (e : N)
| DGetKey (e : N)
| DGetEntry (e : N)
| DSetEntry (e : N) (v : V)
| DRemoveEntry (e : N)
| DGetCount
| DGetKeys
| DGetValues.

Definition passed (d : dict) (x : option (hashmap K V * ret K V)) : option (dict * ret K V * list event) :=
  let? (m, r) := x in Some (on d m, r, []).

Definition unit_of (x : option (dict * list event)) : option (dict * ret K V * list event) :=
  let? (d, evs) := x in Some (d, RUnit, evs).

Definition d_step (d : dict) (o : dop) : option (dict * ret K V * list event) :=
  match o with
  | DSetValue k v => unit_of (d_set_value d k v)
  | DGetValue k => passed d (step hash eqk (dmap d) (GetValue k)) (* Dictionary.c 270-276, DictionaryHashMap.c 163-166 *)
  | DRemoveValue k => unit_of (d_remove_value d k)
  | DFindKey k => let? e := d_find_key d k in Some (d, REntry e, [])
  | DEntryForKey k => let? (d, e) := d_entry_for_key d k in Some (d, REntry e, [])
  | DIsInitialized e => let? b := d_initialized d e in Some (d, RBool b, [])
  | DGetKey e => let? k := d_get_key d e in Some (d, RKey k, [])
  | DGetEntry e => let? v := d_get_entry d e in Some (d, RValue v, [])
  | DSetEntry e v => unit_of (d_set_entry d e v)
  | DRemoveEntry e => unit_of (d_remove_entry d e)
  | DGetCount => passed d (step hash eqk (dmap d) GetCount) (* Dictionary.c 370-375 *)
  | DGetKeys => passed d (step hash eqk (dmap d) GetKeys) (* Dictionary.c 287-307, DictionaryHashMap.c 193-196 *)
  | DGetValues => passed d (step hash eqk (dmap d) GetValues) (* Dictionary.c 309-329, DictionaryHashMap.c 198-201 *)
  end.

Fixpoint d_run (d : dict) (ops : list dop) : option (dict * list (ret K V) * list event) :=
  match ops with
  | [] => Some (d, [], [])
  | o :: t =>
      let? x := d_step d o in
      match x with (d, r, ev) =>
        let? y := d_run d t in match y with (d, rs, evs) => Some (d, r :: rs, ev ++ evs) end
      end
  end.

End Dictionary.
Arguments dict : clear implicits.
Arguments event : clear implicits.
Arguments dop : clear implicits.
