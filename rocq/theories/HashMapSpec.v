(** What a hash map does, stated on the map from live entry handles to keys and values. *)
From Verif Require Import Base HashMapModel.
From Verif Require EnumerableSpec.
Local Open Scope N_scope.

Section Spec.
Context {K V : Type} (hash : K -> N) (eqk : K -> K -> bool).

(** The comparator is an equivalence and the hash respects it. *)
Definition lawful : Prop :=
  (forall a, eqk a a = true) /\ (forall a b, eqk a b = eqk b a) /\
  (forall a b c, eqk a b = true -> eqk b c = true -> eqk a c = true) /\ (forall a b, eqk a b = true -> hash a = hash b).

(** Each live entry's key and value; the value is [None] until it has been set. *)
Definition state := N -> option (K * option V).

Definition empty : state := fun _ => None.
Definition put (st : state) (e : N) (x : option (K * option V)) : state := fun e' => if e' =? e then x else st e'.
Definition same (st st' : state) : Prop := forall e, st e = st' e.

(** No entry has a key equal to [k]; entry [e] has one. *)
Definition absent (st : state) (k : K) : Prop := forall e k0 c, st e = Some (k0, c) -> eqk k k0 = false.
Definition present (st : state) (k : K) (e : N) (k0 : K) (c : option V) : Prop := st e = Some (k0, c) /\ eqk k k0 = true.

(** [es] lists the live entries once each. *)
Definition domain (st : state) (es : list N) : Prop := NoDup es /\ forall e, In e es <-> st e <> None.

(** What reading a value gives: the value that was set, anything if none was. *)
Definition reads (c x : option V) : Prop := c <> None -> x = c.

Definition spec_call (st : state) (o : op K V) (r : ret K V) (st' : state) : Prop :=
  match o with
  | SetValue k v => r = RUnit /\ exists e, e <> 0 /\
      ((exists k0 c, present st k e k0 c /\ same st' (put st e (Some (k0, Some v)))) \/
       (absent st k /\ st e = None /\ same st' (put st e (Some (k, Some v)))))
  | GetValue k => same st' st /\
      ((absent st k /\ r = RValue None) \/ exists e k0 c x, present st k e k0 c /\ r = RValue (Some x) /\ reads c x)
  | RemoveValue k => r = RUnit /\
      ((absent st k /\ same st' st) \/ exists e k0 c, present st k e k0 c /\ same st' (put st e None))
  | FindKey k => same st' st /\
      ((absent st k /\ r = REntry 0) \/ exists e k0 c, e <> 0 /\ present st k e k0 c /\ r = REntry e)
  | EntryForKey k => exists e, e <> 0 /\
      ((exists k0 c, present st k e k0 c /\ r = RCreated e false /\ same st' st) \/
       (absent st k /\ st e = None /\ r = RCreated e true /\ same st' (put st e (Some (k, None)))))
  | IsInitialized e => same st' st /\ r = RBool (match st e with Some (_, Some _) => true | _ => false end)
  | GetKey e => same st' st /\ r = RKey (option_map fst (st e))
  | GetEntry e => same st' st /\
      match st e with None => r = RValue None | Some (_, c) => exists x, r = RValue (Some x) /\ reads c x end
  | SetEntry e v => r = RUnit /\ same st' (match st e with Some (k, _) => put st e (Some (k, Some v)) | None => st end)
  | RemoveEntry e => r = RUnit /\ same st' (put st e None)
  | GetCount => same st' st /\ exists es, domain st es /\ r = RCount (length es)
  | GetKeys => same st' st /\ exists es ks, domain st es /\ r = RKeys ks /\ Forall2 (fun e k => exists c, st e = Some (k, c)) es ks
  | GetValues => same st' st /\
      exists es xs, domain st es /\ r = RValues xs /\ Forall2 (fun e x => exists k c, st e = Some (k, c) /\ reads c x) es xs
  | Rehash _ => r = RUnit /\
      (forall k c, (exists e, st e = Some (k, c)) <-> (exists e, st' e = Some (k, c))) /\
      exists es es', domain st es /\ domain st' es' /\ length es = length es'
  end.

(** Items 0 to n-1 of every one of [bc] buckets can be numbered by a 64-bit entry. *)
Definition fits (n bc : nat) : Prop := exists s, N.of_nat bc + 1 < 2 ^ s /\ s < 64 /\ N.of_nat n * 2 ^ s <= 2 ^ 64.

(** The caller's side: entries are live (or 0). Rehashing is restricted to maps without uninitialised entries. *)
Definition client_ok (n : nat) (st : state) (o : op K V) : Prop :=
  match o with
  | IsInitialized e | GetKey e | GetEntry e | SetEntry e _ | RemoveEntry e => e = 0 \/ st e <> None
  | Rehash bc => (1 <= bc)%nat /\ fits n bc /\ forall e k c, st e = Some (k, c) -> c <> None
  | _ => True
  end.

(** No two entries have equal keys. *)
Definition unique (st : state) : Prop :=
  forall e1 e2 k1 c1 k2 c2, st e1 = Some (k1, c1) -> st e2 = Some (k2, c2) -> eqk k1 k2 = true -> e1 = e2.

(** Between calls: keys are unique, enumerating from the head visits every live entry once, and the lists of keys and
    of values are in that order. *)
Definition good (m : hashmap K V) (st : state) : Prop :=
  unique st /\ st 0 = None /\
  exists es e0 ks xs, domain st es /\
    head_entry m = Some e0 /\ EnumerableSpec.enumerates (enum_step m) es e0 /\
    step hash eqk m GetKeys = Some (m, RKeys ks) /\ Forall2 (fun e k => exists c, st e = Some (k, c)) es ks /\
    step hash eqk m GetValues = Some (m, RValues xs) /\ Forall2 (fun e x => exists k c, st e = Some (k, c) /\ reads c x) es xs.

(** [n] bounds the number of items a bucket gets. *)
Fixpoint history_ok (n : nat) (m : hashmap K V) (st : state) (ops : list (op K V)) : Prop :=
  good m st /\
  match ops with
  | [] => True
  | o :: t => client_ok n st o ->
      exists m' r st', step hash eqk m o = Some (m', r) /\ spec_call st o r st' /\ history_ok n m' st' t
  end.

(** ** By keys only *)
(** The calls that do not mention entries, against an association list, on which rehashing has no effect. *)
Inductive kvop := Set_ (k : K) (v : V) | Get (k : K) | Remove (k : K) | Count | Resize (bc : nat).

Definition kv_call (o : kvop) : op K V :=
  match o with Set_ k v => SetValue k v | Get k => GetValue k | Remove k => RemoveValue k | Count => GetCount | Resize bc => Rehash bc end.

Definition kv_ok (n : nat) (o : kvop) : Prop := match o with Resize bc => (1 <= bc)%nat /\ fits n bc | _ => True end.

Definition kv_step (l : list (K * V)) (o : kvop) : list (K * V) * ret K V :=
  match o with
  | Set_ k v => ((if existsb (fun x => eqk k (fst x)) l
                  then map (fun x => if eqk k (fst x) then (fst x, v) else x) l
                  else (k, v) :: l), RUnit)
  | Get k => (l, RValue (option_map (fun x => Some (snd x)) (find (fun x => eqk k (fst x)) l)))
  | Remove k => (filter (fun x => negb (eqk k (fst x))) l, RUnit)
  | Count => (l, RCount (length l))
  | Resize _ => (l, RUnit)
  end.

Fixpoint kv_run (l : list (K * V)) (os : list kvop) : list (ret K V) :=
  match os with
  | [] => []
  | o :: t => let (l, r) := kv_step l o in r :: kv_run l t
  end.

End Spec.
Arguments state : clear implicits.
Arguments kvop : clear implicits.
