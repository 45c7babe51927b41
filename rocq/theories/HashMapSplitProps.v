(** C56: the hash map implementations are interchangeable. *)
From Verif Require Import Base Word HashMapModel HashMapSpec HashMapSplitModel HashMapSplitSpec HashMapSplitProofs HashMapProps.
From Verif Require EnumerableModel.

(** Any calls with any arguments (stale and made-up entries included, whatever the hasher and comparator): the three
    implementations give the same results, entries included, or all fail. *)
Theorem c56_same_results : forall (K V : Type) (hash : K -> N) (eqk : K -> K -> bool) bc (ops : list (op K V)),
  seen_hash hash eqk bc ops = seen_interleaved hash eqk bc ops /\ seen_all hash eqk bc ops = seen_interleaved hash eqk bc ops.
Proof.
  intros K V hash eqk bc ops. unfold seen_hash, seen_all, seen_interleaved. rewrite h_create_ok, a_create_ok. destruct (create bc) as [m|]; [|split; reflexivity]. cbn [option_map].
  rewrite h_run_ok, a_run_ok. destruct (run hash eqk m ops) as [[m' rs]|]; split; reflexivity.
Qed.
Print Assumptions c56_same_results.

(** And enumerators move alike. *)
Theorem c56_same_enumeration : forall (K V : Type) (hash : K -> N) (eqk : K -> K -> bool) bc (ops : list (op K V)) e a,
  enum_hash hash eqk bc ops e a = enum_interleaved hash eqk bc ops e a /\ enum_all hash eqk bc ops e a = enum_interleaved hash eqk bc ops e a.
Proof.
  intros K V hash eqk bc ops e a. unfold enum_hash, enum_all, enum_interleaved. rewrite h_create_ok, a_create_ok. destruct (create bc) as [m|]; [|split; reflexivity]. cbn [option_map].
  rewrite h_run_ok, a_run_ok. destruct (run hash eqk m ops) as [[m' rs]|]; [|split; reflexivity]. cbn [option_map fst snd hsplit asplit hbc hhashes abc ahashes]. rewrite enum_h. split; reflexivity.
Qed.
Print Assumptions c56_same_enumeration.

(** So each of them is a finite map: the calls by key give the results of an association list. *)
Theorem c56_key_value : forall (K V : Type) (hash : K -> N) (eqk : K -> K -> bool) bc (os : list (kvop K V)),
  lawful hash eqk -> 1 <= bc -> fits (length os) bc -> Forall (kv_ok (length os)) os ->
  seen_hash hash eqk bc (map kv_call os) = Some (kv_run eqk [] os) /\ seen_all hash eqk bc (map kv_call os) = Some (kv_run eqk [] os).
Proof.
  intros K V hash eqk bc os L Hb F OK. destruct (c56_same_results K V hash eqk bc (map kv_call os)) as (-> & ->). unfold seen_interleaved.
  destruct (c09_key_value K V hash eqk bc os L Hb F OK) as (m & m' & -> & R). rewrite R. split; reflexivity.
Qed.
Print Assumptions c56_key_value.

(** Non-vacuity: collisions, an entry without a value, removal, reuse of the slot, a rehash, and a call that fails. *)
Definition c56_ops : list (op N N) :=
  [SetValue 10 1; SetValue 13 2; EntryForKey 16; RemoveValue 13; EntryForKey 19; GetKeys; FindKey 16; IsInitialized 10; SetValue 19 4; GetValues; Rehash 2; GetKeys; FindKey 10; GetCount]%N.

Example c56_run : seen_all (fun k => k) N.eqb 3 c56_ops =
  Some [RUnit; RUnit; RCreated 18 true; RUnit; RCreated 10 true; RKeys [10; 19; 16]; REntry 18; RBool false; RUnit; RValues [Some 1; Some 4; None]; RUnit; RKeys [10; 16; 19]; REntry 1; RCount 3]%N.
Proof. vm_compute. reflexivity. Qed.

Example c56_fails : seen_hash (V := N) (fun k => k) N.eqb 3 [SetValue 10 1; FindKey 10; RemoveEntry 2; GetKey 2]%N = None.
Proof. vm_compute. reflexivity. Qed.
