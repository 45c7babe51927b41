(** C98: hash map implementations without the optional functions, and maps
    without a hash function. *)
From Verif Require Import Base HashMapModel HashMapSpec HashMapDefaultModel HashMapDefaultSpec HashMapDefaultProofs.
From Verif Require EnumerableModel.
Local Open Scope N_scope.

(** Whatever the implementation, getting and removing the value of a key without
    its own functions does what it does to a finite map. *)
Theorem c98_get_remove : forall (K V St : Type) (eqk : K -> K -> bool) (call : St -> op K V -> option (St * ret K V)) enum content good,
  implements eqk call enum content good ->
  forall n m st k, good (S (S n)) m st ->
  (exists m' r st', default_get call m k = Some (m', r) /\ spec_call eqk st (GetValue k) r st' /\ good n m' st') /\
  (exists m' r st', default_remove call m k = Some (m', r) /\ spec_call eqk st (RemoveValue k) r st' /\ good n m' st').
Proof. intros K V St eqk call enum content good IM n m st k G. split; [eapply get_ok; eauto|eapply remove_ok; eauto]. Qed.
Print Assumptions c98_get_remove.

(** The keys and the values, wherever the enumerator was before. *)
Theorem c98_keys_values : forall (K V St : Type) (eqk : K -> K -> bool) (call : St -> op K V -> option (St * ret K V)) enum content good,
  implements eqk call enum content good ->
  forall n m st s, good n m st ->
  exists b, forall fuel, (b <= fuel)%nat ->
  (exists r, default_keys enum content fuel m s = Some (m, r) /\ spec_call eqk st GetKeys r st) /\
  (exists r, default_values enum content fuel m s = Some (m, r) /\ spec_call eqk st GetValues r st).
Proof.
  intros K V St eqk call enum content good IM n m st s G. destruct (keys_ok eqk call enum content good IM n m st s G) as (b1 & H1). destruct (values_ok eqk call enum content good IM n m st s G) as (b2 & H2).
  exists (b1 + b2)%nat. intros fuel Hf. split; [apply H1; lia|apply H2; lia].
Qed.
Print Assumptions c98_keys_values.

(** Setting the value of a key that is in the map. (Missing: other keys, see
    below.) *)
Theorem c98_set_partial : forall (K V St : Type) (eqk : K -> K -> bool) (call : St -> op K V -> option (St * ret K V)) enum content good,
  implements eqk call enum content good ->
  forall n m st k v e k0 c, good (S (S n)) m st -> present eqk st k e k0 c ->
  exists m' r st', default_set call m k v = Some (m', r) /\ spec_call eqk st (SetValue k v) r st' /\ good n m' st'.
Proof.
  intros K V St eqk call enum content good IM n m st k v e k0 c G (Pe & Pk). destruct (set_ok eqk call enum content good IM n m st k v G) as (m' & r & st' & E & G' & -> & D).
  exists m', RUnit, st'. split; [exact E|]. split; [|exact G']. destruct D as [(A & _)|(_ & SP)]; [|exact SP]. rewrite (A e k0 c Pe) in Pk. discriminate.
Qed.
Print Assumptions c98_set_partial.

(** Setting the value of a key that is not in the map does nothing, whatever the
    implementation: CCHashMapSetValue uses CCHashMapFindKey where it needs
    CCHashMapEntryForKey. *)
Theorem c98_set_refuted : forall (K V St : Type) (eqk : K -> K -> bool) (call : St -> op K V -> option (St * ret K V)) enum content good,
  implements eqk call enum content good -> (forall k, eqk k k = true) ->
  forall n m st k v, good (S (S n)) m st -> absent eqk st k ->
  exists m' r st', default_set call m k v = Some (m', r) /\ good n m' st' /\ same st' st /\ ~ spec_call eqk st (SetValue k v) r st'.
Proof.
  intros K V St eqk call enum content good IM Rf n m st k v G A. destruct (set_ok eqk call enum content good IM n m st k v G) as (m' & r & st' & E & G' & -> & D).
  destruct D as [(_ & Sm)|(NA & _)]; [|contradiction]. exists m', RUnit, st'. split; [exact E|]. split; [exact G'|]. split; [exact Sm|].
  intros (_ & e & _ & [(k0 & c & (Pe & Pk) & _)|(_ & Se & S')]).
  - rewrite (A e k0 c Pe) in Pk. discriminate.
  - specialize (S' e). rewrite Sm, Se in S'. unfold put in S'. rewrite N.eqb_refl in S'. discriminate.
Qed.
Print Assumptions c98_set_refuted.

(** The hash map with separate chaining arrays provides what these theorems ask
    for, from its creation on and for as many calls as fit. *)
Theorem c98_applies : forall (K V : Type) (hash : K -> N) (eqk : K -> K -> bool), lawful hash eqk ->
  exists good : nat -> hashmap K V -> state K V -> Prop,
    implements eqk (step hash eqk) enum_step stored good /\
    forall n bc, (1 <= bc)%nat -> fits (S n) bc -> exists m, create bc = Some m /\ good n m (@empty K V).
Proof. intros K V hash eqk L. now apply map_implements. Qed.
Print Assumptions c98_applies.

(** The hash of a map without a hash function, on little endian machines for keys
    of all sizes and on big endian ones for keys of at least 8 bytes: only the
    bytes of the key are read, the hash is a number of 64 bits, equal keys have
    equal hashes, and keys of at most 8 bytes with equal hashes are equal. *)
Theorem c98_hash_partial : forall h (a b : list N), bytes a -> bytes b -> length a = length b -> h = Little \/ (8 <= length a)%nat ->
  exists x y, default_hash h (length a) a = Some x /\ default_hash h (length a) b = Some y /\
    x < 2 ^ 64 /\ (same_bytes a b = true -> x = y) /\ ((length a <= 8)%nat -> x = y -> a = b).
Proof.
  intros h a b Ha Hb L H.
  assert (Fb : forall l, bytes l -> bytes (firstn 8 l)).
  { intros l Hl. apply Forall_forall. intros x Hx. eapply Forall_forall in Hl; [exact Hl|]. rewrite <- (firstn_skipn 8 l). apply in_or_app. now left. }
  assert (Bd : forall l, bytes l -> (length l <= 8)%nat -> le_value l < 2 ^ 64).
  { intros l Hl Ln. eapply N.lt_le_trans; [now apply le_value_bound|]. change (2 ^ 64) with (256 ^ 8). apply N.pow_le_mono_r; lia. }
  destruct h.
  - exists (le_value (firstn 8 a)), (le_value (firstn 8 b)). rewrite L at 2. rewrite !little_hash. split; [reflexivity|]. split; [reflexivity|]. split; [|split].
    + apply Bd; [auto|]. rewrite firstn_length. lia.
    + intros E. apply same_bytes_eq in E as ->. reflexivity.
    + intros Ln E. rewrite !firstn_all2 in E by lia. now apply le_value_inj.
  - destruct H as [H|H]; [discriminate|]. exists (le_value (rev (firstn 8 a))), (le_value (rev (firstn 8 b))). rewrite L at 2. rewrite !big_hash by lia. split; [reflexivity|]. split; [reflexivity|]. split; [|split].
    + apply Bd; [exact (Forall_rev (Fb a Ha))|]. rewrite rev_length, firstn_length. lia.
    + intros E. apply same_bytes_eq in E as ->. reflexivity.
    + intros Ln E. rewrite !firstn_all2 in E by lia. apply le_value_inj in E; [|now apply Forall_rev|now apply Forall_rev|now rewrite !rev_length].
      rewrite <- (rev_involutive a), E. apply rev_involutive.
Qed.
Print Assumptions c98_hash_partial.

(** So on little endian machines such a map can rely on its hash. *)
Theorem c98_hash_lawful : lawful (fun k => match default_hash Little (length k) k with Some x => x | None => 0 end) same_bytes.
Proof.
  assert (Rf : forall a, same_bytes a a = true) by (intros a; now apply same_bytes_eq). split; [exact Rf|]. split; [|split].
  - intros a b. destruct (same_bytes a b) eqn:E.
    + apply same_bytes_eq in E as ->. symmetry. apply Rf.
    + destruct (same_bytes b a) eqn:E'; [|reflexivity]. apply same_bytes_eq in E' as ->. rewrite Rf in E. discriminate.
  - intros a b c E1 E2. apply same_bytes_eq in E1 as ->. exact E2.
  - intros a b E. apply same_bytes_eq in E as ->. reflexivity.
Qed.
Print Assumptions c98_hash_lawful.

(** On big endian machines the bytes of every shorter key are written outside of
    the hash: the offset on HashMap.c 128 is scaled by the size of a word. *)
Theorem c98_hash_refuted : forall size key, (size < 8)%nat -> default_hash Big size key = None.
Proof. exact big_short. Qed.
Print Assumptions c98_hash_refuted.

(** Non-vacuity: without its optional functions, a map of two entries in one
    bucket gives their values, lists them, changes and removes one; a third key
    is not stored. *)
Example c98_ex :
  (let hash := fun k => k mod 2 in let eqk := N.eqb in let call := step hash eqk in
   let? m := create 2 in
   let? (m, _) := run hash eqk m [SetValue 1 10; SetValue 3 30] in
   let? (m, a) := default_get call m 3 in
   let? (m, b) := default_keys enum_step stored 5 m 0 in
   let? (m, _) := default_set call m 1 11 in
   let? (m, _) := default_set call m 5 50 in
   let? (m, c) := default_get call m 5 in
   let? (m, d) := default_values enum_step stored 5 m 0 in
   let? (m, _) := default_remove call m 3 in
   let? (m, e) := default_values enum_step stored 5 m 0 in
   Some [a; b; c; d; e])
  = Some [RValue (Some (Some 30)); RKeys [1; 3]; RValue None; RValues [Some 11; Some 30]; RValues [Some 11]].
Proof. vm_compute. reflexivity. Qed.

Example c98_hash_ex : default_hash Little 3 [1; 2; 3] = Some 0x030201 /\ default_hash Big 8 [1; 2; 3; 4; 5; 6; 7; 8] = Some 0x0102030405060708 /\
  default_hash Little 10 [1; 2; 3; 4; 5; 6; 7; 8; 9; 10] = Some 0x0807060504030201.
Proof. repeat split. Qed.
