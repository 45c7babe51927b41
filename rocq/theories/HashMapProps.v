(** C09, C10 and C11: hash maps. *)
From Verif Require BitTricksModel BitTricksProofs.
From Verif Require Import Base Word HashMapModel HashMapSpec HashMapEntryProofs HashMapProofs HashMapStepProofs.

(** Any sequence of calls on a new map, from any state of it the entry given to a call being live: every call
    succeeds and does what it does to a finite map, and between calls the map can be enumerated. *)
Theorem c09_hash_map : forall (K V : Type) (hash : K -> N) (eqk : K -> K -> bool) bc (ops : list (op K V)),
  lawful hash eqk -> 1 <= bc -> fits (length ops) bc ->
  exists m, create bc = Some m /\ history_ok hash eqk (length ops) m empty ops.
Proof.
  intros K V hash eqk bc ops (H1 & H2 & H3 & H4) Hb F. destruct (create (K := K) (V := V) bc) as [m|] eqn:E; [|unfold create in E; destruct (Nat.leb_spec 1 bc); [discriminate|lia]].
  exists m. split; [reflexivity|]. apply (history_holds hash eqk H1 H2 H3 H4 (length ops) ops 0); [|lia]. eapply rel_create; eauto.
Qed.
Print Assumptions c09_hash_map.

(** The calls by key give, together, exactly the results of an association list. Rehashing at any point changes
    nothing. *)
Theorem c09_key_value : forall (K V : Type) (hash : K -> N) (eqk : K -> K -> bool) bc (os : list (kvop K V)),
  lawful hash eqk -> 1 <= bc -> fits (length os) bc -> Forall (kv_ok (length os)) os ->
  exists m m', create bc = Some m /\ run hash eqk m (map kv_call os) = Some (m', kv_run eqk [] os).
Proof.
  intros K V hash eqk bc os L Hb F OK. destruct (c09_hash_map K V hash eqk bc (map kv_call os) L Hb) as (m & E & H); [now rewrite map_length|].
  rewrite map_length in H. destruct L as (H1 & H2 & H3 & H4). destruct (kv_holds hash eqk H1 H2 H3 os _ _ _ _ H (listed_empty) OK) as (m' & R). eauto.
Qed.
Print Assumptions c09_key_value.

(** Rehashing after any calls by key: whatever is asked of the map afterwards, the answers are those of the map
    before. (Missing: entries created without a value, see below; entry handles are reissued.) *)
Theorem c10_rehash_partial : forall (K V : Type) (hash : K -> N) (eqk : K -> K -> bool) bc bc' (os os' : list (kvop K V)),
  lawful hash eqk -> 1 <= bc -> 1 <= bc' -> let n := S (length os + length os') in fits n bc -> fits n bc' -> Forall (kv_ok n) (os ++ os') ->
  exists m0 m rs0 m', create bc = Some m0 /\ run hash eqk m0 (map kv_call os) = Some (m, rs0) /\
    step hash eqk m (Rehash bc') = Some (m', RUnit) /\
    exists m1 m2 rs, run hash eqk m (map kv_call os') = Some (m1, rs) /\ run hash eqk m' (map kv_call os') = Some (m2, rs).
Proof. exact rehash_unseen. Qed.
Print Assumptions c10_rehash_partial.

(** The full property is false: rehashing marks an entry that was created but not given a value as initialised. *)
Theorem c10_rehash_refuted : exists (m0 m1 m2 m3 : hashmap N N) e1 e2 hash,
  lawful hash N.eqb /\ create 2 = Some m0 /\
  step hash N.eqb m0 (EntryForKey 5%N) = Some (m1, RCreated e1 true) /\ step hash N.eqb m1 (IsInitialized e1) = Some (m1, RBool false) /\
  step hash N.eqb m1 (Rehash 3) = Some (m2, RUnit) /\
  step hash N.eqb m2 (FindKey 5%N) = Some (m2, REntry e2) /\ step hash N.eqb m2 (IsInitialized e2) = Some (m3, RBool true).
Proof.
  eexists _, _, _, _, _, _, (fun k => k). split.
  { repeat split; intros; try apply N.eqb_refl; try apply N.eqb_sym; rewrite ?N.eqb_eq in *; congruence. }
  split; [reflexivity|]. split; [vm_compute; reflexivity|]. split; [vm_compute; reflexivity|]. split; [vm_compute; reflexivity|]. split; [vm_compute; reflexivity|]. vm_compute. reflexivity.
Qed.
Print Assumptions c10_rehash_refuted.

(** An entry is issued for every bucket and slot number; a non-zero one decodes to the bucket and the slot; it is 0
    only when the slot number does not fit in the bits the bucket number leaves. *)
Theorem c11_entry_round_trip : forall bc b i : N, (bc + 1 < 2 ^ 63)%N -> (b < bc)%N ->
  exists e, index_to_entry bc b i = Some e /\
    (e <> 0%N -> (e < 2 ^ 64)%N /\ entry_to_index bc e = Some (Some (b, i))) /\
    (e = 0%N <-> (2 ^ (64 - N.size (bc + 1)) <= i)%N).
Proof.
  intros bc b i H Hb. rewrite index_to_entry_is by auto. eexists. split; [reflexivity|]. pose proof (shift_lt bc H) as SL. unfold shift in *.
  assert (P : (2 ^ 64 = 2 ^ (64 - N.size (bc + 1)) * 2 ^ N.size (bc + 1))%N) by (rewrite <- N.pow_add_r; f_equal; lia).
  destruct (N.ltb_spec (i * 2 ^ N.size (bc + 1)) (2 ^ 64)) as [L|L]; split.
  - intros _. split; [apply enc_lt; auto|]. apply entry_to_index_enc; auto.
  - split; [intros Z; now apply enc_nz in Z|]. intros Q. rewrite P in L. apply N.mul_lt_mono_pos_r in L; [lia|apply pow2_pos].
  - congruence.
  - split; [|reflexivity]. intros _. rewrite P in L. apply N.mul_le_mono_pos_r in L; [exact L|apply pow2_pos].
Qed.
Print Assumptions c11_entry_round_trip.

(** Different slots never share an entry. *)
Theorem c11_entry_unique : forall bc b i b' i' e : N, (bc + 1 < 2 ^ 63)%N -> (b < bc)%N -> (b' < bc)%N ->
  index_to_entry bc b i = Some e -> index_to_entry bc b' i' = Some e -> e <> 0%N -> b = b' /\ i = i'.
Proof.
  intros bc b i b' i' e H Hb Hb' E E' Nz. destruct (c11_entry_round_trip bc b i H Hb) as (x & X & X1 & _). destruct (c11_entry_round_trip bc b' i' H Hb') as (y & Y & Y1 & _).
  rewrite E in X. injection X as <-. rewrite E' in Y. injection Y as <-. destruct (X1 Nz) as (_ & A), (Y1 Nz) as (_ & B). rewrite A in B. injection B. auto.
Qed.
Print Assumptions c11_entry_unique.

(** The limit is exact: from 2^63 - 1 buckets on the slot is shifted by the width of the type. *)
Theorem c11_limit : forall bc b i e : N, (2 ^ 63 <= bc + 1 < 2 ^ 64)%N -> index_to_entry bc b i = None /\ (e <> 0%N -> entry_to_index bc e = None).
Proof.
  intros bc b i e H. assert (E : (64 <=? BitTricksModel.count_set (BitTricksModel.mask_for_value (wadd 64 bc 1)))%N = true).
  { unfold wadd. rewrite N.mod_small by lia. rewrite BitTricksProofs.mask_eq by lia.
    replace (N.size (bc + 1)) with 64%N; [vm_compute; reflexivity|]. rewrite N.size_log2 by lia. rewrite (N.log2_unique (bc + 1) 63) by (change (N.succ 63) with 64%N; lia). reflexivity. }
  unfold index_to_entry, entry_to_index. rewrite E. split; [reflexivity|]. intros Nz. destruct (N.eqb_spec e 0); [contradiction|reflexivity].
Qed.
Print Assumptions c11_limit.

Example c11_limit_ex : index_to_entry (2 ^ 63 - 1) 0 0 = None /\ index_to_entry (2 ^ 63 - 2) 5 1 = Some (2 ^ 63 + 6)%N.
Proof. split; vm_compute; reflexivity. Qed.

(** Non-vacuity: a run with collisions, removal, reuse of the slot and a rehash. *)
Example c09_lawful : lawful (fun k => (k / 10)%N) (fun a b => (a / 10 =? b / 10)%N).
Proof.
  repeat split; intros; rewrite ?N.eqb_refl; try reflexivity; try apply N.eqb_sym; rewrite ?N.eqb_eq in *; congruence.
Qed.

Example c09_fits : fits 1000 3.
Proof. exists 10%N. split; [reflexivity|]. split; [reflexivity|]. vm_compute. discriminate. Qed.

Definition c09_ops : list (kvop N N) := [Set_ 10 1; Set_ 40 2; Set_ 70 3; Remove 45; Set_ 71 4; Set_ 100 5; Resize 1; Get 70; Get 40; Get 109; Count]%N.

Example c09_run : kv_run (fun a b => (a / 10 =? b / 10)%N) [] c09_ops =
  [RUnit; RUnit; RUnit; RUnit; RUnit; RUnit; RUnit; RValue (Some (Some 4%N)); RValue None; RValue (Some (Some 5%N)); RCount 3].
Proof. reflexivity. Qed.

Example c09_ops_ok : Forall (kv_ok (length c09_ops)) c09_ops.
Proof. repeat constructor. exists 2%N. split; [reflexivity|]. split; [reflexivity|]. vm_compute. discriminate. Qed.

Example c11_case : index_to_entry 6 4 9 = Some 77%N /\ entry_to_index 6 77 = Some (Some (4, 9)%N) /\ index_to_entry 6 4 (2 ^ 61) = Some 0%N.
Proof. repeat split; vm_compute; reflexivity. Qed.
