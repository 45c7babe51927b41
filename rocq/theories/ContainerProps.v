(** Copying a container through reflection. *)
From Verif Require Import Base LinkedListModel LinkedListSpec QueueModel QueueSpec QueueProofs EnumerableModel ContainerModel ContainerSpec ContainerProofs.
From Verif Require ArrayModel ArraySpec ArrayProofs ListModel ListSpec ListProofs HashMapModel HashMapSpec ContainerMapProofs MapperModel.

(** ** C84: sequences *)

(** A container that is transferred or shared, and one that is not there, is passed on as it is. *)
Theorem c84_handle : forall (A : Type) (mem : N -> A) storage size data i,
  (forall chunk created ok h, ~ by_contents i \/ h = None -> copy_array i chunk created ok h = Some (Same (h : option (ArrayModel.array A)))) /\
  (forall fuel chunk page env h, ~ by_contents i \/ h = None -> copy_list mem storage size i fuel chunk page env h = Some (Same h)) /\
  (forall fuel s h, ~ by_contents i \/ h = None -> copy_linked mem data i fuel s h = Some (Same h)) /\
  (forall fuel s h, ~ by_contents i \/ h = None -> copy_queue mem data i fuel s h = Some (Same h)).
Proof.
  intros A mem storage size data i. unfold copy_array, copy_list, copy_linked, copy_queue.
  split; [|split; [|split]]; intros; rewrite show_handle by assumption; reflexivity.
Qed.
Print Assumptions c84_handle.

(** An array: the copy holds the same values, whatever its chunk size, when there are any and memory for them. Not for
    an empty array. *)
Theorem c84_array_partial : forall (A : Type) chunk created ops (a : ArrayModel.array A) vs i chunk' created',
  array_of chunk created ops a vs -> by_contents i -> 1 <= chunk' ->
  ((exists b, copy_array i chunk' created' true (Some a) = Some (Built b) /\ ArraySpec.holds b (map Some vs)) <-> vs <> []).
Proof.
  intros A chunk created ops a vs i chunk' created' (_ & _ & _ & H) Hi Hc. unfold copy_array. rewrite show_contents by exact Hi. cbn [receive]. split.
  - intros (b & E & _) ->. unfold build_array in E. rewrite (array_cells a [] H) in E. cbn [map all_set] in E. destruct H as (Ec & _). cbn [map length] in Ec. rewrite Ec in E. discriminate.
  - intros Hv. destruct (build_array_is a vs chunk' created' H Hc Hv) as (b & -> & Hb). eauto.
Qed.
Print Assumptions c84_array_partial.

(** Copying an empty array fails an assertion: CCArrayAppendElements is called with a count of 0. *)
Theorem c84_array_empty_refuted : exists a : ArrayModel.array nat, array_of 4 true [] a [] /\ copy_array MapperModel.Copy 4 true true (Some a) = None.
Proof.
  exists (ArrayModel.create 4 true). split; [|reflexivity]. split; [lia|]. split; [exact I|]. split; [exists []; reflexivity|]. split; [reflexivity|]. intros [|i] x E; discriminate.
Qed.
Print Assumptions c84_array_empty_refuted.

(** A list: the copy holds the same values, whatever its page and chunk size, if the memory for them can be had. *)
Theorem c84_list_partial : forall (A : Type) chunk page e ops (l : ListModel.plist A) vs mem storage size i fuel chunk' page' env,
  list_of chunk page e ops l vs -> in_memory mem storage size l -> by_contents i -> length vs <= fuel -> 1 <= chunk' -> 1 <= page' ->
  (forall k, snd (env k) = true) ->
  exists l', copy_list mem storage size i fuel chunk' page' env (Some l) = Some (Built l') /\ ListSpec.holds l' (map Some vs).
Proof.
  intros A chunk page e ops l vs mem storage size i fuel chunk' page' env (l0 & C & Sf & (rs & R) & H) Hm Hi Hf H1 H2 He.
  assert (1 <= chunk /\ 1 <= page) as [P1 P2]. { unfold ListModel.create in C. destruct (Nat.leb_spec 1 chunk), (Nat.leb_spec 1 page); try discriminate. lia. }
  destruct (ListProofs.create_sim (A := A) chunk page e P1 P2) as (l1 & C1 & I0). rewrite C in C1. injection C1 as <-.
  destruct (ListProofs.run_sim ops l0 [] I0 Sf) as (l' & rs' & xs & R' & _ & I1). rewrite R in R'. injection R' as <- <-.
  unfold copy_list. rewrite show_contents by exact Hi. cbn [receive].
  destruct (build_list_is mem storage size fuel chunk' page' env l xs vs I1 H Hm Hf H1 H2 He) as (l2 & -> & H'). eauto.
Qed.
Print Assumptions c84_list_partial.

(** When memory runs out elements are left out of the copy, and nobody is told. *)
Theorem c84_list_memory_refuted : exists (l l' : ListModel.plist nat) mem storage size env,
  list_of 2 2 (true, true) [(ListModel.Append (Some 5), (true, true)); (ListModel.Append (Some 6), (true, true))] l [5; 6] /\ in_memory mem storage size l /\
  copy_list mem storage size MapperModel.Copy 2 1 2 env (Some l) = Some (Built l') /\ ListModel.count l' = 1.
Proof.
  exists (ListModel.mkList 2 [ArrayModel.mkArray 2 2 (Some [Some 5; Some 6])] (Some 0) 2). eexists. exists (fun a => if N.eqb a 100 then 5 else 6), (fun _ => 100%N), 8%N, (fun _ => (true, false)).
  split; [|split; [|split; [vm_compute; reflexivity|reflexivity]]].
  - eexists. split; [reflexivity|]. split; [vm_compute; repeat split; repeat constructor|]. split; [eexists; vm_compute; reflexivity|]. split; [reflexivity|].
    intros [|[|i]] x E; cbn [map nth_error] in E; [injection E as <-; reflexivity|injection E as <-; reflexivity|destruct i; discriminate].
  - intros [|p] a j x E G; cbn [ListModel.pages nth_error] in E; [|destruct p; discriminate]. injection E as <-. destruct j as [|[|j]]; cbn in G; [now injection G as <-|now injection G as <-|].
    destruct j; discriminate.
Qed.
Print Assumptions c84_list_memory_refuted.

(** A linked list, given by any of its nodes: the copy is a list of new nodes with the same values in the same order,
    and its handle is the first of them. *)
Theorem c84_linked_list : forall (A : Type) (mem : N -> A) data i fuel h l a (s : nodes A),
  is_list h l -> In a l -> length l <= fuel -> enough s (length l) -> by_contents i ->
  exists s' nl, copy_linked mem data i fuel s (Some (h, a)) = Some (Built (s', hd_error nl)) /\ is_list (n_heap s') nl /\
    map (n_value s') nl = map (fun n => mem (data n)) l.
Proof.
  intros A mem data i fuel h l a s HL Ha Hf En Hi. unfold copy_linked. rewrite show_contents by exact Hi. cbn [receive].
  destruct (build_linked_is mem data fuel h l a s HL Ha Hf En) as (s' & nl & -> & H). eauto.
Qed.
Print Assumptions c84_linked_list.

(** A queue in any state it can reach: the copy is a queue with the same values in the same order. *)
Theorem c84_queue : forall (A : Type) (mem : N -> A) data i fuel ops (s : nodes A),
  1 <= fuel -> fifo_valid [] ops -> let l := fst (fifo_run [] ops) in
  length l <= fuel -> enough s (length l) -> n_heap s = fresh_nodes -> by_contents i ->
  exists h q rs, qrun fuel (fresh_nodes, qcreate) ops = Some ((h, q), rs) /\
    exists s' q' nl, copy_queue mem data i fuel s (Some (h, q)) = Some (Built (s', q')) /\ queue_holds fuel (n_heap s') q' nl /\
      map (n_value s') nl = map (fun n => mem (data n)) l.
Proof.
  intros A mem data i fuel ops s Hf V l Hl En Es Hi. destruct (qrun_sim fuel ops _ [] Hf qinv_init V) as ([h q] & E & I).
  exists h, q. eexists. split; [exact E|]. unfold copy_queue. rewrite show_contents by exact Hi. cbn [receive].
  destruct (build_queue_is mem data fuel h q l s Hf I Hl En Es) as (s' & q' & nl & -> & H). eauto.
Qed.
Print Assumptions c84_queue.

(** Non-vacuity: a queue of three, one popped, and a list given by its second node. *)
Example queue_copied : exists s' q', copy_queue (fun a => N.to_nat a) (fun n => N.of_nat (10 * n)) MapperModel.Serialize 5 (mkNodes fresh_nodes (fun _ => 0) [8; 6; 7])
    (Some (match qrun 5 (fresh_nodes, qcreate) [Push 1; Push 2; Pop; Push 3] with Some (s, _) => s | None => (fresh_nodes, qcreate) end)) = Some (Built (s', q')) /\
  qwalk 5 (n_heap s') (qtail q') = Some [8; 6] /\ map (n_value s') [8; 6] = [20; 30].
Proof. eexists _, _. vm_compute. auto. Qed.

Example linked_copied : exists s', let h := fun a => if a =? 1 then Some (mkNode (Some 2) None) else if a =? 2 then Some (mkNode None (Some 1)) else None in
  is_list h [1; 2] /\ copy_linked (fun a => N.to_nat a) (fun n => N.of_nat (10 * n)) MapperModel.Copy 5 (mkNodes (fun _ => None) (fun _ => 0) [8; 6; 7]) (Some (h, 2)) = Some (Built (s', Some 8)) /\
  is_list (n_heap s') [8; 6] /\ map (n_value s') [8; 6] = [10; 20].
Proof.
  eexists. split; [|split; [vm_compute; reflexivity|split; [|vm_compute; reflexivity]]].
  - split; [repeat constructor; cbn; intuition lia|]. intros [|[|i]] a E; cbn in E; [injection E as <-; reflexivity|injection E as <-; reflexivity|destruct i; discriminate].
  - split; [repeat constructor; cbn; intuition lia|]. intros [|[|i]] a E; cbn in E; [injection E as <-; reflexivity|injection E as <-; reflexivity|destruct i; discriminate].
Qed.

(** ** C85: hash maps *)

(** After any history by keys, the copy of a hash map, with any number of buckets and any lawful hasher, answers every
    later history by keys as the original does. *)
Theorem c85_map_partial : forall (K V : Type) (hash hash' : K -> N) (eqk : K -> K -> bool) (junk : V) bc bc' (os os' : list (HashMapSpec.kvop K V)) i fuel,
  HashMapSpec.lawful hash eqk -> HashMapSpec.lawful hash' eqk -> 1 <= bc -> 1 <= bc' -> let n := S (length os + length os') in
  HashMapSpec.fits n bc -> HashMapSpec.fits n bc' -> Forall (HashMapSpec.kv_ok n) (os ++ os') -> length os <= fuel -> by_contents i ->
  exists m0 m rs0 m', HashMapModel.create bc = Some m0 /\ HashMapModel.run hash eqk m0 (map HashMapSpec.kv_call os) = Some (m, rs0) /\
    copy_map hash hash' eqk junk i fuel bc' (Some m) = Some (Built m') /\
    exists m1 m2 rs, HashMapModel.run hash eqk m (map HashMapSpec.kv_call os') = Some (m1, rs) /\
      HashMapModel.run hash' eqk m' (map HashMapSpec.kv_call os') = Some (m2, rs).
Proof.
  intros K V hash hash' eqk junk bc bc' os os' i fuel L L' Hb Hb' n F F' OK Hf Hi.
  destruct (ContainerMapProofs.copy_unseen K V hash hash' eqk junk bc bc' os os' L L' Hb Hb' F F' OK fuel Hf) as (m0 & m & rs0 & m' & E1 & E2 & E3 & E4).
  exists m0, m, rs0, m'. split; [exact E1|]. split; [exact E2|]. split; [|exact E4]. unfold copy_map. rewrite show_contents by exact Hi. cbn [receive]. now rewrite E3.
Qed.
Print Assumptions c85_map_partial.

Theorem c85_handle : forall (K V : Type) (hash hash' : K -> N) (eqk : K -> K -> bool) (junk : V) i fuel bc h,
  ~ by_contents i \/ h = None -> copy_map hash hash' eqk junk i fuel bc h = Some (Same h).
Proof. intros. unfold copy_map. rewrite show_handle by assumption. reflexivity. Qed.
Print Assumptions c85_handle.

(** An entry that was made but never given a value is copied as one that has whatever was in memory for its value. *)
Theorem c85_uninitialised_refuted : exists (m0 m m' : HashMapModel.hashmap N N) e e' hash,
  HashMapSpec.lawful hash N.eqb /\ HashMapModel.create 2 = Some m0 /\
  HashMapModel.step hash N.eqb m0 (HashMapModel.EntryForKey 5%N) = Some (m, HashMapModel.RCreated e true) /\
  HashMapModel.step hash N.eqb m (HashMapModel.IsInitialized e) = Some (m, HashMapModel.RBool false) /\
  copy_map hash hash N.eqb 77%N MapperModel.Copy 1 3 (Some m) = Some (Built m') /\
  HashMapModel.step hash N.eqb m' (HashMapModel.FindKey 5%N) = Some (m', HashMapModel.REntry e') /\
  HashMapModel.step hash N.eqb m' (HashMapModel.IsInitialized e') = Some (m', HashMapModel.RBool true) /\
  HashMapModel.step hash N.eqb m' (HashMapModel.GetValue 5%N) = Some (m', HashMapModel.RValue (Some (Some 77%N))).
Proof.
  eexists _, _, _, _, _, (fun k => k). split.
  { repeat split; intros; try apply N.eqb_refl; try apply N.eqb_sym; rewrite ?N.eqb_eq in *; congruence. }
  do 6 (split; [vm_compute; reflexivity|]). vm_compute. reflexivity.
Qed.
Print Assumptions c85_uninitialised_refuted.

(** Non-vacuity: colliding keys, a removal, and a copy with fewer buckets. *)
Example map_copied : exists m0 m rs m' m2, HashMapModel.create (K := N) (V := N) 3 = Some m0 /\
  HashMapModel.run (fun k => k) N.eqb m0 [HashMapModel.SetValue 1 10; HashMapModel.SetValue 4 40; HashMapModel.SetValue 2 20; HashMapModel.RemoveValue 1]%N = Some (m, rs) /\
  copy_map (fun k => k) (fun _ => 1%N) N.eqb 0%N MapperModel.Copy 4 1 (Some m) = Some (Built m') /\
  HashMapModel.run (fun _ => 1%N) N.eqb m' [HashMapModel.GetValue 4; HashMapModel.GetValue 1; HashMapModel.GetCount]%N =
    Some (m2, [HashMapModel.RValue (Some (Some 40%N)); HashMapModel.RValue None; HashMapModel.RCount 2]).
Proof. eexists _, _, _, _, _. do 3 (split; [vm_compute; reflexivity|]). vm_compute. reflexivity. Qed.
