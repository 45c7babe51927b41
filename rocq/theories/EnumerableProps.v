(** C08: enumerating visits every element once, in order, in both directions. *)
From Verif Require Import Base LinkedListModel LinkedListSpec QueueModel QueueSpec EnumerableModel EnumerableSpec EnumerableProofs.
From Verif Require ListModel ListSpec ListProofs ArrayModel QueueProofs LinkedListProofs.

(** What [enumerates] gives for the loops users write: forwards from the start, and backwards from the end. *)
Theorem c08_loops : forall (St : Type) (step : St -> action -> option (St * result)) xs s fuel,
  enumerates step xs s -> length xs <= fuel ->
  loop step fuel s Current Next = Some xs /\ loop step fuel s Head Next = Some xs /\ loop step fuel s Tail Previous = Some (rev xs).
Proof. intros. now apply enumerates_loops. Qed.
Print Assumptions c08_loops.

(** A block of [n] values. *)
Theorem c08_batch : forall base size n, enumerates (batch_step batch_handler) (addresses base size n) (batch_create base size n).
Proof. exact batch_enumerates. Qed.
Print Assumptions c08_batch.

(** A circular buffer, whether or not its contents wrap at the end of the storage. *)
Theorem c08_circular : forall base size count start max, count <= max -> start < max ->
  exists c, circular_create base size count start max = Some c /\ enumerates circular_step (slots base size count start max) c.
Proof.
  intros base size n st m H1 H2. unfold circular_create. destruct (Nat.leb_spec n m), (Nat.ltb_spec st m); try lia. cbn [andb].
  eexists. split; [reflexivity|]. apply (sim_enumerates _ _ (circular_rel base size n st m) (circular_sim base size n st m)).
  unfold circular_rel, first. rewrite slots_length. cbn. repeat split. destruct (Nat.eqb_spec n 0); [exact I|]. split; [reflexivity|lia].
Qed.
Print Assumptions c08_circular.

(** A linked list, from any of its nodes. [fuel] bounds the walks to the head and to the tail. *)
Theorem c08_linked_list : forall fuel h data l a, is_list h l -> In a l -> length l <= fuel ->
  exists s, linked_create fuel h a = Some s /\ enumerates (linked_step fuel h data) (map data l) s.
Proof.
  intros fuel h data l a HL Ha Hf. assert (NE : l <> []) by (intros ->; destruct Ha).
  apply In_nth_error in Ha as Hj. destruct Hj as [j Hj]. unfold linked_create. pose proof (nth_error_Some_lt _ _ _ Hj).
  pose proof (get_head_at h l HL j a fuel Hj ltac:(lia)) as G.
  rewrite G. destruct l as [|x t]; [congruence|]. cbn [nth_error]. eexists. split; [reflexivity|].
  apply (sim_enumerates _ _ (linked_rel data (x :: t)) (linked_sim fuel h data (x :: t) HL NE Hf)).
  unfold linked_rel, first, cursor_ok, at_node. cbn [length map Nat.eqb i_ptr i_extra0 i_extra1 i_ref nth_error].
  repeat split; [lia|now left|]. exists a. auto.
Qed.
Print Assumptions c08_linked_list.

(** A queue in any state it can reach: oldest first. *)
Theorem c08_queue : forall fuel ops data, 1 <= fuel -> fifo_valid [] ops ->
  exists h q rs, qrun fuel (fresh_nodes, qcreate) ops = Some ((h, q), rs) /\
    enumerates (queue_enum_step h data) (map data (fst (fifo_run [] ops))) (queue_create q).
Proof.
  intros fuel ops data Hf V. destruct (QueueProofs.qrun_sim fuel ops _ [] Hf QueueProofs.qinv_init V) as ([h q] & E & I).
  eexists h, q, _. split; [exact E|]. destruct I as (HL & Hh & Ht & _). set (l := fst (fifo_run [] ops)) in *.
  apply (sim_enumerates _ _ (queue_rel data l) (queue_sim h data l HL)).
  unfold queue_rel, first, queue_create. cbn [i_ptr i_extra0 i_extra1]. rewrite map_length, Ht. destruct l; cbn; repeat split; auto; lia.
Qed.
Print Assumptions c08_queue.

(** A paged list in any state reached without the calls C04 refutes: in index order, whatever the layout. *)
Theorem c08_list_partial : forall (A : Type) chunk page e (ops : list (ListModel.op A * ListModel.env)) l0 storage size,
  ListModel.create chunk page e = Some l0 -> ListSpec.safe_run l0 ops ->
  exists l rs xs b, ListModel.run l0 ops = Some (l, rs) /\ ListSpec.spec_run [] ops rs xs /\
    list_create storage size l = Some b /\
    enumerates (batch_step (list_handler storage l)) (element_addresses storage size (length xs) (ListModel.pageSize l)) b.
Proof.
  intros A chunk page e ops l0 storage size C Sf. assert (1 <= chunk /\ 1 <= page) as [H1 H2].
  { unfold ListModel.create in C. destruct (Nat.leb_spec 1 chunk), (Nat.leb_spec 1 page); try discriminate. lia. }
  destruct (ListProofs.create_sim (A := A) chunk page e H1 H2) as (l & E & I). rewrite C in E. injection E as <-.
  destruct (ListProofs.run_sim ops l0 [] I Sf) as (l & rs & xs & R & Sp & I').
  destruct (list_enumerates storage size l xs I') as (b & Eb & En). exists l, rs, xs, b. auto.
Qed.
Print Assumptions c08_list_partial.

(** The list collection (a linked list behind a sentinel node; [last] the collection's record of its last node). *)
Theorem c08_collection_list : forall h data sentinel l s, is_list h (sentinel :: l) ->
  i_ptr s = hd_error l -> enumerates (collection_list_step h data sentinel (match length l with 0 => None | S n => nth_error l n end)) (map data l) s.
Proof.
  intros h data sentinel l s HL E.
  apply (sim_enumerates _ _ (fun s c => cursor_ok (length l) c /\ i_ptr s = at_node data l c) (collection_list_sim h data sentinel l HL)).
  unfold first. rewrite map_length. destruct l; cbn in *; split; auto; lia.
Qed.
Print Assumptions c08_collection_list.

(** The array collection. *)
Theorem c08_collection_array : forall base size n b, b_ptr b = base -> b_count b = n -> b_stride b = size -> b_index b = 0 -> n <> 0 ->
  enumerates (batch_step (collection_array_handler base size n)) (addresses base size n) b.
Proof.
  intros base size n b E1 E2 E3 E4 Hn.
  apply (sim_enumerates _ _ (batch_rel (if n =? 0 then 0%N else base) size n) (collection_array_sim base size n)).
  unfold batch_rel, first. rewrite addresses_length. destruct (Nat.eqb_spec n 0); [lia|]. repeat split; auto. lia.
Qed.
Print Assumptions c08_collection_array.

(** The full property for lists is false: a static list does not record its last page, so after walking off its
    front the enumerator cannot be sent to its tail (List.c 287-303). *)
Theorem c08_list_refuted : exists (l : ListModel.plist nat) storage size b b',
  list_create storage size l = Some b /\ ListModel.count l = 1 /\
  batch_step (list_handler storage l) b Previous = Some (b', None) /\ batch_step (list_handler storage l) b' Tail = None.
Proof.
  exists (ListModel.mkList 2 [ArrayModel.mkArray 2 1 (Some [Some 7; None])] None 1), (fun _ => 100%N), 4%N.
  eexists _, _. split; [reflexivity|]. split; [reflexivity|]. split; [reflexivity|]. reflexivity.
Qed.
Print Assumptions c08_list_refuted.

(** Non-vacuity. *)
Example c08_circular_wraps : slots 1000 8 3 2 4 = [1016; 1024; 1000]%N.
Proof. reflexivity. Qed.

Definition c08_heap : heap := fun a =>
  match a with 5 => Some (mkNode (Some 2) None) | 2 => Some (mkNode (Some 9) (Some 5)) | 9 => Some (mkNode None (Some 2)) | _ => None end.

Example c08_linked_case : is_list c08_heap [5; 2; 9].
Proof.
  split; [repeat constructor; cbn; intuition congruence|]. intros [|[|[|i]]] a E; cbn in E; try (injection E as <-; reflexivity). now destruct i.
Qed.

Example c08_linked_run : option_map snd (let? s := linked_create 3 c08_heap 2 in let? (s, _) := linked_step 3 c08_heap N.of_nat s Tail in
  linked_step 3 c08_heap N.of_nat s Previous) = Some (Some 2%N).
Proof. reflexivity. Qed.

Example c08_queue_case : fifo_valid [] [Push 4; Push 2; Push 9; Pop] /\ fst (fifo_run [] [Push 4; Push 2; Push 9; Pop]) = [2; 9].
Proof. split; [cbn; intuition congruence|reflexivity]. Qed.

Example c08_list_pages : element_addresses (fun p => N.of_nat (1000 + 500 * p)) 4 5 2 = [1000; 1004; 1500; 1504; 2000]%N.
Proof. reflexivity. Qed.
