(** C88, C89: copies of collections and of dictionaries through reflection. *)
From Verif Require Import Base CollectionModel CollectionSpec ContainerModel ContainerSpec ContainerDictSpec ContainerProofs ContainerDictProofs.
From Verif Require CollectionArrayProofs CollectionFastProofs CollectionListProofs MapperModel HashMapSpec HashMapModel DictionaryModel DictionarySpec.

Definition ok_alloc : alloc := mkAlloc true true.

(** ** C88: collections *)

(** Whichever of the three implementations the original and the copy have, and whether the copy is made as an ordered or as
    an unordered collection. *)
Theorem c88_copy_partial : forall (A : Type) chunk ok chunk' ok', 0 < chunk -> 0 < chunk' ->
  copies (@fast_interface A) (fast_create chunk ok) fast_interface (fast_create chunk' ok') /\
  copies (@fast_interface A) (fast_create chunk ok) array_interface (array_create chunk' ok') /\
  copies (@fast_interface A) (fast_create chunk ok) list_interface list_create /\
  copies (@array_interface A) (array_create chunk ok) fast_interface (fast_create chunk' ok') /\
  copies (@array_interface A) (array_create chunk ok) array_interface (array_create chunk' ok') /\
  copies (@array_interface A) (array_create chunk ok) list_interface list_create /\
  copies (@list_interface A) list_create fast_interface (fast_create chunk' ok') /\
  copies (@list_interface A) list_create array_interface (array_create chunk' ok') /\
  copies (@list_interface A) list_create list_interface list_create.
Proof.
  assert (G : forall A St Tt I J im im' (R : St -> ledger A -> Prop) (R' : Tt -> ledger A -> Prop), CollectionGenericProofs.laws im I R -> CollectionGenericProofs.laws im' J R' ->
    forall s0 t0, R s0 [] -> R' t0 [] -> copies I s0 J t0).
  { intros A St Tt I J im im' R R' L L' s0 t0 R0 R0' dtor dtor' ops i ordered env fuel Ra Env Hi Hf.
    destruct (copy_collection_ok I J im im' R R' L L' s0 t0 R0 R0' dtor dtor' ops ordered env fuel Ra Env Hf) as (s & rs & t & E & B & F). exists s, rs, t.
    split; [exact E|]. split; [|exact F]. unfold copy_collection. rewrite show_contents by exact Hi. cbn [receive]. now rewrite B. }
  intros A chunk ok chunk' ok' H H'.
  pose proof (CollectionFastProofs.fast_create_rep (A := A)) as F. pose proof (CollectionArrayProofs.array_create_rep (A := A)) as Y. pose proof (CollectionListProofs.list_create_rep (A := A)) as Z.
  repeat split; (eapply G; [first [apply CollectionFastProofs.fast_laws|apply CollectionArrayProofs.array_laws|apply CollectionListProofs.list_laws]
    |first [apply CollectionFastProofs.fast_laws|apply CollectionArrayProofs.array_laws|apply CollectionListProofs.list_laws]|auto|auto]).
Qed.
Print Assumptions c88_copy_partial.

(** Transferring or sharing, and a NULL collection, keep the handle. *)
Theorem c88_handle : forall (A St Tt : Type) (I : interface A St) (J : interface A Tt) i ordered env fuel t h,
  ~ by_contents i \/ h = None -> copy_collection I J i ordered env fuel t h = Some (Same h).
Proof. intros. unfold copy_collection. rewrite show_handle by assumption. reflexivity. Qed.
Print Assumptions c88_handle.

(** When memory runs out while the copy is made, nobody is told: the copy is handed over with elements missing, from the
    end or from the middle. *)
Theorem c88_memory_refuted : exists (s : lcoll nat) rs env t,
  run list_interface true list_create [Append 10 ok_alloc; Append 20 ok_alloc; Append 30 ok_alloc] = Some (s, rs) /\
  copy_collection list_interface list_interface MapperModel.Copy true env 4 list_create (Some s) = Some (Built t) /\
  step list_interface true s Forward = Some (s, RElements [10; 20; 30], []) /\
  step list_interface true t Forward = Some (t, RElements [10; 30], []).
Proof. eexists _, _, (fun k => mkAlloc (negb (k =? 1)) (negb (k =? 1))), _. do 3 (split; [vm_compute; reflexivity|]). vm_compute. reflexivity. Qed.
Print Assumptions c88_memory_refuted.

(** Non-vacuity: a collection with replaced and removed elements, backed by an array, copied into a list. *)
Example collection_copied : exists (s : acoll nat) rs t, let ops := [Append 10 ok_alloc; Prepend 20 ok_alloc; InsertAt 30 1 ok_alloc; ReplaceAt 40 0 ok_alloc; RemoveAt 1] in
  in_range_run [] ops /\ run array_interface false (array_create 2 true) ops = Some (s, rs) /\
  copy_collection array_interface list_interface MapperModel.Copy true (fun _ => ok_alloc) 3 list_create (Some s) = Some (Built t) /\
  step list_interface false t Forward = Some (t, RElements [40; 10], []).
Proof.
  eexists _, _, _. split; [cbn [in_range_run by_index in_range plain fst length insert_at]; repeat (split; [first [reflexivity|exact Logic.I|cbn; lia]|]); exact Logic.I|]. split; [vm_compute; reflexivity|]. split; vm_compute; reflexivity.
Qed.

(** ** C89: dictionaries *)
Import HashMapSpec DictionaryModel DictionarySpec.

(** After any history by keys, the copy of a dictionary, with any size hint, any lawful hasher and any destructors, answers
    every later history as the original does. Making it runs no destructor, and when the type gives the same destructors
    the same ones run later on. *)
Theorem c89_dictionary_partial : forall (K V : Type) (hash hash' : K -> N) (eqk : K -> K -> bool) (junk : V) full full' s s' kd vd kd' vd' (p q : list (action K V)) i fuel,
  lawful hash eqk -> lawful hash' eqk -> s <> BothBits -> s' <> BothBits -> (N.of_nat (length p + length q) <= 2 ^ 33)%N -> length p <= fuel -> by_contents i ->
  exists d d1 rs evs d2, d_create s kd vd = Some d /\ acts hash eqk full d p = Some (d1, rs, evs) /\
    copy_dictionary hash hash' eqk junk full' i fuel s' kd' vd' (Some d1) = Some (Built (d2, [])) /\
    exists d3 d4 rs' evs1 evs2, acts hash eqk full d1 q = Some (d3, rs', evs1) /\ acts hash' eqk full' d2 q = Some (d4, rs', evs2) /\
      (kd = kd' -> vd = vd' -> evs1 = evs2).
Proof.
  intros K V hash hash' eqk junk full full' s s' kd vd kd' vd' p q i fuel L L' Hs Hs' Hp Hf Hi.
  destruct (copy_dictionary_unseen K V hash hash' eqk junk full full' s s' kd vd kd' vd' p q fuel L L' Hs Hs' Hp Hf) as (d & d1 & rs & evs & d2 & E1 & E2 & E3 & E4).
  exists d, d1, rs, evs, d2. split; [exact E1|]. split; [exact E2|]. split; [|exact E4]. unfold copy_dictionary. rewrite show_contents by exact Hi. cbn [receive]. now rewrite E3.
Qed.
Print Assumptions c89_dictionary_partial.

Theorem c89_handle : forall (K V : Type) (hash hash' : K -> N) (eqk : K -> K -> bool) (junk : V) full i fuel s kd vd h,
  ~ by_contents i \/ h = None -> copy_dictionary hash hash' eqk junk full i fuel s kd vd h = Some (Same h).
Proof. intros. unfold copy_dictionary. rewrite show_handle by assumption. reflexivity. Qed.
Print Assumptions c89_handle.

(** An entry that was made for a key but never set is copied as one that has whatever was in memory for its value: the
    original runs no value destructor when it is destroyed, the copy runs it on that memory. *)
Theorem c89_unset_refuted : exists (d d1 d2 : dict N N) rs full,
  d_create Small false true = Some d /\ d_run (fun k => k) N.eqb full d [DEntryForKey 5%N] = Some (d1, rs, []) /\
  copy_dictionary (fun k => k) (fun k => k) N.eqb 77%N full MapperModel.Copy 1 Small false true (Some d1) = Some (Built (d2, [])) /\
  d_destroy (fun k => k) N.eqb d1 = Some [] /\ d_destroy (fun k => k) N.eqb d2 = Some [DestroyValue (Some (Some 77%N))].
Proof. eexists _, _, _, _, (fun c bc => Nat.leb (3 * bc) (4 * c)). do 3 (split; [vm_compute; reflexivity|]). split; vm_compute; reflexivity. Qed.
Print Assumptions c89_unset_refuted.

(** Non-vacuity *)
Example dictionary_copied : exists (d d1 d2 d4 : dict N N) rs full, let p := [Put 1 10; Put 4 40; Put 2 20; Delete 1; Put 4 41]%N in
  d_create Small true true = Some d /\ acts (fun k => k) N.eqb full d p = Some (d1, rs, [DestroyKey (Some 1%N); DestroyValue (Some (Some 10%N)); DestroyValue (Some (Some 40%N))]) /\
  copy_dictionary (fun k => k) (fun _ => 3%N) N.eqb 0%N full MapperModel.Copy 5 Medium true true (Some d1) = Some (Built (d2, [])) /\
  acts (fun _ => 3%N) N.eqb full d2 [Read 4; Has 1; Size]%N = Some (d4, [HashMapModel.RValue (Some (Some 41%N)); HashMapModel.RBool false; HashMapModel.RCount 2], []).
Proof. eexists _, _, _, _, _, (fun c bc => Nat.leb (3 * bc) (4 * c)). do 3 (split; [vm_compute; reflexivity|]). vm_compute. reflexivity. Qed.
