(** C05, C06, C07 and C54. *)
From Verif Require Import Base CollectionModel CollectionSpec CollectionLedgerProofs CollectionGenericProofs
  CollectionFastProofs CollectionArrayProofs CollectionListProofs CollectionHistoryProofs.
From Verif Require ArrayModel.
From Coq Require Import Permutation.

(** A history used below: a mixture of calls on numbers. *)
Definition ok_alloc : alloc := mkAlloc true true.
Definition sample : list (op nat) :=
  [Append 10 ok_alloc; Append 20 ok_alloc; Prepend 30 ok_alloc; InsertAt 40 1 ok_alloc; ReplaceAt 50 2 ok_alloc; Forward;
   Backward; RemoveAt 0; GetCount; ElementAt 1; InsertMany [60; 70]; Find Nat.eqb 60; FindMany Nat.eqb [70; 1; 20];
   LastElement; RemoveLast; AllEntries; LastEntry; EntryAt 2; Forward; RemoveAll; LastElement; Insert 80 ok_alloc; Forward].

(** ** C05 *)
(** Whatever the calls, each of the three implementations completes them and shows what a plain sequence shows. *)
Theorem c05_fast_array_is_a_sequence : forall (A : Type) chunk ok dtor (ops : list (op A)),
  0 < chunk -> in_range_run [] ops ->
  exists s rs, run fast_interface dtor (fast_create chunk ok) ops = Some (s, rs) /\
    map (fun p => show (fst p)) rs = snd (plain_run [] ops) /\
    step fast_interface dtor s Forward = Some (s, RElements (fst (plain_run [] ops)), []).
Proof.
  intros A chunk ok dtor ops Hc H. pose proof (fast_create_rep (A := A) chunk ok Hc) as R.
  destruct (plain_sim _ _ _ fast_laws dtor ops _ _ R H) as (s & l & rs & E & R' & P1 & P2). exists s, rs. split; [exact E|]. split; [exact P2|].
  cbn [step]. rewrite (enumerate_sim _ _ _ fast_laws s l R'), P1. reflexivity.
Qed.
Print Assumptions c05_fast_array_is_a_sequence.

Theorem c05_array_is_a_sequence : forall (A : Type) chunk ok dtor (ops : list (op A)),
  0 < chunk -> in_range_run [] ops ->
  exists s rs, run array_interface dtor (array_create chunk ok) ops = Some (s, rs) /\
    map (fun p => show (fst p)) rs = snd (plain_run [] ops) /\
    step array_interface dtor s Forward = Some (s, RElements (fst (plain_run [] ops)), []).
Proof.
  intros A chunk ok dtor ops Hc H. pose proof (array_create_rep (A := A) chunk ok Hc) as R.
  destruct (plain_sim _ _ _ array_laws dtor ops _ _ R H) as (s & l & rs & E & R' & P1 & P2). exists s, rs. split; [exact E|]. split; [exact P2|].
  cbn [step]. rewrite (enumerate_sim _ _ _ array_laws s l R'), P1. reflexivity.
Qed.
Print Assumptions c05_array_is_a_sequence.

Theorem c05_list_is_a_sequence : forall (A : Type) dtor (ops : list (op A)),
  in_range_run [] ops ->
  exists s rs, run list_interface dtor list_create ops = Some (s, rs) /\
    map (fun p => show (fst p)) rs = snd (plain_run [] ops) /\
    step list_interface dtor s Forward = Some (s, RElements (fst (plain_run [] ops)), []).
Proof.
  intros A dtor ops H. pose proof (list_create_rep (A := A)) as R.
  destruct (plain_sim _ _ _ list_laws dtor ops _ _ R H) as (s & l & rs & E & R' & P1 & P2). exists s, rs. split; [exact E|]. split; [exact P2|].
  cbn [step]. rewrite (enumerate_sim _ _ _ list_laws s l R'), P1. reflexivity.
Qed.
Print Assumptions c05_list_is_a_sequence.

(** So the choice of implementation cannot be observed. *)
Theorem c05_interchangeable : forall (A : Type) chunk1 ok1 chunk2 ok2 dtor (ops : list (op A)),
  0 < chunk1 -> 0 < chunk2 -> in_range_run [] ops ->
  exists s1 rs1 s2 rs2 s3 rs3,
    run array_interface dtor (array_create chunk1 ok1) ops = Some (s1, rs1) /\
    run fast_interface dtor (fast_create chunk2 ok2) ops = Some (s2, rs2) /\
    run list_interface dtor list_create ops = Some (s3, rs3) /\
    map (fun p => show (fst p)) rs1 = map (fun p => show (fst p)) rs2 /\
    map (fun p => show (fst p)) rs2 = map (fun p => show (fst p)) rs3.
Proof.
  intros A chunk1 ok1 chunk2 ok2 dtor ops H1 H2 H.
  destruct (c05_array_is_a_sequence A chunk1 ok1 dtor ops H1 H) as (s1 & rs1 & E1 & P1 & _).
  destruct (c05_fast_array_is_a_sequence A chunk2 ok2 dtor ops H2 H) as (s2 & rs2 & E2 & P2 & _).
  destruct (c05_list_is_a_sequence A dtor ops H) as (s3 & rs3 & E3 & P3 & _).
  exists s1, rs1, s2, rs2, s3, rs3. repeat (split; [assumption|]). split; congruence.
Qed.
Print Assumptions c05_interchangeable.

Example c05_sample_in_range : in_range_run [] sample.
Proof. repeat (split; [first [reflexivity|vm_compute; lia|exact I]|]). exact I. Qed.

Example c05_sample_shown : snd (plain_run [] sample) =
  [Entry false; Entry false; Entry false; Entry false; Entry false; Elements [30; 40; 50; 20]; Elements [20; 50; 40; 30];
   Nothing; Count 3; Element (Some 50); Entries 2; Entry false; Entries 2; Element (Some 70); Nothing; Entries 4; Entry false;
   Entry false; Elements [40; 50; 20; 60]; Nothing; Element None; Entry false; Elements [80]].
Proof. reflexivity. Qed.

(** ** C06 *)
Lemma denotes_rep {A St} im (I : interface A St) (R : St -> ledger A -> Prop) (L : laws im I R) dtor s l : R s l -> denotes I dtor s l.
Proof.
  intros HR. pose proof (L_wf _ _ _ L s l HR) as (D & Z & _). split; [|split].
  - cbn [step]. now rewrite (enumerate_sim _ _ _ L s l HR).
  - cbn [step]. now rewrite (all_entries_sim _ _ _ L s l HR).
  - intros i e x H. assert (Hi : nth_error (entries l) i = Some e) by (unfold entries; now rewrite nth_error_map, H).
    assert (Hx : nth_error (elements l) i = Some x) by (unfold elements; now rewrite nth_error_map, H).
    assert (He : In e (entries l)) by (eapply nth_error_In, Hi).
    assert (Lx : lookup l e = Some x) by (now rewrite (nth_lookup l i e D Hi)).
    split; [|split].
    + cbn [step]. rewrite (get_element_sim _ _ _ L s l e HR) by (now right). now rewrite Lx.
    + cbn [step]. now rewrite (L_index _ _ _ L s l i e HR Hi).
    + destruct (remove_element_sim _ _ _ L dtor s l e HR (or_intror He)) as (s' & E & R'). exists s'. cbn [step]. rewrite E.
      cbn [removing]. rewrite Lx. split; [now destruct dtor|].
      rewrite (enumerate_sim _ _ _ L s' _ R'). rewrite renew_elements, keep_snd, (without_at l i e D Hi). unfold elements. now rewrite map_remove_at.
Qed.

Theorem c06_array_entries : forall (A : Type) chunk ok dtor (ops : list (op A)),
  0 < chunk -> valid_run array_interface ArrayBacked dtor (array_create chunk ok) [] ops ->
  exists s rs, run array_interface dtor (array_create chunk ok) ops = Some (s, rs) /\
    follows ArrayBacked dtor [] ops rs /\ denotes array_interface dtor s (ledger_after ArrayBacked [] ops rs).
Proof.
  intros A chunk ok dtor ops Hc V. destruct (run_sim _ _ _ array_laws dtor ops _ _ (array_create_rep chunk ok Hc) V) as (s & rs & E & F & R).
  exists s, rs. split; [exact E|]. split; [exact F|]. exact (denotes_rep _ _ _ array_laws dtor s _ R).
Qed.
Print Assumptions c06_array_entries.

Theorem c06_list_entries : forall (A : Type) dtor (ops : list (op A)),
  valid_run list_interface ListBacked dtor list_create [] ops ->
  exists s rs, run list_interface dtor list_create ops = Some (s, rs) /\
    follows ListBacked dtor [] ops rs /\ denotes list_interface dtor s (ledger_after ListBacked [] ops rs).
Proof.
  intros A dtor ops V. destruct (run_sim _ _ _ list_laws dtor ops _ _ list_create_rep V) as (s & rs & E & F & R).
  exists s, rs. split; [exact E|]. split; [exact F|]. exact (denotes_rep _ _ _ list_laws dtor s _ R).
Qed.
Print Assumptions c06_list_entries.

(** The entry an insertion returned gives that element until a call takes the element away. *)
Lemma entry_lives {A St} im (I : interface A St) (R : St -> ledger A -> Prop) (L : laws im I R) s0 : im <> FastArrayBacked -> R s0 [] ->
  forall dtor before o later x e d s rs,
  inserts o = Some x -> valid_run I im dtor s0 [] (before ++ o :: later) -> run I dtor s0 (before ++ o :: later) = Some (s, rs) ->
  nth_error rs (length before) = Some (REntry e, d) -> e <> 0 ->
  left_alone im (ledger_after im [] (before ++ [o]) rs) later (skipn (length before + 1) rs) e ->
  step I dtor s (GetElement e) = Some (s, RElement (Some x), []).
Proof.
  intros NF R0 dtor before o later x e d s rs Ix V E Hr Ne LA.
  pose proof (run_facts _ _ _ L dtor _ _ _ _ _ R0 V E) as [_ Rf].
  rewrite run_app in E. destruct (run I dtor s0 before) as [[s1 r1]|] eqn:E1; [|discriminate].
  destruct (valid_run_app I im dtor before s0 [] (o :: later) s1 r1 V E1) as [V1 V2].
  pose proof (run_facts _ _ _ L dtor _ _ _ _ _ R0 V1 E1) as [_ R1].
  set (l1 := ledger_after im [] before r1) in *. cbn [run valid_run] in *. destruct V2 as [V2 V3].
  destruct (step_sim _ _ _ L dtor s1 l1 o R1 V2) as (s2 & r & E2 & R2 & An). rewrite E2 in *.
  destruct (run I dtor s2 later) as [[s3 r3]|] eqn:E3; [|discriminate]. injection E as <- <-.
  assert (Len : length r1 = length before).
  { clear - E1. revert s0 s1 r1 E1. induction before as [|b t IH]; intros s0 s1 r1 E1; cbn [run] in E1; [now injection E1 as _ <-|].
    destruct (step I dtor s0 b) as [[[s' r] d']|]; [|discriminate]. destruct (run I dtor s' t) as [[s'' r'']|] eqn:E; [|discriminate].
    injection E1 as _ <-. cbn. f_equal. eauto. }
  rewrite nth_error_app2, Len, Nat.sub_diag in Hr by lia. cbn in Hr. injection Hr as -> _.
  assert (Q1 : forall t k rs' (l : ledger A), length rs' = length t -> ledger_after im l (t ++ k) (rs' ++ (REntry e, destroyed_by im dtor l1 o (REntry e)) :: r3) =
    ledger_after im (ledger_after im l t rs') k ((REntry e, destroyed_by im dtor l1 o (REntry e)) :: r3)).
  { clear. induction t as [|b t IH]; intros k [|[r d] rs'] l H; cbn [app ledger_after] in *; try discriminate H; auto. }
  rewrite Q1 in LA, Rf by exact Len. fold l1 in LA, Rf. cbn [ledger_after] in LA, Rf.
  rewrite skipn_app, skipn_all2, Len in LA by lia. replace (length before + 1 - length before) with 1 in LA by lia. cbn [skipn app] in LA.
  assert (In1 : In (e, x) (next im l1 o (REntry e))).
  { apply inserted_in with (x := x) (e := e); auto. split; [apply (L_wf _ _ _ L s2 _ R2)|exact An]. }
  pose proof (follows_keeps im I R L dtor e x NF later s2 _ s3 r3 R2 V3 E3 In1 LA) as Fin.
  destruct (In_nth_error _ _ Fin) as [i Hi]. destruct (denotes_rep _ _ _ L dtor s3 _ Rf) as (_ & _ & Dn). apply (Dn i e x Hi).
Qed.

Theorem c06_array_entry_until_removed : forall (A : Type) chunk ok dtor before (o : op A) later x e d s rs,
  0 < chunk -> inserts o = Some x ->
  valid_run array_interface ArrayBacked dtor (array_create chunk ok) [] (before ++ o :: later) ->
  run array_interface dtor (array_create chunk ok) (before ++ o :: later) = Some (s, rs) ->
  nth_error rs (length before) = Some (REntry e, d) -> e <> 0 ->
  left_alone ArrayBacked (ledger_after ArrayBacked [] (before ++ [o]) rs) later (skipn (length before + 1) rs) e ->
  step array_interface dtor s (GetElement e) = Some (s, RElement (Some x), []).
Proof.
  intros A chunk ok dtor before o later x e d s rs Hc Ix V E Hr Ne LA.
  exact (entry_lives ArrayBacked _ _ array_laws _ ltac:(discriminate) (array_create_rep chunk ok Hc) dtor before o later x e d s rs Ix V E Hr Ne LA).
Qed.
Print Assumptions c06_array_entry_until_removed.

Theorem c06_list_entry_until_removed : forall (A : Type) dtor before (o : op A) later x e d s rs,
  inserts o = Some x ->
  valid_run list_interface ListBacked dtor list_create [] (before ++ o :: later) ->
  run list_interface dtor list_create (before ++ o :: later) = Some (s, rs) ->
  nth_error rs (length before) = Some (REntry e, d) -> e <> 0 ->
  left_alone ListBacked (ledger_after ListBacked [] (before ++ [o]) rs) later (skipn (length before + 1) rs) e ->
  step list_interface dtor s (GetElement e) = Some (s, RElement (Some x), []).
Proof.
  intros A dtor before o later x e d s rs Ix V E Hr Ne LA.
  exact (entry_lives ListBacked _ _ list_laws _ ltac:(discriminate) list_create_rep dtor before o later x e d s rs Ix V E Hr Ne LA).
Qed.
Print Assumptions c06_list_entry_until_removed.

(** A history with entries: the element 20 gets entry 2 in the array and 3 in the list, then others come and go. *)
Definition handles (a b c : nat) : list (op nat) :=
  [Append 10 ok_alloc; Append 20 ok_alloc; Prepend 30 ok_alloc; Remove a; InsertAt 40 0 ok_alloc; ReplaceAt 50 0 ok_alloc;
   InsertMany [60; 70]; RemoveMany [c]; RemoveLast; GetElement b; IndexOf b; Forward].

Ltac decide_valid :=
  repeat match goal with
  | |- True => exact I
  | |- _ /\ _ => split
  | |- NoDup _ => repeat constructor; cbn; lia
  | |- incl _ _ => intros ? ?; cbn in *; lia
  | |- _ = FastArrayBacked -> _ => discriminate
  | |- _ \/ _ => lia
  | |- forall _, _ -> _ => intros; lia
  | |- _ -> False => discriminate
  | |- In _ _ => cbn; lia
  | |- _ <= _ => cbn; lia
  | |- _ < _ => cbn; lia
  | |- _ = true => reflexivity
  | |- _ <> _ => discriminate
  end.

Example c06_array_handles :
  valid_run array_interface ArrayBacked true (array_create 2 true) [] (handles 1 2 3) /\
  exists s rs, run array_interface true (array_create 2 true) (handles 1 2 3) = Some (s, rs) /\
    map snd rs = [[]; []; []; [10]; []; [40]; []; [30]; [70]; []; []; []] /\
    ledger_after ArrayBacked [] (handles 1 2 3) rs = [(4, 50); (2, 20); (5, 60)] /\
    left_alone ArrayBacked (ledger_after ArrayBacked [] (firstn 2 (handles 1 2 3)) rs) (skipn 2 (handles 1 2 3)) (skipn 2 rs) 2.
Proof.
  split.
  - vm_compute. decide_valid.
  - eexists. eexists. split; [vm_compute; reflexivity|]. split; [reflexivity|]. split; [reflexivity|].
    vm_compute. repeat (split; [first [exact (fun H => H)|intros H; repeat (destruct H as [H|H]; [discriminate|]); first [discriminate|contradiction]|discriminate]|]). exact I.
Qed.

Example c06_list_handles :
  valid_run list_interface ListBacked true list_create [] (handles 2 3 4) /\
  exists s rs, run list_interface true list_create (handles 2 3 4) = Some (s, rs) /\
    map snd rs = [[]; []; []; [10]; []; [40]; []; [30]; [70]; []; []; []] /\
    ledger_after ListBacked [] (handles 2 3 4) rs = [(6, 50); (3, 20); (7, 60)].
Proof.
  split.
  - vm_compute. decide_valid.
  - eexists. eexists. split; [vm_compute; reflexivity|]. split; reflexivity.
Qed.

(** ** C07 *)
Lemma balance {A St} im (I : interface A St) (R : St -> ledger A -> Prop) (L : laws im I R) s0 : R s0 [] ->
  forall (ops : list (op A)), valid_run I im true s0 [] ops ->
  exists s rs s' d, run I true s0 ops = Some (s, rs) /\ destroy I true s = Some (s', d) /\
    (never_forgets im [] ops rs -> Permutation (destroyed rs ++ d) (entered ops rs)).
Proof.
  intros R0 ops V. destruct (run_sim _ _ _ L true ops _ _ R0 V) as (s & rs & E & F & R1).
  destruct (destroy_sim _ _ _ L true s _ R1) as (s' & Ed). exists s, rs, s', (elements (ledger_after im [] ops rs)).
  split; [exact E|]. split; [exact Ed|]. intros NF.
  pose proof (valid_run_all _ _ _ L true ops s0 [] s rs R0 V E eq_refl NF) as Q. rewrite app_nil_r in Q. symmetry. exact Q.
Qed.

Lemma no_forget {A} im (ops : list (op A)) : im <> FastArrayBacked -> forall l rs, never_forgets im l ops rs.
Proof.
  intros N. induction ops as [|o t IH]; intros l [|[r d] rs]; cbn [never_forgets]; auto. split; [|apply IH].
  intros Q. destruct im; try congruence; discriminate.
Qed.

(** For every valid history that ends with the destruction of the collection, the destructor calls are exactly the
    elements that entered. *)
Theorem c07_array_destructor_once : forall (A : Type) chunk ok (ops : list (op A)),
  0 < chunk -> valid_run array_interface ArrayBacked true (array_create chunk ok) [] ops ->
  exists s rs s' d, run array_interface true (array_create chunk ok) ops = Some (s, rs) /\
    destroy array_interface true s = Some (s', d) /\ Permutation (destroyed rs ++ d) (entered ops rs).
Proof.
  intros A chunk ok ops Hc V. destruct (balance _ _ _ array_laws _ (array_create_rep chunk ok Hc) ops V) as (s & rs & s' & d & E & Ed & P).
  exists s, rs, s', d. split; [exact E|]. split; [exact Ed|]. apply P. now apply no_forget.
Qed.
Print Assumptions c07_array_destructor_once.

Theorem c07_list_destructor_once : forall (A : Type) (ops : list (op A)),
  valid_run list_interface ListBacked true list_create [] ops ->
  exists s rs s' d, run list_interface true list_create ops = Some (s, rs) /\
    destroy list_interface true s = Some (s', d) /\ Permutation (destroyed rs ++ d) (entered ops rs).
Proof.
  intros A ops V. destruct (balance _ _ _ list_laws _ list_create_rep ops V) as (s & rs & s' & d & E & Ed & P).
  exists s, rs, s', d. split; [exact E|]. split; [exact Ed|]. apply P. now apply no_forget.
Qed.
Print Assumptions c07_list_destructor_once.

(** On a fast array: unless all elements are removed at once from a collection that has some. Missing from C07: that
    case, and removing a collection of entries that do not ascend (excluded by [valid]). *)
Theorem c07_fast_array_destructor_partial : forall (A : Type) chunk ok (ops : list (op A)),
  0 < chunk -> valid_run fast_interface FastArrayBacked true (fast_create chunk ok) [] ops ->
  exists s rs s' d, run fast_interface true (fast_create chunk ok) ops = Some (s, rs) /\
    destroy fast_interface true s = Some (s', d) /\
    (never_forgets FastArrayBacked [] ops rs -> Permutation (destroyed rs ++ d) (entered ops rs)).
Proof.
  intros A chunk ok ops Hc V. exact (balance _ _ _ fast_laws _ (fast_create_rep chunk ok Hc) ops V).
Qed.
Print Assumptions c07_fast_array_destructor_partial.

(** Every removal of all elements of a fast array that has some skips the destructor. *)
Theorem c07_fast_array_remove_all_refuted : forall (A : Type) chunk ok (ops : list (op A)) s rs x xs,
  0 < chunk -> valid_run fast_interface FastArrayBacked true (fast_create chunk ok) [] ops ->
  run fast_interface true (fast_create chunk ok) ops = Some (s, rs) ->
  step fast_interface true s Forward = Some (s, RElements (x :: xs), []) ->
  exists s' s'', step fast_interface true s RemoveAll = Some (s', RVoid, []) /\ destroy fast_interface true s' = Some (s'', []).
Proof.
  intros A chunk ok ops s rs x xs Hc V E _.
  destruct (run_facts _ _ _ fast_laws true _ _ _ _ _ (fast_create_rep chunk ok Hc) V E) as [_ R].
  destruct (fast_remove_all_ok s _ R) as (a' & Ea & Ra). exists a'.
  destruct (destroy_sim _ _ _ fast_laws true a' _ Ra) as (s'' & Ed). exists s''. split; [|exact Ed].
  cbn [step]. unfold remove_all. cbn [i_remove_all fast_interface]. now rewrite Ea.
Qed.
Print Assumptions c07_fast_array_remove_all_refuted.

Example c07_fast_array_remove_all_ex :
  let ops := [Append 10 ok_alloc; Append 20 ok_alloc] in
  exists s rs, run fast_interface true (fast_create 4 true) ops = Some (s, rs) /\
    step fast_interface true s Forward = Some (s, RElements [10; 20], []).
Proof. eexists. eexists. split; [vm_compute; reflexivity|]. vm_compute. reflexivity. Qed.

(** Entries that do not ascend: 20 is destroyed and stays, then it is destroyed again; 30 is lost. *)
Theorem c07_fast_array_remove_collection_refuted :
  exists s rs s' d, run fast_interface true (fast_create 4 true)
      [Append 10 ok_alloc; Append 20 ok_alloc; Append 30 ok_alloc; RemoveMany [2; 1]] = Some (s, rs) /\
    destroyed rs = [20; 10] /\ destroy fast_interface true s = Some (s', d) /\ d = [20].
Proof. eexists. eexists. eexists. eexists. vm_compute. repeat split. Qed.
Print Assumptions c07_fast_array_remove_collection_refuted.

(** Without a destructor nothing is destroyed, by following the ledger. *)
Example c07_list_sample : exists s rs s' d, run list_interface true list_create sample = Some (s, rs) /\
  destroy list_interface true s = Some (s', d) /\ destroyed rs = [10; 30; 70; 40; 50; 20; 60] /\ d = [80].
Proof. eexists. eexists. eexists. eexists. vm_compute. repeat split. Qed.

Example c07_array_sample : exists s rs s' d, run array_interface true (array_create 2 true) sample = Some (s, rs) /\
  destroy array_interface true s = Some (s', d) /\ destroyed rs = [10; 30; 70; 40; 50; 20; 60] /\ d = [80].
Proof. eexists. eexists. eexists. eexists. vm_compute. repeat split. Qed.

(** ** C54 *)
(** An insertion that returns NULL changed nothing, and NULL is returned only when an allocation failed. *)
Lemma failed_insertion {A St} im (I : interface A St) (R : St -> ledger A -> Prop) (L : laws im I R) s0 : R s0 [] ->
  forall dtor (ops : list (op A)) s rs (o : op A), valid_run I im dtor s0 [] ops -> run I dtor s0 ops = Some (s, rs) ->
  valid im (ledger_after im [] ops rs) o -> is_insertion o = true ->
  exists s' e d, step I dtor s o = Some (s', REntry e, d) /\
    (e = 0 -> allocates o = false /\ d = [] /\
       exists xs es, step I dtor s Forward = Some (s, RElements xs, []) /\ step I dtor s' Forward = Some (s', RElements xs, []) /\
         step I dtor s AllEntries = Some (s, REntries es, []) /\ step I dtor s' AllEntries = Some (s', REntries es, [])).
Proof.
  intros R0 dtor ops s rs o V E Vo Io. destruct (run_facts _ _ _ L dtor _ _ _ _ _ R0 V E) as [_ R1].
  destruct (step_sim _ _ _ L dtor s _ o R1 Vo) as (s' & r & E2 & R2 & An).
  assert (Q : exists e, r = REntry e).
  { destruct An as [An|(_ & _ & ->)]; [|eauto]. destruct o; try discriminate Io; destruct An as (e & -> & _); eauto. }
  destruct Q as [e ->]. exists s', e. eexists. split; [exact E2|]. intros ->.
  assert (Al : allocates o = false).
  { destruct An as [An|(_ & Q & _)]; [|exact Q]. exfalso. pose proof (L_wf _ _ _ L s' _ R2) as (_ & Z & _).
    apply Z. destruct o; try discriminate Io; destruct An as (e & Q & An); injection Q as <-; eapply nth_error_In, An. }
  split; [exact Al|]. split.
  - unfold destroyed_by. destruct o; try discriminate Io; cbn [leaving]; now destruct (dtor && _)%bool.
  - assert (N : next im (ledger_after im [] ops rs) o (REntry 0) = ledger_after im [] ops rs) by (unfold next; now rewrite Io).
    rewrite N in R2. destruct (denotes_rep _ _ _ L dtor s _ R1) as (A1 & A2 & _). destruct (denotes_rep _ _ _ L dtor s' _ R2) as (B1 & B2 & _).
    eexists. eexists. split; [exact A1|]. split; [exact B1|]. split; [exact A2|exact B2].
Qed.

Theorem c54_fast_array_failed_insertion : forall (A : Type) chunk ok dtor (ops : list (op A)) s rs o,
  0 < chunk -> valid_run fast_interface FastArrayBacked dtor (fast_create chunk ok) [] ops ->
  run fast_interface dtor (fast_create chunk ok) ops = Some (s, rs) ->
  valid FastArrayBacked (ledger_after FastArrayBacked [] ops rs) o -> is_insertion o = true ->
  exists s' e d, step fast_interface dtor s o = Some (s', REntry e, d) /\
    (e = 0 -> allocates o = false /\ d = [] /\
       exists xs es, step fast_interface dtor s Forward = Some (s, RElements xs, []) /\ step fast_interface dtor s' Forward = Some (s', RElements xs, []) /\
         step fast_interface dtor s AllEntries = Some (s, REntries es, []) /\ step fast_interface dtor s' AllEntries = Some (s', REntries es, [])).
Proof. intros A chunk ok dtor ops s rs o Hc. exact (failed_insertion _ _ _ fast_laws _ (fast_create_rep chunk ok Hc) dtor ops s rs o). Qed.
Print Assumptions c54_fast_array_failed_insertion.

(** The linked list: every insertion but a replacement whose allocation fails (excluded by [valid]). *)
Theorem c54_list_failed_insertion_partial : forall (A : Type) dtor (ops : list (op A)) s rs o,
  valid_run list_interface ListBacked dtor list_create [] ops ->
  run list_interface dtor list_create ops = Some (s, rs) ->
  valid ListBacked (ledger_after ListBacked [] ops rs) o -> is_insertion o = true ->
  exists s' e d, step list_interface dtor s o = Some (s', REntry e, d) /\
    (e = 0 -> allocates o = false /\ d = [] /\
       exists xs es, step list_interface dtor s Forward = Some (s, RElements xs, []) /\ step list_interface dtor s' Forward = Some (s', RElements xs, []) /\
         step list_interface dtor s AllEntries = Some (s, REntries es, []) /\ step list_interface dtor s' AllEntries = Some (s', REntries es, [])).
Proof. intros A dtor ops s rs o. exact (failed_insertion _ _ _ list_laws _ list_create_rep dtor ops s rs o). Qed.
Print Assumptions c54_list_failed_insertion_partial.

Definition no_memory : alloc := mkAlloc false false.

Example c54_fast_array_ex : exists s rs s', run fast_interface false (fast_create 2 true) [Append 10 ok_alloc; Append 20 ok_alloc] = Some (s, rs) /\
  step fast_interface false s (InsertAt 30 1 no_memory) = Some (s', REntry 0, []).
Proof. eexists. eexists. eexists. vm_compute. split; reflexivity. Qed.

Example c54_list_ex : exists s rs s', run list_interface false list_create [Append 10 ok_alloc; Append 20 ok_alloc] = Some (s, rs) /\
  step list_interface false s (InsertAt 30 1 no_memory) = Some (s', REntry 0, []).
Proof. eexists. eexists. eexists. vm_compute. split; reflexivity. Qed.

(** A replacement in a list that runs out of memory returns NULL and removes (and destroys) the element after the one to
    replace. At the last index it fails an assertion. *)
Theorem c54_list_replace_refuted : exists s rs s' s'',
  run list_interface true list_create [Append 10 ok_alloc; Append 20 ok_alloc] = Some (s, rs) /\
  step list_interface true s (ReplaceAt 30 0 no_memory) = Some (s', REntry 0, [20]) /\
  step list_interface true s' Forward = Some (s'', RElements [10], []) /\
  step list_interface true s (ReplaceAt 30 1 no_memory) = None.
Proof. eexists. eexists. eexists. eexists. vm_compute. repeat split. Qed.
Print Assumptions c54_list_replace_refuted.

(** An array backed insertion whose array cannot grow returns an entry all the same; the entry denotes nothing, and
    reading through it fails an assertion. *)
Theorem c54_array_growth_refuted : exists s rs s' s'',
  run array_interface true (array_create 2 true) [Append 10 ok_alloc; Append 20 ok_alloc] = Some (s, rs) /\
  step array_interface true s (Append 30 (mkAlloc false true)) = Some (s', REntry 3, []) /\
  step array_interface true s' Forward = Some (s'', RElements [10; 20], []) /\
  step array_interface true s' (GetElement 3) = None.
Proof. eexists. eexists. eexists. eexists. vm_compute. repeat split. Qed.
Print Assumptions c54_array_growth_refuted.

(** One that cannot create the entry passes NULL to CCLinkedListInsert, an assertion; into an empty collection it returns
    NULL although the element was inserted. *)
Theorem c54_array_entry_refuted :
  (exists s rs, run array_interface true (array_create 2 true) [Append 10 ok_alloc] = Some (s, rs) /\
    step array_interface true s (Append 30 (mkAlloc true false)) = None) /\
  (exists s s', step array_interface true (array_create 2 true) (Append 10 (mkAlloc true false)) = Some (s, REntry 0, []) /\
    step array_interface true s Forward = Some (s', RElements [10], [])).
Proof. split; eexists; eexists; vm_compute; repeat split. Qed.
Print Assumptions c54_array_entry_refuted.
