(** The linked list implementation obeys the laws. *)
From Verif Require Import Base CollectionModel CollectionSpec CollectionLedgerProofs CollectionGenericProofs.
From Verif Require LinkedListModel LinkedListSpec LinkedListProofs CollectionArrayProofs.
From Coq Require Import Permutation.

Section L.
Context {A : Type}.
Implicit Types (l : ledger A) (s : @lcoll A).
Local Notation is_list := LinkedListSpec.is_list.
Local Notation get_next := LinkedListModel.get_next.
Local Notation get_prev := LinkedListModel.get_prev.

(** The chain of nodes: the sentinel, then the entries. *)
Definition chain s (es : list nat) : Prop :=
  is_list (l_heap s) (l_sentinel s :: es) /\
  l_end s = nth_error es (length es - 1) /\ l_count s = length es /\
  (forall e, In e (l_sentinel s :: es) -> 0 < e < l_fresh s).

Definition list_rep s l : Prop := chain s (entries l) /\ forall e x, In (e, x) l -> l_data s e = Some x.

Lemma chain_next s es i e : chain s es -> nth_error es i = Some e -> get_next (l_heap s) e = Some (nth_error es (i + 1)).
Proof.
  intros ((_ & H) & _) E. unfold LinkedListModel.get_next. rewrite (H (S i) e E). reflexivity.
Qed.

Lemma chain_first s es : chain s es -> get_next (l_heap s) (l_sentinel s) = Some (nth_error es 0).
Proof.
  intros ((_ & H) & _). unfold LinkedListModel.get_next. rewrite (H 0 _ eq_refl). reflexivity.
Qed.

Lemma chain_prev s es i e : chain s es -> nth_error es i = Some e -> get_prev (l_heap s) e = Some (nth_error (l_sentinel s :: es) i).
Proof.
  intros ((_ & H) & _) E. unfold LinkedListModel.get_prev. rewrite (H (S i) e E). reflexivity.
Qed.

Lemma chain_prev_first s es : chain s es -> get_prev (l_heap s) (l_sentinel s) = Some None.
Proof.
  intros ((_ & H) & _). unfold LinkedListModel.get_prev. rewrite (H 0 _ eq_refl). reflexivity.
Qed.

Lemma chain_nodup s es : chain s es -> NoDup es /\ ~ In (l_sentinel s) es.
Proof. intros ((D & _) & _). inversion_clear D. auto. Qed.

Lemma chain_length s es : chain s es -> length es + 1 < l_fresh s.
Proof.
  intros ((D & _) & _ & _ & B).
  destruct (CollectionArrayProofs.bounded_length (l_sentinel s :: es) (l_fresh s) D B) as [H|H]; [cbn in H; lia|discriminate].
Qed.

(** ** Walks *)
Lemma walk_next s es : chain s es -> forall k i, walk (get_next (l_heap s)) k (nth_error es i) = Some (nth_error es (i + k)).
Proof.
  intros C. induction k as [|k IH]; intros i.
  - rewrite Nat.add_0_r. destruct (nth_error es i); reflexivity.
  - cbn [walk]. destruct (nth_error es i) as [e|] eqn:E.
    + rewrite (chain_next s es i e C E). rewrite IH. do 2 f_equal. lia.
    + apply nth_error_None in E. rewrite (proj2 (nth_error_None es (i + S k))) by lia. reflexivity.
Qed.

Lemma walk_prev s es : chain s es -> forall k i, k <= i -> i < length es ->
  walk (get_prev (l_heap s)) k (nth_error es i) = Some (nth_error es (i - k)).
Proof.
  intros C. induction k as [|k IH]; intros i Hk Hi.
  - rewrite Nat.sub_0_r. destruct (nth_error es i); reflexivity.
  - cbn [walk]. destruct (nth_error es i) as [e|] eqn:E.
    + rewrite (chain_prev s es i e C E). destruct i as [|i]; [lia|]. cbn [nth_error]. rewrite IH by lia. reflexivity.
    + apply nth_error_None in E. lia.
Qed.

Lemma list_entry_ok s es i : chain s es -> i <= length es -> list_entry s i = Some (nth_error es i).
Proof.
  intros C Hi. unfold list_entry. pose proof C as (_ & En & Co & _). rewrite Co.
  destruct (Nat.leb_spec i (length es / 2)) as [Q|Q].
  - rewrite (chain_first s es C). now rewrite (walk_next s es C i 0).
  - destruct (Nat.eqb_spec (length es) i) as [<-|N]; cbn [negb].
    + now rewrite (proj2 (nth_error_None es (length es))) by lia.
    + rewrite En, (walk_prev s es C) by lia. do 2 f_equal. lia.
Qed.

(** ** Insertion *)
Lemma chain_new_node s es x : chain s es -> chain (list_new_node s x) es /\
  is_list (l_heap (list_new_node s x)) [l_fresh s] /\ ~ In (l_fresh s) (l_sentinel s :: es).
Proof.
  intros (H & En & Co & B). assert (N : ~ In (l_fresh s) (l_sentinel s :: es)) by (intros Q; destruct (B _ Q); lia).
  split; [|split; [|exact N]].
  - split; [|split; [exact En|split; [exact Co|]]].
    + apply (LinkedListProofs.is_list_frame (l_heap s)); [exact H|]. intros a Ha. apply LinkedListProofs.hset_ne. intros ->. contradiction.
    + intros e He. cbn [list_new_node l_fresh]. destruct (B e He). lia.
  - apply LinkedListProofs.is_list_seg. split; [repeat constructor; auto|]. cbn. split; auto. apply LinkedListProofs.hset_eq.
Qed.

Lemma nth_last (es : list nat) n : nth_error (es ++ [n]) (length (es ++ [n]) - 1) = Some n.
Proof. rewrite app_length. cbn [length]. rewrite nth_error_app2 by lia. replace (length es + 1 - 1 - length es) with 0 by lia. reflexivity. Qed.

Lemma append_node_ok s es n : chain s es -> is_list (l_heap s) [n] -> ~ In n (l_sentinel s :: es) -> 0 < n < l_fresh s ->
  exists s', list_append_node s n = Some s' /\ chain (list_set_count s' (l_count s' + 1)) (es ++ [n]) /\ l_data s' = l_data s.
Proof.
  intros C Hn N Bn. pose proof (chain_length s es C) as Len. destruct C as (H & En & Co & B). unfold list_append_node.
  set (e0 := match l_end s with Some e => e | None => l_sentinel s end).
  assert (Q : exists L1, l_sentinel s :: es = L1 ++ e0 :: []).
  { unfold e0. rewrite En. destruct (LinkedListProofs.snoc_of (l_sentinel s :: es)) as (M & z & EQ); [discriminate|].
    exists M. rewrite EQ. do 2 f_equal. destruct es as [|a t] using rev_ind.
    - destruct M as [|m M]; [now injection EQ|]. injection EQ as _ EQ. destruct M; discriminate.
    - rewrite nth_last. rewrite app_comm_cons in EQ. apply app_inj_tail in EQ as [_ EQ]. congruence. }
  destruct Q as (L1 & EQ).
  destruct (LinkedListProofs.append_ok (l_heap s) L1 e0 [] [] n [] 2 (l_fresh s)) as (h' & E & R & _).
  - exact (eq_ind _ (is_list (l_heap s)) H _ EQ).
  - exact Hn.
  - intros a Ha [->|[]]. apply N. exact (eq_ind_r (In a) Ha EQ).
  - refine (eq_ind _ (fun K : list nat => length K <= _) _ _ EQ). cbn [length]. lia.
  - cbn. lia.
  - lia.
  - rewrite E. eexists. split; [reflexivity|]. split; [|reflexivity]. split; [|split; [|split]].
    + cbn [list_set_count l_heap l_sentinel]. exact (eq_ind_r (fun K : list nat => is_list h' (K ++ [n])) R EQ).
    + cbn [list_set_count l_end]. now rewrite nth_last.
    + cbn [list_set_count l_count]. rewrite app_length. cbn [length]. lia.
    + cbn [list_set_count l_sentinel l_fresh]. intros e He. rewrite app_comm_cons in He. apply in_app_or in He as [He|[<-|[]]]; auto.
Qed.

Lemma insert_node_ok s es n i nx : chain s es -> is_list (l_heap s) [n] -> ~ In n (l_sentinel s :: es) -> 0 < n < l_fresh s ->
  nth_error es i = Some nx ->
  exists h', LinkedListModel.insert_before (l_fresh s) (l_heap s) nx n = Some (h', n) /\
    chain (mkLcoll (l_sentinel s) (l_end s) (l_count s + 1) h' (l_data s) (l_fresh s)) (insert_at es i [n]).
Proof.
  intros C Hn N Bn Hi. pose proof (chain_length s es C) as Len. destruct C as (H & En & Co & B).
  destruct (nth_error_split es i Hi) as (L1 & L2 & EQ & Ei).
  destruct (LinkedListProofs.insert_before_ok (l_heap s) (l_sentinel s :: L1) nx L2 [] n [] (l_fresh s)) as (h' & E & R & _).
  - rewrite EQ in H. exact H.
  - exact Hn.
  - intros a Ha [->|[]]. apply N. rewrite EQ. exact Ha.
  - cbn. lia.
  - assert (I : insert_at es i [n] = L1 ++ n :: nx :: L2).
    { unfold insert_at. rewrite EQ, <- Ei, firstn_app, Nat.sub_diag, firstn_all. cbn [firstn]. rewrite app_nil_r, skipn_app, skipn_all, Nat.sub_diag. reflexivity. }
    exists h'. split; [exact E|]. rewrite I. split; [exact R|]. split; [|split].
    + cbn [l_end]. rewrite En, EQ. rewrite !app_length. cbn [length].
      rewrite !nth_error_app2 by lia.
      replace (length L1 + S (length L2) - 1 - length L1) with (length L2) by lia.
      replace (length L1 + S (S (length L2)) - 1 - length L1) with (S (length L2)) by lia. reflexivity.
    + cbn [l_count]. rewrite Co, EQ, !app_length. cbn [length]. lia.
    + cbn [l_sentinel l_fresh]. intros e [<-|He]; [apply B; now left|]. apply in_app_or in He as [He|[<-|He]]; auto.
      * apply B. right. rewrite EQ. apply in_or_app. now left.
      * apply B. right. rewrite EQ. apply in_or_app. now right.
Qed.

Lemma list_wf s l : list_rep s l -> well_formed ListBacked l.
Proof.
  intros [C _]. destruct (chain_nodup _ _ C) as [D _]. destruct C as (_ & _ & _ & B).
  split; [exact D|]. split; [|discriminate]. intros H. destruct (B 0 (or_intror H)). lia.
Qed.

Lemma data_inserted s l i x : list_rep s l ->
  forall e y, In (e, y) (insert_at l i [(l_fresh s, x)]) -> l_data (list_new_node s x) e = Some y.
Proof.
  intros [(_ & _ & _ & B) D] e y H. cbn [list_new_node l_data]. unfold insert_at in H.
  assert (Old : In (e, y) l -> (if e =? l_fresh s then Some x else l_data s e) = Some y).
  { intros Q. destruct (Nat.eqb_spec e (l_fresh s)) as [->|_]; [|now apply D].
    apply (in_map fst) in Q. destruct (B (l_fresh s) (or_intror Q)). lia. }
  apply in_app_or in H as [H|H].
  - apply Old. rewrite <- (firstn_skipn i l). apply in_or_app. now left.
  - destruct H as [H|H].
    + injection H as <- <-. now rewrite Nat.eqb_refl.
    + apply Old. rewrite <- (firstn_skipn i l). apply in_or_app. now right.
Qed.

Lemma list_inserted s s' l i x al : list_rep s l -> i <= length l -> chain s' (insert_at (entries l) i [l_fresh s]) ->
  l_data s' = l_data (list_new_node s x) -> inserted ListBacked list_rep l i x al (Some (s', l_fresh s)).
Proof.
  intros R Hi C Ed. pose proof (chain_length _ _ (proj1 R)) as P. exists s', (l_fresh s). split; [reflexivity|]. left. split; [lia|].
  cbn [renew]. rewrite fill_insert. split.
  - split; [unfold entries; rewrite map_insert_at; exact C|]. rewrite Ed. now apply data_inserted.
  - unfold entries. rewrite map_insert_at. cbn [map fst].
    rewrite CollectionArrayProofs.nth_insert1 by (now rewrite map_length).
    destruct (Nat.ltb_spec i i); [lia|]. now rewrite Nat.eqb_refl.
Qed.

Lemma list_not_inserted s l i x al : list_rep s l -> node_ok al = false -> inserted ListBacked list_rep l i x al (Some (s, 0)).
Proof.
  intros R E. exists s, 0. split; [reflexivity|]. right. split; [reflexivity|]. split; [|exact R].
  unfold good. now rewrite E, andb_false_r.
Qed.

Lemma list_insert_ok s l x al : list_rep s l -> inserted ListBacked list_rep l (length l) x al (list_insert s x al).
Proof.
  intros R. unfold list_insert. destruct (node_ok al) eqn:EA; [|now apply list_not_inserted].
  destruct (chain_new_node s (entries l) x (proj1 R)) as (C & Hn & N).
  pose proof (chain_length _ _ (proj1 R)) as P.
  destruct (append_node_ok (list_new_node s x) (entries l) (l_fresh s) C Hn N) as (s' & E & C' & Ed).
  { cbn [list_new_node l_fresh]. lia. }
  rewrite E. apply list_inserted; auto.
  rewrite <- (map_length fst l) at 1. rewrite insert_at_end. exact C'.
Qed.

Lemma list_insert_at_ok s l x i al : list_rep s l -> i <= length l -> inserted ListBacked list_rep l i x al (list_insert_at s x i al).
Proof.
  intros R Hi. unfold list_insert_at. destruct (node_ok al) eqn:EA; [|now apply list_not_inserted].
  destruct (chain_new_node s (entries l) x (proj1 R)) as (C & Hn & N).
  pose proof (chain_length _ _ (proj1 R)) as P.
  assert (LN : length (entries l) = length l) by apply map_length.
  rewrite (list_entry_ok _ _ i C) by lia.
  destruct (nth_error (entries l) i) as [nx|] eqn:En.
  - destruct (insert_node_ok (list_new_node s x) (entries l) (l_fresh s) i nx C Hn N) as (h' & E & C').
    { cbn [list_new_node l_fresh]. lia. }
    { exact En. }
    rewrite E. apply list_inserted; auto.
  - apply nth_error_None in En. assert (i = length l) by lia. subst i.
    destruct (append_node_ok (list_new_node s x) (entries l) (l_fresh s) C Hn N) as (s' & E & C' & Ed).
    { cbn [list_new_node l_fresh]. lia. }
    rewrite E. apply list_inserted; auto.
    rewrite <- LN at 1. rewrite insert_at_end. exact C'.
Qed.

(** ** Removal *)
Lemma list_remove_ok s l i e : list_rep s l -> nth_error (entries l) i = Some e ->
  exists s', list_remove s e = Some s' /\ list_rep s' (remove_at l i 1).
Proof.
  intros [C Da] Hi. unfold list_remove. rewrite (chain_next s _ i e C Hi).
  pose proof (nth_error_Some_lt _ _ _ Hi) as Lt. set (es := entries l) in *.
  match goal with |- exists s', match ?x with _ => _ end = _ /\ _ => set (en := x) end.
  assert (En : en = Some (nth_error (remove_at es i 1) (length (remove_at es i 1) - 1))).
  { rewrite remove_at_length by lia. rewrite CollectionArrayProofs.nth_remove1. unfold en.
    destruct (nth_error es (i + 1)) as [nx|] eqn:Ex.
    - apply nth_error_Some_lt in Ex. destruct C as (_ & -> & _). destruct (Nat.ltb_spec (length es - 1 - 1) i); [lia|].
      do 2 f_equal. lia.
    - apply nth_error_None in Ex. rewrite (chain_prev s es i e C Hi). destruct i as [|i]; cbn [nth_error].
      + rewrite (chain_prev_first s es C). destruct (Nat.ltb_spec (length es - 1 - 1) 0); [lia|].
        now rewrite (proj2 (nth_error_None es _)) by lia.
      + destruct (nth_error_lt_Some es i) as [p Hp]; [lia|]. rewrite Hp, (chain_prev s es i p C Hp).
        destruct (nth_error_lt_Some (l_sentinel s :: es) i) as [q Hq]; [cbn; lia|]. rewrite Hq.
        destruct (Nat.ltb_spec (length es - 1 - 1) (S i)); [|lia]. replace (length es - 1 - 1) with i by lia. now rewrite Hp. }
  rewrite En. destruct C as (H & _ & Co & B).
  destruct (nth_error_split es i Hi) as (L1 & L2 & EQ & Ei).
  assert (I : remove_at es i 1 = L1 ++ L2).
  { unfold remove_at. rewrite EQ, <- Ei, firstn_app, Nat.sub_diag, firstn_all. cbn [firstn]. rewrite app_nil_r, skipn_app, skipn_all2 by lia.
    replace (length L1 + 1 - length L1) with 1 by lia. reflexivity. }
  pose proof H as H1. rewrite EQ in H1.
  destruct (LinkedListProofs.remove_node_ok (l_heap s) (l_sentinel s :: L1) e L2 H1) as (h1 & E1 & R1 & R2 & _).
  unfold LinkedListModel.destroy_node. rewrite E1. unfold LinkedListModel.free_node. rewrite (proj2 R2 0 e eq_refl).
  eexists. split; [reflexivity|]. split; [split; [|split; [|split]]|].
  - cbn [l_heap l_sentinel]. unfold entries. rewrite map_remove_at. fold (entries l). fold es. rewrite I.
    apply (LinkedListProofs.is_list_frame h1); [exact R1|]. intros a Ha. apply LinkedListProofs.hset_ne. intros ->.
    destruct H1 as [D1 _]. rewrite app_comm_cons in D1. apply NoDup_remove_2 in D1. contradiction.
  - cbn [l_end]. unfold entries. rewrite map_remove_at. reflexivity.
  - cbn [l_count]. unfold entries. rewrite map_remove_at. fold (entries l). fold es. rewrite remove_at_length by lia. lia.
  - cbn [l_sentinel l_fresh]. unfold entries. rewrite map_remove_at. fold (entries l). fold es. rewrite I.
    intros b Hb. apply B. rewrite EQ. destruct Hb as [<-|Hb]; [now left|]. right. apply in_app_or in Hb as [Hb|Hb]; apply in_or_app; [now left|]. right. now right.
  - cbn [l_data]. intros b y Hb. apply Da. unfold remove_at in Hb. apply in_app_or in Hb as [Hb|Hb].
    + rewrite <- (firstn_skipn i l). apply in_or_app. now left.
    + rewrite <- (firstn_skipn (i + 1) l). apply in_or_app. now right.
Qed.

Lemma list_element_ok s l i e x : list_rep s l -> nth_error l i = Some (e, x) -> list_element s e = Some x.
Proof.
  intros [C D] H. unfold list_element. assert (He : nth_error (entries l) i = Some e) by (unfold entries; now rewrite nth_error_map, H).
  destruct C as ((_ & Q) & _). rewrite (Q (S i) e He). apply D. eapply nth_error_In, H.
Qed.

(** What the enumerator returns once it stands at node [nth_error (entries l) i]. *)
Lemma stand s l i : list_rep s l ->
  match nth_error (entries l) i with
  | None => Some (Internal None, None)
  | Some n => let? x := list_element s n in Some (Internal (Some n), Some x)
  end = Some (Internal (nth_error (entries l) i), nth_error (elements l) i).
Proof.
  intros R. unfold entries, elements. rewrite !nth_error_map. destruct (nth_error l i) as [[e x]|] eqn:E; [|reflexivity].
  cbn [option_map fst snd]. now rewrite (list_element_ok s l i e x R E).
Qed.

Lemma search_ok s es e i : chain s es -> nth_error es i = Some e -> forall k j fuel, j + k = i -> k < fuel ->
  list_search fuel (l_heap s) (nth_error es j) e j = Some (Z.of_nat i).
Proof.
  intros C Hi. destruct (chain_nodup s es C) as [D _]. induction k as [|k IH]; intros j fuel E F; (destruct fuel as [|fuel]; [lia|]).
  - rewrite Nat.add_0_r in E. subst j. rewrite Hi. cbn [list_search]. now rewrite Nat.eqb_refl.
  - destruct (nth_error_lt_Some es j) as [b Hb]; [pose proof (nth_error_Some_lt _ _ _ Hi); lia|]. rewrite Hb. cbn [list_search].
    destruct (Nat.eqb_spec b e) as [->|N].
    + exfalso. rewrite NoDup_nth_error in D. pose proof (D j i (nth_error_Some_lt _ _ _ Hb) ltac:(congruence)). lia.
    + rewrite (chain_next s es j b C Hb). apply IH; lia.
Qed.

Lemma list_laws : laws ListBacked list_interface list_rep.
Proof.
  assert (LN : forall l, length (entries l) = length l) by (intros; apply map_length).
  constructor.
  - exact list_wf.
  - intros s l [(_ & _ & Co & _) _]. cbn [i_count list_interface]. now rewrite Co, LN.
  - intros s l x al R _. now apply list_insert_ok.
  - intros s l x i al R _ Hi. now apply list_insert_at_ok.
  - discriminate.
  - reflexivity.
  - intros s l e R He. destruct (In_nth_error _ _ He) as [i Hi]. destruct (list_remove_ok s l i e R Hi) as (s' & E & R').
    exists s'. split; auto. cbn [renew]. rewrite fill_keep. pose proof (list_wf s l R) as (D & _). now rewrite (without_at l i e D Hi).
  - intros s l e x R H. pose proof (lookup_in l e x H) as Q. destruct (In_nth_error _ _ Q) as [i Hi]. exact (list_element_ok s l i e x R Hi).
  - intros s l e0 R. cbn [i_enumerator list_interface]. unfold list_enumerator. rewrite (chain_first s _ (proj1 R)).
    pose proof (stand s l 0 R) as S0.
    exists (Internal (nth_error (entries l) 0)). split; [|split].
    + destruct e0; exact S0.
    + reflexivity.
    + intros ->. reflexivity.
  - intros s l e0 R. cbn [i_enumerator list_interface]. unfold list_enumerator. pose proof (proj1 R) as (_ & En & _).
    rewrite En, LN. exists (Internal (nth_error (entries l) (length l - 1))). split; [|reflexivity].
    destruct e0; apply (stand s l (length l - 1) R).
  - intros s l i R Hi. cbn [i_enumerator list_interface at_pos]. unfold list_enumerator. apply (stand s l i R).
  - intros s l i R Hi. cbn [i_enumerator list_interface at_pos]. unfold list_enumerator.
    destruct (nth_entries l i Hi) as (e & x & _ & He & _). rewrite He, (chain_next s _ i e (proj1 R) He).
    exists (Internal (nth_error (entries l) (i + 1))). split; [apply (stand s l (i + 1) R)|reflexivity].
  - intros s l i R Hi. cbn [i_enumerator list_interface at_pos]. unfold list_enumerator.
    destruct (nth_entries l i Hi) as (e & x & _ & He & _). rewrite He, (chain_prev s _ i e (proj1 R) He).
    destruct i as [|i]; cbn [nth_error].
    + rewrite Nat.eqb_refl. exists (Internal None). split; [reflexivity|lia].
    + destruct (nth_entries l i ltac:(lia)) as (p & y & _ & Hp & _). rewrite Hp.
      destruct (Nat.eqb_spec p (l_sentinel s)) as [->|N].
      { exfalso. apply (chain_nodup s _ (proj1 R)). eapply nth_error_In, Hp. }
      cbn [Nat.eqb]. replace (S i - 1) with i by lia. exists (Internal (Some p)).
      pose proof (stand s l i R) as Q. rewrite Hp in Q. rewrite Hp. split; [exact Q|reflexivity].
  - intros s l i e R H. cbn [i_enumerator_entry list_interface at_pos]. now rewrite H.
  - intros s l R. cbn [i_destroy list_interface]. unfold list_destroy. pose proof (chain_length s _ (proj1 R)) as P.
    destruct (LinkedListProofs.destroy_ok (entries l) (l_heap s) [] (l_sentinel s) (l_fresh s)) as (h' & Q & _).
    + apply R.
    + change (S (length (entries l)) <= l_fresh s). lia.
    + setoid_rewrite Q. eauto.
  - discriminate.
  - discriminate.
  - intros s l i e R H. cbn [o_entry list_interface]. rewrite (list_entry_ok s _ i (proj1 R)) by (apply Nat.lt_le_incl; eapply nth_error_Some_lt, H).
    now rewrite H.
  - intros s l i e R H. cbn [o_index list_interface]. unfold list_index. rewrite (chain_next s _ i e (proj1 R) H).
    pose proof (nth_error_Some_lt _ _ _ H) as Lt. rewrite LN in Lt. pose proof (chain_length s _ (proj1 R)) as P. rewrite LN in P.
    destruct (nth_error (entries l) (i + 1)) as [nx|] eqn:E.
    + rewrite (chain_first s _ (proj1 R)). apply (search_ok s _ e i (proj1 R) H i 0); lia.
    + apply nth_error_None in E. pose proof (proj1 R) as (_ & _ & Co & _). rewrite Co, LN in *. f_equal. lia.
  - reflexivity.
  - discriminate.
  - discriminate.
  - intros f Hf. injection Hf as <-. intros s l R N. pose proof (proj1 R) as (_ & En & _). rewrite En.
    rewrite (last_nth_error (entries l) 0); [reflexivity|]. destruct l; [congruence|discriminate].
  - intros f Hf. injection Hf as <-. intros s l R N. unfold list_remove_last. pose proof (proj1 R) as (_ & En & _). rewrite En.
    assert (Ne : entries l <> []) by (destruct l; [congruence|discriminate]).
    pose proof (last_nth_error (entries l) 0 Ne) as Q. rewrite Q.
    destruct (list_remove_ok s l _ _ R Q) as (s' & E & R'). exists s'. split; auto.
    cbn [renew]. rewrite fill_keep, removelast_remove_at. now rewrite <- LN.
Qed.

Lemma list_create_rep : list_rep (@list_create A) [].
Proof.
  split; [|intros e x []]. split; [|split; [reflexivity|split; [reflexivity|]]].
  - split; [repeat constructor; auto|]. intros [|[|i]] a H; try discriminate. injection H as <-. reflexivity.
  - intros e [<-|[]]. cbn. lia.
Qed.

End L.
