(** Proofs about the queue model. *)
From Verif Require Import Base LinkedListModel LinkedListSpec LinkedListProofs QueueModel QueueSpec.

(** The heap list is the queue, newest first; other nodes are alone. *)
Definition qinv (s : heap * queue) (l : list addr) : Prop :=
  let '(h, q) := s in
  is_list h (rev l) /\ qhead q = hd_error (rev l) /\ qtail q = hd_error l /\
  qcount q = length l /\ (forall a, ~ In a l -> h a = Some (mkNode None None)).

Lemma qstep_sim fuel s l o :
  1 <= fuel -> qinv s l -> match o with Push n => ~ In n l | _ => True end ->
  exists s', qstep fuel s o = Some (s', snd (fifo_step l o)) /\ qinv s' (fst (fifo_step l o)).
Proof.
  destruct s as [h q]. intros Hf (HL & Hh & Ht & Hc & Hfree) Hv.
  destruct o as [n| | |]; cbn [qstep fifo_step fst snd].
  - (* push *)
    unfold qpush. rewrite Hh.
    assert (Hn : is_list h [n]).
    { apply is_list_seg. split; [repeat constructor; auto|]. cbn. rewrite Hfree; auto. }
    destruct (rev l) as [|x L2] eqn:El; cbn [hd_error] in *.
    + assert (l = []) as -> by (rewrite <- (rev_involutive l), El; reflexivity).
      cbn [hd_error] in Ht. rewrite Ht.
      eexists; split; [reflexivity|]. cbn [app]. refine (conj _ (conj _ (conj _ (conj _ _)))); try reflexivity.
      * exact Hn.
      * cbn [qcount length] in *. lia.
      * intros a Ha. apply Hfree. tauto.
    + destruct (insert_before_ok h [] x L2 [] n [] fuel) as (h' & E & HL' & U); auto.
      { intros a Ha [<-|[]]. apply Hv. apply in_rev. rewrite El. exact Ha. }
      rewrite E. eexists; split; [reflexivity|].
      assert (Hl : l <> []) by (intros ->; discriminate).
      refine (conj _ (conj _ (conj _ (conj _ _)))); cbn [qhead qtail qcount].
      * rewrite rev_app_distr, El. apply HL'.
      * rewrite rev_app_distr. reflexivity.
      * destruct l; [congruence|]. cbn [hd_error app] in *. rewrite Ht. reflexivity.
      * rewrite app_length. cbn. lia.
      * intros a Ha. rewrite U.
        -- apply Hfree. intros Hi; apply Ha; apply in_or_app; auto.
        -- cbn [app]. intros Hi. apply Ha. rewrite in_app_iff. cbn [In] in *. rewrite in_app_iff in Hi. cbn [In] in Hi.
           destruct Hi as [Hi|[Hi|[Hi|[]]]]; auto; left; apply in_rev; rewrite El; cbn; auto.
  - (* pop *)
    unfold qpop. rewrite Ht. destruct l as [|t l']; cbn [hd_error fst snd].
    + eexists; split; [reflexivity|]. refine (conj _ (conj _ (conj _ (conj _ _)))); auto.
    + cbn [rev] in HL, Hh.
      pose proof (proj1 (is_list_seg _ _) HL) as [ND SL].
      unfold get_prev. rewrite (seg_node _ _ _ _ _ _ SL). cbn [option_map prev].
      destruct (remove_node_ok h (rev l') t [] HL) as (h' & E & HL' & Ht' & U).
      rewrite E. eexists; split; [reflexivity|]. rewrite app_nil_r in HL'.
      assert (Elast : last_or (rev l') None = hd_error l').
      { destruct l' as [|b l']; cbn [rev hd_error]; auto. apply last_or_snoc. }
      refine (conj _ (conj _ (conj _ (conj _ _)))); cbn [qhead qtail qcount].
      * apply HL'.
      * rewrite Elast. destruct l' as [|b l']; [reflexivity|]. cbn [hd_error].
        rewrite Hh. cbn [rev]. destruct (rev l'); reflexivity.
      * exact Elast.
      * cbn [length] in Hc. lia.
      * intros a Ha. destruct (Nat.eq_dec a t) as [->|Hne].
        -- apply is_list_seg in Ht'. apply Ht'.
        -- rewrite U; [apply Hfree; intros [|]; congruence|].
           intros Hi. apply in_app_or in Hi. destruct Hi as [Hi|[Hi|[]]]; [|congruence].
           apply in_rev in Hi. auto.
  - eexists; split; [unfold qpeek; rewrite Ht; reflexivity|]. refine (conj _ (conj _ (conj _ (conj _ _)))); auto.
  - eexists; split; [rewrite Hc; reflexivity|]. refine (conj _ (conj _ (conj _ (conj _ _)))); auto.
Qed.

Lemma qrun_sim fuel ops : forall s l,
  1 <= fuel -> qinv s l -> fifo_valid l ops ->
  exists s', qrun fuel s ops = Some (s', snd (fifo_run l ops)) /\ qinv s' (fst (fifo_run l ops)).
Proof.
  induction ops as [|o t IH]; intros s l Hf Hi Hv; cbn [qrun fifo_run fifo_valid] in *.
  - eauto.
  - destruct Hv as [Hv1 Hv2].
    destruct (qstep_sim fuel s l o Hf Hi Hv1) as (s1 & E1 & Hi1). rewrite E1.
    destruct (fifo_step l o) as [l1 r]. cbn [fst snd] in *.
    destruct (IH s1 l1 Hf Hi1 Hv2) as (s2 & E2 & Hi2). rewrite E2.
    destruct (fifo_run l1 t) as [l2 rs]. cbn [fst snd] in *. eauto.
Qed.

Lemma qinv_init : qinv (fresh_nodes, qcreate) [].
Proof.
  repeat split; auto; try constructor. intros i a Hi. destruct i; discriminate.
Qed.

Lemma qwalk_ok h : forall l2 l1 fuel, is_list h (rev (l1 ++ l2)) -> length l2 <= fuel ->
  qwalk fuel h (hd_error l2) = Some l2.
Proof.
  induction l2 as [|a t IH]; intros l1 fuel HL Hf.
  - destruct fuel; reflexivity.
  - destruct fuel as [|f]; cbn [length] in Hf; [lia|]. cbn [hd_error qwalk]. unfold get_prev.
    pose proof (proj1 (is_list_seg _ _) HL) as [_ SL].
    rewrite rev_app_distr in SL. cbn [rev] in SL. rewrite <- app_assoc in SL. cbn [app] in SL.
    rewrite (seg_node _ _ _ _ _ _ SL). cbn [option_map prev].
    assert (E : last_or (rev t) None = hd_error t).
    { destruct t; cbn [rev hd_error]; auto. apply last_or_snoc. }
    rewrite E. rewrite (IH (l1 ++ [a])); [reflexivity| |lia]. rewrite <- app_assoc. exact HL.
Qed.

Lemma queue_fifo fuel ops :
  1 <= fuel -> fifo_valid [] ops ->
  exists h q, qrun fuel (fresh_nodes, qcreate) ops = Some ((h, q), snd (fifo_run [] ops)) /\
    forall wf, length (fst (fifo_run [] ops)) <= wf ->
      qwalk wf h (qtail q) = Some (fst (fifo_run [] ops)).
Proof.
  intros Hf Hv. destruct (qrun_sim fuel ops _ _ Hf qinv_init Hv) as ([h q] & E & HI).
  exists h, q. split; auto. intros wf Hwf. destruct HI as (HL & Hh & Ht & _). rewrite Ht.
  apply (qwalk_ok h _ []); auto.
Qed.
