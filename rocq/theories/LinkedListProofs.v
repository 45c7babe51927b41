(** Proofs about the linked list model. *)
From Verif Require Import Base LinkedListModel LinkedListSpec.

(** A segment: [p] is the node before it, [q] the node after it. *)
Fixpoint seg (h : heap) (p : option addr) (l : list addr) (q : option addr) : Prop :=
  match l with
  | [] => True
  | a :: t => h a = Some (mkNode (match t with [] => q | b :: _ => Some b end) p) /\
              seg h (Some a) t q
  end.

Definition hd_or (l : list addr) (q : option addr) := match l with [] => q | a :: _ => Some a end.
Fixpoint last_or (l : list addr) (p : option addr) :=
  match l with [] => p | a :: t => last_or t (Some a) end.

Lemma last_or_app l1 l2 p : last_or (l1 ++ l2) p = last_or l2 (last_or l1 p).
Proof. revert p; induction l1; cbn; auto. Qed.

Lemma seg_app h l1 : forall p l2 q,
  seg h p (l1 ++ l2) q <-> seg h p l1 (hd_or l2 q) /\ seg h (last_or l1 p) l2 q.
Proof.
  induction l1 as [|a t IH]; intros p l2 q; cbn [seg app last_or].
  - tauto.
  - rewrite IH. destruct t as [|b t]; cbn [app hd_or]; [destruct l2; cbn [hd_or]|]; tauto.
Qed.

Lemma seg_frame h h' l : forall p q,
  seg h p l q -> (forall a, In a l -> h' a = h a) -> seg h' p l q.
Proof.
  induction l as [|a t IH]; intros p q H Hf; cbn [seg] in *; auto.
  destruct H as [H1 H2]. split.
  - rewrite Hf; [exact H1|left; auto].
  - apply IH; auto. intros b Hb. apply Hf. right; auto.
Qed.

Lemma seg_index h l : forall p q,
  seg h p l q <->
  forall i a, nth_error l i = Some a ->
    h a = Some (mkNode (match nth_error l (i + 1) with Some b => Some b | None => q end)
                       (match i with 0 => p | S j => nth_error l j end)).
Proof.
  induction l as [|b t IH]; intros p q; cbn [seg].
  - split; auto. intros _ i a Hi. destruct i; discriminate.
  - rewrite IH. split.
    + intros [H1 H2] i a Hi. destruct i as [|i].
      * injection Hi as <-. cbn. rewrite H1. destruct t; reflexivity.
      * cbn in Hi. rewrite (H2 _ _ Hi). cbn [Nat.add nth_error].
        f_equal. f_equal. destruct i; reflexivity.
    + intros H. split.
      * rewrite (H 0 b eq_refl). cbn. destruct t; reflexivity.
      * intros i a Hi. rewrite (H (S i) a Hi). cbn [Nat.add nth_error].
        f_equal. f_equal. destruct i; reflexivity.
Qed.

Lemma is_list_seg h l : is_list h l <-> NoDup l /\ seg h None l None.
Proof.
  unfold is_list. rewrite seg_index. split; intros [H1 H2]; split; auto; intros i a Hi;
    rewrite (H2 _ _ Hi); f_equal; f_equal; destruct (nth_error l (i + 1)); auto.
Qed.

Lemma hset_eq h a n : hset h a n a = n.
Proof. unfold hset. rewrite Nat.eqb_refl. reflexivity. Qed.

Lemma hset_ne h a n b : b <> a -> hset h a n b = h b.
Proof. intros H. unfold hset. destruct (Nat.eqb_spec b a); congruence. Qed.

Lemma hd_or_snoc l z q : hd_or (l ++ [z]) q <> None.
Proof. destruct l; discriminate. Qed.

(** Changing the successor of a segment's last node. *)
Lemma set_next_last h l z p q q' :
  seg h p (l ++ [z]) q -> ~ In z l ->
  exists h', set_next h z q' = Some h' /\ seg h' p (l ++ [z]) q' /\ forall a, a <> z -> h' a = h a.
Proof.
  intros H Hz. apply seg_app in H. destruct H as [H1 H2].
  cbn [seg hd_or] in *. destruct H2 as [H2 _].
  unfold set_next. rewrite H2. cbn [prev]. eexists; split; [reflexivity|]. split.
  - apply seg_app. split.
    + cbn [hd_or]. eapply seg_frame; [exact H1|]. intros a Ha. apply hset_ne. congruence.
    + cbn [seg]. rewrite hset_eq. auto.
  - intros a Ha. apply hset_ne; auto.
Qed.

(** Changing the predecessor of a segment's first node. *)
Lemma set_prev_first h l z p p' q :
  seg h p (z :: l) q -> ~ In z l ->
  exists h', set_prev h z p' = Some h' /\ seg h' p' (z :: l) q /\ forall a, a <> z -> h' a = h a.
Proof.
  intros H Hz. cbn [seg] in *. destruct H as [H1 H2].
  unfold set_prev. rewrite H1. cbn [next]. eexists; split; [reflexivity|]. split.
  - rewrite hset_eq. split; auto. eapply seg_frame; [exact H2|].
    intros a Ha. apply hset_ne. congruence.
  - intros a Ha. apply hset_ne; auto.
Qed.

Lemma get_tail_seg h : forall l p q a fuel,
  seg h p (a :: l) q -> q = None -> length (a :: l) <= fuel ->
  get_tail fuel h a = last_or l (Some a).
Proof.
  induction l as [|b t IH]; intros p q a fuel H Hq Hf; destruct fuel as [|f]; cbn [length] in *; try lia;
    cbn [get_tail]; unfold get_next; cbn [seg] in H; destruct H as [H1 H2]; rewrite H1; cbn [option_map next].
  - rewrite Hq. reflexivity.
  - cbn [last_or]. eapply IH; eauto. cbn [length]. lia.
Qed.

Lemma get_head_seg h : forall l p a q fuel,
  seg h p (l ++ [a]) q -> p = None -> length (l ++ [a]) <= fuel ->
  get_head fuel h a = hd_or (l ++ [a]) None.
Proof.
  intros l. induction l as [|b t IH] using rev_ind; intros p a q fuel H Hp Hf;
    destruct fuel as [|f]; try (rewrite app_length in Hf; cbn [length] in Hf; lia);
    cbn [get_head]; unfold get_prev.
  - cbn [app seg] in H. destruct H as [H1 _]. rewrite H1, Hp. reflexivity.
  - apply seg_app in H. destruct H as [H1 [H2 _]]. rewrite H2. cbn [option_map prev].
    rewrite last_or_app. cbn [last_or]. erewrite IH; [|exact H1|exact Hp|].
    + destruct t; reflexivity.
    + rewrite !app_length in *. cbn [length] in *. lia.
Qed.

(** The relative position of a node inside its list does not matter to GetHead / GetTail. *)
Lemma tail_of h N1 y N2 fuel :
  seg h None (N1 ++ y :: N2) None -> length (N1 ++ y :: N2) <= fuel ->
  get_tail fuel h y = last_or (N1 ++ y :: N2) None.
Proof.
  intros H Hf. apply seg_app in H. destruct H as [_ H].
  rewrite last_or_app. cbn [last_or]. eapply get_tail_seg; eauto.
  rewrite app_length in Hf. lia.
Qed.

Lemma head_of h N1 y N2 fuel :
  seg h None (N1 ++ y :: N2) None -> length (N1 ++ y :: N2) <= fuel ->
  get_head fuel h y = hd_or (N1 ++ y :: N2) None.
Proof.
  intros H Hf. replace (N1 ++ y :: N2) with ((N1 ++ [y]) ++ N2) in * by (rewrite <- app_assoc; reflexivity).
  apply seg_app in H. destruct H as [H _].
  erewrite get_head_seg; [|exact H|reflexivity|].
  - destruct N1; reflexivity.
  - rewrite app_length in Hf. lia.
Qed.

Lemma snoc_of (N : list addr) : N <> [] -> exists M z, N = M ++ [z].
Proof.
  intros H. destruct (exists_last H) as (M & z & E). eauto.
Qed.

Lemma last_or_snoc M z p : last_or (M ++ [z]) p = Some z.
Proof. rewrite last_or_app. reflexivity. Qed.

Lemma NoDup_app_inv (l1 l2 : list addr) :
  NoDup (l1 ++ l2) <-> NoDup l1 /\ NoDup l2 /\ disjoint l1 l2.
Proof.
  unfold disjoint. induction l1 as [|a t IH]; cbn [app].
  - split; [intros H; repeat split; auto; constructor|tauto].
  - split.
    + intros H. inversion H as [|? ? Hn Hd]; subst. apply IH in Hd. destruct Hd as (H1 & H2 & H3).
      repeat split; auto.
      * constructor; auto. intros Hi. apply Hn. apply in_or_app; auto.
      * intros b [<-|Hb] Hb2; [apply Hn; apply in_or_app; auto|eapply H3; eauto].
    + intros (H1 & H2 & H3). inversion H1; subst. constructor.
      * intros Hi. apply in_app_or in Hi. destruct Hi; auto. eapply H3; [left; auto|auto].
      * apply IH. repeat split; auto. intros b Hb. apply H3. right; auto.
Qed.

Lemma seg_prev_irrel h l p q : l = [] -> seg h p l q.
Proof. intros ->; exact I. Qed.

(** Splicing chain N (non-empty, isolated) between A and C. *)
Lemma splice_seg h A N C :
  seg h None A (hd_or N None) -> seg h (last_or A None) N (hd_or C None) ->
  seg h (last_or N None) C None -> N <> [] ->
  seg h None (A ++ N ++ C) None.
Proof.
  intros HA HN HC Hne.
  apply seg_app. split.
  - destruct N; [congruence|exact HA].
  - apply seg_app. split; auto.
    destruct (snoc_of N Hne) as (M & z & ->). rewrite last_or_snoc in *. exact HC.
Qed.

Lemma snoc_notin (l : list addr) x : NoDup (l ++ [x]) -> ~ In x l.
Proof.
  intros H Hi. apply NoDup_app_inv in H. destruct H as (_ & _ & H).
  eapply H; [exact Hi|left; auto].
Qed.

Lemma insert_after_ok h L1 x L2 N1 y N2 fuel :
  is_list h (L1 ++ x :: L2) -> is_list h (N1 ++ y :: N2) ->
  disjoint (L1 ++ x :: L2) (N1 ++ y :: N2) ->
  length (N1 ++ y :: N2) <= fuel ->
  exists h', insert_after fuel h x y = Some (h', x) /\
    is_list h' (L1 ++ x :: (N1 ++ y :: N2) ++ L2) /\
    unchanged_outside ((L1 ++ x :: L2) ++ (N1 ++ y :: N2)) h h'.
Proof.
  intros HL HN Hd Hf.
  apply is_list_seg in HL. destruct HL as [ND1 SL].
  apply is_list_seg in HN. destruct HN as [ND2 SN].
  pose proof (head_of _ _ _ _ _ SN Hf) as EH. pose proof (tail_of _ _ _ _ _ SN Hf) as ET.
  set (N := N1 ++ y :: N2) in *. assert (HNe : N <> []) by (subst N; destruct N1; discriminate).
  clearbody N. clear Hf.
  replace (L1 ++ x :: L2) with ((L1 ++ [x]) ++ L2) in * by (rewrite <- app_assoc; reflexivity).
  replace (L1 ++ x :: N ++ L2) with ((L1 ++ [x]) ++ N ++ L2) by (rewrite <- !app_assoc; reflexivity).
  assert (ND : NoDup ((L1 ++ [x]) ++ N ++ L2)).
  { apply NoDup_app_inv in ND1. destruct ND1 as (D1 & D2 & D3).
    apply NoDup_app_inv. split; [exact D1|]. split.
    - apply NoDup_app_inv. split; [exact ND2|]. split; [exact D2|].
      intros a Ha Hb. eapply Hd; [|exact Ha]. apply in_or_app; auto.
    - intros a Ha Hb. apply in_app_or in Hb. destruct Hb as [Hb|Hb].
      + eapply Hd; [|exact Hb]. apply in_or_app; auto.
      + eapply D3; eauto. }
  pose proof (proj1 (seg_app _ _ _ _ _) SL) as [SA SC]. rewrite last_or_snoc in SC.
  apply NoDup_app_inv in ND. destruct ND as (NA & NNC & DA).
  pose proof NNC as NNC'. apply NoDup_app_inv in NNC. destruct NNC as (NN & NC & DN).
  assert (NAx : ~ In x L1) by (apply snoc_notin; exact NA).
  assert (xNC : ~ In x (N ++ L2)). { apply DA. apply in_or_app; right; left; auto. }
  assert (xN : ~ In x N) by (intros Hi; apply xNC; apply in_or_app; auto).
  assert (xC : ~ In x L2) by (intros Hi; apply xNC; apply in_or_app; auto).
  unfold insert_after, get_next.
  pose proof (proj1 (seg_app _ _ _ _ _) SA) as [_ [Hx _]]. rewrite Hx. cbn [option_map next].
  destruct N as [|hd N']; [congruence|]. cbn [hd_or] in EH. rewrite EH.
  destruct (set_next_last h L1 x None (hd_or L2 None) (Some hd) SA NAx) as (h1 & E1 & SA1 & F1).
  assert (SN1 : seg h1 None (hd :: N') None).
  { eapply seg_frame; [exact SN|]. intros a Ha. apply F1. congruence. }
  assert (SC1 : seg h1 (Some x) L2 None).
  { eapply seg_frame; [exact SC|]. intros a Ha. apply F1. congruence. }
  destruct L2 as [|c L2']; cbn [hd_or] in *.
  - (* x is the tail *)
    rewrite E1.
    destruct (set_prev_first h1 N' hd None (Some x) None SN1) as (h2 & E2 & SN2 & F2).
    { inversion NN; auto. }
    rewrite E2. eexists; split; [reflexivity|]. split.
    + apply is_list_seg. split; [apply NoDup_app_inv; repeat split; auto|].
      apply splice_seg; cbn [hd_or last_or seg]; auto; try congruence.
      * eapply seg_frame; [exact SA1|]. intros a Ha. apply F2. intros ->.
        eapply DA; [exact Ha|]. left; auto.
      * rewrite last_or_snoc. exact SN2.
    + intros a Ha. rewrite F2, F1; auto.
      * intros ->. apply Ha. rewrite app_nil_r. apply in_or_app; left. apply in_or_app; right; left; auto.
      * intros ->. apply Ha. apply in_or_app; right; left; auto.
  - destruct (snoc_of (hd :: N') HNe) as (M & tl & EM). rewrite EM, last_or_snoc in ET. rewrite ET.
    rewrite E1.
    destruct (set_prev_first h1 L2' c (Some x) (Some tl) None SC1) as (h2 & E2 & SC2 & F2).
    { inversion NC; auto. }
    rewrite E2.
    assert (cN : ~ In c (hd :: N')). { intros Hi. eapply DN; [exact Hi|]. left; auto. }
    assert (cA : ~ In c (L1 ++ [x])). { intros Hi. eapply DA; [exact Hi|]. apply in_or_app; right; left; auto. }
    assert (SN2 : seg h2 None (hd :: N') None).
    { eapply seg_frame; [exact SN1|]. intros a Ha. apply F2. congruence. }
    assert (SA2 : seg h2 None (L1 ++ [x]) (Some hd)).
    { eapply seg_frame; [exact SA1|]. intros a Ha. apply F2. congruence. }
    destruct (set_prev_first h2 N' hd None (Some x) None SN2) as (h3 & E3 & SN3 & F3).
    { inversion NN; auto. }
    rewrite E3.
    rewrite EM in SN3.
    assert (tlM : ~ In tl M) by (apply snoc_notin; rewrite <- EM; exact NN).
    destruct (set_next_last h3 M tl (Some x) None (Some c) SN3 tlM) as (h4 & E4 & SN4 & F4).
    rewrite E4. rewrite <- EM in SN4.
    assert (tlN : In tl (hd :: N')) by (rewrite EM; apply in_or_app; right; left; auto).
    eexists; split; [reflexivity|]. split.
    + apply is_list_seg. split; [apply NoDup_app_inv; repeat split; auto|].
      apply splice_seg; cbn [hd_or]; auto.
      * eapply seg_frame; [exact SA2|]. intros a Ha.
        rewrite F4, F3; auto; intros ->; eapply DA; try exact Ha; apply in_or_app; left; auto. left; auto.
      * rewrite last_or_snoc. exact SN4.
      * rewrite EM, last_or_snoc. eapply seg_frame; [exact SC2|]. intros a Ha.
        rewrite F4, F3; auto; intros ->; eapply DN; try exact Ha; auto. left; auto.
    + intros a Ha. rewrite F4, F3, F2, F1; auto; intros ->; apply Ha; apply in_or_app; auto.
      * left. apply in_or_app; left. apply in_or_app; right; left; auto.
      * left. apply in_or_app; right; left; auto.
      * right. left; auto.
Qed.

Ltac mem := repeat rewrite in_app_iff; cbn [In]; repeat rewrite in_app_iff; cbn [In]; tauto.

(** Joining two segments: [z.next = b] and [b.prev = z]. *)
Lemma join_next_prev h A z b B p q0 p1 q1 :
  seg h p (A ++ [z]) q0 -> seg h p1 (b :: B) q1 ->
  NoDup ((A ++ [z]) ++ b :: B) ->
  exists h1 h2, set_next h z (Some b) = Some h1 /\ set_prev h1 b (Some z) = Some h2 /\
    seg h2 p ((A ++ [z]) ++ b :: B) q1 /\ forall a, a <> z -> a <> b -> h2 a = h a.
Proof.
  intros SA SB ND. apply NoDup_app_inv in ND. destruct ND as (NA & NB & D).
  destruct (set_next_last h A z p q0 (Some b) SA (snoc_notin _ _ NA)) as (h1 & E1 & SA1 & F1).
  assert (SB1 : seg h1 p1 (b :: B) q1).
  { eapply seg_frame; [exact SB|]. intros a Ha. apply F1. intros ->. eapply D; [|exact Ha].
    apply in_or_app; right; left; auto. }
  destruct (set_prev_first h1 B b p1 (Some z) q1 SB1) as (h2 & E2 & SB2 & F2).
  { inversion NB; auto. }
  exists h1, h2. split; auto. split; auto. split.
  - apply seg_app. cbn [hd_or]. rewrite last_or_snoc. split; auto.
    eapply seg_frame; [exact SA1|]. intros a Ha. apply F2. intros ->. eapply D; [exact Ha|left; auto].
  - intros a H1 H2. rewrite F2, F1; auto.
Qed.

Lemma join_prev_next h A z b B p q0 p1 q1 :
  seg h p (A ++ [z]) q0 -> seg h p1 (b :: B) q1 ->
  NoDup ((A ++ [z]) ++ b :: B) ->
  exists h1 h2, set_prev h b (Some z) = Some h1 /\ set_next h1 z (Some b) = Some h2 /\
    seg h2 p ((A ++ [z]) ++ b :: B) q1 /\ forall a, a <> z -> a <> b -> h2 a = h a.
Proof.
  intros SA SB ND. apply NoDup_app_inv in ND. destruct ND as (NA & NB & D).
  destruct (set_prev_first h B b p1 (Some z) q1 SB) as (h1 & E1 & SB1 & F1).
  { inversion NB; auto. }
  assert (SA1 : seg h1 p (A ++ [z]) q0).
  { eapply seg_frame; [exact SA|]. intros a Ha. apply F1. intros ->. eapply D; [exact Ha|left; auto]. }
  destruct (set_next_last h1 A z p q0 (Some b) SA1 (snoc_notin _ _ NA)) as (h2 & E2 & SA2 & F2).
  exists h1, h2. split; auto. split; auto. split.
  - apply seg_app. cbn [hd_or]. rewrite last_or_snoc. split; auto.
    eapply seg_frame; [exact SB1|]. intros a Ha. apply F2. intros ->. eapply D; [|exact Ha].
    apply in_or_app; right; left; auto.
  - intros a H1 H2. rewrite F2, F1; auto.
Qed.

Lemma nodup_join (l1 l2 : list addr) : NoDup l1 -> NoDup l2 -> disjoint l1 l2 -> NoDup (l1 ++ l2).
Proof. intros. apply NoDup_app_inv. auto. Qed.

Lemma disjoint_sym (l1 l2 : list addr) : disjoint l1 l2 -> disjoint l2 l1.
Proof. intros H a H2 H1. eapply H; eauto. Qed.

Lemma seg_node h p L1 x L2 q : seg h p (L1 ++ x :: L2) q ->
  h x = Some (mkNode (hd_or L2 q) (last_or L1 p)).
Proof. intros H. apply seg_app in H. destruct H as [_ [H _]]. rewrite H. destruct L2; reflexivity. Qed.

Lemma insert_before_ok h L1 x L2 N1 y N2 fuel :
  is_list h (L1 ++ x :: L2) -> is_list h (N1 ++ y :: N2) ->
  disjoint (L1 ++ x :: L2) (N1 ++ y :: N2) ->
  length (N1 ++ y :: N2) <= fuel ->
  exists h', insert_before fuel h x y = Some (h', y) /\
    is_list h' (L1 ++ (N1 ++ y :: N2) ++ x :: L2) /\
    unchanged_outside ((L1 ++ x :: L2) ++ (N1 ++ y :: N2)) h h'.
Proof.
  intros HL HN Hd Hf.
  apply is_list_seg in HL. destruct HL as [ND1 SL].
  apply is_list_seg in HN. destruct HN as [ND2 SN].
  pose proof (head_of _ _ _ _ _ SN Hf) as EH. pose proof (tail_of _ _ _ _ _ SN Hf) as ET.
  set (N := N1 ++ y :: N2) in *. assert (HNe : N <> []) by (subst N; destruct N1; discriminate).
  clearbody N. clear Hf N1 N2.
  unfold insert_before, get_prev. rewrite (seg_node _ _ _ _ _ _ SL). cbn [option_map prev].
  destruct (snoc_of N HNe) as (M & tl & EM). rewrite EM, last_or_snoc in ET. rewrite ET.
  destruct L1 as [|l0 L1'].
  - (* x is the head *)
    cbn [last_or]. cbn [app] in *. subst N.
    destruct (join_prev_next h M tl x L2 None None None None SN SL) as (h1 & h2 & E1 & E2 & S2 & F).
    { apply nodup_join; auto. apply disjoint_sym; auto. }
    rewrite E1, E2. eexists; split; [reflexivity|]. split.
    + apply is_list_seg. split; auto. apply nodup_join; auto. apply disjoint_sym; auto.
    + intros a Ha. apply F; intros ->; apply Ha; mem.
  - destruct (snoc_of (l0 :: L1')) as (A & pv & EA); [discriminate|]. rewrite EA in *.
    rewrite last_or_snoc. destruct N as [|hd N']; [congruence|]. cbn [hd_or] in EH. rewrite EH.
    clear l0 L1' EA.
    pose proof (proj1 (seg_app _ _ _ _ _) SL) as [SA SC]. cbn [hd_or] in SA. rewrite last_or_snoc in SC.
    pose proof ND1 as ND1'. apply NoDup_app_inv in ND1'. destruct ND1' as (NA & NC & DAC).
    assert (DAN : disjoint (A ++ [pv]) (hd :: N')).
    { intros a Ha. apply Hd. apply in_or_app; auto. }
    assert (DCN : disjoint (x :: L2) (hd :: N')).
    { intros a Ha. apply Hd. apply in_or_app; auto. }
    assert (tlN : In tl (hd :: N')) by (rewrite EM; apply in_or_app; right; left; auto).
    assert (hdN : In hd (hd :: N')) by (left; auto).
    assert (pvA : In pv (A ++ [pv])) by (apply in_or_app; right; left; auto).
    assert (xC : In x (x :: L2)) by (left; auto).
    destruct (set_prev_first h L2 x (Some pv) (Some tl) None SC) as (h1 & E1 & SC1 & F1).
    { inversion NC; auto. }
    rewrite E1.
    assert (SA1 : seg h1 None (A ++ [pv]) (Some x)).
    { eapply seg_frame; [exact SA|]. intros a Ha. apply F1. intros ->. eapply DAC; eauto. }
    assert (SN1 : seg h1 None (hd :: N') None).
    { eapply seg_frame; [exact SN|]. intros a Ha. apply F1. intros ->. eapply DCN; eauto. }
    destruct (set_next_last h1 A pv None (Some x) (Some hd) SA1 (snoc_notin _ _ NA)) as (h2 & E2 & SA2 & F2).
    rewrite E2.
    assert (SC2 : seg h2 (Some tl) (x :: L2) None).
    { eapply seg_frame; [exact SC1|]. intros a Ha. apply F2. intros ->. eapply DAC; eauto. }
    assert (SN2 : seg h2 None (hd :: N') None).
    { eapply seg_frame; [exact SN1|]. intros a Ha. apply F2. intros ->. eapply DAN; eauto. }
    destruct (set_prev_first h2 N' hd None (Some pv) None SN2) as (h3 & E3 & SN3 & F3).
    { inversion ND2; auto. }
    rewrite E3. rewrite EM in SN3.
    assert (tlM : ~ In tl M) by (apply snoc_notin; rewrite <- EM; exact ND2).
    destruct (set_next_last h3 M tl (Some pv) None (Some x) SN3 tlM) as (h4 & E4 & SN4 & F4).
    rewrite E4. rewrite <- EM in SN4.
    eexists; split; [reflexivity|]. split.
    + apply is_list_seg. split.
      * apply nodup_join; auto.
        -- apply nodup_join; auto. apply disjoint_sym; auto.
        -- intros a Ha Hb. apply in_app_or in Hb. destruct Hb; [eapply DAN|eapply DAC]; eauto.
      * apply splice_seg; cbn [hd_or]; auto.
        -- eapply seg_frame; [exact SA2|]. intros a Ha.
           rewrite F4, F3; auto; intros ->; eapply DAN; eauto.
        -- rewrite last_or_snoc. exact SN4.
        -- rewrite EM, last_or_snoc. eapply seg_frame; [exact SC2|]. intros a Ha.
           rewrite F4, F3; auto; intros ->; eapply DCN; eauto.
    + intros a Ha. rewrite F4, F3, F2, F1; auto; intros ->; apply Ha; apply in_or_app; auto;
        left; apply in_or_app; auto.
Qed.

(** Insert puts the whole chain somewhere next to the relative head. *)
Lemma insert_ok h L1 x L2 N1 y N2 fuel :
  is_list h (L1 ++ x :: L2) -> is_list h (N1 ++ y :: N2) ->
  disjoint (L1 ++ x :: L2) (N1 ++ y :: N2) ->
  length (N1 ++ y :: N2) <= fuel ->
  exists h' r A B, insert fuel h x y = Some (h', r) /\ (r = x \/ r = y) /\
    A ++ B = L1 ++ x :: L2 /\
    is_list h' (A ++ (N1 ++ y :: N2) ++ B) /\
    unchanged_outside ((L1 ++ x :: L2) ++ (N1 ++ y :: N2)) h h'.
Proof.
  intros HL HN Hd Hf.
  pose proof (insert_after_ok h L1 x L2 N1 y N2 fuel HL HN Hd Hf) as (ha & Ea & HLa & Ua).
  pose proof (insert_before_ok h L1 x L2 N1 y N2 fuel HL HN Hd Hf) as (hb & Eb & HLb & Ub).
  assert (RA : exists h' r A B, Some (ha, x) = Some (h', r) /\ (r = x \/ r = y) /\
    A ++ B = L1 ++ x :: L2 /\ is_list h' (A ++ (N1 ++ y :: N2) ++ B) /\
    unchanged_outside ((L1 ++ x :: L2) ++ (N1 ++ y :: N2)) h h').
  { exists ha, x, (L1 ++ [x]), L2. repeat split; auto; try (rewrite <- app_assoc; reflexivity);
      replace ((L1 ++ [x]) ++ (N1 ++ y :: N2) ++ L2) with (L1 ++ x :: (N1 ++ y :: N2) ++ L2)
        by (rewrite <- !app_assoc; reflexivity); apply HLa. }
  assert (RB : exists h' r A B, Some (hb, y) = Some (h', r) /\ (r = x \/ r = y) /\
    A ++ B = L1 ++ x :: L2 /\ is_list h' (A ++ (N1 ++ y :: N2) ++ B) /\
    unchanged_outside ((L1 ++ x :: L2) ++ (N1 ++ y :: N2)) h h').
  { exists hb, y, L1, (x :: L2). repeat split; auto; apply HLb. }
  clear Ua Ub HLa HLb.
  apply is_list_seg in HL. destruct HL as [ND1 SL].
  apply is_list_seg in HN. destruct HN as [ND2 SN].
  unfold insert, get_prev, get_next.
  rewrite (seg_node _ _ _ _ _ _ SL), (seg_node _ _ _ _ _ _ SN). cbn [option_map prev next].
  assert (Case2 : last_or N1 None = None -> hd_or L2 None = None ->
     exists h' r A B,
      (let? h1 := set_next h x (Some y) in let? h2 := set_prev h1 y (Some x) in Some (h2, x)) = Some (h', r) /\
      (r = x \/ r = y) /\ A ++ B = L1 ++ x :: L2 /\ is_list h' (A ++ (N1 ++ y :: N2) ++ B) /\
      unchanged_outside ((L1 ++ x :: L2) ++ (N1 ++ y :: N2)) h h').
  { intros HN1 HL2. destruct L2; [|discriminate]. clear RA RB.
    destruct N1 as [|n0 N1']; [|destruct (snoc_of (n0 :: N1')) as (M & z & E); [discriminate|];
      rewrite E, last_or_snoc in HN1; discriminate].
    cbn [app] in *.
    destruct (join_next_prev h L1 x y N2 None None None None SL SN) as (h1 & h2 & E1 & E2 & S2 & F).
    { apply nodup_join; auto. }
    rewrite E1, E2. exists h2, x, (L1 ++ [x]), []. split; auto. split; auto. split; [apply app_nil_r|].
    rewrite app_nil_r. split.
    - apply is_list_seg. split; auto. apply nodup_join; auto.
    - intros a Ha. apply F; intros ->; apply Ha; mem. }
  destruct (last_or L1 None) eqn:EL1.
  - destruct (hd_or L2 None) eqn:EL2; [rewrite Ea; exact RA|].
    destruct (last_or N1 None) eqn:EN1; [rewrite Ea; exact RA|]. auto.
  - destruct (hd_or N2 None) eqn:EN2.
    + destruct (hd_or L2 None) eqn:EL2; [rewrite Eb; exact RB|].
      destruct (last_or N1 None) eqn:EN1; [rewrite Eb; exact RB|]. auto.
    + clear RA RB Case2. destruct N2; [|discriminate].
      destruct L1 as [|n0 L1']; [|destruct (snoc_of (n0 :: L1')) as (M & z & E); [discriminate|];
        rewrite E, last_or_snoc in EL1; discriminate].
      cbn [app] in *.
      destruct (join_prev_next h N1 y x L2 None None None None SN SL) as (h1 & h2 & E1 & E2 & S2 & F).
      { apply nodup_join; auto. apply disjoint_sym; auto. }
      rewrite E1, E2. exists h2, y, [], (x :: L2). split; auto. split; auto. split; [reflexivity|].
      cbn [app]. split.
      * apply is_list_seg. split; auto. apply nodup_join; auto. apply disjoint_sym; auto.
      * intros a Ha. apply F; intros ->; apply Ha; mem.
Qed.

(** Concatenation of two whole lists, used by Append and Prepend. *)
Lemma append_ok h L1 x L2 N1 y N2 d fuel :
  is_list h (L1 ++ x :: L2) -> is_list h (N1 ++ y :: N2) ->
  disjoint (L1 ++ x :: L2) (N1 ++ y :: N2) ->
  length (L1 ++ x :: L2) <= fuel -> length (N1 ++ y :: N2) <= fuel -> 2 <= d ->
  exists h', append true d fuel h x y = Some (h', y) /\
    is_list h' ((L1 ++ x :: L2) ++ (N1 ++ y :: N2)) /\
    unchanged_outside ((L1 ++ x :: L2) ++ (N1 ++ y :: N2)) h h'.
Proof.
  intros HL HN Hd HfL HfN Hdep.
  apply is_list_seg in HL. destruct HL as [ND1 SL].
  apply is_list_seg in HN. destruct HN as [ND2 SN].
  pose proof (tail_of _ _ _ _ _ SL HfL) as ET. pose proof (head_of _ _ _ _ _ SN HfN) as EH.
  destruct d as [|[|d]]; try lia. cbn [append].
  rewrite ET. unfold get_prev, get_next. rewrite (seg_node _ _ _ _ _ _ SN). cbn [option_map prev].
  destruct (snoc_of (L1 ++ x :: L2)) as (M & tl & EM); [destruct L1; discriminate|].
  rewrite EM in *. rewrite last_or_snoc.
  assert (ND : NoDup ((M ++ [tl]) ++ N1 ++ y :: N2)) by (apply nodup_join; auto).
  destruct N1 as [|n0 N1'].
  - cbn [last_or app] in *.
    destruct (join_next_prev h M tl y N2 None None None None SL SN ND) as (h1 & h2 & E1 & E2 & S2 & F).
    rewrite E1, E2. eexists; split; [reflexivity|]. split.
    + apply is_list_seg. auto.
    + intros a Ha. apply F; intros ->; apply Ha; mem.
  - destruct (snoc_of (n0 :: N1')) as (M' & z & E); [discriminate|].
    rewrite E, last_or_snoc. rewrite <- E. rewrite EH. cbn [app hd_or].
    rewrite (seg_node _ _ _ _ _ _ SL). cbn [option_map next hd_or].
    cbn [app] in *.
    destruct (join_prev_next h M tl n0 (N1' ++ y :: N2) None None None None SL SN ND) as (h1 & h2 & E1 & E2 & S2 & F).
    rewrite E1, E2. eexists; split; [reflexivity|]. split.
    + apply is_list_seg. auto.
    + intros a Ha. apply F; intros ->; apply Ha; mem.
Qed.

Lemma prepend_ok h L1 x L2 N1 y N2 d fuel :
  is_list h (L1 ++ x :: L2) -> is_list h (N1 ++ y :: N2) ->
  disjoint (L1 ++ x :: L2) (N1 ++ y :: N2) ->
  length (L1 ++ x :: L2) <= fuel -> length (N1 ++ y :: N2) <= fuel -> 2 <= d ->
  exists h', append false d fuel h x y = Some (h', y) /\
    is_list h' ((N1 ++ y :: N2) ++ (L1 ++ x :: L2)) /\
    unchanged_outside ((L1 ++ x :: L2) ++ (N1 ++ y :: N2)) h h'.
Proof.
  intros HL HN Hd HfL HfN Hdep.
  apply is_list_seg in HL. destruct HL as [ND1 SL].
  apply is_list_seg in HN. destruct HN as [ND2 SN].
  pose proof (head_of _ _ _ _ _ SL HfL) as EH. pose proof (tail_of _ _ _ _ _ SN HfN) as ET.
  destruct d as [|[|d]]; try lia. cbn [append].
  rewrite EH. unfold get_prev, get_next. rewrite (seg_node _ _ _ _ _ _ SN). cbn [option_map next].
  assert (ND : NoDup ((N1 ++ y :: N2) ++ L1 ++ x :: L2)).
  { apply nodup_join; auto. apply disjoint_sym; auto. }
  destruct (L1 ++ x :: L2) as [|hd L'] eqn:EL; [destruct L1; discriminate|]. cbn [hd_or].
  destruct (snoc_of (N1 ++ y :: N2)) as (M & tl & EM); [destruct N1; discriminate|].
  rewrite EM, last_or_snoc in ET.
  destruct N2 as [|n0 N2'].
  - cbn [hd_or].
    assert (N1 = M /\ y = tl) as [-> ->] by (apply app_inj_tail; exact EM).
    destruct (join_prev_next h M tl hd L' None None None None SN SL ND) as (h1 & h2 & E1 & E2 & S2 & F).
    rewrite E1, E2. eexists; split; [reflexivity|]. split.
    + apply is_list_seg. auto.
    + intros a Ha. apply F; intros ->; apply Ha; mem.
  - cbn [hd_or]. rewrite ET.
    cbn [seg] in SL. pose proof SL as [Hhd _]. rewrite Hhd. cbn [option_map prev].
    rewrite EM in *.
    destruct (join_next_prev h M tl hd L' None None None None SN SL ND) as (h1 & h2 & E1 & E2 & S2 & F).
    rewrite E1, E2. eexists; split; [reflexivity|]. split.
    + apply is_list_seg. auto.
    + intros a Ha. apply F; intros ->; apply Ha; mem.
Qed.

(** Removing a range (a single node is the range [x]). *)
Lemma remove_range_ok h L1 s S' L2 e :
  is_list h (L1 ++ (s :: S') ++ L2) -> last_or S' (Some s) = Some e ->
  exists h', remove_range h s e = Some h' /\
    is_list h' (L1 ++ L2) /\ is_list h' (s :: S') /\
    unchanged_outside (L1 ++ (s :: S') ++ L2) h h'.
Proof.
  intros HL He. apply is_list_seg in HL. destruct HL as [ND SL].
  pose proof (proj1 (seg_app _ _ _ _ _) SL) as [SA SBC].
  pose proof (proj1 (seg_app _ _ _ _ _) SBC) as [SB SC].
  apply NoDup_app_inv in ND. destruct ND as (NA & NBC & DA).
  apply NoDup_app_inv in NBC. destruct NBC as (NB & NC & DBC).
  assert (DAB : disjoint L1 (s :: S')) by (intros a Ha Hb; eapply DA; eauto; apply in_or_app; auto).
  assert (DAC : disjoint L1 L2) by (intros a Ha Hb; eapply DA; eauto; apply in_or_app; auto).
  destruct (snoc_of (s :: S')) as (M & z & EM); [discriminate|].
  assert (Ez : z = e). { change (last_or (s :: S') None = Some e) in He. rewrite EM, last_or_snoc in He. congruence. }
  subst z.
  assert (eB : In e (s :: S')) by (rewrite EM; apply in_or_app; right; left; auto).
  assert (sB : In s (s :: S')) by (left; auto).
  cbn [app hd_or] in SA. 
  assert (Hs : exists ns, h s = Some (mkNode ns (last_or L1 None))).
  { destruct SB as [Hs _]. eauto. }
  assert (Hen : forall h p q, seg h p (s :: S') q -> exists pe, h e = Some (mkNode q pe)).
  { intros h0 p0 q0 Hseg. rewrite EM in Hseg. apply seg_node in Hseg. eauto. }
  assert (Hsn : forall h p q, seg h p (s :: S') q -> exists ns, h s = Some (mkNode ns p)).
  { intros h0 p0 q0 [Hseg _]. eauto. }
  unfold remove_range.
  destruct (Hsn _ _ _ SB) as (ns & Es). destruct (Hen _ _ _ SB) as (pe & Ee).
  rewrite Es, Ee. cbn [prev next].
  assert (ML : NoDup (L1 ++ L2)) by (apply nodup_join; auto).
  (* first update *)
  assert (U1 : exists h1, (match last_or L1 None with Some p => set_next h p (hd_or L2 None) | None => Some h end) = Some h1 /\
     seg h1 None L1 (hd_or L2 None) /\ seg h1 (last_or L1 None) (s :: S') (hd_or L2 None) /\
     seg h1 (last_or (s :: S') None) L2 None /\ (forall a, ~ In a L1 -> h1 a = h a)).
  { destruct L1 as [|l0 L1'].
    - exists h. cbn [last_or]. repeat split; auto; apply SB.
    - destruct (snoc_of (l0 :: L1')) as (A & p & EA); [discriminate|]. rewrite EA in *.
      rewrite last_or_snoc in *.
      destruct (set_next_last h A p None _ (hd_or L2 None) SA (snoc_notin _ _ NA)) as (h1 & E1 & SA1 & F1).
      exists h1. split; auto. split; auto.
      assert (pA : In p (A ++ [p])) by (apply in_or_app; right; left; auto).
      split; [|split].
      + eapply seg_frame; [exact SB|]. intros a Ha. apply F1. intros ->. eapply DAB; eauto.
      + eapply seg_frame; [exact SC|]. intros a Ha. apply F1. intros ->. eapply DAC; eauto.
      + intros a Ha. apply F1. congruence. }
  destruct U1 as (h1 & E1 & SA1 & SB1 & SC1 & F1). rewrite E1.
  destruct (Hsn _ _ _ SB1) as (ns1 & Es1). destruct (Hen _ _ _ SB1) as (pe1 & Ee1).
  rewrite Es1, Ee1. cbn [prev next].
  assert (U2 : exists h2, (match hd_or L2 None with Some q => set_prev h1 q (last_or L1 None) | None => Some h1 end) = Some h2 /\
     seg h2 None (L1 ++ L2) None /\ seg h2 (last_or L1 None) (s :: S') (hd_or L2 None) /\
     (forall a, ~ In a L2 -> h2 a = h1 a)).
  { destruct L2 as [|q L2'].
    - exists h1. cbn [hd_or] in *. rewrite app_nil_r. repeat split; auto; apply SB1.
    - cbn [hd_or].
      destruct (set_prev_first h1 L2' q _ (last_or L1 None) None SC1) as (h2 & E2 & SC2 & F2).
      { inversion NC; auto. }
      exists h2. split; auto. split; [|split].
      + apply seg_app. split; auto. eapply seg_frame; [exact SA1|].
        intros a Ha. apply F2. intros ->. eapply DAC; eauto. left; auto.
      + eapply seg_frame; [exact SB1|]. intros a Ha. apply F2. intros ->. eapply DBC; eauto. left; auto.
      + intros a Ha. apply F2. intros ->. apply Ha; left; auto. }
  destruct U2 as (h2 & E2 & SAC2 & SB2 & F2). rewrite E2.
  destruct (set_prev_first h2 S' s _ None _ SB2) as (h3 & E3 & SB3 & F3).
  { inversion NB; auto. }
  rewrite E3. rewrite EM in SB3.
  assert (eM : ~ In e M) by (apply snoc_notin; rewrite <- EM; auto).
  destruct (set_next_last h3 M e None _ None SB3 eM) as (h4 & E4 & SB4 & F4).
  rewrite <- EM in SB4. exists h4. split; auto. split; [|split].
  - apply is_list_seg. split; auto. eapply seg_frame; [exact SAC2|].
    assert (D : disjoint (L1 ++ L2) (s :: S')).
    { intros a Ha Hb. apply in_app_or in Ha. destruct Ha; [eapply DAB|eapply DBC]; eauto. }
    intros a Ha. rewrite F4, F3; auto; intros ->; eapply D; eauto.
  - apply is_list_seg. auto.
  - intros a Ha.
    assert (~ In a L1 /\ ~ In a (s :: S') /\ ~ In a L2) as (A1 & A2 & A3).
    { repeat split; intros Hi; apply Ha; apply in_or_app; auto; right; apply in_or_app; auto. }
    rewrite F4, F3, F2, F1; auto; congruence.
Qed.

Lemma remove_node_range h x : h x <> None -> remove_node h x = remove_range h x x.
Proof.
  intros H. unfold remove_node, remove_range. destruct (h x) as [n|]; [|congruence].
  match goal with |- (match ?e with _ => _ end) = _ => destruct e as [h1|]; [|reflexivity] end.
  destruct (h1 x); reflexivity.
Qed.

Lemma remove_node_ok h L1 x L2 :
  is_list h (L1 ++ x :: L2) ->
  exists h', remove_node h x = Some h' /\
    is_list h' (L1 ++ L2) /\ is_list h' [x] /\
    unchanged_outside (L1 ++ x :: L2) h h'.
Proof.
  intros HL. rewrite remove_node_range.
  - apply (remove_range_ok h L1 x [] L2 x HL eq_refl).
  - apply is_list_seg in HL. destruct HL as [_ HL]. rewrite (seg_node _ _ _ _ _ _ HL). discriminate.
Qed.

Lemma is_list_frame h h' l : is_list h l -> (forall a, In a l -> h' a = h a) -> is_list h' l.
Proof.
  intros HL Hf. apply is_list_seg in HL. apply is_list_seg. destruct HL as [H1 H2].
  split; auto. eapply seg_frame; eauto.
Qed.

(** Destroying from [x] frees exactly x :: L2, once each, in order, and leaves L1 a list. *)
Lemma destroy_ok : forall L2 h L1 x fuel,
  is_list h (L1 ++ x :: L2) -> length (x :: L2) <= fuel ->
  exists h', destroy fuel h (Some x) = Some (h', x :: L2) /\
    is_list h' L1 /\ (forall a, In a (x :: L2) -> h' a = None) /\
    unchanged_outside (L1 ++ x :: L2) h h'.
Proof.
  induction L2 as [|b L2 IH]; intros h L1 x fuel HL Hf;
    destruct fuel as [|f]; cbn [length] in Hf; try lia;
    cbn [destroy]; unfold get_next, destroy_node;
    pose proof (proj1 (is_list_seg _ _) HL) as [ND SL];
    rewrite (seg_node _ _ _ _ _ _ SL); cbn [option_map next hd_or];
    destruct (remove_node_ok _ _ _ _ HL) as (h1 & E1 & HL1 & Hx1 & U1); rewrite E1;
    unfold free_node;
    rewrite (seg_node h1 None [] x [] None) by (apply is_list_seg in Hx1; apply Hx1).
  - assert (Efx : destroy f (hset h1 x None) None = Some (hset h1 x None, [])) by (destruct f; reflexivity).
    rewrite Efx. eexists; split; [reflexivity|]. rewrite app_nil_r in HL1. split; [|split].
    + eapply is_list_frame; [exact HL1|]. intros a Ha. apply hset_ne. intros ->.
      apply (snoc_notin _ _ ND); auto.
    + intros a [<-|[]]. apply hset_eq.
    + intros a Ha. rewrite hset_ne; [apply U1; auto|]. intros ->. apply Ha. apply in_or_app; right; left; auto.
  - apply NoDup_remove in ND. destruct ND as [ND Hxn].
    assert (HL2 : is_list (hset h1 x None) (L1 ++ b :: L2)).
    { eapply is_list_frame; [exact HL1|]. intros a Ha. apply hset_ne. congruence. }
    destruct (IH _ _ _ f HL2 ltac:(cbn [length]; lia)) as (h2 & E2 & HL3 & Hfr & U2).
    rewrite E2. eexists; split; [reflexivity|]. split; [exact HL3|]. split.
    + intros a [<-|Ha]; [|auto]. rewrite U2; auto. apply hset_eq.
    + intros a Ha. rewrite U2.
      * rewrite hset_ne; [apply U1; auto|]. intros ->. apply Ha. apply in_or_app; right; left; auto.
      * intros Hi. apply Ha. apply in_app_or in Hi. apply in_or_app. destruct Hi; auto. right; right; auto.
Qed.

Lemma last_or_last l : forall s, last_or l (Some s) = Some (last l s).
Proof.
  intros s. destruct l as [|a t] using rev_ind; [reflexivity|].
  rewrite last_or_snoc, last_last. reflexivity.
Qed.

Lemma remove_range_last h L1 s S' L2 :
  is_list h (L1 ++ (s :: S') ++ L2) ->
  exists h', remove_range h s (last S' s) = Some h' /\
    is_list h' (L1 ++ L2) /\ is_list h' (s :: S') /\
    unchanged_outside (L1 ++ (s :: S') ++ L2) h h'.
Proof. intros H. apply remove_range_ok; auto. apply last_or_last. Qed.
