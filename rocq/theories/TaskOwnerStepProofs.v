(** Proofs about who owns tasks: every call. *)
From Coq Require Import Permutation.
From Verif Require Import Base TaskOwnerModel TaskOwnerSpec TaskOwnerProofs.

Definition q_nodes (oq : option queue) (ol : option waiters) : list (nat * node) :=
  match oq, ol with
  | Some q, Some l => nodes_of (q_head q) None (q_pending q) (waiting l) (map (fun n => (n, None)) (q_managed q))
  | _, _ => []
  end.
Definition all_nodes (qs : list (option queue)) (ls : list (option waiters)) : list (nat * node) := flat_map (fun p => q_nodes (fst p) (snd p)) (combine qs ls).

Definition last_of (q : option waiters) (t : nat) : nat := match q with Some q => is (last q) t | None => 0 end.
Definition lasts (ls : list (option waiters)) (t : nat) : nat := list_sum (map (fun q => last_of q t) ls).

Definition match_q (oq : option queue) (ol : option waiters) : Prop :=
  match oq, ol with
  | Some q, Some l => q_serial q = serial l /\ q_last q = last l /\ length (q_pending q) = length (waiting l) /\ (serial l = false -> last l = None)
  | None, None => True
  | _, _ => False
  end.

Definition others (w : world) : nat -> nat := fun t => held w t + lasts (lines w) t.

Definition rel (s : state) (w : world) : Prop :=
  Forall2 match_q (queues s) (lines w) /\ inv (has w) s (finished w) (all_nodes (queues s) (lines w)) (others w) /\
  next_task s = length (made w) /\ forall t, length (made w) <= t -> references w t = 0.

Lemma forall2_length {X Y} (R : X -> Y -> Prop) a b : Forall2 R a b -> length a = length b.
Proof. induction 1; cbn [length]; congruence. Qed.

Lemma list_sum_cons a l : list_sum (a :: l) = a + list_sum l. Proof. reflexivity. Qed.

Lemma carried_q oq ol t : match_q oq ol -> carried (q_nodes oq ol) t + last_of ol t = in_line ol t.
Proof.
  destruct oq as [q|], ol as [l|]; cbn [match_q q_nodes last_of in_line]; try contradiction; [|reflexivity]. intros (_ & _ & E & _). unfold nodes_of. rewrite carried_cons, carried_app, carried_twos by exact E. cbn [n_task is].
  assert (X : carried (ones (map (fun n => (n, None)) (q_managed q))) t = 0). { induction (q_managed q) as [|n M IH]; [reflexivity|]. unfold ones. cbn [map fst snd]. rewrite carried_cons. exact IH. } lia.
Qed.

Lemma carried_all qs ls t : Forall2 match_q qs ls -> carried (all_nodes qs ls) t + lasts ls t = list_sum (map (fun q => in_line q t) ls).
Proof.
  induction 1 as [|oq ol qs ls M F IH]; [reflexivity|]. unfold all_nodes, lasts. cbn [combine flat_map map fst snd]. fold (all_nodes qs ls). rewrite !list_sum_cons. fold (lasts ls t).
  rewrite carried_app. pose proof (carried_q oq ol t M). lia.
Qed.

Lemma references_total s w t : Forall2 match_q (queues s) (lines w) -> references w t = total (others w) (all_nodes (queues s) (lines w)) t.
Proof. intros F. unfold references, total, others. pose proof (carried_all _ _ t F). lia. Qed.

Lemma accounted_acc w w' ev : acc (has w') (references w) (references w') ev -> accounted w w' ev.
Proof. intros A t d. apply A. Qed.

(** ** One queue among the others *)
Lemma all_nodes_app q1 l1 q2 l2 : length q1 = length l1 -> all_nodes (q1 ++ q2) (l1 ++ l2) = all_nodes q1 l1 ++ all_nodes q2 l2.
Proof. revert l1. induction q1 as [|q q1 IH]; intros [|l l1] E; cbn [length] in E; try discriminate; [reflexivity|]. unfold all_nodes. cbn [app combine flat_map]. fold (all_nodes (q1 ++ q2) (l1 ++ l2)). rewrite IH by lia. now rewrite app_assoc. Qed.

Lemma put_queue_at q1 (x y : option queue) q2 : put_queue (q1 ++ x :: q2) (length q1) y = q1 ++ y :: q2.
Proof. induction q1 as [|q q1 IH]; cbn [app length put_queue]; [reflexivity|now rewrite IH]. Qed.

Lemma line_up_at (w : world) l1 x y l2 : lines w = l1 ++ x :: l2 -> line_up w (length l1) y = mkWorld (made w) (finished w) (held w) (l1 ++ y :: l2).
Proof.
  intros E. unfold line_up. rewrite E. f_equal. rewrite firstn_app, firstn_all, Nat.sub_diag. cbn [firstn]. rewrite app_nil_r. f_equal.
  replace (S (length l1)) with (length (l1 ++ [x])) by (rewrite app_length; cbn [length]; lia). change (l1 ++ x :: l2) with (l1 ++ [x] ++ l2). rewrite app_assoc, skipn_app, skipn_all, Nat.sub_diag. reflexivity.
Qed.

Lemma split_at s w i l : Forall2 match_q (queues s) (lines w) -> line_at w i = Some l ->
  exists q1 q q2 l1 l2, queues s = q1 ++ Some q :: q2 /\ lines w = l1 ++ Some l :: l2 /\ length q1 = i /\ length l1 = i /\
    Forall2 match_q q1 l1 /\ Forall2 match_q q2 l2 /\ match_q (Some q) (Some l) /\ get_queue s i = Some q.
Proof.
  intros F E. unfold line_at in E. destruct (nth_error (lines w) i) as [[l0|]|] eqn:En; try discriminate. injection E as ->. apply nth_error_split in En as (l1 & l2 & El & Ll).
  rewrite El in F. apply Forall2_app_inv_r in F as (q1 & q3 & F1 & F3 & Eq). inversion F3 as [|oq ol q2 l2' M F2 Eo Eol]; subst. destruct oq as [q|]; [|contradiction].
  exists q1, q, q2, l1, l2. pose proof (forall2_length _ _ _ F1). repeat (split; [assumption||reflexivity|]). unfold get_queue. rewrite Eq, nth_error_app2, H by lia. now rewrite Nat.sub_diag.
Qed.

Lemma lasts_app a b t : lasts (a ++ b) t = lasts a t + lasts b t.
Proof. unfold lasts. rewrite map_app, list_sum_app. reflexivity. Qed.

Lemma lasts_cons x b t : lasts (x :: b) t = last_of x t + lasts b t.
Proof. reflexivity. Qed.

Lemma all_nodes_at q1 x q2 l1 y l2 : length q1 = length l1 -> Permutation (all_nodes (q1 ++ x :: q2) (l1 ++ y :: l2)) (q_nodes x y ++ all_nodes q1 l1 ++ all_nodes q2 l2).
Proof. intros E. rewrite all_nodes_app by exact E. unfold all_nodes at 2. cbn [combine flat_map fst snd]. fold (all_nodes q2 l2). rewrite !app_assoc. apply Permutation_app_tail, Permutation_app_comm. Qed.

Lemma inv_ext shape s fin D C C' : (forall t, C' t = C t) -> inv shape s fin D C -> inv shape s fin D C'.
Proof. intros H (A & B). split; [exact A|]. eapply tinv_ext; [|exact B]. intros t. cbn beta. now rewrite H. Qed.

Lemma inv_set_queues shape s fin D C qs : inv shape s fin D C -> inv shape (set_queues s qs) fin D C.
Proof. intros ((A & B & E) & [P Q]). split; [split; [exact A|split; [exact B|exact E]]|split; [exact P|exact Q]]. Qed.

(** A call on queue [i] that leaves all else alone *)
Lemma rel_line s0 s w l1 l l2 q1 q q2 (i : nat) l' q' (h : nat -> nat) :
  Forall2 match_q q1 l1 -> Forall2 match_q q2 l2 -> lines w = l1 ++ l :: l2 -> length l1 = i -> queues s0 = q1 ++ q :: q2 -> kept s0 s -> next_task s0 = length (made w) -> match_q q' l' ->
  inv (has w) s (finished w) (q_nodes q' l' ++ all_nodes q1 l1 ++ all_nodes q2 l2) (fun t => h t + (lasts l1 t + lasts l2 t) + last_of l' t) ->
  let w' := line_up (mkWorld (made w) (finished w) h (lines w)) i l' in
  (forall t, length (made w) <= t -> references w' t = 0) ->
  rel (set_queues s (put_queue (queues s) i q')) w'.
Proof.
  intros F1 F2 El Li Eq (Kq & Kt & Kn) Nt M I w' Z. pose proof (forall2_length _ _ _ F1) as L1. subst i. unfold w' in *. rewrite (line_up_at _ l1 l l' l2) in * by exact El. cbn [made finished held] in *.
  rewrite Kq, Eq, <- L1, put_queue_at. split; [|split; [|split]]; cbn [set_queues queues lines made next_task].
  - apply Forall2_app; [exact F1|]. constructor; [exact M|exact F2].
  - apply inv_set_queues. eapply inv_perm; [symmetry; apply all_nodes_at; exact L1|]. eapply inv_ext; [|exact I]. intros t. unfold others. cbn [held lines]. rewrite lasts_app, lasts_cons. lia.
  - congruence.
  - exact Z.
Qed.

Lemma ones_none M : ones (map (fun n => (n, None)) M) = map (fun n => (n, mkNode 1 None)) M.
Proof. unfold ones. rewrite map_map. reflexivity. Qed.

Lemma managed_none (M : list (nat * option nat)) : (forall x, In x M -> snd x = None) -> M = map (fun n => (n, None)) (map fst M).
Proof. induction M as [|[n o] M IH]; intros H; cbn [map fst]; [reflexivity|]. pose proof (H (n, o) (or_introl eq_refl)) as E. cbn [snd] in E. subst o. f_equal. apply IH. intros x I. apply H. now right. Qed.

Lemma references_lines w l1 x l2 t : lines w = l1 ++ x :: l2 -> references w t = held w t + list_sum (map (fun q => in_line q t) l1) + in_line x t + list_sum (map (fun q => in_line q t) l2).
Proof. intros E. unfold references. rewrite E, map_app, list_sum_app. cbn [map]. rewrite list_sum_cons. lia. Qed.

(** ** Taking a task out *)
Lemma take_ok s w i l q l1 l2 q1 q2 h sel (l0 : option waiters) :
  Forall2 match_q q1 l1 -> Forall2 match_q q2 l2 -> lines w = l1 ++ l0 :: l2 -> length l1 = i -> (exists oq, queues s = q1 ++ oq :: q2) -> next_task s = length (made w) ->
  match_q (Some q) (Some l) -> last l = None ->
  inv (has w) s (finished w) (q_nodes (Some q) (Some l) ++ all_nodes q1 l1 ++ all_nodes q2 l2) (fun t => h t + (lasts l1 t + lasts l2 t)) ->
  (forall t, length (made w) <= t -> h t + list_sum (map (fun q => in_line q t) l1) + in_line (Some l) t + list_sum (map (fun q => in_line q t) l2) = 0) ->
  let '(l', h', r) := match waiting l with
    | [] => (mkWaiters (serial l) [] None, h, None)
    | t :: k => (mkWaiters (serial l) k (if serial l then Some t else None), (fun u => if u =? t then S (h t) else h u), Some t) end in
  exists s', take s i q sel = Some (s', r, []) /\ rel s' (line_up (mkWorld (made w) (finished w) h' (lines w)) i (Some l')).
Proof.
  intros F1 F2 El Li (oq & Eq) Nt M Nl I Z. destruct M as (Ms & Ml & Mp & Mc). unfold take. destruct q as [ser hd P Mn la]. cbn [q_serial q_last q_pending q_head q_managed q_nodes] in *. subst ser la.
  rewrite Nl in *. set (M0 := map (fun n => (n, @None nat)) Mn) in *. assert (EM : Mn = map fst M0) by (unfold M0; rewrite map_map; cbn [fst]; now rewrite map_id).
  assert (N0 : forall x, In x M0 -> snd x = None). { intros x Ix. unfold M0 in Ix. apply in_map_iff in Ix as (n & <- & _). reflexivity. }
  pose proof (pop_node_ok (has w) (finished w) _ s (serial l) hd None P (waiting l) M0 None _ sel Mp I) as H. rewrite <- EM in H.
  destruct P as [|n P], (waiting l) as [|t W] eqn:EW; cbn [length] in Mp; try discriminate.
  - destruct H as (s' & M' & ev & E & I' & K & A & Le & Mem). rewrite E.
    assert (NM : forall x, In x M' -> snd x = None) by (intros x Ix; auto).
    assert (Ev : ev = []).
    { eapply acc_same; [|exact A]. intros u. unfold total. f_equal. rewrite !carried_app. f_equal. unfold nodes_of. rewrite !carried_cons, !carried_app. f_equal. f_equal.
      rewrite (managed_none M' NM). rewrite (managed_none M0 N0). rewrite !ones_none. clear. assert (X : forall l, carried (map (fun n : nat => (n, mkNode 1 None)) l) u = 0) by (induction l as [|a l IH]; [reflexivity|]; cbn [map]; rewrite carried_cons; exact IH). now rewrite !X. }
    subst ev. eexists. split; [reflexivity|].
    eapply (rel_line s s' w l1 l0 l2 q1 oq q2 i (Some (mkWaiters (serial l) [] None)) (Some _) h F1 F2 El Li Eq K Nt).
    + cbn [match_q]. repeat split.
    + cbn [q_nodes q_head q_pending q_managed waiting last_of last is]. rewrite <- (managed_none M' NM). eapply inv_ext; [|exact I']. intros u. cbn beta. lia.
    + intros u Hu. pose proof (Z u Hu) as Zu. cbn [in_line] in Zu. rewrite EW, Nl in Zu. subst i. rewrite (line_up_at _ l1 l0 _ l2) by exact El.
      rewrite (references_lines _ l1 (Some (mkWaiters (serial l) [] None)) l2) by reflexivity. cbn [held in_line waiting last]. lia.
  - destruct H as (s1 & M' & ev & E & I1 & K1 & A & Le & Mem). rewrite E.
    assert (NM : forall x, In x M' -> snd x = None) by (intros x Ix; destruct (Mem x Ix) as [->|Iy]; [reflexivity|auto]).
    assert (Ev : ev = []).
    { eapply acc_same; [|exact A]. intros u. unfold total. f_equal. unfold nodes_of, twos. cbn [combine map fst snd app]. rewrite !carried_cons, !carried_app. cbn [n_task is]. fold (twos P W).
      rewrite (managed_none M' NM). rewrite (managed_none M0 N0). rewrite !ones_none.
      assert (X : forall l, carried (map (fun n : nat => (n, mkNode 1 None)) l) u = 0) by (clear; induction l as [|a l IH]; [reflexivity|]; cbn [map]; rewrite carried_cons; exact IH). rewrite !X. lia. }
    subst ev. assert (En : nodes s1 n = Some (mkNode 2 (Some t))) by (apply I1; now left). rewrite En. cbn [n_refs n_task].
    assert (I2 : inv (has w) (set_node s1 n (Some (mkNode 2 None))) (finished w) ((n, mkNode 2 None) :: twos P W ++ ones M' ++ all_nodes q1 l1 ++ all_nodes q2 l2) (fun u => (if u =? t then S (h t) else h u) + (lasts l1 u + lasts l2 u))).
    { destruct I1 as (NI & TI). split; [eapply ninv_set; exact NI|]. eapply (tinv_ext _ _ _ (fun u => h u + (lasts l1 u + lasts l2 u) + carried ((n, mkNode 2 (Some t)) :: twos P W ++ ones M' ++ all_nodes q1 l1 ++ all_nodes q2 l2) u)).
      - intros u. cbn beta. rewrite !carried_cons. cbn [n_task is]. destruct (Nat.eqb_spec u t) as [->|Ne]; [rewrite Nat.eqb_refl; lia|]. destruct (Nat.eqb_spec t u); [congruence|]. lia.
      - destruct TI as [TP TQ]. split; [exact TP|exact TQ]. }
    destruct (free_more (has w) _ (finished w) n 0 None _ _ I2) as (s2 & F3 & I3 & K3). rewrite F3. cbn [q_serial].
    assert (K2 : kept s s2). { eapply kept_trans; [exact K1|]. destruct K3 as (X1 & X2 & X3). repeat split; [exact X1|exact X2|exact X3]. }
    assert (ZZ : forall x u, length (made w) <= u -> (x = None \/ x = Some t) -> references (line_up (mkWorld (made w) (finished w) (fun v => if v =? t then S (h t) else h v) (lines w)) i (Some (mkWaiters (serial l) W x))) u = 0).
    { intros x u Hu Hx. pose proof (Z u Hu) as Zu. cbn [in_line] in Zu. rewrite EW, Nl in Zu. cbn [is] in Zu.
      assert (Ne : t <> u). { intros ->. cbn [count_occ] in Zu. destruct (Nat.eq_dec u u); [lia|contradiction]. }
      subst i. rewrite (line_up_at _ l1 l0 _ l2) by exact El. rewrite (references_lines _ l1 (Some (mkWaiters (serial l) W x)) l2) by reflexivity. cbn [held in_line waiting last].
      destruct (Nat.eqb_spec u t); [congruence|]. cbn [count_occ] in Zu. destruct (Nat.eq_dec t u); [congruence|]. destruct Hx as [->| ->]; cbn [is]; [lia|]. destruct (Nat.eqb_spec t u); [congruence|lia]. }
    destruct (serial l) eqn:Se.
    + assert (Tt : exists c, (if t =? t then S (h t) else h t) + (lasts l1 t + lasts l2 t) + carried ((n, mkNode 1 None) :: twos P W ++ ones M' ++ all_nodes q1 l1 ++ all_nodes q2 l2) t = S c). { rewrite Nat.eqb_refl. eexists. cbn [Nat.add]. reflexivity. }
      destruct Tt as (c & Tt). destruct I3 as (NI3 & TI3). destruct (retain_ok (has w) s2 (finished w) _ t c TI3 Tt) as (s3 & R3 & TI4 & Sm). rewrite R3. eexists. split; [reflexivity|].
      assert (K4 : kept s s3). { eapply kept_trans; [exact K2|]. destruct Sm as (_ & ? & ? & ?). repeat split; assumption. }
      unfold set_last. cbn [q_serial q_head q_pending q_managed].
      eapply (rel_line s s3 w l1 l0 l2 q1 oq q2 i (Some (mkWaiters true W (Some t))) (Some _) _ F1 F2 El Li Eq K4 Nt).
      * cbn [match_q q_serial q_last q_pending serial last waiting]. split; [reflexivity|]. split; [reflexivity|]. split; [lia|discriminate].
      * cbn [q_nodes q_head q_pending q_managed waiting last_of last is]. rewrite <- (managed_none M' NM). unfold nodes_of. cbn [app]. rewrite <- app_assoc. split; [eapply ninv_same; [exact Sm|exact NI3]|].
        eapply tinv_ext; [|exact TI4]. intros u. unfold more. cbn beta. destruct (Nat.eqb_spec u t) as [->|Ne]; [rewrite Nat.eqb_refl; lia|]. destruct (Nat.eqb_spec t u); [congruence|]. lia.
      * intros u Hu. apply ZZ; auto.
    + eexists. split; [reflexivity|]. eapply (rel_line s s2 w l1 l0 l2 q1 oq q2 i (Some (mkWaiters false W None)) (Some _) _ F1 F2 El Li Eq K2 Nt).
      * cbn [match_q q_serial q_last q_pending serial last waiting]. split; [reflexivity|]. split; [reflexivity|]. split; [lia|reflexivity].
      * cbn [q_nodes q_head q_pending q_managed waiting last_of last is]. rewrite <- (managed_none M' NM). unfold nodes_of. cbn [app]. rewrite <- app_assoc. eapply inv_ext; [|exact I3]. intros u. cbn beta. lia.
      * intros u Hu. apply ZZ; auto.
Qed.

(** ** The calls *)
Lemma held_total s w t : rel s w -> 0 < held w t -> exists c, total (others w) (all_nodes (queues s) (lines w)) t = S c.
Proof. intros _ H. unfold total, others. destruct (held w t) as [|c]; [lia|]. eexists. cbn [Nat.add]. reflexivity. Qed.

Lemma references_hold w t n u : references (hold w t n) u + (if u =? t then held w t else 0) = references w u + (if u =? t then n else 0).
Proof. unfold references, hold. cbn [held lines]. destruct (Nat.eqb_spec u t) as [->|]; lia. Qed.

Lemma made_held s w t : rel s w -> 0 < held w t -> t < length (made w).
Proof. intros (_ & _ & _ & Z) H. destruct (Nat.lt_ge_cases t (length (made w))); [assumption|]. pose proof (Z t ltac:(assumption)) as X. unfold references in X. lia. Qed.

Lemma retain_step s w t : rel s w -> 0 < held w t -> exists s', retain_task s t = Some s' /\ rel s' (hold w t (S (held w t))) /\ accounted w (hold w t (S (held w t))) [].
Proof.
  intros R H. destruct (held_total s w t R H) as (c & Ec). pose proof (made_held s w t R H) as Lt. destruct R as (F & (NI & TI) & Nt & Z).
  destruct (retain_ok (has w) s (finished w) _ t c TI Ec) as (s' & E & TI' & Sm). exists s'. split; [exact E|]. split.
  - destruct Sm as (Sn & Sq & St & Sx). split; [cbn [hold lines]; rewrite Sq; exact F|]. split; [split|split].
    + cbn [hold lines]. rewrite Sq. eapply ninv_same; [|exact NI]. repeat split; assumption.
    + cbn [hold finished lines]. rewrite Sq. eapply tinv_ext; [|exact TI']. intros u. unfold more, others. cbn [hold held lines]. destruct (Nat.eqb_spec u t) as [->|]; lia.
    + cbn [hold made]. congruence.
    + intros u Hu. cbn [hold made] in Hu. pose proof (references_hold w t (S (held w t)) u) as X. rewrite (Z u Hu) in X. destruct (Nat.eqb_spec u t); lia.
  - apply accounted_acc. intros u d. pose proof (references_hold w t (S (held w t)) u) as X. cbn [times filter length]. destruct (Nat.eqb_spec u t) as [->|Ne].
    + destruct (references (hold w t (S (held w t))) t) eqn:E0; [lia|]. rewrite andb_false_r. reflexivity.
    + assert (E1 : references (hold w t (S (held w t))) u = references w u) by lia. rewrite E1. destruct (references w u); reflexivity.
Qed.

Lemma destroy_step s w t : rel s w -> 0 < held w t -> exists s' ev, free_task s t = Some (s', ev) /\ rel s' (hold w t (held w t - 1)) /\ accounted w (hold w t (held w t - 1)) ev.
Proof.
  intros R H. destruct (held_total s w t R H) as (c & Ec). pose proof (made_held s w t R H) as Lt. destruct R as (F & (NI & TI) & Nt & Z).
  destruct (free_task_ok (has w) s (finished w) _ t c TI Ec) as (s' & ev & E & TI' & Sm & A). exists s', ev. split; [exact E|]. split.
  - destruct Sm as (Sn & Sq & St & Sx). split; [cbn [hold lines]; rewrite Sq; exact F|]. split; [split|split].
    + cbn [hold lines]. rewrite Sq. eapply ninv_same; [|exact NI]. repeat split; assumption.
    + cbn [hold finished lines]. rewrite Sq. eapply tinv_ext; [|exact TI']. intros u. unfold less, others. cbn [hold held lines]. destruct (Nat.eqb_spec u t) as [->|]; lia.
    + cbn [hold made]. congruence.
    + intros u Hu. cbn [hold made] in Hu. pose proof (references_hold w t (held w t - 1) u) as X. rewrite (Z u Hu) in X. destruct (Nat.eqb_spec u t); lia.
  - apply accounted_acc. eapply acc_ext; [| |exact A].
    + intros u. rewrite (references_total s w u F). reflexivity.
    + intros u. pose proof (references_hold w t (held w t - 1) u) as X. rewrite (references_total s w u F) in X. unfold less, total in X |- *. destruct (Nat.eqb_spec u t) as [E0|]; [subst u|]; lia.
Qed.

Lemma accounted_same w w' : (forall t, references w' t = references w t) -> accounted w w' [].
Proof. intros H t d. rewrite H. cbn [times filter length]. destruct (references w t); reflexivity. Qed.

Lemma run_step s w t : rel s w -> 0 < held w t -> let w' := mkWorld (made w) (fun u => if u =? t then true else finished w u) (held w) (lines w) in
  exists s', run_task s t = Some s' /\ rel s' w' /\ accounted w w' [].
Proof.
  intros R H w'. destruct (held_total s w t R H) as (c & Ec). destruct R as (F & (NI & [TA TB]) & Nt & Z). change (total (others w) (all_nodes (queues s) (lines w)) t = S c) in Ec. unfold total in Ec.
  unfold run_task. rewrite TA, Ec. cbn [t_input t_output t_refs].
  assert (Al : forall d, alive s (has w t d) t d = true). { intros d. unfold alive. rewrite TB, Ec. destruct (has w t d); reflexivity. }
  rewrite !Al. eexists. split; [reflexivity|]. split; [|now apply accounted_same].
  split; [exact F|]. split; [split|split; [exact Nt|exact Z]].
  - destruct NI as (P & Q & X). split; [exact P|]. split; [exact Q|exact X].
  - split; intros u; [|intros d]; cbn [set_task tasks datas queues]; change (others w') with (others w); change (lines w') with (lines w); change (finished w') with (fun v => if v =? t then true else finished w v); cbn beta.
    + destruct (Nat.eqb_spec u t) as [->|Ne]; [now rewrite Ec|apply TA].
    + apply TB.
Qed.

Lemma has_snoc w i u t d : t <> length (made w) -> has (mkWorld (made w ++ [(i, u)]) (finished w) (fun v => if v =? length (made w) then 1 else held w v) (lines w)) t d = has w t d.
Proof.
  intros Ne. unfold has. cbn [made]. destruct (Nat.lt_ge_cases t (length (made w))) as [L|L]; [now rewrite nth_error_app1|].
  rewrite nth_error_app2 by lia. rewrite (proj2 (nth_error_None (made w) t)) by lia. destruct (t - length (made w)) as [|k] eqn:E; [lia|]. now destruct k.
Qed.

Lemma create_step s w i u oi ou : rel s w -> implb i oi && implb u ou = true -> let t := length (made w) in
  let w' := mkWorld (made w ++ [(i, u)]) (finished w) (fun v => if v =? t then 1 else held w v) (lines w) in
  exists s', create s i u true oi ou = Some (s', Some t, []) /\ (finished w t = false -> rel s' w') /\ accounted w w' [].
Proof.
  intros (F & (NI & [TA TB]) & Nt & Z) Ok t w'. apply andb_true_iff in Ok as (Oi & Ou). unfold create. rewrite Nt. fold t.
  assert (Ei : i && negb oi = false) by (destruct i, oi; try reflexivity; discriminate). assert (Eu : u && negb ou = false) by (destruct u, ou; try reflexivity; discriminate).
  rewrite Ei, Eu. eexists. split; [reflexivity|].
  assert (Zt : others w t = 0 /\ carried (all_nodes (queues s) (lines w)) t = 0 /\ held w t = 0). { pose proof (Z t (le_n _)) as X. pose proof (references_total s w t F) as Y. unfold total in Y. unfold references in X. unfold references in Y. unfold others in *. lia. }
  destruct Zt as (Z1 & Z2 & Z3).
  assert (Hs : forall v d, v <> t -> has w' v d = has w v d) by (intros v d Nv; apply has_snoc; exact Nv).
  assert (Ht : forall d, has w' t d = match d with Input => i | Output => u end). { intros d. unfold has, w'. cbn [made]. unfold t. rewrite nth_error_app2, Nat.sub_diag by lia. reflexivity. }
  assert (Oth : forall v, others w' v = if v =? t then 1 else others w v). { intros v. unfold others, w'. cbn [held lines]. unfold others in Z1. destruct (Nat.eqb_spec v t) as [->|]; lia. }
  assert (Rf : forall v, references w' v = if v =? t then 1 else references w v). { intros v. pose proof (Z t (le_n _)) as X. unfold references, w' in *. cbn [held lines]. destruct (Nat.eqb_spec v t) as [->|]; lia. }
  split.
  - intros Fn. split; [|split; [split|split]].
    + destruct i, u; cbn [set_task set_data queues w' lines]; exact F.
    + destruct NI as (P & Q & X). split; [destruct i, u; exact P|]. split; [destruct i, u; exact Q|destruct i, u; exact X].
    + split; intros v; [|intros d]; rewrite Oth.
      * destruct (Nat.eqb_spec v t) as [->|Nv].
        -- replace (1 + carried (all_nodes _ (lines w')) t) with 1. { rewrite !Ht. destruct i, u; cbn [set_task set_data tasks w' finished]; rewrite Nat.eqb_refl, ?Fn; reflexivity. }
           destruct i, u; cbn [set_task set_data queues w' lines]; rewrite Z2; reflexivity.
        -- rewrite !Hs by exact Nv. transitivity (tasks s v); [destruct i, u; cbn [set_task set_data tasks]; destruct (Nat.eqb_spec v t); try contradiction; reflexivity|].
           rewrite TA. destruct i, u; reflexivity.
      * destruct (Nat.eqb_spec v t) as [->|Nv].
        -- replace (1 + carried (all_nodes _ (lines w')) t) with 1 by (destruct i, u; cbn [set_task set_data queues w' lines]; rewrite Z2; reflexivity).
           rewrite Ht. assert (D0 : datas s t d = None) by (rewrite TB, Z1, Z2; reflexivity). destruct i, u, d; cbn [set_task set_data datas side_eqb andb]; rewrite ?Nat.eqb_refl, ?andb_false_r; cbn [andb]; rewrite ?D0; reflexivity.
        -- rewrite Hs by exact Nv. transitivity (datas s v d); [destruct i, u; cbn [set_task set_data datas]; destruct (Nat.eqb_spec v t); try contradiction; reflexivity|].
           rewrite TB. destruct i, u; reflexivity.
    + destruct i, u; cbn [set_task set_data next_task w' made]; rewrite app_length; cbn [length]; unfold t; lia.
    + intros v Hv. cbn [w' made] in Hv. rewrite app_length in Hv. cbn [length] in Hv. rewrite Rf. destruct (Nat.eqb_spec v t) as [->|]; [unfold t in Hv; lia|]. apply Z. lia.
  - intros v d. rewrite Rf. cbn [times filter length]. destruct (Nat.eqb_spec v t) as [->|Nv].
    + rewrite Z by (unfold t; lia). reflexivity.
    + destruct (references w v); reflexivity.
Qed.

Lemma ninv_new s D n x (ts : nat -> option task) ds qs nt : ninv s D -> n = next_node s ->
  ninv (mkState ds ts (fun m => if m =? n then Some x else nodes s m) qs nt (S n)) ((n, x) :: D).
Proof.
  intros (A & B & C) ->. split; [|split].
  - cbn [map fst]. constructor; [|exact A]. intros I. apply in_map_iff in I as ([m y] & E & I). cbn [fst] in E. subst m. pose proof (C _ _ I). lia.
  - intros m y. cbn [nodes]. destruct (Nat.eqb_spec m (next_node s)) as [->|Ne].
    + split; [intros [= <-]; now left|]. intros [E|I]; [congruence|]. pose proof (C _ _ I). lia.
    + rewrite B. split; [now right|]. intros [E|I]; [congruence|exact I].
  - intros m y. cbn [next_node]. intros [E|I]; [injection E as <- <-; lia|]. pose proof (C _ _ I). lia.
Qed.

Lemma create_queue_step s w ser : rel s w -> let w' := mkWorld (made w) (finished w) (held w) (lines w ++ [Some (mkWaiters ser [] None)]) in
  rel (create_queue s ser) w' /\ length (queues s) = length (lines w) /\ accounted w w' [].
Proof.
  intros (F & (NI & TI) & Nt & Z) w'. pose proof (forall2_length _ _ _ F) as L.
  assert (Rf : forall t, references w' t = references w t). { intros t. unfold references, w'. cbn [held lines]. rewrite map_app, list_sum_app. cbn [map in_line waiting last count_occ is list_sum fold_right]. lia. }
  split; [|split; [exact L|now apply accounted_same]]. unfold create_queue. split; [|split; [split|split]]; cbn [queues w' lines next_task made].
  - apply Forall2_app; [exact F|]. constructor; [|constructor]. cbn [match_q]. repeat split.
  - rewrite all_nodes_app by exact L. eapply ninv_perm; [apply Permutation_app_comm|]. cbn [all_nodes combine flat_map fst snd q_nodes nodes_of q_head q_pending q_managed waiting twos ones map app]. eapply ninv_new; [exact NI|reflexivity].
  - rewrite all_nodes_app by exact L. destruct TI as [TA TB].
    assert (X : forall t, others w' t + carried (all_nodes (queues s) (lines w) ++ all_nodes [Some (mkQueue ser (next_node s) [] [] None)] [Some (mkWaiters ser [] None)]) t = others w t + carried (all_nodes (queues s) (lines w)) t).
    { intros t. unfold others, w'. cbn [held lines]. rewrite lasts_app, carried_app. cbn. lia. }
    split; intros t; [|intros d]; cbn [tasks datas]; rewrite X; [apply TA|apply TB].
  - exact Nt.
  - intros t Ht. rewrite Rf. apply Z. exact Ht.
Qed.

Lemma push_step s w i t l : rel s w -> line_at w i = Some l -> 0 < held w t -> let w' := line_up (hold w t (held w t - 1)) i (Some (mkWaiters (serial l) (waiting l ++ [t]) (last l))) in
  exists s', push s i t true = Some s' /\ rel s' w' /\ accounted w w' [].
Proof.
  intros R E H w'. pose proof (made_held s w t R H) as Lt. destruct R as (F & I & Nt & Z). destruct (split_at s w i l F E) as (q1 & q & q2 & l1 & l2 & Eq & El & Lq & Ll & F1 & F2 & M & Eg).
  unfold push. rewrite Eg. eexists. split; [reflexivity|].
  assert (Rf : forall u, references w' u = references w u).
  { intros u. unfold w'. rewrite <- Ll. rewrite (line_up_at _ l1 (Some l) _ l2) by exact El. rewrite (references_lines _ l1 (Some (mkWaiters (serial l) (waiting l ++ [t]) (last l))) l2) by reflexivity. rewrite (references_lines w l1 (Some l) l2) by exact El. cbn [held hold in_line waiting last]. rewrite count_occ_app. cbn [count_occ]. destruct (Nat.eqb_spec u t) as [->|Ne]; destruct (Nat.eq_dec t u) || destruct (Nat.eq_dec t t); subst; try contradiction; try congruence; lia. }
  split; [|now apply accounted_same]. destruct M as (Ms & Ml & Mp & Mc).
  set (n := next_node s). set (s1 := mkState (datas s) (tasks s) (fun m => if m =? n then Some (mkNode 2 (Some t)) else nodes s m) (queues s) (next_task s) (S n)).
  assert (Es : mkState (datas s) (tasks s) (fun m => if m =? n then Some (mkNode 2 (Some t)) else nodes s m) (put_queue (queues s) i (Some (mkQueue (q_serial q) (q_head q) (q_pending q ++ [n]) (q_managed q) (q_last q)))) (next_task s) (S n)
    = set_queues s1 (put_queue (queues s1) i (Some (mkQueue (q_serial q) (q_head q) (q_pending q ++ [n]) (q_managed q) (q_last q))))) by reflexivity.
  rewrite Es. unfold w', hold.
  eapply (rel_line s1 s1 w l1 (Some l) l2 q1 (Some q) q2 i _ _ _ F1 F2 El Ll Eq); [repeat split|exact Nt| | |].
  - cbn [match_q q_serial q_last q_pending serial last waiting]. rewrite !app_length. repeat split; auto.
  - cbn [q_nodes q_head q_pending q_managed waiting].
    assert (Pm : Permutation ((n, mkNode 2 (Some t)) :: all_nodes (queues s) (lines w)) (nodes_of (q_head q) None (q_pending q ++ [n]) (waiting l ++ [t]) (map (fun k => (k, None)) (q_managed q)) ++ all_nodes q1 l1 ++ all_nodes q2 l2)).
    { rewrite Eq, El. rewrite (all_nodes_at q1 (Some q) q2 l1 (Some l) l2) by lia. cbn [q_nodes]. unfold nodes_of, twos. cbn [app]. rewrite perm_swap. apply perm_skip.
      assert (Ec : combine (q_pending q ++ [n]) (waiting l ++ [t]) = combine (q_pending q) (waiting l) ++ [(n, t)]).
      { clear - Mp. revert Mp. generalize (waiting l). induction (q_pending q) as [|a P IH]; intros [|b W] Mp; cbn [length] in Mp; try discriminate; [reflexivity|]. cbn [app combine]. rewrite IH by lia. reflexivity. }
      rewrite Ec, map_app. cbn [map fst snd]. rewrite <- !app_assoc. cbn [app]. apply Permutation_middle. }
    eapply inv_perm; [exact Pm|]. destruct I as (NI & [TA TB]). split; [eapply ninv_new; [exact NI|reflexivity]|].
    assert (X : forall u, (if u =? t then held w t - 1 else held w u) + (lasts l1 u + lasts l2 u) + last_of (Some (mkWaiters (serial l) (waiting l ++ [t]) (last l))) u + carried ((n, mkNode 2 (Some t)) :: all_nodes (queues s) (lines w)) u = others w u + carried (all_nodes (queues s) (lines w)) u).
    { intros u. rewrite carried_cons. unfold others. rewrite El at 2. rewrite lasts_app, lasts_cons. cbn [last_of last n_task is]. destruct (Nat.eqb_spec u t) as [->|Ne]; [rewrite Nat.eqb_refl; lia|]. destruct (Nat.eqb_spec t u); [congruence|lia]. }
    split; intros u; [|intros d]; cbn [s1 tasks datas]; rewrite X; [apply TA|apply TB].
  - intros u Hu. fold (hold w t (held w t - 1)). fold w'. rewrite Rf. apply Z. exact Hu.
Qed.

Lemma pop_step s w i sel l w' r : rel s w -> line_at w i = Some l -> move w (Pop i sel) = Some (w', r) ->
  exists s' ev t, r = RTask t /\ pop s i sel = Some (s', t, ev) /\ rel s' w' /\ accounted w w' ev.
Proof.
  intros R E Mv. assert (R0 := R). destruct R as (F & I & Nt & Z). destruct (split_at s w i l F E) as (q1 & q & q2 & l1 & l2 & Eq & El & Lq & Ll & F1 & F2 & M & Eg).
  cbn [move] in Mv. rewrite E in Mv. unfold pop. rewrite Eg. assert (M0 := M). destruct M as (Ms & Ml & Mp & Mc). rewrite Ms, Ml.
  assert (Zw : forall t, length (made w) <= t -> held w t + list_sum (map (fun q => in_line q t) l1) + in_line (Some l) t + list_sum (map (fun q => in_line q t) l2) = 0).
  { intros t Ht. rewrite <- (references_lines w l1 (Some l) l2 t El). apply Z. exact Ht. }
  assert (Pm : Permutation (all_nodes (queues s) (lines w)) (q_nodes (Some q) (Some l) ++ all_nodes q1 l1 ++ all_nodes q2 l2)). { rewrite Eq, El. apply all_nodes_at. lia. }
  pose proof (inv_perm _ _ _ _ _ _ Pm I) as I'.
  destruct (last l) as [t0|] eqn:Ela.
  - assert (Se : serial l = true) by (destruct (serial l); [reflexivity|]; specialize (Mc eq_refl); discriminate). rewrite Se in *.
    destruct I' as (NI & TI).
    assert (T0 : exists c, others w t0 + carried (q_nodes (Some q) (Some l) ++ all_nodes q1 l1 ++ all_nodes q2 l2) t0 = S c).
    { unfold others. rewrite El, lasts_app, lasts_cons. cbn [last_of]. rewrite Ela. cbn [is]. rewrite Nat.eqb_refl. exists (held w t0 + lasts l1 t0 + lasts l2 t0 + carried (q_nodes (Some q) (Some l) ++ all_nodes q1 l1 ++ all_nodes q2 l2) t0). lia. }
    destruct T0 as (c & T0). rewrite (TI_task _ _ _ _ TI t0). cbn beta. rewrite T0. cbn [t_finished].
    destruct (finished w t0) eqn:Fi; cbn [negb] in Mv.
    + destruct (free_task_ok (has w) s (finished w) _ t0 c TI T0) as (s1 & ev & Fr & TI1 & Sm & A). rewrite Fr.
      assert (X : forall t, less (fun t => others w t + carried (q_nodes (Some q) (Some l) ++ all_nodes q1 l1 ++ all_nodes q2 l2) t) t0 t = held w t + (lasts l1 t + lasts l2 t) + carried (q_nodes (Some q) (Some l) ++ all_nodes q1 l1 ++ all_nodes q2 l2) t).
      { intros t. unfold less, others. rewrite El, lasts_app, lasts_cons. cbn [last_of]. rewrite Ela. cbn [is]. destruct (Nat.eqb_spec t t0) as [->|Ne]; [rewrite Nat.eqb_refl; lia|]. destruct (Nat.eqb_spec t0 t); [congruence|lia]. }
      pose proof (take_ok s1 w i (mkWaiters true (waiting l) None) (set_last q None) l1 l2 q1 q2 (held w) sel (Some l) F1 F2 El Ll) as T.
      destruct Sm as (Sn & Sq & St & Sx). specialize (T (ex_intro _ (Some q) (eq_trans Sq Eq)) (eq_trans St Nt)).
      specialize (T (conj Ms (conj eq_refl (conj Mp (fun _ => eq_refl))))). specialize (T eq_refl).
      assert (IT : inv (has w) s1 (finished w) (q_nodes (Some (set_last q None)) (Some (mkWaiters true (waiting l) None)) ++ all_nodes q1 l1 ++ all_nodes q2 l2) (fun t => held w t + (lasts l1 t + lasts l2 t))).
      { split; [eapply ninv_same; [|exact NI]; repeat split; assumption|]. eapply tinv_ext; [|exact TI1]. intros t. rewrite X. reflexivity. }
      specialize (T IT). specialize (T ltac:(intros t Ht; pose proof (Zw t Ht) as Y; cbn [in_line waiting last is] in *; lia)). cbn [waiting serial] in T.
      assert (AC : forall x h', (forall t, (references (line_up (mkWorld (made w) (finished w) h' (lines w)) i x) t =? 0) = (held w t + (lasts l1 t + lasts l2 t) + carried (q_nodes (Some q) (Some l) ++ all_nodes q1 l1 ++ all_nodes q2 l2) t =? 0)) ->
        accounted w (line_up (mkWorld (made w) (finished w) h' (lines w)) i x) (ev ++ [])).
      { intros x h' H. rewrite app_nil_r. intros t d. change (has (line_up (mkWorld (made w) (finished w) h' (lines w)) i x) t d) with (has w t d). rewrite H, (references_total s w t F). rewrite <- X. unfold total. rewrite (carried_perm _ _ t Pm). apply A. }
      assert (CQ : forall t, list_sum (map (fun q => in_line q t) l1) + list_sum (map (fun q => in_line q t) l2) + count_occ Nat.eq_dec (waiting l) t = lasts l1 t + lasts l2 t + carried (q_nodes (Some q) (Some l) ++ all_nodes q1 l1 ++ all_nodes q2 l2) t).
      { intros t. rewrite !carried_app. pose proof (carried_all q1 l1 t F1). pose proof (carried_all q2 l2 t F2). pose proof (carried_q (Some q) (Some l) t M0) as Y. cbn [last_of in_line] in Y. rewrite Ela in Y. lia. }
      destruct (waiting l) as [|t W] eqn:EW; injection Mv as <- <-.
      * destruct T as (s' & Tk & Rl). rewrite Tk. eexists _, _, _. split; [reflexivity|]. split; [reflexivity|]. split; [destruct w; exact Rl|].
        destruct w as [mw fw hw lw]. cbn [made finished held lines] in *. apply AC. intros t. rewrite <- Ll, (line_up_at _ l1 (Some l) _ l2) by exact El. rewrite (references_lines _ l1 (Some (mkWaiters true [] None)) l2) by reflexivity. cbn [held in_line waiting last is count_occ]. specialize (CQ t). cbn [count_occ] in CQ. f_equal. lia.
      * destruct T as (s' & Tk & Rl). rewrite Tk. eexists _, _, _. split; [reflexivity|]. split; [reflexivity|]. split; [exact Rl|].
        unfold hold. apply AC. intros u. rewrite <- Ll, (line_up_at _ l1 (Some l) _ l2) by exact El. rewrite (references_lines _ l1 (Some (mkWaiters true W (Some t))) l2) by reflexivity. cbn [held in_line waiting last is]. specialize (CQ u). cbn [count_occ] in CQ.
        destruct (Nat.eqb_spec u t) as [->|Ne].
        -- destruct (Nat.eq_dec t t); [|contradiction]. rewrite (proj2 (Nat.eqb_neq _ 0)) by lia. symmetry. apply Nat.eqb_neq. lia.
        -- destruct (Nat.eqb_spec t u); [congruence|]. destruct (Nat.eq_dec t u); [congruence|]. f_equal. lia.
    + injection Mv as <- <-. eexists _, _, _. split; [reflexivity|]. split; [reflexivity|]. split; [exact R0|]. now apply accounted_same.
  - pose proof (take_ok s w i l q l1 l2 q1 q2 (held w) sel (Some l) F1 F2 El Ll (ex_intro _ (Some q) Eq) Nt M0 Ela) as T.
    assert (IT : inv (has w) s (finished w) (q_nodes (Some q) (Some l) ++ all_nodes q1 l1 ++ all_nodes q2 l2) (fun t => held w t + (lasts l1 t + lasts l2 t))).
    { eapply inv_ext; [|exact I']. intros t. unfold others. rewrite El, lasts_app, lasts_cons. cbn [last_of]. rewrite Ela. cbn [is]. lia. }
    specialize (T IT Zw).
    assert (G : exists s' t, r = RTask t /\ take s i q sel = Some (s', t, []) /\ rel s' w' /\ accounted w w' []).
    { destruct (waiting l) as [|t W] eqn:EW; injection Mv as <- <-; destruct T as (s' & Tk & Rl); eexists _, _; (split; [reflexivity|]); (split; [exact Tk|]); (split; [destruct w; exact Rl|]).
      - apply accounted_same. intros t. rewrite <- Ll, (line_up_at _ l1 (Some l) _ l2) by exact El. rewrite (references_lines _ l1 (Some (mkWaiters (serial l) [] None)) l2) by reflexivity. rewrite (references_lines w l1 (Some l) l2 t El). cbn [held in_line waiting last]. rewrite EW, Ela. lia.
      - destruct (serial l).
        + (* a serial queue takes one reference more *)
          intros u d. change (has (line_up _ _ _) u d) with (has w u d). rewrite <- Ll, (line_up_at _ l1 (Some l) _ l2) by exact El. rewrite (references_lines w l1 (Some l) l2 u El). rewrite (references_lines _ l1 (Some (mkWaiters true W (Some t))) l2) by reflexivity.
          cbn [held hold in_line waiting last is times filter length]. rewrite EW, Ela. cbn [is count_occ]. destruct (Nat.eqb_spec u t) as [->|Ne].
          * cbn [Nat.add Nat.eqb]. rewrite andb_false_r. reflexivity.
          * destruct (Nat.eqb_spec t u); [congruence|]. destruct (Nat.eq_dec t u); [congruence|]. rewrite Nat.add_0_r. destruct (held w u + _ + _ + _); reflexivity.
        + apply accounted_same. intros u. rewrite <- Ll, (line_up_at _ l1 (Some l) _ l2) by exact El. rewrite (references_lines _ l1 (Some (mkWaiters false W None)) l2) by reflexivity. rewrite (references_lines w l1 (Some l) l2 u El). cbn [held hold in_line waiting last is]. rewrite EW, Ela. cbn [is count_occ].
          destruct (Nat.eqb_spec u t) as [->|Ne]; [destruct (Nat.eq_dec t t); [lia|contradiction]|]. destruct (Nat.eq_dec t u); [congruence|lia]. }
    destruct G as (s' & t & -> & Tk & Rl & Ac). exists s', [], t. split; [reflexivity|]. split; [destruct (serial l); exact Tk|]. split; assumption.
Qed.

Lemma destroy_queue_step s w i sel l : rel s w -> line_at w i = Some l -> exists s' ev, destroy_queue s i sel = Some (s', ev) /\ rel s' (line_up w i None) /\ accounted w (line_up w i None) ev.
Proof.
  intros (F & I & Nt & Z) E. destruct (split_at s w i l F E) as (q1 & q & q2 & l1 & l2 & Eq & El & Lq & Ll & F1 & F2 & M & Eg). assert (M0 := M). destruct M as (Ms & Ml & Mp & Mc).
  unfold destroy_queue. rewrite Eg.
  assert (Pm : Permutation (all_nodes (queues s) (lines w)) (q_nodes (Some q) (Some l) ++ all_nodes q1 l1 ++ all_nodes q2 l2)). { rewrite Eq, El. apply all_nodes_at. lia. }
  pose proof (inv_perm _ _ _ _ _ _ Pm I) as I'. set (D := all_nodes q1 l1 ++ all_nodes q2 l2) in *.
  destruct q as [ser hd P Mn la]. cbn [q_serial q_last q_pending q_head q_managed q_nodes] in *. set (M1 := map (fun n => (n, @None nat)) Mn) in *. assert (EM : Mn = map fst M1) by (unfold M1; rewrite map_map; cbn [fst]; now rewrite map_id).
  destruct (drain_ok (has w) (finished w) (others w) ser la sel D P (S (length P)) (waiting l) s hd None M1 Mp ltac:(lia) I') as (s1 & hd' & h' & M' & ev1 & Dr & I1 & K1 & A1 & Le1).
  rewrite <- EM in Dr. rewrite Dr. cbn [q_head q_managed q_last].
  destruct (free_last (has w) s1 (finished w) hd' h' (ones M' ++ D) (others w) I1) as (s2 & ev2 & Fr & I2 & K2 & A2). rewrite Fr.
  destruct (reclaim_ok (has w) (finished w) (others w) (sel 0 ++ map fst M') s2 M' D I2) as (s3 & M3 & ev3 & Rc & I3 & K3 & A3 & Le3 & Mem). rewrite Rc.
  assert (E3 : M3 = []). { destruct M3 as [|x M3]; [reflexivity|]. destruct (proj1 (Mem x) (or_introl eq_refl)) as (Ix & Nx). exfalso. apply Nx. apply in_app_iff. right. now apply in_map. }
  subst M3. cbn [ones map app] in I3, A3.
  assert (A123 : acc (has w) (total (others w) (nodes_of hd None P (waiting l) M1 ++ D)) (total (others w) D) (ev1 ++ ev2 ++ ev3)).
  { eapply acc_app; [| |exact A1|eapply acc_app; [| |exact A2|exact A3]].
    - intros u. unfold total. rewrite !carried_app. specialize (Le1 u). lia.
    - intros u. unfold total. rewrite carried_app. lia.
    - intros u. unfold total, nodes_of, twos. cbn [combine map app]. rewrite carried_cons. lia.
    - intros u. unfold total. rewrite carried_app. lia. }
  assert (G : exists s4 ev4, match la with Some t => free_task s3 t | None => Some (s3, []) end = Some (s4, ev4) /\
    inv (has w) s4 (finished w) D (fun t => held w t + (lasts l1 t + lasts l2 t)) /\ kept s3 s4 /\
    acc (has w) (total (others w) D) (fun t => held w t + (lasts l1 t + lasts l2 t) + carried D t) ev4).
  { destruct I3 as (NI & TI). assert (Ot : forall t, others w t = held w t + (lasts l1 t + lasts l2 t) + is la t). { intros t. unfold others. rewrite El, lasts_app, lasts_cons. cbn [last_of]. rewrite Ml. lia. }
    destruct la as [t|].
    - destruct (free_task_ok (has w) s3 (finished w) _ t (held w t + (lasts l1 t + lasts l2 t) + carried D t) TI) as (s4 & ev4 & Fr4 & TI4 & Sm & A4). { rewrite Ot. cbn [is]. rewrite Nat.eqb_refl. lia. }
      assert (X : forall u, less (fun t0 => others w t0 + carried D t0) t u = held w u + (lasts l1 u + lasts l2 u) + carried D u). { intros u. unfold less. rewrite Ot. cbn [is]. destruct (Nat.eqb_spec u t) as [->|Ne]; [rewrite Nat.eqb_refl; lia|]. destruct (Nat.eqb_spec t u); [congruence|lia]. }
      exists s4, ev4. split; [exact Fr4|]. split; [split; [eapply ninv_same; [exact Sm|exact NI]|]|split].
      + eapply tinv_ext; [|exact TI4]. intros u. now rewrite X.
      + destruct Sm as (_ & ? & ? & ?). repeat split; assumption.
      + eapply acc_ext; [reflexivity|exact X|exact A4].
    - exists s3, []. split; [reflexivity|]. split; [split; [exact NI|]|split; [repeat split|]].
      + eapply tinv_ext; [|exact TI]. intros u. cbn beta. rewrite Ot. cbn [is]. lia.
      + apply acc_nil. intros u. unfold total. rewrite Ot. cbn [is]. lia. }
  destruct G as (s4 & ev4 & Fl & I4 & K4 & A4). rewrite Fl. eexists _, _. split; [reflexivity|].
  assert (Kt : kept s s4) by (eapply kept_trans; [exact K1|eapply kept_trans; [exact K2|eapply kept_trans; [exact K3|exact K4]]]).
  assert (Rf : forall t, references (line_up w i None) t = held w t + (lasts l1 t + lasts l2 t) + carried D t).
  { intros t. rewrite <- Ll, (line_up_at _ l1 (Some l) _ l2) by exact El. rewrite (references_lines _ l1 None l2) by reflexivity. cbn [held in_line]. unfold D. rewrite carried_app. pose proof (carried_all q1 l1 t F1). pose proof (carried_all q2 l2 t F2). lia. }
  assert (Rg : forall t, references w t = total (others w) (nodes_of hd None P (waiting l) M1 ++ D) t). { intros t. rewrite (references_total s w t F). unfold total. now rewrite (carried_perm _ _ t Pm). }
  split.
  - pose proof (rel_line s s4 w l1 (Some l) l2 q1 (Some (mkQueue ser hd P Mn la)) q2 i None None (held w) F1 F2 El Ll Eq Kt Nt Logic.I) as RL. cbn [q_nodes app last_of] in RL. destruct w as [mw fw hw lw]. cbn [made finished held lines] in *. apply RL.
    + eapply inv_ext; [|exact I4]. intros t. cbn beta. lia.
    + intros t Ht. rewrite Rf. pose proof (Z t Ht) as Y. rewrite Rg in Y. unfold total in Y. rewrite carried_app in Y. unfold others in Y. cbn [held lines] in Y. rewrite El, lasts_app, lasts_cons in Y. lia.
  - apply accounted_acc. change (has (line_up w i None)) with (has w). replace (ev1 ++ ev2 ++ ev3 ++ ev4) with ((ev1 ++ ev2 ++ ev3) ++ ev4) by (rewrite <- !app_assoc; reflexivity).
    eapply acc_ext; [intros t; symmetry; apply Rg|intros t; symmetry; apply Rf|]. eapply acc_app; [| |exact A123|exact A4].
    + intros t. unfold total. rewrite carried_app. lia.
    + intros t. unfold total, others. rewrite El, lasts_app, lasts_cons. lia.
Qed.

(** ** Histories *)
Definition good (s : state) (w : world) : Prop := rel s w /\ forall t, length (made w) <= t -> finished w t = false.

Lemma step_ok s w o w' r : good s w -> move w o = Some (w', r) -> exists s' ev, step s o = Some (s', (r, ev)) /\ good s' w' /\ accounted w w' ev.
Proof.
  intros (R & Fn) Mv. destruct o as [i u ok oi ou|t|t|t|t|ser|i sel|i t ok|i sel]; cbn [step].
  - cbn [move] in Mv. destruct ok; cbn [negb] in Mv.
    + destruct (implb i oi && implb u ou) eqn:E; [|discriminate]. injection Mv as <- <-. destruct (create_step s w i u oi ou R E) as (s' & Cr & Rl & Ac). rewrite Cr. eexists _, _. split; [reflexivity|]. split; [split|exact Ac].
      * apply Rl. apply Fn. lia.
      * intros t Ht. cbn [made finished] in *. rewrite app_length in Ht. apply Fn. lia.
    + injection Mv as <- <-. eexists _, _. split; [reflexivity|]. split; [now split|now apply accounted_same].
  - cbn [move] in Mv. destruct (Nat.ltb_spec 0 (held w t)) as [H|]; [|discriminate]. injection Mv as <- <-. destruct (retain_step s w t R H) as (s' & E & Rl & Ac). rewrite E. eexists _, _. split; [reflexivity|]. split; [split; [exact Rl|exact Fn]|exact Ac].
  - cbn [move] in Mv. destruct (Nat.ltb_spec 0 (held w t)) as [H|]; [|discriminate]. injection Mv as <- <-. destruct (destroy_step s w t R H) as (s' & ev & E & Rl & Ac). rewrite E. eexists _, _. split; [reflexivity|]. split; [split; [exact Rl|exact Fn]|exact Ac].
  - cbn [move] in Mv. destruct (Nat.ltb_spec 0 (held w t)) as [H|]; [|discriminate]. injection Mv as <- <-. destruct (run_step s w t R H) as (s' & E & Rl & Ac). rewrite E. eexists _, _. split; [reflexivity|]. split; [split; [exact Rl|]|exact Ac].
    intros v Hv. cbn [made finished] in *. pose proof (made_held s w t R H). destruct (Nat.eqb_spec v t); [lia|]. apply Fn. exact Hv.
  - cbn [move] in Mv. destruct (Nat.ltb_spec 0 (held w t)) as [H|]; [|discriminate]. injection Mv as <- <-. destruct (held_total s w t R H) as (c & Ec). destruct R as (F & (NI & TI) & Nt & Z). rewrite (TI_task _ _ _ _ TI t). unfold total in Ec. rewrite Ec. cbn [t_finished].
    eexists _, _. split; [reflexivity|]. split; [|now apply accounted_same]. split; [|exact Fn]. split; [exact F|]. split; [split; assumption|]. split; assumption.
  - cbn [move] in Mv. injection Mv as <- <-. destruct (create_queue_step s w ser R) as (Rl & L & Ac). rewrite <- L. eexists _, _. split; [reflexivity|]. split; [split; [exact Rl|exact Fn]|exact Ac].
  - cbn [move] in Mv. destruct (line_at w i) as [l|] eqn:E; [|discriminate]. injection Mv as <- <-. destruct (destroy_queue_step s w i sel l R E) as (s' & ev & D & Rl & Ac). rewrite D. eexists _, _. split; [reflexivity|]. split; [split; [exact Rl|exact Fn]|exact Ac].
  - cbn [move] in Mv. destruct (line_at w i) as [l|] eqn:E; [|discriminate]. destruct ok; rewrite ?andb_true_r, ?andb_false_r in Mv; [|discriminate]. destruct (Nat.ltb_spec 0 (held w t)) as [H|]; [|discriminate]. injection Mv as <- <-.
    destruct (push_step s w i t l R E H) as (s' & P & Rl & Ac). rewrite P. eexists _, _. split; [reflexivity|]. split; [split; [exact Rl|exact Fn]|exact Ac].
  - assert (X : exists l, line_at w i = Some l). { cbn [move] in Mv. destruct (line_at w i) as [l|]; [eauto|discriminate]. } destruct X as (l & E).
    destruct (pop_step s w i sel l w' r R E Mv) as (s' & ev & t & -> & P & Rl & Ac). rewrite P. eexists _, _. split; [reflexivity|]. split; [split; [exact Rl|]|exact Ac].
    cbn [move] in Mv. rewrite E in Mv. destruct (match last l with Some t => negb (finished w t) | None => false end); [injection Mv as <- _; exact Fn|]. destruct (waiting l); injection Mv as <- _; exact Fn.
Qed.

Lemma good_init : good init start.
Proof.
  split; [|reflexivity]. split; [constructor|]. split; [split; [split; [constructor|split; [intros n x; cbn; split; [discriminate|contradiction]|contradiction]]|]|split; reflexivity].
  split; intros; reflexivity.
Qed.

Lemma run_ok ops : forall s w w', good s w -> moves w ops = Some w' -> exists s' outs, TaskOwnerModel.run s ops = Some (s', outs) /\ follows w ops outs /\ good s' w'.
Proof.
  induction ops as [|o ops IH]; intros s w w' G E; cbn [moves TaskOwnerModel.run follows] in *; [injection E as <-; exists s, []; (split; [reflexivity|]); (split; [exact Logic.I|exact G])|].
  destruct (move w o) as [[w1 r]|] eqn:Em; [|discriminate]. destruct (step_ok s w o w1 r G Em) as (s1 & ev & E1 & G1 & Ac). rewrite E1. destruct (IH s1 w1 w' G1 E) as (s' & outs & E' & Fo & G'). rewrite E'.
  exists s', ((r, ev) :: outs). split; [reflexivity|]. split; [|exact G']. exists w1. auto.
Qed.

Lemma good_gone s w : good s w -> (forall t, references w t = 0 -> tasks s t = None /\ forall d, datas s t d = None) /\ (Forall (fun q => q = None) (lines w) -> forall n, nodes s n = None).
Proof.
  intros ((F & (NI & [TA TB]) & Nt & Z) & _). split.
  - intros t H. rewrite (references_total s w t F) in H. unfold total in H. split; [|intros d]; rewrite ?TA, ?TB, H; reflexivity.
  - intros H n. destruct (nodes s n) as [x|] eqn:E; [|reflexivity]. apply NI in E. exfalso. clear - F H E. revert H E. induction F as [|oq ol qs ls M F IH]; intros H E; [exact E|].
    inversion_clear H as [|? ? H1 H2]. subst ol. destruct oq; [contradiction|]. exact (IH H2 E).
Qed.

(** ** Each destructor once *)
Lemma line_split (w : world) i l : line_at w i = Some l -> exists l1 l2, lines w = l1 ++ Some l :: l2 /\ length l1 = i.
Proof. unfold line_at. destruct (nth_error (lines w) i) as [[l0|]|] eqn:E; try discriminate. intros [= ->]. apply nth_error_split in E as (l1 & l2 & E & L). exists l1, l2. auto. Qed.

Lemma move_facts w o w1 r : move w o = Some (w1, r) ->
  (exists e, made w1 = made w ++ e) /\ (forall t, length (made w) <= t < length (made w1) -> 0 < references w1 t) /\ (forall t, t < length (made w) -> references w t = 0 -> references w1 t = 0).
Proof.
  intros Mv. assert (Q : made w1 = made w -> (forall t, t < length (made w) -> references w t = 0 -> references w1 t = 0) ->
    (exists e, made w1 = made w ++ e) /\ (forall t, length (made w) <= t < length (made w1) -> 0 < references w1 t) /\ (forall t, t < length (made w) -> references w t = 0 -> references w1 t = 0)).
  { intros E H. split; [exists []; now rewrite app_nil_r|]. split; [|exact H]. intros t Ht. rewrite E in Ht. lia. }
  assert (HP : forall t, 0 < held w t -> references w t <> 0) by (intros t H; unfold references; lia).
  destruct o as [i u ok oi ou|t|t|t|t|ser|i sel|i t ok|i sel]; cbn [move] in Mv.
  - destruct ok; cbn [negb] in Mv; [|injection Mv as <- <-; apply Q; auto]. destruct (implb i oi && implb u ou); [|discriminate]. injection Mv as <- <-. cbn [made]. split; [now eexists|]. unfold references. cbn [held lines]. rewrite app_length. cbn [length]. split; intros v Hv.
    + destruct (Nat.eqb_spec v (length (made w))); lia.
    + destruct (Nat.eqb_spec v (length (made w))); lia.
  - destruct (Nat.ltb_spec 0 (held w t)) as [H|]; [|discriminate]. injection Mv as <- <-. apply Q; [reflexivity|]. intros u _ E. pose proof (references_hold w t (S (held w t)) u) as X. pose proof (HP t H). destruct (Nat.eqb_spec u t) as [->|]; lia.
  - destruct (Nat.ltb_spec 0 (held w t)) as [H|]; [|discriminate]. injection Mv as <- <-. apply Q; [reflexivity|]. intros u _ E. pose proof (references_hold w t (held w t - 1) u) as X. pose proof (HP t H). destruct (Nat.eqb_spec u t) as [->|]; lia.
  - destruct (Nat.ltb_spec 0 (held w t)) as [H|]; [|discriminate]. injection Mv as <- <-. apply Q; [reflexivity|]. intros u _ E. exact E.
  - destruct (Nat.ltb_spec 0 (held w t)) as [H|]; [|discriminate]. injection Mv as <- <-. apply Q; auto.
  - injection Mv as <- <-. apply Q; [reflexivity|]. intros t _ E. unfold references in *. cbn [held lines]. rewrite map_app, list_sum_app. cbn. lia.
  - destruct (line_at w i) as [l|] eqn:E; [|discriminate]. injection Mv as <- <-. apply Q; [reflexivity|]. intros t _ Et. destruct (line_split w i l E) as (l1 & l2 & El & <-). rewrite (line_up_at _ l1 (Some l) _ l2) by exact El. rewrite (references_lines w l1 (Some l) l2 t El) in Et. rewrite (references_lines _ l1 None l2) by reflexivity. cbn [held in_line]. lia.
  - destruct (line_at w i) as [l|] eqn:E; [|discriminate]. destruct ok; rewrite ?andb_true_r, ?andb_false_r in Mv; [|discriminate]. destruct (Nat.ltb_spec 0 (held w t)) as [H|]; [|discriminate]. injection Mv as <- <-. apply Q; [reflexivity|]. intros u _ Et. pose proof (HP t H) as Ht.
    destruct (line_split w i l E) as (l1 & l2 & El & <-). rewrite (line_up_at _ l1 (Some l) _ l2) by exact El. assert (Nu : u <> t) by congruence. rewrite (references_lines w l1 (Some l) l2 u El) in Et. rewrite (references_lines _ l1 (Some (mkWaiters (serial l) (waiting l ++ [t]) (last l))) l2) by reflexivity. cbn [held hold in_line waiting last] in *. rewrite count_occ_app. cbn [count_occ].
    destruct (Nat.eqb_spec u t); [contradiction|]. destruct (Nat.eq_dec t u); [congruence|]. lia.
  - destruct (line_at w i) as [l|] eqn:E; [|discriminate]. destruct (match last l with Some t => negb (finished w t) | None => false end); [injection Mv as <- <-; apply Q; auto|]. destruct (line_split w i l E) as (l1 & l2 & El & <-). destruct (waiting l) as [|t W] eqn:EW; injection Mv as <- <-; (apply Q; [reflexivity|]); intros u _ Et.
    + rewrite (line_up_at _ l1 (Some l) _ l2) by exact El. rewrite (references_lines w l1 (Some l) l2 u El) in Et. rewrite (references_lines _ l1 (Some (mkWaiters (serial l) [] None)) l2) by reflexivity. cbn [held in_line waiting last is count_occ]. lia.
    + rewrite (line_up_at _ l1 (Some l) _ l2) by exact El. rewrite (references_lines w l1 (Some l) l2 u El) in Et. rewrite (references_lines _ l1 (Some (mkWaiters (serial l) W (if serial l then Some t else None))) l2) by reflexivity. cbn [held hold in_line waiting last] in *. rewrite EW in Et. cbn [count_occ] in Et.
      destruct (Nat.eq_dec t u); [lia|]. destruct (Nat.eqb_spec u t); [congruence|]. destruct (serial l); cbn [is]; [destruct (Nat.eqb_spec t u); [congruence|]|]; lia.
Qed.

Lemma has_made w t d : has w t d = true -> t < length (made w).
Proof. unfold has. destruct (nth_error (made w) t) eqn:E; [|discriminate]. intros _. apply nth_error_Some. congruence. Qed.

Lemma has_grows w w1 t d : (exists e, made w1 = made w ++ e) -> t < length (made w) -> has w1 t d = has w t d.
Proof. intros (e & E) L. unfold has. rewrite E, nth_error_app1 by exact L. reflexivity. Qed.

Lemma moves_dead ops t d : forall w w', moves w ops = Some w' -> t < length (made w) -> t < length (made w') /\ has w' t d = has w t d /\ (references w t = 0 -> references w' t = 0).
Proof.
  induction ops as [|o ops IH]; intros w w' E L; cbn [moves] in E; [injection E as <-; auto|]. destruct (move w o) as [[w1 r]|] eqn:Em; [|discriminate]. destruct (move_facts w o w1 r Em) as (Ex & _ & De).
  assert (L1 : t < length (made w1)) by (destruct Ex as (e & ->); rewrite app_length; lia). destruct (IH w1 w' E L1) as (A & B & C). split; [exact A|]. split; [rewrite B; now apply has_grows|]. auto.
Qed.

Lemma once ops : forall s w w' outs, good s w -> moves w ops = Some w' -> follows w ops outs -> forall t d,
  times (t, d) (all_events outs) = if (has w' t d && (references w' t =? 0) && negb ((t <? length (made w)) && (references w t =? 0)))%bool then 1 else 0.
Proof.
  induction ops as [|o ops IH]; intros s w w' outs G E Fo t d.
  - cbn [moves] in E. injection E as <-. destruct outs as [|[r ev] outs]; [|contradiction]. cbn [all_events times filter length]. destruct (has w t d) eqn:H; [|reflexivity]. apply has_made in H. destruct (Nat.ltb_spec t (length (made w))); [|lia]. destruct (references w t =? 0); reflexivity.
  - cbn [moves] in E. destruct outs as [|[r ev] outs]; [contradiction|]. cbn [follows] in Fo. destruct Fo as (w1 & Em & Ac & Fo). rewrite Em in E. destruct (step_ok s w o w1 r G Em) as (s1 & ev' & _ & G1 & _).
    cbn [all_events]. rewrite times_app, (IH s1 w1 w' outs G1 E Fo t d), Ac. destruct (move_facts w o w1 r Em) as (Ex & Nw & De). destruct G as ((_ & _ & _ & Z) & _).
    destruct (Nat.ltb_spec t (length (made w))) as [L|L].
    + assert (L1 : t < length (made w1)) by (destruct Ex as (e & ->); rewrite app_length; lia). destruct (Nat.ltb_spec t (length (made w1))); [|lia]. cbn [andb].
      destruct (moves_dead ops t d w1 w' E L1) as (_ & Hh & Dd). rewrite Hh. specialize (De t L).
      destruct (references w t) as [|n] eqn:R0; cbn [Nat.ltb Nat.leb andb Nat.eqb negb].
      * rewrite De by reflexivity. cbn [Nat.eqb negb]. rewrite !andb_false_r. reflexivity.
      * destruct (references w1 t) as [|n1] eqn:R1; cbn [Nat.eqb negb andb]; rewrite ?andb_true_r, ?andb_false_r; [|reflexivity]. rewrite Dd by reflexivity. cbn [Nat.eqb]. rewrite andb_true_r. destruct (has w1 t d); reflexivity.
    + rewrite (Z t L). change (0 <? 0) with false. cbn [andb negb]. rewrite andb_true_r. destruct (Nat.ltb_spec t (length (made w1))) as [L1|L1]; cbn [andb negb].
      * specialize (Nw t ltac:(lia)). destruct (references w1 t); [lia|]. cbn [Nat.eqb negb]. rewrite andb_true_r. reflexivity.
      * rewrite andb_true_r. reflexivity.
Qed.
