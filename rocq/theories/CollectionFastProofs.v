(** The fast array implementation obeys the laws. *)
From Verif Require Import Base CollectionModel CollectionSpec CollectionLedgerProofs CollectionGenericProofs.
From Verif Require ArrayModel ArraySpec ArrayProofs.

Section F.
Context {A : Type}.
Implicit Types (l : ledger A) (a : ArrayModel.array A) (xs : list A).

Definition holds a xs : Prop := ArrayProofs.rep a (map Some xs).

Lemma holds_count a xs : holds a xs -> ArrayModel.count a = length xs.
Proof. intros (_ & H & _). now rewrite H, map_length. Qed.

Lemma arr_append_ok a xs x ok : holds a xs ->
  exists a' i, arr_append a x ok = Some (a', i) /\
    ((i = Z.of_nat (length xs) /\ holds a' (xs ++ [x])) \/ (ok = false /\ i = (-1)%Z /\ holds a' xs)).
Proof.
  intros H. unfold arr_append.
  destruct (ArrayProofs.step_sim a _ (ArrayModel.Append (Some x)) ok H I) as (a' & r & l' & E & S & H'). rewrite E.
  destruct S as [[-> ->]|(-> & _ & -> & ->)].
  - exists a', (Z.of_nat (length xs)). rewrite map_length. split; auto. left. split; auto. unfold holds. now rewrite map_app.
  - exists a', (-1)%Z. auto.
Qed.

Lemma arr_insert_ok a xs i x ok : holds a xs -> i < length xs ->
  exists a' j, arr_insert a i x ok = Some (a', j) /\
    ((j = Z.of_nat i /\ holds a' (insert_at xs i [x])) \/ (ok = false /\ j = (-1)%Z /\ holds a' xs)).
Proof.
  intros H Hi. unfold arr_insert.
  destruct (ArrayProofs.step_sim a _ (ArrayModel.Insert i (Some x)) ok H) as (a' & r & l' & E & S & H').
  { cbn. now rewrite (holds_count a xs H). }
  rewrite E. destruct S as [[-> ->]|(-> & _ & -> & ->)].
  - exists a', (Z.of_nat i). split; auto. left. split; auto. unfold holds. now rewrite map_insert_at.
  - exists a', (-1)%Z. auto.
Qed.

Lemma arr_replace_ok a xs i x : holds a xs -> i < length xs ->
  exists a', arr_replace a i x = Some a' /\ holds a' (upd xs i x).
Proof.
  intros H Hi. unfold arr_replace.
  destruct (ArrayProofs.step_sim a _ (ArrayModel.Replace i (Some x)) true H) as (a' & r & l' & E & S & H').
  { cbn. now rewrite (holds_count a xs H). }
  rewrite E. destruct S as [[-> ->]|(Q & _)]; [|discriminate]. exists a'. split; auto. unfold holds. now rewrite map_upd.
Qed.

Lemma arr_remove_ok a xs i : holds a xs -> i < length xs ->
  exists a', arr_remove a (Z.of_nat i) = Some a' /\ holds a' (remove_at xs i 1).
Proof.
  intros H Hi. unfold arr_remove. destruct (Z.ltb_spec (Z.of_nat i) 0); [lia|]. rewrite Nat2Z.id.
  destruct (ArrayProofs.step_sim a _ (ArrayModel.RemoveMany i 1) true H) as (a' & r & l' & E & S & H').
  { cbn. rewrite (holds_count a xs H). lia. }
  rewrite E. destruct S as [[-> ->]|(Q & _)]; [|discriminate]. exists a'. split; auto. unfold holds. now rewrite map_remove_at.
Qed.

Lemma arr_get_ok a xs i x : holds a xs -> nth_error xs i = Some x -> arr_get a (Z.of_nat i) = Some x.
Proof.
  intros H Hi. unfold arr_get. destruct (Z.ltb_spec (Z.of_nat i) 0); [lia|]. rewrite Nat2Z.id.
  pose proof (ArrayProofs.rep_holds a _ H) as [_ G]. rewrite (G i x); [reflexivity|]. now rewrite nth_error_map, Hi.
Qed.

(** ** The batch enumerator *)
Section Enum.
Context (a : ArrayModel.array A) (l : ledger A) (H : holds a (elements l)).

Local Notation pos i := (Batch (length l) (Z.of_nat i)).

Lemma batch_len : ArrayModel.count a = length l.
Proof using H. rewrite (holds_count a _ H). apply map_length. Qed.

Lemma batch_get i : i < length l -> exists x, nth_error (elements l) i = Some x /\ arr_get a (Z.of_nat i) = Some x.
Proof using H.
  intros Hi. destruct (nth_entries l i Hi) as (e & x & _ & _ & Ex). exists x. split; auto. now apply (arr_get_ok a (elements l)).
Qed.

Lemma batch_head e0 : exists e, batch_enumerator a e0 Head = Some (e, nth_error (elements l) 0) /\
  (l <> [] -> e = pos 0) /\ (l = [] -> batch_enumerator a e Current = Some (e, None)).
Proof using H.
  unfold batch_enumerator. rewrite batch_len. destruct (Nat.eqb_spec (length l) 0) as [Z|N].
  - apply length_zero_iff_nil in Z. rewrite Z. cbn. eexists. split; [reflexivity|]. split; [congruence|auto].
  - destruct (batch_get 0 ltac:(lia)) as (x & Ex & G).
    change 0%Z with (Z.of_nat 0). rewrite G, Ex. eexists. split; [reflexivity|]. split; [reflexivity|].
    intros Q. now rewrite Q in N.
Qed.

Lemma batch_tail e0 : exists e, batch_enumerator a e0 Tail = Some (e, nth_error (elements l) (length l - 1)) /\
  (l <> [] -> e = pos (length l - 1)).
Proof using H.
  unfold batch_enumerator. rewrite batch_len. destruct (Nat.eqb_spec (length l) 0) as [Z|N].
  - apply length_zero_iff_nil in Z. rewrite Z. eexists. split; [reflexivity|]. congruence.
  - destruct (batch_get (length l - 1) ltac:(lia)) as (x & Ex & G).
    replace (Z.of_nat (length l) - 1)%Z with (Z.of_nat (length l - 1)) by lia. rewrite G, Ex.
    eexists. split; [reflexivity|]. reflexivity.
Qed.

Lemma batch_current i : i < length l -> batch_enumerator a (pos i) Current = Some (pos i, nth_error (elements l) i).
Proof using H.
  intros Hi. unfold batch_enumerator. destruct (Nat.eqb_spec (length l) 0); [lia|].
  destruct (batch_get i Hi) as (x & Ex & G). rewrite G, Ex. reflexivity.
Qed.

Lemma batch_next i : i < length l -> exists e, batch_enumerator a (pos i) Next = Some (e, nth_error (elements l) (i + 1)) /\
  (i + 1 < length l -> e = pos (i + 1)).
Proof using H.
  intros Hi. unfold batch_enumerator. destruct (Nat.eqb_spec (length l) 0); [lia|].
  destruct (Z.ltb_spec (Z.of_nat i + 1) (Z.of_nat (length l))) as [Q|Q].
  - destruct (batch_get (i + 1) ltac:(lia)) as (x & Ex & G).
    replace (Z.of_nat i + 1)%Z with (Z.of_nat (i + 1)) by lia. rewrite G, Ex. eauto.
  - assert (N : nth_error (elements l) (i + 1) = None) by (apply nth_error_None; unfold elements; rewrite map_length; lia).
    rewrite N. eexists. split; [reflexivity|]. lia.
Qed.

Lemma batch_prev i : i < length l ->
  exists e, batch_enumerator a (pos i) Previous = Some (e, if i =? 0 then None else nth_error (elements l) (i - 1)) /\
    (0 < i -> e = pos (i - 1)).
Proof using H.
  intros Hi. unfold batch_enumerator. destruct (Nat.eqb_spec (length l) 0); [lia|].
  destruct (Z.ltb_spec 0 (Z.of_nat i)) as [Q|Q].
  - destruct (batch_get (i - 1) ltac:(lia)) as (x & Ex & G). destruct (Nat.eqb_spec i 0); [lia|].
    replace (Z.of_nat i - 1)%Z with (Z.of_nat (i - 1)) by lia. rewrite G, Ex. eauto.
  - destruct (Nat.eqb_spec i 0); [|lia]. eexists. split; [reflexivity|]. lia.
Qed.
End Enum.

(** ** The fast array *)
Definition fast_rep a l : Prop := holds a (elements l) /\ entries l = seq 1 (length l).

Lemma fast_wf a l : fast_rep a l -> well_formed FastArrayBacked l.
Proof.
  intros [_ E]. unfold well_formed. rewrite E. split; [apply seq_NoDup|]. split; auto. rewrite in_seq. lia.
Qed.

Lemma fast_nth a l i e : fast_rep a l -> nth_error (entries l) i = Some e -> e = i + 1 /\ i < length l.
Proof.
  intros [_ E] H. rewrite E in H. pose proof (nth_error_Some_lt _ _ _ H) as Q. rewrite seq_length in Q.
  split; auto. apply (nth_error_nth _ _ 0) in H. rewrite seq_nth in H by auto. lia.
Qed.

Lemma fast_in a l e : fast_rep a l -> In e (entries l) -> exists i, e = i + 1 /\ i < length l /\ nth_error (entries l) i = Some e.
Proof.
  intros R H. destruct (In_nth_error _ _ H) as [i Hi]. exists i. destruct (fast_nth a l i e R Hi). auto.
Qed.

Lemma fast_renumber a (k : list (option entry * A)) : holds a (map snd k) -> fast_rep a (renumber k).
Proof. intros H. split; [now rewrite renumber_elements|]. now rewrite renumber_entries, renumber_length. Qed.

Lemma fast_inserted a a' l i x al j ok :
  fast_rep a l -> i <= length l -> ok = grow_ok al ->
  (j = Z.of_nat i /\ holds a' (insert_at (elements l) i [x])) \/ (ok = false /\ j = (-1)%Z /\ holds a' (elements l)) ->
  inserted FastArrayBacked fast_rep l i x al (Some (a', Z.to_nat (j + 1))).
Proof.
  intros R Hi -> [[-> H]|(B & -> & H)]; exists a'; eexists; (split; [reflexivity|]).
  - left. replace (Z.to_nat (Z.of_nat i + 1)) with (i + 1) by lia. cbn [renew]. split; [lia|]. split.
    + apply fast_renumber. rewrite map_insert_at, keep_snd. exact H.
    + rewrite renumber_entries, insert_at_length, keep_length. cbn [length].
      rewrite nth_error_nth' with (d := 0) by (rewrite seq_length; lia). rewrite seq_nth by lia. f_equal. lia.
  - right. split; [reflexivity|]. split; [unfold good; now rewrite B|]. split; [exact H|apply R].
Qed.

Lemma fast_append_ok a l x al : fast_rep a l -> inserted FastArrayBacked fast_rep l (length l) x al (fast_insert a x al).
Proof.
  intros R. unfold fast_insert. destruct (arr_append_ok a (elements l) x (grow_ok al) (proj1 R)) as (a' & i & E & C). rewrite E.
  apply (fast_inserted a a' l (length l) x al i (grow_ok al)); auto.
  assert (LE : length (elements l) = length l) by apply map_length. rewrite LE in C.
  rewrite <- LE at 2. rewrite insert_at_end. exact C.
Qed.

Lemma fast_insert_at_ok a l x i al : fast_rep a l -> i <= length l -> inserted FastArrayBacked fast_rep l i x al (fast_insert_at a x i al).
Proof.
  intros R Hi. unfold fast_insert_at. assert (LE : length (elements l) = length l) by apply map_length.
  rewrite (holds_count a _ (proj1 R)), LE. destruct (Nat.eqb_spec i (length l)) as [->|N].
  - apply (fast_append_ok a l x al R).
  - destruct (arr_insert_ok a (elements l) i x (grow_ok al) (proj1 R)) as (a' & j & E & C); [lia|]. rewrite E.
    now apply (fast_inserted a a' l i x al j (grow_ok al)).
Qed.

Lemma map_snd_keep l : map snd (keep l) = elements l.
Proof. apply keep_snd. Qed.

Lemma fast_remove_ok a l e : fast_rep a l -> In e (entries l) ->
  exists a', fast_remove a e = Some a' /\ fast_rep a' (renumber (keep (without [e] l))).
Proof.
  intros R H. destruct (fast_in a l e R H) as (i & -> & Hi & En). unfold fast_remove.
  replace (Z.of_nat (i + 1) - 1)%Z with (Z.of_nat i) by lia.
  destruct (arr_remove_ok a (elements l) i (proj1 R)) as (a' & E & H'); [unfold elements; now rewrite map_length|].
  exists a'. split; auto. apply fast_renumber. rewrite keep_snd.
  pose proof (fast_wf a l R) as (D & _). rewrite (without_at l i (i + 1) D En). unfold elements. rewrite map_remove_at. exact H'.
Qed.

Lemma without_app es (l1 l2 : ledger A) : without es (l1 ++ l2) = without es l1 ++ without es l2.
Proof. apply filter_app. Qed.

Lemma without_above es l : (forall e y, In e (entries l) -> In y es -> y < e) -> without es l = l.
Proof.
  intros H. unfold without. induction l as [|p t IH]; [reflexivity|]. cbn [filter].
  assert (E : existsb (Nat.eqb (fst p)) es = false).
  { apply not_true_is_false. rewrite existsb_exists. intros (y & Hy & Q). apply Nat.eqb_eq in Q.
    pose proof (H (fst p) y (or_introl eq_refl) Hy). lia. }
  rewrite E. cbn [negb]. f_equal. apply IH. intros e y He. apply H. now right.
Qed.

Lemma without_snoc es e l : without (es ++ [e]) l = without es (without [e] l).
Proof.
  unfold without. induction l as [|p t IH]; [reflexivity|]. cbn [filter].
  rewrite existsb_app. cbn [existsb]. rewrite orb_false_r.
  destruct (Nat.eqb (fst p) e); cbn [negb filter].
  - rewrite orb_true_r. cbn [negb]. exact IH.
  - rewrite orb_false_r. destruct (existsb (Nat.eqb (fst p)) es); cbn [negb]; [exact IH|]. f_equal. exact IH.
Qed.

Lemma renumber_app (k1 k2 : list (option entry * A)) :
  renumber (k1 ++ k2) = renumber k1 ++ combine (seq (1 + length k1) (length k2)) (map snd k2).
Proof.
  unfold renumber. rewrite app_length, seq_app, map_app.
  assert (G : forall (B C : Type) (x y : list B) (u v : list C), length x = length u -> combine (x ++ y) (u ++ v) = combine x u ++ combine y v).
  { intros B C. induction x as [|b x IH]; intros y [|c u] v E; cbn in *; try discriminate; auto. now rewrite IH by lia. }
  apply G. now rewrite seq_length, map_length.
Qed.

(** Removing ascending entries from the last backwards. *)
Lemma fast_remove_many_ok : forall es a l, fast_rep a l -> incl es (entries l) -> ascending es ->
  exists a', fast_remove_collection a es = Some a' /\ holds a' (elements (without es l)).
Proof.
  intros es. induction es as [|e es IH] using rev_ind; intros a l R S As.
  - exists a. rewrite without_nil. split; [reflexivity|apply R].
  - unfold fast_remove_collection. rewrite rev_app_distr. cbn [rev app fold_left].
    assert (He : In e (entries l)) by (apply S; apply in_or_app; right; now left).
    destruct (fast_in a l e R He) as (i & Ei & Hi & En).
    assert (Lt : forall y, In y es -> y < e).
    { intros y Hy. destruct (In_nth_error _ _ Hy) as [k Hk]. apply (As k (length es)).
      - eapply nth_error_Some_lt, Hk.
      - rewrite nth_error_app1; auto. eapply nth_error_Some_lt, Hk.
      - rewrite nth_error_app2, Nat.sub_diag by auto. reflexivity. }
    destruct (fast_remove_ok a l e R He) as (a1 & E1 & R1). rewrite E1.
    pose proof (fast_wf a l R) as (D & _).
    destruct (nth_entries l i Hi) as (e' & x & Ex & En' & _).
    rewrite En in En'. injection En' as <-.
    destruct (nth_error_split l i Ex) as (la & lb & El & Ella).
    assert (W : without [e] l = la ++ lb).
    { rewrite (without_at l i e D En), El, <- Ella. unfold remove_at. rewrite firstn_app, Nat.sub_diag, firstn_all.
      cbn [firstn]. rewrite app_nil_r, skipn_app. rewrite skipn_all2 by lia. replace (length la + 1 - length la) with 1 by lia. reflexivity. }
    rewrite W in R1.
    assert (Ela : entries la = seq 1 i).
    { pose proof (proj2 R) as Q. rewrite El in Q. unfold entries in Q. rewrite map_app, app_length, seq_app in Q.
      rewrite Ella in Q.
      apply (f_equal (firstn i)) in Q. rewrite !firstn_app, map_length, seq_length, Ella, Nat.sub_diag in Q.
      cbn [firstn] in Q. rewrite !app_nil_r in Q. rewrite <- Ella in Q at 1. rewrite <- (map_length fst) in Q at 1. rewrite firstn_all in Q.
      rewrite firstn_all2 in Q by (rewrite seq_length; lia). exact Q. }
    assert (K : keep (la ++ lb) = keep la ++ keep lb) by (unfold keep; apply map_app).
    rewrite K, renumber_app, keep_length, renumber_keep, Ella in R1 by (now rewrite Ella).
    set (lb' := combine (seq (1 + i) (length (keep lb))) (map snd (keep lb))) in *.
    assert (Elb : elements lb' = elements lb).
    { unfold lb', elements. rewrite map_snd_combine by (now rewrite seq_length, map_length). apply keep_snd. }
    assert (Enb : entries lb' = seq (1 + i) (length (keep lb))).
    { unfold lb', entries. apply map_fst_combine. now rewrite seq_length, map_length. }
    assert (Ab : forall (f : ledger A), (forall c, In c (entries f) -> i < c) -> without es f = f).
    { intros f Hf. apply without_above. intros c y Hc Hy. pose proof (Hf c Hc). pose proof (Lt y Hy). lia. }
    destruct (IH a1 (la ++ lb') R1) as (a2 & E2 & H2).
    + intros y Hy. unfold entries. rewrite map_app. apply in_or_app. left. fold (entries la). rewrite Ela, in_seq.
      pose proof (Lt y Hy). assert (Q : In y (entries l)) by (apply S; apply in_or_app; now left).
      rewrite (proj2 R), in_seq in Q. lia.
    + intros p q b c Hpq Hp Hq. apply (As p q); auto; rewrite nth_error_app1; eauto using nth_error_Some_lt.
    + exists a2. split; [exact E2|]. rewrite without_snoc, W. rewrite without_app in *.
      rewrite (Ab lb') in H2 by (rewrite Enb; intros c; rewrite in_seq; lia).
      rewrite (Ab lb).
      * unfold elements in *. rewrite map_app in *. now rewrite <- Elb.
      * intros c Hc. pose proof (proj2 R) as Q. rewrite El in Q. unfold entries in Q. rewrite map_app in Q. cbn [map fst] in Q.
        destruct (In_nth_error _ _ Hc) as [k Hk].
        assert (Nk : nth_error (entries l) (i + 1 + k) = Some c).
        { rewrite El. unfold entries. rewrite map_app. rewrite nth_error_app2 by (rewrite map_length; lia). rewrite map_length, Ella.
          replace (i + 1 + k - i) with (Datatypes.S k) by lia. exact Hk. }
        destruct (fast_nth a l _ _ R Nk). lia.
Qed.

Lemma fast_remove_all_ok a l : fast_rep a l -> exists a', fast_remove_all a = Some a' /\ fast_rep a' [].
Proof.
  intros R. unfold fast_remove_all.
  destruct (ArrayProofs.step_sim a _ ArrayModel.RemoveAll true (proj1 R) I) as (a' & r & l' & E & S & H'). rewrite E.
  destruct S as [[-> ->]|(Q & _)]; [|discriminate]. exists a'. split; [reflexivity|]. split; [exact H'|reflexivity].
Qed.

Lemma fast_laws : laws FastArrayBacked fast_interface fast_rep.
Proof.
  assert (LE : forall l, length (elements l) = length l) by (intros; apply map_length).
  constructor.
  - exact fast_wf.
  - intros a l R. cbn. now rewrite (holds_count a _ (proj1 R)).
  - intros a l x al R _. now apply fast_append_ok.
  - intros a l x i al R _. now apply fast_insert_at_ok.
  - intros f Hf. injection Hf as <-. intros a l x al R _. now apply fast_append_ok.
  - reflexivity.
  - intros a l e R H. now apply fast_remove_ok.
  - intros a l e x R H. pose proof (fast_wf a l R) as (D & _).
    destruct (fast_in a l e R) as (i & E & Hi & En). { pose proof (lookup_in l e x H) as Q. now apply (in_map fst) in Q. }
    cbn. unfold fast_element. rewrite E. replace (Z.of_nat (i + 1) - 1)%Z with (Z.of_nat i) by lia.
    apply (arr_get_ok a (elements l) i x (proj1 R)). now rewrite <- (nth_lookup l i e D En).
  - intros a l e0 R. exact (batch_head a l (proj1 R) e0).
  - intros a l e0 R. exact (batch_tail a l (proj1 R) e0).
  - intros a l i R. exact (batch_current a l (proj1 R) i).
  - intros a l i R. exact (batch_next a l (proj1 R) i).
  - intros a l i R. exact (batch_prev a l (proj1 R) i).
  - intros a l i e R H. destruct (fast_nth a l i e R H) as [-> _]. cbn. do 2 f_equal. lia.
  - intros a l R. cbn. eauto.
  - split; auto. exact fast_remove_all_ok.
  - split; auto. intros a l es R _ S As. destruct (fast_remove_many_ok es a l R S As) as (a' & E & H).
    exists a'. split; auto. apply fast_renumber. now rewrite keep_snd.
  - intros a l i e R H. destruct (fast_nth a l i e R H) as [-> _]. reflexivity.
  - intros a l i e R H. destruct (fast_nth a l i e R H) as [-> _]. cbn. f_equal. lia.
  - cbn [o_replace fast_interface]. intros a l x i R Hi. unfold fast_replace.
    destruct (arr_replace_ok a (elements l) i x (proj1 R)) as (a' & E & H); [now rewrite LE|]. rewrite E.
    exists a', (i + 1). split; [reflexivity|]. split; [lia|]. split.
    + apply fast_renumber. rewrite map_upd, keep_snd. exact H.
    + cbn [renew]. rewrite renumber_entries, upd_length, keep_length.
      rewrite nth_error_nth' with (d := 0) by (rewrite seq_length; lia). rewrite seq_nth by lia. f_equal. lia.
  - intros f Hf. injection Hf as <-. intros a l i R Hi.
    destruct (arr_remove_ok a (elements l) i (proj1 R)) as (a' & E & H); [now rewrite LE|]. exists a'. split; auto.
    apply fast_renumber. rewrite keep_snd. unfold elements. rewrite map_remove_at. exact H.
  - intros f Hf. injection Hf as <-. intros a l i R Hi. destruct (nth_entries l i Hi) as (e & x & _ & _ & Ex).
    rewrite Ex. now apply (arr_get_ok a (elements l)); [apply R|].
  - discriminate.
  - discriminate.
Qed.

Lemma fast_create_rep chunk ok : 0 < chunk -> fast_rep (fast_create chunk ok) [].
Proof. intros H. split; [|reflexivity]. unfold holds, fast_create. now apply ArrayProofs.rep_create. Qed.

End F.
