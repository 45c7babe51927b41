(** Facts about ledgers. *)
From Verif Require Import Base CollectionModel CollectionSpec.

Section L.
Context {A : Type}.
Implicit Types (l : ledger A) (im : impl).

Definition renew im (k : list (option entry * A)) (es : list entry) : ledger A :=
  match im with FastArrayBacked => renumber k | _ => fill k es end.

Lemma next_renew im l o r :
  (is_insertion o && match r with REntry 0 => true | _ => false end)%bool = false ->
  next im l o r = renew im (after l o) (returned r).
Proof. intros H. unfold next. rewrite H. reflexivity. Qed.

Lemma fill_keep l es : fill (keep l) es = l.
Proof. induction l as [|[e x] t IH]; cbn; [auto|]. unfold keep in IH. now rewrite IH. Qed.

Lemma fill_app (k1 : list (option entry * A)) : forall l es, fill (keep l ++ k1) es = l ++ fill k1 es.
Proof. intros l es. induction l as [|[e x] t IH]; cbn; [auto|]. unfold keep in IH. now rewrite IH. Qed.

Lemma fill_insert l i x e : fill (insert_at (keep l) i [(None, x)]) [e] = insert_at l i [(e, x)].
Proof.
  unfold insert_at. assert (E1 : firstn i (keep l) = keep (firstn i l)) by (unfold keep; now rewrite firstn_map).
  assert (E2 : skipn i (keep l) = keep (skipn i l)) by (unfold keep; now rewrite skipn_map).
  rewrite E1, E2, fill_app. cbn [app fill hd tl]. now rewrite fill_keep.
Qed.

Lemma keep_length l : length (keep l) = length l.
Proof. apply map_length. Qed.

Lemma keep_snd l : map snd (keep l) = elements l.
Proof. unfold keep, elements. rewrite map_map. reflexivity. Qed.

Lemma insert_at_end {B} (l xs : list B) : insert_at l (length l) xs = l ++ xs.
Proof. unfold insert_at. rewrite firstn_all, skipn_all, app_nil_r. reflexivity. Qed.

Lemma map_insert_at {B C} (f : B -> C) (l : list B) i xs : map f (insert_at l i xs) = insert_at (map f l) i (map f xs).
Proof. unfold insert_at. now rewrite !map_app, firstn_map, skipn_map. Qed.

Lemma map_upd {B C} (f : B -> C) (l : list B) : forall i x, map f (upd l i x) = upd (map f l) i (f x).
Proof. induction l as [|h t IH]; intros [|i] x; cbn; auto. now rewrite IH. Qed.

Lemma map_remove_at {B C} (f : B -> C) (l : list B) i n : map f (remove_at l i n) = remove_at (map f l) i n.
Proof. unfold remove_at. now rewrite map_app, firstn_map, skipn_map. Qed.

Lemma fill_upd l i x e : i < length l -> fill (upd (keep l) i (None, x)) [e] = upd l i (e, x).
Proof.
  revert i. induction l as [|[e0 x0] t IH]; intros [|i] H; cbn in *; try lia.
  - f_equal. apply fill_keep.
  - f_equal. apply IH. lia.
Qed.

Lemma fill_many l xs es : length es = length xs -> fill (keep l ++ map (pair None) xs) es = l ++ combine es xs.
Proof.
  intros H. rewrite fill_app. f_equal. revert xs H. induction es as [|e es IH]; intros [|x xs] H; cbn in *; try lia; auto.
  now rewrite IH by lia.
Qed.

Lemma renumber_length (k : list (option entry * A)) : length (renumber k) = length k.
Proof. unfold renumber. now rewrite combine_length, seq_length, map_length, Nat.min_id. Qed.

Lemma map_fst_combine {B C} : forall (l : list B) (l' : list C), length l = length l' -> map fst (combine l l') = l.
Proof. induction l; intros [|b t] H; cbn in *; try lia; auto. now rewrite IHl by lia. Qed.

Lemma map_snd_combine {B C} : forall (l : list B) (l' : list C), length l = length l' -> map snd (combine l l') = l'.
Proof. induction l; intros [|b t] H; cbn in *; try lia; auto. now rewrite IHl by lia. Qed.

Lemma renumber_entries (k : list (option entry * A)) : entries (renumber k) = seq 1 (length k).
Proof. unfold renumber, entries. apply map_fst_combine. now rewrite seq_length, map_length. Qed.

Lemma renumber_elements (k : list (option entry * A)) : elements (renumber k) = map snd k.
Proof. unfold renumber, elements. apply map_snd_combine. now rewrite seq_length, map_length. Qed.

Lemma ledger_split l : l = combine (entries l) (elements l).
Proof. unfold entries, elements. induction l as [|[e x] t IH]; cbn; [auto|now rewrite <- IH]. Qed.

Lemma renumber_keep l : entries l = seq 1 (length l) -> renumber (keep l) = l.
Proof.
  intros H. unfold renumber. rewrite keep_length, keep_snd, <- H. symmetry. apply ledger_split.
Qed.

Lemma renew_keep im l es : well_formed im l -> renew im (keep l) es = l.
Proof.
  intros (_ & _ & H). destruct im; cbn [renew]; try apply fill_keep. apply renumber_keep. now apply H.
Qed.

Lemma renumber_wf (k : list (option entry * A)) : well_formed FastArrayBacked (renumber k).
Proof.
  unfold well_formed. rewrite renumber_entries, renumber_length. split; [apply seq_NoDup|]. split; auto.
  rewrite in_seq. lia.
Qed.

Lemma renew_length im k es : length (renew im k es) = length k.
Proof.
  destruct im; cbn [renew]; try apply renumber_length;
    revert es; induction k as [|[[e|] x] t IH]; intros es; cbn; auto.
Qed.

Lemma renew_elements im k es : elements (renew im k es) = map snd k.
Proof.
  destruct im; cbn [renew]; try apply renumber_elements;
    unfold elements; revert es; induction k as [|[[e|] x] t IH]; intros es; cbn; auto; now rewrite IH.
Qed.

Lemma after_elements_plain l o : by_index o = true -> map snd (after l o) = fst (plain (elements l) o).
Proof.
  assert (K := keep_snd). intros H.
  destruct o; try discriminate H; cbn [after plain fst]; rewrite ?map_app, ?map_insert_at, ?map_upd, ?K; auto.
  - (* InsertMany *) f_equal. rewrite map_map. cbn. now rewrite map_id.
  - (* Prepend *) cbn. now rewrite K.
  - unfold elements. now rewrite map_remove_at.
  - unfold elements. induction l as [|p t IH]; [auto|]. destruct t as [|q t]; [auto|]. cbn in *. now rewrite IH.
Qed.

(** Lookup *)
Lemma lookup_in l e x : lookup l e = Some x -> In (e, x) l.
Proof.
  unfold lookup. destruct (find (fun p => fst p =? e) l) as [[e' x']|] eqn:F; [|discriminate]. intros E. injection E as <-.
  apply find_some in F. destruct F as [F1 F2]. cbn [fst snd] in *. apply Nat.eqb_eq in F2. now subst.
Qed.

Lemma in_lookup l e x : NoDup (entries l) -> In (e, x) l -> lookup l e = Some x.
Proof.
  unfold lookup, entries. induction l as [|[e' x'] t IH]; intros D H; [destruct H|]. cbn in *.
  inversion D as [|? ? N D']; subst. destruct H as [E|H].
  - injection E as <- <-. now rewrite Nat.eqb_refl.
  - destruct (Nat.eqb_spec e' e) as [->|]; [|now apply IH].
    exfalso. apply N. now apply (in_map fst) in H.
Qed.

Lemma lookup_none l e : ~ In e (entries l) -> lookup l e = None.
Proof.
  unfold lookup, entries. induction l as [|[e' x'] t IH]; intros H; cbn in *; [auto|].
  destruct (Nat.eqb_spec e' e) as [->|]; [tauto|]. apply IH. tauto.
Qed.

Lemma lookup_some l e : In e (entries l) -> exists x, lookup l e = Some x.
Proof.
  unfold lookup, entries. induction l as [|[e' x'] t IH]; intros H; cbn in *; [destruct H|].
  destruct (Nat.eqb_spec e' e) as [->|]; [eauto|]. apply IH. tauto.
Qed.

Lemma nth_lookup l i e : NoDup (entries l) -> nth_error (entries l) i = Some e -> lookup l e = nth_error (elements l) i.
Proof.
  intros D H. unfold entries, elements in *. rewrite nth_error_map in *.
  destruct (nth_error l i) as [[e' x]|] eqn:E; [|discriminate]. injection H as <-. cbn.
  apply in_lookup; auto. eapply nth_error_In, E.
Qed.

(** Without *)
Lemma without_nil l : without [] l = l.
Proof. unfold without. induction l as [|p t IH]; cbn; [auto|]. f_equal. exact IH. Qed.

Lemma in_without es l p : In p (without es l) <-> In p l /\ ~ In (fst p) es.
Proof.
  unfold without. rewrite filter_In, negb_true_iff. split; intros [H1 H2]; split; auto.
  - intros H. assert (existsb (Nat.eqb (fst p)) es = true); [|congruence].
    apply existsb_exists. exists (fst p). split; auto. apply Nat.eqb_refl.
  - apply not_true_is_false. intros H. apply existsb_exists in H. destruct H as (x & Hx & E).
    apply Nat.eqb_eq in E. subst. auto.
Qed.

Lemma without_cons e es l : without (e :: es) l = without es (without [e] l).
Proof.
  unfold without. induction l as [|p t IH]; cbn; [auto|]. rewrite orb_false_r.
  destruct (fst p =? e) eqn:E; cbn.
  - exact IH.
  - destruct (existsb (Nat.eqb (fst p)) es); cbn; [exact IH|]. f_equal. exact IH.
Qed.

Lemma without_absent e l : ~ In e (entries l) -> without [e] l = l.
Proof.
  unfold without, entries. induction l as [|p t IH]; cbn; intros H; [auto|]. rewrite orb_false_r.
  destruct (Nat.eqb_spec (fst p) e) as [E|E]; [tauto|]. cbn. f_equal. apply IH. tauto.
Qed.

Lemma without_at l i e : NoDup (entries l) -> nth_error (entries l) i = Some e -> without [e] l = remove_at l i 1.
Proof.
  revert i. unfold remove_at. induction l as [|p t IH]; intros i D H; cbn in *; [destruct i; discriminate|].
  inversion D as [|? ? N D']; subst. rewrite orb_false_r. destruct i as [|i]; cbn in *.
  - assert (E : e = fst p) by congruence. subst e. rewrite Nat.eqb_refl. cbn. exact (without_absent (fst p) t N).
  - destruct (Nat.eqb_spec (fst p) e) as [E|E].
    + exfalso. apply N. rewrite E. eapply nth_error_In, H.
    + cbn. f_equal. now apply IH.
Qed.

Lemma nodup_entries_filter f l : NoDup (entries l) -> NoDup (entries (filter f l)).
Proof.
  unfold entries. induction l as [|p t IH]; cbn; intros D; [auto|]. inversion D as [|? ? N D']; subst.
  destruct (f p); cbn; [|auto]. constructor; auto. intros H. apply N.
  apply in_map_iff in H. destruct H as (q & <- & H). apply filter_In in H. apply in_map. tauto.
Qed.

Lemma entries_without es l e : In e (entries (without es l)) <-> In e (entries l) /\ ~ In e es.
Proof.
  unfold entries. rewrite !in_map_iff. split.
  - intros (p & <- & H). apply in_without in H. destruct H. eauto.
  - intros [(p & <- & H) N]. exists p. split; auto. apply in_without. auto.
Qed.

Lemma without_wf im es l : im <> FastArrayBacked -> well_formed im l -> well_formed im (without es l).
Proof.
  intros N (D & Z & _). repeat split; [now apply nodup_entries_filter| |congruence].
  intros H. apply entries_without in H. tauto.
Qed.

Lemma lookup_without es l e : ~ In e es -> lookup (without es l) e = lookup l e.
Proof.
  intros N. unfold lookup, without. induction l as [|p t IH]; cbn; [auto|].
  destruct (existsb (Nat.eqb (fst p)) es) eqn:E; cbn.
  - destruct (Nat.eqb_spec (fst p) e) as [Q|]; [|exact IH].
    apply existsb_exists in E. destruct E as (y & Hy & E). apply Nat.eqb_eq in E. subst. tauto.
  - destruct (fst p =? e); auto.
Qed.

Lemma removelast_remove_at {B} (l : list B) : removelast l = remove_at l (length l - 1) 1.
Proof.
  unfold remove_at. induction l as [|a t IH]; [auto|]. cbn [length]. destruct t as [|b t]; [auto|].
  cbn [length] in *. replace (S (S (length t)) - 1) with (S (S (length t) - 1)) by lia.
  cbn [firstn skipn Nat.add app]. rewrite <- IH. reflexivity.
Qed.

Lemma last_nth_error {B} (l : list B) d : l <> [] -> nth_error l (length l - 1) = Some (last l d).
Proof.
  induction l as [|a t IH]; [congruence|]. intros _. destruct t as [|b t]; [reflexivity|].
  cbn [length]. replace (S (S (length t)) - 1) with (S (S (length t) - 1)) by lia. cbn [nth_error].
  change (last (a :: b :: t) d) with (last (b :: t) d). apply IH. discriminate.
Qed.

Lemma rev_hd {B} (l : list B) : match rev l with x :: _ => Some x | [] => None end = nth_error l (length l - 1).
Proof.
  destruct l as [|b l] using rev_ind; [reflexivity|]. rewrite rev_app_distr. cbn.
  rewrite nth_error_app, app_length. cbn [length].
  destruct (Nat.ltb_spec (length l + 1 - 1) (length l)); [lia|].
  now replace (length l + 1 - 1 - length l) with 0 by lia.
Qed.

End L.
