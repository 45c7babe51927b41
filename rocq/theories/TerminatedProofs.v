(** Proofs about TerminatedModel. *)
From Verif Require Import Base TerminatedModel.

Lemma concat_len {A} (l : list (list A)) es : Forall (fun x => length x = es) l -> length (concat l) = length l * es.
Proof. induction 1 as [|x l H _ IH]; cbn [concat length Nat.mul]; [reflexivity|]. rewrite app_length. lia. Qed.

Lemma slice_concat {A} (l : list (list A)) es x l' r : Forall (fun x => length x = es) l -> length x = es ->
  slice (concat l ++ (x ++ r) ++ l') (length l * es) es = x.
Proof.
  intros F L. unfold slice. rewrite <- (concat_len l es F), skipn_app, skipn_all, Nat.sub_diag. cbn [skipn app]. rewrite <- app_assoc, firstn_app, L, Nat.sub_diag. cbn [firstn].
  rewrite app_nil_r, <- L. apply firstn_all.
Qed.

Lemma count_is es term els rest : 1 <= es -> length term = es -> Forall (fun x => length x = es /\ x <> term) els ->
  forall fuel done, length els < fuel -> Forall (fun x => length x = es) done ->
  count_elements fuel (concat done ++ concat els ++ term ++ rest) es term (length done) = Some (length done + length els + 1).
Proof.
  intros He Lt F. induction F as [|x els (Lx & Nx) F IH]; intros fuel done Hf Fd; (destruct fuel as [|fuel]; [cbn [length] in Hf; lia|]); cbn [count_elements].
  - cbn [concat app length]. unfold compare_at. rewrite !app_length, (concat_len done es Fd). destruct (Nat.leb_spec (length done * es + length term) (length done * es + (length term + length rest))); [|lia].
    pose proof (slice_concat done es term [] rest Fd Lt) as SC. rewrite app_nil_r in SC. rewrite Lt, SC. destruct (list_eq_dec N.eq_dec term term); [|congruence]. f_equal. lia.
  - cbn [concat length] in *. rewrite <- app_assoc. unfold compare_at. rewrite !app_length, (concat_len done es Fd), Lx.
    destruct (Nat.leb_spec (length done * es + length term) (length done * es + (es + (length (concat els) + (length term + length rest))))); [|lia].
    pose proof (slice_concat done es x [] (concat els ++ term ++ rest) Fd Lx) as SC. rewrite app_nil_r in SC. rewrite Lt, SC. destruct (list_eq_dec N.eq_dec x term); [congruence|].
    specialize (IH fuel (done ++ [x]) ltac:(lia)). rewrite concat_app, app_length in IH. cbn [concat length] in IH. rewrite app_nil_r, <- app_assoc in IH.
    replace (S (length done)) with (length done + 1) by lia. rewrite IH; [f_equal; lia|]. apply Forall_app. split; [exact Fd|repeat constructor; exact Lx].
Qed.

Lemma elements_is es l rest : Forall (fun x => length x = es) l -> elements (concat l ++ rest) es (length l) = l.
Proof.
  intros F. unfold elements. assert (G : forall d t, l = d ++ t -> map (fun i => slice (concat l ++ rest) (i * es) es) (seq (length d) (length t)) = t).
  { intros d t. revert d. induction t as [|x t IH]; intros d E; cbn [length seq map]; [reflexivity|]. f_equal.
    - assert (Forall (fun x => length x = es) d /\ length x = es) as (Fd & Lx).
      { rewrite E in F. apply Forall_app in F as (Fd & Ft). inversion Ft; auto. }
      rewrite E, concat_app. cbn [concat]. rewrite <- !app_assoc. pose proof (slice_concat d es x [] (concat t ++ rest) Fd Lx) as SC. now rewrite app_nil_r in SC.
    - specialize (IH (d ++ [x])). rewrite app_length in IH. cbn [length] in IH. rewrite Nat.add_1_r in IH. apply IH. rewrite <- app_assoc. exact E. }
  apply (G [] l). reflexivity.
Qed.

Lemma map_is es term els rest : 1 <= es -> length term = es -> Forall (fun x => length x = es /\ x <> term) els ->
  map_terminated (concat els ++ term ++ rest) es term = Some (els ++ [term]).
Proof.
  intros He Lt F. assert (F1 : Forall (fun x => length x = es) els) by (eapply Forall_impl; [|exact F]; cbn beta; tauto).
  unfold map_terminated. pose proof (count_is es term els rest He Lt F (S (length (concat els ++ term ++ rest))) []) as C. cbn [concat app length Nat.add] in C.
  rewrite C; [| rewrite app_length, (concat_len els es F1); nia | constructor]. f_equal.
  assert (E : concat els ++ term ++ rest = concat (els ++ [term]) ++ rest) by (rewrite concat_app; cbn [concat]; rewrite app_nil_r, <- app_assoc; reflexivity).
  rewrite E. replace (length els + 1) with (length (els ++ [term])) by (rewrite app_length; reflexivity). apply elements_is. apply Forall_app. split; [exact F1|repeat constructor; exact Lt].
Qed.

(** Every memory is a run of elements without the terminator, followed by the
    terminator or by less than an element. *)
Lemma split_memory es (term : list N) : 1 <= es -> length term = es -> forall n mem, length mem <= n ->
  exists els, Forall (fun x => length x = es /\ x <> term) els /\ exists tail, mem = concat els ++ tail /\ (length tail < es \/ exists rest, tail = term ++ rest).
Proof.
  intros He Lt. induction n as [|n IH]; intros mem L.
  - exists []. split; [constructor|]. exists mem. split; [reflexivity|]. left. lia.
  - destruct (Nat.lt_ge_cases (length mem) es) as [Sh|Sh]; [exists []; split; [constructor|]; exists mem; auto|].
    destruct (list_eq_dec N.eq_dec (firstn es mem) term) as [E|E].
    + exists []. split; [constructor|]. exists mem. split; [reflexivity|]. right. exists (skipn es mem). rewrite <- E. symmetry. apply firstn_skipn.
    + destruct (IH (skipn es mem)) as (els & F & tail & T & D); [rewrite skipn_length; lia|]. exists (firstn es mem :: els). split.
      * constructor; [|exact F]. split; [apply firstn_length_le; exact Sh|exact E].
      * exists tail. split; [|exact D]. cbn [concat]. rewrite <- app_assoc, <- T. symmetry. apply firstn_skipn.
Qed.

Lemma count_none es term els tail : 1 <= es -> length term = es -> Forall (fun x => length x = es /\ x <> term) els -> length tail < es ->
  forall fuel done, Forall (fun x => length x = es) done -> count_elements fuel (concat done ++ concat els ++ tail) es term (length done) = None.
Proof.
  intros He Lt F Sh. induction F as [|x els (Lx & Nx) F IH]; intros fuel done Fd; (destruct fuel as [|fuel]; [reflexivity|]); cbn [count_elements].
  - cbn [concat app]. unfold compare_at. rewrite !app_length, (concat_len done es Fd). destruct (Nat.leb_spec (length done * es + length term) (length done * es + length tail)); [lia|reflexivity].
  - cbn [concat]. rewrite <- app_assoc. unfold compare_at. rewrite !app_length, (concat_len done es Fd), Lx.
    destruct (Nat.leb_spec (length done * es + length term) (length done * es + (es + (length (concat els) + length tail)))); [|lia].
    pose proof (slice_concat done es x [] (concat els ++ tail) Fd Lx) as SC. rewrite app_nil_r in SC. rewrite Lt, SC. destruct (list_eq_dec N.eq_dec x term); [congruence|].
    specialize (IH fuel (done ++ [x])). rewrite concat_app, app_length in IH. cbn [concat length] in IH. rewrite app_nil_r, <- app_assoc in IH.
    replace (S (length done)) with (length done + 1) by lia. apply IH. apply Forall_app. split; [exact Fd|repeat constructor; exact Lx].
Qed.
