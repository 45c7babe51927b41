(** Proofs about the CCArray model. *)
From Verif Require Import Base ArrayModel ArraySpec.

Section Proofs.
Context {A : Type}.
Implicit Types (a b : array A) (l : list (option A)) (d : list (option A)).

(** [d] has at least [K] whole chunks, which are enough for [c] elements. *)
Definition cap (chunk c : nat) d : Prop :=
  exists K, 1 <= K /\ c <= K * chunk /\ K * chunk <= length d.

Definition inv a : Prop :=
  1 <= chunkSize a /\
  match data a with None => count a = 0 | Some d => cap (chunkSize a) (count a) d end.

Definition agree l d : Prop :=
  forall i x, nth_error l i = Some (Some x) -> nth_error d i = Some (Some x).

Definition rep a l : Prop :=
  inv a /\ count a = length l /\
  match data a with None => True | Some d => agree l d end.

Lemma cap_le chunk c c' d : c' <= c -> cap chunk c d -> cap chunk c' d.
Proof. intros H (K & H1 & H2 & H3). exists K. lia. Qed.

Lemma cap_len chunk c d : cap chunk c d -> c <= length d.
Proof. intros (K & H1 & H2 & H3). lia. Qed.

Lemma cap_length chunk c d d' : length d = length d' -> cap chunk c d -> cap chunk c d'.
Proof. intros E (K & H1 & H2 & H3). exists K. lia. Qed.

Lemma realloc_length (d : option (list (option A))) n : length (realloc d n) = n.
Proof.
  unfold realloc. rewrite app_length, firstn_length, repeat_length. lia.
Qed.

Lemma nth_error_realloc (d : list (option A)) n i :
  i < n -> i < length d -> nth_error (realloc (Some d) n) i = nth_error d i.
Proof.
  intros H1 H2. unfold realloc. rewrite nth_error_app, nth_error_firstn, firstn_length.
  destruct (Nat.ltb_spec i (Nat.min n (length d))); try lia.
  destruct (Nat.ltb_spec i n); try lia. reflexivity.
Qed.

Lemma agree_realloc l d n :
  length l <= n -> agree l d -> agree l (realloc (Some d) n).
Proof.
  intros Hn H i x Hi.
  pose proof (nth_error_Some_lt _ _ _ Hi).
  pose proof (H _ _ Hi) as Hd. pose proof (nth_error_Some_lt _ _ _ Hd).
  rewrite nth_error_realloc by lia. exact Hd.
Qed.

(** Growing (or not) leaves room for [n] more elements and keeps the contents. *)
Lemma ensure_room a l need chunks ok n b :
  rep a l ->
  (need = true -> count a + n <= chunks * chunkSize a /\ 1 <= chunks) ->
  (need = false -> exists d, data a = Some d /\ cap (chunkSize a) (count a + n) d) ->
  ensure a need chunks ok = Some b ->
  chunkSize b = chunkSize a /\ count b = count a /\
  exists d, data b = Some d /\ cap (chunkSize b) (count b + n) d /\ agree l d.
Proof.
  intros (Hinv & Hc & Hag) Ht Hf E. unfold ensure in E.
  destruct need.
  - destruct ok; [|discriminate]. injection E as <-. cbn [chunkSize count data].
    destruct (Ht eq_refl) as [Hr Hk].
    repeat split; auto. eexists; split; [reflexivity|]. split.
    + exists chunks. rewrite realloc_length. lia.
    + destruct (data a) as [d|] eqn:Ed.
      * apply agree_realloc; [lia|exact Hag].
      * destruct Hinv as [_ Hinv]. rewrite Ed in Hinv.
        intros i x Hi. apply nth_error_Some_lt in Hi. lia.
  - injection E as <-. destruct (Hf eq_refl) as (d & Ed & Hcap).
    repeat split; auto. exists d. rewrite Ed in *. auto.
Qed.

Lemma div_chunk c k : 1 <= k -> c < (c / k + 1) * k.
Proof.
  intros H. pose proof (Nat.div_mod c k ltac:(lia)).
  pose proof (Nat.mod_upper_bound c k ltac:(lia)). nia.
Qed.

Lemma growN_room a n :
  inv a -> growN a n = false -> exists d, data a = Some d /\ cap (chunkSize a) (count a + n) d.
Proof.
  intros [H1 Hd] H. unfold growN in H.
  set (k := chunkSize a) in *. set (c := count a) in *.
  apply orb_false_iff in H. destruct H as [Hn H].
  apply Nat.ltb_ge in Hn.
  pose proof (Nat.div_mod c k ltac:(lia)) as Hdm.
  pose proof (Nat.mod_upper_bound c k ltac:(lia)) as Hlt.
  destruct (data a) as [d|]; cbn [is_null] in H.
  - exists d; split; auto. destruct Hd as (K & K1 & K2 & K3).
    destruct (Nat.eqb_spec (c mod k) 0) as [E|E].
    + destruct (Nat.eqb_spec c 0) as [E0|E0]; cbn in H; [|discriminate].
      exists K. rewrite E in Hn. nia.
    + exists K. split; auto. split; auto.
      assert (c / k < K) by nia. nia.
  - rewrite Hd in H. rewrite Nat.mod_0_l in H by lia. cbn in H. discriminate.
Qed.

Lemma grow1_room a :
  inv a -> grow1 a = false -> exists d, data a = Some d /\ cap (chunkSize a) (count a + 1) d.
Proof.
  intros Hi H. apply growN_room; auto. unfold growN, grow1 in *. rewrite H.
  rewrite orb_false_r. apply Nat.ltb_ge.
  destruct Hi as [H1 _]. pose proof (Nat.mod_upper_bound (count a) (chunkSize a) ltac:(lia)). lia.
Qed.

Lemma agree_overwrite l d i xs :
  i + length xs <= length l -> i + length xs <= length d ->
  agree l d -> agree (overwrite l i xs) (overwrite d i xs).
Proof.
  intros H1 H2 H j x. rewrite !nth_error_overwrite by lia.
  destruct (_ && _); [auto|apply H].
Qed.

Lemma agree_app_write l d xs :
  length l + length xs <= length d ->
  agree l d -> agree (l ++ xs) (overwrite d (length l) xs).
Proof.
  intros H1 H j x Hj. rewrite nth_error_overwrite by lia.
  rewrite nth_error_app in Hj.
  destruct (Nat.ltb_spec j (length l)).
  - destruct (Nat.leb_spec (length l) j); try lia. cbn [andb]. auto.
  - destruct (Nat.leb_spec (length l) j); try lia. cbn [andb].
    pose proof (nth_error_Some_lt _ _ _ Hj).
    destruct (Nat.ltb_spec j (length l + length xs)); try lia. exact Hj.
Qed.

Lemma agree_app_none l d n :
  agree l d -> agree (l ++ repeat None n) d.
Proof.
  intros H j x Hj. rewrite nth_error_app in Hj.
  destruct (Nat.ltb_spec j (length l)); auto.
  apply nth_error_In, repeat_spec in Hj. discriminate.
Qed.

Lemma nth_error_insert_at {B} (l : list B) i xs j :
  i <= length l ->
  nth_error (insert_at l i xs) j =
    if j <? i then nth_error l j
    else if j <? i + length xs then nth_error xs (j - i)
    else nth_error l (j - length xs).
Proof.
  intros H. unfold insert_at.
  rewrite !nth_error_app, nth_error_firstn, nth_error_skipn, firstn_length.
  rewrite Nat.min_l by lia.
  destruct (Nat.ltb_spec j i); auto.
  destruct (Nat.ltb_spec (j - i) (length xs)); destruct (Nat.ltb_spec j (i + length xs)); try lia; auto.
  f_equal; lia.
Qed.

Lemma nth_error_remove_at {B} (l : list B) i n j :
  i <= length l ->
  nth_error (remove_at l i n) j = if j <? i then nth_error l j else nth_error l (j + n).
Proof.
  intros H. unfold remove_at.
  rewrite !nth_error_app, nth_error_firstn, nth_error_skipn, firstn_length.
  rewrite Nat.min_l by lia.
  destruct (Nat.ltb_spec j i); auto. f_equal; lia.
Qed.

(** Shifting up by [n] and then writing (or not) [n] cells inserts. *)
Lemma agree_insert l d i n :
  i < length l -> length l + n <= length d ->
  agree l d ->
  agree (insert_at l i (repeat None n)) (overwrite d (i + n) (slice d i (length l - i))).
Proof.
  intros Hi Hd H j x Hj.
  assert (Hs : length (slice d i (length l - i)) = length l - i) by (apply slice_length; lia).
  rewrite nth_error_overwrite by lia. rewrite Hs.
  rewrite nth_error_insert_at in Hj by lia. rewrite repeat_length in Hj.
  destruct (Nat.ltb_spec j i).
  - destruct (Nat.leb_spec (i + n) j); try lia. cbn [andb]. auto.
  - destruct (Nat.ltb_spec j (i + n)).
    + apply nth_error_In, repeat_spec in Hj. discriminate.
    + pose proof (nth_error_Some_lt _ _ _ Hj).
      destruct (Nat.leb_spec (i + n) j); try lia.
      destruct (Nat.ltb_spec j (i + n + (length l - i))); try lia. cbn [andb].
      rewrite nth_error_slice. destruct (Nat.ltb_spec (j - (i + n)) (length l - i)); try lia.
      apply H. rewrite <- Hj. f_equal; lia.
Qed.

Lemma overwrite_insert_at {B} (l : list B) i n (ys xs : list B) :
  i <= length l -> length ys = n -> length xs = n ->
  overwrite (insert_at l i ys) i xs = insert_at l i xs.
Proof.
  intros Hi Hy Hx. apply list_ext_nth_error. intros j.
  rewrite nth_error_overwrite by (rewrite insert_at_length; lia).
  rewrite !nth_error_insert_at by lia. rewrite Hx, Hy.
  destruct (Nat.ltb_spec j i).
  - destruct (Nat.leb_spec i j); try lia. reflexivity.
  - destruct (Nat.leb_spec i j); try lia. cbn [andb].
    destruct (Nat.ltb_spec j (i + n)); auto.
Qed.

Lemma agree_remove l d i n :
  i + n <= length l -> length l <= length d ->
  agree l d ->
  agree (remove_at l i n) (overwrite d i (slice d (i + n) (length l - (i + n)))).
Proof.
  intros Hi Hd H j x Hj.
  assert (Hs : length (slice d (i + n) (length l - (i + n))) = length l - (i + n)) by (apply slice_length; lia).
  rewrite nth_error_overwrite by lia. rewrite Hs.
  rewrite nth_error_remove_at in Hj by lia.
  destruct (Nat.ltb_spec j i).
  - destruct (Nat.leb_spec i j); try lia. cbn [andb]. auto.
  - pose proof (nth_error_Some_lt _ _ _ Hj).
    destruct (Nat.leb_spec i j); try lia.
    destruct (Nat.ltb_spec j (i + (length l - (i + n)))); try lia. cbn [andb].
    rewrite nth_error_slice. destruct (Nat.ltb_spec (j - i) (length l - (i + n))); try lia.
    apply H. rewrite <- Hj. f_equal; lia.
Qed.

Lemma agree_copy l d i dst n :
  i + n <= length l -> dst + n <= length l -> length l <= length d ->
  agree l d -> agree (overwrite l dst (slice l i n)) (overwrite d dst (slice d i n)).
Proof.
  intros H1 H2 H3 H j x.
  assert (Hs : length (slice l i n) = n) by (apply slice_length; lia).
  assert (Hs' : length (slice d i n) = n) by (apply slice_length; lia).
  rewrite !nth_error_overwrite by lia. rewrite Hs, Hs'.
  destruct (_ && _); [|apply H].
  rewrite !nth_error_slice. destruct (_ <? _); [apply H|auto].
Qed.

Lemma copy_in_ok d i es n :
  match es with Some xs => length xs = n | None => True end ->
  i + n <= length d ->
  copy_in (Some d) i es n =
    Some (Some (match es with Some xs => overwrite d i (map Some xs) | None => d end)).
Proof.
  intros H1 H2. destruct es as [xs|]; cbn [copy_in]; auto.
  rewrite H1, Nat.leb_refl. rewrite <- H1, firstn_all.
  cbn [write]. rewrite map_length.
  destruct (Nat.leb_spec (i + length xs) (length d)); try lia. reflexivity.
Qed.

Lemma move_ok d dst src n :
  src + n <= length d -> dst + n <= length d ->
  move (Some d) dst src n = Some (overwrite d dst (slice d src n)).
Proof.
  intros H1 H2. cbn [move].
  destruct (Nat.leb_spec (src + n) (length d)); try lia.
  destruct (Nat.leb_spec (dst + n) (length d)); try lia. reflexivity.
Qed.

Lemma ow_len d i (es : option (list A)) n :
  match es with Some xs => length xs = n | None => True end ->
  i + n <= length d ->
  length (match es with Some xs => overwrite d i (map Some xs) | None => d end) = length d.
Proof.
  intros H1 H2. destruct es as [xs|]; auto. apply overwrite_length. rewrite map_length. lia.
Qed.

(** Appending [n] elements, shared by the single and multi element calls. *)
Lemma append_sim a l need chunks ok es n :
  rep a l -> 0 < n ->
  match es with Some xs => length xs = n | None => True end ->
  (need = true -> count a + n <= chunks * chunkSize a /\ 1 <= chunks) ->
  (need = false -> exists d, data a = Some d /\ cap (chunkSize a) (count a + n) d) ->
  (ensure a need chunks ok = None /\ ok = false) \/
  exists b c, ensure a need chunks ok = Some b /\
    lift (copy_in (data b) (count b) es n) b (count b + n) (RIndex (count b))
      = Some (c, RIndex (length l)) /\ rep c (l ++ elems es n).
Proof.
  intros Hr Hn Hes Ht Hf.
  destruct (ensure a need chunks ok) as [b|] eqn:E.
  - right. exists b.
    destruct (ensure_room _ _ _ _ _ _ _ Hr Ht Hf E) as (E1 & E2 & d & Ed & Hcap & Hag).
    destruct Hr as ((Hk & _) & Hc & _).
    pose proof (cap_len _ _ _ Hcap) as Hlen.
    assert (Hcb : count b = length l) by lia. rewrite Hcb in *.
    eexists. split; [reflexivity|]. rewrite Ed, copy_in_ok by (auto; lia). cbn [lift].
    split; [reflexivity|].
    assert (Hel : length (elems es n) = n).
    { destruct es; cbn [elems]; [rewrite map_length; auto|apply repeat_length]. }
    repeat split; cbn [with_data chunkSize count data].
    + lia.
    + eapply cap_length; [|exact Hcap]. symmetry. apply ow_len with (n := n); [auto|lia].
    + rewrite app_length, Hel. lia.
    + destruct es as [xs|]; cbn [elems] in *.
      * apply agree_app_write; [lia|auto].
      * apply agree_app_none; auto.
  - left. split; auto. unfold ensure in E. destruct need; [|discriminate].
    destruct ok; auto; discriminate.
Qed.

Lemma insert_sim a l need chunks ok es n i :
  rep a l -> 0 < n -> i < length l ->
  match es with Some xs => length xs = n | None => True end ->
  (need = true -> count a + n <= chunks * chunkSize a /\ 1 <= chunks) ->
  (need = false -> exists d, data a = Some d /\ cap (chunkSize a) (count a + n) d) ->
  (ensure a need chunks ok = None /\ ok = false) \/
  exists b m c, ensure a need chunks ok = Some b /\
    move (data b) (i + n) i (count b + n - (i + n)) = Some m /\
    lift (copy_in (Some m) i es n) b (count b + n) (RIndex i) = Some (c, RIndex i) /\
    rep c (insert_at l i (elems es n)).
Proof.
  intros Hr Hn Hi Hes Ht Hf.
  destruct (ensure a need chunks ok) as [b|] eqn:E.
  - right. exists b.
    destruct (ensure_room _ _ _ _ _ _ _ Hr Ht Hf E) as (E1 & E2 & d & Ed & Hcap & Hag).
    destruct Hr as ((Hk & _) & Hc & _).
    pose proof (cap_len _ _ _ Hcap) as Hlen.
    rewrite Ed. eexists. eexists. split; [reflexivity|].
    replace (count b + n - (i + n)) with (length l - i) by lia.
    rewrite move_ok by lia. split; [reflexivity|].
    assert (Hml : length (overwrite d (i + n) (slice d i (length l - i))) = length d).
    { apply overwrite_length. rewrite slice_length by lia. lia. }
    rewrite copy_in_ok by (auto; rewrite Hml; lia). cbn [lift].
    split; [reflexivity|].
    assert (Hel : length (elems es n) = n).
    { destruct es; cbn [elems]; [rewrite map_length; auto|apply repeat_length]. }
    pose proof (agree_insert l d i n Hi ltac:(lia) Hag) as Hins.
    repeat split; cbn [with_data chunkSize count data].
    + lia.
    + eapply cap_length; [|exact Hcap]. rewrite ow_len with (n := n); auto. rewrite Hml; lia.
    + rewrite insert_at_length, Hel. lia.
    + destruct es as [xs|]; cbn [elems] in *; auto.
      rewrite <- (overwrite_insert_at l i n (repeat None n) (map Some xs));
        [|lia|apply repeat_length|exact Hel].
      apply agree_overwrite; auto.
      * rewrite insert_at_length, repeat_length. lia.
      * rewrite Hml. lia.
  - left. split; auto. unfold ensure in E. destruct need; [|discriminate].
    destruct ok; auto; discriminate.
Qed.

Lemma rep_data a l : rep a l -> 0 < length l ->
  exists d, data a = Some d /\ cap (chunkSize a) (count a) d /\ agree l d.
Proof.
  intros ((Hk & Hd) & Hc & Hag) Hl. destruct (data a) as [d|].
  - exists d; auto.
  - lia.
Qed.

Lemma range_assert_true a i n :
  0 < n -> i + n <= count a -> range_assert a i n = true.
Proof.
  intros H1 H2. unfold range_assert. lia.
Qed.

Lemma step_sim a l o ok :
  rep a l -> valid (count a) o ->
  exists a' r l', step a o ok = Some (a', r) /\ spec_call ok l o r l' /\ rep a' l'.
Proof.
  intros Hr Hv.
  pose proof Hr as ((Hk & Hd) & Hc & Hag).
  destruct o as [e|es n|i e|i es n|i dst n|i e|i es n|i n| |i]; cbn [step valid] in *.
  - (* Append *)
    destruct (append_sim a l (grow1 a) (count a / chunkSize a + 1) ok (option_map (fun x => [x]) e) 1)
      as [[E Eo]|(b & c & E & E2 & Hrep)]; auto.
    { destruct e; cbn; auto. }
    { intros _. pose proof (div_chunk (count a) _ Hk). split; [lia|apply Nat.le_add_l]. }
    { apply grow1_room. apply Hr. }
    + rewrite E. exists a, RFail, l. repeat split; auto. right. auto.
    + rewrite E, E2. do 3 eexists. split; [reflexivity|]. split; [left; cbn; split; reflexivity|].
      destruct e; exact Hrep.
  - (* AppendMany *)
    destruct Hv as [Hn Hes]. destruct (Nat.eqb_spec n 0); try lia.
    destruct (append_sim a l (growN a n) ((count a + n) / chunkSize a + 1) ok es n)
      as [[E Eo]|(b & c & E & E2 & Hrep)]; auto.
    { intros _. pose proof (div_chunk (count a + n) _ Hk). split; [lia|apply Nat.le_add_l]. }
    { apply growN_room. apply Hr. }
    + rewrite E. exists a, RFail, l. repeat split; auto. right. auto.
    + rewrite E, E2. do 3 eexists. split; [reflexivity|]. split; [left; cbn; split; reflexivity|exact Hrep].
  - (* Replace *)
    destruct (Nat.ltb_spec i (count a)); try lia.
    destruct (rep_data a l Hr ltac:(lia)) as (d & Ed & Hcap & Hagd).
    pose proof (cap_len _ _ _ Hcap).
    rewrite Ed. rewrite copy_in_ok by (destruct e; cbn; auto; lia). cbn [lift].
    do 3 eexists. split; [reflexivity|]. split; [left; cbn; split; reflexivity|].
    destruct e as [x|]; cbn [option_map map] in *.
    + rewrite upd_overwrite by lia.
      repeat split; cbn [with_data chunkSize count data]; auto.
      * eapply cap_length; [|exact Hcap]. rewrite overwrite_length; cbn; lia.
      * rewrite overwrite_length; cbn; lia.
      * apply agree_overwrite; auto; cbn; lia.
    + repeat split; cbn [with_data chunkSize count data]; auto.
  - (* ReplaceMany *)
    destruct Hv as (Hn & Hi & Hes).
    destruct (Nat.ltb_spec i (count a)); try lia. destruct (Nat.eqb_spec n 0); try lia. cbn [andb negb].
    destruct (rep_data a l Hr ltac:(lia)) as (d & Ed & Hcap & Hagd).
    pose proof (cap_len _ _ _ Hcap).
    rewrite Ed. rewrite copy_in_ok by (auto; lia). cbn [lift].
    do 3 eexists. split; [reflexivity|]. split; [left; cbn; split; reflexivity|].
    destruct es as [xs|].
    + repeat split; cbn [with_data chunkSize count data]; auto.
      * eapply cap_length; [|exact Hcap]. rewrite overwrite_length; rewrite ?map_length; lia.
      * rewrite overwrite_length; rewrite ?map_length; lia.
      * apply agree_overwrite; auto; rewrite ?map_length; lia.
    + repeat split; cbn [with_data chunkSize count data]; auto.
  - (* CopyMany *)
    destruct Hv as (Hn & Hi & Hdst).
    rewrite !range_assert_true by lia. destruct (Nat.eqb_spec n 0); try lia. cbn [andb negb].
    destruct (rep_data a l Hr ltac:(lia)) as (d & Ed & Hcap & Hagd).
    pose proof (cap_len _ _ _ Hcap).
    rewrite Ed, move_ok by lia. cbn [lift option_map].
    do 3 eexists. split; [reflexivity|]. split; [left; cbn; split; reflexivity|].
    repeat split; cbn [with_data chunkSize count data]; auto.
    + eapply cap_length; [|exact Hcap]. rewrite overwrite_length; rewrite ?slice_length; lia.
    + rewrite overwrite_length; rewrite ?slice_length; lia.
    + apply agree_copy; auto; lia.
  - (* Insert *)
    destruct (Nat.ltb_spec i (count a)); try lia.
    destruct (insert_sim a l (grow1 a) (count a / chunkSize a + 1) ok (option_map (fun x => [x]) e) 1 i)
      as [[E Eo]|(b & m & c & E & E2 & E3 & Hrep)]; auto.
    { lia. }
    { destruct e; cbn; auto. }
    { intros _. pose proof (div_chunk (count a) _ Hk). split; [lia|apply Nat.le_add_l]. }
    { apply grow1_room. apply Hr. }
    + rewrite E. exists a, RFail, l. repeat split; auto. right. auto.
    + rewrite E, E2, E3. do 3 eexists. split; [reflexivity|]. split; [left; cbn; split; reflexivity|].
      destruct e; exact Hrep.
  - (* InsertMany *)
    destruct Hv as (Hn & Hi & Hes).
    destruct (Nat.ltb_spec i (count a)); try lia. destruct (Nat.eqb_spec n 0); try lia. cbn [andb negb].
    destruct (insert_sim a l (growN a n) ((count a + n) / chunkSize a + 1) ok es n i)
      as [[E Eo]|(b & m & c & E & E2 & E3 & Hrep)]; auto.
    { lia. }
    { intros _. pose proof (div_chunk (count a + n) _ Hk). split; [lia|apply Nat.le_add_l]. }
    { apply growN_room. apply Hr. }
    + rewrite E. exists a, RFail, l. repeat split; auto. right. auto.
    + rewrite E, E2, E3. do 3 eexists. split; [reflexivity|]. split; [left; cbn; split; reflexivity|exact Hrep].
  - (* RemoveMany *)
    destruct Hv as (Hn & Hi). rewrite range_assert_true by lia.
    destruct (rep_data a l Hr ltac:(lia)) as (d & Ed & Hcap & Hagd).
    pose proof (cap_len _ _ _ Hcap).
    rewrite Ed, move_ok by lia. cbn [lift option_map].
    do 3 eexists. split; [reflexivity|]. split; [left; cbn; split; reflexivity|].
    repeat split; cbn [with_data chunkSize count data]; auto.
    + eapply cap_length; [|eapply cap_le; [|exact Hcap]; lia].
      rewrite overwrite_length; rewrite ?slice_length; lia.
    + rewrite remove_at_length; lia.
    + rewrite Hc. apply agree_remove; auto; lia.
  - (* RemoveAll *)
    do 3 eexists. split; [reflexivity|]. split; [left; cbn; split; reflexivity|].
    repeat split; cbn [with_data chunkSize count data]; auto.
    + destruct (data a); auto. eapply cap_le; [|exact Hd]. lia.
    + destruct (data a); auto. intros i x Hi. destruct i; discriminate.
  - (* Get *)
    destruct (Nat.ltb_spec i (count a)); try lia.
    destruct (rep_data a l Hr ltac:(lia)) as (d & Ed & Hcap & Hagd).
    pose proof (cap_len _ _ _ Hcap). rewrite Ed.
    destruct (nth_error_lt_Some d i ltac:(lia)) as [c Ec]. rewrite Ec.
    do 3 eexists. split; [reflexivity|]. split; [|exact Hr].
    left. split; auto. exists c. split; auto. intros x Hx. specialize (Hagd _ _ Hx). congruence.
Qed.

Lemma rep_create chunk ok : 1 <= chunk -> rep (create chunk ok) [].
Proof.
  intros H. unfold create, rep, inv; cbn [chunkSize count data].
  destruct ok; repeat split; auto.
  - exists 1. rewrite repeat_length. lia.
  - intros i x Hi. destruct i; discriminate.
Qed.

Lemma rep_holds a l : rep a l -> holds a l.
Proof.
  intros Hr. split; [apply Hr|]. intros i x Hi.
  pose proof (nth_error_Some_lt _ _ _ Hi).
  destruct (rep_data a l Hr ltac:(lia)) as (d & Ed & Hcap & Hagd).
  cbn [step]. rewrite Ed, (Hagd _ _ Hi). destruct Hr as (_ & Hc & _).
  destruct (Nat.ltb_spec i (count a)); try lia. reflexivity.
Qed.

Lemma run_sim ops : forall a l,
  rep a l -> valid_run a ops ->
  exists a' rs l', run a ops = Some (a', rs) /\ spec_run l ops rs l' /\ rep a' l'.
Proof.
  induction ops as [|[o ok] t IH]; intros a l Hr Hv; cbn [run valid_run] in *.
  - exists a, [], l. repeat split; try apply Hr. constructor.
  - destruct Hv as [Hv1 Hv2].
    destruct (step_sim a l o ok Hr Hv1) as (a1 & r & l1 & E & Hs & Hr1).
    rewrite E in *. destruct (IH a1 l1 Hr1 Hv2) as (a2 & rs & l2 & E2 & Hs2 & Hr2).
    rewrite E2. exists a2, (r :: rs), l2. repeat split; try apply Hr2.
    econstructor; eauto.
Qed.

Lemma array_refines chunk created ops :
  1 <= chunk -> valid_run (create chunk created) ops ->
  exists a rs l, run (create chunk created) ops = Some (a, rs) /\
                 spec_run [] ops rs l /\ holds a l.
Proof.
  intros H Hv. destruct (run_sim ops _ _ (rep_create chunk created H) Hv) as (a & rs & l & E & Hs & Hr).
  exists a, rs, l. repeat split; auto; apply rep_holds; auto.
Qed.

End Proofs.
