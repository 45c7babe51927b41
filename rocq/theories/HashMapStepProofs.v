(** Proofs for the hash map: positions, enumeration, every call. *)
From Verif Require EnumerableModel EnumerableSpec EnumerableProofs.
From Verif Require Import Base Word HashMapModel HashMapSpec HashMapEntryProofs HashMapProofs.

Lemma nodup_split {A} (x : A) l1 l2 l1' l2' : NoDup (l1 ++ x :: l2) -> l1 ++ x :: l2 = l1' ++ x :: l2' -> l1 = l1' /\ l2 = l2'.
Proof.
  revert l1'. induction l1 as [|y l1 IH]; intros [|y' l1'] N E; cbn in *.
  - now injection E as ->.
  - injection E as E1 E2. subst. inversion N; subst. exfalso. apply H1. apply in_or_app. right. now left.
  - injection E as E1 E2. subst. inversion N; subst. exfalso. apply H1. apply in_or_app. right. now left.
  - injection E as E1 E. subst. inversion N; subst. destruct (IH l1' H2 E) as [-> ->]. auto.
Qed.

Lemma last_error_app {A} (l1 l2 : list A) : hd_error (rev (l1 ++ l2)) = match hd_error (rev l2) with Some x => Some x | None => hd_error (rev l1) end.
Proof. rewrite rev_app_distr. destruct (rev l2); reflexivity. Qed.

Section Proofs.
Context {K V : Type} (hash : K -> N) (eqk : K -> K -> bool).
Hypothesis eqk_refl : forall a, eqk a a = true.
Hypothesis eqk_sym : forall a b, eqk a b = eqk b a.
Hypothesis eqk_trans : forall a b c, eqk a b = true -> eqk b c = true -> eqk a c = true.
Hypothesis eqk_hash : forall a b, eqk a b = true -> hash a = hash b.

Local Notation item := (item K V).
Local Notation hashmap := (hashmap K V).
Local Notation inv := (inv hash eqk).
Local Notation rel := (@rel K V hash eqk).
Local Notation position := (nat * nat * item)%type.

(** ** Positions of live items *)
Fixpoint ipos (b : nat) (items : list item) (j : nat) : list position :=
  match items with
  | [] => []
  | it :: t => if live it then (b, j, it) :: ipos b t (S j) else ipos b t (S j)
  end.

Fixpoint bpos (bs : list (option (list item))) (b : nat) : list position :=
  match bs with [] => [] | bk :: t => ipos b (items_of bk) 0 ++ bpos t (S b) end.

Definition positions (m : hashmap) : list position := match buckets m with None => [] | Some bs => bpos bs 0 end.

Lemma ipos_app b l1 l2 j : ipos b (l1 ++ l2) j = ipos b l1 j ++ ipos b l2 (j + length l1).
Proof.
  revert j. induction l1 as [|it l1 IH]; intros j; cbn [ipos app length]; [now rewrite Nat.add_0_r|].
  rewrite IH. replace (S j + length l1) with (j + S (length l1)) by lia. now destruct (live it).
Qed.

Lemma bpos_app l1 l2 b : bpos (l1 ++ l2) b = bpos l1 b ++ bpos l2 (b + length l1).
Proof.
  revert b. induction l1 as [|it l1 IH]; intros b; cbn [bpos app length]; [now rewrite Nat.add_0_r|].
  rewrite IH, app_assoc. now replace (S b + length l1) with (b + S (length l1)) by lia.
Qed.

Lemma ipos_snd b items j : map snd (ipos b items j) = filter live items.
Proof. revert j. induction items as [|it t IH]; intros j; cbn [ipos filter]; [reflexivity|]. destruct (live it); cbn [map snd]; now rewrite IH. Qed.

Lemma positions_snd m : map snd (positions m) = live_items m.
Proof.
  unfold positions, live_items. destruct (buckets m) as [bs|]; [|reflexivity]. generalize 0.
  change (fun bk : option (list item) => match bk with Some l => l | None => [] end) with (@items_of K V).
  change (fun it : item => negb (is_empty (ihash it))) with (@live K V).
  induction bs as [|bk t IH]; intros b; cbn [bpos map concat]; [reflexivity|]. now rewrite map_app, filter_app, IH, ipos_snd.
Qed.

Lemma ipos_in b items : forall j b' i it, In (b', i, it) (ipos b items j) <-> b' = b /\ j <= i /\ nth_error items (i - j) = Some it /\ live it = true.
Proof.
  induction items as [|x t IH]; intros j b' i it; cbn [ipos].
  - split; [intros []|]. intros (_ & _ & X & _). now destruct (i - j).
  - assert (Q : In (b', i, it) (ipos b t (S j)) <-> b' = b /\ j < i /\ nth_error (x :: t) (i - j) = Some it /\ live it = true).
    { rewrite IH. split; intros (H1 & H2 & H3 & H4); repeat split; auto; try lia.
      - now replace (i - j) with (S (i - S j)) by lia.
      - now replace (i - j) with (S (i - S j)) in H3 by lia. }
    destruct (live x) eqn:L.
    + cbn [In]. rewrite Q. split.
      * intros [X|(H1 & H2 & H3 & H4)]; [|repeat split; auto; lia]. injection X as <- <- <-. rewrite Nat.sub_diag. auto.
      * intros (-> & H2 & H3 & H4). destruct (Nat.eq_dec i j) as [->|]; [|right; repeat split; auto; lia].
        left. rewrite Nat.sub_diag in H3. now injection H3 as <-.
    + rewrite Q. split; intros (H1 & H2 & H3 & H4); repeat split; auto; try lia.
      destruct (Nat.eq_dec i j) as [->|]; [|lia]. rewrite Nat.sub_diag in H3. injection H3 as <-. congruence.
Qed.

Lemma bpos_in bs : forall b b' i it, In (b', i, it) (bpos bs b) <-> b <= b' /\ exists items, nth_error bs (b' - b) = Some (Some items) /\ nth_error items i = Some it /\ live it = true.
Proof.
  induction bs as [|bk t IH]; intros b b' i it; cbn [bpos].
  - split; [intros []|]. intros (_ & items & X & _). now destruct (b' - b).
  - rewrite in_app_iff, IH, ipos_in. rewrite Nat.sub_0_r. split.
    + intros [(-> & _ & H2 & H3)|(H1 & items & H2 & H3)].
      * split; [lia|]. rewrite Nat.sub_diag. destruct bk as [items|]; cbn [items_of] in H2; [exists items; auto|now destruct i].
      * split; [lia|]. exists items. now replace (b' - b) with (S (b' - S b)) by lia.
    + intros (H1 & items & H2 & H3 & H4). destruct (Nat.eq_dec b' b) as [->|].
      * left. rewrite Nat.sub_diag in H2. cbn in H2. injection H2 as ->. repeat split; auto; lia.
      * right. split; [lia|]. exists items. now replace (b' - b) with (S (b' - S b)) in H2 by lia.
Qed.

Lemma positions_in m b i it : In (b, i, it) (positions m) <-> item_at m b i = Some it /\ live it = true.
Proof.
  unfold positions. destruct (buckets m) as [bs|] eqn:E.
  - rewrite bpos_in, Nat.sub_0_r. unfold item_at. rewrite E. split.
    + intros (_ & items & H1 & H2 & H3). now rewrite H1.
    + intros (H1 & H2). split; [lia|]. destruct (nth_error bs b) as [[items|]|]; try discriminate. eauto.
  - unfold item_at. rewrite E. split; [intros []|intros (X & _); discriminate].
Qed.

Lemma ipos_nodup b items : forall j, NoDup (ipos b items j).
Proof.
  induction items as [|x t IH]; intros j; cbn [ipos]; [constructor|]. destruct (live x); [|auto]. constructor; [|auto].
  rewrite ipos_in. lia.
Qed.

Lemma nodup_app' {A} (u v : list A) : NoDup u -> NoDup v -> (forall x, In x u -> In x v -> False) -> NoDup (u ++ v).
Proof.
  intros Nu Nv D. induction Nu as [|x u X Nu IH]; [exact Nv|]. cbn. constructor.
  - rewrite in_app_iff. intros [Y|Y]; [auto|]. apply (D x); [now left|auto].
  - apply IH. intros y Y. apply D. now right.
Qed.

Lemma bpos_nodup bs : forall b, NoDup (bpos bs b).
Proof.
  induction bs as [|bk t IH]; intros b; cbn [bpos]; [constructor|]. apply nodup_app'; [apply ipos_nodup|apply IH|].
  intros [[b' i] it] X Y. apply ipos_in in X as (-> & _). apply bpos_in in Y as (Y & _). lia.
Qed.

Lemma positions_nodup m : NoDup (positions m).
Proof. unfold positions. destruct (buckets m); [apply bpos_nodup|constructor]. Qed.

(** ** Enumeration of positions *)
Lemma first_live_hd b items j : first_live items j = option_map (fun p : position => snd (fst p)) (hd_error (ipos b items j)).
Proof.
  revert j. induction items as [|it t IH]; intros j; cbn [first_live ipos]; [reflexivity|]. unfold live. destruct (is_empty (ihash it)); cbn [negb]; [apply IH|reflexivity].
Qed.

Lemma scan_up_head bs : forall b, scan_up bs b 0 = option_map fst (hd_error (bpos bs b)).
Proof.
  induction bs as [|[items|] t IH]; intros b; cbn [scan_up bpos items_of ipos app]; [reflexivity| |apply IH].
  rewrite skipn_O, (first_live_hd b). destruct (ipos b items 0) as [|[[b' i] it] l] eqn:E; cbn [hd_error option_map app fst snd]; [apply IH|].
  assert (In (b', i, it) (ipos b items 0)) as X by (rewrite E; now left). apply ipos_in in X as (-> & _). reflexivity.
Qed.

Lemma scan_up_from b start items t : scan_up (Some items :: t) b start = option_map fst (hd_error (ipos b (skipn start items) start ++ bpos t (S b))).
Proof.
  cbn [scan_up]. rewrite (first_live_hd b). destruct (ipos b (skipn start items) start) as [|[[b' i] it] l] eqn:E; cbn [hd_error option_map app fst snd]; [apply scan_up_head|].
  assert (In (b', i, it) (ipos b (skipn start items) start)) as X by (rewrite E; now left). apply ipos_in in X as (-> & _). reflexivity.
Qed.

Lemma last_live_tl b items : forall n, n <= length items ->
  last_live items n = option_map (fun p : position => snd (fst p)) (hd_error (rev (ipos b (firstn n items) 0))).
Proof.
  induction n as [|n IH]; intros H; cbn [last_live]; [reflexivity|].
  destruct (nth_error_lt_Some items n ltac:(lia)) as [it E]. rewrite E.
  assert (firstn (S n) items = firstn n items ++ [it]) as ->.
  { clear -E. revert n E. induction items as [|x t IH]; intros [|n] E; cbn in E; try discriminate; [now injection E as ->|].
    cbn. f_equal. now apply IH. }
  rewrite ipos_app, last_error_app. cbn [ipos]. unfold live at 1. rewrite firstn_length_le by lia.
  destruct (is_empty (ihash it)); cbn [negb]; [|reflexivity]. cbn [rev hd_error]. apply IH. lia.
Qed.

Lemma last_in {A} (l : list A) x : hd_error (rev l) = Some x -> In x l.
Proof. intros E. apply in_rev. destruct (rev l); [discriminate|]. injection E as ->. now left. Qed.

Lemma firstn_last {A} (l : list A) n x : nth_error l n = Some x -> firstn (S n) l = firstn n l ++ [x].
Proof. revert n. induction l as [|y l IH]; intros [|n] E; cbn in E; try discriminate; [now injection E as ->|]. cbn. f_equal. now apply IH. Qed.

Lemma scan_down_tail bs : forall n, n <= length bs -> scan_down bs n None = option_map fst (hd_error (rev (bpos (firstn n bs) 0))).
Proof.
  induction n as [|n IH]; intros H; cbn [scan_down]; [reflexivity|].
  destruct (nth_error_lt_Some bs n ltac:(lia)) as [bk E]. rewrite E, (firstn_last bs n bk E), bpos_app, last_error_app. cbn [bpos].
  rewrite app_nil_r, firstn_length_le by lia. cbn [Nat.add]. destruct bk as [items|]; cbn [items_of ipos rev hd_error]; [|apply IH; lia].
  rewrite (last_live_tl n items (length items)) by lia. rewrite firstn_all. destruct (hd_error (rev (ipos n items 0))) as [[[b i] it]|] eqn:L; cbn [option_map fst snd]; [|apply IH; lia].
  apply last_in, ipos_in in L as (-> & _). reflexivity.
Qed.

Lemma scan_down_from bs b items i : nth_error bs b = Some (Some items) -> i <= length items ->
  scan_down bs (S b) (Some i) = option_map fst (hd_error (rev (bpos (firstn b bs) 0 ++ ipos b (firstn i items) 0))).
Proof.
  intros E Hi. cbn [scan_down]. rewrite E, last_error_app, (last_live_tl b items i Hi).
  destruct (hd_error (rev (ipos b (firstn i items) 0))) as [[[b' j] it]|] eqn:L; cbn [option_map fst snd].
  - apply last_in, ipos_in in L as (-> & _). reflexivity.
  - apply scan_down_tail. apply nth_error_Some_lt in E. lia.
Qed.

Lemma split_at {A} (l : list A) n x : nth_error l n = Some x -> l = firstn n l ++ x :: skipn (S n) l.
Proof. revert n. induction l as [|y l IH]; intros [|n] E; cbn in E; try discriminate; [now injection E as ->|]. cbn. f_equal. now apply IH. Qed.

(** The positions around a live item *)
Lemma positions_around m bs b i it A B : buckets m = Some bs -> positions m = A ++ (b, i, it) :: B ->
  exists items, nth_error bs b = Some (Some items) /\ nth_error items i = Some it /\
    A = bpos (firstn b bs) 0 ++ ipos b (firstn i items) 0 /\ B = ipos b (skipn (S i) items) (S i) ++ bpos (skipn (S b) bs) (S b).
Proof.
  intros Eb E. assert (In (b, i, it) (positions m)) as X by (rewrite E; apply in_or_app; right; now left).
  apply positions_in in X as (X & Lv). unfold item_at in X. rewrite Eb in X. destruct (nth_error bs b) as [[items|]|] eqn:E1; try discriminate.
  exists items. split; [reflexivity|]. split; [exact X|].
  assert (P : positions m = (bpos (firstn b bs) 0 ++ ipos b (firstn i items) 0) ++ (b, i, it) :: ipos b (skipn (S i) items) (S i) ++ bpos (skipn (S b) bs) (S b)).
  { unfold positions. rewrite Eb. rewrite (split_at bs b _ E1) at 1. rewrite bpos_app. cbn [bpos items_of Nat.add].
    rewrite firstn_length_le by (apply nth_error_Some_lt in E1; lia). rewrite (split_at items i it X) at 1. rewrite ipos_app. cbn [ipos Nat.add]. rewrite Lv.
    rewrite firstn_length_le by (apply nth_error_Some_lt in X; lia). rewrite <- !app_assoc. reflexivity. }
  pose proof (positions_nodup m) as ND. rewrite E in ND, P. now apply nodup_split in P.
Qed.

Section Fits.
Variable (N0 : nat).

Definition entry_of (m : hashmap) (p : position) : N := encm m (fst (fst p)) (snd (fst p)).
Definition entry_at (m : hashmap) (p : option position) : N := match p with Some p => entry_of m p | None => 0%N end.

Lemma position_entry_is n m st p : rel N0 n m st -> n <= N0 -> (forall x, p = Some x -> In x (positions m)) ->
  position_entry m (option_map fst p) = Some (entry_at m p).
Proof.
  intros (I & B & F & S & C) Hn H. destruct p as [[[b i] it]|]; [|reflexivity]. cbn [option_map fst position_entry entry_at].
  destruct (proj1 (positions_in m b i it) (H _ eq_refl)) as (X & _). unfold entry_of. cbn [fst snd].
  apply (to_entry_is N0); [auto|eapply item_lt; eauto|]. specialize (B _ _ _ X). lia.
Qed.

Lemma hd_in {A} (l : list A) x : hd_error l = Some x -> In x l.
Proof. destruct l; [discriminate|]. intros E. injection E as ->. now left. Qed.

Lemma head_entry_is n m st : rel N0 n m st -> n <= N0 -> head_entry m = Some (entry_at m (hd_error (positions m))).
Proof.
  intros R Hn. rewrite <- (position_entry_is n m st _ R Hn) by (intros; now apply hd_in).
  unfold head_entry, positions. destruct (buckets m) as [bs|]; [|reflexivity]. now rewrite scan_up_head.
Qed.

Lemma tail_entry_is n m st : rel N0 n m st -> n <= N0 -> tail_entry m = Some (entry_at m (hd_error (rev (positions m)))).
Proof.
  intros R Hn. rewrite <- (position_entry_is n m st _ R Hn) by (intros; now apply last_in).
  unfold tail_entry, positions. destruct (buckets m) as [bs|]; [|reflexivity]. now rewrite scan_down_tail, firstn_all by lia.
Qed.

Lemma entry_index n m st p : rel N0 n m st -> n <= N0 -> In p (positions m) ->
  entry_to_index (N.of_nat (bucketCount m)) (entry_of m p) = Some (Some (N.of_nat (fst (fst p)), N.of_nat (snd (fst p)))).
Proof.
  intros (I & B & F & S & C) Hn H. destruct p as [[b i] it]. apply positions_in in H as (X & _). unfold entry_of. cbn [fst snd].
  pose proof (item_lt hash eqk _ _ _ _ I X). specialize (B _ _ _ X). apply entry_to_index_enc; [eapply fits_bc; eauto|lia|]. eapply fits_item; eauto. lia.
Qed.

Lemma next_entry_is n m st A p B : rel N0 n m st -> n <= N0 -> positions m = A ++ p :: B ->
  next_entry m (entry_of m p) = Some (entry_at m (hd_error B)).
Proof.
  intros R Hn E. rewrite <- (position_entry_is n m st _ R Hn) by (intros x X; apply hd_in in X; rewrite E; apply in_or_app; right; now right).
  unfold next_entry. assert (In p (positions m)) as X by (rewrite E; apply in_or_app; right; now left).
  destruct (buckets m) as [bs|] eqn:Eb; [|unfold positions in X; rewrite Eb in X; destruct X].
  rewrite (entry_index n m st p R Hn X). destruct p as [[b i] it]. cbn [fst snd]. rewrite !Nat2N.id.
  destruct (positions_around m bs b i it A B Eb E) as (items & E1 & E2 & -> & ->).
  rewrite <- scan_up_from. f_equal. f_equal. rewrite (split_at bs b _ E1) at 1. rewrite skipn_app, firstn_length_le by (apply nth_error_Some_lt in E1; lia).
  rewrite skipn_all2 by (rewrite firstn_length; lia). now rewrite Nat.sub_diag.
Qed.

Lemma prev_entry_is n m st A p B : rel N0 n m st -> n <= N0 -> positions m = A ++ p :: B ->
  prev_entry m (entry_of m p) = Some (entry_at m (hd_error (rev A))).
Proof.
  intros R Hn E. rewrite <- (position_entry_is n m st _ R Hn) by (intros x X; apply last_in in X; rewrite E; apply in_or_app; now left).
  unfold prev_entry. assert (In p (positions m)) as X by (rewrite E; apply in_or_app; right; now left).
  destruct (buckets m) as [bs|] eqn:Eb; [|unfold positions in X; rewrite Eb in X; destruct X].
  rewrite (entry_index n m st p R Hn X). destruct p as [[b i] it]. cbn [fst snd]. rewrite !Nat2N.id.
  destruct (positions_around m bs b i it A B Eb E) as (items & E1 & E2 & -> & ->).
  now rewrite (scan_down_from bs b items i E1) by (apply nth_error_Some_lt in E2; lia).
Qed.

(** ** The live entries *)
Definition entries (m : hashmap) : list N := map (entry_of m) (positions m).

Lemma abs_entry n m st p : rel N0 n m st -> n <= N0 -> In p (positions m) -> st (entry_of m p) = view (snd p) /\ view (snd p) <> None /\ entry_of m p <> 0%N.
Proof.
  intros (I & B & F & S & C) Hn H. destruct p as [[b i] it]. apply positions_in in H as (X & Lv). unfold entry_of. cbn [fst snd].
  rewrite S, (abs_at N0 m b i it) by (auto; first [eapply item_lt; eauto|specialize (B _ _ _ X); lia]). unfold view. rewrite Lv.
  repeat split; [discriminate|]. apply enc_nz.
Qed.

Lemma nodup_map_on {A B} (f : A -> B) l : (forall x y, In x l -> In y l -> f x = f y -> x = y) -> NoDup l -> NoDup (map f l).
Proof.
  intros H N. induction N as [|x l X N IH]; [constructor|]. cbn. constructor.
  - rewrite in_map_iff. intros (y & E & Y). apply X. rewrite <- (H y x); auto; [now right|now left].
  - apply IH. intros a b Ha Hb. apply H; now right.
Qed.

Lemma entries_domain n m st : rel N0 n m st -> n <= N0 -> domain st (entries m).
Proof.
  intros R Hn. pose proof R as (I & B & F & S & C). split.
  - apply nodup_map_on; [|apply positions_nodup]. intros [[b i] it] [[b' i'] it'] X Y E. apply positions_in in X as (X & _), Y as (Y & _).
    unfold entry_of in E. cbn [fst snd] in E. pose proof (item_lt hash eqk _ _ _ _ I X). pose proof (item_lt hash eqk _ _ _ _ I Y).
    apply (encm_inj N0) in E as [-> ->]; auto. congruence.
  - intros e. split.
    + intros X. apply in_map_iff in X as (p & <- & X). destruct (abs_entry n m st p R Hn X) as (-> & H & _). exact H.
    + intros X. destruct (st e) as [[k c]|] eqn:E; [|congruence]. rewrite S in E. destruct (abs_live N0 m e k c F E) as (b & i & it & -> & Y & Lv & _).
      change (encm m b i) with (entry_of m (b, i, it)). apply in_map. now apply positions_in.
Qed.

Lemma entries_count n m st : rel N0 n m st -> length (entries m) = count m.
Proof. intros (I & _). rewrite (inv_count hash eqk m I), <- positions_snd. unfold entries. now rewrite !map_length. Qed.

Lemma domain_length (st : state K V) es es' : domain st es -> domain st es' -> length es = length es'.
Proof.
  intros (N1 & D1) (N2 & D2). apply Nat.le_antisymm; apply NoDup_incl_length; auto; intros e X.
  - now apply D2, D1.
  - now apply D1, D2.
Qed.

Lemma domain_put (st : state K V) es e x : domain st es -> st e = None -> x <> None -> domain (put st e x) (e :: es).
Proof.
  intros (N1 & D1) E X. split.
  - constructor; [|exact N1]. rewrite D1. auto.
  - intros e'. cbn [In]. unfold put. rewrite D1. destruct (N.eqb_spec e' e) as [->|Hne]; [tauto|]. split; [intros [Y|Y]; [now symmetry in Y|exact Y]|auto].
Qed.

Lemma domain_same (st st' : state K V) es : same st st' -> domain st es -> domain st' es.
Proof. intros S (N1 & D1). split; [exact N1|]. intros e. now rewrite D1, S. Qed.

(** ** Setting a value *)
Lemma rel_le n n' m st : n <= n' -> rel N0 n m st -> rel N0 n' m st.
Proof. intros H (I & B & F & S & C). repeat (split; auto); [eapply bounded_le; eauto|lia]. Qed.

Lemma rel_same n m st st' : same st' st -> rel N0 n m st -> rel N0 n m st'.
Proof. intros H (I & B & F & S & C). split; [auto|]. split; [auto|]. split; [auto|]. split; [eapply same_trans; eauto|auto]. Qed.

Lemma set_value_ok n m st k v : rel N0 n m st -> S n <= N0 ->
  exists m' st', set_value hash eqk m k v = Some m' /\ rel N0 (S n) m' st' /\ spec_call eqk st (SetValue k v) (RUnit (K := K) (V := V)) st' /\ bucketCount m' = bucketCount m.
Proof.
  intros R Hn. pose proof R as (I & _). unfold set_value. destruct (get_key_ok hash eqk eqk_refl eqk_sym eqk_trans eqk_hash m k I) as (r & -> & H).
  set (b := home hash (bucketCount m) k) in *. destruct r as [i|].
  - destruct H as (it & E & Lv & Ek). rewrite E. destruct (found hash eqk eqk_refl eqk_sym eqk_trans eqk_hash N0 m st b i it k n R ltac:(lia) E Lv Ek) as (P & Nz & Hb & Hi).
    unfold masked at 1. rewrite init_masked.
    destruct (rewrite_item hash eqk eqk_refl eqk_sym eqk_trans eqk_hash N0 n m st b i it (N.lor (ihash it) INIT) v R ltac:(lia) E Lv) as (m' & Es & R').
    { rewrite empty_init. unfold live in Lv. now destruct (is_empty (ihash it)). }
    { apply code_init. }
    { apply init_init. }
    exists m', (put st (encm m b i) (Some (ikey it, Some v))). split; [exact Es|]. split; [eapply rel_le; [|exact R']; lia|]. split.
    + split; [reflexivity|]. exists (encm m b i). split; [exact Nz|]. left. exists (ikey it), (if is_init (ihash it) then ival it else None). split; [exact P|]. intros e. reflexivity.
    + destruct (set_item_ok m b i it (mkItem (N.lor (ihash it) INIT) (ikey it) (Some v)) E) as (m2 & Es2 & EB & _). congruence.
  - destruct (add_item hash eqk eqk_refl eqk_sym eqk_trans eqk_hash N0 n m st k (Some v) R Hn H) as (m' & i & Ea & EB & Hi & En & R'). fold b in Ea, En, R'.
    rewrite Ea. eexists m', _. split; [reflexivity|]. split; [exact R'|]. split; [|exact EB].
    split; [reflexivity|]. exists (encm m b i). split; [apply enc_nz|]. right. split; [eapply missing; eauto|]. split; [exact En|]. intros e. reflexivity.
Qed.

(** ** Rehashing *)
Lemma rel_create bc m : create bc = Some m -> fits N0 bc -> rel N0 0 m (@empty K V).
Proof.
  unfold create. destruct (Nat.leb_spec 1 bc); [|discriminate]. intros E F. injection E as <-.
  assert (NI : forall b i it, item_at (mkMap (K := K) (V := V) bc 0 None) b i = Some it -> False) by (intros b i it X; discriminate).
  split; [|split; [|split; [|split]]].
  - constructor; cbn [bucketCount count buckets]; auto; try discriminate; intros; exfalso; eauto.
  - intros b i it X. exfalso; eauto.
  - exact F.
  - intros e. unfold abs, empty. cbn [bucketCount]. destruct (dec (N.of_nat bc) e) as [[b i]|]; reflexivity.
  - cbn [count]. lia.
Qed.

Definition same_pairs (st : state K V) (ps : list position) : Prop :=
  forall k c, (exists e, st e = Some (k, c)) <-> (exists p, In p ps /\ view (snd p) = Some (k, c)).

Lemma copy_ok n m st : rel N0 n m st -> n <= N0 -> (forall e k c, st e = Some (k, c) -> c <> None) ->
  forall B A fuel n' st', positions m = A ++ B -> length B <= fuel -> length A + length B <= N0 ->
  rel N0 (length A) n' st' -> count n' = length A -> same_pairs st' A ->
  exists n2 st2, copy_entries hash eqk fuel m n' (entry_at m (hd_error B)) = Some n2 /\ rel N0 (length A + length B) n2 st2 /\
    count n2 = length A + length B /\ same_pairs st2 (A ++ B).
Proof.
  intros R Hn HI. pose proof R as (I & Bd & F & S & C). induction B as [|p B IH]; intros A fuel n' st' E Hf HN R' HC HP.
  - exists n', st'. cbn [hd_error entry_at length]. rewrite Nat.add_0_r, app_nil_r. destruct fuel; cbn [copy_entries]; auto.
  - assert (In p (positions m)) as X by (rewrite E; apply in_or_app; right; now left).
    destruct (abs_entry n m st p R Hn X) as (Ev & Vn & Nz). destruct fuel as [|fuel]; [cbn in Hf; lia|]. cbn [hd_error entry_at copy_entries].
    destruct (N.eqb_spec (entry_of m p) 0) as [Z|_]; [congruence|].
    rewrite (next_entry_is n m st A p B R Hn E). destruct p as [[b i] it]. cbn [snd] in Ev, Vn.
    pose proof (proj1 (positions_in m b i it) X) as (Xi & Lv). unfold entry_of at 1. cbn [fst snd].
    rewrite (entry_item_at hash eqk N0 m b i it) by (auto; specialize (Bd _ _ _ Xi); lia).
    unfold view in Ev. rewrite Lv in Ev. pose proof (HI _ _ _ Ev) as Hc. destruct (is_init (ihash it)) eqn:Ei; [|congruence].
    destruct (ival it) as [v|] eqn:Evl; [|congruence].
    cbn [length] in HN, Hf. destruct (set_value_ok (length A) n' st' (ikey it) v R' ltac:(lia)) as (n2 & st2 & Es & R2 & (_ & e & Nze & SP) & EB). rewrite Es.
    destruct SP as [(k0 & c & (Pr & Ek) & _)|(_ & En & Sm)].
    { exfalso. destruct (proj1 (HP k0 c) (ex_intro _ e Pr)) as ([[b' i'] it'] & Y & Vy). cbn [snd] in Vy.
      assert (In (b', i', it') (positions m)) as Y' by (rewrite E; apply in_or_app; now left).
      apply positions_in in Y' as (Y1 & Y2). unfold view in Vy. rewrite Y2 in Vy. injection Vy as <- _.
      destruct (inv_uniq hash eqk m I _ _ _ _ _ _ Xi Lv Y1 Y2 Ek) as [<- <-]. rewrite Xi in Y1. injection Y1 as <-.
      pose proof (positions_nodup m) as ND. rewrite E in ND. apply NoDup_remove_2 in ND. apply ND. apply in_or_app. now left. }
    destruct (IH (A ++ [(b, i, it)]) fuel n2 st2) as (n3 & st3 & Ec & R3 & C3 & P3).
    + now rewrite <- app_assoc.
    + lia.
    + rewrite app_length. cbn [length]. lia.
    + rewrite app_length. cbn [length]. now replace (length A + 1) with (Datatypes.S (length A)) by lia.
    + rewrite app_length. cbn [length]. rewrite <- (entries_count _ _ _ R2). rewrite <- HC, <- (entries_count _ _ _ R').
      rewrite (domain_length st2 (entries n2) (e :: entries n')); [cbn; lia|eapply entries_domain; [exact R2|lia]|].
      apply (domain_same (put st' e (Some (ikey it, Some v)))); [now apply same_sym|]. apply domain_put; [eapply entries_domain; [exact R'|lia]|exact En|discriminate].
    + intros k c. split.
      * intros (e' & X'). rewrite Sm in X'. unfold put in X'. destruct (N.eqb_spec e' e) as [_|_].
        -- injection X' as <- <-. exists (b, i, it). split; [apply in_or_app; right; now left|]. cbn [snd]. unfold view. now rewrite Lv, Ei, Evl.
        -- destruct (proj1 (HP k c) (ex_intro _ e' X')) as (q & Q1 & Q2). exists q. split; [apply in_or_app; now left|exact Q2].
      * intros (q & Q1 & Q2). apply in_app_iff in Q1 as [Q1|[<-|[]]].
        -- destruct (proj2 (HP k c) (ex_intro _ q (conj Q1 Q2))) as (e' & X'). exists e'. rewrite Sm. unfold put. destruct (N.eqb_spec e' e) as [Z|Z]; [congruence|exact X'].
        -- cbn [snd] in Q2. unfold view in Q2. rewrite Lv, Ei, Evl in Q2. exists e. rewrite Sm. unfold put. now rewrite N.eqb_refl.
    + exists n3, st3. rewrite app_length in R3, C3. cbn [length] in R3, C3 |- *. replace (length A + 1 + length B) with (length A + Datatypes.S (length B)) in R3, C3 by lia.
      rewrite <- app_assoc in P3. auto.
Qed.

Lemma slots_positions m : length (positions m) <= slots m.
Proof.
  rewrite <- (map_length snd), positions_snd. unfold live_items, slots. destruct (buckets m) as [bs|]; [|cbn; lia].
  generalize (concat (map (fun bk : option (list item) => match bk with Some l => l | None => [] end) bs)). intros l.
  induction l as [|x l IH]; cbn [filter length]; [lia|]. destruct (negb (is_empty (ihash x))); cbn [length]; lia.
Qed.

Lemma rehash_ok n m st bc : rel N0 n m st -> n <= N0 -> 1 <= bc -> fits N0 bc -> (forall e k c, st e = Some (k, c) -> c <> None) ->
  exists m' st', rehash hash eqk m bc = Some m' /\ rel N0 n m' st' /\ spec_call eqk st (Rehash bc) (RUnit (K := K) (V := V)) st'.
Proof.
  intros R Hn Hb F HI. unfold rehash. destruct (create bc) as [m0|] eqn:Ec; [|unfold create in Ec; destruct (Nat.leb_spec 1 bc); [discriminate|lia]].
  rewrite (head_entry_is n m st R Hn). pose proof R as (I & Bd & _ & S & C).
  assert (L : length (positions m) = count m) by (rewrite (inv_count hash eqk m I), <- positions_snd, map_length; reflexivity).
  destruct (copy_ok n m st R Hn HI (positions m) [] (slots m) m0 (@empty K V) eq_refl (slots_positions m)) as (m' & st' & E & R' & C' & P').
  - cbn. lia.
  - eapply rel_create; eauto.
  - unfold create in Ec. destruct (Nat.leb 1 bc); [injection Ec as <-; reflexivity|discriminate].
  - intros k c. split; [intros (e & X); discriminate|intros (p & [] & _)].
  - cbn [length Nat.add app] in R', C', P'. exists m', st'. split; [exact E|]. split; [eapply rel_le; [|exact R']; lia|]. split; [reflexivity|]. split.
    + intros k c. rewrite (P' k c). split.
      * intros (e & X). rewrite S in X. destruct (abs_live N0 m e k c (proj1 (proj2 (proj2 R))) X) as (b & i & it & _ & X1 & X2 & -> & -> & _).
        exists (b, i, it). split; [now apply positions_in|]. cbn [snd]. unfold view. now rewrite X2.
      * intros (p & X & Vp). exists (entry_of m p). now rewrite (proj1 (abs_entry n m st p R Hn X)).
    + exists (entries m), (entries m'). split; [eapply entries_domain; eauto|]. split; [eapply entries_domain; [exact R'|lia]|].
      now rewrite (entries_count n m st R), (entries_count _ m' st' R'), C', L.
Qed.

(** ** Every call *)
Lemma same_refl (st : state K V) : same st st.
Proof. intros e. reflexivity. Qed.

Lemma live_entry n m st e : rel N0 n m st -> n <= N0 -> st e <> None -> exists b i it,
  e = encm m b i /\ item_at m b i = Some it /\ live it = true /\ entry_item m e = Some (Some (b, i, it)) /\
  st e = Some (ikey it, if is_init (ihash it) then ival it else None).
Proof.
  intros (I & B & F & S & C) Hn H. destruct (st e) as [[k c]|] eqn:E; [|congruence]. rewrite S in E.
  destruct (abs_live N0 m e k c F E) as (b & i & it & -> & X & Lv & -> & -> & _). exists b, i, it. repeat split; auto.
  apply (entry_item_at hash eqk N0); auto. specialize (B _ _ _ X). lia.
Qed.

Lemma entry_item_0 (m : hashmap) : entry_item m 0 = Some None.
Proof. reflexivity. Qed.

Lemma st_0 n m st : rel N0 n m st -> st 0%N = None.
Proof.
  intros (I & B & F & S & C). destruct (st 0%N) as [[k c]|] eqn:E; [|reflexivity]. rewrite S in E.
  destruct (abs_live N0 m _ k c F E) as (_ & _ & _ & _ & _ & _ & _ & _ & X). congruence.
Qed.

Lemma init_value n m st b i it : rel N0 n m st -> item_at m b i = Some it -> live it = true ->
  (match (if is_init (ihash it) then ival it else None) with Some _ => true | None => false end) = is_init (ihash it).
Proof.
  intros (I & _) X Lv. destruct (inv_item hash eqk m I _ _ _ X Lv) as (_ & _ & H). destruct (is_init (ihash it)); [|reflexivity].
  destruct (ival it); [reflexivity|]. now specialize (H eq_refl).
Qed.

Lemma forall2_map {A B C} (P : B -> C -> Prop) (f : A -> B) (g : A -> C) l : (forall x, In x l -> P (f x) (g x)) -> Forall2 P (map f l) (map g l).
Proof. induction l as [|x l IH]; intros H; cbn; constructor; [apply H; now left|apply IH; intros y Y; apply H; now right]. Qed.

Lemma step_ok n m st o : rel N0 n m st -> S n <= N0 -> client_ok N0 st o ->
  exists m' r st', step hash eqk m o = Some (m', r) /\ spec_call eqk st o r st' /\ rel N0 (S n) m' st'.
Proof.
  intros R Hn CO. pose proof R as (I & B & F & Sm & C). assert (R1 : rel N0 (S n) m st) by (eapply rel_le; [|exact R]; lia).
  pose proof (get_key_ok hash eqk eqk_refl eqk_sym eqk_trans eqk_hash m) as GK.
  assert (FD := fun b i it k => found hash eqk eqk_refl eqk_sym eqk_trans eqk_hash N0 m st b i it k n R ltac:(lia)).
  assert (TE := fun b i => to_entry_is N0 m b i F).
  assert (DM := entries_domain n m st R ltac:(lia)).
  destruct o as [k v|k|k|k|k|e|e|e|e v|e| | | |bc]; cbn [step].
  - destruct (set_value_ok n m st k v R Hn) as (m' & st' & -> & R' & SP & _). exists m', RUnit, st'. auto.
  - destruct (GK k I) as ([i|] & -> & H); exists m.
    + destruct H as (it & X & Lv & Ek). rewrite X. exists (RValue (Some (ival it))), st. split; [reflexivity|]. split; [|exact R1]. split; [apply same_refl|].
      right. destruct (FD _ _ _ k X Lv Ek) as (P & _). eexists _, _, _, _. split; [exact P|]. split; [reflexivity|].
      intros Nn. destruct (is_init (ihash it)); [reflexivity|congruence].
    + exists (RValue None), st. split; [reflexivity|]. split; [|exact R1]. split; [apply same_refl|]. left. split; [eapply missing; eauto|reflexivity].
  - destruct (GK k I) as ([i|] & -> & H).
    + destruct H as (it & X & Lv & Ek). destruct (FD _ _ _ k X Lv Ek) as (P & _ & Hb & Hi). rewrite (TE _ _ Hb Hi).
      destruct (remove_item_ok hash eqk eqk_refl eqk_sym eqk_trans eqk_hash N0 n m st _ i it R ltac:(lia) X Lv) as (m' & -> & R').
      eexists m', RUnit, _. split; [reflexivity|]. split; [|eapply rel_le; [|exact R']; lia]. split; [reflexivity|]. right. eexists _, _, _. split; [exact P|apply same_refl].
    + exists m, RUnit, st. split; [reflexivity|]. split; [|exact R1]. split; [reflexivity|]. left. split; [eapply missing; eauto|apply same_refl].
  - destruct (GK k I) as ([i|] & -> & H); exists m.
    + destruct H as (it & X & Lv & Ek). destruct (FD _ _ _ k X Lv Ek) as (P & Nz & Hb & Hi). rewrite (TE _ _ Hb Hi).
      eexists _, st. split; [reflexivity|]. split; [|exact R1]. split; [apply same_refl|]. right. eexists _, _, _. split; [exact Nz|]. split; [exact P|reflexivity].
    + eexists _, st. split; [reflexivity|]. split; [|exact R1]. split; [apply same_refl|]. left. split; [eapply missing; eauto|reflexivity].
  - destruct (GK k I) as ([i|] & -> & H).
    + destruct H as (it & X & Lv & Ek). destruct (FD _ _ _ k X Lv Ek) as (P & Nz & Hb & Hi). rewrite (TE _ _ Hb Hi).
      exists m. eexists _, st. split; [reflexivity|]. split; [|exact R1]. eexists. split; [exact Nz|]. left. eexists _, _. split; [exact P|]. split; [reflexivity|apply same_refl].
    + destruct (add_item hash eqk eqk_refl eqk_sym eqk_trans eqk_hash N0 n m st k None R Hn H) as (m' & i & Ea & EB & Hi & En & R').
      rewrite Ea. rewrite (to_entry_is N0) by (rewrite ?EB; auto; eapply home_lt; first [apply (inv_bc hash eqk m I)|auto]).
      replace (encm m' (home hash (bucketCount m) k) i) with (encm m (home hash (bucketCount m) k) i) by (unfold encm; now rewrite EB).
      eexists m', _, _. split; [reflexivity|]. split; [|exact R']. eexists. split; [apply enc_nz|]. right. split; [eapply missing; eauto|].
      split; [exact En|]. split; [reflexivity|apply same_refl].
  - destruct CO as [->|L].
    + rewrite entry_item_0. eexists m, _, st. split; [reflexivity|]. split; [|exact R1]. split; [apply same_refl|]. now rewrite (st_0 n m st R).
    + destruct (live_entry n m st e R ltac:(lia) L) as (b & i & it & _ & X & Lv & -> & Es). eexists m, _, st. split; [reflexivity|]. split; [|exact R1].
      split; [apply same_refl|]. rewrite Es, (init_value n m st b i it R X Lv). reflexivity.
  - destruct CO as [->|L].
    + rewrite entry_item_0. eexists m, _, st. split; [reflexivity|]. split; [|exact R1]. split; [apply same_refl|]. now rewrite (st_0 n m st R).
    + destruct (live_entry n m st e R ltac:(lia) L) as (b & i & it & _ & X & Lv & -> & Es). eexists m, _, st. split; [reflexivity|]. split; [|exact R1].
      split; [apply same_refl|]. now rewrite Es.
  - destruct CO as [->|L].
    + rewrite entry_item_0. eexists m, _, st. split; [reflexivity|]. split; [|exact R1]. split; [apply same_refl|]. now rewrite (st_0 n m st R).
    + destruct (live_entry n m st e R ltac:(lia) L) as (b & i & it & _ & X & Lv & -> & Es). eexists m, _, st. split; [reflexivity|]. split; [|exact R1].
      split; [apply same_refl|]. rewrite Es. eexists. split; [reflexivity|]. intros Nn. destruct (is_init (ihash it)); [reflexivity|congruence].
  - destruct CO as [->|L].
    + rewrite entry_item_0. exists m, RUnit, st. split; [reflexivity|]. split; [|exact R1]. split; [reflexivity|]. rewrite (st_0 n m st R). apply same_refl.
    + destruct (live_entry n m st e R ltac:(lia) L) as (b & i & it & Ee & X & Lv & -> & Es).
      destruct (rewrite_item hash eqk eqk_refl eqk_sym eqk_trans eqk_hash N0 n m st b i it (N.lor (ihash it) INIT) v R ltac:(lia) X Lv) as (m' & Em & R').
      { rewrite empty_init. unfold live in Lv. now destruct (is_empty (ihash it)). }
      { apply code_init. }
      { apply init_init. }
      rewrite Em. eexists m', RUnit, _. split; [reflexivity|]. split; [|eapply rel_le; [|exact R']; lia]. split; [reflexivity|].
      rewrite Es, Ee. apply same_refl.
  - destruct CO as [->|L].
    + unfold remove_item. rewrite entry_item_0. exists m, RUnit, st. split; [reflexivity|]. split; [|exact R1]. split; [reflexivity|].
      intros e. unfold put. destruct (N.eqb_spec e 0) as [->|]; [apply (st_0 n m st R)|reflexivity].
    + destruct (live_entry n m st e R ltac:(lia) L) as (b & i & it & -> & X & Lv & _ & Es).
      destruct (remove_item_ok hash eqk eqk_refl eqk_sym eqk_trans eqk_hash N0 n m st b i it R ltac:(lia) X Lv) as (m' & -> & R').
      eexists m', RUnit, _. split; [reflexivity|]. split; [|eapply rel_le; [|exact R']; lia]. split; [reflexivity|apply same_refl].
  - eexists m, _, st. split; [reflexivity|]. split; [|exact R1]. split; [apply same_refl|]. exists (entries m). split; [exact DM|].
    now rewrite (entries_count n m st R).
  - eexists m, _, st. split; [reflexivity|]. split; [|exact R1]. split; [apply same_refl|]. eexists (entries m), _. split; [exact DM|]. split; [reflexivity|].
    rewrite <- positions_snd, map_map. apply forall2_map. intros p X. rewrite (proj1 (abs_entry n m st p R ltac:(lia) X)).
    destruct p as [[b i] it]. apply positions_in in X as (_ & Lv). cbn [snd]. unfold view. rewrite Lv. eauto.
  - eexists m, _, st. split; [reflexivity|]. split; [|exact R1]. split; [apply same_refl|]. eexists (entries m), _. split; [exact DM|]. split; [reflexivity|].
    rewrite <- positions_snd, map_map. apply forall2_map. intros p X. rewrite (proj1 (abs_entry n m st p R ltac:(lia) X)).
    destruct p as [[b i] it]. apply positions_in in X as (_ & Lv). cbn [snd]. unfold view. rewrite Lv. eexists _, _. split; [reflexivity|].
    intros Nn. destruct (is_init (ihash it)); [reflexivity|congruence].
  - destruct CO as (Hb & F' & HI). destruct (rehash_ok n m st bc R ltac:(lia) Hb F' HI) as (m' & st' & -> & R' & SP).
    exists m', RUnit, st'. split; [reflexivity|]. split; [exact SP|]. eapply rel_le; [|exact R']; lia.
Qed.

(** ** Between calls *)
Definition entry_from (es : list N) (c : EnumerableSpec.cursor) (e : N) : Prop :=
  match c with Some i => nth_error es i = Some e | None => e = 0%N end.

Lemma entries_nz n m st e : rel N0 n m st -> n <= N0 -> In e (entries m) -> e <> 0%N.
Proof. intros R Hn X. apply in_map_iff in X as (p & <- & X). now destruct (abs_entry n m st p R Hn X). Qed.

Lemma nth_entries m i e : nth_error (entries m) i = Some e -> exists A p B, positions m = A ++ p :: B /\ length A = i /\ e = entry_of m p.
Proof.
  intros X. unfold entries in X. destruct (nth_error (positions m) i) as [p|] eqn:Y; [|apply nth_error_None in Y; rewrite <- (map_length (entry_of m)) in Y; apply nth_error_None in Y; congruence].
  rewrite (map_nth_error (entry_of m) _ _ Y) in X. injection X as <-. apply nth_error_split in Y as (A & B & -> & L). eauto 6.
Qed.

Lemma hd_nth {A} (l : list A) : hd_error l = nth_error l 0.
Proof. now destruct l. Qed.

Lemma hd_rev_nth {A} (l : list A) : hd_error (rev l) = match length l with 0 => None | S n => nth_error l n end.
Proof.
  destruct l as [|x l] using rev_ind; [reflexivity|]. rewrite rev_app_distr, app_length, Nat.add_comm. cbn [rev app hd_error length Nat.add].
  now rewrite nth_error_app2, Nat.sub_diag by lia.
Qed.

Lemma entry_at_nth m i p : nth_error (positions m) i = p -> match p with Some _ => nth_error (entries m) i = Some (entry_at m p) | None => length (entries m) <= i end.
Proof.
  intros <-. unfold entries. destruct (nth_error (positions m) i) as [p|] eqn:Y; [now rewrite (map_nth_error (entry_of m) _ _ Y)|].
  rewrite map_length. now apply nth_error_None.
Qed.

Lemma enum_sim n m st : rel N0 n m st -> n <= N0 -> forall e c a, entry_from (entries m) c e -> EnumerableSpec.client_ok (entries m) c a ->
  exists e', enum_step m e a = Some (e', EnumerableSpec.value (entries m) (EnumerableSpec.move (entries m) c a)) /\
    entry_from (entries m) (EnumerableSpec.move (entries m) c a) e'.
Proof.
  intros R Hn e c a H CO.
  assert (FIN : forall c' e', entry_from (entries m) c' e' -> Some (e', if (e' =? 0)%N then None else Some e') = Some (e', EnumerableSpec.value (entries m) c')).
  { intros c' e' X. destruct c' as [i|]; cbn [entry_from EnumerableSpec.value] in *; [|now rewrite X].
    rewrite X. destruct (N.eqb_spec e' 0) as [Z|]; [|reflexivity]. exfalso. exact (entries_nz n m st e' R Hn (nth_error_In _ _ X) Z). }
  assert (LE : length (entries m) = length (positions m)) by apply map_length.
  unfold enum_step. destruct a.
  - cbn [EnumerableSpec.move]. exists e. rewrite (FIN c e H). auto.
  - rewrite (head_entry_is n m st R Hn), hd_nth. cbn [EnumerableSpec.move]. unfold EnumerableSpec.first.
    assert (Q : entry_from (entries m) (if length (entries m) =? 0 then None else Some 0) (entry_at m (nth_error (positions m) 0))).
    { pose proof (entry_at_nth m 0 _ eq_refl) as X. destruct (Nat.eqb_spec (length (entries m)) 0) as [Z|Z].
      - rewrite (proj2 (nth_error_None _ _)) by lia. reflexivity.
      - destruct (nth_error (positions m) 0); [exact X|lia]. }
    eexists. rewrite (FIN _ _ Q). auto.
  - rewrite (tail_entry_is n m st R Hn), hd_rev_nth. cbn [EnumerableSpec.move]. rewrite LE.
    set (p := match length (positions m) with 0 => None | S k => nth_error (positions m) k end).
    assert (Q : entry_from (entries m) (if length (positions m) =? 0 then None else Some (length (positions m) - 1)) (entry_at m p)).
    { subst p. destruct (length (positions m)) as [|k] eqn:L; [reflexivity|]. cbn [Nat.eqb entry_from]. replace (S k - 1) with k by lia.
      pose proof (entry_at_nth m k _ eq_refl) as X. destruct (nth_error (positions m) k); [exact X|lia]. }
    eexists. rewrite (FIN _ _ Q). auto.
  - destruct c as [i|]; [|destruct CO]. cbn [entry_from] in H. destruct (nth_entries m i e H) as (A & p & B & E & LA & ->).
    rewrite (next_entry_is n m st A p B R Hn E). cbn [EnumerableSpec.move].
    assert (Q : entry_from (entries m) (if S i <? length (entries m) then Some (S i) else None) (entry_at m (hd_error B))).
    { assert (NB : nth_error (positions m) (S i) = hd_error B) by (rewrite E, nth_error_app2, LA, hd_nth by lia; now replace (S i - i) with 1 by lia).
      pose proof (entry_at_nth m (S i) _ NB) as X. destruct (Nat.ltb_spec (S i) (length (entries m))).
      - destruct (hd_error B); [exact X|lia].
      - destruct (hd_error B); [|reflexivity]. apply nth_error_Some_lt in X. lia. }
    eexists. rewrite (FIN _ _ Q). auto.
  - destruct c as [i|]; [|destruct CO]. cbn [entry_from] in H. destruct (nth_entries m i e H) as (A & p & B & E & LA & ->).
    rewrite (prev_entry_is n m st A p B R Hn E), hd_rev_nth, LA.
    assert (Q : entry_from (entries m) (EnumerableSpec.move (entries m) (Some i) EnumerableModel.Previous) (entry_at m (match i with 0 => None | S k => nth_error A k end))).
    { destruct i as [|i]; [reflexivity|]. cbn [EnumerableSpec.move entry_from].
      assert (NA : nth_error (positions m) i = nth_error A i) by (rewrite E; apply nth_error_app1; lia).
      pose proof (entry_at_nth m i _ NA) as X. destruct (nth_error A i) eqn:Y; [exact X|]. apply nth_error_None in Y. lia. }
    eexists. rewrite (FIN _ _ Q). auto.
Qed.

Lemma good_holds n m st : rel N0 n m st -> n <= N0 -> good hash eqk m st.
Proof.
  intros R Hn. pose proof R as (I & B & F & S & C). split; [|split; [eapply st_0; eauto|]].
  - intros e1 e2 k1 c1 k2 c2 H1 H2 Ek. rewrite S in H1, H2.
    destruct (abs_live N0 m _ _ _ F H1) as (b1 & i1 & it1 & -> & X1 & L1 & -> & _). destruct (abs_live N0 m _ _ _ F H2) as (b2 & i2 & it2 & -> & X2 & L2 & -> & _).
    destruct (inv_uniq hash eqk m I _ _ _ _ _ _ X1 L1 X2 L2 Ek) as [-> ->]. reflexivity.
  - eexists (entries m), _, _, _. split; [eapply entries_domain; eauto|]. split; [eapply head_entry_is; eauto|]. split; [|split; [reflexivity|split; [|split; [reflexivity|]]]].
    + apply (EnumerableProofs.sim_enumerates _ _ (fun e c => entry_from (entries m) c e)).
      * intros e c a H1 H2. eapply enum_sim; eauto.
      * unfold EnumerableSpec.first. pose proof (entry_at_nth m 0 _ eq_refl) as X. rewrite hd_nth.
        assert (LE : length (entries m) = length (positions m)) by apply map_length.
        destruct (Nat.eqb_spec (length (entries m)) 0) as [Z|Z].
        -- rewrite (proj2 (nth_error_None _ _)) by lia. reflexivity.
        -- destruct (nth_error (positions m) 0); [exact X|lia].
    + rewrite <- positions_snd, map_map. apply forall2_map. intros p X. rewrite (proj1 (abs_entry n m st p R Hn X)).
      destruct p as [[b i] it]. apply positions_in in X as (_ & Lv). cbn [snd]. unfold view. rewrite Lv. eauto.
    + rewrite <- positions_snd, map_map. apply forall2_map. intros p X. rewrite (proj1 (abs_entry n m st p R Hn X)).
      destruct p as [[b i] it]. apply positions_in in X as (_ & Lv). cbn [snd]. unfold view. rewrite Lv. eexists _, _. split; [reflexivity|].
      intros Nn. destruct (is_init (ihash it)); [reflexivity|congruence].
Qed.

Lemma history_holds ops : forall n m st, rel N0 n m st -> n + length ops <= N0 -> history_ok hash eqk N0 m st ops.
Proof.
  induction ops as [|o t IH]; intros n m st R Hn; cbn [history_ok length] in *; (split; [eapply good_holds; [exact R|lia]|]); [exact I|]. intros CO.
  destruct (step_ok n m st o R ltac:(lia) CO) as (m' & r & st' & E & SP & R'). exists m', r, st'. split; [exact E|]. split; [exact SP|].
  apply (IH (S n)); [exact R'|lia].
Qed.

End Fits.

(** ** By keys only *)
(** The association list, listed along the entries. *)
Definition listed (st : state K V) (l : list (K * V)) : Prop :=
  exists es, domain st es /\ Forall2 (fun e x => st e = Some (fst x, Some (snd x))) es l.

Lemma forall2_impl {A B} (P Q : A -> B -> Prop) u v : (forall a b, In a u -> P a b -> Q a b) -> Forall2 P u v -> Forall2 Q u v.
Proof. intros H F. induction F; constructor; [apply H; [now left|auto]|apply IHF; intros; apply H; [now right|auto]]. Qed.

Lemma forall2_in {A B} (P : A -> B -> Prop) u v a : Forall2 P u v -> In a u -> exists b, In b v /\ P a b.
Proof. intros F. induction F; intros []; [subst; eexists; split; [now left|eauto]|]. destruct (IHF H0) as (b & ? & ?). exists b. split; [now right|auto]. Qed.

Lemma forall2_in_r {A B} (P : A -> B -> Prop) u v b : Forall2 P u v -> In b v -> exists a, In a u /\ P a b.
Proof. intros F. induction F; intros []; [subst; eexists; split; [now left|eauto]|]. destruct (IHF H0) as (a & ? & ?). exists a. split; [now right|auto]. Qed.

Lemma forall2_length {A B} (P : A -> B -> Prop) u v : Forall2 P u v -> length u = length v.
Proof. intros F. induction F; cbn; auto. Qed.

Lemma listed_absent st l k : listed st l -> absent eqk st k -> existsb (fun x => eqk k (fst x)) l = false /\ find (fun x => eqk k (fst x)) l = None /\ filter (fun x => negb (eqk k (fst x))) l = l.
Proof.
  intros (es & D & F) A. clear D. induction F as [|e [k0 v0] es l E F IH]; cbn [existsb find filter fst snd]; [auto|].
  rewrite (A e k0 (Some v0) E). cbn [orb negb]. destruct IH as (-> & -> & ->). auto.
Qed.

Lemma listed_present st l k e k0 c : listed st l -> unique eqk st -> present eqk st k e k0 c ->
  exists v, c = Some v /\ existsb (fun x => eqk k (fst x)) l = true /\ find (fun x => eqk k (fst x)) l = Some (k0, v).
Proof.
  intros (es & (ND & D) & F) U (P & Ek). assert (In e es) as X by (apply D; congruence).
  destruct (forall2_in _ _ _ _ F X) as ([k1 v] & Y & E). cbn [fst snd] in E. rewrite P in E. injection E as <- ->. exists v. split; [reflexivity|]. split.
  - apply existsb_exists. exists (k0, v). auto.
  - clear ND D X. induction F as [|e' [k' v'] es l E F IH]; [destruct Y|]. cbn [find fst snd] in *. destruct (eqk k k') eqn:Ek'.
    + assert (e' = e) as -> by (eapply (U e' e); eauto; rewrite eqk_sym in Ek'; eauto). congruence.
    + destruct Y as [Y|Y]; [congruence|]. now apply IH.
Qed.

Lemma listed_set st l k e k0 c v : listed st l -> unique eqk st -> present eqk st k e k0 c ->
  listed (put st e (Some (k0, Some v))) (map (fun x => if eqk k (fst x) then (fst x, v) else x) l).
Proof.
  intros (es & (ND & D) & F) U (P & Ek). exists es. split.
  - split; [exact ND|]. intros e'. unfold put. rewrite D. destruct (N.eqb_spec e' e) as [->|]; [rewrite P; split; discriminate|tauto].
  - clear ND D. induction F as [|e' [k' v'] es l E F IH]; cbn [map fst snd] in *; constructor; auto. unfold put. destruct (N.eqb_spec e' e) as [->|Hne].
    + rewrite P in E. injection E as <- _. rewrite Ek. reflexivity.
    + destruct (eqk k k') eqn:Ek'; [|exact E]. exfalso. apply Hne. apply (U e' e _ _ _ _ E P). apply (eqk_trans _ k); [now rewrite eqk_sym|exact Ek].
Qed.

Lemma listed_remove st l k e k0 c : listed st l -> unique eqk st -> present eqk st k e k0 c ->
  listed (put st e None) (filter (fun x => negb (eqk k (fst x))) l).
Proof.
  intros (es & (ND & D) & F) U (P & Ek). exists (filter (fun e' => negb (e' =? e)%N) es). split.
  - split; [now apply NoDup_filter|]. intros e'. rewrite filter_In, D. unfold put. destruct (N.eqb_spec e' e); cbn [negb]; intuition congruence.
  - clear ND D. induction F as [|e' [k' v'] es l E F IH]; cbn [filter fst snd] in *; [constructor|]. destruct (N.eqb_spec e' e) as [->|Hne]; cbn [negb].
    + rewrite P in E. injection E as <- _. rewrite Ek. exact IH.
    + destruct (eqk k k') eqn:Ek'; cbn [negb].
      * exfalso. apply Hne. apply (U e' e _ _ _ _ E P). apply (eqk_trans _ k); [now rewrite eqk_sym|exact Ek].
      * constructor; [|exact IH]. unfold put. destruct (N.eqb_spec e' e); [congruence|exact E].
Qed.

Lemma listed_same st st' l : same st' st -> listed st l -> listed st' l.
Proof.
  intros S (es & D & F). exists es. split; [eapply domain_same; [apply same_sym; exact S|exact D]|]. eapply forall2_impl; [|exact F]. intros. now rewrite S.
Qed.

Lemma listed_init st l e k c : listed st l -> st e = Some (k, c) -> c <> None.
Proof.
  intros (es & (ND & D) & F) E. assert (In e es) as X by (apply D; congruence). destruct (forall2_in _ _ _ _ F X) as (x & _ & Y). rewrite E in Y. injection Y as _ ->. discriminate.
Qed.

Lemma listed_keys st l : listed st l -> unique eqk st -> NoDup l /\ forall k c, (exists e, st e = Some (k, c)) <-> exists v, c = Some v /\ In (k, v) l.
Proof.
  intros (es & (ND & D) & F) U. split.
  - clear D. induction F as [|e [k v] es l E F IH]; [constructor|]. inversion ND; subst. constructor; [|auto]. intros X.
    destruct (forall2_in_r _ _ _ _ F X) as (e' & Y & E'). cbn [fst snd] in *. apply H1.
    rewrite (U e e' _ _ _ _ E E' (eqk_refl _)). exact Y.
  - intros k c. split.
    + intros (e & E). assert (In e es) as X by (apply D; congruence). destruct (forall2_in _ _ _ _ F X) as ([k' v] & Y & E'). cbn [fst snd] in E'. rewrite E in E'. injection E' as -> ->. eauto.
    + intros (v & -> & X). destruct (forall2_in_r _ _ _ _ F X) as (e & _ & E). cbn [fst snd] in E. eauto.
Qed.

Lemma forall2_build {A B} (P : A -> B -> Prop) v : (forall b, In b v -> exists a, P a b) -> exists u, Forall2 P u v.
Proof.
  induction v as [|b v IH]; intros H; [exists []; constructor|]. destruct (H b ltac:(now left)) as (a & Ha).
  destruct IH as (u & Hu); [intros; apply H; now right|]. exists (a :: u). now constructor.
Qed.

Lemma listed_rehash st st' l : listed st l -> unique eqk st -> unique eqk st' ->
  (forall k c, (exists e, st e = Some (k, c)) <-> (exists e, st' e = Some (k, c))) -> listed st' l.
Proof.
  intros L U U' H. destruct (listed_keys st l L U) as (ND & HK).
  destruct (forall2_build (fun e x => st' e = Some (fst x, Some (snd x))) l) as (es & F).
  { intros [k v] X. apply H, HK. eauto. }
  exists es. split; [|exact F]. split.
  - clear H HK L. induction F as [|e x es l E F IH]; [constructor|]. inversion ND; subst. constructor; [|apply IH; auto].
    intros X. destruct (forall2_in _ _ _ _ F X) as ([k v] & Y & E'). apply H1. destruct x as [k0 v0]. cbn [fst snd] in *. congruence.
  - intros e. split.
    + intros X. destruct (forall2_in _ _ _ _ F X) as (x & _ & E). congruence.
    + intros X. destruct (st' e) as [[k c]|] eqn:E; [|congruence]. destruct (proj1 (HK k c) (proj2 (H k c) (ex_intro _ e E))) as (v & -> & Y).
      destruct (forall2_in_r _ _ _ _ F Y) as (e' & Z & E'). cbn [fst snd] in E'. now rewrite (U' e e' _ _ _ _ E E' (eqk_refl _)).
Qed.

Lemma kv_holds os : forall n m st l, history_ok hash eqk n m st (map kv_call os) -> listed st l -> Forall (kv_ok n) os ->
  exists m', run hash eqk m (map kv_call os) = Some (m', kv_run eqk l os).
Proof.
  induction os as [|o t IH]; intros n m st l H L OK; cbn [map history_ok run kv_run] in *; [eauto|]. destruct H as ((U & _) & H). inversion OK as [|? ? OK1 OK2]; subst.
  destruct H as (m' & r & st' & E & SP & H).
  { destruct o as [k v|k|k| |bc]; try exact I. destruct OK1 as (H1 & H2). cbn [kv_call client_ok]. split; [exact H1|]. split; [exact H2|]. intros e k c. now apply (listed_init st l). }
  assert (U' : unique eqk st') by (destruct t; cbn [map history_ok] in H; now destruct H as ((U' & _) & _)).
  rewrite E.
  assert (Q : r = snd (kv_step eqk l o) /\ listed st' (fst (kv_step eqk l o))).
  { destruct o as [k v|k|k| |bc]; cbn [kv_call spec_call kv_step fst snd] in *.
    - destruct SP as (-> & e & _ & [(k0 & c & P & S)|(A & En & S)]); (split; [reflexivity|]); eapply listed_same; try exact S.
      + destruct (listed_present st l k e k0 c L U P) as (v0 & _ & -> & _). now apply (listed_set st l k e k0 c v).
      + destruct (listed_absent st l k L A) as (-> & _). destruct L as (es & D & F). exists (e :: es). split; [apply domain_put; [exact D|exact En|discriminate]|].
        constructor; [cbn [fst snd]; unfold put; now rewrite N.eqb_refl|]. eapply forall2_impl; [|exact F]. intros e' x X Y. unfold put.
        destruct (N.eqb_spec e' e) as [->|]; [congruence|exact Y].
    - destruct SP as (S & [(A & ->)|(e & k0 & c & x & P & -> & Rd)]); (split; [|eapply listed_same; eauto]).
      + destruct (listed_absent st l k L A) as (_ & -> & _). reflexivity.
      + destruct (listed_present st l k e k0 c L U P) as (v0 & -> & _ & ->). cbn [option_map snd]. rewrite Rd by discriminate. reflexivity.
    - destruct SP as (-> & [(A & S)|(e & k0 & c & P & S)]); (split; [reflexivity|]); eapply listed_same; try exact S.
      + destruct (listed_absent st l k L A) as (_ & _ & ->). exact L.
      + now apply (listed_remove st l k e k0 c).
    - destruct SP as (S & es & D & ->). split; [|eapply listed_same; eauto]. destruct L as (es' & D' & F). rewrite (domain_length st es es' D D'). f_equal. eapply forall2_length; eauto.
    - destruct SP as (-> & S & _). split; [reflexivity|]. now apply (listed_rehash st). }
  destruct Q as (-> & L'). destruct (IH n m' st' _ H L' OK2) as (m2 & ->). destruct (kv_step eqk l o). cbn [fst snd]. eauto.
Qed.

Lemma listed_empty : listed (@empty K V) [].
Proof. exists []. split; [|constructor]. split; [constructor|]. intros e. unfold empty. cbn. tauto. Qed.

End Proofs.

(** ** Rehashing is not seen *)
Section Unseen.
Context {K V : Type} (hash : K -> N) (eqk : K -> K -> bool).

Lemma run_app (a b : list (op K V)) : forall m m' rs, run hash eqk m (a ++ b) = Some (m', rs) ->
  exists m1 ra rb, run hash eqk m a = Some (m1, ra) /\ run hash eqk m1 b = Some (m', rb) /\ rs = ra ++ rb /\ length ra = length a.
Proof.
  induction a as [|o a IH]; intros m m' rs E; cbn [app run] in *; [exists m, [], rs; auto|].
  destruct (step hash eqk m o) as [[m1 r]|]; [|discriminate]. destruct (run hash eqk m1 (a ++ b)) as [[m2 rs2]|] eqn:R; [|discriminate].
  injection E as <- <-. destruct (IH _ _ _ R) as (m3 & ra & rb & -> & E2 & -> & L). exists m3, (r :: ra), rb. cbn. now rewrite L.
Qed.

Fixpoint kv_state (l : list (K * V)) (os : list (kvop K V)) : list (K * V) :=
  match os with [] => l | o :: t => kv_state (fst (kv_step eqk l o)) t end.

Lemma kv_run_app (a b : list (kvop K V)) : forall l, kv_run eqk l (a ++ b) = kv_run eqk l a ++ kv_run eqk (kv_state l a) b.
Proof.
  induction a as [|o a IH]; intros l; cbn [app kv_run kv_state]; [reflexivity|]. destruct (kv_step eqk l o) as [l1 r]. cbn [fst]. now rewrite IH.
Qed.

Lemma kv_run_length (a : list (kvop K V)) : forall l, length (kv_run eqk l a) = length a.
Proof. induction a as [|o a IH]; intros l; cbn [kv_run length]; [reflexivity|]. destruct (kv_step eqk l o). cbn [length]. now rewrite IH. Qed.

End Unseen.

Lemma app_inj_len {A} (a b c d : list A) : length a = length c -> a ++ b = c ++ d -> a = c /\ b = d.
Proof.
  revert c. induction a as [|x a IH]; intros [|y c] L E; cbn in *; try discriminate; [auto|]. injection E as -> E. injection L as L.
  destruct (IH c L E) as [-> ->]. auto.
Qed.

Lemma key_value (K V : Type) (hash : K -> N) (eqk : K -> K -> bool) bc n (os : list (kvop K V)) :
  lawful hash eqk -> 1 <= bc -> fits n bc -> length os <= n -> Forall (kv_ok n) os ->
  forall m, create bc = Some m -> exists m', run hash eqk m (map kv_call os) = Some (m', kv_run eqk [] os).
Proof.
  intros (H1 & H2 & H3 & H4) Hb F Hn OK m E.
  apply (kv_holds hash eqk H1 H2 H3 os n m (@empty K V)); [|apply listed_empty|exact OK].
  apply (history_holds hash eqk H1 H2 H3 H4 n _ 0); [eapply rel_create; eauto|]. rewrite map_length. lia.
Qed.

Lemma rehash_unseen : forall (K V : Type) (hash : K -> N) (eqk : K -> K -> bool) bc bc' (os os' : list (kvop K V)),
  lawful hash eqk -> 1 <= bc -> 1 <= bc' -> let n := S (length os + length os') in fits n bc -> fits n bc' -> Forall (kv_ok n) (os ++ os') ->
  exists m0 m rs0 m', create bc = Some m0 /\ run hash eqk m0 (map kv_call os) = Some (m, rs0) /\
    step hash eqk m (Rehash bc') = Some (m', RUnit) /\
    exists m1 m2 rs, run hash eqk m (map kv_call os') = Some (m1, rs) /\ run hash eqk m' (map kv_call os') = Some (m2, rs).
Proof.
  intros K V hash eqk bc bc' os os' L Hb Hb' n F F' OK. apply Forall_app in OK as (O1 & O2).
  destruct (create (K := K) (V := V) bc) as [m0|] eqn:E; [|unfold create in E; destruct (Nat.leb_spec 1 bc); [discriminate|lia]].
  destruct (key_value K V hash eqk bc n (os ++ os') L Hb F ltac:(rewrite app_length; lia) ltac:(apply Forall_app; auto) m0 E) as (ma & Ra).
  destruct (key_value K V hash eqk bc n (os ++ Resize bc' :: os') L Hb F ltac:(rewrite app_length; cbn; lia) ltac:(apply Forall_app; split; [auto|]; constructor; cbn; auto) m0 E) as (mb & Rb).
  rewrite map_app in Ra, Rb. destruct (run_app hash eqk _ _ _ _ _ Ra) as (m & ra & rb & A1 & A2 & A3 & A4).
  destruct (run_app hash eqk _ _ _ _ _ Rb) as (m' & rc & rd & B1 & B2 & B3 & B4). rewrite A1 in B1. injection B1 as <- <-.
  cbn [map kv_call run] in B2. destruct (step hash eqk m (Rehash bc')) as [[m1 r]|] eqn:Es; [|discriminate].
  destruct (run hash eqk m1 (map kv_call os')) as [[m2 re]|] eqn:Er; [|discriminate]. injection B2 as <- <-.
  rewrite kv_run_app in A3, B3. rewrite map_length in A4.
  apply app_inj_len in A3 as (_ & A3); [|rewrite kv_run_length; congruence]. apply app_inj_len in B3 as (_ & B3); [|rewrite kv_run_length; congruence].
  cbn [kv_run kv_step] in B3. injection B3 as <- B3. exists m0, m, ra, m1. split; [reflexivity|]. split; [exact A1|]. split; [exact Es|].
  eexists ma, m2, re. split; [rewrite A2; congruence|exact Er].
Qed.
