(** Histories: plain sequences, entries over time, and the balance of elements. *)
From Verif Require Import Base CollectionModel CollectionSpec CollectionLedgerProofs CollectionGenericProofs.
From Verif Require CollectionArrayProofs.
From Coq Require Import Permutation.

Section H.
Context {A : Type}.
Implicit Types (l : ledger A).

Lemma next_elements im l o r :
  (is_insertion o && match r with REntry 0 => true | _ => false end)%bool = false -> elements (next im l o r) = map snd (after l o).
Proof. intros H. rewrite next_renew by exact H. apply renew_elements. Qed.

Lemma returns_shown im l' i (r : ret A) : well_formed im l' -> returns_entry_at l' i r -> show r = Entry false /\ r <> REntry 0.
Proof.
  intros (_ & Z & _) (e & -> & H). apply nth_error_In in H. destruct e; [contradiction|]. split; [reflexivity|discriminate].
Qed.

Lemma first_equal_shown im l cmp x : well_formed im l ->
  (match first_equal cmp x l with Some p => fst p | None => 0 end =? 0) = negb (existsb (fun y => cmp y x) (elements l)).
Proof.
  intros (_ & Z & _). unfold first_equal. induction l as [|[e y] t IH]; [reflexivity|]. cbn [find elements map existsb snd].
  destruct (cmp y x).
  - cbn. apply Nat.eqb_neq. intros ->. apply Z. now left.
  - cbn [orb]. apply IH. intros H. apply Z. now right.
Qed.

Lemma plain_answer im l o r : well_formed im l -> by_index o = true -> allocates o = true -> answer_ok im l o r ->
  elements (next im l o r) = fst (plain (elements l) o) /\ show r = snd (plain (elements l) o).
Proof.
  intros W B Al [W' [An|(_ & Q & _)]]; [|congruence].
  assert (LE : length (elements l) = length l) by apply map_length.
  assert (NI : forall i, returns_entry_at (next im l o r) i r ->
    elements (next im l o r) = fst (plain (elements l) o) /\ show r = Entry false).
  { intros i H. destruct (returns_shown im _ i r W' H) as [S N]. split; [|exact S].
    rewrite next_elements; [now apply after_elements_plain|]. destruct r as [|[|e]| | | | |]; try apply andb_false_r. congruence. }
  assert (NQ : is_insertion o = false -> elements (next im l o r) = fst (plain (elements l) o)).
  { intros H. rewrite next_elements; [now apply after_elements_plain|]. now rewrite H. }
  destruct o as [x al|e| |xs|es|e| | |cmp x|cmp xs| | |x i al|x al|x al|x i al|i| |i| |e|i| ]; cbn [answer] in An; try discriminate B;
    try (now apply (NI _ An)); (split; [now apply NQ|]); try (rewrite An; reflexivity); cbn [plain snd].
  - rewrite An. cbn [show]. f_equal. rewrite skipn_length. unfold entries. rewrite map_length.
    rewrite <- (map_length snd (next _ _ _ _)). fold (elements (next im l (InsertMany xs) r)). rewrite NQ by reflexivity. cbn [plain fst].
    rewrite app_length, LE. lia.
  - rewrite An. cbn [show]. now rewrite LE.
  - rewrite An. cbn [show]. f_equal. unfold entries. now rewrite LE, map_length.
  - rewrite An. cbn [show]. f_equal. now apply (first_equal_shown im).
  - rewrite An. cbn [show]. f_equal. clear NI NQ An. induction xs as [|x xs IH]; [reflexivity|]. cbn [flat_map filter].
    pose proof (first_equal_shown im l cmp x W) as Q. rewrite app_length, IH.
    + destruct (first_equal cmp x l) as [p|] eqn:F.
      * destruct (existsb (fun y => cmp y x) (elements l)); [reflexivity|]. cbn in Q. apply Nat.eqb_eq in Q.
        destruct W as (_ & Z & _). exfalso. apply Z. rewrite <- Q. apply in_map. unfold first_equal in F. now apply find_some in F.
      * destruct (existsb (fun y => cmp y x) (elements l)); [discriminate|reflexivity].
    + reflexivity.
    + reflexivity.
    + exact W'.
  - apply (returns_shown im l i r W An).
  - rewrite An. cbn [show]. f_equal. destruct l as [|p t] eqn:El; [reflexivity|]. rewrite <- El in *.
    assert (N : entries l <> []) by (rewrite El; discriminate). rewrite El at 2. cbn [elements map].
    pose proof (last_nth_error (entries l) 0 N) as Q. apply nth_error_In in Q. apply Nat.eqb_neq. intros Z. rewrite Z in Q. destruct W as (_ & W & _). contradiction.
Qed.

Lemma range_valid im l o : by_index o = true -> allocates o = true -> in_range (length (elements l)) o -> valid im l o.
Proof.
  intros B Al H. unfold elements in H. rewrite map_length in H. split.
  - destruct o; cbn in *; try discriminate; auto. intros ->. cbn in H. lia.
  - destruct im; auto. destruct o; auto.
Qed.

Section G.
Context {St : Type} (im : impl) (I : interface A St) (R : St -> ledger A -> Prop) (L : laws im I R).

Lemma plain_sim dtor ops : forall s l, R s l -> in_range_run (elements l) ops ->
  exists s' l' rs, run I dtor s ops = Some (s', rs) /\ R s' l' /\ elements l' = fst (plain_run (elements l) ops) /\
    map (fun p => show (fst p)) rs = snd (plain_run (elements l) ops).
Proof using L.
  induction ops as [|o t IH]; intros s l HR V; cbn [run in_range_run plain_run] in *.
  - exists s, l, []. auto.
  - destruct V as (B & Al & Ra & V).
    destruct (step_sim im I R L dtor s l o HR (range_valid im l o B Al Ra)) as (s1 & r & E & R1 & An).
    assert (OK : answer_ok im l o r) by (split; [apply (L_wf im I R L s1 _ R1)|exact An]).
    destruct (plain_answer im l o r (L_wf im I R L s l HR) B Al OK) as [P1 P2].
    destruct (plain (elements l) o) as [xs a]. cbn [fst snd] in *. rewrite <- P1 in V.
    destruct (IH s1 _ R1 V) as (s2 & l2 & rs & E2 & R2 & P3 & P4). rewrite E, E2. rewrite P1 in P3, P4.
    destruct (plain_run xs t) as [ys b]. exists s2, l2, ((r, destroyed_by im dtor l o r) :: rs). cbn [fst snd map] in *.
    rewrite P2, P4. auto.
Qed.

(** A run is determined, so facts about the one that exists hold for any. *)
Lemma run_facts dtor ops s l s' rs : R s l -> valid_run I im dtor s l ops -> run I dtor s ops = Some (s', rs) ->
  follows im dtor l ops rs /\ R s' (ledger_after im l ops rs).
Proof using L.
  intros HR V E. destruct (run_sim im I R L dtor ops s l HR V) as (s1 & rs1 & E1 & F & R1).
  rewrite E1 in E. injection E as <- <-. auto.
Qed.

(** ** The balance of elements *)
Lemma valid_run_all dtor ops : forall s l s' rs, R s l -> valid_run I im dtor s l ops -> run I dtor s ops = Some (s', rs) ->
  (dtor = true -> never_forgets im l ops rs -> Permutation (entered ops rs ++ elements l) (destroyed rs ++ elements (ledger_after im l ops rs))).
Proof using L.
  induction ops as [|o t IH]; intros s l s' rs HR V E Dt NF; cbn [run valid_run] in *.
  - injection E as <- <-. reflexivity.
  - destruct V as [V1 V2]. destruct (step_sim im I R L dtor s l o HR V1) as (s1 & r & E1 & R1 & An). rewrite E1 in *.
    destruct (run I dtor s1 t) as [[s2 rs2]|] eqn:E2; [|discriminate]. injection E as <- <-.
    cbn [never_forgets] in NF. destruct NF as [NF1 NF2].
    specialize (IH s1 _ s2 rs2 R1 V2 E2 Dt NF2). cbn [entered destroyed flat_map snd ledger_after].
    fold (destroyed rs2).
    assert (Step : Permutation (entering o r ++ elements l) (destroyed_by im dtor l o r ++ elements (next im l o r))).
    { clear IH NF2 E1 E2 V2 rs2 s2. unfold destroyed_by. rewrite Dt. cbn [andb].
      pose proof (L_wf im I R L s l HR) as W. pose proof (L_wf im I R L s1 _ R1) as W'.
      assert (Skip : (if negb (forgets im o) then leaving l o r else []) = leaving l o r).
      { destruct (forgets im o) eqn:F; cbn [negb]; [|reflexivity]. destruct o; try (destruct im; discriminate F). rewrite NF1 by reflexivity. reflexivity. }
      rewrite Skip.
      destruct (is_insertion o && match r with REntry 0 => true | _ => false end)%bool eqn:Fail.
      - unfold next. rewrite Fail. destruct r as [|[|e]| | | | |]; try (rewrite andb_false_r in Fail; discriminate).
        destruct o; try discriminate; reflexivity.
      - rewrite next_elements by exact Fail. destruct V1 as [V1 _]. pose proof W as (D & _ & _).
        destruct o as [x al|e| |xs|es|e| | |cmp x|cmp xs| | |x i al|x al|x al|x i al|i| |i| |e|i| ]; cbn [entering leaving after app];
          try (rewrite keep_snd; reflexivity).
        + assert (En : match r with REntry 0 => [] | _ => [x] end = [x]) by (destruct r as [|[|e]| | | | |]; try reflexivity; discriminate).
          rewrite En, map_app, keep_snd. cbn. symmetry. rewrite <- Permutation_cons_append. reflexivity.
        + rewrite keep_snd. destruct V1 as [->|V1].
          * rewrite lookup_none by apply W. rewrite without_absent by apply W. reflexivity.
          * destruct (In_nth_error _ _ V1) as [i Hi]. rewrite (nth_lookup l i e D Hi), (without_at l i e D Hi).
            destruct (nth_entries l i) as (e' & x & _ & _ & Ex). { eapply Nat.lt_le_trans; [eapply nth_error_Some_lt, Hi|]. unfold entries. now rewrite map_length. }
            rewrite Ex. unfold elements. rewrite map_remove_at. cbn. apply CollectionArrayProofs.remove_at_perm. exact Ex.
        + cbn. now rewrite app_nil_r.
        + rewrite map_app, keep_snd, map_map. cbn. rewrite map_id. apply Permutation_app_comm.
        + rewrite keep_snd. destruct V1 as (Nd & Inc & _). clear Skip NF1 Fail R1 W'.
          assert (G : forall es l, NoDup (entries l) -> NoDup es -> incl es (entries l) ->
            Permutation (elements l) (flat_map (fun e => match lookup l e with Some x => [x] | None => [] end) es ++ elements (without es l))).
          { clear. induction es as [|e es IH]; intros l D Nd Inc; [rewrite without_nil; reflexivity|].
            inversion_clear Nd as [|? ? Ne Nd']. cbn [flat_map]. rewrite without_cons.
            assert (He : In e (entries l)) by (apply Inc; now left). destruct (In_nth_error _ _ He) as [i Hi].
            destruct (nth_entries l i) as (e' & x & _ & _ & Ex). { eapply Nat.lt_le_trans; [eapply nth_error_Some_lt, Hi|]. unfold entries. now rewrite map_length. }
            rewrite (nth_lookup l i e D Hi), Ex. rewrite (CollectionArrayProofs.remove_at_perm _ _ _ Ex). cbn [app]. constructor.
            assert (Q : remove_at (elements l) i 1 = elements (without [e] l)) by (rewrite (without_at l i e D Hi); unfold elements; now rewrite map_remove_at).
            rewrite Q. rewrite (IH (without [e] l)).
            - apply Permutation_app_tail. apply Permutation_refl'. apply flat_map_same. intros y Hy. rewrite lookup_without; [reflexivity|]. intros [->|[]]. contradiction.
            - unfold without. now apply nodup_entries_filter.
            - exact Nd'.
            - intros y Hy. apply entries_without. split; [apply Inc; now right|]. intros [->|[]]. contradiction. }
          now apply G.
        + assert (En : match r with REntry 0 => [] | _ => [x] end = [x]) by (destruct r as [|[|e]| | | | |]; try reflexivity; discriminate).
          rewrite En, map_insert_at, keep_snd. cbn. unfold insert_at. rewrite <- (firstn_skipn i (elements l)) at 1. cbn. apply Permutation_middle.
        + assert (En : match r with REntry 0 => [] | _ => [x] end = [x]) by (destruct r as [|[|e]| | | | |]; try reflexivity; discriminate).
          rewrite En, map_app, keep_snd. cbn. symmetry. rewrite <- Permutation_cons_append. reflexivity.
        + assert (En : match r with REntry 0 => [] | _ => [x] end = [x]) by (destruct r as [|[|e]| | | | |]; try reflexivity; discriminate).
          rewrite En. cbn. now rewrite keep_snd.
        + assert (En : match r with REntry 0 => [] | _ => [x] end = [x]) by (destruct r as [|[|e]| | | | |]; try reflexivity; discriminate).
          rewrite En. destruct (nth_entries l i V1) as (e' & y & _ & _ & Ey).
          assert (El : match r with REntry 0 => [] | _ => match nth_error (elements l) i with Some x0 => [x0] | None => [] end end = [y])
            by (rewrite Ey; destruct r as [|[|e]| | | | |]; try reflexivity; discriminate).
          rewrite El, map_upd, keep_snd. cbn [app snd]. clear - Ey. revert i Ey.
          induction (elements l) as [|z t IH]; intros [|i] Ey; cbn in *; try discriminate.
          * injection Ey as ->. apply perm_swap.
          * rewrite perm_swap. rewrite (IH i Ey). apply perm_swap.
        + rewrite keep_snd. destruct (nth_entries l i V1) as (e' & y & _ & _ & Ey). rewrite Ey. unfold elements. rewrite map_remove_at.
          cbn. apply CollectionArrayProofs.remove_at_perm. exact Ey.
        + rewrite keep_snd. rewrite removelast_remove_at. assert (Q : match rev (elements l) with x :: _ => [x] | [] => [] end = match nth_error (elements l) (length (elements l) - 1) with Some x => [x] | None => [] end).
          { rewrite <- rev_hd. now destruct (rev (elements l)). }
          assert (LE : length (elements l) = length l) by apply map_length. rewrite Q, LE.
          destruct (nth_entries l (length l - 1)) as (e' & y & _ & _ & Ey). { destruct l; [congruence|cbn; lia]. }
          rewrite Ey. unfold elements. rewrite map_remove_at. cbn. apply CollectionArrayProofs.remove_at_perm. exact Ey. }
    rewrite <- !app_assoc. rewrite (Permutation_app_comm (entering o r)), <- app_assoc.
    rewrite <- IH. rewrite Permutation_app_swap_app. rewrite Permutation_app_swap_app.
    rewrite (Permutation_app_swap_app (destroyed_by im dtor l o r)).
    apply Permutation_app_head. rewrite Permutation_app_comm. exact Step.
Qed.
End G.

(** ** Entries over time *)
Lemma next_keeps im l o r e x : im <> FastArrayBacked -> well_formed im l -> valid im l o -> answer_ok im l o r ->
  In (e, x) l -> ~ takes_away l o e -> In (e, x) (next im l o r).
Proof.
  intros NF W V [W' An] H T. pose proof W as (D & _ & _).
  destruct (is_insertion o && match r with REntry 0 => true | _ => false end)%bool eqn:Fail; [unfold next; now rewrite Fail|].
  rewrite next_renew by exact Fail.
  assert (RN : forall (k : list (option entry * A)) es, renew im k es = fill k es) by (intros; destruct im; [reflexivity|congruence|reflexivity]).
  rewrite RN. destruct V as [V _].
  assert (KA : forall (k : list (option entry * A)) es, In (e, x) (fill (keep l ++ k) es)) by (intros; rewrite fill_app; apply in_or_app; now left).
  assert (KO : forall es, In (e, x) (fill (keep l) es)) by (intros; now rewrite fill_keep).
  assert (Pos : forall i, In (e, x) (remove_at l i 1) \/ nth_error (entries l) i = Some e).
  { intros i. destruct (In_nth_error _ _ H) as [j Hj]. destruct (Nat.eq_dec j i) as [->|N].
    - right. unfold entries. rewrite nth_error_map, Hj. reflexivity.
    - left. destruct (Nat.lt_ge_cases j i) as [Q|Q].
      + apply (nth_error_In _ j). rewrite CollectionArrayProofs.nth_remove1. destruct (Nat.ltb_spec j i); [exact Hj|lia].
      + apply (nth_error_In _ (j - 1)). rewrite CollectionArrayProofs.nth_remove1. destruct (Nat.ltb_spec (j - 1) i); [lia|].
        replace (j - 1 + 1) with j by lia. exact Hj. }
  assert (KI : forall i b y, i <= length l -> In (e, x) (insert_at l i [(b, y)])).
  { intros i b y Hi. unfold insert_at. rewrite <- (firstn_skipn i l) in H. apply in_app_or in H as [H|H]; apply in_or_app; [now left|]. right. now right. }
  destruct o as [y al|e'| |xs|es|e'| | |cmp y|cmp xs| | |y i al|y al|y al|y i al|i| |i| |e'|i| ]; cbn [after takes_away] in *; auto; try (now rewrite fill_keep).
  - rewrite fill_keep. apply in_without. split; [exact H|]. cbn. intros [->|[]]. congruence.
  - exfalso. now apply T.
  - rewrite fill_keep. apply in_without. auto.
  - assert (Q : exists b, fill (insert_at (keep l) i [(None, y)]) (returned r) = insert_at l i [(b, y)]).
    { destruct An as [(e1 & -> & _)|(_ & _ & ->)]; [|discriminate]. exists e1. apply fill_insert. }
    destruct Q as [b ->]. now apply KI.
  - cbn. right. now rewrite fill_keep.
  - assert (Q : exists b, fill (upd (keep l) i (None, y)) (returned r) = upd l i (b, y)).
    { destruct An as [(e1 & -> & _)|(_ & _ & ->)]; [|discriminate]. exists e1. now apply fill_upd. }
    destruct Q as [b ->]. destruct (In_nth_error _ _ H) as [j Hj].
    assert (N : i <> j). { intros ->. apply T. unfold entries. now rewrite nth_error_map, Hj. }
    apply (nth_error_In _ j). rewrite nth_error_upd_ne by exact N. exact Hj.
  - rewrite fill_keep. destruct (Pos i); [assumption|contradiction].
  - rewrite fill_keep, removelast_remove_at. destruct (Pos (length l - 1)); [assumption|contradiction].
Qed.

Lemma follows_keeps {St} im (I : interface A St) (R : St -> ledger A -> Prop) (L : laws im I R) dtor e x : im <> FastArrayBacked ->
  forall ops s l s' rs, R s l -> valid_run I im dtor s l ops -> run I dtor s ops = Some (s', rs) ->
  In (e, x) l -> left_alone im l ops rs e -> In (e, x) (ledger_after im l ops rs).
Proof.
  intros NF. induction ops as [|o t IH]; intros s l s' rs HR V E H LA; cbn [run valid_run] in *.
  - injection E as <- <-. exact H.
  - destruct V as [V1 V2]. destruct (step_sim im I R L dtor s l o HR V1) as (s1 & r & E1 & R1 & An). rewrite E1 in *.
    destruct (run I dtor s1 t) as [[s2 rs2]|] eqn:E2; [|discriminate]. injection E as <- <-. destruct LA as [T LA].
    cbn [ledger_after]. apply (IH s1 _ s2 rs2); auto.
    apply next_keeps; auto; [apply (L_wf im I R L s l HR)|]. split; [apply (L_wf im I R L s1 _ R1)|exact An].
Qed.

(** The entry an insertion returned denotes the inserted element. *)
Lemma inserted_in im l o r x e : im <> FastArrayBacked -> valid im l o -> answer_ok im l o r -> inserts o = Some x -> r = REntry e -> e <> 0 ->
  In (e, x) (next im l o r).
Proof.
  intros NF [V _] [W An] Ix -> N.
  rewrite next_renew by (destruct e; [congruence|apply andb_false_r]).
  assert (RN : forall (k : list (option entry * A)) es, renew im k es = fill k es) by (intros; destruct im; [reflexivity|congruence|reflexivity]).
  rewrite RN.
  destruct o as [y al|e'| |xs|es|e'| | |cmp y|cmp xs| | |y i al|y al|y al|y i al|i| |i| |e'|i| ]; try discriminate; injection Ix as ->; cbn [after returned].
  - rewrite fill_app. apply in_or_app. right. now left.
  - rewrite fill_insert. unfold insert_at. apply in_or_app. right. now left.
  - rewrite fill_app. apply in_or_app. right. now left.
  - now left.
  - rewrite fill_upd by exact V. apply (nth_error_In _ i). now apply nth_error_upd_eq.
Qed.

Lemma run_app {St} (I : interface A St) dtor t1 : forall s t2, run I dtor s (t1 ++ t2) =
  let? (s1, r1) := run I dtor s t1 in let? (s2, r2) := run I dtor s1 t2 in Some (s2, r1 ++ r2).
Proof.
  induction t1 as [|o t IH]; intros s t2; cbn [app run].
  - destruct (run I dtor s t2) as [[s2 r2]|]; reflexivity.
  - destruct (step I dtor s o) as [[[s1 r] d]|]; [|reflexivity]. rewrite IH. destruct (run I dtor s1 t) as [[s2 r1]|]; [|reflexivity].
    destruct (run I dtor s2 t2) as [[s3 r2]|]; reflexivity.
Qed.

Lemma valid_run_app {St} (I : interface A St) im dtor t1 : forall s l t2 s1 r1, valid_run I im dtor s l (t1 ++ t2) -> run I dtor s t1 = Some (s1, r1) ->
  valid_run I im dtor s l t1 /\ valid_run I im dtor s1 (ledger_after im l t1 r1) t2.
Proof.
  induction t1 as [|o t IH]; intros s l t2 s1 r1 V E; cbn [app run valid_run] in *.
  - injection E as <- <-. auto.
  - destruct V as [V1 V2]. destruct (step I dtor s o) as [[[s' r] d]|]; [|discriminate].
    destruct (run I dtor s' t) as [[s2 r2]|] eqn:E2; [|discriminate]. injection E as <- <-.
    destruct (IH s' _ t2 s2 r2 V2 E2) as [Q1 Q2]. auto.
Qed.

End H.
