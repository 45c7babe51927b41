(** The strings a path gives. *)
From Verif Require Import Base PathModel PathSpec PathLossProofs.

(** ** Writing *)

Definition piece (cur : list component) (c : component) : list N := match fst c with RelativeRoot => print cur | _ => text c end.
Definition pieces (cur l : list component) : list N := concat (map (piece cur) l).

Fixpoint first_at (cur : list component) (f : kind -> bool) (l : list component) (a : nat) : option nat :=
  match l with [] => None | c :: l => if f (fst c) then Some a else first_at cur f l (a + length (piece cur c)) end.
Definition or_else {A} (x y : option A) : option A := match x with None => y | _ => x end.

Lemma written_ok cur full c : named c -> (full = Some (print cur) \/ fst c <> RelativeRoot) -> written full c = Some (piece cur c).
Proof. destruct c as [[] [n|]]; cbn; try discriminate; intros _ [-> |H]; try reflexivity; contradiction. Qed.

Lemma render_ok cur full l : Forall named l -> (full = Some (print cur) \/ Forall (fun c => fst c <> RelativeRoot) l) -> forall a file path,
  render full l a file path = Some (pieces cur l, or_else file (first_at cur in_filename l a), or_else (or_else path (first_at cur in_tail l a)) (or_else file (first_at cur in_filename l a))).
Proof.
  intros H. induction H as [|c l Hc Hl IH]; intros Hf a file path.
  - destruct file, path; reflexivity.
  - cbn [render]. rewrite (written_ok cur full c Hc) by (destruct Hf as [Hf|Hf]; [now left|right; now inversion Hf]).
    rewrite IH by (destruct Hf as [Hf|Hf]; [now left|right; now inversion Hf]). cbn [first_at]. unfold pieces. cbn [map concat].
    destruct path, file, (in_tail (fst c)), (in_filename (fst c)); reflexivity.
Qed.

Definition size_of (full : nat) (c : component) : nat := name_length c + extra_length (fst c) + (if is_relative_root c then full else 0).

Lemma piece_size cur c : named c -> length (piece cur c) <= size_of (length (print cur)) c.
Proof. destruct c as [[] [n|]]; cbn; try discriminate; intros _; unfold size_of, name_length, extra_length, is_relative_root; cbn; rewrite ?app_length; cbn; lia. Qed.
Lemma pieces_size cur l : Forall named l -> length (pieces cur l) <= list_sum (map (size_of (length (print cur))) l).
Proof. induction 1 as [|c l Hc _ IH]; [apply Nat.le_refl|]. unfold pieces in *. cbn [map concat]. rewrite app_length. cbn [list_sum fold_right]. pose proof (piece_size cur c Hc). unfold list_sum in *. lia. Qed.

Lemma relative_iff l : existsb is_relative_root l = true <-> In RelativeRoot (map fst l).
Proof.
  rewrite existsb_exists, in_map_iff. split; intros (c & A & B); exists c.
  - split; [|assumption]. destruct c as [[] n]; (reflexivity || discriminate).
  - split; [assumption|]. destruct c as [k n]. cbn in A. now subst.
Qed.
Lemma relative_named l : Forall named l -> (existsb is_relative_root l = true <-> In (RelativeRoot, None) l).
Proof.
  intros H. rewrite relative_iff, in_map_iff. split.
  - intros ([k n] & E & I). cbn in E. subst k. rewrite Forall_forall in H. specialize (H _ I). destruct n; [discriminate|assumption].
  - intros I. now exists (RelativeRoot, None).
Qed.
Lemma not_relative l : existsb is_relative_root l = false -> Forall (fun c => fst c <> RelativeRoot) l.
Proof. intros H. apply Forall_forall. intros c I E. apply not_true_iff_false in H. apply H. apply relative_iff, in_map_iff. now exists c. Qed.
Lemma pieces_plain cur l : Forall (fun c => fst c <> RelativeRoot) l -> pieces cur l = print l.
Proof. induction 1 as [|c l Hc _ IH]; [reflexivity|]. unfold pieces, print in *. cbn [map concat]. rewrite IH. unfold piece. destruct (fst c); (reflexivity || contradiction). Qed.

Lemma volume_iff l : existsb (fun c : component => kind_eqb (fst c) Volume) l = true <-> has_volume l.
Proof.
  rewrite existsb_exists. split.
  - intros ([k n] & I & E). cbn in E. exists n. destruct k; (discriminate || assumption).
  - intros (n & I). now exists (Volume, n).
Qed.

(** ** The cache *)

Section Fixed.
  Variable v : list N.
  Variable cur : list component.
  Hypothesis Anchor : anchored v cur.

  Definition world_ok (w : world) : Prop := comps (current w) = cur /\ match complete (current w) with None => True | Some (_, s) => s = print cur end.

  Definition prefix_of (l : list component) : list N :=
    if existsb is_relative_root l || existsb (fun c => kind_eqb (fst c) Volume) l then [] else slash :: slash :: v.
  Record cached (l : list component) (p : path) (b : nat) (s : list N) : Prop := {
    c_block : complete p = Some (b, s);
    c_text : s = prefix_of l ++ pieces cur l;
    c_file : filename p = first_at cur in_filename l (length (prefix_of l));
    c_tail : tail p = or_else (first_at cur in_tail l (length (prefix_of l))) (filename p);
    c_some : ~ blank l }.
  Definition path_ok (l : list component) (p : path) : Prop :=
    comps p = l /\ Forall named l /\ (complete p = None /\ filename p = None /\ tail p = None \/ exists b s, cached l p b s).

  Lemma cur_text : print cur <> [].
  Proof. destruct Anchor as ((l & ->) & _). discriminate. Qed.

  Lemma blank_iff l : Forall named l -> list_sum (map (size_of (length (print cur))) l) = 0 <-> blank l.
  Proof.
    intros H. unfold blank. induction H as [|c l Hc _ IH]; [split; [constructor|reflexivity]|]. cbn [map list_sum fold_right]. fold (list_sum (map (size_of (length (print cur))) l)).
    assert (E : size_of (length (print cur)) c = 0 <-> c = (File, Some [])).
    { pose proof cur_text as N. split; [|intros ->; reflexivity].
      destruct c as [k n]. unfold size_of, name_length, extra_length, is_relative_root. cbn [fst snd]. destruct k; cbn; try lia.
      - intros E. exfalso. apply N. apply length_zero_iff_nil. lia.
      - destruct n as [n|]; [|discriminate Hc]. destruct n; [reflexivity|discriminate]. }
    rewrite Forall_cons_iff, <- IH, <- E. lia.
  Qed.

  (** One pass over the components. *)
  Lemma fill_ok w full l p : world_ok w -> comps p = l -> Forall named l -> (full = Some (print cur) \/ existsb is_relative_root l = false) ->
    (blank l /\ fill_cache w full p = Some (w, from_components l)) \/
    exists p' s, fill_cache w full p = Some (mkWorld (current w) (next w + 1), p') /\ comps p' = l /\ cached l p' (next w) s.
  Proof.
    intros [Wc Ws] <- Hl Hf. set (l := comps p) in *. unfold fill_cache. fold l.
    assert (Hfl : exists fl, (if existsb is_relative_root l then let? f := full in Some (length f) else Some 0) = Some fl /\
      map (fun c => name_length c + extra_length (fst c) + (if is_relative_root c then fl else 0)) l = map (size_of (length (print cur))) l).
    { destruct (existsb is_relative_root l) eqn:E.
      - destruct Hf as [-> |]; [|discriminate]. exists (length (print cur)). now split.
      - exists 0. split; [reflexivity|]. apply map_ext_in. intros c I. unfold size_of. apply not_relative in E. rewrite Forall_forall in E. specialize (E _ I). unfold is_relative_root.
        destruct (fst c); (reflexivity || contradiction). }
    destruct Hfl as (fl & -> & ->). cbv beta iota.
    destruct (Nat.eqb_spec (list_sum (map (size_of (length (print cur))) l)) 0) as [E|E].
    - left. split; [now apply blank_iff|reflexivity].
    - right. assert (Hp : exists len, (if existsb is_relative_root l || existsb (fun c => kind_eqb (fst c) Volume) l then Some ([], list_sum (map (size_of (length (print cur))) l))
        else let? v := volume_of w p in let? v := v in Some (slash :: slash :: v, list_sum (map (size_of (length (print cur))) l) + 2 + length v)) = Some (prefix_of l, len) /\
        length (prefix_of l) + list_sum (map (size_of (length (print cur))) l) <= len).
      { unfold prefix_of. destruct (existsb is_relative_root l || existsb (fun c => kind_eqb (fst c) Volume) l) eqn:B; [eexists; split; [reflexivity|cbn; lia]|].
        apply orb_false_elim in B as [_ B]. assert (Ev : volume_of w p = Some (Some v)).
        { unfold volume_of. fold l. destruct l as [|[k n] r]; [now cbn in E|]. rewrite Wc. destruct Anchor as ((q & ->) & _). destruct k; (reflexivity || discriminate B). }
        rewrite Ev. eexists. split; [reflexivity|]. cbn [length]. lia. }
      destruct Hp as (len & -> & Hlen). cbv beta iota.
      rewrite (render_ok cur full l Hl) by (destruct Hf as [Hf|Hf]; [now left|right; now apply not_relative]). cbv beta iota.
      assert (B : (length (prefix_of l ++ pieces cur l) <=? len) = true) by (apply Nat.leb_le; rewrite app_length; pose proof (pieces_size cur l Hl); lia). rewrite B.
      eexists _, _. split; [reflexivity|]. split; [reflexivity|]. constructor; cbn [complete filename tail or_else]; try reflexivity. rewrite <- (blank_iff l Hl). exact E.
  Qed.

  Lemma current_ok w : world_ok w -> exists w', current_full w = Some (w', Some (print cur)) /\ world_ok w' /\ next w <= next w'.
  Proof.
    intros [Wc Ws]. unfold current_full. destruct (complete (current w)) as [[b s]|] eqn:Ec.
    - subst s. exists w. split; [reflexivity|]. split; [|lia]. split; [exact Wc|]. now rewrite Ec.
    - pose proof Anchor as ((q & Eq) & Nm & Nr). assert (R : existsb is_relative_root cur = false).
      { apply not_true_iff_false. rewrite relative_iff, in_map_iff. intros (c & E & I). rewrite Forall_forall in Nr. now apply (Nr c). }
      rewrite Wc, R. destruct (fill_ok w None cur (current w)) as [(B & _)|(p' & s & -> & Ep & C)]; [split; [exact Wc|now rewrite Ec]|exact Wc|exact Nm|now right| |].
      + exfalso. rewrite Eq in B. unfold blank in B. inversion B as [|? ? E _]. discriminate.
      + assert (Es : s = print cur).
        { rewrite (c_text _ _ _ _ C). unfold prefix_of. rewrite (pieces_plain cur cur) by now apply not_relative. replace (existsb (fun c => kind_eqb (fst c) Volume) cur) with true; [now rewrite orb_true_r|]. now rewrite Eq. }
        rewrite (c_block _ _ _ _ C), Es. eexists. split; [reflexivity|]. split; [|cbn; lia]. split; [exact Ep|]. cbn [current]. now rewrite (c_block _ _ _ _ C).
  Qed.

  Lemma make_ok w l p : world_ok w -> comps p = l -> Forall named l ->
    exists w', world_ok w' /\ next w <= next w' /\
      ((blank l /\ make_cache w p = Some (w', from_components l)) \/
       exists p' b s, make_cache w p = Some (w', p') /\ comps p' = l /\ cached l p' b s /\ next w <= b < next w').
  Proof.
    intros W E Hl. unfold make_cache. rewrite E. destruct (existsb is_relative_root l) eqn:R.
    - destruct (current_ok w W) as (w1 & -> & W1 & L1). destruct (fill_ok w1 (Some (print cur)) l p W1 E Hl (or_introl eq_refl)) as [(B & ->)|(p' & s & -> & Ep & C)].
      + exists w1. split; [exact W1|]. split; [exact L1|]. now left.
      + exists (mkWorld (current w1) (next w1 + 1)). split; [exact W1|]. cbn [next]. split; [lia|]. right. exists p', (next w1), s. repeat (split; [first [reflexivity|assumption]|]). lia.
    - destruct (fill_ok w None l p W E Hl (or_intror R)) as [(B & ->)|(p' & s & -> & Ep & C)].
      + exists w. split; [exact W|]. split; [lia|]. now left.
      + exists (mkWorld (current w) (next w + 1)). split; [exact W|]. cbn [next]. split; [lia|]. right. exists p', (next w), s. repeat (split; [first [reflexivity|assumption]|]). lia.
  Qed.

  Lemma ok_nothing l : Forall named l -> path_ok l (from_components l).
  Proof. intros H. split; [reflexivity|]. split; [exact H|]. now left. Qed.

  (** What is returned, by a path that has its strings or not. *)
  Definition offset (q : query) (l : list component) : option nat :=
    match q with
    | Full => Some 0
    | Tail => or_else (first_at cur in_tail l (length (prefix_of l))) (first_at cur in_filename l (length (prefix_of l)))
    | Filename => first_at cur in_filename l (length (prefix_of l))
    end.
  Definition where_ (q : query) (p : path) : option nat := match q with Full => match complete p with Some _ => Some 0 | None => None end | Tail => tail p | Filename => filename p end.

  Lemma ask_form q w p : ask w p q = (let? (w, p) := match where_ q p with None => make_cache w p | _ => Some (w, p) end in Some (w, p, in_block p (where_ q p))).
  Proof.
    destruct q; cbn [ask where_]; unfold full_string, path_string, filename_string; try reflexivity.
    unfold in_block. destruct (complete p) as [[b s]|] eqn:E; [rewrite E; reflexivity|]. destruct (make_cache w p) as [[w' p']|]; [|reflexivity]. now destruct (complete p') as [[b s]|].
  Qed.

  Lemma where_cached q l p b s : cached l p b s -> where_ q p = offset q l.
  Proof. intros C. destruct q; cbn; [now rewrite (c_block _ _ _ _ C)|now rewrite (c_tail _ _ _ _ C), (c_file _ _ _ _ C)|apply (c_file _ _ _ _ C)]. Qed.
  Lemma in_block_cached o l p b s : cached l p b s -> in_block p o = match o with Some o => Some (b, o) | None => None end.
  Proof. intros C. unfold in_block. now rewrite (c_block _ _ _ _ C). Qed.

  (** A path that has strings keeps them unless there is nothing of the kind that is asked for. *)
  Lemma ask_ok q w l p : world_ok w -> path_ok l p -> exists w' p', world_ok w' /\ path_ok l p' /\ next w <= next w' /\
    ((blank l /\ complete p' = None /\ ask w p q = Some (w', p', None)) \/
     exists b s, cached l p' b s /\ ask w p q = Some (w', p', match offset q l with Some o => Some (b, o) | None => None end) /\
       ((p' = p /\ w' = w /\ offset q l <> None) \/ (next w <= b < next w' /\ (complete p = None \/ offset q l = None)))).
  Proof.
    intros W (Ep & Hl & Hp). rewrite ask_form. destruct (where_ q p) as [o|] eqn:Ew.
    - destruct Hp as [(H1 & H2 & H3)|(b & s & C)]; [exfalso; destruct q; cbn in Ew; rewrite ?H1, ?H2, ?H3 in Ew; discriminate|].
      exists w, p. split; [exact W|]. split; [split; [exact Ep|]; split; [exact Hl|right; now exists b, s]|]. split; [lia|]. right. exists b, s. split; [exact C|].
      rewrite Ew, (in_block_cached _ _ _ _ _ C). rewrite <- (where_cached q _ _ _ _ C), Ew. split; [reflexivity|]. left. now repeat split.
    - destruct (make_ok w l p W Ep Hl) as (w' & W' & Ln & [(B & ->)|(p' & b & s & -> & Ep' & C & Lb)]).
      + exists w', (from_components l). split; [exact W'|]. split; [now apply ok_nothing|]. split; [exact Ln|]. left. split; [exact B|]. split; [reflexivity|]. destruct q; reflexivity.
      + exists w', p'. split; [exact W'|]. split; [split; [exact Ep'|]; split; [exact Hl|right; now exists b, s]|]. split; [exact Ln|]. right. exists b, s. split; [exact C|].
        rewrite (in_block_cached _ _ _ _ _ C), (where_cached q _ _ _ _ C). split; [reflexivity|]. right. split; [exact Lb|].
        destruct Hp as [(H1 & _)|(b0 & s0 & C0)]; [now left|]. right. now rewrite <- (where_cached q _ _ _ _ C0).
  Qed.

  (** ** What the offsets lead to *)

  Lemma first_skip f l a : Forall (fun c => f (fst c) = false) l -> forall m, first_at cur f (l ++ m) a = first_at cur f m (a + length (pieces cur l)).
  Proof.
    intros H. revert a. induction H as [|c l Hc _ IH]; intros a m; [cbn; f_equal; lia|]. cbn [app first_at]. rewrite Hc, IH. unfold pieces. cbn [map concat]. rewrite app_length. f_equal. lia.
  Qed.
  Lemma pieces_app a b : pieces cur (a ++ b) = pieces cur a ++ pieces cur b.
  Proof. unfold pieces. now rewrite map_app, concat_app. Qed.

  Lemma dirs_plain ds : Forall dir_kind ds -> Forall (fun c => fst c <> RelativeRoot) ds /\ Forall (fun c => in_filename (fst c) = false) ds /\ Forall (fun c => in_tail (fst c) = true) ds.
  Proof.
    induction 1 as [|c ds Hc _ (A & B & C)]; [repeat split; constructor|]. unfold dir_kind in Hc.
    repeat split; (constructor; [|assumption]); destruct Hc as [-> |[-> |[-> | ->]]]; (reflexivity || discriminate).
  Qed.
  Lemma files_plain fs : Forall file_kind fs -> Forall (fun c => fst c <> RelativeRoot) fs /\ Forall (fun c => in_tail (fst c) = false) fs /\ Forall (fun c => in_filename (fst c) = true) fs.
  Proof.
    induction 1 as [|c ds Hc _ (A & B & C)]; [repeat split; constructor|]. unfold file_kind in Hc.
    repeat split; (constructor; [|assumption]); destruct Hc as [-> | ->]; (reflexivity || discriminate).
  Qed.

  Lemma skip_prefix (a b c : list N) : skipn (length a + length b) (a ++ b ++ c) = c.
  Proof. rewrite app_assoc, <- app_length. apply skipn_app_exact. Qed.

  Lemma answer_text rel ds fs l s : ordinary rel ds fs l -> s = prefix_of l ++ pieces cur l ->
    match offset Tail l with Some o => Some (skipn o s) | None => None end = or_null (ds ++ fs) (print (ds ++ fs)) /\
    match offset Filename l with Some o => Some (skipn o s) | None => None end = or_null fs (print fs).
  Proof.
    intros (El & Hd & Hf) ->. set (rl := if rel then [(RelativeRoot, None)] else []) in *.
    assert (R1 : Forall (fun c : component => in_tail (fst c) = false) rl) by (subst rl; destruct rel; repeat constructor).
    assert (R2 : Forall (fun c : component => in_filename (fst c) = false) rl) by (subst rl; destruct rel; repeat constructor).
    clearbody rl. destruct (dirs_plain ds Hd) as (D1 & D2 & D3). destruct (files_plain fs Hf) as (F1 & F2 & F3).
    cbn [offset]. set (pre := prefix_of l). clearbody pre. rewrite El.
    rewrite (first_skip in_tail rl), (first_skip in_filename rl), (first_skip in_filename ds) by assumption. rewrite !pieces_app.
    rewrite (pieces_plain cur ds D1), (pieces_plain cur fs F1). rewrite print_app.
    assert (EF : match first_at cur in_filename fs (length pre + length (pieces cur rl) + length (print ds)) with Some o => Some (skipn o (pre ++ pieces cur rl ++ print ds ++ print fs)) | None => None end = or_null fs (print fs)).
    { destruct fs as [|c fs]; [reflexivity|]. cbn [first_at]. inversion F3 as [|? ? Hc _]; subst. rewrite Hc. cbn [or_null]. f_equal.
      replace (pre ++ pieces cur rl ++ print ds ++ print (c :: fs)) with (((pre ++ pieces cur rl) ++ print ds) ++ print (c :: fs)) by now rewrite <- !app_assoc.
      rewrite <- !app_length. apply skipn_app_exact. }
    split; [|exact EF]. destruct ds as [|c ds].
    - cbn [app]. replace (first_at cur in_tail fs (length pre + length (pieces cur rl))) with (@None nat); [exact EF|].
      rewrite <- (app_nil_r fs). rewrite first_skip by assumption. reflexivity.
    - cbn [app first_at]. inversion D3 as [|? ? Hc _]; subst. rewrite Hc. cbn [or_else or_null]. f_equal. apply skip_prefix.
  Qed.

  Lemma full_ok l s : Forall named l -> s = prefix_of l ++ pieces cur l -> full_text v cur l s.
  Proof.
    intros H ->. unfold prefix_of. destruct (existsb is_relative_root l) eqn:R; cbn [orb].
    - cbn [app]. apply full_relative. now apply relative_named.
    - assert (N : ~ In (RelativeRoot, None) l) by (rewrite <- (relative_named l H), R; discriminate). rewrite (pieces_plain cur l) by now apply not_relative.
      destruct (existsb (fun c => kind_eqb (fst c) Volume) l) eqn:V; [apply full_volume; [exact N|now apply volume_iff]|]. apply (full_other v cur l N). intros X. apply volume_iff in X. pose proof (eq_trans (eq_sym V) X). discriminate.
  Qed.

  (** ** Histories *)

  Lemma upd_split {A} (l : list A) i x : i < length l -> upd l i x = firstn i l ++ [x] ++ skipn (i + 1) l.
  Proof. revert i. induction l as [|y l IH]; intros [|i] E; cbn in *; try lia; [reflexivity|]. f_equal. apply IH. lia. Qed.

  Lemma changed_ok l c : edit_ok l c -> Forall named l -> changed l c = Some (edit l c) /\ Forall named (edit l c).
  Proof.
    intros E H. assert (HA : forall a b, Forall named a -> Forall named b -> Forall named (a ++ b)) by (intros; apply Forall_app; auto).
    assert (HF : forall n, Forall named (firstn n l)) by (intros n; rewrite <- (firstn_skipn n l) in H; now apply Forall_app in H).
    assert (HS : forall n, Forall named (skipn n l)) by (intros n; rewrite <- (firstn_skipn n l) in H; now apply Forall_app in H).
    destruct c; cbn [changed edit edit_ok] in *.
    - destruct E as [E Hc]. split; [|apply HA; [apply HF|]; constructor; [assumption|apply HS]]. replace (i <? length l) with true by (symmetry; now apply Nat.ltb_lt). f_equal.
      now apply upd_split.
    - destruct E as [E Hc]. split; [|apply HA; [apply HF|]; constructor; [assumption|apply HS]]. now replace (i <=? length l) with true by (symmetry; now apply Nat.leb_le).
    - split; [reflexivity|]. apply HA; [exact H|]. now constructor.
    - split; [reflexivity|]. now constructor.
    - split; [|apply HA; [apply HF|apply HS]]. now replace (i <? length l) with true by (symmetry; now apply Nat.ltb_lt).
    - split; [|apply HF]. destruct l as [|x l]; [contradiction|]. f_equal. rewrite removelast_firstn_len. f_equal. lia.
  Qed.

  Lemma call_ok w l p o : world_ok w -> path_ok l p -> match o with Change c => edit_ok l c | _ => True end ->
    exists w' p' r, call w p o = Some (w', p', r) /\ answer_ok v cur l o r /\ world_ok w' /\ path_ok (match o with Change c => edit l c | _ => l end) p'.
  Proof.
    intros W P E. destruct o as [c|q].
    - destruct P as (Ep & Hl & _). destruct (changed_ok l c E Hl) as [Ec Hc]. exists w, (from_components (edit l c)), None. unfold call, mutate. rewrite Ep, Ec. cbv beta iota.
      split; [reflexivity|]. split; [reflexivity|]. split; [exact W|]. now apply ok_nothing.
    - assert (Hc : call w p (Ask q) = let? (w, p, r) := ask w p q in match r with None => Some (w, p, None) | Some r => let? s := read p r in Some (w, p, Some s) end) by (destruct q; reflexivity).
      rewrite Hc. destruct (ask_ok q w l p W P) as (w' & p' & W' & P' & _ & [(B & Cn & ->)|(b & s & C & -> & _)]).
      + exists w', p', None. split; [reflexivity|]. split; [|now split]. destruct q; cbn [answer_ok]; [exact B|intros ? ? ? _ N; contradiction..].
      + set (r := match offset q l with Some o => Some (skipn o s) | None => None end). exists w', p', r. split; [|split; [|now split]].
        * subst r. cbv beta iota. destruct (offset q l) as [o|]; [|reflexivity]. unfold read. rewrite (c_block _ _ _ _ C). cbn [fst snd]. now rewrite Nat.eqb_refl.
        * subst r. destruct P' as (_ & Hl & _). destruct q; cbn [answer_ok].
          -- cbn [offset skipn]. split; [apply (c_some _ _ _ _ C)|]. apply full_ok; [exact Hl|apply (c_text _ _ _ _ C)].
          -- intros rel ds fs O _. now apply (answer_text rel ds fs l s O (c_text _ _ _ _ C)).
          -- intros rel ds fs O _. now apply (answer_text rel ds fs l s O (c_text _ _ _ _ C)).
  Qed.

  Lemma history_all ops : forall w l p, world_ok w -> path_ok l p -> history_ok v cur w p l ops.
  Proof.
    induction ops as [|o ops IH]; intros w l p W P; [exact Logic.I|]. cbn [history_ok]. intros E.
    destruct (call_ok w l p o W P E) as (w' & p' & r & Ec & A & W' & P'). exists w', p', r. split; [exact Ec|]. split; [exact A|]. now apply IH.
  Qed.

  (** ** Lifetimes *)

  Lemma offset_has_part q l : Forall named l -> offset q l <> None <-> has_part l q.
  Proof.
    intros H. assert (FA : forall f a, first_at cur f l a <> None <-> Exists (fun c => f (fst c) = true) l).
    { intros f. clear H. induction l as [|c l' IH]; intros a; [split; [intros X; destruct (X eq_refl)|intros E; inversion E]|]. cbn [first_at]. rewrite Exists_cons. destruct (f (fst c)) eqn:Ef; [split; [now left|discriminate]|].
      rewrite IH. split; [now right|]. intros [?|?]; [discriminate|assumption]. }
    assert (FF : forall l, Exists (fun c : component => in_filename (fst c) = true) l <-> Exists file_kind l).
    { intros m. rewrite !Exists_exists. split; intros (c & I & E); exists c; (split; [exact I|]); unfold file_kind in *; destruct (fst c); try discriminate; auto; destruct E; discriminate. }
    destruct q; cbn [offset has_part]; [split; [trivial|discriminate]| |now rewrite FA, FF].
    set (x := first_at cur in_tail l _). set (y := first_at cur in_filename l _). assert (E : or_else x y <> None <-> x <> None \/ y <> None) by (destruct x, y; cbn; intuition congruence).
    rewrite E. subst x y. rewrite !FA, !Exists_exists. split.
    - intros [(c & I & X)|(c & I & X)]; exists c; (split; [exact I|]); destruct (fst c); discriminate.
    - intros (c & I & X). destruct (in_tail (fst c)) eqn:T; [left|right]; exists c; (split; [exact I|]); destruct (fst c); (reflexivity || discriminate || contradiction).
  Qed.

  Definition fresh (w : world) (p : path) : Prop := forall b s, complete p = Some (b, s) -> b < next w.

  Lemma ask_call w p q w' p' r : call w p (Ask q) = Some (w', p', r) -> exists x, ask w p q = Some (w', p', x).
  Proof.
    intros H. assert (Hc : call w p (Ask q) = let? (w, p, r) := ask w p q in match r with None => Some (w, p, None) | Some r => let? s := read p r in Some (w, p, Some s) end) by (destruct q; reflexivity).
    rewrite Hc in H. destruct (ask w p q) as [[[w1 p1] [x|]]|]; [destruct (read p1 x); [|discriminate]| |discriminate]; injection H as <- <- _; eauto.
  Qed.

  Lemma fresh_ask q w l p w' p' x : world_ok w -> path_ok l p -> fresh w p -> ask w p q = Some (w', p', x) -> world_ok w' /\ path_ok l p' /\ fresh w' p'.
  Proof.
    intros W P F H. destruct (ask_ok q w l p W P) as (w1 & p1 & W' & P' & Ln & D).
    assert (E : w' = w1 /\ p' = p1 /\ fresh w1 p1).
    { destruct D as [(_ & Cn & E)|(b & s & C & E & [(-> & -> & _)|(Lb & _)])]; rewrite E in H; injection H as <- <- _; (split; [reflexivity|split; [reflexivity|]]).
      - intros b s Eb. rewrite Cn in Eb. discriminate.
      - exact F.
      - intros b0 s0 Eb. rewrite (c_block _ _ _ _ C) in Eb. injection Eb as <- _. lia. }
    destruct E as (-> & -> & F'). now split.
  Qed.

  Lemma calls_ok ops : forall w l p w' p', world_ok w -> path_ok l p -> fresh w p -> edits_ok l ops -> calls w p ops = Some (w', p') ->
    world_ok w' /\ path_ok (edited l ops) p' /\ fresh w' p'.
  Proof.
    induction ops as [|o ops IH]; intros w l p w' p' W P F E H; cbn [calls] in H; [injection H as <- <-; split; [exact W|split; [exact P|exact F]]|].
    unfold edited. cbn [fold_left]. fold (edited (match o with Change c => edit l c | Ask _ => l end) ops).
    destruct (call w p o) as [[[w1 p1] r]|] eqn:Ec; [|discriminate]. destruct o as [c|q]; cbn [edits_ok] in E.
    - destruct E as [E1 E2]. destruct (call_ok w l p (Change c) W P E1) as (w2 & p2 & r2 & Ec2 & _ & W2 & P2). rewrite Ec in Ec2. injection Ec2 as <- <- <-.
      apply (IH _ _ _ _ _ W2 P2); [|exact E2|exact H]. unfold call, mutate in Ec. destruct (changed (comps p) c); [|discriminate]. injection Ec as <- <- <-. intros b s Eb. discriminate.
    - destruct (ask_call _ _ _ _ _ _ Ec) as (x & Ex). destruct (fresh_ask q w l p w1 p1 x W P F Ex) as (W1 & P1 & F1). now apply (IH w1 l p1).
  Qed.

  (** Asking for what there is changes nothing once there are strings. *)
  Lemma ask_same q w l p b s w' p' x : world_ok w -> path_ok l p -> cached l p b s -> has_part l q -> ask w p q = Some (w', p', x) -> w' = w /\ p' = p.
  Proof.
    intros W P C Hq H. rewrite ask_form, (where_cached q _ _ _ _ C) in H. destruct P as (_ & Hl & _). apply (offset_has_part q l Hl) in Hq. destruct (offset q l); [|contradiction].
    injection H as <- <- _. now split.
  Qed.

  Lemma asks_same ops : forall w l p b s w' p', world_ok w -> path_ok l p -> cached l p b s -> only_asks (has_part l) ops -> calls w p ops = Some (w', p') -> w' = w /\ p' = p.
  Proof.
    induction ops as [|o ops IH]; intros w l p b s w' p' W P C A H; cbn [calls] in H; [injection H as <- <-; now split|].
    inversion A as [|? ? Ho A']; subst. destruct o as [c|q]; [contradiction|]. destruct (call w p (Ask q)) as [[[w1 p1] r]|] eqn:Ec; [|discriminate].
    destruct (ask_call _ _ _ _ _ _ Ec) as (x & Ex). destruct (ask_same q w l p b s w1 p1 x W P C Ho Ex) as [-> ->]. now apply (IH w l p b s).
  Qed.

  Lemma ask_cached q w l p w' p' x : world_ok w -> path_ok l p -> ask w p q = Some (w', p', Some x) -> exists s, cached l p' (fst x) s /\ (fresh w p -> fst x < next w').
  Proof.
    intros W P H. destruct (ask_ok q w l p W P) as (w1 & p1 & W' & P' & Ln & [(_ & Cn & E)|(b & s & C & E & D)]); rewrite E in H; [discriminate|].
    destruct (offset q l) as [o|]; [|discriminate]. injection H as <- <- <-. exists s. split; [exact C|]. intros F. destruct D as [(-> & -> & _)|(Lb & _)]; [|cbn; lia]. apply (F b s). apply (c_block _ _ _ _ C).
  Qed.

  (** Asking for what there is not makes new strings. *)
  Lemma ask_new q w l p b s w' p' x : world_ok w -> path_ok l p -> fresh w p -> cached l p b s -> ~ has_part l q -> ask w p q = Some (w', p', x) ->
    exists b' s', complete p' = Some (b', s') /\ b' <> b.
  Proof.
    intros W P F C Hq H. destruct (ask_ok q w l p W P) as (w1 & p1 & W' & P' & Ln & [(B & _)|(b' & s' & C' & E & D)]); [exfalso; now apply (c_some _ _ _ _ C)|].
    rewrite E in H. injection H as <- <- _. exists b', s'. split; [apply (c_block _ _ _ _ C')|]. destruct P as (_ & Hl & _). destruct D as [(_ & _ & N)|(Lb & _)]; [exfalso; apply Hq; now apply (offset_has_part q l Hl)|].
    specialize (F b s (c_block _ _ _ _ C)). lia.
  Qed.
End Fixed.

Lemma start_world v cur n : anchored v cur -> world_ok cur (mkWorld (from_components cur) n).
Proof. intros _. split; [reflexivity|exact Logic.I]. Qed.
