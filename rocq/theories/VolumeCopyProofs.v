From Verif Require Import Base VolumeModel VolumeSpec VolumeProofs VolumeListProofs.
From Verif Require PathModel PathSpec FileModel FileSpec FileProofs.

(** ** Entries stay unique *)

Lemma update_keys n f l : map fst (update n f l) = map fst l.
Proof. induction l as [|[k x] l IH]; [reflexivity|]. cbn [update]. destruct (name_eqb k n); cbn [map fst]; congruence. Qed.

Lemma unique_sub n l x : unique (NDir l) -> find n l = Some x -> unique x.
Proof. intros U F q y G. apply (U (n :: q) y). cbn [get]. rewrite F. exact G. Qed.

Lemma unique_alter p f : forall t, unique t -> (forall x, get t p = Some x -> unique (f x)) -> unique (alter t p f).
Proof.
  induction p as [|n p IH]; intros t U Hf; cbn [alter].
  - apply Hf. reflexivity.
  - destruct t as [c|l]; [exact U|]. intros q y G. destruct q as [|m q].
    + cbn [get] in G. injection G as <-. rewrite update_keys. apply (U [] l). reflexivity.
    + cbn [get] in G. rewrite find_update in G. destruct (name_eqb_spec n m) as [->|D].
      * destruct (find m l) as [x|] eqn:E; [|discriminate]. cbn [option_map] in G. revert q y G. apply IH; [apply (unique_sub m l x U E)|]. intros z Gz. apply Hf. cbn [get]. rewrite E. exact Gz.
      * apply (U (m :: q) y). exact G.
Qed.

Lemma find_none k l : find k l = None -> ~ In k (map fst l).
Proof.
  induction l as [|[n x] l IH]; cbn [find map fst]; [intros _ []|]. destruct (name_eqb_spec n k) as [->|D]; [discriminate|]. intros E [Q|Q]; [congruence|]. apply (IH E Q).
Qed.

Lemma unique_at t p x : unique t -> get t p = Some x -> unique x.
Proof. intros U G q y Gq. apply (U (p ++ q) y). rewrite get_app, G. exact Gq. Qed.

Lemma unique_leaf x : leaf x -> unique x.
Proof. intros L q y G. destruct q as [|m q]; cbn [get] in G; destruct x as [c|l]; try discriminate; cbn in L; subst; [injection G as <-; constructor|discriminate]. Qed.

Lemma unique_add t p l k x : unique t -> get t p = Some (NDir l) -> find k l = None -> leaf x -> unique (alter t p (in_dir (add k x))).
Proof.
  intros U G F L. apply unique_alter; [exact U|]. intros y Gy. rewrite G in Gy. injection Gy as <-. cbn [in_dir]. intros q z Gz. pose proof (unique_at t p _ U G) as Ul. destruct q as [|m q]; cbn [get] in Gz.
  - injection Gz as <-. unfold add. rewrite map_app. cbn [map fst]. apply NoDup_snoc; [apply (U p l G)|apply find_none, F].
  - unfold add in Gz. rewrite find_app in Gz. destruct (find m l) as [y|] eqn:E; [apply (Ul (m :: q) z); cbn [get]; rewrite E; exact Gz|]. cbn [find] in Gz. destruct (name_eqb k m); [|discriminate]. apply (unique_leaf x L q z Gz).
Qed.

Lemma unique_unset t p k : unique t -> unique (alter t p (in_dir (unset k))).
Proof.
  intros U. apply unique_alter; [exact U|]. intros y Gy. pose proof (unique_at t p _ U Gy) as Uy. destruct y as [c|l]; [exact Uy|]. cbn [in_dir]. intros q z Gz. destruct q as [|m q]; cbn [get] in Gz.
  - injection Gz as <-. unfold unset. pose proof (Uy [] l eq_refl) as ND. clear - ND. induction l as [|[n x] l IH]; [constructor|]. cbn [map fst filter] in *. inversion ND as [|? ? NI ND']; subst. destruct (name_eqb n k); cbn [negb]; [apply IH, ND'|]. cbn [map fst]. constructor; [|apply IH, ND'].
    intros Q. apply NI. apply in_map_iff in Q. destruct Q as ([a b] & <- & Q). apply filter_In in Q. apply in_map_iff. exists (a, b). tauto.
  - rewrite find_unset in Gz. destruct (name_eqb k m); [discriminate|]. apply (Uy (m :: q) z). exact Gz.
Qed.

Section Unique.
Variable rel : node -> list ptr -> option (node * list ptr * option ptr).
Hypothesis rel_unique : forall t ds t' ds' n, unique t -> rel t ds = Some (t', ds', n) -> unique t'.

Lemma step_unique op inter last c w w' : unique (tree w) -> component_step rel op inter last c w = Some w' -> unique (tree w').
Proof.
  intros U E. unfold component_step in E. destruct (fst c).
  - injection E as <-. exact U.
  - injection E as <-. destruct (at_node w); exact U.
  - destruct (file_name w); [injection E as <-; exact U|]. destruct (rel (tree w) (dirs w)) as [[[t ds] n]|] eqn:R; [|discriminate]. injection E as <-. apply (rel_unique _ _ _ _ _ U R).
  - destruct (at_node w) as [[|p]|]; [injection E as <-; exact U| |injection E as <-; exact U]. destruct (get (tree w) p) as [[x|l]|] eqn:G; [injection E as <-; exact U| |injection E as <-; exact U]. destruct (snd c) as [k|]; [|discriminate].
    destruct (find k l) as [[x|l']|] eqn:F; [injection E as <-; exact U|injection E as <-; exact U|]. destruct (is_create op && (last || inter)); injection E as <-; [|exact U]. cbn [tree]. apply (unique_add _ p l k (NDir []) U G F eq_refl).
  - destruct (nth_error (dirs w) _); [|discriminate]. injection E as <-. exact U.
  - destruct (at_node w) as [[|p]|]; [injection E as <-; exact U| |injection E as <-; exact U]. destruct (file_name w); [injection E as <-; exact U|]. destruct (is_dir (tree w) (At p)); [|injection E as <-; exact U]. destruct (snd c); [|discriminate]. injection E as <-. exact U.
  - destruct (at_node w) as [[|p]|]; [injection E as <-; exact U| |injection E as <-; exact U]. destruct (is_dir (tree w) (At p)); [|injection E as <-; exact U]. destruct (snd c); [|discriminate]. injection E as <-. exact U.
Qed.

Lemma walk_unique op inter : forall l w w', unique (tree w) -> walk rel op inter l w = Some w' -> unique (tree w').
Proof.
  induction l as [|c l IH]; intros w w' U E; cbn [walk] in E; [injection E as <-; exact U|]. destruct (component_step rel op inter _ c w) as [w1|] eqn:E1; [|discriminate]. pose proof (step_unique _ _ _ _ _ _ U E1) as U1.
  destruct (at_node w1) as [n|] eqn:A; [|injection E as <-; exact U1]. destruct (push w1) as [w2|] eqn:E2; [|discriminate]. apply (IH w2 w'); [|exact E]. unfold push in E2. rewrite A in E2. destruct (is_dir (tree w1) n); [|injection E2 as <-; exact U1]. destruct (length (dirs w1) <? 128); [|discriminate]. injection E2 as <-. exact U1.
Qed.

Lemma conclude_unique op w t n : unique (tree w) -> conclude op w = Some (t, n) -> unique t.
Proof.
  intros U E. unfold conclude in E. destruct (file_name w) as [f|]; destruct (at_node w) as [[|p]|]; try (injection E as <- _; exact U).
  - destruct op.
    + destruct (get (tree w) p) as [[|l]|]; try discriminate. destruct (find f l); injection E as <- _; exact U.
    + destruct (get (tree w) p) as [[|l]|] eqn:G; try discriminate. destruct (find f l) eqn:F; injection E as <- _; [exact U|]. apply (unique_add _ p l f (NFile []) U G F I).
    + injection E as <- _. apply unique_unset, U.
  - destruct op; try (injection E as <- _; exact U). destruct (rev p); [discriminate|]. injection E as <- _. apply unique_unset, U.
Qed.

Lemma op_in_unique op inter l t ds t' ds' n : unique t -> node_op_in rel op inter l t ds = Some (t', ds', n) -> unique t'.
Proof.
  intros U E. unfold node_op_in in E. destruct (length ds <? 128); [|discriminate]. destruct (walk rel op inter l _) as [w|] eqn:W; [|discriminate]. destruct (conclude op w) as [[t1 n1]|] eqn:C; [|discriminate]. injection E as <- _ _. apply (conclude_unique op w t1 n1); [|exact C]. apply (walk_unique op inter l (mkWalker t ds None None) w U W).
Qed.
End Unique.

Lemma node_op_unique cur op inter l t t' n : unique t -> node_op cur op inter l t = Some (t', n) -> unique t'.
Proof.
  intros U E. unfold node_op in E. set (rel := node_op_in (fun _ _ => None) _ _ _) in E. destruct (node_op_in rel op inter l t [At []]) as [[[t1 ds] n1]|] eqn:O; [|discriminate]. injection E as <- _. apply (op_in_unique rel) in O; [exact O| |exact U].
  intros t2 ds2 t3 ds3 n3 U2 R. apply (op_in_unique (fun _ _ => None)) in R; [exact R| |exact U2]. intros; discriminate.
Qed.

Lemma create_unique cur inter l t t' b : unique t -> create cur inter l t = Some (t', b) -> unique t'.
Proof. intros U E. unfold create in E. destruct (node_op cur OpCreate inter l t) as [[t1 n]|] eqn:O; [|discriminate]. injection E as <- _. apply (node_op_unique _ _ _ _ _ _ _ U O). Qed.

Lemma remove_unique cur l t t' b : unique t -> remove cur l t = Some (t', b) -> unique t'.
Proof. intros U E. unfold remove in E. destruct (node_op cur OpRemove false l t) as [[t1 n]|] eqn:O; [|discriminate]. injection E as <- _. apply (node_op_unique _ _ _ _ _ _ _ U O). Qed.

(** ** Copying a file *)

Lemma get_alter_set t p d b : get t p = Some (NFile d) -> with_entry t (alter t p (fun _ => NFile b)) p (File b).
Proof.
  intros G q. split.
  - intros ->. unfold view. pose proof (get_alter p (fun _ => NFile b) t _ [] G) as E. rewrite app_nil_r in E. rewrite E. reflexivity.
  - intros NE. destruct (prefix_dec p q) as [[r ->]|NP]; [|apply view_alter_other, NP]. unfold view. rewrite (get_alter p _ t _ r G), get_app, G. destruct r; [rewrite app_nil_r in NE; congruence|reflexivity].
Qed.

Lemma view_file_get t p c : view t p = Some (File c) -> get t p = Some (NFile c).
Proof. unfold view. destruct (get t p) as [[x|l]|]; try discriminate. intros E. injection E as ->. reflexivity. Qed.

Lemma with_entry_trans t t1 t2 p e e' : with_entry t t1 p e -> with_entry t1 t2 p e' -> with_entry t t2 p e'.
Proof. intros A B q. destruct (A q) as [_ A2], (B q) as [B1 B2]. split; [exact B1|]. intros NE. rewrite (B2 NE). apply A2, NE. Qed.

Lemma overwritten_start d c : FileSpec.overwritten d 0 c = c ++ FileModel.drop (FileModel.len c) d.
Proof.
  unfold FileSpec.overwritten, FileSpec.before, FileModel.take, FileModel.drop, FileModel.zeros, FileModel.len. destruct c as [|x c]; [reflexivity|]. cbn [N.to_nat firstn repeat N.sub app]. rewrite N.add_0_l. reflexivity.
Qed.

Lemma copy_file_ok junk cur v ds f es ds' f' es' t c : (forall n, FileModel.len (junk n) = n) -> volume t -> length ds + 1 + length es <= 125 -> length ds' + 1 + length es' <= 125 -> (N.of_nat (length c) < 2 ^ 63)%N ->
  view t (ds ++ [joined f es]) = Some (File c) -> view t ds' = Some Dir ->
  exists t' b, copy_file junk cur (file_path v ds f es) (file_path v ds' f' es') t = Some (t', b) /\ (unique t -> unique t') /\
  match view t (ds' ++ [joined f' es']) with
  | None => b = true /\ with_entry t t' (ds' ++ [joined f' es']) (File c)
  | Some (File d) => b = true /\ with_entry t t' (ds' ++ [joined f' es']) (File (c ++ skipn (length c) d))
  | Some Dir => b = false /\ same t t'
  end.
Proof.
  intros J H L L' Lc V Vd. unfold copy_file, get_size, open_. rewrite !node_at_file by assumption. rewrite (view_file_get t _ c V).
  rewrite FileProofs.v_read_ok; [|discriminate|cbn [FileModel.pos]; lia|exact Lc]. cbn [FileModel.bytes FileModel.pos].
  assert (P : FileSpec.part c 0 (N.of_nat (length c)) = c). { unfold FileSpec.part, FileModel.take, FileModel.drop. rewrite Nnat.Nat2N.id. cbn [N.to_nat skipn]. apply firstn_all. }
  rewrite P. destruct (create_file_ok cur false v ds' f' es' t H L') as (t1 & t2 & b & E & Vt & Bt & Bd & _). rewrite E.
  assert (B : b = true) by (apply Bt; split; [apply clear_dir, Vd|right; exact Vd]). subst b. destruct (Bd eq_refl) as (W & N & S1). rewrite node_op_found by assumption. clear Bt Bd.
  assert (U2 : unique t -> unique t2) by (intros U; apply (create_unique _ _ _ _ _ _ U E)).
  assert (S0 : same t t1). { intros q. destruct (W q) as [W1 W2]. destruct (prefix_dec q ds') as [Q|Q]; [|apply W2, Q]. rewrite (W1 Q). destruct Q as [r ->]. symmetry. apply (view_prefix t q r Vd). }
  assert (Write : forall d, get t2 (ds' ++ [joined f' es']) = Some (NFile d) ->
    (let (ok, g) := FileModel.v_write junk FileModel.HWrite c FileModel.Preserve (FileModel.mkFile d 0) in Some (alter t2 (ds' ++ [joined f' es']) (fun _ => NFile (FileModel.bytes g)), ok)) = Some (alter t2 (ds' ++ [joined f' es']) (fun _ => NFile (c ++ skipn (length c) d)), true)).
  { intros d G. rewrite FileProofs.v_write_ok; [|exact J|discriminate|cbn [FileModel.pos]; unfold FileModel.len; lia]. cbn [FileModel.bytes FileModel.pos]. rewrite overwritten_start. unfold FileModel.drop, FileModel.len. rewrite Nnat.Nat2N.id. reflexivity. }
  assert (UW : forall d, unique t -> unique (alter t2 (ds' ++ [joined f' es']) (fun _ => NFile d))).
  { intros d U. apply unique_alter; [apply U2, U|]. intros x _. apply unique_leaf. exact I. }
  destruct (view t (ds' ++ [joined f' es'])) as [[|d]|] eqn:Vt'.
  - assert (S2 : same t t2) by (apply S1; discriminate). pose proof (S2 (ds' ++ [joined f' es'])) as V2. rewrite Vt' in V2. rewrite V2. apply view_get_dir in V2. destruct V2 as [l G]. rewrite G. exists t2, false. auto.
  - assert (S2 : same t t2) by (apply S1; discriminate). pose proof (S2 (ds' ++ [joined f' es'])) as V2. rewrite Vt' in V2. rewrite V2. apply view_file_get in V2. rewrite V2, (Write d V2). eexists. eexists. split; [reflexivity|]. split; [apply UW|]. split; [reflexivity|].
    intros q. destruct (get_alter_set t2 _ d (c ++ skipn (length c) d) V2 q) as [A B]. split; [exact A|]. intros NE. rewrite (B NE). apply S2.
  - specialize (N eq_refl). assert (V2 : view t2 (ds' ++ [joined f' es']) = Some (File [])) by (apply N; reflexivity). rewrite V2. apply view_file_get in V2. rewrite V2, (Write [] V2). rewrite skipn_nil, app_nil_r. eexists. eexists. split; [reflexivity|]. split; [apply UW|]. split; [reflexivity|].
    intros q. destruct (get_alter_set t2 _ [] c V2 q) as [A B]. split; [exact A|]. intros NE. rewrite (B NE), (proj2 (N q) NE). apply S0.
Qed.

(** ** Copying a directory *)

Lemma taken_dir v ds' p k : child_destination (dir_path v ds') (p ++ [(PathModel.Directory, Some k)]) = dir_path v (ds' ++ [k]).
Proof. unfold child_destination. rewrite rev_app_distr. cbn [rev app taken fst]. unfold dir_path. rewrite map_app. reflexivity. Qed.

Lemma taken_exts r es : taken (map (fun e => (PathModel.Extension, Some e)) es ++ r) = taken r ++ rev (map (fun e => (PathModel.Extension, Some e)) es).
Proof. induction es as [|e es IH]; [cbn; rewrite app_nil_r; reflexivity|]. cbn [map app taken fst rev]. rewrite IH, <- app_assoc. reflexivity. Qed.

Lemma taken_file v ds' ds f es : child_destination (dir_path v ds') (file_path v ds f es) = file_path v ds' f es.
Proof.
  unfold child_destination, file_path, file_comps. rewrite rev_app_distr. cbn [rev]. rewrite <- map_rev, <- !app_assoc, taken_exts. cbn [app taken fst]. rewrite map_rev, rev_involutive. reflexivity.
Qed.

Lemma is_directory_dir v ds : PathModel.is_directory (PathModel.from_components (dir_path v ds)) = true.
Proof.
  unfold PathModel.is_directory, PathModel.is_file. cbn [PathModel.comps PathModel.from_components]. destruct ds as [|d ds _] using rev_ind; [reflexivity|]. unfold dir_path. rewrite map_app. cbn [map rev].
  rewrite rev_app_distr. reflexivity.
Qed.

Lemma is_directory_file v ds f es : PathModel.is_directory (PathModel.from_components (file_path v ds f es)) = false.
Proof.
  unfold PathModel.is_directory, PathModel.is_file. cbn [PathModel.comps PathModel.from_components]. unfold file_path, file_comps. rewrite rev_app_distr. cbn [rev].
  destruct es as [|e es _] using rev_ind; [reflexivity|]. rewrite map_app, rev_app_distr. reflexivity.
Qed.

Fixpoint each (cp : list PathModel.component -> list PathModel.component -> node -> option (node * bool)) (dest : list PathModel.component) (cs : list (list PathModel.component)) (t : node) : option node :=
  match cs with
  | [] => Some t
  | c :: cs => let? (t, _) := cp c (child_destination dest c) t in each cp dest cs t
  end.

Lemma copy_eq fuel junk cur l dest t : copy (S fuel) junk cur l dest t =
  let? there := exists_ cur l t in
  if there then
    if PathModel.is_directory (PathModel.from_components l) then
      let? (t, ok) := create cur false dest t in
      if ok then
        let? children := get_contents 1 cur no_options None l t in
        let? children := children in
        let? t := each (copy fuel junk cur) dest children t in
        Some (t, true)
      else Some (t, false)
    else copy_file junk cur l dest t
  else Some (t, false).
Proof.
  cbn [copy]. destruct (exists_ cur l t) as [[|]|]; try reflexivity. destruct (PathModel.is_directory _); [|reflexivity]. destruct (create cur false dest t) as [[t1 [|]]|]; try reflexivity. destruct (get_contents 1 cur no_options None l t1) as [[cs|]|]; try reflexivity.
  match goal with |- match ?a with _ => _ end = match ?b with _ => _ end => assert (E : a = b); [|rewrite E; reflexivity] end. revert t1. induction cs as [|c cs IH]; intros t1; [reflexivity|]. cbn [each]. destruct (copy fuel junk cur c _ t1) as [[t2 b]|]; [apply IH|reflexivity].
Qed.

(** What has been copied so far: the children [ks] *)
Definition so_far (t t' : node) (p p' : list name) (ks : list name) : Prop :=
  forall q, (forall k r, q = p' ++ k :: r -> In k ks -> view t' q = view t (p ++ k :: r)) /\
            (forall k r, q = p' ++ k :: r -> ~ In k ks -> view t' q = None) /\
            (q = p' -> view t' q = Some Dir) /\ (~ prefix p' q -> view t' q = view t q).

Lemma copy_file_fuel fuel junk cur v ds f es dest t : volume t -> length ds + 1 + length es <= 125 -> view t (ds ++ [joined f es]) <> None ->
  copy (S fuel) junk cur (file_path v ds f es) dest t = copy_file junk cur (file_path v ds f es) dest t.
Proof.
  intros H L V. rewrite copy_eq. destruct (exists_file_ok cur v ds f es t H L) as (b & E & B). rewrite E. apply B in V. subst b. rewrite is_directory_file. reflexivity.
Qed.

Lemma copy_dir_ok junk cur v n0 : (forall n, FileModel.len (junk n) = n) -> forall fuel t ds ds', volume t -> unique t -> named_files t ->
  length ds + fuel + n0 <= 124 -> length ds' + fuel + n0 <= 124 ->
  (forall r, fuel <= length r -> view t (ds ++ r) = None) -> few_extensions t ds n0 -> small_files t ds -> no_empty_directories t ds ->
  view t ds = Some Dir -> view t ds' = None -> view t (removelast ds') = Some Dir -> ~ prefix ds ds' ->
  exists t', copy fuel junk cur (dir_path v ds) (dir_path v ds') t = Some (t', true) /\ with_copy t t' ds ds' /\ unique t' /\ volume t' /\ named_files t'.
Proof.
  intros J. induction fuel as [|fuel IH]; intros t ds ds' H U NF L L' Dp Fe Sm NE V Vn Vp NP.
  { specialize (Dp [] (le_n 0)). rewrite app_nil_r in Dp. congruence. }
  rewrite copy_eq. destruct (exists_dir_ok cur v ds t H ltac:(lia)) as (b & E & B). rewrite E. apply B in V as Vb. subst b. clear B. rewrite is_directory_dir.
  destruct (create_dir_ok cur false v ds' t H ltac:(lia)) as (t1 & b & E1 & H1 & B1 & W & _). rewrite E1.
  assert (D0 : ds' <> []) by (intros ->; unfold volume in H; congruence).
  assert (Cl : clear t ds').
  { intros q c P. destruct ds' as [|d ds' _] using rev_ind; [congruence|]. rewrite removelast_last in Vp. apply prefix_snoc in P. destruct P as [->|P]; [congruence|]. apply (clear_dir t ds' Vp q c P). }
  assert (b = true) by (apply B1; auto). subst b. specialize (W eq_refl). clear B1.
  assert (U1 : unique t1) by (apply (create_unique _ _ _ _ _ _ U E1)).
  (* the new tree *)
  assert (W0 : forall q, q <> ds' -> view t1 q = view t q).
  { intros q Q. destruct (W q) as [W1 W2]. destruct (prefix_dec q ds') as [P|P]; [|apply W2, P]. rewrite (W1 P). destruct ds' as [|d ds' _] using rev_ind; [congruence|]. apply prefix_snoc in P. destruct P as [P|P]; [congruence|]. rewrite removelast_last in Vp. destruct P as [r ->]. symmetry. apply (view_prefix t q r Vp). }
  assert (Wd : view t1 ds' = Some Dir) by (apply W; exists []; rewrite app_nil_r; reflexivity).
  assert (NP' : ~ prefix ds' ds). { intros [r Er]. rewrite Er in V. pose proof (view_prefix t ds' r V). congruence. }
  assert (Apart : forall r, ds ++ r <> ds').
  { intros r Er. apply NP. exists r. symmetry. exact Er. }
  assert (Apart2 : forall r, ~ prefix ds' (ds ++ r)).
  { intros r [x Ex]. assert (Q : prefix ds ds' \/ prefix ds' ds).
    { clear - Ex. revert ds' Ex. induction ds as [|d ds IHd]; intros ds' Ex; [left; exists ds'; reflexivity|]. destruct ds' as [|d' ds']; [right; exists (d :: ds); reflexivity|]. injection Ex as -> Ex. destruct (IHd ds' Ex) as [[y ->]|[y ->]]; [left|right]; exists y; reflexivity. }
    destruct Q; contradiction. }
  assert (V1 : view t1 ds = Some Dir). { rewrite W0; [exact V|]. intros Q. apply (Apart []). rewrite app_nil_r. exact Q. }
  assert (NF1 : named_files t1).
  { intros q k c Q. destruct (names_dec (q ++ [k]) ds') as [Eq|Nq]; [rewrite Eq, Wd in Q; discriminate|]. rewrite (W0 _ Nq) in Q. apply (NF q k c Q). }
  destruct (contents_ok cur no_options None v t1 H1 U1 NF1 1 ds ltac:(lia) ltac:(lia) ltac:(discriminate)) as (cs & Ec & ND & Hc). unfold get_contents. rewrite Ec.
  (* there are children *)
  assert (Sel : forall q e, asked_for no_options None q e). { intros q e. split; [exact I|]. destruct e; reflexivity. }
  assert (Cne : cs <> []).
  { destruct (NE []) as [k Vk]; [rewrite app_nil_r; exact V|]. cbn [app] in Vk. destruct (view t (ds ++ [k])) as [e|] eqn:Ve; [|congruence]. assert (Ve1 : view t1 (ds ++ [k]) = Some e) by (rewrite W0; [exact Ve|apply Apart]).
    intros ->. assert (P : exists q, path_of v (ds ++ [k]) e q).
    { destruct e as [|c]; [eexists; reflexivity|]. destruct (NF1 ds k c Ve1) as (f & es & -> & P). exists (file_path v ds f es). exists ds, f, es. auto. }
    destruct P as [q P]. apply (Hc q). exists [k], e. split; [split; [discriminate|reflexivity]|]. auto. }
  destruct cs as [|c0 cs0]; [congruence|]. set (cs := c0 :: cs0) in *. clearbody cs. clear Cne.
  (* each child in turn *)
  assert (Loop : forall todo done ti, incl todo cs -> NoDup todo -> unique ti -> volume ti -> named_files ti ->
    so_far t ti ds ds' done -> (forall q k r, In q todo -> place q = ds ++ k :: r -> ~ In k done) ->
    exists t', each (copy fuel junk cur) (dir_path v ds') todo ti = Some t' /\ unique t' /\ volume t' /\ named_files t' /\ exists done', so_far t t' ds ds' done' /\ (forall k, In k done' <-> In k done \/ exists q, In q todo /\ place q = ds ++ [k])).
  { induction todo as [|c todo IHt]; intros done ti Inc NDt Ui Hi NFi Sf Dis.
    - exists ti. split; [reflexivity|]. split; [exact Ui|]. split; [exact Hi|]. split; [exact NFi|]. exists done. split; [exact Sf|]. intros k. split; [auto|]. intros [Q|(q & [] & _)]. exact Q.
    - cbn [each]. inversion NDt as [|? ? NIc NDt']; subst. pose proof (Inc c (or_introl eq_refl)) as Ic. apply Hc in Ic. destruct Ic as (r & e & [R1 R2] & Ve & Pe & _). specialize (R2 eq_refl). destruct r as [|k [|k2 r]]; try discriminate. clear R1 R2.
      rewrite W0 in Ve by apply Apart. pose proof (path_of_place _ _ _ _ Pe) as Pk.
      assert (Nk : ~ In k done) by (apply (Dis c k [] (or_introl eq_refl)); exact Pk).
      assert (Vsrc : forall r, view ti (ds ++ r) = view t (ds ++ r)) by (intros r; apply Sf, Apart2).
      assert (Vdst : view ti (ds' ++ [k]) = None) by (destruct (Sf (ds' ++ [k])) as (_ & S2 & _); apply (S2 k [] eq_refl Nk)).
      assert (Vdir : view ti ds' = Some Dir) by (destruct (Sf ds') as (_ & _ & S3 & _); apply S3; reflexivity).
      (* the child *)
      assert (Child : exists t2 b, copy fuel junk cur c (child_destination (dir_path v ds') c) ti = Some (t2, b) /\ unique t2 /\ volume t2 /\ named_files t2 /\ with_copy ti t2 (ds ++ [k]) (ds' ++ [k])).
      { destruct e as [|ct].
        - cbn [path_of] in Pe. subst c. assert (Ep : dir_path v (ds ++ [k]) = dir_path v ds ++ [(PathModel.Directory, Some k)]) by (unfold dir_path; rewrite map_app; reflexivity). assert (Ed : child_destination (dir_path v ds') (dir_path v (ds ++ [k])) = dir_path v (ds' ++ [k])) by (rewrite Ep; apply taken_dir). rewrite Ed.
          assert (Fp : 0 < fuel). { destruct fuel; [|lia]. rewrite Dp in Ve by (cbn [length]; lia). discriminate. }
          destruct (IH ti (ds ++ [k]) (ds' ++ [k])) as (t2 & E2 & C2 & U2 & H2 & N2); try assumption; try (rewrite app_length; cbn [length]; lia).
          + intros r Lr. rewrite <- app_assoc, Vsrc. apply Dp. cbn [app length]. lia.
          + intros r f es cc Q P. rewrite <- app_assoc, Vsrc in Q. cbn [app] in Q. apply (Fe (k :: r) f es cc); [exact Q|exact P].
          + intros r cc Q. rewrite <- app_assoc, Vsrc in Q. apply (Sm _ cc Q).
          + intros r Q. rewrite <- app_assoc, Vsrc in Q. cbn [app] in Q. destruct (NE (k :: r) Q) as [m Vm]. exists m. rewrite <- app_assoc, Vsrc. exact Vm.
          + rewrite Vsrc. exact Ve.
          + rewrite removelast_last. exact Vdir.
          + intros [x Ex]. rewrite <- app_assoc in Ex. cbn [app] in Ex. destruct x as [|y x _] using rev_ind.
            * apply app_inj_tail in Ex. destruct Ex as [Ex _]. apply NP. rewrite Ex. exists []. rewrite app_nil_r. reflexivity.
            * change (k :: x ++ [y]) with ((k :: x) ++ [y]) in Ex. rewrite app_assoc in Ex. apply app_inj_tail in Ex. destruct Ex as [Ex _]. apply NP. rewrite Ex. exists (k :: x). reflexivity.
          + exists t2, true. auto.
        - cbn [path_of] in Pe. destruct Pe as (dd & f & es & Ek & Pf & ->). apply app_inj_tail in Ek. destruct Ek as [<- ->]. rewrite taken_file.
          assert (Le : length es <= n0). { apply (Fe [] f es ct); [exact Ve|exact Pf]. }
          assert (Vi : view ti (ds ++ [joined f es]) = Some (File ct)) by (rewrite Vsrc; exact Ve).
          destruct fuel as [|fuel]; [exfalso; rewrite Dp in Ve by (cbn [length]; lia); discriminate|].
          rewrite (copy_file_fuel fuel junk cur v ds f es _ ti Hi ltac:(lia) ltac:(congruence)).
          destruct (copy_file_ok junk cur v ds f es ds' f es ti ct J Hi ltac:(lia) ltac:(lia) (Sm _ _ Ve) Vi Vdir) as (t2 & b2 & E2 & U2 & M2). rewrite Vdst in M2. destruct M2 as [-> M2].
          exists t2, true. split; [exact E2|]. split; [apply U2, Ui|]. split; [apply (volume_entry ti t2 _ _ Hi (fun Q => app_cons_not_nil ds' [] _ (eq_sym Q)) M2)|]. split.
          + intros q m cc Q. destruct (names_dec (q ++ [m]) (ds' ++ [joined f es])) as [Eq|Nq].
            * apply app_inj_tail in Eq. destruct Eq as [_ ->]. exists f, es. auto.
            * rewrite (proj2 (M2 _) Nq) in Q. apply (NFi q m cc Q).
          + intros q. split.
            * intros r ->. destruct r as [|x r]; [rewrite !app_nil_r; rewrite Vi; apply M2; reflexivity|].
              assert (Z1 : view ti ((ds ++ [joined f es]) ++ x :: r) = None).
              { destruct (view ti ((ds ++ [joined f es]) ++ x :: r)) eqn:Z; [|reflexivity]. assert (N1 : view ti ((ds ++ [joined f es]) ++ x :: r) <> None) by congruence. assert (N2 : x :: r <> []) by discriminate. pose proof (view_under ti _ _ N1 N2). congruence. }
              rewrite Z1, (proj2 (M2 _)).
              -- destruct (view ti ((ds' ++ [joined f es]) ++ x :: r)) eqn:Z; [|reflexivity]. assert (N1 : view ti ((ds' ++ [joined f es]) ++ x :: r) <> None) by congruence. assert (N2 : x :: r <> []) by discriminate. pose proof (view_under ti _ _ N1 N2). congruence.
              -- intros Q. apply (f_equal (@length _)) in Q. rewrite !app_length in Q. cbn [length] in Q. lia.
            * intros Q. apply M2. intros ->. apply Q. exists []. rewrite app_nil_r. reflexivity. }
      destruct Child as (t2 & b2 & E2 & U2 & H2 & N2 & C2). rewrite E2.
      assert (Sf2 : so_far t t2 ds ds' (k :: done)).
      { intros q. destruct (Sf q) as (S1 & S2 & S3 & S4). destruct (C2 q) as [C2a C2b]. repeat split.
        - intros k' r -> Ik. destruct (list_eq_dec N.eq_dec k k') as [<-|Dk].
          + replace (ds' ++ k :: r) with ((ds' ++ [k]) ++ r) in * by (rewrite <- app_assoc; reflexivity). rewrite (C2a r eq_refl). rewrite <- app_assoc. apply Vsrc.
          + destruct Ik as [Q|Ik]; [congruence|]. rewrite C2b; [apply (S1 k' r eq_refl Ik)|]. intros [x Q]. rewrite <- app_assoc in Q. apply app_inv_head in Q. injection Q as Q _. congruence.
        - intros k' r -> Ik. rewrite C2b; [apply (S2 k' r eq_refl); intros Q; apply Ik; right; exact Q|]. intros [x Q]. rewrite <- app_assoc in Q. apply app_inv_head in Q. injection Q as Q _. apply Ik. left. congruence.
        - intros ->. rewrite C2b; [apply S3; reflexivity|]. intros [x Q]. apply (f_equal (@length _)) in Q. rewrite !app_length in Q. cbn [length] in Q. lia.
        - intros Q. rewrite C2b; [apply S4, Q|]. intros P. apply Q. apply (prefix_trans ds' (ds' ++ [k])); [exists [k]; reflexivity|exact P]. }
      destruct (IHt (k :: done) t2) as (t' & E' & U' & H' & N' & done' & Sf' & Dn); try assumption.
      + intros x Hx. apply Inc. right. exact Hx.
      + intros q k' r Iq Pq [<-|Ik'].
        * (* two paths of the same child *) pose proof (Inc q (or_intror Iq)) as Icq. apply Hc in Icq. destruct Icq as (r2 & e2 & [_ R2] & Vq & Pq2 & _). specialize (R2 eq_refl). destruct r2 as [|k3 [|? ?]]; try discriminate. pose proof (path_of_place _ _ _ _ Pq2) as Pl. rewrite Pl in Pq. apply app_inv_head in Pq. injection Pq as -> <-.
          rewrite W0 in Vq by apply Apart. rewrite Ve in Vq. injection Vq as <-. apply NIc. assert (Eq : q = c); [|subst; exact Iq].
          destruct e as [|ct]; cbn [path_of] in Pe, Pq2; [congruence|]. destruct Pe as (d1 & f1 & e1 & Q1 & P1 & ->), Pq2 as (d2 & f2 & e2' & Q2 & P2 & ->). apply app_inj_tail in Q1, Q2. destruct Q1 as [<- Q1], Q2 as [<- Q2]. unfold file_path. f_equal. apply file_comps_inj; [exact P2|exact P1|congruence].
        * apply (Dis q k' r (or_intror Iq) Pq Ik').
      + exists t'. split; [exact E'|]. split; [exact U'|]. split; [exact H'|]. split; [exact N'|]. exists done'. split; [exact Sf'|]. intros k'. rewrite Dn. split.
        * intros [[<-|Q]|(q & Iq & Pq)]; [right; exists c; split; [left; reflexivity|exact Pk]|left; exact Q|right; exists q; split; [right; exact Iq|exact Pq]].
        * intros [Q|(q & [<-|Iq] & Pq)]; [left; right; exact Q| |right; exists q; auto]. rewrite Pk in Pq. apply app_inv_head in Pq. injection Pq as ->. left. left. reflexivity. }
  destruct (Loop cs [] t1 (fun x Hx => Hx) ND U1 H1 NF1) as (t' & E' & U' & H' & N' & done & Sf & Dn).
  { intros q. repeat split.
    - intros k r _ [].
    - intros k r -> _. rewrite W0.
      + destruct (view t (ds' ++ k :: r)) eqn:Z; [|reflexivity]. assert (N1 : view t (ds' ++ k :: r) <> None) by congruence. assert (N2 : k :: r <> []) by discriminate. pose proof (view_under t _ _ N1 N2). congruence.
      + intros Q. apply (f_equal (@length _)) in Q. rewrite app_length in Q. cbn [length] in Q. lia.
    - intros ->. exact Wd.
    - intros Q. apply W0. intros ->. apply Q. exists []. rewrite app_nil_r. reflexivity. }
  { intros q k r _ _ []. }
  rewrite E'. exists t'. split; [reflexivity|]. split; [|auto]. intros q. destruct (Sf q) as (S1 & S2 & S3 & S4). split; [|exact S4].
  intros r ->. destruct r as [|k r]; [rewrite app_nil_r in *; rewrite app_nil_r; rewrite V; apply S3; reflexivity|].
  destruct (view t (ds ++ [k])) as [e|] eqn:Ve.
  - apply (S1 k r eq_refl). apply Dn. right. assert (Ve1 : view t1 (ds ++ [k]) = Some e) by (rewrite W0; [exact Ve|apply Apart]).
    assert (P : exists q, path_of v (ds ++ [k]) e q).
    { destruct e as [|c]; [eexists; reflexivity|]. destruct (NF1 ds k c Ve1) as (f & es & -> & P). exists (file_path v ds f es). exists ds, f, es. auto. }
    destruct P as [q P]. exists q. split; [|apply (path_of_place _ _ _ _ P)]. apply Hc. exists [k], e. split; [split; [discriminate|reflexivity]|]. auto.
  - assert (Nk : ~ In k done).
    { intros Q. apply Dn in Q. destruct Q as [[]|(q & Iq & Pq)]. apply Hc in Iq. destruct Iq as (r2 & e2 & [_ R2] & Vq & Pq2 & _). specialize (R2 eq_refl). destruct r2 as [|k3 [|? ?]]; try discriminate. pose proof (path_of_place _ _ _ _ Pq2) as Pl. rewrite Pl in Pq. apply app_inv_head in Pq. injection Pq as ->. rewrite W0 in Vq by apply Apart. congruence. }
    rewrite (S2 k r eq_refl Nk). destruct (view t (ds ++ k :: r)) eqn:Z; [|reflexivity]. exfalso. replace (ds ++ k :: r) with ((ds ++ [k]) ++ r) in Z by (rewrite <- app_assoc; reflexivity). destruct r as [|x r]; [rewrite app_nil_r in Z; congruence|].
    assert (N1 : view t ((ds ++ [k]) ++ x :: r) <> None) by congruence. assert (N2 : x :: r <> []) by discriminate. pose proof (view_under t _ _ N1 N2). congruence.
Qed.

(** ** Moving *)

Lemma move_dir_ok junk cur v n0 fuel t ds ds' : (forall n, FileModel.len (junk n) = n) -> volume t -> unique t -> named_files t ->
  length ds + fuel + n0 <= 124 -> length ds' + fuel + n0 <= 124 ->
  (forall r, fuel <= length r -> view t (ds ++ r) = None) -> few_extensions t ds n0 -> small_files t ds -> no_empty_directories t ds ->
  view t ds = Some Dir -> view t ds' = None -> view t (removelast ds') = Some Dir -> ~ prefix ds ds' ->
  exists t', move fuel junk cur (dir_path v ds) (dir_path v ds') t = Some (t', true) /\ moved t t' ds ds' /\ unique t' /\ volume t' /\ named_files t'.
Proof.
  intros J H U NF L L' Dp Fe Sm NE V Vn Vp NP. destruct (copy_dir_ok junk cur v n0 J fuel t ds ds' H U NF L L' Dp Fe Sm NE V Vn Vp NP) as (t1 & E & C & U1 & H1 & N1). unfold move. rewrite E.
  assert (D0 : ds <> []) by (intros ->; apply NP; exists ds'; reflexivity).
  assert (NP' : ~ prefix ds' ds). { intros [r Er]. rewrite Er in V. pose proof (view_prefix t ds' r V). congruence. }
  assert (V1 : view t1 ds = Some Dir) by (rewrite (proj2 (C ds)); assumption).
  destruct (remove_dir_ok cur v ds t1 H1 ltac:(lia) D0) as (t' & R & Rw & _). specialize (Rw V1). exists t'. split; [exact R|]. split.
  - intros q. destruct (C q) as [C1 C2], (Rw q) as [R1 R2]. split; [|split; [exact R1|intros Q1 Q2; rewrite (R2 Q2); apply C2, Q1]].
    intros r ->. rewrite R2; [apply C1; reflexivity|]. intros [x Ex].
    assert (Q : prefix ds ds' \/ prefix ds' ds).
    { clear - Ex. revert ds' Ex. induction ds as [|d ds IHd]; intros ds' Ex; [left; exists ds'; reflexivity|]. destruct ds' as [|d' ds']; [right; exists (d :: ds); reflexivity|]. injection Ex as -> Ex. destruct (IHd ds' Ex) as [[y ->]|[y ->]]; [left|right]; exists y; reflexivity. }
    destruct Q; contradiction.
  - split; [apply (remove_unique _ _ _ _ _ U1 R)|]. split.
    + unfold volume in *. rewrite (proj2 (Rw [])); [exact H1|]. intros [r Er]. destruct ds; [congruence|discriminate].
    + intros q k c Q. destruct (prefix_dec ds (q ++ [k])) as [P|P]; [rewrite (proj1 (Rw _) P) in Q; discriminate|]. rewrite (proj2 (Rw _) P) in Q. apply (N1 q k c Q).
Qed.

Lemma move_file_ok junk cur v ds f es ds' f' es' t c fuel : (forall n, FileModel.len (junk n) = n) -> volume t -> length ds + 1 + length es <= 125 -> length ds' + 1 + length es' <= 125 -> (N.of_nat (length c) < 2 ^ 63)%N ->
  view t (ds ++ [joined f es]) = Some (File c) -> view t ds' = Some Dir -> view t (ds' ++ [joined f' es']) = None ->
  exists t', move (S fuel) junk cur (file_path v ds f es) (file_path v ds' f' es') t = Some (t', true) /\ moved_file t t' (ds ++ [joined f es]) (ds' ++ [joined f' es']) c.
Proof.
  intros J H L L' Lc V Vd Vn. unfold move. rewrite copy_file_fuel by (assumption || congruence). destruct (copy_file_ok junk cur v ds f es ds' f' es' t c J H L L' Lc V Vd) as (t1 & b & E & _ & M). rewrite Vn in M. destruct M as [-> W]. rewrite E.
  assert (H1 : volume t1) by apply (volume_entry t t1 _ _ H (fun Q => app_cons_not_nil ds' [] _ (eq_sym Q)) W).
  destruct (remove_file_ok cur v ds f es t1 H1 L) as (t' & R & Rw). exists t'. split; [exact R|]. intros q. destruct (W q) as [W1 W2], (Rw q) as [R1 R2]. split; [|split; [exact R1|intros Q1 Q2; rewrite (R2 Q2); apply W2, Q1]].
  intros ->. rewrite R2; [apply W1; reflexivity|]. intros [x Ex]. destruct x as [|y x _] using rev_ind; [rewrite app_nil_r in Ex; congruence|].
  rewrite app_assoc in Ex. apply app_inj_tail in Ex. destruct Ex as [Ex _]. rewrite Ex in Vd. apply view_prefix in Vd. congruence.
Qed.

(** ** The volumes that can be reached *)

Lemma reached_ok t : reached t -> volume t /\ unique t /\ named_files t.
Proof.
  induction 1 as [|cur inter v ds t t' b R IH L E|cur inter v ds f es t t' b R IH L P E|cur v ds t t' b R IH L D E|cur v ds f es t t' b R IH L E|t p c b R IH V].
  - split; [reflexivity|]. split; [apply unique_leaf; reflexivity|]. intros q k c Q. destruct q; discriminate.
  - destruct IH as (H & U & N). destruct (create_dir_ok cur inter v ds t H L) as (t2 & b2 & E2 & H2 & _ & W & F). rewrite E in E2. injection E2 as <- <-. split; [exact H2|]. split; [apply (create_unique _ _ _ _ _ _ U E)|].
    destruct b; [|rewrite F; auto]. intros q k c Q. destruct (prefix_dec (q ++ [k]) ds) as [P|P]; [rewrite (proj1 (W eq_refl _) P) in Q; discriminate|]. rewrite (proj2 (W eq_refl _) P) in Q. apply (N q k c Q).
  - destruct IH as (H & U & N). destruct (create_file_ok cur inter v ds f es t H L) as (t1 & t2 & b2 & E2 & H2 & _ & W & F). rewrite E in E2. injection E2 as <- <-. split; [exact H2|]. split; [apply (create_unique _ _ _ _ _ _ U E)|].
    destruct b; [|rewrite F; auto]. destruct (W eq_refl) as (W1 & W2 & W3). intros q k c Q. destruct (view t (ds ++ [joined f es])) as [e|] eqn:Ve.
    + rewrite W3 in Q by discriminate. apply (N q k c Q).
    + destruct (names_dec (q ++ [k]) (ds ++ [joined f es])) as [Eq|Nq]; [apply app_inj_tail in Eq; destruct Eq as [_ ->]; exists f, es; auto|]. rewrite (proj2 (W2 eq_refl _) Nq) in Q. destruct (prefix_dec (q ++ [k]) ds) as [P1|P1]; [rewrite (proj1 (W1 _) P1) in Q; discriminate|]. rewrite (proj2 (W1 _) P1) in Q. apply (N q k c Q).
  - destruct IH as (H & U & N). destruct (remove_dir_ok cur v ds t H L D) as (t2 & E2 & W & F). rewrite E in E2. injection E2 as <- ->. pose proof (remove_unique _ _ _ _ _ U E) as U2. destruct (not_dir_cases t ds) as [V|V]; [|rewrite (F V) in *; auto]. specialize (W V). repeat split; [|exact U2|].
    + unfold volume in *. rewrite (proj2 (W [])); [exact H|]. intros [r Er]. destruct ds; [congruence|discriminate].
    + intros q k c Q. destruct (prefix_dec ds (q ++ [k])) as [P|P]; [rewrite (proj1 (W _) P) in Q; discriminate|]. rewrite (proj2 (W _) P) in Q. apply (N q k c Q).
  - destruct IH as (H & U & N). destruct (remove_file_ok cur v ds f es t H L) as (t2 & E2 & W). rewrite E in E2. injection E2 as <- ->. pose proof (remove_unique _ _ _ _ _ U E) as U2. repeat split; [|exact U2|].
    + unfold volume in *. rewrite (proj2 (W [])); [exact H|]. intros [r Er]. destruct ds; discriminate.
    + intros q k c Q. destruct (prefix_dec (ds ++ [joined f es]) (q ++ [k])) as [P|P]; [rewrite (proj1 (W _) P) in Q; discriminate|]. rewrite (proj2 (W _) P) in Q. apply (N q k c Q).
  - destruct IH as (H & U & N). pose proof (get_alter_set t p c b (view_file_get t p c V)) as W. assert (D : p <> []) by (intros ->; unfold volume in H; congruence). split; [apply (volume_entry t _ p _ H D W)|]. split.
    + apply unique_alter; [exact U|]. intros x _. apply unique_leaf. exact I.
    + intros q k d Q. destruct (names_dec (q ++ [k]) p) as [<-|Nq]; [apply (N q k c V)|]. rewrite (proj2 (W _) Nq) in Q. apply (N q k d Q).
Qed.

Lemma asked_wanted o naming q e : (blacklist o = true -> exists m l, naming = Some (m :: l)) -> asked_for o naming q e <-> wanted o naming q e.
Proof.
  intros B. unfold asked_for, wanted. destruct naming as [[|m l]|]; destruct (blacklist o); try tauto; try (destruct (B eq_refl) as (? & ? & ?); discriminate).
  split; intros [A1 A2]; (split; [|exact A2]); [intros x Hx T; apply A1; exists x; auto|intros (x & Hx & T); apply (A1 x Hx T)].
Qed.

Lemma listing_ok cur o naming v t ds fuel : reached t -> length ds + fuel <= 126 -> 0 < fuel ->
  (recursively o = true -> forall r, fuel <= length r -> view t (ds ++ r) = None) -> (blacklist o = true -> exists m l, naming = Some (m :: l)) ->
  exists l, get_contents fuel cur o naming (dir_path v ds) t = Some (match l with [] => None | _ => Some l end) /\ NoDup l /\
  forall q, In q l <-> exists r e, below o r /\ view t (ds ++ r) = Some e /\ path_of v (ds ++ r) e q /\ wanted o naming q e.
Proof.
  intros R L F Dp B. apply reached_ok in R. destruct R as (H & U & N). destruct (contents_ok cur o naming v t H U N fuel ds L F Dp) as (l & E & ND & Hl). unfold get_contents. rewrite E.
  assert (Hl' : forall q, In q l <-> exists r e, below o r /\ view t (ds ++ r) = Some e /\ path_of v (ds ++ r) e q /\ wanted o naming q e).
  { intros q. rewrite Hl. split; intros (r & e & A1 & A2 & A3 & A4); exists r, e; (split; [exact A1|split; [exact A2|split; [exact A3|]]]); apply (asked_wanted o naming q e B); exact A4. }
  exists l. auto.
Qed.

Lemma each_more (cp cp' : list PathModel.component -> list PathModel.component -> node -> option (node * bool)) dest : (forall c d t r, cp c d t = Some r -> cp' c d t = Some r) ->
  forall cs t t', each cp dest cs t = Some t' -> each cp' dest cs t = Some t'.
Proof.
  intros M. induction cs as [|c cs IH]; intros t t' E; [exact E|]. cbn [each] in *. destruct (cp c (child_destination dest c) t) as [[t1 b]|] eqn:E1; [|discriminate]. rewrite (M _ _ _ _ E1). apply IH, E.
Qed.

Lemma copy_more junk cur : forall fuel l dest t r, copy fuel junk cur l dest t = Some r -> copy (S fuel) junk cur l dest t = Some r.
Proof.
  induction fuel as [|fuel IH]; intros l dest t r E; [discriminate|]. rewrite copy_eq in *. destruct (exists_ cur l t) as [[|]|]; try exact E. destruct (PathModel.is_directory _); [|exact E]. destruct (create cur false dest t) as [[t1 [|]]|]; try exact E. destruct (get_contents 1 cur no_options None l t1) as [[cs|]|]; try exact E.
  destruct (each (copy fuel junk cur) dest cs t1) as [t2|] eqn:E2; [|discriminate]. rewrite (each_more _ (copy (S fuel) junk cur) dest IH _ _ _ E2). exact E.
Qed.

Lemma copy_never junk cur fuel n l dest t : (forall k, copy (n + k) junk cur l dest t = None) -> copy fuel junk cur l dest t = None.
Proof.
  intros H. destruct (copy fuel junk cur l dest t) as [r|] eqn:E; [|reflexivity]. assert (M : forall k, copy (k + fuel) junk cur l dest t = Some r) by (induction k as [|k IH]; [exact E|apply copy_more, IH]). specialize (M n). rewrite H in M. discriminate.
Qed.
