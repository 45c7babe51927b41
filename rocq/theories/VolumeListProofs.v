From Verif Require Import Base VolumeModel VolumeSpec VolumeProofs.
From Verif Require PathModel PathSpec PathProps.

(** ** Names *)

Lemma print_file f es : PathSpec.print (file_comps f es) = joined f es.
Proof.
  unfold PathSpec.print, file_comps, joined. cbn [map concat PathSpec.text]. f_equal. f_equal. rewrite map_map. apply map_ext. intros e. reflexivity.
Qed.

Lemma convert_file f es : parts f es -> PathModel.convert (joined f es) true = Some ((PathModel.RelativeRoot, None) :: file_comps f es).
Proof.
  intros [Pe Pf]. assert (R : PathSpec.readable PathSpec.Anywhere (file_comps f es)).
  { apply PathSpec.r_end; [|discriminate]. assert (X : Forall PathSpec.extension (map (fun e => (PathModel.Extension, Some e)) es)).
    { apply Forall_forall. intros c Hc. apply in_map_iff in Hc. destruct Hc as (e & <- & He). rewrite Forall_forall in Pe. exists e. split; [apply Pe, He|reflexivity]. }
    destruct Pf as [Pf|(n & Pn & -> & NE)].
    - apply PathSpec.a_file; assumption.
    - destruct es as [|e es]; [congruence|]. unfold file_comps. cbn [map]. apply PathSpec.hidden_file; assumption. }
  pose proof (PathProps.c29_round_trip_partial _ R) as E. rewrite print_file in E. unfold PathModel.create in E. destruct (PathModel.convert (joined f es) true) as [l|]; [|discriminate]. injection E as E. rewrite E. reflexivity.
Qed.

Lemma file_comps_inj f es f' es' : parts f es -> parts f' es' -> joined f es = joined f' es' -> file_comps f es = file_comps f' es'.
Proof. intros P P' E. pose proof (convert_file f es P) as C. rewrite E, (convert_file f' es' P') in C. injection C as C1 C2. unfold file_comps. congruence. Qed.

(** ** The place a path names *)

Fixpoint ext_names (l : list PathModel.component) : list name :=
  match l with (PathModel.Extension, Some e) :: l => e :: ext_names l | _ => [] end.
Fixpoint place (l : list PathModel.component) : list name :=
  match l with
  | (PathModel.Directory, Some d) :: l => d :: place l
  | (PathModel.File, Some f) :: l => [joined f (ext_names l)]
  | _ :: l => place l
  | [] => []
  end.

Lemma ext_names_map es : ext_names (map (fun e => (PathModel.Extension, Some e)) es) = es.
Proof. induction es as [|e es IH]; [reflexivity|]. cbn [map ext_names]. rewrite IH. reflexivity. Qed.
Lemma place_dirs ds l : place (map D ds ++ l) = ds ++ place l.
Proof. induction ds as [|d ds IH]; [reflexivity|]. cbn [map app place D]. rewrite IH. reflexivity. Qed.
Lemma place_dir v ds l : place (dir_path v ds ++ l) = ds ++ place l.
Proof. unfold dir_path. cbn [app place]. apply place_dirs. Qed.
Lemma place_file v ds f es : place (file_path v ds f es) = ds ++ [joined f es].
Proof. unfold file_path. rewrite place_dir. unfold file_comps. cbn [place]. rewrite ext_names_map. reflexivity. Qed.
Lemma path_of_place v p e q : path_of v p e q -> place q = p.
Proof.
  destruct e as [|c]; cbn [path_of].
  - intros ->. rewrite dir_path_nil, place_dir. apply app_nil_r.
  - intros (ds & f & es & -> & _ & ->). apply place_file.
Qed.

(** ** Looking up *)

Lemma node_at_dir cur v ds t : volume t -> length ds <= 125 -> node_at cur (dir_path v ds) t = Some (match view t ds with Some Dir => get t ds | _ => None end).
Proof.
  intros H L. destruct (node_op_dir_plain cur OpNone false v ds t H L ltac:(discriminate)) as [A B]. unfold node_at. destruct (not_dir_cases t ds) as [V|V].
  - destruct (A V) as [ds' E]. rewrite E, V. reflexivity.
  - rewrite (B V). destruct (view t ds) as [[|c]|]; [congruence|reflexivity|reflexivity].
Qed.

Lemma node_op_found cur v ds f es t : volume t -> length ds + 1 + length es <= 125 ->
  node_op cur OpNone false (file_path v ds f es) t = Some (t, match view t (ds ++ [joined f es]) with Some _ => Some (At (ds ++ [joined f es])) | None => None end).
Proof.
  intros H L. destruct (node_op_file_plain cur OpNone false v ds f es t H L ltac:(discriminate)) as [A B]. destruct (not_dir_cases t ds) as [V|V].
  - destruct (A V) as [ds' E]. rewrite E, (conclude_find t ds' ds _ V). reflexivity.
  - rewrite (B V), (view_no_dir t ds _ V). reflexivity.
Qed.

Lemma node_at_file cur v ds f es t : volume t -> length ds + 1 + length es <= 125 -> node_at cur (file_path v ds f es) t = Some (get t (ds ++ [joined f es])).
Proof.
  intros H L. unfold node_at. rewrite node_op_found by assumption. unfold view. destruct (get t (ds ++ [joined f es])) as [[|]|] eqn:G; cbn [get]; rewrite ?G; reflexivity.
Qed.

(** ** Entries *)

Lemma find_in k x l : NoDup (map fst l) -> In (k, x) l -> find k l = Some x.
Proof.
  induction l as [|[n y] l IH]; intros ND Hi; [destruct Hi|]. cbn [map fst] in ND. inversion ND as [|? ? NI ND']; subst. cbn [find]. destruct Hi as [E|Hi].
  - injection E as -> ->. rewrite name_eqb_refl. reflexivity.
  - destruct (name_eqb_spec n k) as [->|D]; [elim NI; apply in_map_iff; exists (k, x); auto|]. apply IH; assumption.
Qed.

Lemma in_find k x l : find k l = Some x -> In (k, x) l.
Proof.
  induction l as [|[n y] l IH]; cbn [find]; [discriminate|]. destruct (name_eqb_spec n k) as [->|D]; [intros E; injection E as ->; left; reflexivity|]. intros E. right. apply IH, E.
Qed.

Definition kind_of (x : node) : entry := match x with NDir _ => Dir | NFile c => File c end.
Lemma view_kind t q x : get t q = Some x -> view t q = Some (kind_of x).
Proof. intros G. unfold view. rewrite G. destruct x; reflexivity. Qed.

Lemma entry_path_ok v ds k x : match x with NDir _ => True | NFile _ => file_named k end -> exists q, entry_path (dir_path v ds) k x = Some q /\ path_of v (ds ++ [k]) (kind_of x) q /\
  (forall q', path_of v (ds ++ [k]) (kind_of x) q' -> q' = q).
Proof.
  destruct x as [c|l]; cbn [entry_path kind_of path_of].
  - intros (f & es & -> & P). rewrite (convert_file f es P). cbn [skipn]. exists (file_path v ds f es). split; [reflexivity|]. split.
    + exists ds, f, es. auto.
    + intros q' (ds' & f' & es' & E & P' & ->). apply app_inj_tail in E. destruct E as [<- E]. unfold file_path. f_equal. apply file_comps_inj; [exact P'|exact P|symmetry; exact E].
  - intros _. eexists. split; [reflexivity|]. unfold dir_path. rewrite map_app. split; [reflexivity|]. intros q' ->. reflexivity.
Qed.

(** ** Matching *)

Lemma matches_ok o q : forall l was, matches o q l was = true <-> (l = [] /\ was = true) \/ exists m, In m l /\ PathSpec.tail_matches o q m.
Proof.
  induction l as [|m l IH]; intros was; cbn [matches].
  - split; [auto|]. intros [[_ H]|(m & [] & _)]. exact H.
  - pose proof (PathProps.c30_match o (PathModel.from_components q) (PathModel.from_components m)) as C. cbn [PathModel.comps PathModel.from_components] in C. destruct (PathModel.path_match o (PathModel.from_components q) (PathModel.from_components m)).
    + split; [|reflexivity]. intros _. right. exists m. split; [left; reflexivity|apply C; reflexivity].
    + rewrite IH. split.
      * intros [[_ Q]|(m' & I' & T)]; [discriminate|]. right. exists m'. split; [right; exact I'|exact T].
      * intros [[Q _]|(m' & [<-|I'] & T)]; [discriminate|apply C in T; discriminate|]. right. exists m'. auto.
Qed.

Lemma selected_ok o naming q x : selected o naming q x = true <-> asked_for o naming q (kind_of x).
Proof.
  unfold selected, asked_for. set (m := match naming with None => true | Some l => matches (matching o) q l true end). set (named := match naming with None | Some [] => True | Some l => exists m, In m l /\ PathSpec.tail_matches (matching o) q m end).
  assert (M : m = true <-> named).
  { unfold m, named. destruct naming as [[|a l]|]; [cbn; tauto| |tauto]. rewrite matches_ok. split; [intros [[Q _]|Q]; [discriminate|exact Q]|auto]. }
  clearbody m named. rewrite !andb_true_iff. destruct x as [c|l]; cbn [kind_of andb negb]; destruct (blacklist o), m, (skip_files o), (skip_directories o); cbn; intuition congruence.
Qed.

(** ** The listing *)

Fixpoint entries (rec : list PathModel.component -> option (list (list PathModel.component))) (o : listing) (naming : option (list (list PathModel.component))) (at_ : list PathModel.component)
    (l : list (name * node)) : option (list (list PathModel.component)) :=
  match l with
  | [] => Some []
  | (k, x) :: l =>
      let? p := entry_path at_ k x in
      let? inner := match x with NDir _ => if recursively o then rec p else Some [] | NFile _ => Some [] end in
      let? rest := entries rec o naming at_ l in
      Some ((if selected o naming p x then [p] else []) ++ inner ++ rest)
  end.

Lemma add_contents_eq fuel cur o naming at_ t : add_contents (S fuel) cur o naming at_ t =
  let? n := node_at cur at_ t in
  match n with Some (NDir l) => entries (fun p => add_contents fuel cur o naming p t) o naming at_ l | _ => Some [] end.
Proof.
  cbn [add_contents]. destruct (node_at cur at_ t) as [[[c|l]|]|]; try reflexivity. induction l as [|[k x] l IH]; [reflexivity|]. cbn [entries]. rewrite <- IH. reflexivity.
Qed.

Lemma NoDup_app_l {A} (l1 l2 : list A) : NoDup l1 -> NoDup l2 -> (forall x, In x l1 -> ~ In x l2) -> NoDup (l1 ++ l2).
Proof.
  induction l1 as [|x l1 IH]; intros H1 H2 H; [exact H2|]. inversion H1; subst. cbn [app]. constructor.
  - rewrite in_app_iff. intros [Q|Q]; [contradiction|]. apply (H x (or_introl eq_refl) Q).
  - apply IH; [assumption|assumption|]. intros y Hy. apply H. right. exact Hy.
Qed.

Lemma contents_ok cur o naming v t : volume t -> unique t -> named_files t -> forall fuel ds, length ds + fuel <= 126 -> 0 < fuel ->
  (recursively o = true -> forall r, fuel <= length r -> view t (ds ++ r) = None) ->
  exists l, add_contents fuel cur o naming (dir_path v ds) t = Some l /\ NoDup l /\
  forall q, In q l <-> exists r e, below o r /\ view t (ds ++ r) = Some e /\ path_of v (ds ++ r) e q /\ asked_for o naming q e.
Proof.
  intros H U NF. induction fuel as [|fuel IH]; intros ds L F0 Dp; [lia|]. rewrite add_contents_eq, node_at_dir by (assumption || lia).
  destruct (not_dir_cases t ds) as [V|V].
  2:{ exists []. assert (None_below : forall r, r <> [] -> view t (ds ++ r) = None).
      { intros r R. destruct (view t (ds ++ r)) eqn:Q; [|reflexivity]. elim V. apply (view_under t ds r); congruence. }
      split; [destruct (view t ds) as [[|c]|]; [congruence|reflexivity|reflexivity]|]. split; [constructor|]. intros q. split; [intros []|]. intros (r & e & [R _] & Q & _). rewrite (None_below r R) in Q. discriminate. }
  rewrite V. apply view_get_dir in V. destruct V as [l G]. rewrite G. pose proof (U ds l G) as ND.
  (* the entries one by one *)
  assert (Sub : forall l0, incl l0 l -> NoDup (map fst l0) -> exists res, entries (fun p => add_contents fuel cur o naming p t) o naming (dir_path v ds) l0 = Some res /\ NoDup res /\
    forall q, In q res <-> exists k r e, In k (map fst l0) /\ below o (k :: r) /\ view t (ds ++ k :: r) = Some e /\ path_of v (ds ++ k :: r) e q /\ asked_for o naming q e).
  { induction l0 as [|[k x] l0 IHl]; intros Inc ND0.
    - exists []. split; [reflexivity|]. split; [constructor|]. intros q. split; [intros []|]. intros (k & r & e & [] & _).
    - cbn [map fst] in ND0. inversion ND0 as [|? ? NI ND1]; subst. destruct IHl as (res & Er & NDr & Hr); [intros y Hy; apply Inc; right; exact Hy|exact ND1|].
      assert (Gk : get t (ds ++ [k]) = Some x). { rewrite get_app, G. cbn [get]. rewrite (find_in k x l ND (Inc _ (or_introl eq_refl))). reflexivity. }
      pose proof (view_kind t _ x Gk) as Vk.
      destruct (entry_path_ok v ds k x) as (p & Ep & Pp & Pu). { destruct x as [c|lx]; [|exact I]. apply (NF ds k c Vk). }
      cbn [entries]. rewrite Ep.
      assert (Inner : exists inner, match x with NDir _ => if recursively o then add_contents fuel cur o naming p t else Some [] | NFile _ => Some [] end = Some inner /\ NoDup inner /\
        forall q, In q inner <-> exists r e, r <> [] /\ below o (k :: r) /\ view t (ds ++ k :: r) = Some e /\ path_of v (ds ++ k :: r) e q /\ asked_for o naming q e).
      { assert (Nothing : (forall r e, r <> [] -> below o (k :: r) -> view t (ds ++ k :: r) = Some e -> False) -> exists inner, Some (@nil (list PathModel.component)) = Some inner /\ NoDup inner /\
          forall q, In q inner <-> exists r e, r <> [] /\ below o (k :: r) /\ view t (ds ++ k :: r) = Some e /\ path_of v (ds ++ k :: r) e q /\ asked_for o naming q e).
        { intros Z. exists []. split; [reflexivity|]. split; [constructor|]. intros q. split; [intros []|]. intros (r & e & R & B & Q & _). apply (Z r e R B Q). }
        destruct x as [c|lx].
        - apply Nothing. intros r e R _ Q. replace (ds ++ k :: r) with ((ds ++ [k]) ++ r) in Q by (rewrite <- app_assoc; reflexivity). assert (N1 : view t ((ds ++ [k]) ++ r) <> None) by congruence. pose proof (view_under t _ _ N1 R). cbn [kind_of] in Vk. congruence.
        - destruct (recursively o) eqn:Rec.
          + cbn [kind_of path_of] in Pp. subst p. destruct fuel as [|fuel].
            { exfalso. cbn [kind_of] in Vk. assert (Z1 : view t (ds ++ [k]) = None) by (apply (Dp eq_refl); cbn [length]; lia). congruence. }
            destruct (IH (ds ++ [k])) as (inner & Ei & NDi & Hi); [rewrite app_length; cbn [length]; lia|lia| |].
            { intros _ r Lr. rewrite <- app_assoc. apply (Dp eq_refl). cbn [length app]. lia. }
            exists inner. split; [exact Ei|]. split; [exact NDi|]. intros q. rewrite Hi. split.
            * intros (r & e & [R1 R2] & Q & P & A). exists r, e. replace (ds ++ k :: r) with ((ds ++ [k]) ++ r) by (rewrite <- app_assoc; reflexivity). split; [exact R1|]. split; [|auto]. split; [discriminate|]. intros X. congruence.
            * intros (r & e & R & B & Q & P & A). replace (ds ++ k :: r) with ((ds ++ [k]) ++ r) in * by (rewrite <- app_assoc; reflexivity). exists r, e. split; [|auto]. split; [exact R|]. intros X. congruence.
          + apply Nothing. intros r e R [_ B] _. specialize (B Rec). cbn [length] in B. destruct r; [congruence|discriminate]. }
      destruct Inner as (inner & Ei & NDi & Hi). rewrite Ei, Er. eexists. split; [reflexivity|].
      (* places *)
      assert (Pl : forall q r e, path_of v (ds ++ k :: r) e q -> place q = ds ++ k :: r) by (intros; eapply path_of_place; eassumption).
      split.
      + apply NoDup_app_l; [|apply NoDup_app_l; [exact NDi|exact NDr|]|].
        * destruct (selected o naming p x); [constructor; [intros []|constructor]|constructor].
        * intros q Q1 Q2. apply Hi in Q1. apply Hr in Q2. destruct Q1 as (r & e & _ & _ & _ & P1 & _), Q2 as (k' & r' & e' & I' & _ & _ & P2 & _). apply path_of_place in P1, P2. rewrite P1 in P2. apply app_inv_head in P2. injection P2 as <- _. contradiction.
        * intros q Q1 Q2. assert (Eq : q = p) by (destruct (selected o naming p x); [destruct Q1 as [<-|[]]; reflexivity|destruct Q1]). subst q. apply path_of_place in Pp. apply in_app_iff in Q2. destruct Q2 as [Q2|Q2].
          { apply Hi in Q2. destruct Q2 as (r & e & R & _ & _ & P1 & _). apply path_of_place in P1. rewrite Pp in P1. apply app_inv_head in P1. injection P1 as P1. congruence. }
          { apply Hr in Q2. destruct Q2 as (k' & r' & e' & I' & _ & _ & P2 & _). apply path_of_place in P2. rewrite Pp in P2. apply app_inv_head in P2. injection P2 as <- _. contradiction. }
      + intros q. rewrite !in_app_iff, Hi, Hr. split.
        * intros [Q|[Q|Q]].
          { assert (Eq : q = p /\ selected o naming p x = true) by (destruct (selected o naming p x); [destruct Q as [<-|[]]; auto|destruct Q]). destruct Eq as [-> S1]. exists k, [], (kind_of x). split; [left; reflexivity|]. split; [split; [discriminate|reflexivity]|]. split; [exact Vk|]. split; [exact Pp|]. apply selected_ok, S1. }
          { destruct Q as (r & e & R & Q). exists k, r, e. split; [left; reflexivity|exact Q]. }
          { destruct Q as (k' & r & e & I' & Q). exists k', r, e. split; [right; exact I'|exact Q]. }
        * intros (k' & r & e & [<-|I'] & B & Q & P & A).
          { cbn [fst] in *. destruct r as [|k2 r]; [|right; left; exists (k2 :: r), e; split; [discriminate|auto]]. left. rewrite Q in Vk. injection Vk as ->. rewrite (Pu q P) in *. apply selected_ok in A. rewrite A. left. reflexivity. }
          { right. right. exists k', r, e. auto. } }
  destruct (Sub l (fun y Hy => Hy) ND) as (res & E & NDr & Hr). exists res. split; [exact E|]. split; [exact NDr|]. intros q. rewrite Hr. split.
  - intros (k & r & e & _ & Q). exists (k :: r), e. exact Q.
  - intros (r & e & B & Q & R). destruct r as [|k r]; [elim (proj1 B); reflexivity|]. exists k, r, e. split; [|auto].
    unfold view in Q. rewrite get_app, G in Q. cbn [get] in Q. destruct (find k l) as [y|] eqn:Fk; [|discriminate]. apply in_find in Fk. apply in_map_iff. exists (k, y). auto.
Qed.
