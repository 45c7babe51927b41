From Verif Require Import Base VolumeModel VolumeSpec.
From Verif Require PathModel.

Lemma name_eqb_refl a : name_eqb a a = true.
Proof. unfold name_eqb. destruct (list_eq_dec N.eq_dec a a); [reflexivity|congruence]. Qed.
Lemma name_eqb_spec a b : reflect (a = b) (name_eqb a b).
Proof. unfold name_eqb. destruct (list_eq_dec N.eq_dec a b); constructor; assumption. Qed.
Lemma names_dec (p q : list name) : {p = q} + {p <> q}.
Proof. apply list_eq_dec, list_eq_dec, N.eq_dec. Qed.

(** ** The tree *)

Lemma find_update n f l m : find m (update n f l) = if name_eqb n m then option_map f (find n l) else find m l.
Proof.
  induction l as [|[k x] l IH]; cbn [update find].
  - destruct (name_eqb n m); reflexivity.
  - destruct (name_eqb_spec k n) as [->|D]; cbn [find].
    + destruct (name_eqb_spec n m) as [->|D]; reflexivity.
    + rewrite IH. destruct (name_eqb_spec n m) as [->|D2]; [|reflexivity]. destruct (name_eqb_spec k m); [congruence|reflexivity].
Qed.

Lemma find_app k l l' : find k (l ++ l') = match find k l with Some x => Some x | None => find k l' end.
Proof. induction l as [|[n x] l IH]; cbn [find app]; [reflexivity|]. destruct (name_eqb n k); [reflexivity|exact IH]. Qed.

Lemma find_unset k l m : find m (unset k l) = if name_eqb k m then None else find m l.
Proof.
  unfold unset. induction l as [|[n x] l IH]; cbn [filter find fst]; [destruct (name_eqb k m); reflexivity|].
  destruct (name_eqb_spec n k) as [->|D]; cbn [negb find].
  - rewrite IH. destruct (name_eqb k m); reflexivity.
  - rewrite IH. destruct (name_eqb_spec k m) as [->|D2]; destruct (name_eqb_spec n m) as [->|D3]; congruence.
Qed.

Lemma get_app p : forall t q, get t (p ++ q) = match get t p with Some x => get x q | None => None end.
Proof.
  induction p as [|n p IH]; intros t q; cbn [get app]; [reflexivity|]. destruct t as [|l]; [reflexivity|]. destruct (find n l); [apply IH|reflexivity].
Qed.

Lemma get_alter p f : forall t x r, get t p = Some x -> get (alter t p f) (p ++ r) = get (f x) r.
Proof.
  induction p as [|n p IH]; intros t x r H; cbn [get alter app] in *.
  - injection H as ->. reflexivity.
  - destruct t as [|l]; [discriminate|]. cbn [get]. rewrite find_update, name_eqb_refl. destruct (find n l) as [y|] eqn:E; [|discriminate]. cbn [option_map]. apply IH, H.
Qed.

Lemma view_alter_other p f : forall t q, ~ prefix p q -> view (alter t p f) q = view t q.
Proof.
  unfold view. induction p as [|n p IH]; intros t q H.
  - elim H. exists q. reflexivity.
  - cbn [alter]. destruct t as [c|l]; [reflexivity|]. destruct q as [|m q]; [reflexivity|]. cbn [get]. rewrite find_update. destruct (name_eqb_spec n m) as [->|D]; [|reflexivity].
    destruct (find m l) as [y|]; [|reflexivity]. cbn [option_map]. apply IH. intros [r ->]. apply H. exists r. reflexivity.
Qed.

Lemma view_get_dir t p : view t p = Some Dir <-> exists l, get t p = Some (NDir l).
Proof.
  unfold view. destruct (get t p) as [[c|l]|]; split; try discriminate; try (intros [l' H]; discriminate); eauto.
Qed.

Lemma view_under t p r : view t (p ++ r) <> None -> r <> [] -> view t p = Some Dir.
Proof.
  unfold view. rewrite get_app. destruct (get t p) as [[c|l]|]; [|reflexivity|congruence]. destruct r; [congruence|]. cbn [get]. congruence.
Qed.

Lemma view_prefix t p r : view t (p ++ r) = Some Dir -> view t p = Some Dir.
Proof. intros H. destruct r as [|x r]; [rewrite app_nil_r in H; exact H|]. apply (view_under t p (x :: r)); [congruence|discriminate]. Qed.

Lemma prefix_trans p q r : prefix p q -> prefix q r -> prefix p r.
Proof. intros [a ->] [b ->]. exists (a ++ b). rewrite app_assoc. reflexivity. Qed.

Lemma prefix_snoc q p d : prefix q (p ++ [d]) -> q = p ++ [d] \/ prefix q p.
Proof.
  intros [r E]. destruct r as [|x r] using rev_ind; [rewrite app_nil_r in E; auto|]. rewrite app_assoc in E. apply app_inj_tail in E. destruct E as [-> ->]. right. exists r. reflexivity.
Qed.

Lemma prefix_dec p : forall q, prefix p q \/ ~ prefix p q.
Proof.
  induction p as [|n p IH]; intros q; [left; exists q; reflexivity|]. destruct q as [|m q]; [right; intros [r E]; discriminate|].
  destruct (list_eq_dec N.eq_dec n m) as [->|D]; [|right; intros [r E]; injection E as -> E; congruence].
  destruct (IH q) as [[r ->]|H]; [left; exists r; reflexivity|right; intros [r E]; injection E as E; apply H; exists r; exact E].
Qed.

(** A new leaf *)
Definition leaf (x : node) : Prop := match x with NFile _ => True | NDir l => l = [] end.
Definition entry_of (x : node) : entry := match x with NFile c => File c | NDir _ => Dir end.

Lemma view_leaf x r : leaf x -> r <> [] -> view x r = None.
Proof. intros L R. destruct r as [|m r]; [congruence|]. unfold view. cbn [get]. destruct x as [c|l]; [reflexivity|]. cbn in L. subst. reflexivity. Qed.

Lemma add_entry t p l k x : get t p = Some (NDir l) -> find k l = None -> leaf x -> with_entry t (alter t p (in_dir (add k x))) (p ++ [k]) (entry_of x).
Proof.
  intros G Fn L q. split.
  - intros ->. unfold view. rewrite (get_alter p _ t _ [k] G). cbn [in_dir get]. unfold add. rewrite find_app, Fn. cbn [find]. rewrite name_eqb_refl. destruct x; reflexivity.
  - intros D. destruct (prefix_dec p q) as [[r ->]|NP]; [|apply view_alter_other, NP]. unfold view. rewrite (get_alter p _ t _ r G), get_app, G. cbn [in_dir].
    destruct r as [|m r]; [reflexivity|]. cbn [get]. unfold add. rewrite find_app. destruct (find m l) as [y|] eqn:E; [reflexivity|]. cbn [find].
    destruct (name_eqb_spec k m) as [->|D2]; [|reflexivity]. apply (view_leaf x r L). intros ->. apply D. reflexivity.
Qed.

Lemma unset_without t p l k : get t p = Some (NDir l) -> without t (alter t p (in_dir (unset k))) (p ++ [k]).
Proof.
  intros G q. split.
  - intros [r ->]. unfold view. rewrite <- app_assoc, (get_alter p _ t _ _ G). cbn [in_dir get app]. rewrite find_unset, name_eqb_refl. reflexivity.
  - intros NP. destruct (prefix_dec p q) as [[r ->]|NP']; [|apply view_alter_other, NP']. unfold view. rewrite (get_alter p _ t _ r G), get_app, G. cbn [in_dir].
    destruct r as [|m r]; [reflexivity|]. cbn [get]. rewrite find_unset. destruct (name_eqb_spec k m) as [->|D]; [|reflexivity]. elim NP. exists r. rewrite <- app_assoc. reflexivity.
Qed.

Lemma view_snoc t p d : view t (p ++ [d]) = match get t p with Some (NDir l) => match find d l with Some (NDir _) => Some Dir | Some (NFile c) => Some (File c) | None => None end | _ => None end.
Proof. unfold view. rewrite get_app. destruct (get t p) as [[c|l]|]; try reflexivity. cbn [get]. destruct (find d l) as [[|]|]; reflexivity. Qed.

(** ** Walking down directories *)

Ltac dir_is H := match type of H with is_dir _ _ = true => match goal with |- context [is_dir ?a ?b] => replace (is_dir a b) with true by (symmetry; exact H) end end.

Definition D (d : name) : PathModel.component := (PathModel.Directory, Some d).

Lemma is_dir_at t p : is_dir t (At p) = true <-> view t p = Some Dir.
Proof. unfold is_dir, view. destruct (get t p) as [[c|l]|]; split; congruence. Qed.

Section Walk.
Variable rel : node -> list ptr -> option (node * list ptr * option ptr).
Variables (op : operation) (inter : bool).

Definition last_of (l : list PathModel.component) : bool := match l with [] => true | _ => false end.

Lemma walk_down_dir t ds p d l x : view t p = Some Dir -> get t (p ++ [d]) = Some (NDir x) -> length ds < 128 ->
  walk rel op inter (D d :: l) (mkWalker t ds (Some (At p)) None) = walk rel op inter l (mkWalker t (ds ++ [At (p ++ [d])]) (Some (At (p ++ [d]))) None).
Proof.
  intros H G L. apply view_get_dir in H. destruct H as [c H]. pose proof G as G0. rewrite get_app, H in G. cbn [get] in G. cbn [walk component_step D fst snd at_node tree dirs file_name]. rewrite H.
  destruct (find d c) as [y|] eqn:E; [|discriminate]. injection G as ->. cbn [at_node tree dirs file_name]. unfold push. cbn [at_node tree dirs file_name].
  assert (I : is_dir t (At (p ++ [d])) = true) by (unfold is_dir; rewrite G0; reflexivity).
  dir_is I. cbn [dirs]. destruct (Nat.ltb_spec (length ds) 128); [|lia]. reflexivity.
Qed.

Lemma walk_down_file t ds p d l c : view t (p ++ [d]) = Some (File c) ->
  walk rel op inter (D d :: l) (mkWalker t ds (Some (At p)) None) = Some (mkWalker t ds None None).
Proof.
  intros H. rewrite view_snoc in H. cbn [walk component_step D fst snd at_node tree dirs file_name]. destruct (get t p) as [[c'|x]|]; [discriminate| |discriminate].
  destruct (find d x) as [[c'|y]|]; [|discriminate|discriminate]. reflexivity.
Qed.

Lemma walk_down_none t ds p d l : view t p = Some Dir -> view t (p ++ [d]) = None -> is_create op && (last_of l || inter) = false -> length ds < 128 ->
  walk rel op inter (D d :: l) (mkWalker t ds (Some (At p)) None) = walk rel op inter l (mkWalker t (ds ++ [Fake]) (Some Fake) None).
Proof.
  intros H V NC L. apply view_get_dir in H. destruct H as [c H]. rewrite view_snoc, H in V. cbn [walk component_step D fst snd at_node tree dirs file_name]. rewrite H.
  destruct (find d c) as [[|]|]; try discriminate. unfold last_of in NC. rewrite NC. unfold push. cbn [at_node is_dir dirs tree file_name]. destruct (Nat.ltb_spec (length ds) 128); [reflexivity|lia].
Qed.

Lemma walk_down_new t ds p d l : view t p = Some Dir -> view t (p ++ [d]) = None -> is_create op && (last_of l || inter) = true -> length ds < 128 ->
  exists t', with_entry t t' (p ++ [d]) Dir /\
  walk rel op inter (D d :: l) (mkWalker t ds (Some (At p)) None) = walk rel op inter l (mkWalker t' (ds ++ [At (p ++ [d])]) (Some (At (p ++ [d]))) None).
Proof.
  intros H V NC L. apply view_get_dir in H. destruct H as [c H]. rewrite view_snoc, H in V. cbn [walk component_step D fst snd at_node tree dirs file_name]. rewrite H.
  destruct (find d c) as [[|]|] eqn:E; try discriminate. unfold last_of in NC. rewrite NC. pose proof (add_entry t p c d (NDir []) H E eq_refl) as W. eexists. split; [exact W|].
  unfold push. cbn [at_node dirs tree file_name]. assert (I : is_dir (alter t p (in_dir (add d (NDir [])))) (At (p ++ [d])) = true).
  { apply is_dir_at. apply (W (p ++ [d])). reflexivity. }
  dir_is I. destruct (Nat.ltb_spec (length ds) 128); [reflexivity|lia].
Qed.

Lemma walk_fake t : forall ns ds l, length ds + length ns <= 128 -> exists ds', length ds' = length ds + length ns /\
  walk rel op inter (map D ns ++ l) (mkWalker t ds (Some Fake) None) = walk rel op inter l (mkWalker t ds' (Some Fake) None).
Proof.
  induction ns as [|d ns IH]; intros ds l L; cbn [length] in L.
  - exists ds. cbn [map app length]. split; [lia|reflexivity].
  - destruct (IH (ds ++ [Fake]) l) as (ds' & L' & E); [rewrite app_length; cbn [length]; lia|]. exists ds'. rewrite app_length in L'. cbn [length] in *. split; [lia|]. cbn [map app walk component_step D fst at_node]. unfold push. cbn [at_node is_dir dirs tree file_name].
    destruct (Nat.ltb_spec (length ds) 128); [exact E|lia].
Qed.

(** Nothing is created on the way *)
Lemma walk_plain t l : (op = OpCreate -> inter = false /\ l <> []) -> forall ns ds p, view t p = Some Dir -> length ds + length ns <= 128 -> exists ds', length ds' <= length ds + length ns /\
  (view t (p ++ ns) = Some Dir -> walk rel op inter (map D ns ++ l) (mkWalker t ds (Some (At p)) None) = walk rel op inter l (mkWalker t ds' (Some (At (p ++ ns))) None)) /\
  (view t (p ++ ns) <> Some Dir ->
    walk rel op inter (map D ns ++ l) (mkWalker t ds (Some (At p)) None) = Some (mkWalker t ds' None None) \/
    (walk rel op inter (map D ns ++ l) (mkWalker t ds (Some (At p)) None) = walk rel op inter l (mkWalker t ds' (Some Fake) None))).
Proof.
  intros NC. assert (NC' : forall ns, is_create op && (last_of (map D ns ++ l) || inter) = false).
  { intros ns. destruct op; cbn [is_create andb]; try reflexivity. destruct (NC eq_refl) as [-> H]. rewrite orb_false_r. destruct ns; cbn [map app last_of]; [|reflexivity]. destruct l; [congruence|reflexivity]. }
  induction ns as [|d ns IH]; intros ds p H L; cbn [length] in L.
  - exists ds. cbn [map app length]. rewrite app_nil_r. split; [lia|]. split; [reflexivity|congruence].
  - replace (p ++ d :: ns) with ((p ++ [d]) ++ ns) by (rewrite <- app_assoc; reflexivity). cbn [map app]. destruct (view t (p ++ [d])) as [[|c]|] eqn:V.
    + pose proof V as V0. apply view_get_dir in V. destruct V as [x G]. rewrite (walk_down_dir t ds p d _ x H G) by lia.
      destruct (IH (ds ++ [At (p ++ [d])]) (p ++ [d]) V0) as (ds' & L' & A & B); [rewrite app_length; cbn [length]; lia|]. exists ds'. rewrite app_length in L'. cbn [length] in *. split; [lia|]. split; [exact A|exact B].
    + exists ds. split; [lia|]. split.
      * intros Q. exfalso. pose proof (view_prefix t (p ++ [d]) ns Q). congruence.
      * intros _. left. apply (walk_down_file t ds p d _ c V).
    + destruct (walk_fake t ns (ds ++ [Fake]) l) as (ds' & L' & E); [rewrite app_length; cbn [length]; lia|]. exists ds'. rewrite app_length in L'. cbn [length] in *. split; [lia|]. split.
      * intros Q. pose proof (view_prefix t (p ++ [d]) ns Q). congruence.
      * intros _. right. rewrite (walk_down_none t ds p d _ H V (NC' ns)) by lia. exact E.
Qed.

End Walk.

Lemma clear_or t p : forall ns, (forall q c, prefix q ns -> view t (p ++ q) <> Some (File c)) \/ (exists q c, prefix q ns /\ view t (p ++ q) = Some (File c)).
Proof.
  induction ns as [|d ns IH] using rev_ind.
  - destruct (view t p) as [[|c]|] eqn:V.
    + left. intros q c [r E]. symmetry in E. apply app_eq_nil in E. destruct E as [-> ->]. rewrite app_nil_r. congruence.
    + right. exists [], c. split; [exists []; reflexivity|rewrite app_nil_r; exact V].
    + left. intros q c [r E]. symmetry in E. apply app_eq_nil in E. destruct E as [-> ->]. rewrite app_nil_r. congruence.
  - destruct IH as [IH|(q & c & P & V)].
    + destruct (view t (p ++ ns ++ [d])) as [[|c]|] eqn:V.
      * left. intros q c P. apply prefix_snoc in P. destruct P as [->|P]; [congruence|apply IH, P].
      * right. exists (ns ++ [d]), c. split; [exists []; rewrite app_nil_r; reflexivity|exact V].
      * left. intros q c P. apply prefix_snoc in P. destruct P as [->|P]; [congruence|apply IH, P].
    + right. exists q, c. split; [|exact V]. apply (prefix_trans q ns); [exact P|exists [d]; reflexivity].
Qed.

Lemma with_directories_refl t p : view t p = Some Dir -> with_directories t t p.
Proof. intros H q. split; [|reflexivity]. intros [r ->]. apply (view_prefix t q r H). Qed.

Lemma with_directories_step t t1 t' p d ns : with_entry t t1 (p ++ [d]) Dir -> with_directories t1 t' ((p ++ [d]) ++ ns) -> with_directories t t' ((p ++ [d]) ++ ns).
Proof.
  intros W1 W2 q. destruct (W2 q) as [A B]. split; [exact A|]. intros NP. rewrite (B NP). apply W1. intros ->. apply NP. exists ns. reflexivity.
Qed.

(** Everything that is missing on the way is created *)
Lemma walk_making rel l : forall ns t ds p, view t p = Some Dir -> length ds + length ns <= 128 ->
  ((forall q c, prefix q ns -> view t (p ++ q) <> Some (File c)) -> exists t' ds', length ds' = length ds + length ns /\ with_directories t t' (p ++ ns) /\
     walk rel OpCreate true (map D ns ++ l) (mkWalker t ds (Some (At p)) None) = walk rel OpCreate true l (mkWalker t' ds' (Some (At (p ++ ns))) None)) /\
  ((exists q c, prefix q ns /\ view t (p ++ q) = Some (File c)) -> exists ds',
     walk rel OpCreate true (map D ns ++ l) (mkWalker t ds (Some (At p)) None) = Some (mkWalker t ds' None None)).
Proof.
  induction ns as [|d ns IH]; intros t ds p H L; cbn [length] in L.
  - split.
    + intros _. exists t, ds. cbn [map app length]. rewrite app_nil_r. split; [lia|]. split; [apply with_directories_refl, H|reflexivity].
    + intros (q & c & [r E] & V). symmetry in E. apply app_eq_nil in E. destruct E as [-> ->]. rewrite app_nil_r in V. congruence.
  - replace (p ++ d :: ns) with ((p ++ [d]) ++ ns) by (rewrite <- app_assoc; reflexivity). cbn [map app].
    assert (P1 : prefix [d] (d :: ns)) by (exists ns; reflexivity).
    destruct (view t (p ++ [d])) as [[|c0]|] eqn:V.
    + pose proof V as V0. apply view_get_dir in V. destruct V as [x G]. rewrite (walk_down_dir rel OpCreate true t ds p d _ x H G) by lia.
      destruct (IH t (ds ++ [At (p ++ [d])]) (p ++ [d]) V0) as [A B]; [rewrite app_length; cbn [length]; lia|]. split.
      * intros C. destruct A as (t' & ds' & L' & W & E).
        { intros q c [r ->]. rewrite <- app_assoc. apply C. exists r. reflexivity. }
        exists t', ds'. rewrite app_length in L'. cbn [length] in *. split; [lia|]. split; [exact W|exact E].
      * intros (q & c & [r E] & Q). apply B. destruct q as [|d' q]; [rewrite app_nil_r in Q; congruence|]. injection E as <- E. exists q, c. split; [exists r; exact E|]. rewrite <- app_assoc. exact Q.
    + rewrite (walk_down_file rel OpCreate true t ds p d _ c0 V). split; [intros C; elim (C [d] c0 P1 V)|]. intros _. exists ds. reflexivity.
    + destruct (walk_down_new rel OpCreate true t ds p d (map D ns ++ l) H V) as (t1 & W1 & E1); [cbn [is_create andb]; apply orb_true_r|lia|]. rewrite E1.
      assert (V1 : view t1 (p ++ [d]) = Some Dir) by (apply W1; reflexivity).
      assert (Below : forall q, view t1 ((p ++ [d]) ++ q) = match q with [] => Some Dir | _ => None end).
      { intros [|n q]; [rewrite app_nil_r; exact V1|]. rewrite (proj2 (W1 ((p ++ [d]) ++ n :: q))).
        - destruct (view t ((p ++ [d]) ++ n :: q)) eqn:Q; [|reflexivity]. assert (N1 : view t ((p ++ [d]) ++ n :: q) <> None) by congruence. assert (N2 : n :: q <> []) by discriminate. pose proof (view_under t (p ++ [d]) (n :: q) N1 N2). congruence.
        - intros Q. apply (f_equal (@length _)) in Q. rewrite !app_length in Q. cbn [length] in Q. lia. }
      destruct (IH t1 (ds ++ [At (p ++ [d])]) (p ++ [d]) V1) as [A B]; [rewrite app_length; cbn [length]; lia|]. split.
      * intros C. destruct A as (t' & ds' & L' & W & E). { intros [|n q] c P; rewrite Below; discriminate. }
        exists t', ds'. rewrite app_length in L'. cbn [length] in *. split; [lia|]. split; [|exact E]. apply (with_directories_step t t1 t' p d ns W1 W).
      * intros (q & c & [r E] & Q). exfalso. destruct q as [|d' q]; [rewrite app_nil_r in Q; congruence|]. injection E as <- E. replace (p ++ d :: q) with ((p ++ [d]) ++ q) in Q by (rewrite <- app_assoc; reflexivity).
        destruct q as [|n q]; [rewrite app_nil_r in Q; congruence|]. assert (N1 : view t ((p ++ [d]) ++ n :: q) <> None) by congruence. assert (N2 : n :: q <> []) by discriminate. pose proof (view_under t (p ++ [d]) (n :: q) N1 N2). congruence.
Qed.

(** ** The file's name *)

Lemma walk_exts rel op inter t p : view t p = Some Dir -> forall es ds f, length ds + length es <= 128 -> exists ds',
  walk rel op inter (map (fun e => (PathModel.Extension, Some e)) es) (mkWalker t ds (Some (At p)) (Some f)) = Some (mkWalker t ds' (Some (At p)) (Some (joined f es))).
Proof.
  intros H. pose proof (proj2 (is_dir_at t p) H) as I. induction es as [|e es IH]; intros ds f L; cbn [length] in L.
  - exists ds. unfold joined. cbn [map concat walk]. rewrite app_nil_r. reflexivity.
  - destruct (IH (ds ++ [At p]) (f ++ [46%N] ++ e)) as [ds' E]; [rewrite app_length; cbn [length]; lia|]. exists ds'. cbn [map walk component_step fst snd at_node tree dirs file_name]. dir_is I. cbn [at_node tree dirs file_name]. unfold push. cbn [at_node tree dirs file_name]. dir_is I.
    destruct (Nat.ltb_spec (length ds) 128); [|lia]. rewrite E. unfold joined. cbn [map concat]. rewrite <- !app_assoc. reflexivity.
Qed.

Lemma walk_file rel op inter t p : view t p = Some Dir -> forall es ds f, length ds + 1 + length es <= 128 -> exists ds',
  walk rel op inter (file_comps f es) (mkWalker t ds (Some (At p)) None) = Some (mkWalker t ds' (Some (At p)) (Some (joined f es))).
Proof.
  intros H es ds f L. pose proof (proj2 (is_dir_at t p) H) as I. destruct (walk_exts rel op inter t p H es (ds ++ [At p]) f) as [ds' E]; [rewrite app_length; cbn [length]; lia|]. exists ds'.
  unfold file_comps. cbn [walk component_step fst snd at_node tree dirs file_name]. dir_is I. cbn [at_node tree dirs file_name]. unfold push. cbn [at_node tree dirs file_name]. dir_is I. destruct (Nat.ltb_spec (length ds) 128); [|lia]. exact E.
Qed.

Lemma walk_file_fake rel op inter t ds f es : walk rel op inter (file_comps f es) (mkWalker t ds (Some Fake) None) = Some (mkWalker t ds None None).
Proof. reflexivity. Qed.

(** ** Whole paths *)

Definition three : list ptr := [At []; At []; At []].

Lemma start_walk rel op inter v ds l t : volume t ->
  walk rel op inter (dir_path v ds ++ l) (mkWalker t [At []] None None) = walk rel op inter (map D ds ++ l) (mkWalker t three (Some (At [])) None).
Proof.
  intros H. pose proof (proj2 (is_dir_at t []) H) as I. unfold dir_path. cbn [app walk component_step fst at_node tree dirs file_name]. unfold push. cbn [at_node tree dirs file_name]. dir_is I. cbn [length Nat.ltb Nat.leb at_node tree dirs file_name app]. dir_is I. reflexivity.
Qed.

Definition rel_of (cur : list PathModel.component) (op : operation) (inter : bool) : node -> list ptr -> option (node * list ptr * option ptr) :=
  node_op_in (fun _ _ => None) (match op with OpCreate => OpCreate | _ => OpNone end) inter cur.

Lemma node_op_dir cur op inter v ds l t w : volume t ->
  walk (rel_of cur op inter) op inter (map D ds ++ l) (mkWalker t three (Some (At [])) None) = Some w ->
  node_op cur op inter (dir_path v ds ++ l) t = conclude op w.
Proof.
  intros H E. unfold node_op. unfold node_op_in at 1. cbn [length Nat.ltb Nat.leb]. rewrite start_walk by exact H. unfold rel_of in E. rewrite E. destruct (conclude op w) as [[t' n]|]; reflexivity.
Qed.

Lemma dir_path_nil v ds : dir_path v ds = dir_path v ds ++ [].
Proof. rewrite app_nil_r. reflexivity. Qed.

Lemma not_dir_cases t p : view t p = Some Dir \/ view t p <> Some Dir.
Proof. destruct (view t p) as [[|c]|]; [left; reflexivity|right; discriminate|right; discriminate]. Qed.

Lemma node_op_dir_plain cur op inter v ds t : volume t -> length ds <= 125 -> op <> OpCreate ->
  (view t ds = Some Dir -> exists ds', node_op cur op inter (dir_path v ds) t = conclude op (mkWalker t ds' (Some (At ds)) None)) /\
  (view t ds <> Some Dir -> node_op cur op inter (dir_path v ds) t = Some (t, None)).
Proof.
  intros H L NC. destruct (walk_plain (rel_of cur op inter) op inter t [] (fun E => False_ind _ (NC E)) ds three [] H) as (ds' & L' & A & B); [cbn [three length]; lia|]. rewrite app_nil_l in A, B. rewrite dir_path_nil. split; intros V.
  - exists ds'. apply node_op_dir; [exact H|]. rewrite (A V). reflexivity.
  - destruct (B V) as [E|E]; cbn [walk] in E; rewrite (node_op_dir cur op inter v ds [] t _ H E); reflexivity.
Qed.

Lemma exists_dir_ok cur v ds t : volume t -> length ds <= 125 -> exists b, exists_ cur (dir_path v ds) t = Some b /\ (b = true <-> view t ds = Some Dir).
Proof.
  intros H L. destruct (node_op_dir_plain cur OpNone false v ds t H L ltac:(discriminate)) as [A B]. unfold exists_. destruct (not_dir_cases t ds) as [V|V].
  - destruct (A V) as [ds' E]. rewrite E. exists true. split; [reflexivity|]. tauto.
  - rewrite (B V). exists false. split; [reflexivity|]. split; [discriminate|tauto].
Qed.

Lemma remove_dir_ok cur v ds t : volume t -> length ds <= 125 -> ds <> [] -> exists t', remove cur (dir_path v ds) t = Some (t', true) /\
  (view t ds = Some Dir -> without t t' ds) /\ (view t ds <> Some Dir -> t' = t).
Proof.
  intros H L NE. destruct (node_op_dir_plain cur OpRemove false v ds t H L ltac:(discriminate)) as [A B]. unfold remove. destruct (not_dir_cases t ds) as [V|V].
  - destruct (A V) as [ds' E]. rewrite E. destruct ds as [|d ds] using rev_ind; [congruence|]. clear IHds. cbn [conclude at_node file_name tree]. unfold conclude. cbn [at_node file_name tree]. rewrite rev_app_distr. cbn [rev app]. rewrite rev_involutive. eexists. split; [reflexivity|]. split; [|congruence].
    intros _. apply view_prefix in V. apply view_get_dir in V. destruct V as [l G]. apply (unset_without t ds l d G).
  - rewrite (B V). exists t. split; [reflexivity|]. split; [congruence|reflexivity].
Qed.

Lemma node_op_file_plain cur op inter v ds f es t : volume t -> length ds + 1 + length es <= 125 -> (op = OpCreate -> inter = false) ->
  (view t ds = Some Dir -> exists ds', node_op cur op inter (file_path v ds f es) t = conclude op (mkWalker t ds' (Some (At ds)) (Some (joined f es)))) /\
  (view t ds <> Some Dir -> node_op cur op inter (file_path v ds f es) t = Some (t, None)).
Proof.
  intros H L NC. destruct (walk_plain (rel_of cur op inter) op inter t (file_comps f es)) with (ns := ds) (ds := three) (p := @nil name) as (ds' & L' & A & B); [|exact H|cbn [three length]; lia|].
  { intros E. split; [apply NC, E|discriminate]. }
  rewrite app_nil_l in A, B. unfold file_path. split; intros V.
  - destruct (walk_file (rel_of cur op inter) op inter t ds V es ds' f) as [ds2 E]; [cbn [three length] in L'; lia|]. exists ds2. apply node_op_dir; [exact H|]. rewrite (A V). exact E.
  - destruct (B V) as [E|E]; [|rewrite walk_file_fake in E]; rewrite (node_op_dir cur op inter v ds _ t _ H E); reflexivity.
Qed.

Lemma conclude_find t ds' p f : view t p = Some Dir -> conclude OpNone (mkWalker t ds' (Some (At p)) (Some f)) = Some (t, match view t (p ++ [f]) with Some _ => Some (At (p ++ [f])) | None => None end).
Proof.
  intros V. apply view_get_dir in V. destruct V as [l G]. unfold conclude. cbn [at_node file_name tree]. rewrite view_snoc, G. destruct (find f l) as [[|]|]; reflexivity.
Qed.

Lemma view_no_dir t p f : view t p <> Some Dir -> view t (p ++ [f]) = None.
Proof. intros V. rewrite view_snoc. unfold view in V. destruct (get t p) as [[|]|]; try reflexivity. congruence. Qed.

Lemma exists_file_ok cur v ds f es t : volume t -> length ds + 1 + length es <= 125 -> exists b, exists_ cur (file_path v ds f es) t = Some b /\ (b = true <-> view t (ds ++ [joined f es]) <> None).
Proof.
  intros H L. destruct (node_op_file_plain cur OpNone false v ds f es t H L ltac:(discriminate)) as [A B]. unfold exists_. destruct (not_dir_cases t ds) as [V|V].
  - destruct (A V) as [ds' E]. rewrite E, (conclude_find t ds' ds _ V). eexists. split; [reflexivity|]. destruct (view t (ds ++ [joined f es])); split; congruence.
  - rewrite (B V). exists false. split; [reflexivity|]. rewrite (view_no_dir t ds _ V). split; congruence.
Qed.

Lemma remove_file_ok cur v ds f es t : volume t -> length ds + 1 + length es <= 125 -> exists t', remove cur (file_path v ds f es) t = Some (t', true) /\ without t t' (ds ++ [joined f es]).
Proof.
  intros H L. destruct (node_op_file_plain cur OpRemove false v ds f es t H L ltac:(discriminate)) as [A B]. unfold remove. destruct (not_dir_cases t ds) as [V|V].
  - destruct (A V) as [ds' E]. rewrite E. apply view_get_dir in V. destruct V as [l G]. unfold conclude. cbn [at_node file_name tree]. eexists. split; [reflexivity|]. apply (unset_without t ds l _ G).
  - rewrite (B V). exists t. split; [reflexivity|]. intros q. split; [|reflexivity]. intros [r ->]. pose proof (view_no_dir t ds (joined f es) V) as Q.
    destruct r as [|x r]; [rewrite app_nil_r; exact Q|]. destruct (view t ((ds ++ [joined f es]) ++ x :: r)) eqn:W; [|reflexivity].
    assert (N1 : view t ((ds ++ [joined f es]) ++ x :: r) <> None) by congruence. assert (N2 : x :: r <> []) by discriminate. pose proof (view_under t _ _ N1 N2). congruence.
Qed.

Lemma clear_dec t ds : clear t ds \/ ~ clear t ds.
Proof.
  destruct (clear_or t [] ds) as [C|(q & c & P & V)]; [left; exact C|right]. intros C. apply (C q c P V).
Qed.

Lemma clear_dir t ds : view t ds = Some Dir -> clear t ds.
Proof. intros V q c [r ->]. rewrite (view_prefix t q r V). discriminate. Qed.

Lemma volume_with t t' p : volume t -> with_directories t t' p -> volume t'.
Proof. intros H W. apply (W []). exists p. reflexivity. Qed.

Lemma volume_entry t t' p e : volume t -> p <> [] -> with_entry t t' p e -> volume t'.
Proof. unfold volume. intros H NE W. rewrite (proj2 (W [])); [exact H|congruence]. Qed.

(** Creating with intermediate directories *)
Lemma walk_making_path cur v ds l t : volume t -> 3 + length ds <= 128 ->
  (clear t ds -> exists t' ds', length ds' = 3 + length ds /\ with_directories t t' ds /\
    forall w, walk (rel_of cur OpCreate true) OpCreate true l (mkWalker t' ds' (Some (At ds)) None) = Some w -> node_op cur OpCreate true (dir_path v ds ++ l) t = conclude OpCreate w) /\
  (~ clear t ds -> node_op cur OpCreate true (dir_path v ds ++ l) t = Some (t, None)).
Proof.
  intros H L. destruct (walk_making (rel_of cur OpCreate true) l ds t three [] H) as [A B]; [cbn [three length]; lia|]. split.
  - intros C. destruct (A C) as (t' & ds' & L' & W & E). exists t', ds'. rewrite app_nil_l in *. split; [exact L'|]. split; [exact W|]. intros w Ew. apply node_op_dir; [exact H|]. rewrite E. exact Ew.
  - intros NC. destruct (clear_or t [] ds) as [C|X]; [elim NC; exact C|]. destruct (B X) as [ds' E]. rewrite (node_op_dir cur OpCreate true v ds l t _ H E). reflexivity.
Qed.

Lemma create_dir_ok cur inter v ds t : volume t -> length ds <= 125 -> exists t' b, create cur inter (dir_path v ds) t = Some (t', b) /\ volume t' /\
  (b = true <-> clear t ds /\ (inter = true \/ view t (removelast ds) = Some Dir)) /\
  (b = true -> with_directories t t' ds) /\ (b = false -> t' = t).
Proof.
  intros H L. unfold create. rewrite dir_path_nil. destruct inter.
  - destruct (walk_making_path cur v ds [] t H ltac:(lia)) as [A B]. destruct (clear_dec t ds) as [C|C].
    + destruct (A C) as (t' & ds' & L' & W & E). specialize (E _ eq_refl). rewrite E. unfold conclude. cbn [at_node file_name tree]. exists t', true. split; [reflexivity|]. split; [apply (volume_with t t' ds H W)|]. split; [tauto|]. split; [tauto|discriminate].
    + rewrite (B C). exists t, false. split; [reflexivity|]. split; [exact H|]. split; [split; [discriminate|tauto]|]. split; [discriminate|reflexivity].
  - destruct ds as [|d ds _] using rev_ind.
    + assert (E : walk (rel_of cur OpCreate false) OpCreate false (map D [] ++ []) (mkWalker t three (Some (At [])) None) = Some (mkWalker t three (Some (At [])) None)) by reflexivity.
      rewrite (node_op_dir cur OpCreate false v [] [] t _ H E). unfold conclude. cbn [at_node file_name tree]. exists t, true. split; [reflexivity|]. split; [exact H|]. split; [|split; [intros _; apply with_directories_refl, H|discriminate]].
      split; [|reflexivity]. intros _. split; [apply clear_dir, H|]. right. exact H.
    + rewrite removelast_last. rewrite app_length in L. cbn [length] in L.
      destruct (walk_plain (rel_of cur OpCreate false) OpCreate false t [D d]) with (ns := ds) (ds := three) (p := @nil name) as (ds' & L' & A & B); [intros _; split; [reflexivity|discriminate]|exact H|cbn [three length]; lia|].
      rewrite app_nil_l in A, B. cbn [three length] in L'.
      assert (M : map D (ds ++ [d]) ++ [] = map D ds ++ [D d]) by (rewrite map_app, app_nil_r; reflexivity).
      destruct (not_dir_cases t ds) as [V|V].
      * destruct (view t (ds ++ [d])) as [[|c]|] eqn:Vd.
        { pose proof Vd as Vd0. apply view_get_dir in Vd. destruct Vd as [x G]. specialize (A V). rewrite (walk_down_dir _ OpCreate false t ds' ds d [] x V G) in A by lia. rewrite <- M in A. cbn [walk] in A. rewrite (node_op_dir cur OpCreate false v (ds ++ [d]) [] t _ H A).
          unfold conclude. cbn [at_node file_name tree]. exists t, true. split; [reflexivity|]. split; [exact H|]. split; [|split; [intros _; apply with_directories_refl, Vd0|discriminate]]. split; [|reflexivity]. intros _. split; [apply clear_dir, Vd0|right; exact V]. }
        { specialize (A V). rewrite (walk_down_file _ OpCreate false t ds' ds d [] c Vd) in A. rewrite <- M in A. rewrite (node_op_dir cur OpCreate false v (ds ++ [d]) [] t _ H A). exists t, false. split; [reflexivity|]. split; [exact H|]. split; [|split; [discriminate|reflexivity]].
          split; [discriminate|]. intros [C _]. elim (C (ds ++ [d]) c); [exists []; rewrite app_nil_r; reflexivity|exact Vd]. }
        { specialize (A V). destruct (walk_down_new (rel_of cur OpCreate false) OpCreate false t ds' ds d [] V Vd eq_refl ltac:(lia)) as (t' & W & E). rewrite E in A. rewrite <- M in A. cbn [walk] in A. rewrite (node_op_dir cur OpCreate false v (ds ++ [d]) [] t _ H A).
          unfold conclude. cbn [at_node file_name tree].
          assert (WD : with_directories t t' (ds ++ [d])).
          { pose proof (with_directories_step t t' t' ds d [] W) as Q. rewrite app_nil_r in Q. apply Q, with_directories_refl. apply W. reflexivity. }
          exists t', true. split; [reflexivity|]. split; [apply (volume_with t t' _ H WD)|]. split; [|split; [intros _; exact WD|discriminate]]. split; [|reflexivity]. intros _. split; [|right; exact V].
          intros q c P. apply prefix_snoc in P. destruct P as [->|P]; [congruence|]. apply (clear_dir t ds V q c P). }
      * assert (E : exists ds2, walk (rel_of cur OpCreate false) OpCreate false (map D (ds ++ [d]) ++ []) (mkWalker t three (Some (At [])) None) = Some (mkWalker t ds2 None None) \/ walk (rel_of cur OpCreate false) OpCreate false (map D (ds ++ [d]) ++ []) (mkWalker t three (Some (At [])) None) = Some (mkWalker t ds2 (Some Fake) None)).
        { rewrite M. destruct (B V) as [E|E]; [exists ds'; left; exact E|]. destruct (walk_fake (rel_of cur OpCreate false) OpCreate false t [d] ds' []) as (ds2 & _ & E2); [cbn [length]; lia|]. cbn [map app walk] in E2. exists ds2. right. rewrite E. exact E2. }
        destruct E as [ds2 [E|E]]; rewrite (node_op_dir cur OpCreate false v (ds ++ [d]) [] t _ H E); exists t, false; (split; [reflexivity|]; split; [exact H|]; split; [|split; [discriminate|reflexivity]]; split; [discriminate|]; intros [_ [Q|Q]]; [discriminate|congruence]).
Qed.

Lemma conclude_create t ds' p f : view t p = Some Dir -> exists t' n, conclude OpCreate (mkWalker t ds' (Some (At p)) (Some f)) = Some (t', Some n) /\
  (view t (p ++ [f]) = None -> with_entry t t' (p ++ [f]) (File [])) /\ (view t (p ++ [f]) <> None -> t' = t).
Proof.
  intros V. apply view_get_dir in V. destruct V as [l G]. unfold conclude. cbn [at_node file_name tree]. rewrite view_snoc, G. destruct (find f l) as [x|] eqn:E.
  - exists t, (At (p ++ [f])). split; [reflexivity|]. split; [|reflexivity]. destruct x; discriminate.
  - eexists. eexists. split; [reflexivity|]. split; [|congruence]. intros _. apply (add_entry t p l f (NFile []) G E I).
Qed.

Lemma create_file_ok cur inter v ds f es t : volume t -> length ds + 1 + length es <= 125 -> exists t1 t' b, create cur inter (file_path v ds f es) t = Some (t', b) /\ volume t' /\
  (b = true <-> clear t ds /\ (inter = true \/ view t ds = Some Dir)) /\
  (b = true -> with_directories t t1 ds /\ (view t (ds ++ [joined f es]) = None -> with_entry t1 t' (ds ++ [joined f es]) (File [])) /\ (view t (ds ++ [joined f es]) <> None -> same t t')) /\
  (b = false -> t' = t).
Proof.
  intros H L. unfold create. assert (NE : ds ++ [joined f es] <> []) by (destruct ds; discriminate). destruct inter.
  - destruct (walk_making_path cur v ds (file_comps f es) t H ltac:(lia)) as [A B]. destruct (clear_dec t ds) as [C|C].
    + destruct (A C) as (t1 & ds1 & L1 & W & E). assert (V1 : view t1 ds = Some Dir) by (apply W; exists []; rewrite app_nil_r; reflexivity).
      destruct (walk_file (rel_of cur OpCreate true) OpCreate true t1 ds V1 es ds1 f) as [ds2 E2]; [lia|]. specialize (E _ E2). unfold file_path. rewrite E.
      destruct (conclude_create t1 ds2 ds (joined f es) V1) as (t' & n & Ec & N & S_). rewrite Ec.
      assert (Vt : view t1 (ds ++ [joined f es]) = view t (ds ++ [joined f es])).
      { apply W. intros [r Er]. apply (f_equal (@length _)) in Er. rewrite !app_length in Er. cbn [length] in Er. lia. }
      rewrite Vt in N, S_. destruct (view t (ds ++ [joined f es])) as [e|] eqn:Ve.
      * (* everything is there *)
        assert (Vd : view t ds = Some Dir). { apply (view_under t ds [joined f es]); [congruence|discriminate]. }
        assert (S0 : t' = t1) by (apply S_; discriminate). subst t'.
        exists t1, t1, true. split; [reflexivity|]. split; [apply (volume_with t t1 ds H W)|]. split; [tauto|]. split; [|discriminate]. intros _. split; [exact W|]. split; [discriminate|].
        intros _ q. destruct (W q) as [W1 W2]. destruct (prefix_dec q ds) as [P|P]; [|apply W2, P]. rewrite (W1 P). destruct P as [r ->]. symmetry. apply (view_prefix t q r Vd).
      * exists t1, t', true. split; [reflexivity|]. split; [apply (volume_entry t1 t' _ _ (volume_with t t1 ds H W) NE (N eq_refl))|]. split; [tauto|]. split; [|discriminate]. intros _. split; [exact W|]. split; [exact N|congruence].
    + unfold file_path. rewrite (B C). exists t, t, false. split; [reflexivity|]. split; [exact H|]. split; [split; [discriminate|tauto]|]. split; [discriminate|reflexivity].
  - destruct (node_op_file_plain cur OpCreate false v ds f es t H L ltac:(reflexivity)) as [A B]. destruct (not_dir_cases t ds) as [V|V].
    + destruct (A V) as [ds' E]. rewrite E. destruct (conclude_create t ds' ds (joined f es) V) as (t' & n & Ec & N & S_). rewrite Ec. exists t, t', true. split; [reflexivity|].
      split. { destruct (view t (ds ++ [joined f es])) eqn:Ve; [rewrite S_ by congruence; exact H|apply (volume_entry t t' _ _ H NE (N eq_refl))]. }
      split; [split; [intros _; split; [apply clear_dir, V|right; exact V]|reflexivity]|]. split; [|discriminate]. intros _. split; [apply with_directories_refl, V|]. split; [exact N|]. intros Q. rewrite (S_ Q). intros q. reflexivity.
    + rewrite (B V). exists t, t, false. split; [reflexivity|]. split; [exact H|]. split; [split; [discriminate|intros [_ [Q|Q]]; [discriminate|congruence]]|]. split; [discriminate|reflexivity].
Qed.

(** ** Parent directories *)

Definition ptr_of (t : node) (q : list name) : ptr := match view t q with Some Dir => At q | _ => Fake end.

Inductive chain : list (list name) -> list name -> Prop :=
| chain_root k : chain (repeat [] (S k)) []
| chain_down ps cur d : chain ps cur -> chain (ps ++ [cur ++ [d]]) (cur ++ [d]).

Lemma repeat_snoc {A} (x : A) k : repeat x (S k) = repeat x k ++ [x].
Proof. induction k as [|k IH]; [reflexivity|]. cbn [repeat app] in *. rewrite <- IH. reflexivity. Qed.

Lemma chain_last ps cur : chain ps cur -> exists ps', ps = ps' ++ [cur].
Proof. intros [k|ps' c d _]; [exists (repeat [] k); apply repeat_snoc|exists ps'; reflexivity]. Qed.

Lemma nth_middle {A} (l : list A) x r : nth_error (l ++ x :: r) (length l) = Some x.
Proof. induction l; [reflexivity|assumption]. Qed.

Lemma is_dir_ptr t q : is_dir t (ptr_of t q) = true.
Proof. unfold ptr_of. destruct (view t q) as [[|c]|] eqn:V; try reflexivity. apply is_dir_at, V. Qed.

Lemma view_below_none t p d : view t p = None -> view t (p ++ [d]) = None.
Proof. intros V. apply view_no_dir. congruence. Qed.

Lemma walk_up rel inter t ps cur l : volume t -> chain ps cur -> length ps <= 128 ->
  exists ps', chain ps' (removelast cur) /\ length ps' <= length ps /\
  walk rel OpNone inter (turn_comp Up :: l) (mkWalker t (map (ptr_of t) ps) (Some (ptr_of t cur)) None) = walk rel OpNone inter l (mkWalker t (map (ptr_of t) ps') (Some (ptr_of t (removelast cur))) None).
Proof.
  intros H C L. assert (Step : forall (n : nat) before after q, n = length before -> (if 2 <? length ps then length ps - 2 else 0) = n -> ps = before ++ q :: after -> length before < 128 -> walk rel OpNone inter (turn_comp Up :: l) (mkWalker t (map (ptr_of t) ps) (Some (ptr_of t cur)) None) = walk rel OpNone inter l (mkWalker t (map (ptr_of t) (before ++ [q])) (Some (ptr_of t q)) None)).
  { intros n before after q En Ei Ep Lb. cbn [walk turn_comp component_step fst at_node tree dirs file_name]. rewrite map_length, Ei, En, Ep, map_app. cbn [map]. rewrite <- (map_length (ptr_of t) before), nth_middle, firstn_app_exact. cbn [at_node tree dirs file_name]. unfold push. cbn [at_node tree dirs file_name]. rewrite is_dir_ptr.
    rewrite map_length. destruct (Nat.ltb_spec (length before) 128); [|lia]. rewrite map_app. reflexivity. }
  destruct C as [k|ps0 c d C].
  - rewrite repeat_length in *. cbn [removelast]. destruct k as [|[|k]].
    + exists (repeat [] 1). split; [apply chain_root|]. split; [cbn; lia|]. rewrite (Step 0 [] [] []); [reflexivity|reflexivity|reflexivity|reflexivity|cbn [length]; lia].
    + exists (repeat [] 1). split; [apply chain_root|]. split; [cbn; lia|]. rewrite (Step 0 [] [[]] []); [reflexivity|reflexivity|reflexivity|reflexivity|cbn [length]; lia].
    + exists (repeat [] (S (S k))). split; [apply chain_root|]. split; [rewrite repeat_length; lia|]. rewrite (Step (S k) (repeat [] (S k)) [[]] []); [|rewrite repeat_length; reflexivity| | |rewrite repeat_length; lia].
      * rewrite <- repeat_snoc. reflexivity.
      * destruct (Nat.ltb_spec 2 (S (S (S k)))); lia.
      * rewrite (repeat_snoc _ (S (S k))), (repeat_snoc _ (S k)), <- app_assoc. reflexivity.
  - rewrite removelast_last. destruct (chain_last ps0 c C) as [p0 ->]. exists (p0 ++ [c]). split; [exact C|]. rewrite !app_length in *. cbn [length] in *. split; [lia|]. apply (Step (length p0) p0 [c ++ [d]] c); [reflexivity| |rewrite <- app_assoc; reflexivity|lia].
    destruct (Nat.ltb_spec 2 (length p0 + 1 + 1)); lia.
Qed.

Lemma walk_turns rel inter t : volume t -> forall xs ps cur, chain ps cur -> length ps + length xs <= 128 ->
  (forall ys zs c, xs = ys ++ zs -> view t (destination cur ys) <> Some (File c)) ->
  exists ds, walk rel OpNone inter (map turn_comp xs) (mkWalker t (map (ptr_of t) ps) (Some (ptr_of t cur)) None) = Some (mkWalker t ds (Some (ptr_of t (destination cur xs))) None).
Proof.
  intros H. induction xs as [|x xs IH]; intros ps cur C L NF; cbn [length] in L.
  - exists (map (ptr_of t) ps). reflexivity.
  - assert (NF' : forall ys zs c, xs = ys ++ zs -> view t (destination (follow cur x) ys) <> Some (File c)).
    { intros ys zs c ->. apply (NF (x :: ys) zs c eq_refl). }
    destruct x as [d|].
    + cbn [follow] in NF'. assert (C' : chain (ps ++ [cur ++ [d]]) (cur ++ [d])) by (constructor; exact C).
      destruct (IH (ps ++ [cur ++ [d]]) (cur ++ [d]) C') as [ds E]; [rewrite app_length; cbn [length]; lia|exact NF'|]. exists ds. change (destination cur (Down d :: xs)) with (destination (cur ++ [d]) xs). rewrite <- E, map_app. cbn [map].
      change (turn_comp (Down d)) with (D d). pose proof (NF' [] xs) as NFd. cbn [destination fold_left app] in NFd. unfold ptr_of at 2. destruct (view t cur) as [[|c]|] eqn:V.
      * unfold ptr_of at 3 4. destruct (view t (cur ++ [d])) as [[|c]|] eqn:Vd.
        { pose proof Vd as Vd0. apply view_get_dir in Vd. destruct Vd as [y G]. apply (walk_down_dir rel OpNone inter t _ cur d _ y V G). rewrite map_length. lia. }
        { elim (NFd c eq_refl eq_refl). }
        { apply (walk_down_none rel OpNone inter t _ cur d _ V Vd eq_refl). rewrite map_length. lia. }
      * elim (NF [] (Down d :: xs) c eq_refl V).
      * unfold ptr_of at 3 4. rewrite (view_below_none t cur d V). cbn [walk component_step D fst at_node]. unfold push. cbn [at_node is_dir dirs tree file_name]. rewrite map_length. destruct (Nat.ltb_spec (length ps) 128); [reflexivity|lia].
    + destruct (walk_up rel inter t ps cur (map turn_comp xs) H C ltac:(lia)) as (ps' & C' & L' & E). cbn [map]. rewrite E. destruct (IH ps' (removelast cur) C' ltac:(lia) NF') as [ds E2]. exists ds. exact E2.
Qed.

Lemma exists_turns_ok cur v xs t : volume t -> length xs <= 125 -> (forall ys zs c, xs = ys ++ zs -> view t (destination [] ys) <> Some (File c)) ->
  exists b, exists_ cur (turn_path v xs) t = Some b /\ (b = true <-> view t (destination [] xs) = Some Dir).
Proof.
  intros H L NF. unfold exists_, turn_path. assert (P0 : ptr_of t [] = At []) by (unfold ptr_of; rewrite H; reflexivity).
  destruct (walk_turns (rel_of cur OpNone false) false t H xs (repeat [] 3) [] (chain_root 2)) as [ds E]; [cbn [repeat length]; lia|exact NF|]. cbn [repeat map] in E. rewrite P0 in E.
  change (map turn_comp xs) with (map D [] ++ map turn_comp xs) in E. rewrite (node_op_dir cur OpNone false v [] (map turn_comp xs) t _ H E). unfold conclude, ptr_of. cbn [at_node file_name tree].
  destruct (view t (destination [] xs)) as [[|c]|]; eexists; (split; [reflexivity|]); split; congruence.
Qed.

(** ** Relative paths *)

Lemma relative_ok v cs ds t : volume t -> length cs + length ds <= 124 ->
  exists b, exists_ (dir_path v cs) ((PathModel.RelativeRoot, None) :: map D ds) t = Some b /\ (b = true <-> view t (cs ++ ds) = Some Dir).
Proof.
  intros H L. unfold exists_, node_op, node_op_in at 1. cbn [length Nat.ltb Nat.leb walk component_step fst at_node tree dirs file_name].
  destruct (walk_plain (fun _ _ => None) OpNone false t [] ltac:(discriminate) cs three [] H) as (ds1 & L1 & A & B); [cbn [three length]; lia|]. cbn [three length] in L1. rewrite app_nil_l in A, B.
  unfold node_op_in at 1. cbn [length Nat.ltb Nat.leb]. rewrite dir_path_nil, start_walk by exact H. fold three.
  destruct (not_dir_cases t cs) as [V|V].
  - rewrite (A V). cbn [walk]. unfold conclude at 1. cbn [at_node file_name tree dirs]. unfold push. cbn [at_node file_name tree dirs]. rewrite (proj2 (is_dir_at t cs) V). destruct (Nat.ltb_spec (length ds1) 128); [|lia].
    set (rel := node_op_in _ _ _ _). destruct (walk_plain rel OpNone false t [] ltac:(discriminate) ds (ds1 ++ [At cs]) cs V) as (ds2 & L2 & A2 & B2); [rewrite app_length; cbn [length]; lia|]. rewrite app_nil_r in A2, B2.
    destruct (not_dir_cases t (cs ++ ds)) as [V2|V2].
    + rewrite (A2 V2). eexists. split; [reflexivity|]. tauto.
    + destruct (B2 V2) as [E|E]; rewrite E; eexists; (split; [reflexivity|]; split; [discriminate|tauto]).
  - assert (V2 : view t (cs ++ ds) <> Some Dir) by (intros Q; apply V, (view_prefix t cs ds Q)).
    destruct (B V) as [E|E]; rewrite E; eexists; (split; [reflexivity|]; split; [discriminate|tauto]).
Qed.
