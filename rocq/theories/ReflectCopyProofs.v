From Verif Require Import Base ReflectTypeModel ReflectCopyModel ReflectCopySpec.
Local Open Scope N_scope.

(** ** The value is where it was *)

Lemma tree_list_mono (f g : type_id -> datum -> option tree) : forall ts vs xs,
  tree_list f ts vs = Some xs -> (forall t v x, f t v = Some x -> In x xs -> g t v = Some x) -> tree_list g ts vs = Some xs.
Proof.
  induction ts as [|t ts IH]; intros [|v vs] xs E H; cbn [tree_list] in *; try discriminate; try exact E.
  destruct (f t v) as [x|] eqn:Ef; [|discriminate]. destruct (tree_list f ts vs) as [ys|] eqn:El; [|discriminate]. injection E as <-.
  rewrite (H t v x Ef (or_introl eq_refl)). rewrite (IH vs ys El); [reflexivity|]. intros t' v' x' E' I. apply (H t' v' x' E'). right. exact I.
Qed.

Definition reached (x : tree) := objects x ++ retained x.

Lemma reached_list xs x : In x xs -> incl (reached x) (flat_map objects xs ++ flat_map retained xs).
Proof.
  intros I a Ha. unfold reached in Ha. apply in_app_iff in Ha. apply in_app_iff. destruct Ha as [Ha|Ha]; [left|right]; apply in_flat_map; eauto.
Qed.

Definition keeps (l : list addr) (heap heap' : list object) : Prop :=
  forall a o, In a l -> nth_error heap a = Some o -> exists o', nth_error heap' a = Some o' /\ content o' = content o.

Lemma keeps_incl l l' heap heap' : incl l l' -> keeps l' heap heap' -> keeps l heap heap'.
Proof. intros I K a o Ha. apply K. apply I. exact Ha. Qed.

Section Trees.
Variables (env : type_id -> layout) (followed : ownership -> bool).

Lemma tree_stable : forall depth t v heap heap' x,
  tree_of env followed depth t v heap = Some x -> keeps (reached x) heap heap' -> tree_of env followed depth t v heap' = Some x.
Proof.
  induction depth as [|depth IH]; intros t v heap heap' x E K; [discriminate|]. cbn [tree_of] in *.
  assert (L : forall ts vs xs, tree_list (fun t v => tree_of env followed depth t v heap) ts vs = Some xs -> keeps (flat_map objects xs ++ flat_map retained xs) heap heap' -> tree_list (fun t v => tree_of env followed depth t v heap') ts vs = Some xs).
  { intros ts vs xs El Kl. eapply tree_list_mono; [exact El|]. intros t' v' x' E' I. apply (IH _ _ heap); [exact E'|]. eapply keeps_incl; [apply reached_list, I|exact Kl]. }
  destruct (env t) as [size|ts|t' count|[t'|] o|t'], v as [bs|vs|[a|]|vs|]; try discriminate; try exact E.
  - destruct (tree_list _ ts vs) as [xs|] eqn:El; [|discriminate]. injection E as <-. rewrite (L _ _ _ El K). reflexivity.
  - destruct (tree_list _ (repeat t' count) vs) as [xs|] eqn:El; [|discriminate]. injection E as <-. rewrite (L _ _ _ El K). reflexivity.
  - destruct (followed o) eqn:F.
    + destruct (nth_error heap a) as [ob|] eqn:Ea; [|discriminate]. destruct (tree_of env followed depth t' (content ob) heap) as [y|] eqn:Ey; [|discriminate]. injection E as <-.
      destruct (K a ob (or_introl eq_refl) Ea) as (ob' & Ea' & C). rewrite Ea', C. rewrite (IH _ _ heap heap' y Ey); [reflexivity|]. eapply keeps_incl; [|exact K]. intros z Hz. right. exact Hz.
    + destruct o; try exact E. destruct (nth_error heap a) as [ob|] eqn:Ea; [|discriminate]. injection E as <-. destruct (K a ob (or_introl eq_refl) Ea) as (ob' & Ea' & C). rewrite Ea'. reflexivity.
  - destruct o; try exact E. destruct (nth_error heap a) as [ob|] eqn:Ea; [|discriminate]. injection E as <-. destruct (K a ob (or_introl eq_refl) Ea) as (ob' & Ea' & C). rewrite Ea'. reflexivity.
  - destruct (tree_list _ _ vs) as [xs|] eqn:El; [|discriminate]. injection E as <-. rewrite (L _ _ _ El K). reflexivity.
Qed.

Lemma tree_list_all (f : type_id -> datum -> option tree) (P : tree -> Prop) : (forall t v x, f t v = Some x -> P x) ->
  forall ts vs xs, tree_list f ts vs = Some xs -> Forall P xs.
Proof.
  clear. intros H. induction ts as [|t ts IH]; intros [|v vs] xs E; cbn [tree_list] in *; try discriminate; [injection E as <-; constructor|].
  destruct (f t v) as [x|] eqn:Ef; [|discriminate]. destruct (tree_list f ts vs) as [ys|] eqn:El; [|discriminate]. injection E as <-. constructor; eauto.
Qed.

Lemma tree_reached : forall depth t v heap x, tree_of env followed depth t v heap = Some x -> Forall (fun a => (a < length heap)%nat) (reached x).
Proof.
  assert (FM : forall (P : addr -> Prop) xs, Forall (fun x => Forall P (reached x)) xs -> Forall P (flat_map objects xs ++ flat_map retained xs)).
  { clear. intros P xs H. rewrite Forall_forall in H. apply Forall_forall. intros a I. apply in_app_iff in I. destruct I as [I|I]; apply in_flat_map in I; destruct I as (x & Ix & Ia); pose proof (H x Ix) as Hx; rewrite Forall_forall in Hx; apply Hx; apply in_app_iff; auto. }
  induction depth as [|depth IH]; intros t v heap x E; [discriminate|]. cbn [tree_of] in E.
  assert (L : forall ts vs xs, tree_list (fun t v => tree_of env followed depth t v heap) ts vs = Some xs -> Forall (fun a => (a < length heap)%nat) (flat_map objects xs ++ flat_map retained xs)).
  { intros ts vs xs El. apply FM. eapply tree_list_all; [|exact El]. intros t' v' x' E'. apply (IH _ _ _ _ E'). }
  destruct (env t) as [size|ts|t' count|[t'|] o|t'], v as [bs|vs|[a|]|vs|]; try discriminate.
  - destruct (length bs =? size)%nat; [|discriminate]. injection E as <-. constructor.
  - destruct (tree_list _ ts vs) as [xs|] eqn:El; [|discriminate]. injection E as <-. apply (L _ _ _ El).
  - destruct (tree_list _ _ vs) as [xs|] eqn:El; [|discriminate]. injection E as <-. apply (L _ _ _ El).
  - destruct (followed o) eqn:F.
    + destruct (nth_error heap a) as [ob|] eqn:Ea; [|discriminate]. destruct (tree_of env followed depth t' (content ob) heap) as [y|] eqn:Ey; [|discriminate]. injection E as <-.
      constructor; [apply (nth_error_Some_lt _ _ _ Ea)|]. apply (IH _ _ _ _ Ey).
    + destruct o; try (injection E as <-; constructor). destruct (nth_error heap a) as [ob|] eqn:Ea; [|discriminate]. injection E as <-. constructor; [apply (nth_error_Some_lt _ _ _ Ea)|constructor].
  - injection E as <-. constructor.
  - destruct o; try (injection E as <-; constructor). destruct (nth_error heap a) as [ob|] eqn:Ea; [|discriminate]. injection E as <-. constructor; [apply (nth_error_Some_lt _ _ _ Ea)|constructor].
  - injection E as <-. constructor.
  - destruct (tree_list _ _ vs) as [xs|] eqn:El; [|discriminate]. injection E as <-. apply (L _ _ _ El).
Qed.

End Trees.

(** ** Reference counts *)

Lemma references_none heap heap' : references_added [] heap heap' -> forall a o, nth_error heap a = Some o -> nth_error heap' a = Some o.
Proof. intros R a [r c] E. rewrite (R a _ E). cbn. rewrite N.add_0_r. reflexivity. Qed.

Lemma references_refl heap : references_added [] heap heap.
Proof. intros a [r c] E. cbn. rewrite N.add_0_r. exact E. Qed.

Lemma references_trans l1 l2 heap heap1 heap2 : references_added l1 heap heap1 -> references_added l2 heap1 heap2 -> references_added (l1 ++ l2) heap heap2.
Proof.
  intros R1 R2 a o E. rewrite (R2 a _ (R1 a o E)). cbn [refs content]. rewrite count_occ_app, Nat2N.inj_add, N.add_assoc. reflexivity.
Qed.

Lemma references_keeps l l' heap heap' : references_added l heap heap' -> keeps l' heap heap'.
Proof. intros R a o _ E. rewrite (R a o E). eexists. split; reflexivity. Qed.

Lemma references_length l heap heap' : references_added l heap heap' -> (length heap <= length heap')%nat.
Proof.
  intros R. destruct (Nat.le_gt_cases (length heap) (length heap')) as [|G]; [assumption|].
  destruct (nth_error_lt_Some heap (length heap') G) as (o & E). pose proof (nth_error_Some_lt _ _ _ (R _ _ E)). lia.
Qed.

Lemma references_snoc heap o : references_added [] heap (heap ++ [o]).
Proof. intros a [r c] E. cbn. rewrite N.add_0_r. rewrite nth_error_app1; [exact E|]. apply (nth_error_Some_lt _ _ _ E). Qed.

Lemma retain_ok a heap : (a < length heap)%nat -> exists heap', retain a heap = Some heap' /\ references_added [a] heap heap' /\ length heap' = length heap.
Proof.
  intros L. unfold retain. destruct (nth_error_lt_Some heap a L) as (o & E). rewrite E. eexists. split; [reflexivity|]. split; [|apply upd_length].
  intros b ob Eb. cbn [count_occ]. destruct (Nat.eq_dec a b) as [<-|D].
  - rewrite nth_error_upd_eq by assumption. rewrite E in Eb. injection Eb as ->. reflexivity.
  - rewrite nth_error_upd_ne by assumption. rewrite Eb. destruct ob as [r c]. cbn. rewrite N.add_0_r. reflexivity.
Qed.

(** ** Values without elements *)

Fixpoint no_elements (v : datum) : Prop :=
  match v with
  | Raw _ | Ptr _ | Gone => True
  | Group vs => fold_right (fun v P => no_elements v /\ P) True vs
  | Enumerated vs => vs = []
  end.

Fixpoint give_back_none (v : datum) {struct v} : no_elements v -> give_back v = v.
Proof.
  destruct v as [bs|vs|p|vs|]; intros H; cbn [give_back]; try reflexivity.
  - f_equal. revert vs H. fix IH 1. intros [|v vs] H; [reflexivity|]. cbn [map]. cbn in H. rewrite (give_back_none v (proj1 H)). rewrite (IH vs (proj2 H)). reflexivity.
  - cbn in H. subst vs. reflexivity.
Qed.

Definition new_plain (heap heap' : list object) := forall a o, (length heap <= a)%nat -> nth_error heap' a = Some o -> no_elements (content o).

Lemma give_back_heap heap heap' : (length heap <= length heap')%nat -> new_plain heap heap' -> firstn (length heap) heap' ++ map give_back_object (skipn (length heap) heap') = heap'.
Proof.
  intros L N. transitivity (firstn (length heap) heap' ++ skipn (length heap) heap'); [|apply firstn_skipn]. f_equal.
  rewrite <- (map_id (skipn (length heap) heap')) at 2. apply map_ext_in. intros o I. apply In_nth_error in I. destruct I as (n & E). rewrite nth_error_skipn in E.
  unfold give_back_object. rewrite give_back_none; [destruct o; reflexivity|]. eapply N; [|exact E]. lia.
Qed.

Lemma fold_Forall {A} (P : A -> Prop) l : fold_right (fun x Q => P x /\ Q) True l <-> Forall P l.
Proof. induction l as [|x l IH]; cbn; [split; constructor|]. rewrite IH. split; [intros [? ?]; constructor; assumption|intros H; inversion H; auto]. Qed.

Fixpoint bare_shallow (x : tree) {struct x} : bare x -> shallow x.
Proof.
  destruct x as [bs|xs| |o a|o a|a x|xs]; intros H; cbn [bare shallow] in *; try exact I.
  - revert xs H. fix IH 1. intros [|x xs] H; [exact I|]. cbn in *. split; [apply bare_shallow, H|apply IH, H].
  - apply bare_shallow, H.
  - subst xs. exact I.
Qed.

(** The objects a value holds references to are part of its contents. *)
Fixpoint references (c : contents) : list addr :=
  match c with
  | CVoid Retain a | CReference Retain a => [a]
  | CLeaf _ | CNull | CVoid _ _ | CReference _ _ => []
  | CNode cs | CSequence cs => flat_map references cs
  | COwned c => references c
  end.

Fixpoint retained_references (x : tree) {struct x} : retained x = references (contents_of x).
Proof.
  destruct x as [bs|xs| |o a|o a|a x|xs]; cbn [retained references contents_of]; try reflexivity; try apply retained_references.
  - revert xs. fix IH 1. intros [|x xs]; [reflexivity|]. cbn. f_equal; [apply retained_references|apply IH].
  - revert xs. fix IH 1. intros [|x xs]; [reflexivity|]. cbn. f_equal; [apply retained_references|apply IH].
Qed.

Lemma retained_same x x' : contents_of x' = contents_of x -> retained x' = retained x.
Proof. intros E. rewrite !retained_references. rewrite E. reflexivity. Qed.

Lemma count_occ_none (l : list addr) a : ~ In a l -> count_occ Nat.eq_dec l a = O.
Proof. apply count_occ_not_In. Qed.

Lemma NoDup_app_intro {A} (l m : list A) : NoDup l -> NoDup m -> (forall x, In x l -> ~ In x m) -> NoDup (l ++ m).
Proof.
  induction l as [|y l IH]; cbn; intros Hl Hm Hd; auto. inversion Hl; subst. constructor.
  - rewrite in_app_iff. intros [H|H]; [contradiction|]. apply (Hd y); auto.
  - apply IH; auto.
Qed.

(** ** Copies *)

Section Copy.
Variables (env : type_id -> layout) (how : assignment) (weak_too : bool).
Hypothesis some_copying : how <> ATransfer \/ weak_too = true.

Lemma follows_is o : follows how weak_too o = gets_copy how weak_too o.
Proof using. clear. now destruct how, o. Qed.

Definition tree_at (depth : nat) (heap : list object) : type_id -> datum -> option tree := fun t v => tree_of env (gets_copy how weak_too) depth t v heap.

Definition copied (depth : nat) : Prop := forall t v heap x,
  tree_at depth heap t v = Some x -> shallow x ->
  exists v' heap' x', copy env how weak_too depth t v heap = Some (v', heap') /\ tree_at depth heap' t v' = Some x' /\ contents_of x' = contents_of x /\
    references_added (retained x) heap heap' /\ owns_new x' heap heap' /\ (bare x -> no_elements v' /\ new_plain heap heap').

Lemma owns_nothing x heap heap' : objects x = [] -> length heap' = length heap -> owns_new x heap heap'.
Proof.
  clear. intros E L. unfold owns_new. rewrite E. split; [constructor|]. split; [intros a; split; [intros []|lia]|]. intros a o G Ha. apply nth_error_Some_lt in Ha. lia.
Qed.

Lemma plain_nothing heap heap' : length heap' = length heap -> new_plain heap heap'.
Proof. clear. intros L a o G Ha. apply nth_error_Some_lt in Ha. lia. Qed.

Lemma copy_list_ok depth : copied depth -> forall in_zone ts vs heap xs,
  tree_list (tree_at depth heap) ts vs = Some xs -> Forall shallow xs -> (in_zone = true -> Forall bare xs) ->
  exists vs' heap' xs', copy_list (copy env how weak_too depth) in_zone ts vs heap = Some (vs', heap') /\ tree_list (tree_at depth heap') ts vs' = Some xs' /\
    map contents_of xs' = map contents_of xs /\ references_added (flat_map retained xs) heap heap' /\ owns_new (Node xs') heap heap' /\
    (Forall bare xs -> Forall no_elements vs' /\ new_plain heap heap').
Proof.
  intros C in_zone. induction ts as [|t ts IH]; intros [|v vs] heap xs E Sh Zn; cbn [tree_list] in E; try discriminate.
  - injection E as <-. exists [], heap, []. cbn [copy_list tree_list map flat_map]. split; [reflexivity|]. split; [reflexivity|]. split; [reflexivity|]. split; [apply references_refl|]. split; [apply owns_nothing; reflexivity|]. intros _. split; [constructor|apply plain_nothing; reflexivity].
  - destruct (tree_at depth heap t v) as [x|] eqn:Ex; [|discriminate]. destruct (tree_list (tree_at depth heap) ts vs) as [ys|] eqn:Ey; [|discriminate]. injection E as <-.
    inversion Sh as [|? ? Sx Sy]; subst. destruct (C t v heap x Ex Sx) as (v' & heap1 & x' & E1 & T1 & K1 & R1 & O1 & B1).
    assert (El : tree_list (tree_at depth heap1) ts vs = Some ys).
    { eapply tree_list_mono; [exact Ey|]. intros t' v'' x'' E'' _. eapply tree_stable; [exact E''|]. eapply references_keeps. exact R1. }
    destruct (IH vs heap1 ys El Sy) as (vs' & heap2 & ys' & E2 & T2 & K2 & R2 & O2 & B2). { intros Z. specialize (Zn Z). inversion Zn. assumption. }
    pose proof (references_length _ _ _ R1) as L1. pose proof (references_length _ _ _ R2) as L2.
    exists (v' :: vs'), heap2, (x' :: ys'). cbn [copy_list]. rewrite E1.
    assert (G : (if in_zone then (give_back v', firstn (length heap) heap1 ++ map give_back_object (skipn (length heap) heap1)) else (v', heap1)) = (v', heap1)).
    { destruct in_zone; [|reflexivity]. specialize (Zn eq_refl). inversion Zn as [|? ? Bx By]; subst. destruct (B1 Bx) as [Nv Np]. rewrite give_back_none by assumption. rewrite give_back_heap by assumption. reflexivity. }
    rewrite G, E2. split; [reflexivity|]. split.
    { cbn [tree_list]. assert (T : tree_at depth heap2 t v' = Some x') by (eapply tree_stable; [exact T1|eapply references_keeps; exact R2]). rewrite T, T2. reflexivity. }
    split; [cbn [map]; rewrite K1, K2; reflexivity|]. split; [cbn [flat_map]; eapply references_trans; eassumption|].
    destruct O1 as (D1 & I1 & F1), O2 as (D2 & I2 & F2). cbn [objects] in D2, I2.
    assert (Old : forall a, In a (flat_map retained ys) -> (a < length heap)%nat).
    { intros a Ia. apply in_flat_map in Ia. destruct Ia as (y & Iy & Ia). assert (H : Forall (fun y => Forall (fun a => (a < length heap)%nat) (reached y)) ys) by (eapply tree_list_all; [|exact Ey]; intros t' v'' x'' E''; eapply tree_reached; exact E'').
      rewrite Forall_forall in H. specialize (H y Iy). rewrite Forall_forall in H. apply H. unfold reached. apply in_app_iff. right. exact Ia. }
    split.
    + split; [|split].
      * cbn [objects flat_map]. apply NoDup_app_intro; [exact D1|exact D2|]. intros a H1 H2. apply I1 in H1. apply I2 in H2. lia.
      * intros a. cbn [objects flat_map]. rewrite in_app_iff, I1, I2. lia.
      * intros a o Ga Ha. destruct (Nat.lt_ge_cases a (length heap1)) as [La|La]; [|apply (F2 a o La Ha)].
        destruct (nth_error_lt_Some heap1 a La) as (o1 & Eo). rewrite (R2 a o1 Eo) in Ha. injection Ha as <-. cbn [refs]. rewrite (F1 a o1 Ga Eo). rewrite count_occ_none; [reflexivity|]. intros Ia. apply Old in Ia. lia.
    + intros B. inversion B as [|? ? Bx By]; subst. destruct (B1 Bx) as [Nv Np]. destruct (B2 By) as [Nvs Nps]. split; [constructor; assumption|].
      intros a o Ga Ha. destruct (Nat.lt_ge_cases a (length heap1)) as [La|La]; [|apply (Nps a o La Ha)].
      destruct (nth_error_lt_Some heap1 a La) as (o1 & Eo). rewrite (R2 a o1 Eo) in Ha. injection Ha as <-. cbn [content]. apply (Np a o1 Ga Eo).
Qed.

Lemma copy_ok : forall depth, copied depth.
Proof.
  induction depth as [|depth IH]; intros t v heap x E Sh; [discriminate|]. unfold tree_at in E. cbn [tree_of] in E. unfold tree_at. cbn [copy tree_of].
  assert (Nz : forall (A : Type) (p q : A), match how, weak_too with ATransfer, false => p | _, _ => q end = q).
  { intros A p q. destruct how, weak_too, some_copying; try reflexivity; try discriminate; congruence. }
  assert (Keep : forall (a : addr) (o : ownership), exists heap' : list object, (o = Retain -> (a < length heap)%nat) ->
    (match o with Retain => let? heap := retain a heap in Some (Ptr (Some a), heap) | _ => Some (Ptr (Some a), heap) end) = Some (Ptr (Some a), heap') /\
    references_added (match o with Retain => [a] | _ => [] end) heap heap' /\ length heap' = length heap).
  { intros a o. destruct o; try (exists heap; intros _; split; [reflexivity|]; split; [apply references_refl|reflexivity]).
    destruct (Nat.lt_ge_cases a (length heap)) as [L|L]; [|exists heap; intros H; specialize (H eq_refl); lia].
    destruct (retain_ok a heap L) as (heap' & E' & R & L'). exists heap'. intros _. rewrite E'. split; [reflexivity|]. split; assumption. }
  destruct (env t) as [size|ts|t' count|[t'|] o|t'] eqn:Et, v as [bs|vs|[a|]|vs|]; try discriminate.
  - destruct (length bs =? size)%nat eqn:Ls; [|discriminate]. injection E as <-. exists (Raw bs), heap, (Leaf bs). rewrite Ls. repeat (split; [reflexivity|]). split; [apply references_refl|]. split; [apply owns_nothing; reflexivity|]. intros _. split; [exact I|apply plain_nothing; reflexivity].
  - destruct (tree_list _ ts vs) as [xs|] eqn:El; [|discriminate]. injection E as <-. cbn [shallow] in Sh. apply fold_Forall in Sh.
    destruct (copy_list_ok depth IH false ts vs heap xs El Sh) as (vs' & heap' & xs' & Ec & T & K & R & O & B); [discriminate|]. exists (Group vs'), heap', (Node xs'). rewrite Ec. split; [reflexivity|]. unfold tree_at in T. rewrite T. split; [reflexivity|]. split; [cbn [contents_of]; rewrite K; reflexivity|]. split; [exact R|]. split; [exact O|].
    cbn [bare no_elements]. intros Bx. apply fold_Forall in Bx. destruct (B Bx) as [N1 N2]. split; [apply fold_Forall, N1|exact N2].
  - destruct (tree_list _ (repeat t' count) vs) as [xs|] eqn:El; [|discriminate]. injection E as <-. cbn [shallow] in Sh. apply fold_Forall in Sh.
    destruct (copy_list_ok depth IH false (repeat t' count) vs heap xs El Sh) as (vs' & heap' & xs' & Ec & T & K & R & O & B); [discriminate|]. exists (Group vs'), heap', (Node xs'). rewrite Ec. split; [reflexivity|]. unfold tree_at in T. rewrite T. split; [reflexivity|]. split; [cbn [contents_of]; rewrite K; reflexivity|]. split; [exact R|]. split; [exact O|].
    cbn [bare no_elements]. intros Bx. apply fold_Forall in Bx. destruct (B Bx) as [N1 N2]. split; [apply fold_Forall, N1|exact N2].
  - rewrite Nz, follows_is. destruct (gets_copy how weak_too o) eqn:F.
    + destruct (nth_error heap a) as [ob|] eqn:Ea; [|discriminate]. destruct (tree_of env (gets_copy how weak_too) depth t' (content ob) heap) as [y|] eqn:Ey; [|discriminate]. injection E as <-. cbn [shallow] in Sh.
      assert (Ey' : tree_at depth (heap ++ [mkObject 1 Gone]) t' (content ob) = Some y) by (eapply tree_stable; [exact Ey|eapply references_keeps, references_snoc]).
      destruct (IH _ _ _ _ Ey' Sh) as (v' & heap' & y' & Ec & T & K & R & O & B).
      pose proof (references_length _ _ _ R) as L. rewrite app_length in L. cbn [length] in L. destruct O as (D & In1 & F1). rewrite app_length in In1, F1. cbn [length] in In1, F1.
      assert (Old : forall b, In b (retained y) -> (b < length heap)%nat).
      { pose proof (tree_reached _ _ _ _ _ _ _ Ey) as H. rewrite Forall_forall in H. intros b Ib. apply H. apply in_app_iff. right. exact Ib. }
      set (heap2 := upd heap' (length heap) (mkObject 1 v')). assert (L2 : length heap2 = length heap') by apply upd_length.
      assert (At : nth_error heap2 (length heap) = Some (mkObject 1 v')) by (apply nth_error_upd_eq; lia).
      exists (Ptr (Some (length heap))), heap2, (Owned (length heap) y'). rewrite Ec. split; [reflexivity|]. rewrite At. cbn [content].
      assert (T2 : tree_of env (gets_copy how weak_too) depth t' v' heap2 = Some y').
      { eapply tree_stable; [exact T|]. intros b ob' Ib Eb. assert (b <> length heap).
        { apply in_app_iff in Ib. destruct Ib as [Ib|Ib]; [apply In1 in Ib; lia|]. rewrite (retained_same _ _ K) in Ib. apply Old in Ib. lia. }
        exists ob'. split; [|reflexivity]. unfold heap2. rewrite nth_error_upd_ne by congruence. exact Eb. }
      rewrite T2. split; [reflexivity|]. split; [cbn [contents_of]; rewrite K; reflexivity|]. split; [|split; [split; [|split]|]].
      * cbn [retained]. intros b ob' Eb. pose proof (nth_error_Some_lt _ _ _ Eb). unfold heap2. rewrite nth_error_upd_ne by lia. apply R. rewrite nth_error_app1 by assumption. exact Eb.
      * cbn [objects]. constructor; [|exact D]. intros Ia. apply In1 in Ia. lia.
      * intros b. cbn [objects In]. rewrite In1, L2. lia.
      * intros b ob' Gb Eb. destruct (Nat.eq_dec b (length heap)) as [->|Nb]; [rewrite At in Eb; injection Eb as <-; reflexivity|]. unfold heap2 in Eb. rewrite nth_error_upd_ne in Eb by congruence. apply (F1 b ob'); [lia|exact Eb].
      * cbn [bare no_elements]. intros By. destruct (B By) as [N1 N2]. split; [exact I|]. intros b ob' Gb Eb. destruct (Nat.eq_dec b (length heap)) as [->|Nb]; [rewrite At in Eb; injection Eb as <-; exact N1|]. unfold heap2 in Eb. rewrite nth_error_upd_ne in Eb by congruence. apply (N2 b ob'); [rewrite app_length; cbn [length]; lia|exact Eb].
    + destruct (Keep a o) as (heap' & H). assert (V : o = Retain -> (a < length heap)%nat).
      { intros ->. destruct (nth_error heap a) as [ob|] eqn:Ea; [apply (nth_error_Some_lt _ _ _ Ea)|discriminate]. }
      destruct (H V) as (Ek & R & L). rewrite Ek. assert (x = Reference o a) as -> by (destruct o; try (injection E as <-; reflexivity); destruct (nth_error heap a); [injection E as <-; reflexivity|discriminate]).
      exists (Ptr (Some a)), heap', (Reference o a). split; [reflexivity|]. split.
      { destruct o; try reflexivity. destruct (nth_error_lt_Some heap' a) as (ob & Eo); [rewrite L; apply V; reflexivity|]. rewrite Eo. reflexivity. }
      split; [reflexivity|]. split; [destruct o; exact R|]. split; [apply owns_nothing; [reflexivity|exact L]|]. intros _. split; [exact I|apply plain_nothing, L].
  - injection E as <-. exists (Ptr None), heap, Null. repeat (split; [reflexivity|]). split; [apply references_refl|]. split; [apply owns_nothing; reflexivity|]. intros _. split; [exact I|apply plain_nothing; reflexivity].
  - rewrite Nz. destruct (Keep a o) as (heap' & H). assert (V : o = Retain -> (a < length heap)%nat).
    { intros ->. destruct (nth_error heap a) as [ob|] eqn:Ea; [apply (nth_error_Some_lt _ _ _ Ea)|discriminate]. }
    destruct (H V) as (Ek & R & L). rewrite Ek. assert (x = Void o a) as -> by (destruct o; try (injection E as <-; reflexivity); destruct (nth_error heap a); [injection E as <-; reflexivity|discriminate]).
    exists (Ptr (Some a)), heap', (Void o a). split; [reflexivity|]. split.
    { destruct o; try reflexivity. destruct (nth_error_lt_Some heap' a) as (ob & Eo); [rewrite L; apply V; reflexivity|]. rewrite Eo. reflexivity. }
    split; [reflexivity|]. split; [destruct o; exact R|]. split; [apply owns_nothing; [reflexivity|exact L]|]. intros _. split; [exact I|apply plain_nothing, L].
  - injection E as <-. exists (Ptr None), heap, Null. repeat (split; [reflexivity|]). split; [apply references_refl|]. split; [apply owns_nothing; reflexivity|]. intros _. split; [exact I|apply plain_nothing; reflexivity].
  - destruct (tree_list _ (map (fun _ => t') vs) vs) as [xs|] eqn:El; [|discriminate]. injection E as <-. cbn [shallow] in Sh. apply fold_Forall in Sh.
    destruct (copy_list_ok depth IH true (map (fun _ => t') vs) vs heap xs El) as (vs' & heap' & xs' & Ec & T & K & R & O & B); [eapply Forall_impl; [|exact Sh]; apply bare_shallow|intros _; exact Sh|].
    exists (Enumerated vs'), heap', (Sequence xs'). rewrite Ec. split; [reflexivity|].
    assert (M : map (fun _ : datum => t') vs' = map (fun _ : datum => t') vs).
    { clear - Ec. revert vs' heap heap' Ec. induction vs as [|v vs IHv]; intros vs' heap heap' Ec; cbn [map copy_list] in Ec; [injection Ec as <- <-; reflexivity|].
      destruct (copy env how weak_too depth t' v heap) as [[v' heap1]|]; [|discriminate]. cbv iota beta in Ec. destruct (copy_list _ _ _ _ _) as [[ws heap2]|] eqn:Ew; [|discriminate]. injection Ec as <- <-. cbn [map]. rewrite (IHv _ _ _ Ew). reflexivity. }
    rewrite M. unfold tree_at in T. rewrite T. split; [reflexivity|]. split; [cbn [contents_of]; rewrite K; reflexivity|]. split; [exact R|]. split; [exact O|].
    cbn [bare no_elements]. intros ->. cbn in El. clear - Ec El B. destruct vs as [|v vs]; [|exfalso; cbn [map tree_list] in El; destruct (tree_of _ _ _ _ _ _); [|discriminate]; destruct (tree_list _ _ _); discriminate].
    cbn in Ec. injection Ec as <- <-. split; [reflexivity|]. apply plain_nothing. reflexivity.
Qed.

End Copy.

(** ** Transfers *)

Lemma copy_list_same (f : type_id -> datum -> option tree) (c : type_id -> datum -> list object -> option (datum * list object)) in_zone heap :
  forall ts vs xs, tree_list f ts vs = Some xs ->
  (forall t v x, f t v = Some x -> In x xs -> In v vs -> c t v heap = Some (v, heap) /\ (in_zone = true -> give_back v = v)) ->
  copy_list c in_zone ts vs heap = Some (vs, heap).
Proof.
  induction ts as [|t ts IH]; intros [|v vs] xs E H; cbn [tree_list] in E; try discriminate; [reflexivity|].
  destruct (f t v) as [x|] eqn:Ef; [|discriminate]. destruct (tree_list f ts vs) as [ys|] eqn:El; [|discriminate]. injection E as <-.
  destruct (H t v x Ef (or_introl eq_refl) (or_introl eq_refl)) as [Hc Hz]. cbn [copy_list]. rewrite Hc.
  assert (G : (if in_zone then (give_back v, firstn (length heap) heap ++ map give_back_object (skipn (length heap) heap)) else (v, heap)) = (v, heap)).
  { destruct in_zone; [|reflexivity]. rewrite (Hz eq_refl), firstn_all, skipn_all. cbn [map]. rewrite app_nil_r. reflexivity. }
  rewrite G. rewrite (IH vs ys El); [reflexivity|]. intros t' v' x' E' I1 I2. apply (H t' v' x' E'); right; assumption.
Qed.

Lemma bare_no_elements env followed : forall depth t v heap x, tree_of env followed depth t v heap = Some x -> bare x -> no_elements v.
Proof.
  induction depth as [|depth IH]; intros t v heap x E B; [discriminate|]. cbn [tree_of] in E.
  assert (L : forall ts vs xs, tree_list (fun t v => tree_of env followed depth t v heap) ts vs = Some xs -> Forall bare xs -> Forall no_elements vs).
  { induction ts as [|t' ts IHt]; intros [|v' vs] xs El Bl; cbn [tree_list] in El; try discriminate; [constructor|].
    destruct (tree_of _ _ _ t' v' heap) as [y|] eqn:Ey; [|discriminate]. destruct (tree_list _ ts vs) as [ys|] eqn:Eys; [|discriminate]. injection El as <-. inversion Bl; subst. constructor; eauto. }
  destruct (env t) as [size|ts|t' count|[t'|] o|t'], v as [bs|vs|[a|]|vs|]; try discriminate; try exact I.
  - destruct (tree_list _ ts vs) as [xs|] eqn:El; [|discriminate]. injection E as <-. cbn [bare no_elements] in *. apply fold_Forall in B. apply fold_Forall. apply (L _ _ _ El B).
  - destruct (tree_list _ _ vs) as [xs|] eqn:El; [|discriminate]. injection E as <-. cbn [bare no_elements] in *. apply fold_Forall in B. apply fold_Forall. apply (L _ _ _ El B).
  - destruct (tree_list _ _ vs) as [xs|] eqn:El; [|discriminate]. injection E as <-. cbn [bare no_elements] in *. subst xs. destruct vs as [|v vs]; [reflexivity|]. cbn [map tree_list] in El. destruct (tree_of _ _ _ _ _ _); [|discriminate]. destruct (tree_list _ _ _); discriminate.
Qed.

Lemma transfer_ok env : forall depth t v heap x,
  tree_of env (fun _ => false) depth t v heap = Some x -> shallow x -> copy env ATransfer false depth t v heap = Some (v, heap).
Proof.
  induction depth as [|depth IH]; intros t v heap x E Sh; [discriminate|]. cbn [tree_of] in E. cbn [copy].
  destruct (env t) as [size|ts|t' count|t' o|t'], v as [bs|vs|[a|]|vs|]; try discriminate; try reflexivity; try (destruct t'; discriminate).
  - destruct (length bs =? size)%nat; [reflexivity|discriminate].
  - destruct (tree_list _ ts vs) as [xs|] eqn:El; [|discriminate]. injection E as <-. cbn [shallow] in Sh. apply fold_Forall in Sh. rewrite Forall_forall in Sh.
    rewrite (copy_list_same _ _ false heap _ _ _ El); [reflexivity|]. intros t' v' x' E' I1 _. split; [eapply IH; eauto|discriminate].
  - destruct (tree_list _ _ vs) as [xs|] eqn:El; [|discriminate]. injection E as <-. cbn [shallow] in Sh. apply fold_Forall in Sh. rewrite Forall_forall in Sh.
    rewrite (copy_list_same _ _ false heap _ _ _ El); [reflexivity|]. intros t'' v' x' E' I1 _. split; [eapply IH; eauto|discriminate].
  - destruct (tree_list _ _ vs) as [xs|] eqn:El; [|discriminate]. injection E as <-. cbn [shallow] in Sh. apply fold_Forall in Sh. rewrite Forall_forall in Sh.
    rewrite (copy_list_same _ _ true heap _ _ _ El); [reflexivity|]. intros t'' v' x' E' I1 _. split; [eapply IH; [exact E'|apply bare_shallow, Sh, I1]|]. intros _. apply give_back_none. eapply bare_no_elements; [exact E'|apply Sh, I1].
Qed.

(** ** Copying retains nothing but void pointers *)

Lemma copy_retains_none env weak_too : forall depth t v heap x,
  tree_of env (gets_copy ACopy weak_too) depth t v heap = Some x -> has_void x = false -> retained x = [].
Proof.
  induction depth as [|depth IH]; intros t v heap x E V; [discriminate|]. cbn [tree_of] in E.
  assert (L : forall ts vs xs, tree_list (fun t v => tree_of env (gets_copy ACopy weak_too) depth t v heap) ts vs = Some xs -> existsb has_void xs = false -> flat_map retained xs = []).
  { induction ts as [|t' ts IHt]; intros [|v' vs] xs El Bl; cbn [tree_list] in El; try discriminate; [injection El as <-; reflexivity|].
    destruct (tree_of _ _ _ t' v' heap) as [y|] eqn:Ey; [|discriminate]. destruct (tree_list _ ts vs) as [ys|] eqn:Eys; [|discriminate]. injection El as <-. cbn [existsb] in Bl. apply orb_false_iff in Bl. destruct Bl as [B1 B2].
    cbn [flat_map]. rewrite (IH _ _ _ _ Ey B1), (IHt _ _ Eys B2). reflexivity. }
  destruct (env t) as [size|ts|t' count|[t'|] o|t'], v as [bs|vs|[a|]|vs|]; try discriminate.
  - destruct (length bs =? size)%nat; [|discriminate]. injection E as <-. reflexivity.
  - destruct (tree_list _ ts vs) as [xs|] eqn:El; [|discriminate]. injection E as <-. apply (L _ _ _ El V).
  - destruct (tree_list _ _ vs) as [xs|] eqn:El; [|discriminate]. injection E as <-. apply (L _ _ _ El V).
  - destruct (gets_copy ACopy weak_too o) eqn:F.
    + destruct (nth_error heap a) as [ob|]; [|discriminate]. destruct (tree_of _ _ _ _ _ _) as [y|] eqn:Ey; [|discriminate]. injection E as <-. apply (IH _ _ _ _ Ey V).
    + destruct o; try discriminate; injection E as <-; reflexivity.
  - injection E as <-. reflexivity.
  - destruct o; try (destruct (nth_error heap a); [|discriminate]); injection E as <-; discriminate.
  - injection E as <-. reflexivity.
  - destruct (tree_list _ _ vs) as [xs|] eqn:El; [|discriminate]. injection E as <-. apply (L _ _ _ El V).
Qed.
