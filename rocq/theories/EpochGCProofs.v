From Verif Require Import Base EpochGCModel EpochGCSpec.
Local Open Scope N_scope.

Lemma tset_eq {X} (f : nat -> X) t x : tset f t x t = x.
Proof. unfold tset. now rewrite Nat.eqb_refl. Qed.
Lemma tset_ne {X} (f : nat -> X) t x u : u <> t -> tset f t x u = f u.
Proof. intros. unfold tset. now rewrite (proj2 (Nat.eqb_neq u t)). Qed.
Lemma nset_eq {X} (f : N -> X) t x : nset f t x t = x.
Proof. unfold nset. now rewrite N.eqb_refl. Qed.
Lemma nset_ne {X} (f : N -> X) t x u : u <> t -> nset f t x u = f u.
Proof. intros. unfold nset. now rewrite (proj2 (N.eqb_neq u t)). Qed.
Ltac thr u t := destruct (Nat.eq_dec u t) as [->|?]; [rewrite ?tset_eq in *|rewrite ?tset_ne in * by auto].
Ltac slot i j := destruct (N.eq_dec i j) as [->|?]; [rewrite ?nset_eq in *|rewrite ?nset_ne in * by auto].

Inductive place := Nowhere | Held (t : nat) | Slot (i : N) | Gone.
Definition fateof (p : place) : fate :=
  match p with Nowhere => NotHanded | Gone => Reclaimed | _ => Handed end.

(** The slot a thread is counted in. *)
Definition presence (p : pc) : option N :=
  match p with
  | BCheck g | RCheck g _ | RPush g _ => Some (join g)
  | BLeave i _ | Inside i _ | EPush _ i _ | RLeave i _ _ => Some i
  | _ => None
  end.
(** Whether it joined in an epoch it then confirmed. *)
Definition confirmed (p : pc) : bool :=
  match p with Inside _ _ | EPush _ _ _ | RPush _ _ => true | _ => false end.
(** The items it holds. *)
Definition held (p : pc) : list nat :=
  match p with
  | Inside _ l | EPush _ _ l | ECheck _ l | EDrain _ l | RLoad l | RJoin _ l | RCheck _ l | RLeave _ _ l | RPush _ l => l
  | _ => []
  end.

(** [je t]: the epoch in which a confirmed thread joined. [he x]: the epoch when x was handed over. *)
Definition pc_ok (s : state) (v : view) (je : nat -> N) (he : nat -> N) (t : nat) : Prop :=
  let cleared g := g <= epoch s /\ (epoch s = g -> forall u, confirmed (pcs s u) = true -> je u = g) in
  match pcs s t with
  | Inside i _ | EPush _ i _ => i = join (je t)
  | RPush g _ => je t = g
  | _ => True
  end /\
  match pcs s t with
  | EPush g _ _ | EStale g | ENext g => g <= epoch s
  | ECas g => cleared g
  | ECheck g l => cleared g /\ (epoch s = g -> forall x, In x l -> he x < g)
  | EDrain g l => cleared g /\ (forall x, In x l -> holders v x = [])
  | _ => True
  end.

Record inv (s : state) (v : view) (L : N -> list nat) (je he : nat -> N) (loc : nat -> place) : Prop := {
  i_nd : forall i, NoDup (L i);
  i_L : forall i t, In t (L i) <-> presence (pcs s t) = Some i;
  i_rc : forall i, refCount s i = N.of_nat (length (L i));
  i_conf : forall t, confirmed (pcs s t) = true -> je t <= epoch s <= je t + 1;
  i_pc : forall t, pc_ok s v je he t;
  i_inside : forall t, In t (inside v) <-> exists i l, pcs s t = Inside i l \/ exists g, pcs s t = EPush g i l;
  i_hold : forall x t, In t (holders v x) -> In t (inside v) /\ je t <= he x;
  i_he : forall x, loc x <> Nowhere -> he x <= epoch s;
  i_hn : forall x, loc x = Nowhere -> holders v x = [];
  i_lheld : forall x t, loc x = Held t <-> In x (held (pcs s t));
  i_lslot : forall x i, loc x = Slot i <-> In x (managed s i);
  i_ndh : forall t, NoDup (held (pcs s t));
  i_ndm : forall i, NoDup (managed s i);
  i_fate : forall x, fates v x = fateof (loc x);
  i_age : forall x i, loc x = Slot i -> epoch s mod 3 = i -> he x < epoch s
}.

Lemma init_inv : inv init start (fun _ => []) (fun _ => 0) (fun _ => 0) (fun _ => Nowhere).
Proof.
  constructor; cbn; auto; try discriminate; try tauto; try constructor; try (split; [discriminate|tauto]); try (split; auto); try congruence; try tauto.
  intros [i [l [H|[g H]]]]; discriminate.
Qed.

(** Thread [t] moves to [p], keeping its items and its place in the slots. *)
Lemma go_inv s v L je he loc t p :
  inv s v L je he loc ->
  presence p = presence (pcs s t) -> held p = held (pcs s t) -> confirmed p = confirmed (pcs s t) ->
  (forall i l g, p = Inside i l \/ p = EPush g i l -> (exists l', pcs s t = Inside i l') ) ->
  (forall i l g, pcs s t = Inside i l \/ pcs s t = EPush g i l -> (exists l' g', p = Inside i l' \/ p = EPush g' i l')) ->
  pc_ok (go s t p) v je he t ->
  inv (go s t p) v L je he loc.
Proof.
  intros [] Hp Hh Hc Hi Hi' Hok. constructor; cbn [go managed refCount epoch pcs]; auto.
  - intros i u. rewrite i_L0. thr u t; [rewrite Hp|]; tauto.
  - intros u. thr u t; [rewrite Hc|]; apply i_conf0.
  - intros u. destruct (Nat.eq_dec u t) as [->|Hu]; [exact Hok|].
    specialize (i_pc0 u). unfold pc_ok in *. cbn [go pcs epoch]. rewrite tset_ne by auto.
    assert (Hcl : forall g, (g <= epoch s /\ (epoch s = g -> forall u, confirmed (pcs s u) = true -> je u = g)) ->
       (g <= epoch s /\ (epoch s = g -> forall u, confirmed (tset (pcs s) t p u) = true -> je u = g))).
    { intros g [A B]. split; [exact A|]. intros E w. thr w t; [rewrite Hc|]; auto. }
    destruct i_pc0 as [P1 P2]. split; [exact P1|]. destruct (pcs s u); auto; destruct P2; split; auto.
  - intros u. rewrite i_inside0. thr u t; [|tauto]. split.
    + intros (i & l & [H|[g H]]).
      * destruct (Hi' i l 0 (or_introl H)) as (l' & g' & [E|E]); eauto 6.
      * destruct (Hi' i l g (or_intror H)) as (l' & g' & [E|E]); eauto 6.
    + intros (i & l & [H|[g H]]).
      * destruct (Hi i l 0 (or_introl H)) as (l' & E). eauto.
      * destruct (Hi i l g (or_intror H)) as (l' & E). eauto.
  - intros x u. rewrite i_lheld0. thr u t; [rewrite Hh|]; tauto.
  - intros u. thr u t; [rewrite Hh|]; auto.
Qed.

Lemma pc_others s s' v v' je je' he he' u :
  pc_ok s v je he u -> pcs s' u = pcs s u -> epoch s' = epoch s ->
  (forall w, confirmed (pcs s' w) = true -> (confirmed (pcs s w) = true /\ je' w = je w) \/ je' w = epoch s) ->
  je' u = je u ->
  (forall x, In x (held (pcs s u)) -> he' x = he x) ->
  (forall x, In x (held (pcs s u)) -> holders v x = [] -> holders v' x = []) ->
  pc_ok s' v' je' he' u.
Proof.
  intros [P1 P2] Hpc He Hc Hje Hhe Hho. unfold pc_ok. rewrite Hpc, He.
  assert (Hcl : forall g, (g <= epoch s /\ (epoch s = g -> forall u, confirmed (pcs s u) = true -> je u = g)) ->
     (g <= epoch s /\ (epoch s = g -> forall u, confirmed (pcs s' u) = true -> je' u = g))).
  { intros g [A B]. split; [exact A|]. intros E w Hw. destruct (Hc w Hw) as [[C D]|D]; [rewrite D; auto|congruence]. }
  split.
  - destruct (pcs s u); auto; congruence.
  - destruct (pcs s u); auto; destruct P2 as [A B]; split; auto.
    intros E x Hx. rewrite Hhe by exact Hx. auto.
Qed.

Lemma not_confirmed_not_inside s v L je he loc t :
  inv s v L je he loc -> ~ (exists i l, pcs s t = Inside i l \/ exists g, pcs s t = EPush g i l) ->
  ~ In t (inside v) /\ forall x, ~ In t (holders v x).
Proof.
  intros [] H. assert (~ In t (inside v)) by (rewrite i_inside0; exact H).
  split; [exact H0|]. intros x Hx. apply i_hold0 in Hx. tauto.
Qed.

Ltac notin := let i := fresh in let l := fresh in let g := fresh in let H := fresh in intros (i & l & [H|[g H]]); congruence.

Lemma begin_inv s v L je he loc t g :
  inv s v L je he loc -> pcs s t = BCheck g -> epoch s = g ->
  inv (go s t (Inside (join g) [])) (next v (EBegin t)) L (tset je t g) he loc.
Proof.
  intros Hinv E Eg. destruct (not_confirmed_not_inside s v L je he loc t Hinv) as [Hni Hnh]; [notin|].
  destruct Hinv. constructor; cbn [go managed refCount epoch pcs next inside holders fates]; auto.
  - intros i u. rewrite i_L0. thr u t; [rewrite E|]; reflexivity.
  - intros u. thr u t; [lia|apply i_conf0].
  - intros u. destruct (Nat.eq_dec u t) as [->|Hu].
    + unfold pc_ok. cbn [go pcs]. rewrite !tset_eq. auto.
    + apply (pc_others s _ v _ je _ he _ u (i_pc0 u)); cbn [go pcs epoch]; rewrite ?tset_ne; auto.
      intros w. thr w t; auto.
  - intros u. cbn [In]. rewrite i_inside0. thr u t; [split; [eauto|auto]|]. split; [intros [|]; [congruence|auto]|auto].
  - intros x u Hu. assert (u <> t) by (intros ->; eapply Hnh; eauto). rewrite tset_ne by auto. apply i_hold0 in Hu. destruct Hu. split; [now right|auto].
  - intros x u. rewrite i_lheld0. thr u t; [rewrite E|]; reflexivity.
  - intros u. thr u t; [constructor|auto].
Qed.

Lemma rcheck_inv s v L je he loc t g l :
  inv s v L je he loc -> pcs s t = RCheck g l -> epoch s = g ->
  inv (go s t (RPush g l)) v L (tset je t g) he loc.
Proof.
  intros Hinv E Eg. destruct (not_confirmed_not_inside s v L je he loc t Hinv) as [Hni Hnh]; [notin|].
  destruct Hinv. constructor; cbn [go managed refCount epoch pcs]; auto.
  - intros i u. rewrite i_L0. thr u t; [rewrite E|]; reflexivity.
  - intros u. thr u t; [lia|apply i_conf0].
  - intros u. destruct (Nat.eq_dec u t) as [->|Hu].
    + unfold pc_ok. cbn [go pcs]. rewrite !tset_eq. auto.
    + apply (pc_others s _ v _ je _ he _ u (i_pc0 u)); cbn [go pcs epoch]; rewrite ?tset_ne; auto.
      intros w. thr w t; auto.
  - intros u. rewrite i_inside0. thr u t; [|tauto]. split; notin.
  - intros x u Hu. assert (u <> t) by (intros ->; eapply Hnh; eauto). rewrite tset_ne by auto. now apply i_hold0.
  - intros x u. rewrite i_lheld0. thr u t; [rewrite E|]; reflexivity.
  - intros u. thr u t; [|auto]. specialize (i_ndh0 t). now rewrite E in i_ndh0.
Qed.

Lemma enter_inv s v L je he loc t i p :
  inv s v L je he loc -> presence (pcs s t) = None -> presence p = Some i -> held p = held (pcs s t) ->
  confirmed p = false ->
  (match p with BCheck _ | RCheck _ _ => True | _ => False end) ->
  inv (enter s t i p) v (nset L i (t :: L i)) je he loc.
Proof.
  intros Hinv E Ep Eh Ec Ek.
  destruct (not_confirmed_not_inside s v L je he loc t Hinv) as [Hni Hnh].
  { intros (j & l & [H|[g H]]); rewrite H in E; discriminate. }
  destruct Hinv. constructor; cbn [enter managed refCount epoch pcs]; auto.
  - intros j. slot j i; [|auto]. constructor; [|auto]. rewrite i_L0. congruence.
  - intros j u. slot j i.
    + cbn [In]. rewrite i_L0. thr u t; [tauto|]. split; [intros [|]; [congruence|auto]|auto].
    + rewrite i_L0. thr u t; [|tauto]. split; congruence.
  - intros j. slot j i; [|auto]. rewrite i_rc0. cbn [length]. lia.
  - intros u. thr u t; [congruence|apply i_conf0].
  - intros u. destruct (Nat.eq_dec u t) as [->|Hu].
    + unfold pc_ok. cbn [enter pcs]. rewrite tset_eq. destruct p; try contradiction; auto.
    + apply (pc_others s _ v _ je _ he _ u (i_pc0 u)); cbn [enter pcs epoch]; rewrite ?tset_ne; auto.
      intros w. thr w t; [congruence|auto].
  - intros u. rewrite i_inside0. thr u t; [|tauto]. split.
    + intros (j & l & [H|[g H]]); rewrite H in E; discriminate.
    + intros (j & l & [H|[g H]]); subst p; contradiction.
  - intros x u. rewrite i_lheld0. thr u t; [rewrite Eh|]; reflexivity.
  - intros u. thr u t; [rewrite Eh|]; auto.
Qed.

Lemma NoDup_app2 {A} (l m : list A) : NoDup l -> NoDup m -> (forall x, In x l -> ~ In x m) -> NoDup (l ++ m).
Proof.
  induction 1 as [|a l Ha Hl IH]; intros Hm Hd; cbn [app]; [exact Hm|].
  constructor.
  - rewrite in_app_iff. intros [H|H]; [auto|]. exact (Hd a (or_introl eq_refl) H).
  - apply IH; [exact Hm|]. intros x Hx. apply Hd. now right.
Qed.

Definition put (loc : nat -> place) (l : list nat) (p : place) : nat -> place :=
  fun x => if in_dec Nat.eq_dec x l then p else loc x.

(** Thread [t] leaves slot [i], pushing the items [l], which are either all or none of those it holds. *)
Lemma leave_inv s v v' L je he loc t i l p :
  inv s v L je he loc -> presence (pcs s t) = Some i -> presence p = None ->
  (l = [] /\ held p = held (pcs s t) \/ l = held (pcs s t) /\ held p = [] /\ confirmed (pcs s t) = true /\ i = join (je t)) ->
  confirmed p = false ->
  match p with EStale g => g <= epoch s | BJoin _ | RJoin _ _ | Outside => True | _ => False end ->
  (v' = v /\ (forall j l, pcs s t <> Inside j l) /\ (forall g j l, pcs s t <> EPush g j l) \/ v' = next v (EEnd t)) ->
  inv (leave s t i l p) v' (nset L i (remove Nat.eq_dec t (L i))) je he (put loc l (Slot i)).
Proof.
  intros [] E Ep Eh Ec Ek Hv.
  assert (Hin : In t (L i)) by now apply i_L0.
  pose proof (remove_length_NoDup Nat.eq_dec t (L i) (i_nd0 i) Hin) as Hlen.
  assert (Hl : forall x, In x l -> loc x = Held t).
  { intros x Hx. destruct Eh as [[-> _]|[-> _]]; [contradiction|now apply i_lheld0]. }
  assert (Hpi : ~ exists j k, p = Inside j k \/ exists g, p = EPush g j k).
  { intros (j & k & [->|[g ->]]); contradiction. }
  assert (Hvi : forall u, In u (inside v') <-> In u (inside v) /\ u <> t).
  { intros u. destruct Hv as [(-> & A & B)| ->].
    - split; [|tauto]. intros Hu. split; [exact Hu|]. intros ->. apply i_inside0 in Hu. destruct Hu as (j & k & [H|[g H]]); [eapply A; eauto|eapply B; eauto].
    - cbn [next inside]. apply in_remove_iff. }
  assert (Hvh : forall x u, In u (holders v' x) -> In u (holders v x) /\ u <> t).
  { intros x u Hu. destruct Hv as [(-> & A & B)| ->].
    - split; [exact Hu|]. intros ->. apply i_hold0 in Hu. rewrite i_inside0 in Hu. destruct Hu as [(j & k & [H|[g H]]) _]; [eapply A; eauto|eapply B; eauto].
    - cbn [next holders] in Hu. now apply in_remove_iff in Hu. }
  assert (Hvn : forall x, holders v x = [] -> holders v' x = []).
  { intros x Hx. destruct (holders v' x) as [|u k] eqn:Eu; [reflexivity|].
    destruct (Hvh x u) as [H _]; [rewrite Eu; now left|]. rewrite Hx in H. contradiction. }
  assert (Hvf : fates v' = fates v) by (destruct Hv as [(-> & _)| ->]; reflexivity).
  constructor; cbn [leave managed refCount epoch pcs].
  - intros j. slot j i; [apply remove_NoDup|]; auto.
  - intros j u. slot j i.
    + rewrite in_remove_iff, i_L0. thr u t; [split; [tauto|congruence]|tauto].
    + rewrite i_L0. thr u t; [|tauto]. split; congruence.
  - intros j. slot j i; [|auto]. rewrite i_rc0. lia.
  - intros u. thr u t; [congruence|apply i_conf0].
  - intros u. destruct (Nat.eq_dec u t) as [->|Hu].
    + unfold pc_ok. cbn [leave pcs epoch]. rewrite tset_eq. destruct p; try contradiction; auto.
    + apply (pc_others s _ v _ je _ he _ u (i_pc0 u)); cbn [leave pcs epoch]; rewrite ?tset_ne; auto.
      intros w. thr w t; [congruence|auto].
  - intros u. rewrite Hvi, i_inside0. thr u t; [tauto|]. split; [intros [? _]; auto|auto].
  - intros x u Hu. apply Hvh in Hu. destruct Hu as [Hu ?]. apply i_hold0 in Hu. rewrite Hvi. tauto.
  - intros x. unfold put. destruct (in_dec Nat.eq_dec x l) as [Hx|Hx]; [|apply i_he0].
    intros _. apply i_he0. rewrite (Hl x Hx). discriminate.
  - intros x. unfold put. destruct (in_dec Nat.eq_dec x l) as [Hx|Hx]; [discriminate|]. intros H. auto.
  - intros x u. unfold put. destruct (in_dec Nat.eq_dec x l) as [Hx|Hx].
    + split; [discriminate|]. intros H. exfalso. thr u t.
      * destruct Eh as [[-> _]|(_ & Eh & _)]; [contradiction|]. rewrite Eh in H. contradiction.
      * apply i_lheld0 in H. rewrite (Hl x Hx) in H. congruence.
    + rewrite i_lheld0. thr u t; [|tauto]. destruct Eh as [[_ ->]|(El & -> & _)]; [tauto|]. rewrite <- El. cbn [In]. tauto.
  - intros x j. unfold put. slot j i.
    + rewrite in_app_iff. destruct (in_dec Nat.eq_dec x l) as [Hx|Hx]; [tauto|]. rewrite i_lslot0. tauto.
    + destruct (in_dec Nat.eq_dec x l) as [Hx|Hx]; [|apply i_lslot0].
      split; [congruence|]. intros H. apply i_lslot0 in H. rewrite (Hl x Hx) in H. discriminate.
  - intros u. thr u t; [|auto]. destruct Eh as [[_ ->]|(_ & -> & _)]; [auto|constructor].
  - intros j. slot j i; [|auto]. apply NoDup_app2; auto.
    + destruct Eh as [[-> _]|(-> & _)]; [constructor|auto].
    + intros x Hx H. apply i_lslot0 in H. rewrite (Hl x Hx) in H. discriminate.
  - intros x. rewrite Hvf, i_fate0. unfold put. destruct (in_dec Nat.eq_dec x l) as [Hx|Hx]; [now rewrite (Hl x Hx)|reflexivity].
  - intros x j. unfold put. destruct (in_dec Nat.eq_dec x l) as [Hx|Hx]; [|apply i_age0].
    intros [= <-] Hm. exfalso. destruct Eh as [[-> _]|(_ & _ & Hcf & ->)]; [contradiction|].
    specialize (i_conf0 t Hcf). unfold join in Hm. clear - i_conf0 Hm.
    assert (Hc : epoch s = je t \/ epoch s = je t + 1) by lia.
    pose proof (N.div_mod (je t + 2) 3 ltac:(lia)). pose proof (N.mod_lt (je t + 2) 3 ltac:(lia)).
    pose proof (N.div_mod (epoch s) 3 ltac:(lia)). 
    destruct Hc as [Hc|Hc]; lia.
Qed.

Lemma manage_inv s v L je he loc t x i l :
  inv s v L je he loc -> pcs s t = Inside i l -> fates v x = NotHanded ->
  inv (go s t (Inside i (x :: l))) (next v (EManage t x)) L je (tset he x (epoch s)) (tset loc x (Held t)).
Proof.
  intros [] E Hf.
  assert (Hx : loc x = Nowhere) by (rewrite i_fate0 in Hf; destruct (loc x); try discriminate; reflexivity).
  assert (Hxh : forall u, ~ In x (held (pcs s u))) by (intros u H; apply i_lheld0 in H; congruence).
  constructor; cbn [go managed refCount epoch pcs next inside holders fates]; auto.
  - intros j u. rewrite i_L0. thr u t; [rewrite E|]; reflexivity.
  - intros u. thr u t; [|apply i_conf0]. intros _. apply i_conf0. now rewrite E.
  - intros u. destruct (Nat.eq_dec u t) as [->|Hu].
    + specialize (i_pc0 t). unfold pc_ok in *. cbn [go pcs]. rewrite !tset_eq. rewrite E in i_pc0. exact i_pc0.
    + apply (pc_others s _ v _ je _ he _ u (i_pc0 u)); cbn [go pcs epoch next holders]; rewrite ?tset_ne; auto.
      * intros w. thr w t; [rewrite E|]; auto.
      * intros y Hy. rewrite tset_ne; [reflexivity|]. intros ->. eapply Hxh; eauto.
      * intros y Hy. rewrite tset_ne; [auto|]. intros ->. eapply Hxh; eauto.
  - intros u. rewrite i_inside0. thr u t; [|tauto]. split; eauto.
  - intros y u. thr y x; [|apply i_hold0]. intros Hu. split; [exact Hu|]. apply i_inside0 in Hu.
    apply i_conf0. destruct Hu as (j & k & [H|[g H]]); rewrite H; reflexivity.
  - intros y. thr y x; [reflexivity|apply i_he0].
  - intros y. thr y x; [discriminate|apply i_hn0].
  - intros y u. thr y x.
    + split; [intros [= ->]; rewrite tset_eq; now left|]. thr u t; [reflexivity|]. intros H. destruct (Hxh _ H).
    + rewrite i_lheld0. thr u t; [rewrite E; cbn [held In]|tauto]. split; [auto|intros [|]; [congruence|auto]].
  - intros y j. thr y x; [|apply i_lslot0]. split; [discriminate|]. intros H. apply i_lslot0 in H. congruence.
  - intros u. thr u t; [|auto]. cbn [held]. constructor; [specialize (Hxh t); now rewrite E in Hxh|specialize (i_ndh0 t); now rewrite E in i_ndh0].
  - intros y. thr y x; [reflexivity|apply i_fate0].
  - intros y j. thr y x; [discriminate|apply i_age0].
Qed.

Lemma cas_inv s v L je he loc t g :
  inv s v L je he loc -> pcs s t = ECas g ->
  inv (mkState (nset (managed s) (g mod 3) []) (refCount s) (epoch s) (tset (pcs s) t (ECheck g (managed s (g mod 3)))))
      v L je he (put loc (managed s (g mod 3)) (Held t)).
Proof.
  intros [] E. set (i := g mod 3). set (l := managed s i).
  assert (Hl : forall x, In x l -> loc x = Slot i) by (intros x; apply i_lslot0).
  constructor; cbn [managed refCount epoch pcs]; auto.
  - intros j u. rewrite i_L0. thr u t; [rewrite E|]; reflexivity.
  - intros u. thr u t; [discriminate|apply i_conf0].
  - intros u. destruct (Nat.eq_dec u t) as [->|Hu].
    + pose proof (i_pc0 t) as Hp. unfold pc_ok in *. cbn [pcs epoch]. rewrite !tset_eq. rewrite E in Hp.
      destruct Hp as [_ [A B]]. split; [exact I|]. split; [split; [exact A|]|].
      * intros Eg w. thr w t; [discriminate|auto].
      * intros Eg x Hx. rewrite <- Eg. eapply i_age0; [apply Hl; exact Hx|]. unfold i. now rewrite Eg.
    + apply (pc_others s _ v _ je _ he _ u (i_pc0 u)); cbn [pcs epoch]; rewrite ?tset_ne; auto.
      intros w. thr w t; [discriminate|auto].
  - intros u. rewrite i_inside0. thr u t; [|tauto]. split; notin.
  - intros x. unfold put. destruct (in_dec Nat.eq_dec x l) as [Hx|Hx]; [|apply i_he0].
    intros _. apply i_he0. rewrite (Hl x Hx). discriminate.
  - intros x. unfold put. destruct (in_dec Nat.eq_dec x l) as [Hx|Hx]; [discriminate|auto].
  - intros x u. unfold put. destruct (in_dec Nat.eq_dec x l) as [Hx|Hx].
    + split; [intros [= ->]; rewrite tset_eq; exact Hx|]. thr u t; [reflexivity|]. intros H. apply i_lheld0 in H. rewrite (Hl x Hx) in H. discriminate.
    + rewrite i_lheld0. thr u t; [rewrite E; cbn [held In]; tauto|tauto].
  - intros x j. unfold put. slot j i.
    + cbn [In]. destruct (in_dec Nat.eq_dec x l) as [Hx|Hx]; [split; [discriminate|tauto]|]. rewrite i_lslot0. tauto.
    + destruct (in_dec Nat.eq_dec x l) as [Hx|Hx]; [|apply i_lslot0].
      split; [discriminate|]. intros H. apply i_lslot0 in H. rewrite (Hl x Hx) in H. congruence.
  - intros u. thr u t; [apply i_ndm0|auto].
  - intros j. slot j i; [constructor|auto].
  - intros x. rewrite i_fate0. unfold put. destruct (in_dec Nat.eq_dec x l) as [Hx|Hx]; [now rewrite (Hl x Hx)|reflexivity].
  - intros x j. unfold put. destruct (in_dec Nat.eq_dec x l) as [Hx|Hx]; [discriminate|apply i_age0].
Qed.

Lemma drain_inv s v L je he loc t g x l :
  inv s v L je he loc -> pcs s t = EDrain g (x :: l) ->
  collector_ok v (EReclaim x) /\ inv (go s t (EDrain g l)) (next v (EReclaim x)) L je he (tset loc x Gone).
Proof.
  intros [] E. assert (Hx : loc x = Held t) by (apply i_lheld0; rewrite E; now left).
  assert (Hk : NoDup (x :: l)) by (specialize (i_ndh0 t); now rewrite E in i_ndh0). inversion Hk as [|? ? Hk1 Hk2]; subst.
  pose proof (i_pc0 t) as Hp. unfold pc_ok in Hp. rewrite E in Hp. destruct Hp as [_ [A B]].
  split; [split; [now rewrite i_fate0, Hx|apply B; now left]|].
  constructor; cbn [go managed refCount epoch pcs next inside holders fates]; auto.
  - intros j u. rewrite i_L0. thr u t; [rewrite E|]; reflexivity.
  - intros u. thr u t; [discriminate|apply i_conf0].
  - intros u. destruct (Nat.eq_dec u t) as [->|Hu].
    + unfold pc_ok. cbn [go pcs epoch next holders]. rewrite tset_eq. split; [exact I|]. split.
      * destruct A as [A1 A2]. split; [exact A1|]. intros Eg w. thr w t; [discriminate|auto].
      * intros y Hy. apply B. now right.
    + apply (pc_others s _ v _ je _ he _ u (i_pc0 u)); cbn [go pcs epoch]; rewrite ?tset_ne; auto.
      intros w. thr w t; [discriminate|auto].
  - intros u. rewrite i_inside0. thr u t; [|tauto]. split; notin.
  - intros y. thr y x; [intros _; apply i_he0; congruence|apply i_he0].
  - intros y. thr y x; [discriminate|apply i_hn0].
  - intros y u. thr y x.
    + split; [discriminate|]. thr u t; [cbn [held]; tauto|]. intros H. apply i_lheld0 in H. congruence.
    + rewrite i_lheld0. thr u t; [rewrite E; cbn [held In]|tauto]. split; [intros [|]; [congruence|auto]|auto].
  - intros y j. thr y x; [|apply i_lslot0]. split; [discriminate|]. intros H. apply i_lslot0 in H. congruence.
  - intros u. thr u t; [exact Hk2|auto].
  - intros y. thr y x; [reflexivity|apply i_fate0].
  - intros y j. thr y x; [discriminate|apply i_age0].
Qed.

Lemma bump_inv s v L je he loc t g :
  inv s v L je he loc -> pcs s t = EDrain g [] -> epoch s = g ->
  inv (mkState (managed s) (refCount s) (g + 1) (tset (pcs s) t Outside)) v L je he loc.
Proof.
  intros [] E Eg. pose proof (i_pc0 t) as Hp. unfold pc_ok in Hp. rewrite E in Hp. destruct Hp as [_ [[_ A] _]].
  specialize (A Eg).
  constructor; cbn [managed refCount epoch pcs]; auto.
  - intros j u. rewrite i_L0. thr u t; [rewrite E|]; reflexivity.
  - intros u. thr u t; [discriminate|]. intros Hu. rewrite (A u Hu). lia.
  - intros u. destruct (Nat.eq_dec u t) as [->|Hu]; [unfold pc_ok; cbn [pcs]; now rewrite tset_eq|].
    specialize (i_pc0 u). unfold pc_ok in *. cbn [pcs epoch]. rewrite tset_ne by auto. destruct i_pc0 as [P1 P2].
    split; [exact P1|].
    destruct (pcs s u); auto; try lia;
      (assert (g0 <= epoch s) by lia || assert (g0 <= epoch s) by (destruct P2; lia)); try (split; lia).
    + split; [split; lia|]. apply P2.
  - intros u. rewrite i_inside0. thr u t; [|tauto]. split; notin.
  - intros x Hx. specialize (i_he0 x Hx). lia.
  - intros x u. rewrite i_lheld0. thr u t; [rewrite E|]; reflexivity.
  - intros u. thr u t; [constructor|auto].
  - intros x j Hx _. assert (he x <= epoch s) by (apply i_he0; congruence). lia.
Qed.

Definition good (s : state) (v : view) : Prop := exists L je he loc, inv s v L je he loc.

Lemma next_slot g : (g mod 3 + 1) mod 3 = (g + 1) mod 3.
Proof. rewrite N.add_mod_idemp_l by lia. reflexivity. Qed.

Ltac simple_go t Hinv E :=
  eexists _, _, _, _; eapply go_inv; [exact Hinv| | | | | |]; rewrite ?E;
  [reflexivity|reflexivity|reflexivity
  |let H := fresh in intros ? ? ? [H|H]; discriminate
  |let H := fresh in intros ? ? ? [H|H]; discriminate
  |unfold pc_ok; cbn [go pcs epoch]; rewrite ?tset_eq; try (split; exact I)].

Lemma step_good s v l s' e :
  good s v -> step s l = Some (s', e) -> client_ok v e -> collector_ok v e /\ good s' (next v e).
Proof.
  intros (L & je & he & loc & H) Hs Hc. destruct l as [t|t x|t|t|t]; cbn [step] in Hs.
  - destruct (pcs s t) eqn:E; try discriminate. injection Hs as <- <-. split; [exact I|]. simple_go t H E.
  - destruct (pcs s t) eqn:E; try discriminate. injection Hs as <- <-. split; [exact I|].
    eexists _, _, _, _. eapply manage_inv; eauto.
  - destruct (pcs s t) eqn:E; try discriminate. injection Hs as <- <-. split; [exact I|].
    eexists _, _, _, _. eapply go_inv; [exact H| | | | | |]; rewrite ?E; auto.
    + intros i l g [A|A]; [discriminate|]. injection A as _ -> _. eauto.
    + intros i l g [A|A]; [|discriminate]. injection A as -> _. eauto.
    + pose proof (i_pc _ _ _ _ _ _ H t) as Hp. unfold pc_ok in *. cbn [go pcs epoch]. rewrite tset_eq. rewrite E in Hp. split; [apply Hp|lia].
  - pose proof (i_pc _ _ _ _ _ _ H t) as Hp. unfold pc_ok in Hp.
    destruct (pcs s t) eqn:E; try discriminate.
    + injection Hs as <- <-. split; [exact I|]. eexists _, _, _, _. eapply enter_inv; eauto; rewrite ?E; auto.
    + destruct (N.eqb_spec (epoch s) g) as [Eg|Eg]; injection Hs as <- <-; (split; [exact I|]).
      * eexists _, _, _, _. eapply begin_inv; eauto.
      * simple_go t H E.
    + injection Hs as <- <-. split; [exact I|]. eexists _, _, _, _. eapply leave_inv; [exact H|..]; rewrite ?E; auto.
      left. split; [reflexivity|]. split; congruence.
    + injection Hs as <- <-. split; [exact I|]. eexists _, _, _, _. eapply leave_inv; [exact H|..]; rewrite ?E; auto.
      * right. repeat split; auto. apply Hp.
      * apply Hp.
    + destruct (refCount s (g mod 3) =? 0); injection Hs as <- <-; (split; [exact I|]); simple_go t H E.
      split; [exact I|]. apply Hp.
    + rewrite next_slot in Hs. destruct (N.eqb_spec (refCount s ((g + 1) mod 3)) 0) as [Ez|Ez]; injection Hs as <- <-; (split; [exact I|]); simple_go t H E.
      split; [exact I|]. split; [apply Hp|]. intros Eg u. thr u t; [discriminate|]. intros Hu.
      destruct H. pose proof (i_conf0 u Hu) as Hb. destruct (N.eq_dec (je u) g) as [|Hne]; [auto|exfalso].
      assert (Hj : join (je u) = (g + 1) mod 3) by (unfold join; f_equal; lia).
      assert (Hpr : presence (pcs s u) = Some (join (je u))).
      { specialize (i_pc0 u). unfold pc_ok in i_pc0. destruct (pcs s u); cbn in Hu; try discriminate; destruct i_pc0 as [P _]; cbn [presence]; congruence. }
      rewrite Hj in Hpr. apply i_L0 in Hpr. rewrite i_rc0 in Ez. destruct (L ((g + 1) mod 3)); [contradiction|cbn [length] in Ez; lia].
    + destruct (refCount s (g mod 3) =? 0); [|discriminate]. injection Hs as <- <-. split; [exact I|].
      eexists _, _, _, _. eapply cas_inv; eauto.
    + destruct (N.eqb_spec (epoch s) g) as [Eg|Eg].
      * injection Hs as <- <-. split; [exact I|]. simple_go t H E.
        split; [exact I|]. destruct Hp as [_ [[A B] C]]. split.
        { split; [exact A|]. intros E1 u. thr u t; [discriminate|auto]. }
        { intros x Hx. cbn [next]. destruct (holders v x) as [|u k] eqn:Eu; [reflexivity|exfalso].
          destruct H. destruct (i_hold0 x u) as [H1 H2]; [rewrite Eu; now left|].
          assert (Hcf : confirmed (pcs s u) = true) by (apply i_inside0 in H1; destruct H1 as (j & m & [->|[g' ->]]); reflexivity).
          specialize (B Eg u Hcf). specialize (C Eg x Hx). lia. }
      * destruct l as [|x l]; injection Hs as <- <-; (split; [exact I|]); simple_go t H E.
    + destruct l as [|x l]; injection Hs as <- <-.
      * split; [exact I|]. destruct (N.eqb_spec (epoch s) g) as [Eg|Eg].
        { eexists _, _, _, _. eapply bump_inv; eauto. }
        { change (mkState (managed s) (refCount s) (epoch s) (tset (pcs s) t Outside)) with (go s t Outside). simple_go t H E. }
      * edestruct drain_inv as [A B]; eauto. split; [exact A|]. eexists _, _, _, _; eauto.
    + injection Hs as <- <-. split; [exact I|]. simple_go t H E.
    + injection Hs as <- <-. split; [exact I|]. eexists _, _, _, _. eapply enter_inv; eauto; rewrite ?E; auto.
    + destruct (N.eqb_spec (epoch s) g) as [Eg|Eg]; injection Hs as <- <-; (split; [exact I|]).
      * eexists _, _, _, _. eapply rcheck_inv; eauto.
      * simple_go t H E.
    + injection Hs as <- <-. split; [exact I|]. eexists _, _, _, _. eapply leave_inv; [exact H|..]; rewrite ?E; auto.
      left. split; [reflexivity|]. split; congruence.
    + injection Hs as <- <-. split; [exact I|]. eexists _, _, _, _. eapply leave_inv; [exact H|..]; rewrite ?E; auto.
      * right. destruct Hp as [-> _]. auto.
      * left. split; [reflexivity|]. split; congruence.
  - destruct (pcs s t) eqn:E; try discriminate. injection Hs as <- <-. split; [exact I|]. simple_go t H E.
Qed.

Lemma run_good ls : forall s v s' es,
  good s v -> run s ls = Some (s', es) -> all client_ok v es ->
  all collector_ok v es /\ good s' (fold_left next es v).
Proof.
  induction ls as [|l ls IH]; intros s v s' es Hg; cbn [run].
  - intros [= <- <-] _. split; [exact I|exact Hg].
  - destruct (step s l) as [[s1 e]|] eqn:E; [|discriminate].
    destruct (run s1 ls) as [[s2 es2]|] eqn:E2; [|discriminate].
    intros [= <- <-] [Hc1 Hc2]. destruct (step_good _ _ _ _ _ Hg E Hc1) as [A B].
    destruct (IH _ _ _ _ B E2 Hc2) as [C D]. split; [split; auto|exact D].
Qed.

Lemma init_good : good init start.
Proof. eexists _, _, _, _. apply init_inv. Qed.

(** Only the slots 0, 1 and 2 are used. *)
Definition slots_ok (s : state) : Prop :=
  (forall i, 3 <= i -> managed s i = []) /\
  forall t, match presence (pcs s t) with Some i => i < 3 | None => True end.

Lemma join_lt g : join g < 3.
Proof. apply N.mod_lt. lia. Qed.

Lemma run_slots ls : forall s s' es, slots_ok s -> run s ls = Some (s', es) -> slots_ok s'.
Proof.
  assert (Hstep : forall s l s' e, slots_ok s -> step s l = Some (s', e) -> slots_ok s').
  { intros s l s' e [H1 H2] Hs.
    assert (Hgo : forall t p, match presence p with Some i => i < 3 | None => True end ->
                  forall u, match presence (tset (pcs s) t p u) with Some i => i < 3 | None => True end).
    { intros t p Hp u. thr u t; [exact Hp|apply H2]. }
    assert (Hset : forall i l, i < 3 -> forall j, 3 <= j -> nset (managed s) i l j = []).
    { intros i k Hi j Hj. rewrite nset_ne by lia. auto. }
    pose proof (fun g => N.mod_lt g 3 ltac:(lia)) as Hm.
    destruct l as [t|t x|t|t|t]; cbn [step] in Hs; pose proof (H2 t) as Ht; destruct (pcs s t) eqn:E; try discriminate;
      cbn [presence] in Ht; try destruct l as [|? ?];
      repeat match type of Hs with (if ?b then _ else _) = _ => destruct b end; try discriminate;
      injection Hs as <- <-; (split; cbn [go enter leave managed pcs]; [auto|apply Hgo; cbn [presence]; auto using join_lt]). 
  }
  induction ls as [|l ls IH]; intros s s' es Hg; cbn [run].
  - intros [= <- <-]. exact Hg.
  - destruct (step s l) as [[s1 e]|] eqn:E; [|discriminate].
    destruct (run s1 ls) as [[s2 es2]|] eqn:E2; [|discriminate].
    intros [= <- <-]. exact (IH _ _ _ (Hstep _ _ _ _ Hg E) E2).
Qed.
