From Verif Require Import Base LazyGCModel LazyGCSpec.
Local Open Scope N_scope.

Lemma tset_eq {X} (f : nat -> X) t x : tset f t x t = x.
Proof. unfold tset. now rewrite Nat.eqb_refl. Qed.
Lemma tset_ne {X} (f : nat -> X) t x u : u <> t -> tset f t x u = f u.
Proof. intros. unfold tset. now rewrite (proj2 (Nat.eqb_neq u t)). Qed.
Ltac thr u t := destruct (Nat.eq_dec u t) as [->|?]; [rewrite ?tset_eq in *|rewrite ?tset_ne in * by auto].

(** Where an item handed over and not yet reclaimed is. *)
Inductive place := Nowhere | Local (t : nat) | Shared | Drained (t : nat) | Gone.

Definition fateof (p : place) : fate :=
  match p with Nowhere => NotHanded | Gone => Reclaimed | _ => Handed end.

Definition local (p : pc) : list nat := match p with Inside l => l | _ => [] end.
Definition draining (p : pc) : list nat := match p with Draining l => l | _ => [] end.

Record inv (s : state) (v : view) (loc : nat -> place) : Prop := {
  i_nd : NoDup (inside v);
  i_in : forall t, In t (inside v) <-> exists l, pcs s t = Inside l;
  i_rc : refCount s = N.of_nat (length (inside v));
  i_lt : refCount s < 2 ^ 32;
  i_hold : forall x, incl (holders v x) (inside v);
  i_local : forall x t, loc x = Local t <-> In x (local (pcs s t));
  i_shared : forall x, loc x = Shared <-> In x (managed s);
  i_drain : forall x t, loc x = Drained t <-> In x (draining (pcs s t));
  i_ndl : forall t, NoDup (local (pcs s t));
  i_ndm : NoDup (managed s);
  i_ndd : forall t, NoDup (draining (pcs s t));
  i_fate : forall x, fates v x = fateof (loc x);
  i_safe : forall x t, loc x = Drained t -> holders v x = [];
  i_quiet : inside v = [] -> managed s = []
}.

Lemma init_inv : inv init start (fun _ => Nowhere).
Proof.
  constructor; cbn; auto; try lia; try constructor; try discriminate; try tauto; try (split; [discriminate|tauto]).
  - intros [l H]; discriminate.
  - intros x y H. exact H.
Qed.

Lemma NoDup_app2 {A} (l m : list A) : NoDup l -> NoDup m -> (forall x, In x l -> ~ In x m) -> NoDup (l ++ m).
Proof.
  induction 1 as [|a l Ha Hl IH]; intros Hm Hd; cbn [app]; [exact Hm|].
  constructor.
  - rewrite in_app_iff. intros [H|H]; [auto|]. exact (Hd a (or_introl eq_refl) H).
  - apply IH; [exact Hm|]. intros x Hx. apply Hd. now right.
Qed.

Definition relocate (loc : nat -> place) (f : place -> place) : nat -> place := fun x => f (loc x).

Lemma end_inv s v loc t l m p :
  inv s v loc -> pcs s t = Inside l ->
  (m = l ++ managed s /\ p = Outside /\ length (inside v) <> 1%nat) \/
  (m = [] /\ p = Draining (l ++ managed s) /\ length (inside v) = 1%nat) ->
  exists loc', inv (mkState m ((refCount s + (2 ^ 32 - 1)) mod 2 ^ 32) (tset (pcs s) t p)) (next v (EEnd t)) loc'.
Proof.
  intros [] E Hmp.
  assert (Hin : In t (inside v)) by (apply i_in0; eauto).
  pose proof (remove_length_NoDup Nat.eq_dec t (inside v) i_nd0 Hin) as Hlen. fold (drop t (inside v)) in Hlen.
  assert (Hrc : (refCount s + (2 ^ 32 - 1)) mod 2 ^ 32 = N.of_nat (length (drop t (inside v)))).
  { rewrite i_rc0 in *. rewrite Hlen in *. change (2 ^ 32) with 4294967296 in *.
    replace (N.of_nat (S (length (drop t (inside v)))) + (4294967296 - 1)) with (N.of_nat (length (drop t (inside v))) + 1 * 4294967296) by lia.
    rewrite N.mod_add by discriminate. apply N.mod_small. lia. }
  rewrite Hrc.
  set (dest := match p with Draining _ => Drained t | _ => Shared end).
  exists (relocate loc (fun q => match q with Local u => if Nat.eqb u t then dest else q | Shared => dest | _ => q end)).
  assert (Hnotin : forall u k, pcs s u = Draining k -> u <> t) by (intros u k Hu ->; congruence).
  assert (Hl : forall x, In x l <-> loc x = Local t) by (intros x; rewrite i_local0, E; reflexivity).
  assert (Hlm : NoDup (l ++ managed s)).
  { apply NoDup_app2; [specialize (i_ndl0 t); now rewrite E in i_ndl0|exact i_ndm0|]. intros x H1 H2. apply Hl in H1. apply i_shared0 in H2. congruence. }
  assert (Hpl : local p = []) by (destruct Hmp as [(_ & -> & _)|(_ & -> & _)]; reflexivity).
  constructor; cbn [managed refCount pcs next inside holders fates]; auto.
  - apply remove_NoDup. auto.
  - intros u. unfold drop. rewrite in_remove_iff, i_in0. thr u t; [|tauto].
    split; [tauto|]. intros [k Hk]. destruct Hmp as [(_ & -> & _)|(_ & -> & _)]; discriminate.
  - rewrite i_rc0, Hlen in i_lt0. lia.
  - intros x y. unfold drop. rewrite !in_remove_iff. intros [A B]. split; [now apply (i_hold0 x)|exact B].
  - intros x u. unfold relocate, dest. thr u t.
    + rewrite Hpl. split; [|intros []].
      destruct (loc x) as [|w| | |]; try discriminate.
      * destruct (Nat.eqb_spec w t) as [->|]; [|congruence]. destruct p; discriminate.
      * destruct p; discriminate.
    + rewrite <- i_local0. destruct (loc x) as [|w| | |]; try tauto.
      * destruct (Nat.eqb_spec w t) as [->|]; [|tauto]. split; [destruct p; discriminate|congruence].
      * split; [destruct p; discriminate|discriminate].
  - intros x. unfold relocate, dest. destruct Hmp as [(-> & -> & _)|(-> & -> & _)].
    + rewrite in_app_iff, Hl, <- i_shared0. destruct (loc x) as [|w| | |]; try tauto; try (split; [discriminate|intros [|]; discriminate]).
      destruct (Nat.eqb_spec w t) as [->|]; [tauto|]. split; [discriminate|intros [|]; congruence].
    + cbn [In]. destruct (loc x) as [|w| | |]; try (split; [discriminate|tauto]). destruct (Nat.eqb w t); split; try discriminate; tauto.
  - intros x u. unfold relocate, dest. destruct Hmp as [(-> & -> & _)|(-> & -> & _)].
    + assert (Hd : In x (draining (tset (pcs s) t Outside u)) <-> loc x = Drained u).
      { rewrite i_drain0. thr u t; [rewrite E; reflexivity|reflexivity]. }
      rewrite Hd. destruct (loc x) as [|w| | |]; try tauto; try (split; discriminate).
      destruct (Nat.eqb w t); split; discriminate.
    + thr u t.
      * cbn [draining]. rewrite in_app_iff, Hl, <- i_shared0.
        assert (loc x <> Drained t) by (rewrite i_drain0, E; cbn; tauto).
        destruct (loc x) as [|w| |w|]; try tauto; try (split; [discriminate|intros [|]; discriminate]).
        { destruct (Nat.eqb_spec w t) as [->|]; [tauto|]. split; [discriminate|intros [|]; congruence]. }
        { split; [congruence|intros [|]; congruence]. }
      * rewrite <- i_drain0. destruct (loc x) as [|w| |w|]; try tauto; try (split; congruence).
        destruct (Nat.eqb w t); [split; congruence|tauto].
  - intros u. thr u t; [rewrite Hpl; constructor|apply i_ndl0].
  - destruct Hmp as [(-> & _)|(-> & _)]; [auto|constructor].
  - intros u. thr u t; [|apply i_ndd0]. destruct Hmp as [(_ & -> & _)|(_ & -> & _)]; [constructor|auto].
  - intros x. rewrite i_fate0. unfold relocate, dest. destruct (loc x) as [|w| | |]; auto.
    + destruct (Nat.eqb w t); [destruct p|]; reflexivity.
    + destruct p; reflexivity.
  - intros x u. unfold relocate. intros Hx.
    destruct (loc x) as [|w| |w|] eqn:Ex; try discriminate.
    + destruct Hmp as [(-> & -> & _)|(-> & -> & H1)]; [destruct (Nat.eqb w t); discriminate|].
      assert (H0 : drop t (inside v) = []) by (destruct (drop t (inside v)); [reflexivity|cbn [length] in Hlen; lia]).
      apply incl_l_nil. rewrite <- H0. intros y. unfold drop. rewrite !in_remove_iff. intros [A B]. split; [now apply (i_hold0 x)|exact B].
    + destruct Hmp as [(-> & -> & _)|(-> & -> & H1)]; [discriminate|].
      assert (H0 : drop t (inside v) = []) by (destruct (drop t (inside v)); [reflexivity|cbn [length] in Hlen; lia]).
      apply incl_l_nil. rewrite <- H0. intros y. unfold drop. rewrite !in_remove_iff. intros [A B]. split; [now apply (i_hold0 x)|exact B].
    + rewrite (i_safe0 x w Ex). reflexivity.
  - intros H0. destruct Hmp as [(-> & -> & H1)|(-> & _)]; [|reflexivity].
    exfalso. rewrite H0 in Hlen. cbn in Hlen. lia.
Qed.

Lemma step_inv s v loc l s' e :
  inv s v loc -> step s l = Some (s', e) -> client_ok v e -> collector_ok v e /\ exists loc', inv s' (next v e) loc'.
Proof.
  intros H Hs Hc. destruct l as [t|t x|t|t]; cbn [step] in Hs.
  - destruct (pcs s t) eqn:E; try discriminate. injection Hs as <- <-. split; [exact I|]. exists loc. cbn [client_ok] in Hc.
    destruct H. assert (Hx : (refCount s + 1) mod 2 ^ 32 = refCount s + 1) by (apply N.mod_small; lia).
    constructor; cbn [managed refCount pcs next inside holders fates]; rewrite ?Hx; auto.
    + constructor; [|auto]. rewrite i_in0. intros [k ?]. congruence.
    + intros u. cbn [In]. rewrite i_in0. thr u t; [split; eauto|]. split; [intros [|]; [congruence|auto]|auto].
    + cbn [length]. lia.
    + cbn [length] in Hc. lia.
    + intros x y Hy. right. now apply (i_hold0 x).
    + intros x u. rewrite i_local0. thr u t; [rewrite E|]; reflexivity.
    + intros x u. rewrite i_drain0. thr u t; [rewrite E|]; reflexivity.
    + intros u. thr u t; [constructor|auto].
    + intros u. thr u t; [constructor|auto].
    + discriminate.
  - destruct (pcs s t) as [|k|k] eqn:E; try discriminate. injection Hs as <- <-. split; [exact I|]. cbn [client_ok] in Hc.
    exists (tset loc x (Local t)). destruct H.
    assert (Hx : loc x = Nowhere) by (rewrite i_fate0 in Hc; destruct (loc x); try discriminate; reflexivity).
    constructor; cbn [managed refCount pcs next inside holders fates]; auto.
    + intros u. rewrite i_in0. thr u t; [rewrite E|]; split; eauto.
    + intros y. thr y x; [apply incl_refl|apply i_hold0].
    + intros y u. thr y x.
      * split; [intros [= ->]; rewrite tset_eq; now left|]. thr u t; [reflexivity|]. intros Hy. apply i_local0 in Hy. congruence.
      * rewrite i_local0. thr u t; [rewrite E; cbn [local In]|tauto]. split; [auto|intros [|]; [congruence|auto]].
    + intros y. thr y x; [|apply i_shared0]. split; [discriminate|]. intros Hy. apply i_shared0 in Hy. congruence.
    + intros y u. thr y x.
      * split; [discriminate|]. thr u t; [intros []|]. intros Hy. apply i_drain0 in Hy. congruence.
      * rewrite i_drain0. thr u t; [rewrite E|]; reflexivity.
    + intros u. thr u t; [|auto]. cbn [local]. constructor; [|specialize (i_ndl0 t); now rewrite E in i_ndl0].
      intros Hy. assert (loc x = Local t) by (apply i_local0; now rewrite E). congruence.
    + intros u. thr u t; [constructor|auto].
    + intros y. thr y x; [reflexivity|apply i_fate0].
    + intros y u. thr y x; [discriminate|apply i_safe0].
  - destruct (pcs s t) as [|k|k] eqn:E; try discriminate.
    assert (Hone : (refCount s =? 1) = true <-> length (inside v) = 1%nat) by (rewrite N.eqb_eq; destruct H; lia).
    destruct k as [|x k]; destruct (refCount s =? 1) eqn:E1; injection Hs as <- <-; (split; [exact I|]);
      eapply end_inv; eauto; intuition.
  - destruct (pcs s t) as [|k|[|x k]] eqn:E; try discriminate; injection Hs as <- <-; destruct H.
    + split; [exact I|]. exists loc. constructor; cbn [managed refCount pcs next inside holders fates]; auto.
      * intros u. rewrite i_in0. thr u t; [rewrite E|tauto]. split; intros [? ?]; discriminate.
      * intros y u. rewrite i_local0. thr u t; [rewrite E|]; reflexivity.
      * intros y u. rewrite i_drain0. thr u t; [rewrite E|]; reflexivity.
      * intros u. thr u t; [constructor|auto].
      * intros u. thr u t; [constructor|auto].
    + assert (Hx : loc x = Drained t) by (apply i_drain0; rewrite E; now left).
      assert (Hk : NoDup (x :: k)) by (specialize (i_ndd0 t); now rewrite E in i_ndd0). inversion Hk; subst.
      split; [split; [now rewrite i_fate0, Hx|now apply (i_safe0 x t)]|].
      exists (tset loc x Gone). constructor; cbn [managed refCount pcs next inside holders fates]; auto.
      * intros u. rewrite i_in0. thr u t; [rewrite E|tauto]. split; intros [? ?]; discriminate.
      * intros y u. thr y x.
        { split; [discriminate|]. thr u t; [intros []|]. intros Hy. apply i_local0 in Hy. congruence. }
        { rewrite i_local0. thr u t; [rewrite E|]; reflexivity. }
      * intros y. thr y x; [|apply i_shared0]. split; [discriminate|]. intros Hy. apply i_shared0 in Hy. congruence.
      * intros y u. thr y x.
        { split; [discriminate|]. thr u t; [cbn [draining]; tauto|]. intros Hy. apply i_drain0 in Hy. congruence. }
        { rewrite i_drain0. thr u t; [rewrite E; cbn [draining In]|tauto]. split; [intros [|]; [congruence|auto]|auto]. }
      * intros u. thr u t; [constructor|auto].
      * intros u. thr u t; [exact H2|auto].
      * intros y. thr y x; [reflexivity|apply i_fate0].
      * intros y u. thr y x; [discriminate|apply i_safe0].
Qed.

Lemma run_inv ls : forall s v loc s' es,
  inv s v loc -> run s ls = Some (s', es) -> all client_ok v es ->
  all collector_ok v es /\ exists loc', inv s' (fold_left next es v) loc'.
Proof.
  induction ls as [|l ls IH]; intros s v loc s' es Hg; cbn [run].
  - intros [= <- <-] _. split; [exact I|eauto].
  - destruct (step s l) as [[s1 e]|] eqn:E; [|discriminate].
    destruct (run s1 ls) as [[s2 es2]|] eqn:E2; [|discriminate].
    intros [= <- <-] [Hc1 Hc2]. destruct (step_inv _ _ _ _ _ _ Hg E Hc1) as [A [loc1 B]].
    destruct (IH _ _ _ _ _ B E2 Hc2) as [C D]. split; [split; auto|exact D].
Qed.
