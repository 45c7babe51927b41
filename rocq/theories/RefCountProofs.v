From Verif Require Import Base RefCountModel RefCountSpec.
Local Open Scope Z_scope.

Lemma tset_eq {X} (f : nat -> X) t x : tset f t x t = x.
Proof. unfold tset. now rewrite Nat.eqb_refl. Qed.
Lemma tset_ne {X} (f : nat -> X) t x u : u <> t -> tset f t x u = f u.
Proof. intros. unfold tset. now rewrite (proj2 (Nat.eqb_neq u t)). Qed.
Ltac thr u t := destruct (Nat.eq_dec u t) as [->|?]; [rewrite ?tset_eq in *|rewrite ?tset_ne in * by auto].

Lemma take_one_length t l : In t l -> length l = S (length (take_one t l)).
Proof.
  induction l as [|u l IH]; cbn [In take_one]; [tauto|]. intros H. destruct (Nat.eqb_spec u t); [reflexivity|].
  cbn [length]. rewrite <- IH; [reflexivity|]. destruct H; [congruence|auto].
Qed.

(** [who]: the thread that released the last reference, while it destroys and deallocates. *)
Record inv (s : state) (v : view) (who : option nat) : Prop := {
  i_dyn : static s = false;
  i_rc : refCount s = Z.of_nat (length (owners v));
  i_lt : refCount s < 2 ^ 31;
  i_dtor : destructor s = dtor v;
  i_who : match who with
          | Some t => owners v = [] /\ released s = false /\ deallocated v = 0%nat /\
                      (pcs s t = Destroying /\ destroyed v = 0%nat \/ pcs s t = Freeing /\ destroyed v = 1%nat) /\
                      forall u, u <> t -> pcs s u = Idle
          | None => (forall u, pcs s u = Idle) /\
                    (owners v <> [] /\ released s = false /\ destroyed v = 0%nat /\ deallocated v = 0%nat \/
                     owners v = [] /\ released s = true /\ destroyed v = 1%nat /\ deallocated v = 1%nat)
          end
}.

Lemma wrap32_small z : - 2 ^ 31 <= z < 2 ^ 31 -> wrap32 z = z.
Proof. intros H. unfold wrap32. rewrite Z.mod_small; lia. Qed.

Lemma init_inv t : inv (allocate false) (start t) None.
Proof. constructor; cbn; auto; try lia. split; [auto|]. left. repeat split; discriminate. Qed.

Lemma step_inv s v who l s' e :
  inv s v who -> step s l = Some (s', e) -> client_ok v e -> memory_ok v e /\ exists who', inv s' (next v e) who'.
Proof.
  intros H Hs Hc. pose proof H as [].
  assert (Halive : forall t, In t (owners v) ->
            who = None /\ (forall u, pcs s u = Idle) /\ owners v <> [] /\ released s = false /\ destroyed v = 0%nat /\ deallocated v = 0%nat).
  { intros t Ht. destruct who as [w|].
    - destruct i_who0 as (Ho & _). rewrite Ho in Ht. contradiction.
    - destruct i_who0 as (A & [B|(B & _)]); [|rewrite B in Ht; contradiction]. tauto. }
  destruct l as [t|t|t d|t u|t|t]; cbn [step] in Hs; destruct (pcs s t) eqn:E; try discriminate; rewrite ?i_dyn0 in Hs; injection Hs as <- <-.
  - destruct Hc as [Hc1 Hc2]. destruct (Halive t Hc1) as (-> & A & B & C & D & F). rewrite C. split; [reflexivity|].
    exists None. constructor; cbn [static refCount destructor released pcs next owners dtor destroyed deallocated]; auto.
    + rewrite wrap32_small by lia. cbn [length]. lia.
    + rewrite wrap32_small by lia. lia.
    + split; [auto|]. left. repeat split; auto. discriminate.
  - cbn [client_ok] in Hc. destruct (Halive t Hc) as (-> & A & B & C & D & F). rewrite C. split; [split; [reflexivity|exact i_rc0]|].
    exists None. exact H.
  - cbn [client_ok] in Hc. destruct (Halive t Hc) as (-> & A & B & C & D & F). rewrite C. split; [reflexivity|].
    exists None. constructor; cbn [static refCount destructor released pcs next owners dtor destroyed deallocated]; auto.
    split; [auto|]. left. repeat split; auto.
  - cbn [client_ok] in Hc. destruct (Halive t Hc) as (-> & A & B & C & D & F). split; [exact I|].
    exists None. constructor; cbn [static refCount destructor released pcs next owners dtor destroyed deallocated]; auto.
    + rewrite i_rc0, (take_one_length t _ Hc). reflexivity.
    + split; [auto|]. left. repeat split; auto. discriminate.
  - cbn [client_ok] in Hc. destruct (Halive t Hc) as (-> & A & B & C & D & F). rewrite C. split; [reflexivity|].
    pose proof (take_one_length t _ Hc) as Hl. rewrite wrap32_small by lia.
    destruct (take_one t (owners v)) as [|w r] eqn:Er; cbn [length] in Hl.
    + exists (Some t). replace (refCount s - 1 =? 0) with true by (symmetry; apply Z.eqb_eq; lia).
      constructor; cbn [static refCount destructor released pcs next owners dtor destroyed deallocated]; auto; rewrite ?Er; try (cbn [length]; lia).
      refine (conj eq_refl (conj eq_refl (conj F (conj _ _)))); [left; now rewrite tset_eq|].
      intros u Hu. rewrite tset_ne by auto. auto.
    + exists None. replace (refCount s - 1 =? 0) with false by (symmetry; apply Z.eqb_neq; lia).
      constructor; cbn [static refCount destructor released pcs next owners dtor destroyed deallocated]; auto; rewrite ?Er; try (cbn [length]; lia).
      split; [auto|]. left. repeat split; auto. discriminate.
  - destruct who as [w|]; [|destruct i_who0 as [A _]; rewrite A in E; discriminate].
    destruct i_who0 as (A & B & C & D & F).
    assert (w = t) as -> by (destruct (Nat.eq_dec w t); [auto|rewrite F in E by auto; discriminate]).
    destruct D as [[D1 D2]|[D1 D2]]; [|congruence].
    split; [cbn [memory_ok]; auto|]. exists (Some t).
    constructor; cbn [static refCount destructor released pcs next owners dtor destroyed deallocated]; auto.
    refine (conj A (conj B (conj C (conj _ _)))); [right; rewrite tset_eq; split; auto|].
    intros u Hu. rewrite tset_ne by auto. auto.
  - destruct who as [w|]; [|destruct i_who0 as [A _]; rewrite A in E; discriminate].
    destruct i_who0 as (A & B & C & D & F).
    assert (w = t) as -> by (destruct (Nat.eq_dec w t); [auto|rewrite F in E by auto; discriminate]).
    destruct D as [[D1 D2]|[D1 D2]]; [congruence|].
    split; [cbn [memory_ok]; auto|]. exists None.
    constructor; cbn [static refCount destructor released pcs next owners dtor destroyed deallocated]; auto.
    split; [|right; auto]. intros u. thr u t; auto.
Qed.

Lemma run_inv ls : forall s v who s' es,
  inv s v who -> run s ls = Some (s', es) -> all client_ok v es ->
  all memory_ok v es /\ exists who', inv s' (fold_left next es v) who'.
Proof.
  induction ls as [|l ls IH]; intros s v who s' es Hg; cbn [run].
  - intros [= <- <-] _. split; [exact I|eauto].
  - destruct (step s l) as [[s1 e]|] eqn:E; [|discriminate].
    destruct (run s1 ls) as [[s2 es2]|] eqn:E2; [|discriminate].
    intros [= <- <-] [Hc1 Hc2]. destruct (step_inv _ _ _ _ _ _ Hg E Hc1) as [A [w B]].
    destruct (IH _ _ _ _ _ B E2 Hc2) as [C D]. split; [split; auto|exact D].
Qed.

Lemma static_step s v l s' e :
  static s = true -> released s = false -> (forall t, pcs s t = Idle) -> step s l = Some (s', e) ->
  static_ok v e /\ static s' = true /\ released s' = false /\ forall t, pcs s' t = Idle.
Proof.
  intros H1 H2 H3 Hs. destruct l as [t|t|t d|t u|t|t]; cbn [step] in Hs; rewrite H3, ?H1, ?H2 in Hs; try discriminate;
    injection Hs as <- <-; cbn; auto.
Qed.

Lemma static_run ls : forall s v s' es,
  static s = true -> released s = false -> (forall t, pcs s t = Idle) -> run s ls = Some (s', es) -> all static_ok v es.
Proof.
  induction ls as [|l ls IH]; intros s v s' es H1 H2 H3; cbn [run].
  - intros [= <- <-]. exact I.
  - destruct (step s l) as [[s1 e]|] eqn:E; [|discriminate].
    destruct (run s1 ls) as [[s2 es2]|] eqn:E2; [|discriminate].
    intros [= <- <-]. destruct (static_step _ v _ _ _ H1 H2 H3 E) as (A & B & C & D). split; [exact A|]. eapply IH; eauto.
Qed.
