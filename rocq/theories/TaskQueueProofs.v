From Coq Require Permutation.
From Verif Require Import Base TaskQueueModel TaskQueueSpec.

Lemma tset_eq {X} (f : nat -> X) t x : tset f t x t = x.
Proof. unfold tset. now rewrite Nat.eqb_refl. Qed.
Lemma tset_ne {X} (f : nat -> X) t x u : u <> t -> tset f t x u = f u.
Proof. intros. unfold tset. now rewrite (proj2 (Nat.eqb_neq u t)). Qed.
Ltac thr u t := destruct (Nat.eq_dec u t) as [->|?]; [rewrite ?tset_eq in *|rewrite ?tset_ne in * by auto].

Definition pend (p : pc) : option nat := match p with PopLast x | PopUnlock x | PopCount x => Some x | _ => None end.
Definition pushing (p : pc) : bool := match p with PushCount => true | _ => false end.
Definition popping (p : pc) : bool := match pend p with Some _ => true | None => false end.
Definition crit (p : pc) : bool :=
  match p with PopTest | PopQueue | PopNull | PopLast _ | PopUnlock _ => true | _ => false end.

(** [A], [B]: the pushers and the poppers whose change of the queue is not yet counted. *)
Record ginv (s : state) (v : view) (A B : list nat) : Prop := {
  g_q : queued v = tasks s;
  g_nd : NoDup (taken v ++ queued v);
  g_pend : forall t x, pend (pcs s t) = Some x -> In x (taken v) /\ ~ In x (returned v);
  g_uniq : forall t u x, pend (pcs s t) = Some x -> pend (pcs s u) = Some x -> t = u;
  g_ret : forall x, In x (returned v) -> In x (taken v);
  g_A : NoDup A; g_B : NoDup B;
  g_inA : forall t, In t A <-> pushing (pcs s t) = true;
  g_inB : forall t, In t B <-> popping (pcs s t) = true;
  g_calls : forall t, pushing (pcs s t) = true \/ popping (pcs s t) = true -> In t (calls v);
  g_count : ((count s + N.of_nat (length A)) mod w64 = N.of_nat (length (tasks s) + length B) mod w64)%N;
  g_lt : (count s < w64)%N
}.

Lemma init_ginv : ginv init start [] [].
Proof. constructor; cbn; try discriminate; try (now constructor); try contradiction; intuition discriminate. Qed.

Lemma go_ginv s s' v A B t p :
  ginv s v A B -> pcs s' = tset (pcs s) t p -> pend p = pend (pcs s t) -> pushing p = pushing (pcs s t) ->
  tasks s' = tasks s -> count s' = count s -> ginv s' v A B.
Proof.
  intros [] Hp H1 H2 Hq Hc. assert (H3 : popping p = popping (pcs s t)) by (unfold popping; now rewrite H1).
  constructor; rewrite ?Hq, ?Hc, ?Hp; auto.
  - intros u x. thr u t; [rewrite H1|]; apply g_pend0.
  - intros u w x. thr u t; thr w t; rewrite ?H1; auto; apply g_uniq0.
  - intros u. thr u t; [rewrite H2|]; apply g_inA0.
  - intros u. thr u t; [rewrite H3|]; apply g_inB0.
  - intros u. thr u t; [rewrite H2, H3|]; apply g_calls0.
Qed.

Lemma add1_mod a b k : ((a + b) mod w64 = k mod w64 -> (a + N.succ b) mod w64 = N.succ k mod w64)%N.
Proof.
  intros H. replace (a + N.succ b)%N with (a + b + 1)%N by lia. replace (N.succ k) with (k + 1)%N by lia.
  rewrite N.add_mod, H, <- N.add_mod by discriminate. reflexivity.
Qed.

Lemma step_ginv r s v A B l s' e :
  ginv s v A B -> step r s l = Some (s', e) -> client_ok v e -> fifo_ok v e /\ empty_ok v e /\ exists A' B', ginv s' (next v e) A' B'.
Proof.
  intros Hg. pose proof Hg as []. destruct l as [t x|t|t|t|x|x|t]; cbn [step].
  - (* push *)
    destruct (pcs s t) eqn:E; try discriminate. intros [= <- <-] [Hc1 Hc2]. split; [exact I|]. split; [exact I|].
    exists (t :: A), B.
    constructor; cbn [go set_tasks tasks count pcs next queued taken returned calls]; auto.
    + now rewrite g_q0.
    + rewrite app_assoc. apply NoDup_snoc; auto. rewrite in_app_iff. tauto.
    + intros u y. thr u t; [discriminate|apply g_pend0].
    + intros u w y. thr u t; [discriminate|]. thr w t; [discriminate|apply g_uniq0].
    + constructor; auto. rewrite g_inA0, E. discriminate.
    + intros u. cbn. rewrite g_inA0. thr u t; [cbn; tauto|]. intuition congruence.
    + intros u. rewrite g_inB0. thr u t; [rewrite E; reflexivity|reflexivity].
    + intros u. thr u t; [now left|]. intros H. right. auto.
    + rewrite app_length. cbn [length]. rewrite Nat2N.inj_succ.
      replace (N.of_nat (length (tasks s) + 1 + length B)) with (N.succ (N.of_nat (length (tasks s) + length B))) by lia.
      now apply add1_mod.
  - destruct (pcs s t) eqn:E; try discriminate. destruct r; [destruct (lock s)|]; intros [= <- <-] _;
      (split; [exact I|]); (split; [exact I|]); exists A, B; auto; (eapply go_ginv; [exact Hg|reflexivity|..]; try reflexivity; now rewrite E).
  - destruct (pcs s t) eqn:E; try discriminate.
    + (* counting a push *)
      intros [= <- <-] _. split; [exact I|]. split; [exact I|].
      assert (Ht : In t A) by (apply g_inA0; now rewrite E).
      exists (remove Nat.eq_dec t A), B.
      constructor; cbn [go set_count tasks count pcs next queued taken returned calls]; auto.
      * intros u y. thr u t; [discriminate|apply g_pend0].
      * intros u w y. thr u t; [discriminate|]. thr w t; [discriminate|apply g_uniq0].
      * now apply remove_NoDup.
      * intros u. rewrite in_remove_iff, g_inA0. thr u t; [cbn; intuition congruence|tauto].
      * intros u. rewrite g_inB0. thr u t; [rewrite E; cbn; tauto|tauto].
      * intros u. thr u t; [cbn; intuition congruence|]. intros H. apply in_remove_iff. auto.
      * rewrite <- g_count0. pose proof (remove_length_NoDup Nat.eq_dec t A g_A0 Ht) as HL.
        rewrite N.add_mod_idemp_l by discriminate. f_equal. lia.
      * apply N.mod_lt. discriminate.
    + destruct (last s) as [x|]; [destruct (completed s x)|]; intros [= <- <-] _; (split; [exact I|]); (split; [exact I|]);
        exists A, B; (eapply go_ginv; [exact Hg|reflexivity|..]; try reflexivity; now rewrite E).
    + destruct (tasks s) as [|x q] eqn:Eq.
      * intros [= <- <-] _. split; [exact I|]. split; [exact I|]. exists A, B. (eapply go_ginv; [exact Hg|reflexivity|..]; try reflexivity; now rewrite E).
      * intros [= <- <-] _. split; [|split; [exact I|]].
        { split; [now rewrite g_q0|]. intros H. rewrite g_q0 in g_nd0. apply NoDup_remove_2 in g_nd0. rewrite in_app_iff in g_nd0. auto. }
        assert (Hx : ~ In x (taken v)).
        { intros H. rewrite g_q0 in g_nd0. apply NoDup_remove_2 in g_nd0. rewrite in_app_iff in g_nd0. auto. }
        assert (Hp : pend (if r then PopLast x else PopCount x) = Some x) by now destruct r.
        assert (Hp2 : popping (if r then PopLast x else PopCount x) = true) by now destruct r.
        assert (Hp3 : pushing (if r then PopLast x else PopCount x) = false) by now destruct r.
        exists A, (t :: B).
        constructor; cbn [go set_tasks tasks count pcs next queued taken returned calls]; auto.
        -- now rewrite g_q0.
        -- rewrite g_q0 in *. cbn [tl]. apply (Permutation.Permutation_NoDup (l := taken v ++ x :: q)); [|auto].
           symmetry. apply Permutation.Permutation_middle.
        -- intros u y. thr u t; [rewrite Hp; intros [= <-]|intros H; destruct (g_pend0 _ _ H); split; [now right|auto]].
           split; [now left|]. intros H. apply Hx. auto.
        -- intros u w y. thr u t; thr w t; auto; try (intros; eapply g_uniq0; eassumption).
           ++ rewrite Hp. intros [= <-] H. destruct (g_pend0 _ _ H). contradiction.
           ++ rewrite Hp. intros H [= <-]. destruct (g_pend0 _ _ H). contradiction.
        -- intros y H. right. auto.
        -- constructor; auto. rewrite g_inB0, E. discriminate.
        -- intros u. rewrite g_inA0. thr u t; [rewrite E, Hp3; reflexivity|reflexivity].
        -- intros u. cbn [In]. rewrite g_inB0. thr u t; [rewrite Hp2; tauto|]. intuition congruence.
        -- intros u. thr u t; [now left|]. intros H. right. auto.
        -- rewrite g_count0. f_equal. cbn [length]. lia.
    + intros [= <- <-] _. split; [exact I|]. split; [exact I|]. exists A, B. (eapply go_ginv; [exact Hg|reflexivity|..]; try reflexivity; now rewrite E).
    + intros [= <- <-] _. split; [exact I|]. split; [exact I|]. exists A, B. (eapply go_ginv; [exact Hg|reflexivity|..]; try reflexivity; now rewrite E).
    + intros [= <- <-] _. split; [exact I|]. split; [exact I|]. exists A, B. (eapply go_ginv; [exact Hg|reflexivity|..]; try reflexivity; now rewrite E).
    + (* uncounting a pop *)
      intros [= <- <-] _. destruct (g_pend0 t x) as [Hx1 Hx2]; [now rewrite E|]. split; [split; auto|]. split; [exact I|].
      assert (Ht : In t B) by (apply g_inB0; now rewrite E).
      exists A, (remove Nat.eq_dec t B).
      constructor; cbn [go set_count tasks count pcs next queued taken returned calls]; auto.
      * intros u y. thr u t; [discriminate|]. intros H. destruct (g_pend0 _ _ H). split; [auto|].
        intros [<-|H3]; [|auto]. assert (u = t) by (apply (g_uniq0 u t x); [auto|now rewrite E]). auto.
      * intros u w y. thr u t; [discriminate|]. thr w t; [discriminate|apply g_uniq0].
      * intros y [<-|H]; auto.
      * now apply remove_NoDup.
      * intros u. rewrite g_inA0. thr u t; [rewrite E; cbn; tauto|tauto].
      * intros u. rewrite in_remove_iff, g_inB0. thr u t; [cbn; intuition congruence|tauto].
      * intros u. thr u t; [cbn; intuition congruence|]. intros H. apply in_remove_iff. auto.
      * pose proof (remove_length_NoDup Nat.eq_dec t B g_B0 Ht) as HL.
        rewrite N.add_mod_idemp_l by discriminate. change 18446744073709551615%N with (w64 - 1)%N.
        replace (count s + (w64 - 1) + N.of_nat (length A))%N with (count s + N.of_nat (length A) + (w64 - 1))%N by lia.
        rewrite <- (N.add_mod_idemp_l (count s + _)), g_count0, N.add_mod_idemp_l by discriminate.
        replace (N.of_nat (length (tasks s) + length B) + (w64 - 1))%N
          with (N.of_nat (length (tasks s) + length (remove Nat.eq_dec t B)) + 1 * w64)%N by lia.
        apply N.mod_add. discriminate.
      * apply N.mod_lt. discriminate.
  - destruct (pcs s t) eqn:E; try discriminate. intros [= <- <-] _. split; [exact I|]. split; [exact I|].
    exists A, B. (eapply go_ginv; [exact Hg|reflexivity|..]; try reflexivity; now rewrite E).
  - intros [= <- <-] _. split; [exact I|]. split; [exact I|]. exists A, B. constructor; auto.
  - destruct (running s x); [discriminate|]. intros [= <- <-] _. split; [exact I|]. split; [exact I|]. exists A, B. constructor; auto.
  - destruct (pcs s t) eqn:E; try discriminate. intros [= <- <-] _. split; [exact I|]. split; [|exists A, B; auto].
    cbn [empty_ok]. intros Hcalls Hlen. rewrite Hcalls in g_calls0.
    assert (A = []) as -> by (destruct A as [|a A]; [auto|]; exfalso; apply (g_calls0 a); left; apply g_inA0; now left).
    assert (B = []) as -> by (destruct B as [|a B]; [auto|]; exfalso; apply (g_calls0 a); right; apply g_inB0; now left).
    cbn [length] in g_count0. rewrite Nat.add_0_r in g_count0. rewrite N.add_0_r in g_count0.
    rewrite g_q0 in *. rewrite (N.mod_small (count s)), (N.mod_small (N.of_nat _)) in g_count0 by auto.
    rewrite N.eqb_eq, g_count0. destruct (tasks s); cbn; [tauto|]. split; [lia|discriminate].
Qed.

Record sinv (s : state) (v : view) : Prop := {
  s_comp : forall x, completed s x = true -> In x (ended v);
  s_run : forall x, running s x <> 0 -> In x (started v);
  s_end : forall x, In x (ended v) -> In x (started v);
  s_st : forall x, In x (started v) -> In x (returned v);
  s_crit : forall t, crit (pcs s t) = true -> lock s = true;
  s_excl : forall t u, crit (pcs s t) = true -> crit (pcs s u) = true -> t = u;
  s_last : forall x, last s = Some x -> In x (taken v);
  s_done : forall y, In y (taken v) -> In y (ended v) \/ last s = Some y \/ exists t, pcs s t = PopLast y;
  s_pq : forall t, (pcs s t = PopQueue \/ exists x, pcs s t = PopLast x) -> last s = None;
  s_one : forall t x, pend (pcs s t) = Some x -> forall y, In y (taken v) -> y <> x -> In y (ended v)
}.

Lemma init_sinv : sinv init start.
Proof. constructor; cbn; try discriminate; try contradiction; auto. Qed.

Lemma pq_crit p : (p = PopQueue \/ exists x, p = PopLast x) -> crit p = true.
Proof. intros [->|[x ->]]; reflexivity. Qed.

(** A lock holder moves inside the critical section. *)
Lemma in_sinv s v t p :
  sinv s v -> crit (pcs s t) = true -> crit p = true -> pend p = pend (pcs s t) ->
  (forall x, pcs s t = PopLast x -> p = PopLast x) ->
  (p = PopQueue \/ (exists x, p = PopLast x) -> last s = None) -> sinv (go s t p) v.
Proof.
  intros [] Hc Hp He Hl Hq. constructor; cbn [go completed running lock last pcs]; auto.
  - intros u. thr u t; eauto.
  - intros u w. thr u t; thr w t; auto.
  - intros y Hy. destruct (s_done0 y Hy) as [H|[H|[u H]]]; auto. right. right. exists u. thr u t; auto.
  - intros u. thr u t; auto. intros H. eapply s_pq0; eauto.
  - intros u x. thr u t; [rewrite He|]; apply s_one0.
Qed.

Lemma step_sinv s v A B l s' e :
  ginv s v A B -> sinv s v -> step true s l = Some (s', e) -> client_ok v e -> serial_ok v e /\ sinv s' (next v e).
Proof.
  intros Hg Hs. pose proof Hs as []. destruct l as [t x|t|t|t|x|x|t]; cbn [step].
  - destruct (pcs s t) eqn:E; try discriminate. intros [= <- <-] _. split; [exact I|].
    constructor; cbn [go set_tasks completed running lock last pcs next taken returned started ended]; auto.
    + intros u. thr u t; [discriminate|apply s_crit0].
    + intros u w. thr u t; [discriminate|]. thr w t; [discriminate|apply s_excl0].
    + intros y Hy. destruct (s_done0 y Hy) as [H|[H|[u H]]]; auto. right. right. exists u. thr u t; [congruence|auto].
    + intros u. thr u t; [intros [H|[y H]]; discriminate|apply s_pq0].
    + intros u y. thr u t; [discriminate|apply s_one0].
  - destruct (pcs s t) eqn:E; try discriminate. destruct (lock s) eqn:El; intros [= <- <-] _; (split; [exact I|]); [exact Hs|].
    assert (Hn : forall u, crit (pcs s u) = true -> False) by (intros u H; specialize (s_crit0 u H); congruence).
    constructor; cbn [go set_lock completed running lock last pcs next taken returned started ended]; auto.
    + intros u w. thr u t; thr w t; auto; intros H1 H2; try (destruct (Hn _ H1)); destruct (Hn _ H2).
    + intros y Hy. destruct (s_done0 y Hy) as [H|[H|[u H]]]; auto. right. right. exists u. thr u t; [congruence|auto].
    + intros u. thr u t; [intros [H|[y H]]; discriminate|apply s_pq0].
    + intros u y. thr u t; [discriminate|apply s_one0].
  - destruct (pcs s t) eqn:E; try discriminate.
    + intros [= <- <-] _. split; [exact I|].
      constructor; cbn [go set_count completed running lock last pcs next taken returned started ended]; auto.
      * intros u. thr u t; [discriminate|apply s_crit0].
      * intros u w. thr u t; [discriminate|]. thr w t; [discriminate|apply s_excl0].
      * intros y Hy. destruct (s_done0 y Hy) as [H|[H|[u H]]]; auto. right. right. exists u. thr u t; [congruence|auto].
      * intros u. thr u t; [intros [H|[y H]]; discriminate|apply s_pq0].
      * intros u y. thr u t; [discriminate|apply s_one0].
    + destruct (last s) as [x|] eqn:El; [destruct (completed s x) eqn:Ec|]; intros [= <- <-] _; (split; [exact I|]).
      * assert (Hs2 : sinv (set_last s None) v).
        { constructor; cbn [set_last completed running lock last pcs]; auto; [discriminate|].
          intros y Hy. destruct (s_done0 y Hy) as [H|[H|H]]; auto. injection H as <-. auto. }
        apply in_sinv; cbn [set_last pcs last]; rewrite ?E; auto; discriminate.
      * apply in_sinv; rewrite ?E; auto; try discriminate; intros [H|[y H]]; discriminate.
      * apply in_sinv; rewrite ?E; auto; discriminate.
    + assert (El : last s = None) by (apply (s_pq0 t); auto).
      assert (Hall : forall y, In y (taken v) -> In y (ended v)).
      { intros y Hy. destruct (s_done0 y Hy) as [H|[H|[u H]]]; [auto|congruence|].
        assert (u = t) by (apply s_excl0; [now rewrite H|now rewrite E]). congruence. }
      destruct (tasks s) as [|x q] eqn:Eq; intros [= <- <-] _.
      * split; [exact I|]. apply in_sinv; rewrite ?E; auto; try discriminate; intros [H|[y H]]; discriminate.
      * split; [exact Hall|].
        constructor; cbn [go set_tasks completed running lock last pcs next taken returned started ended]; auto.
        -- intros u. thr u t; [intros _; apply (s_crit0 t); now rewrite E|apply s_crit0].
        -- intros u w. thr u t; thr w t; auto; intros H1 H2; apply s_excl0; auto; now rewrite E.
        -- intros y Hy. right. auto.
        -- intros y [<-|Hy]; [right; right; exists t; now rewrite tset_eq|auto].
        -- intros u z. thr u t; [intros [= <-] y [<-|Hy] Hne; [congruence|auto]|].
           intros H. exfalso. destruct (g_pend s v A B Hg u z H) as [H1 H2]. apply H2. auto.
    + intros [= <- <-] _. split; [exact I|].
      assert (Hn : forall u, u <> t -> crit (pcs s u) = true -> False)
        by (intros u Hu H; apply Hu; apply s_excl0; [auto|now rewrite E]).
      constructor; cbn [go set_lock completed running lock last pcs next taken returned started ended]; auto.
      * intros u. thr u t; [discriminate|]. intros H. exfalso. eauto.
      * intros u w. thr u t; [discriminate|]. thr w t; [discriminate|apply s_excl0].
      * intros y Hy. destruct (s_done0 y Hy) as [H|[H|[u H]]]; auto. right. right. exists u. thr u t; [congruence|auto].
      * intros u. thr u t; [intros [H|[y H]]; discriminate|apply s_pq0].
      * intros u y. thr u t; [discriminate|apply s_one0].
    + intros [= <- <-] _. split; [exact I|].
      assert (El : last s = None) by (apply (s_pq0 t); eauto).
      assert (Hn : forall u, u <> t -> crit (pcs s u) = true -> False)
        by (intros u Hu H; apply Hu; apply s_excl0; [auto|now rewrite E]).
      constructor; cbn [go set_last completed running lock last pcs next taken returned started ended]; auto.
      * intros u. thr u t; [intros _; apply (s_crit0 t); now rewrite E|apply s_crit0].
      * intros u w. thr u t; thr w t; auto; intros H1 H2; apply s_excl0; auto; now rewrite E.
      * intros y [= <-]. apply (g_pend s v A B Hg t). now rewrite E.
      * intros y Hy. destruct (s_done0 y Hy) as [H|[H|[u H]]]; auto; [congruence|].
        assert (u = t) by (apply s_excl0; [now rewrite H|now rewrite E]). subst u. rewrite E in H. injection H as <-. auto.
      * intros u. thr u t; [intros [H|[y H]]; discriminate|]. intros H. exfalso. apply (Hn u); auto. now apply pq_crit.
      * intros u y. thr u t; [intros [= <-]; apply (s_one0 t); now rewrite E|apply s_one0].
    + intros [= <- <-] _. split; [exact I|].
      assert (Hn : forall u, u <> t -> crit (pcs s u) = true -> False)
        by (intros u Hu H; apply Hu; apply s_excl0; [auto|now rewrite E]).
      constructor; cbn [go set_lock completed running lock last pcs next taken returned started ended]; auto.
      * intros u. thr u t; [discriminate|]. intros H. exfalso. eauto.
      * intros u w. thr u t; [discriminate|]. thr w t; [discriminate|apply s_excl0].
      * intros y Hy. destruct (s_done0 y Hy) as [H|[H|[u H]]]; auto. right. right. exists u. thr u t; [congruence|auto].
      * intros u. thr u t; [intros [H|[y H]]; discriminate|apply s_pq0].
      * intros u y. thr u t; [intros [= <-]; apply (s_one0 t); now rewrite E|apply s_one0].
    + intros [= <- <-] _. split; [cbn [serial_ok]; intros y; apply (s_one0 t); now rewrite E|].
      constructor; cbn [go set_count completed running lock last pcs next taken returned started ended]; auto.
      * intros y Hy. right. auto.
      * intros u. thr u t; [discriminate|apply s_crit0].
      * intros u w. thr u t; [discriminate|]. thr w t; [discriminate|apply s_excl0].
      * intros y Hy. destruct (s_done0 y Hy) as [H|[H|[u H]]]; auto. right. right. exists u. thr u t; [congruence|auto].
      * intros u. thr u t; [intros [H|[y H]]; discriminate|apply s_pq0].
      * intros u y. thr u t; [discriminate|apply s_one0].
  - destruct (pcs s t) eqn:E; try discriminate. intros [= <- <-] _. split; [exact I|].
    apply in_sinv; rewrite ?E; auto; try discriminate; intros [H|[y H]]; discriminate.
  - intros [= <- <-] [Hc1 Hc2]. split; [exact I|].
    constructor; cbn [completed running lock last pcs next taken returned started ended]; auto.
    + intros y. thr y x; [discriminate|auto].
    + intros y. thr y x; [now left|right; auto].
    + intros y Hy. right. auto.
    + intros y [<-|Hy]; auto.
  - destruct (running s x) eqn:Er; [discriminate|]. intros [= <- <-] _. split; [exact I|].
    constructor; cbn [completed running lock last pcs next taken returned started ended]; auto.
    + intros y. thr y x; [now left|right; auto].
    + intros y. thr y x; [intros _; apply s_run0; lia|auto].
    + intros y [<-|Hy]; [apply s_run0; lia|auto].
    + intros y Hy. destruct (s_done0 y Hy) as [H|[H|H]]; auto. left. now right.
    + intros u y H z Hz Hne. right. eauto.
  - destruct (pcs s t) eqn:E; try discriminate. intros [= <- <-] _. split; [exact I|exact Hs].
Qed.

Lemma run_g r ls : forall s v A B s' es,
  ginv s v A B -> run r s ls = Some (s', es) -> all client_ok v es -> all fifo_ok v es /\ all empty_ok v es.
Proof.
  induction ls as [|l ls IH]; cbn [run]; intros s v A B s' es Hi.
  - intros [= <- <-] _. cbn. auto.
  - destruct (step r s l) as [[s1 e]|] eqn:E; [|discriminate]. destruct (run r s1 ls) as [[s2 es2]|] eqn:E2; [|discriminate].
    intros [= <- <-] [Hc Hcs]. destruct (step_ginv _ _ _ _ _ _ _ _ Hi E Hc) as (H1 & H2 & A' & B' & H3).
    destruct (IH _ _ _ _ _ _ H3 E2 Hcs). cbn [all]. auto.
Qed.

Lemma run_s ls : forall s v A B s' es,
  ginv s v A B -> sinv s v -> run true s ls = Some (s', es) -> all client_ok v es -> all serial_ok v es.
Proof.
  induction ls as [|l ls IH]; cbn [run]; intros s v A B s' es Hi Hs.
  - intros [= <- <-] _. cbn. auto.
  - destruct (step true s l) as [[s1 e]|] eqn:E; [|discriminate]. destruct (run true s1 ls) as [[s2 es2]|] eqn:E2; [|discriminate].
    intros [= <- <-] [Hc Hcs]. destruct (step_ginv _ _ _ _ _ _ _ _ Hi E Hc) as (H1 & H2 & A' & B' & H3).
    destruct (step_sinv _ _ _ _ _ _ _ Hi Hs E Hc) as (H4 & H5).
    cbn [all]. split; [auto|]. exact (IH _ _ _ _ _ _ H3 H5 E2 Hcs).
Qed.
