From Verif Require Import Base TaskModel TaskSpec.
Local Open Scope N_scope.

Record inv (s : state) (v : view) : Prop := {
  i_nd : NoDup (running v);
  i_run : forall t, In t (running v) <-> pcs s t <> Out;
  i_call : forall t, In t (calling v) <-> pcs s t = InFunction;
  i_ex : executions s = N.of_nat (length (running v));
  i_lt : executions s < 2 ^ 32;
  i_done : completed s = true <-> finished v;
  i_ret : (0 < ended v -> 0 < returned v)%nat;
  i_cret : forall t, pcs s t = Returned -> (0 < returned v)%nat;
  i_out : output s = written v
}.

Lemma tset_eq {X} (f : nat -> X) t x : tset f t x t = x.
Proof. unfold tset. now rewrite Nat.eqb_refl. Qed.
Lemma tset_ne {X} (f : nat -> X) t x u : u <> t -> tset f t x u = f u.
Proof. intros. unfold tset. now rewrite (proj2 (Nat.eqb_neq u t)). Qed.
Ltac thr u t := destruct (Nat.eq_dec u t) as [->|?]; [rewrite ?tset_eq in *|rewrite ?tset_ne in * by auto].

Lemma init_inv : inv init start.
Proof.
  constructor; cbn; auto; try lia; try discriminate.
  - constructor.
  - intros t. split; [tauto|congruence].
  - intros t. split; [tauto|congruence].
  - unfold finished. cbn. split; [discriminate|lia].
Qed.

Lemma not_running_not_calling s v : inv s v -> running v = [] -> calling v = [].
Proof.
  intros [] E. destruct (calling v) as [|t l] eqn:Ec; [reflexivity|].
  assert (pcs s t = InFunction) by (apply i_call0; left; reflexivity).
  assert (H1 : In t (running v)) by (apply i_run0; congruence). rewrite E in H1. contradiction.
Qed.

Lemma step_inv s v l s' e :
  inv s v -> step s l = Some (s', e) -> client_ok v e -> task_ok v e /\ inv s' (next v e).
Proof.
  intros H Hs Hc. pose proof (not_running_not_calling s v H) as Hnc. pose proof H as [].
  destruct l as [t|t|t w|t|t|t|t]; cbn [step] in Hs.
  - destruct (pcs s t) eqn:E; try discriminate. injection Hs as <- <-. split; [exact I|].
    cbn [client_ok] in Hc.
    assert (Hx : (executions s + 1) mod 2 ^ 32 = executions s + 1) by (apply N.mod_small; lia).
    constructor; cbn [executions completed output pcs next running calling returned ended written]; rewrite ?Hx; auto.
    + constructor; [|auto]. rewrite i_run0. congruence.
    + intros u. cbn [In]. rewrite i_run0. thr u t; [split; [discriminate|auto]|]. split; [intros [?|?]; congruence|auto].
    + intros u. rewrite i_call0. thr u t; [rewrite E|tauto]. split; discriminate.
    + cbn [length]. lia.
    + cbn [length] in Hc. lia.
    + unfold finished. cbn [running]. split; [discriminate|intros []; discriminate].
    + intros u. thr u t; [discriminate|apply i_cret0].
  - destruct (pcs s t) eqn:E; try discriminate. injection Hs as <- <-. split; [exact I|].
    constructor; cbn [executions completed output pcs next running calling returned ended written]; auto.
    + intros u. rewrite i_run0. thr u t; [rewrite E; split; discriminate|tauto].
    + intros u. cbn [In]. rewrite i_call0. thr u t; [tauto|]. split; [intros [?|?]; congruence|auto].
    + intros u. thr u t; [discriminate|apply i_cret0].
  - destruct (pcs s t) eqn:E; try discriminate. injection Hs as <- <-. split; [exact I|].
    constructor; cbn [executions completed output pcs next running calling returned ended written]; auto; try lia.
    + intros u. rewrite i_run0. thr u t; [rewrite E; split; discriminate|tauto].
    + intros u. unfold drop. rewrite in_remove_iff, i_call0. thr u t; [split; [intros []; congruence|discriminate]|tauto].
  - destruct (pcs s t) eqn:E; try discriminate. injection Hs as <- <-. split; [exact I|].
    assert (Hin : In t (running v)) by (apply i_run0; congruence).
    pose proof (remove_length_NoDup Nat.eq_dec t (running v) i_nd0 Hin) as Hlen. fold (drop t (running v)) in Hlen.
    constructor; cbn [executions completed output pcs next running calling returned ended written]; auto.
    + apply remove_NoDup. auto.
    + intros u. unfold drop. rewrite in_remove_iff, i_run0. thr u t; [split; [tauto|congruence]|tauto].
    + intros u. rewrite i_call0. thr u t; [rewrite E; split; discriminate|tauto].
    + rewrite i_ex0, Hlen. change (N.pos (2 ^ 32)) with 4294967296. change (2 ^ 32) with 4294967296 in *.
      replace (N.of_nat (S (length (drop t (running v)))) + 4294967295) with (N.of_nat (length (drop t (running v))) + 1 * 4294967296) by lia.
      rewrite N.mod_add by discriminate. apply N.mod_small. lia.
    + apply N.mod_lt. discriminate.
    + unfold finished. cbn [running ended]. rewrite N.eqb_eq, i_ex0, Hlen. destruct (drop t (running v)); cbn [length]; split; intros; try lia.
      * split; [reflexivity|lia].
      * destruct H0. discriminate.
    + intros _. exact (i_cret0 t E).
    + intros u. thr u t; [discriminate|apply i_cret0].
  - injection Hs as <- <-. split; [exact i_done0|exact H].
  - destruct (completed s) eqn:E; [|discriminate]. injection Hs as <- <-. split; [|exact H].
    assert (F : finished v) by tauto. destruct F as [F1 F2]. cbn [task_ok]. unfold finished, gt in *. auto 8.
  - destruct (completed s) eqn:E; [|discriminate]. injection Hs as <- <-. split; [|exact H].
    assert (F : finished v) by tauto. destruct F as [F1 F2]. cbn [task_ok]. unfold finished, gt in *. auto 8.
Qed.

Lemma run_inv ls : forall s v s' es,
  inv s v -> run s ls = Some (s', es) -> all client_ok v es -> all task_ok v es.
Proof.
  induction ls as [|l ls IH]; intros s v s' es Hg; cbn [run].
  - intros [= <- <-] _. exact I.
  - destruct (step s l) as [[s1 e]|] eqn:E; [|discriminate].
    destruct (run s1 ls) as [[s2 es2]|] eqn:E2; [|discriminate].
    intros [= <- <-] [Hc1 Hc2]. destruct (step_inv _ _ _ _ _ Hg E Hc1) as [A B].
    split; [exact A|]. exact (IH _ _ _ _ B E2 Hc2).
Qed.
