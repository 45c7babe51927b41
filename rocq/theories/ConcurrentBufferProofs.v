From Verif Require Import Base ConcurrentBufferModel ConcurrentBufferSpec.

Lemma total_app f a b : total f (a ++ b) = total f a + total f b.
Proof. unfold total. rewrite map_app, list_sum_app. reflexivity. Qed.


Lemma sum_set_pc f t p d n :
  f t = TIdle -> t < n ->
  list_sum (map (fun u => match set_pc f t (TDestroy p) u with TDestroy q => is d (Some q) | TIdle => 0 end) (seq 0 n))
  = is d (Some p) + list_sum (map (fun u => match f u with TDestroy q => is d (Some q) | TIdle => 0 end) (seq 0 n)).
Proof.
  intros Ht. induction n as [|n IH]; intros Hn; [lia|].
  rewrite seq_S, !map_app, !list_sum_app. cbn [map list_sum fold_right plus].
  unfold set_pc at 2. destruct (Nat.eqb_spec n t) as [->|Hne].
  - rewrite Ht.
    assert (E : forall l, (forall u, In u l -> u <> t) ->
      map (fun u => match set_pc f t (TDestroy p) u with TDestroy q => is d (Some q) | TIdle => 0 end) l =
      map (fun u => match f u with TDestroy q => is d (Some q) | TIdle => 0 end) l).
    { intros l Hl. apply map_ext_in. intros u Hu. unfold set_pc. destruct (Nat.eqb_spec u t); auto. subst. exfalso. eapply Hl; eauto. }
    rewrite E; [lia|]. intros u Hu. apply in_seq in Hu. lia.
  - rewrite IH by lia. lia.
Qed.

Lemma sum_clear_pc f t p d n :
  f t = TDestroy p -> t < n ->
  is d (Some p) + list_sum (map (fun u => match set_pc f t TIdle u with TDestroy q => is d (Some q) | TIdle => 0 end) (seq 0 n))
  = list_sum (map (fun u => match f u with TDestroy q => is d (Some q) | TIdle => 0 end) (seq 0 n)).
Proof.
  intros Ht. induction n as [|n IH]; intros Hn; [lia|].
  rewrite seq_S, !map_app, !list_sum_app. cbn [map list_sum fold_right plus].
  unfold set_pc at 2. destruct (Nat.eqb_spec n t) as [->|Hne].
  - rewrite Ht.
    assert (E : forall l, (forall u, In u l -> u <> t) ->
      map (fun u => match set_pc f t TIdle u with TDestroy q => is d (Some q) | TIdle => 0 end) l =
      map (fun u => match f u with TDestroy q => is d (Some q) | TIdle => 0 end) l).
    { intros l Hl. apply map_ext_in. intros u Hu. unfold set_pc. destruct (Nat.eqb_spec u t); auto. subst. exfalso. eapply Hl; eauto. }
    rewrite E; [lia|]. intros u Hu. apply in_seq in Hu. lia.
  - rewrite <- (IH ltac:(lia)). lia.
Qed.

Lemma doomed_set a b c pc t p d n a' b' c' :
  pc t = TIdle -> t < n ->
  doomed (mkState a b c (set_pc pc t (TDestroy p))) d n = is d (Some p) + doomed (mkState a' b' c' pc) d n.
Proof. intros. unfold doomed; cbn [pcs]. apply sum_set_pc; auto. Qed.

Lemma doomed_clear a b c pc t p d n a' b' c' :
  pc t = TDestroy p -> t < n ->
  is d (Some p) + doomed (mkState a b c (set_pc pc t TIdle)) d n = doomed (mkState a' b' c' pc) d n.
Proof. intros. unfold doomed; cbn [pcs]. apply sum_clear_pc; auto. Qed.

Lemma doomed_irrel a b c pc d n a' b' c' :
  doomed (mkState a b c pc) d n = doomed (mkState a' b' c' pc) d n.
Proof. reflexivity. Qed.


Definition balance (s : state) (es : list event) (n d : nat) : Prop :=
  total (put1 d) es =
    is d (data s) + doomed s d n + total (back1 d) es + total (destroyed1 d) es + total (dropped1 d) es.

Ltac rd := unfold total; cbn [map list_sum fold_right put1 back1 destroyed1 dropped1 is plus app].

Lemma step_balance s l s' e n d :
  step s l = Some (s', e) -> thread l < n ->
  total (put1 d) e + is d (data s) + doomed s d n =
  is d (data s') + doomed s' d n + total (back1 d) e + total (destroyed1 d) e + total (dropped1 d) e.
Proof.
  intros H Hn. destruct s as [ds da al pc]. cbn [step alive data destructor pcs] in *.
  destruct al; destruct l as [t o|t|t o|t|]; cbn [thread step alive data destructor pcs] in *; try discriminate.
  - destruct (pc t) eqn:E; [|discriminate]. destruct da as [p|]; [destruct ds|]; injection H as <- <-;
      cbn [data]; rd.
    + rewrite (doomed_set _ _ _ _ _ _ _ _ true (Some p) true) by auto. cbn [is]. lia.
    + rewrite (doomed_irrel _ o _ _ _ _ false (Some p) true). lia.
    + rewrite (doomed_irrel _ o _ _ _ _ ds None true). lia.
  - destruct (pc t) eqn:E; [discriminate|]. injection H as <- <-. cbn [data]. rd.
    pose proof (doomed_clear ds da true pc t p d n ds da true E Hn). cbn [is] in *. lia.
  - destruct (pc t) eqn:E; [|discriminate]. injection H as <- <-. cbn [data]. rd.
    rewrite (doomed_irrel _ o _ _ _ _ ds da true). lia.
  - destruct (pc t) eqn:E; [|discriminate]. injection H as <- <-. cbn [data]. rd.
    rewrite (doomed_irrel _ None _ _ _ _ ds da true). lia.
  - injection H as <- <-. cbn [data]. rewrite (doomed_irrel _ None _ _ _ _ ds da true).
    destruct ds; [|destruct da]; rd; lia.
  - destruct (pc t) eqn:E; [discriminate|]. injection H as <- <-. cbn [data]. rd.
    pose proof (doomed_clear ds da false pc t p d n ds da false E Hn). cbn [is] in *. lia.
Qed.

Lemma run_balance ls : forall s s' es n d,
  run s ls = Some (s', es) -> Forall (fun l => thread l < n) ls ->
  total (put1 d) es + is d (data s) + doomed s d n =
  is d (data s') + doomed s' d n + total (back1 d) es + total (destroyed1 d) es + total (dropped1 d) es.
Proof.
  induction ls as [|l t IH]; intros s s' es n d R F; cbn [run] in R.
  - injection R as <- <-. cbn. lia.
  - destruct (step s l) as [[s1 e]|] eqn:E; [|discriminate].
    destruct (run s1 t) as [[s2 es']|] eqn:E2; [|discriminate].
    injection R as <- <-. inversion F; subst. rewrite !total_app.
    pose proof (step_balance s l s1 e n d E ltac:(auto)). pose proof (IH s1 s2 es' n d E2 ltac:(auto)). lia.
Qed.

Lemma doomed_create b d n : doomed (create b) d n = 0.
Proof.
  unfold doomed, create; cbn [pcs]. induction (seq 0 n); cbn; auto.
Qed.

Lemma doomed_idle s d n : (forall t, pcs s t = TIdle) -> doomed s d n = 0.
Proof.
  intros H. unfold doomed. induction (seq 0 n) as [|u l IH]; cbn; auto. rewrite H. auto.
Qed.

Lemma threads_bound ls : exists n, Forall (fun l => thread l < n) ls.
Proof.
  induction ls as [|l t [n IH]]; [exists 0; constructor|].
  exists (Nat.max n (thread l + 1)). constructor; [lia|].
  eapply Forall_impl; [|exact IH]. cbn; lia.
Qed.

(** The content of the buffer, event by event. *)
Definition hold1 (c : option nat) (e : event) : option nat :=
  match e with EWrite d => d | ESwap d _ => d | ERead _ => None | EGone => None | _ => c end.

Definition returns_ok (c : option nat) (e : event) : Prop :=
  match e with ERead r => r = c | ESwap _ r => r = c | _ => True end.

Fixpoint all_ok (c : option nat) (es : list event) : Prop :=
  match es with [] => True | e :: t => returns_ok c e /\ all_ok (hold1 c e) t end.

Lemma all_ok_app a : forall c b, all_ok c a -> all_ok (fold_left hold1 a c) b -> all_ok c (a ++ b).
Proof. induction a as [|e t IH]; cbn; intros c b; [auto|]. intros [? ?] ?. split; auto. Qed.

Lemma step_ok s l s' e :
  step s l = Some (s', e) -> all_ok (data s) e /\ fold_left hold1 e (data s) = data s'.
Proof.
  destruct s as [ds da al pc]. cbn [step alive data destructor pcs].
  destruct al; destruct l as [t o|t|t o|t|]; cbn; try discriminate;
    try (destruct (pc t); try discriminate); intros H;
    try (destruct da; destruct ds); injection H as <- <-; cbn; auto.
Qed.

Lemma run_ok ls : forall s s' es,
  run s ls = Some (s', es) -> all_ok (data s) es /\ fold_left hold1 es (data s) = data s'.
Proof.
  induction ls as [|l t IH]; intros s s' es R; cbn [run] in R.
  - injection R as <- <-. cbn. auto.
  - destruct (step s l) as [[s1 e]|] eqn:E; [|discriminate].
    destruct (run s1 t) as [[s2 es']|] eqn:E2; [|discriminate].
    injection R as <- <-. destruct (step_ok s l s1 e E) as [O1 F1]. destruct (IH s1 s2 es' E2) as [O2 F2].
    rewrite fold_left_app, F1. split; auto. apply all_ok_app; auto. rewrite F1. auto.
Qed.

Lemma all_ok_split a : forall c e b, all_ok c (a ++ e :: b) -> returns_ok (fold_left hold1 a c) e.
Proof. induction a as [|x t IH]; cbn; intros c e b; [tauto|]. intros [_ ?]. eauto. Qed.

(** Buffers created with a destructor never drop a datum. *)
Lemma step_keeps s l s' e :
  step s l = Some (s', e) -> destructor s = true ->
  destructor s' = true /\ forall d, total (dropped1 d) e = 0.
Proof.
  destruct s as [ds da al pc]. cbn [step alive data destructor pcs]. intros H ->. revert H.
  destruct al; destruct l as [t o|t|t o|t|]; cbn; try discriminate;
    try (destruct (pc t); try discriminate); intros H;
    try (destruct da); injection H as <- <-; cbn; auto.
Qed.

Lemma run_keeps ls : forall s s' es,
  run s ls = Some (s', es) -> destructor s = true -> forall d, total (dropped1 d) es = 0.
Proof.
  induction ls as [|l t IH]; intros s s' es R D d; cbn [run] in R.
  - injection R as <- <-. reflexivity.
  - destruct (step s l) as [[s1 e]|] eqn:E; [|discriminate].
    destruct (run s1 t) as [[s2 es']|] eqn:E2; [|discriminate].
    injection R as <- <-. destruct (step_keeps s l s1 e E D) as [D1 F1].
    rewrite total_app, F1. eapply IH; eauto.
Qed.

Lemma dead_data ls : forall s s' es,
  run s ls = Some (s', es) -> (alive s = false -> data s = None) -> (alive s' = false -> data s' = None).
Proof.
  induction ls as [|l t IH]; intros s s' es R D; cbn [run] in R.
  - injection R as <- <-. auto.
  - destruct (step s l) as [[s1 e]|] eqn:E; [|discriminate].
    destruct (run s1 t) as [[s2 es']|] eqn:E2; [|discriminate].
    injection R as <- <-. eapply IH; eauto.
    destruct s as [ds da al pc]. cbn [step alive data destructor pcs] in *.
    destruct al; destruct l as [u o|u|u o|u|]; cbn in E; try discriminate;
      try (destruct (pc u); try discriminate);
      try (destruct da; try destruct ds); injection E as <- <-; cbn; auto; discriminate.
Qed.
