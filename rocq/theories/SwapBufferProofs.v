From Verif Require Import Base SwapBufferModel SwapBufferSpec.
Local Open Scope N_scope.

Section Proofs.
Context {A : Type}.
Implicit Types s : state A.

Definition slot (x : N) : N := N.ldiff x FLAG.

(** [index] is a slot number, possibly flagged. *)
Definition idx_ok (x : N) : Prop := exists i, i < 3 /\ (x = i \/ x = i + 128).

Lemma idx_ok_cases x :
  idx_ok x -> x = 0 \/ x = 1 \/ x = 2 \/ x = 128 \/ x = 129 \/ x = 130.
Proof. intros (i & Hi & [-> | ->]); lia. Qed.

Definition inv s (v : view A) : Prop :=
  idx_ok (index s) /\ write s < 3 /\ read s < 3 /\
  slot (index s) <> write s /\ slot (index s) <> read s /\ write s <> read s /\
  (forall n, wp s = WLoaded n -> flagged n = false -> index s = n) /\
  (rp s = RLoaded -> flagged (index s) = true) /\
  (if flagged (index s) then buffer s (slot (index s)) = latest v else buffer s (read s) = latest v) /\
  buffer s (read s) = held v /\
  (forall d, draft v = Some d -> buffer s (write s) = d).

Lemma init_inv v0 : inv (init v0) (mkView None v0 v0).
Proof.
  unfold inv, init; cbn. repeat split; try lia; try discriminate.
  - exists 0. lia.
Qed.

Lemma lt3 x : x < 3 -> x = 0 \/ x = 1 \/ x = 2.
Proof. lia. Qed.

Ltac cases3 H := destruct (lt3 _ H) as [?|[?|?]].

Lemma step_inv s v l s' e :
  inv s v -> step s l = Some (s', e) ->
  (e = EApplied -> draft v <> None) ->
  exists v', allowed v e v' /\ inv s' v'.
Proof.
  destruct s as [ix wr rd b w r]. destruct v as [d la he].
  intros (Hi & Hw & Hr & N1 & N2 & N3 & W1 & R1 & L & He & D) Hs Hd.
  unfold slot in *. cbn [index write read buffer wp rp latest held draft] in *.
  destruct l; cbn [step index write read buffer wp rp] in Hs.
  - destruct w; [|discriminate]. injection Hs as <- <-.
    exists (mkView (Some v) la he). split; [constructor|].
    unfold inv, slot, bset; cbn [index write read buffer wp rp latest held draft].
    refine (conj Hi (conj Hw (conj Hr (conj N1 (conj N2 (conj N3 (conj W1 (conj R1 (conj _ (conj _ _)))))))))).
    + destruct (N.eqb_spec rd wr); [congruence|]. destruct (N.eqb_spec (N.ldiff ix FLAG) wr); [congruence|]. exact L.
    + destruct (N.eqb_spec rd wr); congruence.
    + intros x [= <-]. rewrite N.eqb_refl. reflexivity.
  - destruct w; [|discriminate]. injection Hs as <- <-.
    exists (mkView d la he). split; [constructor|].
    unfold inv, slot; cbn [index write read buffer wp rp latest held draft].
    refine (conj Hi (conj Hw (conj Hr (conj N1 (conj N2 (conj N3 (conj _ (conj R1 (conj L (conj He D)))))))))).
    intros n [= <-] _. reflexivity.
  - destruct w as [|n]; [discriminate|]. injection Hs as <- <-.
    destruct d as [d|]; [|exfalso; apply Hd; reflexivity].
    exists (mkView None d he). split; [constructor|].
    assert (E : (if flagged n then ix else n) = ix).
    { destruct (flagged n) eqn:F; auto. symmetry. apply W1; auto. }
    rewrite E. specialize (D d eq_refl).
    assert (Wl : N.ldiff (N.lor wr FLAG) FLAG = wr) by (cases3 Hw; subst; reflexivity).
    assert (Wf : flagged (N.lor wr FLAG) = true) by (cases3 Hw; subst; reflexivity).
    assert (Wo : idx_ok (N.lor wr FLAG)) by (exists wr; split; auto; right; cases3 Hw; subst; reflexivity).
    assert (Ws : N.ldiff ix FLAG < 3).
    { apply idx_ok_cases in Hi. clear -Hi. decompose [or] Hi; subst; cbn; lia. }
    unfold inv, slot; cbn [index write read buffer wp rp latest held draft]. rewrite Wl, Wf.
    repeat split; auto; try congruence; try discriminate.
  - destruct r; [|discriminate]. destruct (flagged ix) eqn:F; injection Hs as <- <-.
    + exists (mkView d la he). split; [constructor|].
      unfold inv, slot; cbn [index write read buffer wp rp latest held draft]. rewrite F.
      repeat split; auto.
    + exists (mkView d la la). split; [constructor|].
      unfold inv, slot; cbn [index write read buffer wp rp latest held draft]. rewrite F.
      repeat split; auto.
  - destruct r; [discriminate|]. injection Hs as <- <-.
    specialize (R1 eq_refl). rewrite R1 in L.
    exists (mkView d la la). split; [constructor|].
    assert (El : N.lxor ix FLAG = N.ldiff ix FLAG /\ N.ldiff ix FLAG < 3).
    { apply idx_ok_cases in Hi. clear -Hi R1. decompose [or] Hi; subst; cbn in *; try discriminate; lia. }
    destruct El as [El Es].
    assert (Er : N.ldiff rd FLAG = rd) by (cases3 Hr; subst; reflexivity).
    assert (Ef : flagged rd = false) by (cases3 Hr; subst; reflexivity).
    unfold inv, slot; cbn [index write read buffer wp rp latest held draft].
    rewrite El, Er, Ef.
    repeat split; auto; try congruence; try discriminate.
    + exists rd. auto.
    + intros n Hn Hf. specialize (W1 n Hn Hf). subst. congruence.
  - destruct r; [|discriminate]. injection Hs as <- <-. rewrite He.
    exists (mkView d la he). split; [constructor|].
    unfold inv, slot; cbn [index write read buffer wp rp latest held draft].
    repeat split; auto.
Qed.

Lemma run_inv ls : forall s v s' es,
  inv s v -> run s ls = Some (s', es) ->
  puts_first (match draft v with Some _ => true | None => false end) es ->
  exists v', allowed_all v es v' /\ inv s' v'.
Proof.
  induction ls as [|l t IH]; intros s v s' es I R P; cbn [run] in R.
  - injection R as <- <-. exists v. split; auto. constructor.
  - destruct (step s l) as [[s1 e]|] eqn:E; [|discriminate].
    destruct (run s1 t) as [[s2 es']|] eqn:E2; [|discriminate].
    injection R as <- <-.
    destruct (step_inv s v l s1 e I E) as (v1 & A1 & I1).
    { intros ->. cbn [puts_first] in P. destruct (draft v); [discriminate|]. destruct P; discriminate. }
    destruct (IH s1 v1 s2 es' I1 E2) as (v2 & A2 & I2).
    { destruct A1; cbn [puts_first draft] in *; try tauto; auto. }
    exists v2. split; auto. econstructor; eauto.
Qed.

Lemma inv_slots s v : inv s v -> write s <> read s /\ write s < 3 /\ read s < 3.
Proof. unfold inv. tauto. Qed.

(** Slot exclusion without any hypothesis on the producer's puts. *)
Definition inv0 s : Prop :=
  idx_ok (index s) /\ write s < 3 /\ read s < 3 /\
  slot (index s) <> write s /\ slot (index s) <> read s /\ write s <> read s /\
  (forall n, wp s = WLoaded n -> flagged n = false -> index s = n) /\
  (rp s = RLoaded -> flagged (index s) = true).

Lemma inv_of_inv0 s : inv0 s ->
  inv s (mkView (Some (buffer s (write s)))
               (if flagged (index s) then buffer s (slot (index s)) else buffer s (read s)) (buffer s (read s))).
Proof.
  unfold inv0, inv. cbn [latest held draft].
  intros (a & b & c & d & e & f & g & h). repeat split; auto; try tauto.
  - destruct (flagged (index s)); reflexivity.
  - intros x [= <-]. reflexivity.
Qed.

Lemma inv0_of_inv s v : inv s v -> inv0 s.
Proof. unfold inv, inv0. tauto. Qed.

Lemma run_slots ls : forall s s' es, inv0 s -> run s ls = Some (s', es) -> inv0 s'.
Proof.
  induction ls as [|l t IH]; intros s s' es I R; cbn [run] in R.
  - injection R as <- <-. auto.
  - destruct (step s l) as [[s1 e]|] eqn:E; [|discriminate].
    destruct (run s1 t) as [[s2 es']|] eqn:E2; [|discriminate].
    injection R as <- <-. eapply IH; [|exact E2].
    destruct (step_inv s _ l s1 e (inv_of_inv0 s I) E) as (v1 & A1 & I1).
    { intros _. discriminate. }
    eapply inv0_of_inv; eauto.
Qed.

End Proofs.
