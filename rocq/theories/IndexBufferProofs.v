From Verif Require Import Base IndexBufferModel IndexBufferSpec.
From Verif Require IDGeneratorModel IDGeneratorSpec IDGeneratorProofs.

Section Proofs.
Variable W : nat.
Hypothesis HW : 0 < W.

Definition taken (w : owner) : bool := match w with Free => false | _ => true end.

Definition inv (n : nat) (s : state) (o : owners) : Prop :=
  exists v, IDGeneratorProofs.inv W (gen s) v /\ IDGeneratorModel.size (gen s) = n /\
    (forall i, i < n -> IDGeneratorSpec.out v i = taken (o i)) /\
    (forall i, n <= i -> o i = Free) /\
    (forall i, o i = Staged <-> slot s = S i) /\
    (forall t j, staging s t = Some j -> o j = Returning) /\
    (forall t u j, staging s t = Some j -> staging s u = Some j -> t = u) /\
    (forall j, o j = Returning -> exists t, staging s t = Some j).

Lemma create_inv n : 0 < n -> inv n (create W n) nobody.
Proof.
  intros Hn. exists IDGeneratorSpec.start. unfold nobody; cbn.
  split; [apply IDGeneratorProofs.create_inv; auto|]. repeat split; auto; try discriminate.
Qed.

Lemma slot_cases s : (slot s = 0) \/ exists j, slot s = S j.
Proof. destruct (slot s); eauto. Qed.

Lemma step_inv n s o l s' e :
  inv n s o -> step W s l = Some (s', e) -> client_ok o e ->
  buffer_ok n o e /\ inv n s' (next o e).
Proof.
  intros (v & I & Z & O & F & S1 & R1 & R2 & R3) Hs C.
  destruct s as [g sl st]. cbn [gen slot staging] in *.
  destruct l as [t|t|t i|t|t|i]; cbn [step gen slot staging] in Hs.
  - destruct (IDGeneratorModel.step W g (IDGeneratorModel.Start t)) as [[g' e']|] eqn:E; [|discriminate]. injection Hs as <- <-.
    split; [exact Logic.I|].
    assert (e' = IDGeneratorModel.EStart t) by (cbn in E; destruct (IDGeneratorModel.pcs g t); try discriminate; congruence). subst e'.
    destruct (IDGeneratorProofs.step_inv W HW g v _ _ _ I E) as (v' & A & I' & Z'); [discriminate|].
    inversion A; subst. exists (IDGeneratorSpec.note (IDGeneratorSpec.forget v t)). cbn [next gen slot staging]. rewrite Z'.
    split; [exact I'|]. split; [auto|]. split; [exact O|]. auto 10.
  - destruct (IDGeneratorModel.step W g (IDGeneratorModel.Step t)) as [[g' e']|] eqn:E; [|discriminate].
    destruct (IDGeneratorProofs.step_inv W HW g v _ _ _ I E) as (v' & A & I' & Z').
    { intros i ->. exfalso. cbn in E. destruct (IDGeneratorModel.pcs g t); try discriminate;
      repeat match type of E with context [if ?b then _ else _] => destruct b end;
      repeat match type of E with context [match ?x with _ => _ end] => destruct x end; discriminate. }
    destruct e'; try (injection Hs as <- <-; split; [exact Logic.I|]; exists v'; cbn [next gen slot staging]; rewrite Z';
       split; [exact I'|]; split; [auto|]; split; [|auto 10]; inversion A; subst; exact O).
    + injection Hs as <- <-. inversion A; subst.
      assert (Fi : o id = Free) by (rewrite O in *; auto; destruct (o id); auto; discriminate).
      cbn [client_ok buffer_ok]. split; [auto|].
      eexists; cbn [next gen slot staging]; split; [exact I'|]. rewrite Z'.
      split; [auto|]. unfold give. split; [|split; [|split; [|split; [|split]]]].
      * intros j Hj. cbn. unfold IDGeneratorSpec.set. destruct (Nat.eqb_spec j id); auto.
      * intros j Hj. destruct (Nat.eqb_spec j id); [subst; lia|]. auto.
      * intros j. destruct (Nat.eqb_spec j id) as [->|]; [|apply S1].
        rewrite <- S1, Fi. split; discriminate.
      * intros u j Hu. destruct (Nat.eqb_spec j id) as [->|]; [|eauto].
        apply R1 in Hu. congruence.
      * exact R2.
      * intros j Hj. destruct (Nat.eqb_spec j id); [discriminate|]. auto.
    + exfalso. cbn in E. destruct (IDGeneratorModel.pcs g t); try discriminate;
      repeat match type of E with context [if ?b then _ else _] => destruct b end;
      repeat match type of E with context [match ?x with _ => _ end] => destruct x end; discriminate.
  - destruct (st t) eqn:Et; [discriminate|]. injection Hs as <- <-. cbn [client_ok] in C.
    split; [exact Logic.I|]. exists v. cbn [next gen slot staging]. unfold give.
    split; [auto|]. split; [auto|]. split; [|split; [|split; [|split; [|split]]]].
    + intros j Hj. rewrite O by auto. destruct (Nat.eqb_spec j i) as [->|]; [rewrite C; reflexivity|].
      destruct (o j); reflexivity.
    + intros j Hj. destruct (Nat.eqb_spec j i) as [->|]; [rewrite F in C by auto; discriminate|].
      rewrite F by auto. reflexivity.
    + intros j. destruct (Nat.eqb_spec j i) as [->|]; [split; intros; auto; lia|].
      split; [destruct (o j); discriminate|lia].
    + intros u j. destruct (Nat.eqb_spec sl 0) as [->|Hsl].
      * intros Hu. pose proof (R1 u j Hu) as X. destruct (Nat.eqb_spec j i) as [->|]; [congruence|]. rewrite X. reflexivity.
      * unfold set_st. destruct (Nat.eqb_spec u t) as [->|].
        -- intros [= <-]. assert (X : o (sl - 1) = Staged) by (apply S1; lia).
           destruct (Nat.eqb_spec (sl - 1) i) as [<-|]; [congruence|]. rewrite X. reflexivity.
        -- intros Hu. pose proof (R1 u j Hu) as X. destruct (Nat.eqb_spec j i) as [->|]; [congruence|]. rewrite X. reflexivity.
    + intros u w j. destruct (Nat.eqb_spec sl 0) as [->|Hsl]; [apply R2|].
      assert (X : o (sl - 1) = Staged) by (apply S1; lia).
      unfold set_st. destruct (Nat.eqb_spec u t), (Nat.eqb_spec w t); subst; auto.
      * intros [= <-] Hw. apply R1 in Hw. congruence.
      * intros Hu [= <-]. apply R1 in Hu. congruence.
      * apply R2.
    + intros j. destruct (Nat.eqb_spec j i) as [->|]; [discriminate|].
      destruct (o j) eqn:X; try discriminate; intros _.
      * apply S1 in X. exists t. subst sl. cbn. unfold set_st. rewrite Nat.eqb_refl. f_equal. lia.
      * destruct (R3 j X) as (u & Hu). exists u. destruct (Nat.eqb_spec sl 0); auto.
        unfold set_st. destruct (Nat.eqb_spec u t); [congruence|]. auto.
  - destruct (st t) as [j|] eqn:Et; [|discriminate].
    destruct (IDGeneratorModel.step W g (IDGeneratorModel.Recycle j)) as [[g' e']|] eqn:E; [|discriminate]. injection Hs as <- <-.
    pose proof (R1 t j Et) as X. split; [exact X|].
    assert (Hjn : j < n). { destruct (Nat.lt_ge_cases j n); auto. rewrite F in X by auto. discriminate. }
    assert (e' = IDGeneratorModel.ERecycled j).
    { cbn in E. repeat match type of E with context [if ?b then _ else _] => destruct b end;
      try discriminate; destruct (nth_error (IDGeneratorModel.pool g) j); try discriminate.
      destruct (n0 =? 0)%N; [discriminate|]. congruence. }
    subst e'.
    destruct (IDGeneratorProofs.step_inv W HW g v _ _ _ I E) as (v' & A & I' & Z').
    { intros i [= <-]. rewrite O, X by auto. reflexivity. }
    inversion A; subst. eexists; cbn [next gen slot staging]; split; [exact I'|]. rewrite Z'.
    split; [auto|]. unfold give, set_st. split; [|split; [|split; [|split; [|split]]]].
    + intros i Hi. cbn. unfold IDGeneratorSpec.set. destruct (Nat.eqb_spec i j); auto.
    + intros i Hi. destruct (Nat.eqb_spec i j); auto.
    + intros i. destruct (Nat.eqb_spec i j) as [->|]; [|apply S1]. rewrite <- S1, X. split; discriminate.
    + intros u i. destruct (Nat.eqb_spec u t); [discriminate|]. intros Hu.
      destruct (Nat.eqb_spec i j) as [->|]; [|eauto]. exfalso. apply n. eapply R2; eauto.
    + intros u w i. destruct (Nat.eqb_spec u t), (Nat.eqb_spec w t); try discriminate. apply R2.
    + intros i. destruct (Nat.eqb_spec i j) as [->|]; [discriminate|]. intros Hi.
      destruct (R3 i Hi) as (u & Hu). exists u. destruct (Nat.eqb_spec u t); [congruence|]. auto.
  - injection Hs as <- <-. destruct (Nat.eqb_spec sl 0) as [->|Hsl].
    + cbn [buffer_ok next]. split; [intros i Hi; apply S1 in Hi; discriminate|].
      exists v. cbn [gen slot staging]. auto 10.
    + cbn [buffer_ok next]. assert (X : o (sl - 1) = Staged) by (apply S1; lia). split; [auto|].
      exists v. cbn [gen slot staging]. unfold give.
      split; [auto|]. split; [auto|]. split; [|split; [|split; [|split; [|split]]]].
      * intros i Hi. rewrite O by auto. destruct (Nat.eqb_spec i (sl - 1)) as [->|]; auto. rewrite X. reflexivity.
      * intros i Hi. destruct (Nat.eqb_spec i (sl - 1)) as [->|]; auto. rewrite F in X by auto. discriminate.
      * intros i. destruct (Nat.eqb_spec i (sl - 1)) as [->|]; [split; discriminate|].
        split; [|discriminate]. intros Hi. apply S1 in Hi. lia.
      * intros u i Hu. destruct (Nat.eqb_spec i (sl - 1)) as [->|]; [|eauto]. apply R1 in Hu. congruence.
      * exact R2.
      * intros i. destruct (Nat.eqb_spec i (sl - 1)) as [->|]; [discriminate|]. auto.
  - destruct (IDGeneratorModel.step W g (IDGeneratorModel.Recycle i)) as [[g' e']|] eqn:E; [|discriminate]. injection Hs as <- <-.
    cbn [client_ok] in C. split; [exact Logic.I|].
    assert (Hjn : i < n). { destruct (Nat.lt_ge_cases i n); auto. rewrite F in C by auto. discriminate. }
    assert (e' = IDGeneratorModel.ERecycled i).
    { cbn in E. repeat match type of E with context [if ?b then _ else _] => destruct b end;
      try discriminate; destruct (nth_error (IDGeneratorModel.pool g) i); try discriminate.
      destruct (n0 =? 0)%N; [discriminate|]. congruence. }
    subst e'.
    destruct (IDGeneratorProofs.step_inv W HW g v _ _ _ I E) as (v' & A & I' & Z').
    { intros j [= <-]. rewrite O, C by auto. reflexivity. }
    inversion A; subst. eexists; cbn [next gen slot staging]; split; [exact I'|]. rewrite Z'.
    split; [auto|]. unfold give. split; [|split; [|split; [|split; [|split]]]].
    + intros j Hj. cbn. unfold IDGeneratorSpec.set. destruct (Nat.eqb_spec j i); auto.
    + intros j Hj. destruct (Nat.eqb_spec j i); auto.
    + intros j. destruct (Nat.eqb_spec j i) as [->|]; [|apply S1]. rewrite <- S1, C. split; discriminate.
    + intros u j Hu. destruct (Nat.eqb_spec j i) as [->|]; [|eauto]. apply R1 in Hu. congruence.
    + exact R2.
    + intros j. destruct (Nat.eqb_spec j i) as [->|]; [discriminate|]. auto.
Qed.

Lemma run_inv n ls : forall s o s' es,
  inv n s o -> run W s ls = Some (s', es) -> all client_ok o es ->
  all (buffer_ok n) o es /\ inv n s' (owners_after o es).
Proof.
  induction ls as [|l t IH]; intros s o s' es I R C; cbn [run] in R.
  - injection R as <- <-. split; [exact Logic.I|exact I].
  - destruct (step W s l) as [[s1 e]|] eqn:E; [|discriminate].
    destruct (run W s1 t) as [[s2 es']|] eqn:E2; [|discriminate].
    injection R as <- <-. destruct C as [C1 C2].
    destruct (step_inv n s o l s1 e I E C1) as (B1 & I1).
    destruct (IH s1 _ s2 es' I1 E2 C2) as (B2 & I2).
    split; [split; auto|exact I2].
Qed.

(** A client that respects ownership never trips an assertion. *)
Lemma discard_enabled n s o i :
  inv n s o -> o i = Held -> exists s', step W s (Discard i) = Some (s', EDiscarded i).
Proof.
  intros (v & ((Hz & Hl & Hp) & _) & Z & O & F & _) Hi.
  assert (Hin : i < n). { destruct (Nat.lt_ge_cases i n); auto. rewrite F in Hi by auto. discriminate. }
  cbn [step]. unfold IDGeneratorModel.step. rewrite Z. destruct (Nat.ltb_spec i n); [|lia].
  rewrite Hp by (rewrite Z; pose proof (IDGeneratorProofs.padded_ge W HW n); lia).
  rewrite Z. destruct (Nat.ltb_spec i n); [|lia]. rewrite O, Hi by auto. cbn. eexists. reflexivity.
Qed.

Lemma recycle_enabled n s o t j :
  inv n s o -> staging s t = Some j -> exists s', step W s (StageRecycle t) = Some (s', EReturned j).
Proof.
  intros (v & ((Hz & Hl & Hp) & _) & Z & O & F & _ & R1 & _) Hs. pose proof (R1 t j Hs) as Hi.
  assert (Hin : j < n). { destruct (Nat.lt_ge_cases j n); auto. rewrite F in Hi by auto. discriminate. }
  cbn [step]. rewrite Hs. unfold IDGeneratorModel.step. rewrite Z. destruct (Nat.ltb_spec j n); [|lia].
  rewrite Hp by (rewrite Z; pose proof (IDGeneratorProofs.padded_ge W HW n); lia).
  rewrite Z. destruct (Nat.ltb_spec j n); [|lia]. rewrite O, Hi by auto. cbn. eexists. reflexivity.
Qed.

End Proofs.
