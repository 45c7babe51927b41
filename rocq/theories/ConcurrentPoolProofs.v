From Verif Require Import Base ConcurrentPoolModel ConcurrentPoolSpec.

Section Proofs.
Context {A : Type}.
Variables B Max : N.
Hypothesis HMax : (0 < Max)%N.
Hypothesis HB : (Max < B)%N.
Hypothesis Hdiv : (B mod Max = 0)%N.

Notation M := (N.to_nat Max).
Notation nn := N.of_nat.

Lemma mod_mod x : ((x mod B) mod Max = x mod Max)%N.
Proof.
  pose proof (N.div_mod x B ltac:(lia)) as E.
  pose proof (N.div_exact B Max ltac:(lia)) as D. apply proj2 in D. specialize (D Hdiv).
  set (r := (x mod B)%N) in *. set (q := (x / B)%N) in *. set (k := (B / Max)%N) in *.
  replace x with (r + (k * q) * Max)%N by (rewrite E, D; lia).
  rewrite N.mod_add by lia. reflexivity.
Qed.

Lemma succ_mod x : ((x mod B + 1) mod B = (x + 1) mod B)%N.
Proof. rewrite N.add_mod_idemp_l by lia. reflexivity. Qed.

Lemma mod_inj P i j : (0 < P)%N -> (nn i mod P = nn j mod P)%N -> i <= j -> (nn j < nn i + P)%N -> i = j.
Proof.
  intros HP E H1 H2.
  pose proof (N.div_mod (nn i) P ltac:(lia)) as Ei. pose proof (N.div_mod (nn j) P ltac:(lia)) as Ej.
  rewrite E in Ei.
  assert (nn i / P <= nn j / P)%N by (apply N.div_le_mono; lia).
  assert (nn j / P < nn i / P + 1)%N by nia.
  assert (nn j / P = nn i / P)%N by lia. nia.
Qed.

Definition inv (s : state A) (v : view A) : Prop :=
  let all := log v ++ staged v in
  let total := length (log v) + length (staged v) in
  popped v <= length (log v) /\ total <= high v /\ high v <= popped v + M /\
  ptr s = mkPtr (nn (popped v) mod B) (nn (length (log v)) mod B) /\
  (forall st, stg s = Some st -> slast st = nn total mod B)%N /\
  (stg s = None -> staged v = []) /\
  (forall i, i < total -> high v <= i + M -> items s (nn i mod Max)%N = nth_error all i) /\
  (forall t p, cps s t = CLoaded p ->
     pindex p <> plast p /\ (moved v t = false -> ptr s = p)) /\
  (forall t r, refs s t = Some r ->
     exists i, mine v t = Some i /\ i < popped v /\ r = (nn i mod Max)%N).

Lemma init_inv : inv (@init A) (@start A).
Proof.
  unfold inv, init, start; cbn [ptr items stg cps refs log staged popped high mine moved app length plus N.of_nat].
  rewrite N.mod_0_l by lia.
  repeat split; try lia; try discriminate; auto.
Qed.

Lemma ptr_eqb_eq p q : ptr_eqb p q = true <-> p = q.
Proof.
  unfold ptr_eqb. rewrite andb_true_iff, !N.eqb_eq. destruct p, q; cbn.
  split; [intros [-> ->]; auto|intros [= -> ->]; auto].
Qed.

Ltac proj := cbn [ptr items stg cps refs log staged popped high mine moved pindex plast sptr slast] in *.

Lemma step_inv s v l s' e :
  inv s v -> step B Max s l = Some (s', e) -> producer_ok M v e ->
  pool_ok M v e /\ inv s' (next v e).
Proof.
  destruct s as [p it sg cp rf]. destruct v as [lg st po hi mi mv].
  intros (Hp & Ht & Hh & Ep & Hs & Hn & Hit & Hc & Hr) Hst Hok.
  destruct l as [|x|sp| |t|t sp|t]; cbn [step] in Hst; proj.
  - injection Hst as <- <-. split; [exact I|]. unfold inv; cbn [next]; proj.
    rewrite app_nil_r. cbn [length]. rewrite Nat.add_0_r.
    refine (conj Hp (conj _ (conj Hh (conj Ep (conj _ (conj _ (conj _ (conj Hc Hr)))))))).
    + lia.
    + intros s0 [= <-]. subst p. reflexivity.
    + reflexivity.
    + intros i Hi Hi2. rewrite Hit by lia. apply nth_error_app1. lia.
  - destruct sg as [sgv|]; [|discriminate]. injection Hst as <- <-. split; [exact I|].
    cbn [producer_ok] in Hok. proj. specialize (Hs sgv eq_refl).
    unfold inv; cbn [next]; proj. rewrite !app_length. cbn [length].
    refine (conj Hp (conj _ (conj _ (conj Ep (conj _ (conj _ (conj _ (conj Hc Hr)))))))).
    + lia.
    + lia.
    + intros s0 [= <-]. proj. rewrite Hs, succ_mod. f_equal. lia.
    + discriminate.
    + intros i Hi Hi2. unfold iset. rewrite Hs, mod_mod.
      destruct (N.eqb_spec (nn i mod Max) (nn (length lg + length st) mod Max)) as [E|E].
      * apply mod_inj in E; try lia. subst i.
        rewrite app_assoc, nth_error_app2; rewrite app_length; [|lia]. rewrite Nat.sub_diag. reflexivity.
      * assert (i <> length lg + length st) by congruence.
        rewrite app_assoc, nth_error_app1 by (rewrite app_length; lia). apply Hit; lia.
  - destruct sg as [sgv|]; [|discriminate]. specialize (Hs sgv eq_refl).
    destruct (ptr_eqb p (sptr sgv) && negb sp) eqn:E; injection Hst as <- <-; (split; [exact I|]).
    + apply andb_prop in E. destruct E as [E _]. apply ptr_eqb_eq in E.
      unfold inv; cbn [next]; proj. rewrite app_nil_r, app_length. cbn [length].
      refine (conj _ (conj _ (conj Hh (conj _ (conj _ (conj _ (conj _ (conj _ Hr)))))))).
      * lia.
      * lia.
      * rewrite <- E, Ep, Hs. reflexivity.
      * intros s0 [= <-]. rewrite Hs. f_equal. lia.
      * discriminate.
      * intros i Hi Hi2. apply Hit; lia.
      * intros t q Hq. split; [apply (Hc t q Hq)|discriminate].
    + unfold inv; cbn [next]; proj.
      refine (conj Hp (conj Ht (conj Hh (conj Ep (conj _ (conj _ (conj Hit (conj Hc Hr)))))))).
      * intros s0 [= <-]. exact Hs.
      * discriminate.
  - destruct sg as [sgv|]; [|discriminate]. specialize (Hs sgv eq_refl).
    injection Hst as <- <-. split; [exact I|].
    unfold inv; cbn [next]; proj. rewrite app_nil_r, app_length. cbn [length].
    refine (conj _ (conj _ (conj Hh (conj _ (conj _ (conj _ (conj _ (conj _ Hr)))))))).
    + lia.
    + lia.
    + rewrite Ep, Hs. reflexivity.
    + intros s0 [= <-]. rewrite Hs. f_equal. lia.
    + discriminate.
    + intros i Hi Hi2. apply Hit; lia.
    + intros t q Hq. split; [apply (Hc t q Hq)|discriminate].
  - destruct (cp t) eqn:Ec; [|discriminate]. rewrite Ep in Hst. proj.
    destruct (N.eqb_spec (nn po mod B) (nn (length lg) mod B)) as [E|E]; injection Hst as <- <-.
    + cbn [pool_ok]; proj. split; [apply mod_inj in E; lia|].
      unfold inv; cbn [next]; proj. refine (conj Hp (conj Ht (conj Hh (conj _ (conj Hs (conj Hn (conj Hit (conj _ Hr)))))))); [auto|]. intros u q Hq. rewrite <- Ep. apply (Hc u q Hq).
    + split; [exact I|]. unfold inv; cbn [next]; proj.
      refine (conj Hp (conj Ht (conj Hh (conj eq_refl (conj Hs (conj Hn (conj Hit (conj _ Hr)))))))).
      intros u q. unfold tset. destruct (Nat.eqb_spec u t) as [->|].
      * intros [= <-]. proj. auto.
      * intros Hq. rewrite <- Ep. apply (Hc u q Hq).
  - destruct (cp t) as [|q] eqn:Ec; [discriminate|]. destruct (Hc t q Ec) as [Q1 Q2].
    destruct (ptr_eqb p q && negb sp) eqn:E; injection Hst as <- <-.
    + apply andb_prop in E. destruct E as [E _]. apply ptr_eqb_eq in E. subst q.
      rewrite Ep in Q1. proj.
      assert (Hlt : po < length lg).
      { destruct (Nat.eq_dec po (length lg)); [|lia]. subst po. contradiction. }
      split; [exact Hlt|]. unfold inv; cbn [next]; proj.
      refine (conj _ (conj Ht (conj _ (conj _ (conj Hs (conj Hn (conj _ (conj _ _)))))))).
      * lia.
      * lia.
      * rewrite Ep. proj. rewrite succ_mod. f_equal. f_equal. lia.
      * intros i Hi Hi2. apply Hit; lia.
      * intros u q. unfold tset. destruct (Nat.eqb_spec u t); [discriminate|].
        intros Hq. split; [apply (Hc u q Hq)|discriminate].
      * intros u r. unfold tset. destruct (Nat.eqb_spec u t) as [->|].
        -- intros [= <-]. exists po. split; [auto|]. split; [lia|]. rewrite Ep. proj. apply mod_mod.
        -- intros Hu. destruct (Hr u r Hu) as (i & a & b & c). exists i. split; [auto|]. split; [lia|auto].
    + cbn [pool_ok]; proj. split.
      * destruct sp; [auto|]. right. destruct (mv t) eqn:Em; [auto|]. exfalso.
        rewrite (Q2 eq_refl) in E. rewrite (proj2 (ptr_eqb_eq q q) eq_refl) in E. discriminate.
      * unfold inv; cbn [next]; proj.
        refine (conj Hp (conj Ht (conj Hh (conj Ep (conj Hs (conj Hn (conj Hit (conj _ Hr)))))))).
        intros u q'. unfold tset. destruct (Nat.eqb_spec u t); [discriminate|]. apply Hc.
  - destruct (rf t) as [r|] eqn:Er; [|discriminate]. injection Hst as <- <-.
    destruct (Hr t r Er) as (i & Mi & Hi & ->). cbn [pool_ok]; proj. split.
    + exists i. split; [auto|]. split; [lia|]. intros Hhi. rewrite Hit by lia. apply nth_error_app1. lia.
    + unfold inv; cbn [next]; proj. auto 12.
Qed.

Lemma run_inv ls : forall s v s' es,
  inv s v -> run B Max s ls = Some (s', es) -> all (producer_ok M) v es ->
  all (pool_ok M) v es /\ inv s' (fold_left next es v).
Proof.
  induction ls as [|l t IH]; intros s v s' es I R C; cbn [run] in R.
  - injection R as <- <-. split; [exact Logic.I|exact I].
  - destruct (step B Max s l) as [[s1 e]|] eqn:E; [|discriminate].
    destruct (run B Max s1 t) as [[s2 es']|] eqn:E2; [|discriminate].
    injection R as <- <-. destruct C as [C1 C2].
    destruct (step_inv s v l s1 e I E C1) as (B1 & I1).
    destruct (IH s1 _ s2 es' I1 E2 C2) as (B2 & I2).
    split; [split; auto|exact I2].
Qed.

End Proofs.

(** ** When the pool size does not divide the index modulus *)
Section Wrap.
Notation B := (2 ^ 32)%N.
Notation nn := N.of_nat.

Lemma run_app {A} (b m : N) ls1 : forall ls2 (s : state A),
  run b m s (ls1 ++ ls2) =
  (let? (s1, e1) := run b m s ls1 in let? (s2, e2) := run b m s1 ls2 in Some (s2, e1 ++ e2)).
Proof.
  induction ls1 as [|l t IH]; intros ls2 s; cbn [run app].
  - destruct (run b m s ls2) as [[? ?]|]; reflexivity.
  - destruct (step b m s l) as [[s1 e]|]; [|reflexivity]. rewrite IH.
    destruct (run b m s1 t) as [[s2 e2]|]; [|reflexivity].
    destruct (run b m s2 ls2) as [[s3 e3]|]; reflexivity.
Qed.

Lemma all_app {A} (P : view A -> event A -> Prop) es1 : forall es2 v,
  all P v (es1 ++ es2) <-> all P v es1 /\ all P (fold_left next es1 v) es2.
Proof. induction es1 as [|e t IH]; intros es2 v; cbn; [tauto|]. rewrite IH. tauto. Qed.

(** After n items pushed and popped one at a time. *)
Lemma cycle n :
  exists ls s es,
    run B 3 (@init nat) ls = Some (s, es) /\ all (producer_ok 3) (@start nat) es /\
    ptr s = mkPtr (n mod B)%N (n mod B)%N /\ cps s 0 = CIdle /\
    let v := fold_left next es (@start nat) in
    length (log v) = N.to_nat n /\ popped v = N.to_nat n /\ high v = N.to_nat n.
Proof.
  induction n as [|n IH] using N.peano_ind.
  - exists [], init, []. repeat split.
  - destruct IH as (ls & s & es & R & C & P & I & L & Po & H).
    destruct s as [p it sg cp rf]. cbn [ptr cps] in P, I. subst p.
    exists (ls ++ [PBegin; PPush 0; PCommit false; CLoad 0; CCas 0 false]).
    set (v := fold_left next es start) in *.
    assert (N1 : ((n mod B + 1) mod B = N.succ n mod B)%N).
    { rewrite N.add_mod_idemp_l by discriminate. f_equal. lia. }
    assert (N2 : (n mod B <> N.succ n mod B)%N).
    { rewrite <- N1. pose proof (N.mod_lt n B ltac:(discriminate)) as Hr. clear -Hr.
      generalize dependent (n mod B)%N. intros r Hr.
      destruct (N.eq_dec (r + 1) B) as [E|E].
      - rewrite E, N.mod_same by discriminate. lia.
      - rewrite N.mod_small by lia. lia. }
    assert (R2 : exists s2, run B 3 (mkState (mkPtr (n mod B)%N (n mod B)%N) it sg cp rf)
        [PBegin; PPush 0; PCommit false; CLoad 0; CCas 0 false] =
        Some (s2, [EBegin; EPush 0; ECommitted; ELoad 0; EPopped 0]) /\
        ptr s2 = mkPtr (N.succ n mod B)%N (N.succ n mod B)%N /\ cps s2 0 = CIdle).
    { eexists. split.
      - cbn [run step stg ptr plast pindex sptr slast items cps refs]. unfold ptr_eqb.
        cbn [plast pindex]. rewrite !N.eqb_refl. cbn [andb negb].
        cbn [run step stg ptr plast pindex sptr slast items cps refs]. rewrite I, N1.
        destruct (N.eqb_spec (n mod B) (N.succ n mod B)); [contradiction|].
        cbn [run step stg ptr plast pindex sptr slast items cps refs].
        unfold tset at 1. cbn [Nat.eqb]. unfold ptr_eqb. cbn [plast pindex]. rewrite !N.eqb_refl. cbn [andb negb].
        rewrite N1. reflexivity.
      - cbn [ptr cps]. split; reflexivity. }
    destruct R2 as (s2 & R2 & P2 & I2).
    exists s2, (es ++ [EBegin; EPush 0; ECommitted; ELoad 0; EPopped 0]).
    rewrite run_app, R. cbn [fst snd]. rewrite R2. split; [reflexivity|].
    rewrite fold_left_app. fold v. rewrite all_app. fold v.
    split; [split; [exact C|]|].
    { cbn. rewrite L, Po. repeat split. lia. }
    split; [exact P2|]. split; [exact I2|].
    cbn. rewrite app_length, L, Po, H. cbn [length]. lia.
Qed.

Lemma wrap_overwrites :
  exists ls s es,
    run B 3 (@init nat) ls = Some (s, es) /\ all (producer_ok 3) (@start nat) es /\
    ~ all (pool_ok 3) (@start nat) es.
Proof.
  destruct (cycle (2 ^ 32 - 1)) as (ls & s & es & R & C & P & I & L & Po & H).
  destruct s as [p it sg cp rf]. cbn [ptr cps] in P, I.
  change (((2 ^ 32 - 1) mod B)%N) with 4294967295%N in P. subst p.
  exists (ls ++ [PBegin; PPush 1; PPush 2; PCommit false; CLoad 0; CCas 0 false; CLook 0]).
  set (v := fold_left next es start) in *.
  assert (R2 : exists s2, run B 3 (mkState (mkPtr 4294967295 4294967295)%N it sg cp rf)
     [PBegin; PPush 1; PPush 2; PCommit false; CLoad 0; CCas 0 false; CLook 0] =
     Some (s2, [EBegin; EPush 1; EPush 2; ECommitted; ELoad 0; EPopped 0; ELook 0 (Some 2)])).
  { eexists. cbn [run step stg ptr plast pindex sptr slast items cps refs]. unfold ptr_eqb.
    cbn [plast pindex]. rewrite !N.eqb_refl. cbn [andb negb].
    cbn [run step stg ptr plast pindex sptr slast items cps refs]. rewrite I. reflexivity. }
  destruct R2 as (s2 & R2).
  exists s2, (es ++ [EBegin; EPush 1; EPush 2; ECommitted; ELoad 0; EPopped 0; ELook 0 (Some 2)]).
  rewrite run_app, R. cbn [fst snd]. rewrite R2. split; [reflexivity|].
  rewrite !all_app. fold v. split; [split; [exact C|]|].
  - cbn [all producer_ok next log staged popped high length app]. rewrite L, Po. repeat split; lia.
  - intros [_ Hall].
    cbn [all pool_ok next log staged popped high length app mine moved] in Hall.
    destruct Hall as (_ & _ & _ & _ & _ & _ & (i & Hm & _ & Hv) & _).
    unfold tset in Hm. cbn [Nat.eqb] in Hm. injection Hm as <-.
    specialize (Hv ltac:(rewrite L, Po, H; lia)).
    rewrite nth_error_app2 in Hv by lia.
    replace (popped v - length (log v)) with 0 in Hv by lia. discriminate.
Qed.
End Wrap.
