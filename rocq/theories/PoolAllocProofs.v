From Coq Require Permutation.
From Verif Require Import Base Word AlignedModel AlignedProofs PoolAllocModel PoolAllocSpec.
Local Open Scope N_scope.

Lemma tset_eq {X} (f : nat -> X) t x : tset f t x t = x.
Proof. unfold tset. now rewrite Nat.eqb_refl. Qed.
Lemma tset_ne {X} (f : nat -> X) t x u : u <> t -> tset f t x u = f u.
Proof. intros. unfold tset. now rewrite (proj2 (Nat.eqb_neq u t)). Qed.
Ltac thr u t := destruct (Nat.eq_dec u t) as [->|?]; [rewrite ?tset_eq in *|rewrite ?tset_ne in * by auto].

Record inv (bs : N) (m : nat) (p : pool) (v : view) : Prop := {
  i_bs : blockSize p = bs;
  i_max : max p = m;
  i_count : (count p <= m)%nat;
  i_nd : NoDup (live v ++ available p);
  i_in : forall i, In i (live v ++ available p) <-> (i < count p)%nat;
  i_idx : forall i, (i < count p)%nat -> indexes p i = i;
  i_own : forall i, owned p i = true <-> In i (live v);
  i_refs : references p = (held v + length (live v))%nat
}.

Lemma inv_len bs m p v : inv bs m p v -> length (live v ++ available p) = count p.
Proof.
  intros []. transitivity (length (seq 0 (count p))); [|apply seq_length].
  apply Permutation.Permutation_length, Permutation.NoDup_Permutation; auto using seq_NoDup.
  intros i. rewrite i_in0, in_seq. lia.
Qed.

Lemma NoDup_app_l {A} (l l' : list A) : NoDup (l ++ l') -> NoDup l.
Proof.
  induction l; cbn; intros H; [constructor|]. inversion H; subst. constructor; auto. rewrite in_app_iff in *. tauto.
Qed.

Lemma create_inv size a m P junk : inv (blockSize (create size a m P junk)) m (create size a m P junk) start.
Proof. constructor; cbn; auto; try lia; try (now constructor); try easy. Qed.

Lemma step_inv bs m p v o : inv bs m p v -> client_ok v o ->
  exists p' x, step p o = Some (p', x) /\ pool_ok bs m v o x /\ inv bs m p' (next v o x).
Proof.
  intros Hi Hc. pose proof (inv_len _ _ _ _ Hi) as HL. rewrite app_length in HL. destruct Hi. unfold step.
  destruct (references p) as [|r] eqn:Er.
  { exfalso. destruct o as [sz|i sz|i| |]; cbn in Hc; try lia.
    - destruct Hc as [Hc _]. destruct (live v); [contradiction|cbn in *; lia].
    - destruct (live v); [contradiction|cbn in *; lia]. }
  destruct o as [sz|i sz|i| |]; cbn [client_ok] in Hc.
  - destruct Hc as [Hh Hs]. rewrite (wadd_id sz 16) by lia. rewrite (wadd_id (sz + 16) 16) by lia.
    replace (sz + 16 + 16) with (sz + 32) by lia. destruct (N.ltb_spec sz (sz + 16)); [|lia]. cbn [negb]. rewrite i_bs0.
    destruct (N.ltb_spec bs (sz + 32)).
    { exists p, Null. split; [reflexivity|]. split; [split; [|split]|]; try discriminate.
      - split; auto. - constructor; auto. now rewrite Er. }
    destruct (available p) as [|i rest] eqn:Ea.
    + rewrite i_max0. destruct (Nat.eqb_spec (count p) m) as [Ec|Ec].
      * exists p, Null. split; [reflexivity|]. split; [split; [|split]|]; try discriminate.
        -- split; auto. intros _. right. cbn in HL. lia.
        -- constructor; auto; rewrite ?Ea, ?Er; auto.
      * eexists _, (Ptr (count p)). split; [reflexivity|]. cbn in HL.
        assert (Hn : ~ In (count p) (live v)).
        { intros H1. assert (In (count p) (live v ++ [])) by (rewrite app_nil_r; auto). apply i_in0 in H2. lia. }
        split; [split; [|split]|]; try discriminate.
        -- split; [discriminate|]. intros [H1|H1]; lia.
        -- intros j [= <-]. split; [auto|lia].
        -- constructor; cbn [blockSize count max base available indexes owned references next live held]; auto.
           ++ lia.
           ++ cbn. constructor; auto. rewrite app_nil_r. auto.
           ++ intros j. cbn. rewrite i_in0. lia.
           ++ intros j Hj. thr j (count p); auto. apply i_idx0. lia.
           ++ intros j. cbn. thr j (count p); [tauto|]. rewrite i_own0. split; auto. intros [|]; [congruence|auto].
           ++ cbn. lia.
    + eexists _, (Ptr i). split; [reflexivity|].
      assert (Hn : ~ In i (live v)).
      { intros H1. apply NoDup_remove_2 in i_nd0. rewrite in_app_iff in i_nd0. tauto. }
      assert (Hlt : (i < count p)%nat) by (apply i_in0; rewrite in_app_iff; cbn; auto).
      split; [split; [|split]|]; try discriminate.
      * split; [discriminate|]. intros [H1|H1]; cbn in HL; lia.
      * intros j [= <-]. split; [auto|lia].
      * constructor; cbn [blockSize count max base available indexes owned references next live held]; auto.
        -- cbn. apply (Permutation.Permutation_NoDup (l := live v ++ i :: rest)); auto.
           symmetry. apply Permutation.Permutation_middle.
        -- intros j. rewrite <- i_in0. rewrite !in_app_iff. cbn. tauto.
        -- intros j. cbn. thr j i; [tauto|]. rewrite i_own0. split; auto. intros [|]; [congruence|auto].
        -- cbn. lia.
  - destruct Hc as [Hl Hs]. rewrite (wadd_id sz 16) by lia. rewrite (wadd_id (sz + 16) 16) by lia.
    replace (sz + 16 + 16) with (sz + 32) by lia. destruct (N.ltb_spec sz (sz + 16)); [|lia]. cbn [negb]. rewrite i_bs0.
    rewrite (proj2 (i_own0 i) Hl). cbn [pool_ok].
    destruct (N.ltb_spec bs (sz + 32)); eexists _, _; (split; [reflexivity|]); (split; [reflexivity|]); constructor; auto; now rewrite Er.
  - rewrite (proj2 (i_own0 i) Hc).
    assert (Hlt : (i < count p)%nat) by (apply i_in0; rewrite in_app_iff; auto).
    pose proof (remove_length_NoDup Nat.eq_dec i (live v) (NoDup_app_l _ _ i_nd0) Hc) as HR.
    replace (Nat.ltb _ _) with true by (symmetry; apply Nat.ltb_lt; rewrite i_max0; lia).
    eexists _, _. split; [reflexivity|]. split; [reflexivity|].
    constructor; cbn [blockSize count max base available indexes owned references next live held]; auto.
    + rewrite i_idx0 by auto. apply (Permutation.Permutation_NoDup (l := live v ++ available p)); auto.
      apply Permutation.NoDup_Permutation; auto.
      * apply Permutation.Permutation_NoDup with (l := i :: remove Nat.eq_dec i (live v) ++ available p); [apply Permutation.Permutation_middle|].
        constructor.
        -- rewrite in_app_iff, in_remove_iff. intros [[_ H1]|H1]; [auto|].
           destruct (in_split _ _ Hc) as (l1 & l2 & E). rewrite E, <- app_assoc in i_nd0. cbn in i_nd0.
           apply NoDup_remove_2 in i_nd0. rewrite !in_app_iff in i_nd0. tauto.
        -- clear - i_nd0. induction (live v) as [|y l IH]; cbn in *; auto. apply NoDup_cons_iff in i_nd0 as [A B].
           destruct (Nat.eq_dec i y); auto. cbn. constructor; auto. rewrite in_app_iff in *. rewrite in_remove_iff. tauto.
      * intros j. rewrite !in_app_iff, in_remove_iff. cbn. destruct (Nat.eq_dec j i) as [->|]; intuition congruence.
    + intros j. rewrite <- i_in0, !in_app_iff, in_remove_iff, i_idx0 by auto. cbn.
      destruct (Nat.eq_dec j i) as [->|]; intuition congruence.
    + intros j. rewrite in_remove_iff. thr j i; [split; [discriminate|tauto]|]. rewrite i_own0. tauto.
    + cbn. lia.
  - eexists _, _. split; [reflexivity|]. split; [reflexivity|]. constructor; cbn; auto; lia.
  - eexists _, _. split; [reflexivity|]. split; [reflexivity|]. constructor; cbn; auto; lia.
Qed.

Lemma run_ok bs m ops : forall p v, inv bs m p v -> ok bs m p v ops.
Proof.
  induction ops as [|o ops IH]; intros p v Hi; cbn [ok]; [exact I|].
  intros Hc. destruct (step_inv bs m p v o Hi Hc) as (p1 & x & E & Ho & H1). eauto 6.
Qed.

Lemma reach_inv bs m ops p v p' v' : inv bs m p v -> reach p v ops p' v' -> inv bs m p' v'.
Proof.
  intros Hi R. induction R; auto. apply IHR. destruct (step_inv bs m p v o Hi H) as (p3 & x3 & E & _ & H3). congruence.
Qed.

Lemma reach_base p v ops p' v' : reach p v ops p' v' -> base p' = base p /\ blockSize p' = blockSize p.
Proof.
  induction 1 as [|p v o p1 x t p2 v2 _ E _ [IH1 IH2]]; auto. rewrite IH1, IH2. clear - E. unfold step in E.
  destruct (references p); [discriminate|]. destruct o as [sz|i sz|i| |].
  - destruct (negb _); [injection E as <- <-; auto|]. destruct (N.ltb _ _); [injection E as <- <-; auto|].
    destruct (available p); [destruct (Nat.eqb _ _)|]; injection E as <- <-; auto.
  - destruct (owned p i); [|discriminate]. destruct (negb _); [injection E as <- <-; auto|]. destruct (N.ltb _ _); injection E as <- <-; auto.
  - destruct (owned p i); [|discriminate]. destruct (Nat.ltb _ _); [|discriminate]. injection E as <- <-; auto.
  - injection E as <- <-; auto.
  - injection E as <- <-; auto.
Qed.
