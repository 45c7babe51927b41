From Verif Require Import Base IDGeneratorModel IDGeneratorSpec.

Section Proofs.
Variable W : nat.
Hypothesis HW : 0 < W.

Lemma padded_ge n : 0 < n -> n <= padded W n.
Proof.
  intros Hn. unfold padded. pose proof (Nat.div_mod_eq (n - 1) W).
  pose proof (Nat.mod_upper_bound (n - 1) W ltac:(lia)). nia.
Qed.

Lemma padded_room n loop k : 0 < n -> loop = k * W -> loop < n -> loop + W <= padded W n.
Proof.
  intros Hn -> Hl. unfold padded.
  assert (k <= (n - 1) / W); [|nia].
  apply Nat.div_le_lower_bound; lia.
Qed.

Definition byte (b : bool) : N := if b then 255%N else 0%N.

(** The pool bytes show exactly what is outstanding; padding is always taken. *)
Definition pool_ok (s : state) (o : nat -> bool) : Prop :=
  0 < size s /\ length (pool s) = padded W (size s) /\
  forall i, i < padded W (size s) ->
    nth_error (pool s) i = Some (byte (if i <? size s then o i else true)).

Definition pc_ok (s : state) (v : view) (t : nat) : Prop :=
  match pcs s t with
  | TIdle => True
  | TScan loop => (exists k, loop = k * W) /\ forall i, i < loop -> i < size s -> seen v t i = true
  | TProbe loop l2 => (exists k, loop = k * W) /\ loop < size s /\ loop <= l2 <= loop + W /\
                      forall i, i < l2 -> i < size s -> seen v t i = true
  end.

(** The present holders are always included in what every thread in a call has seen. *)
Definition inv (s : state) (v : view) : Prop :=
  pool_ok s (out v) /\ (forall t, pc_ok s v t) /\
  (forall t i, out v i = true -> seen v t i = true).

Lemma create_inv n : 0 < n -> inv (create W n) start.
Proof.
  intros Hn. pose proof (padded_ge n Hn).
  split; [|split].
  - unfold pool_ok, create; cbn [size pool out start].
    split; [auto|]. split; [rewrite app_length, !repeat_length; lia|].
    intros i Hi. destruct (Nat.ltb_spec i n).
    + rewrite nth_error_app1 by (rewrite repeat_length; lia). apply nth_error_repeat; lia.
    + rewrite nth_error_app2 by (rewrite repeat_length; lia). rewrite repeat_length.
      apply nth_error_repeat; lia.
  - intros t. exact I.
  - intros t i. cbn. discriminate.
Qed.

Lemma note_seen v t i : out v i = true -> seen (note v) t i = true.
Proof. intros E. cbn. rewrite E. apply orb_true_r. Qed.

Lemma note_inv s v : pool_ok s (out v) -> (forall t, pc_ok s (note v) t) -> inv s (note v).
Proof.
  intros P Q. split; [exact P|]. split; [exact Q|].
  intros t i E. apply (note_seen v t i E).
Qed.

Lemma pc_mono s s' v v' t :
  size s' = size s -> pcs s' t = pcs s t ->
  (forall i, seen v t i = true -> seen v' t i = true) ->
  pc_ok s v t -> pc_ok s' v' t.
Proof.
  unfold pc_ok. intros -> -> Hm. destruct (pcs s t); auto.
  - intros [? H]. split; auto.
  - intros (? & ? & ? & H). auto 6.
Qed.

Lemma pool_upd s o i b pc :
  pool_ok s o -> i < size s ->
  pool_ok (mkState (size s) (upd (pool s) i (byte b)) pc) (set o i b).
Proof.
  intros (Hs & Hl & Hp) Hi. unfold pool_ok; cbn [size pool].
  pose proof (padded_ge (size s) Hs).
  split; [auto|]. split; [rewrite upd_length; auto|].
  intros j Hj. unfold set. destruct (Nat.eqb_spec j i) as [->|Hn].
  - rewrite nth_error_upd_eq by lia. destruct (Nat.ltb_spec i (size s)); auto; lia.
  - rewrite nth_error_upd_ne by auto. apply Hp; auto.
Qed.

Lemma upd_same {B} (l : list B) i x : nth_error l i = Some x -> upd l i x = l.
Proof.
  intros H. apply list_ext_nth_error. intros j. destruct (Nat.eq_dec j i) as [->|Hn].
  - rewrite nth_error_upd_eq; auto. apply nth_error_Some_lt in H. auto.
  - apply nth_error_upd_ne; auto.
Qed.

Lemma step_inv s v l s' e :
  inv s v -> step W s l = Some (s', e) ->
  (forall i, e = ERecycled i -> out v i = true) ->
  exists v', allowed (size s) v e v' /\ inv s' v' /\ size s' = size s.
Proof.
  intros (P & Q & Sn) Hs He.
  destruct l as [t|t|id]; cbn [step] in Hs.
  - destruct (pcs s t) eqn:E; try discriminate. injection Hs as <- <-.
    eexists. split; [apply AllowStart|]. split; [|reflexivity]. apply note_inv; [exact P|].
    intros u. destruct (Nat.eq_dec u t) as [->|Hn].
    + unfold pc_ok, set_pc; cbn [pcs size]. rewrite Nat.eqb_refl. split; [exists 0; reflexivity|lia].
    + apply (pc_mono s _ v); [reflexivity| | |exact (Q u)].
      * cbn. unfold set_pc. destruct (Nat.eqb_spec u t); [lia|]. reflexivity.
      * cbn. intros i Hi. destruct (Nat.eqb_spec u t); [lia|]. rewrite Hi. reflexivity.
  - pose proof (Q t) as Qt. unfold pc_ok in Qt.
    destruct (pcs s t) as [|loop|loop l2] eqn:E; try discriminate.
    + destruct Qt as ([k Hk] & Hseen).
      destruct (Nat.ltb_spec loop (size s)) as [Hlt|Hge].
      * destruct (Nat.leb_spec (loop + W) (length (pool s))); [|discriminate].
        destruct (forallb _ _) eqn:F; injection Hs as <- <-.
        -- eexists. split; [apply AllowTau|]. split; [|reflexivity]. apply note_inv; [exact P|].
           intros u. destruct (Nat.eq_dec u t) as [->|Hn].
           ++ unfold pc_ok, set_pc; cbn [pcs size]. rewrite Nat.eqb_refl.
              split; [exists (S k); lia|]. intros i Hi1 Hi2. cbn. apply orb_true_iff.
              destruct (Nat.lt_ge_cases i loop); [left; auto|right].
              destruct P as (Hz & Hl & Hp). pose proof (padded_ge (size s) Hz).
              specialize (Hp i ltac:(lia)). destruct (Nat.ltb_spec i (size s)); [|lia].
              rewrite forallb_forall in F.
              assert (Hin : In (byte (out v i)) (slice (pool s) loop W)).
              { apply nth_error_In with (i - loop). rewrite nth_error_slice.
                destruct (Nat.ltb_spec (i - loop) W); [|lia]. rewrite <- Hp. f_equal. lia. }
              apply F in Hin. destruct (out v i); [reflexivity|discriminate].
           ++ apply (pc_mono s _ v); [reflexivity| | |exact (Q u)].
              ** cbn. unfold set_pc. destruct (Nat.eqb_spec u t); [lia|]. reflexivity.
              ** cbn. intros i Hi. rewrite Hi. reflexivity.
        -- eexists. split; [apply AllowTau|]. split; [|reflexivity]. apply note_inv; [exact P|].
           intros u. destruct (Nat.eq_dec u t) as [->|Hn].
           ++ unfold pc_ok, set_pc; cbn [pcs size]. rewrite Nat.eqb_refl.
              split; [exists k; auto|]. split; [auto|]. split; [lia|].
              intros i Hi1 Hi2. cbn. rewrite Hseen; auto.
           ++ apply (pc_mono s _ v); [reflexivity| | |exact (Q u)].
              ** cbn. unfold set_pc. destruct (Nat.eqb_spec u t); [lia|]. reflexivity.
              ** cbn. intros i Hi. rewrite Hi. reflexivity.
      * injection Hs as <- <-.
        eexists. split; [apply AllowFail; intros; apply Hseen; lia|]. split; [|reflexivity].
        apply note_inv; [exact P|].
        intros u. destruct (Nat.eq_dec u t) as [->|Hn].
        -- unfold pc_ok, set_pc; cbn [pcs size]. rewrite Nat.eqb_refl. exact I.
        -- apply (pc_mono s _ v); [reflexivity| | |exact (Q u)].
           ++ cbn. unfold set_pc. destruct (Nat.eqb_spec u t); [lia|]. reflexivity.
           ++ cbn. intros i Hi. rewrite Hi. reflexivity.
    + destruct Qt as ([k Hk] & Hls & Hb & Hseen).
      destruct (Nat.ltb_spec l2 (loop + W)) as [Hlt|Hge].
      * assert (Hroom : loop + W <= padded W (size s)) by (apply padded_room with k; auto; apply P).
        destruct P as (Hz & Hl & Hp). pose proof (Hp l2 ltac:(lia)) as H2. rewrite H2 in Hs.
        destruct (Nat.ltb_spec l2 (size s)) as [Hsz|Hsz].
        -- destruct (out v l2) eqn:O; cbn [byte N.eqb] in Hs; cbn in Hs.
           ++ injection Hs as <- <-. rewrite upd_same by exact H2.
              eexists. split; [apply AllowTau|]. split; [|reflexivity]. apply note_inv; [split; auto|].
              intros u. destruct (Nat.eq_dec u t) as [->|Hn].
              ** unfold pc_ok, set_pc; cbn [pcs size]. rewrite Nat.eqb_refl.
                 split; [exists k; auto|]. split; [auto|]. split; [lia|].
                 intros i Hi1 Hi2. cbn. destruct (Nat.eq_dec i l2) as [->|]; [rewrite O; apply orb_true_r|].
                 rewrite Hseen by lia. reflexivity.
              ** apply (pc_mono s _ v); [reflexivity| | |exact (Q u)].
                 --- cbn. unfold set_pc. destruct (Nat.eqb_spec u t); [lia|]. reflexivity.
                 --- cbn. intros i Hi. rewrite Hi. reflexivity.
           ++ injection Hs as <- <-.
              eexists. split; [apply AllowGot; [exact Hsz|exact O]|]. split; [|reflexivity].
              apply note_inv; [apply (pool_upd s (out v) l2 true); [split; auto|auto]|].
              intros u. destruct (Nat.eq_dec u t) as [->|Hn].
              ** unfold pc_ok, set_pc; cbn [pcs size]. rewrite Nat.eqb_refl. exact I.
              ** apply (pc_mono s _ v); [reflexivity| | |exact (Q u)].
                 --- cbn. unfold set_pc. destruct (Nat.eqb_spec u t); [lia|]. reflexivity.
                 --- cbn. intros i Hi. rewrite Hi. reflexivity.
        -- cbn in Hs. injection Hs as <- <-. rewrite upd_same by exact H2.
           eexists. split; [apply AllowTau|]. split; [|reflexivity]. apply note_inv; [split; auto|].
           intros u. destruct (Nat.eq_dec u t) as [->|Hn].
           ++ unfold pc_ok, set_pc; cbn [pcs size]. rewrite Nat.eqb_refl.
              split; [exists k; auto|]. split; [auto|]. split; [lia|].
              intros i Hi1 Hi2. cbn. rewrite Hseen by lia. reflexivity.
           ++ apply (pc_mono s _ v); [reflexivity| | |exact (Q u)].
              ** cbn. unfold set_pc. destruct (Nat.eqb_spec u t); [lia|]. reflexivity.
              ** cbn. intros i Hi. rewrite Hi. reflexivity.
      * injection Hs as <- <-.
        eexists. split; [apply AllowTau|]. split; [|reflexivity]. apply note_inv; [exact P|].
        intros u. destruct (Nat.eq_dec u t) as [->|Hn].
        -- unfold pc_ok, set_pc; cbn [pcs size]. rewrite Nat.eqb_refl.
           split; [exists (S k); lia|]. intros i Hi1 Hi2. cbn. rewrite Hseen by lia. reflexivity.
        -- apply (pc_mono s _ v); [reflexivity| | |exact (Q u)].
           ++ cbn. unfold set_pc. destruct (Nat.eqb_spec u t); [lia|]. reflexivity.
           ++ cbn. intros i Hi. rewrite Hi. reflexivity.
  - destruct (Nat.ltb_spec id (size s)) as [Hlt|]; [|discriminate].
    destruct (nth_error (pool s) id) as [b|] eqn:Hb; [|discriminate].
    destruct (N.eqb_spec b 0); [discriminate|]. injection Hs as <- <-.
    eexists. split; [apply AllowRecycled|]. split; [|reflexivity].
    apply note_inv; [apply (pool_upd s (out v) id false); auto|].
    intros u. apply (pc_mono s _ v); [reflexivity|reflexivity| |exact (Q u)].
    cbn. intros i Hi. rewrite Hi. reflexivity.
Qed.

Lemma run_inv ls : forall s v s' es,
  inv s v -> run W s ls = Some (s', es) -> recycles_held (out v) es ->
  exists v', allowed_all (size s) v es v' /\ inv s' v' /\ size s' = size s.
Proof.
  induction ls as [|l t IH]; intros s v s' es I R P; cbn [run] in R.
  - injection R as <- <-. exists v. split; [constructor|]. auto.
  - destruct (step W s l) as [[s1 e]|] eqn:E; [|discriminate].
    destruct (run W s1 t) as [[s2 es']|] eqn:E2; [|discriminate].
    injection R as <- <-.
    destruct (step_inv s v l s1 e I E) as (v1 & A1 & I1 & Z1).
    { intros i ->. cbn in P. tauto. }
    destruct (IH s1 v1 s2 es' I1 E2) as (v2 & A2 & I2 & Z2).
    { destruct A1; cbn [recycles_held] in P; cbn [out note forget]; tauto. }
    exists v2. split; [|split; [auto|congruence]]. econstructor; eauto. rewrite Z1 in A2. exact A2.
Qed.

(** Holders, from the specification alone. *)
Lemma filter_nodup {B} (f : B -> bool) l : NoDup l -> NoDup (filter f l).
Proof. apply NoDup_filter. Qed.

Definition hold1 (l : list nat) (e : event) : list nat :=
  match e with
  | EGot _ i => l ++ [i]
  | ERecycled i => filter (fun j => negb (j =? i)) l
  | _ => l
  end.

Lemma allowed_holding size es : forall v v' l,
  allowed_all size v es v' ->
  NoDup l -> (forall i, In i l <-> out v i = true) -> (forall i, In i l -> i < size) ->
  let l' := fold_left hold1 es l in
  NoDup l' /\ (forall i, In i l' <-> out v' i = true) /\ (forall i, In i l' -> i < size).
Proof.
  induction es as [|e t IH]; intros v v' l Ha Hd Hi Hz; inversion Ha; subst; cbn [fold_left]; [auto|].
  match goal with H : allowed_all _ ?x t v' |- _ => apply (IH x) end; auto;
    match goal with H : allowed _ _ _ _ |- _ => destruct H end; cbn [hold1 out note forget]; auto.
  - apply NoDup_snoc; auto. rewrite Hi. congruence.
  - apply NoDup_filter; auto.
  - intros j. unfold set. rewrite in_app_iff. cbn [In]. destruct (Nat.eqb_spec j i); [subst; tauto|].
    rewrite Hi. split; [intros [?|[?|[]]]; auto; congruence|auto].
  - intros j. unfold set. rewrite filter_In, Hi.
    destruct (Nat.eqb_spec j i); cbn; split; try tauto; try discriminate.
  - intros j. rewrite in_app_iff. cbn [In]. intros [?|[<-|[]]]; auto.
  - intros j. rewrite filter_In. intros [? _]. auto.
Qed.

(** ** Progress: an attempt running alone finds a free ID. *)
Lemma run_cons s l ls s1 e s2 es :
  step W s l = Some (s1, e) -> run W s1 ls = Some (s2, es) ->
  run W s (l :: ls) = Some (s2, e :: es).
Proof. intros A B. cbn [run]. rewrite A. cbn. rewrite B. reflexivity. Qed.

Lemma set_pc_same f t p : set_pc f t p t = p.
Proof. unfold set_pc. rewrite Nat.eqb_refl. reflexivity. Qed.

Definition got (t : nat) (es : list event) : Prop := exists es' i, es = es' ++ [EGot t i].

Lemma got_cons t e es : got t es -> got t (e :: es).
Proof. intros (es' & i & ->). exists (e :: es'), i. reflexivity. Qed.

Lemma solo_probe t n : forall s loop l2 i,
  pcs s t = TProbe loop l2 -> l2 <= i -> i < loop + W -> i - l2 = n ->
  loop + W <= length (pool s) -> nth_error (pool s) i = Some 0%N ->
  exists k s' es, run W s (repeat (Step t) k) = Some (s', es) /\ got t es.
Proof.
  induction n as [|n IH]; intros s loop l2 i Hp H1 H2 Hn Hl H0.
  - assert (l2 = i) by lia. subst l2.
    exists 1. do 2 eexists. split.
    + cbn [repeat]. eapply run_cons; [|reflexivity].
      cbn [step]. rewrite Hp. destruct (Nat.ltb_spec i (loop + W)); [|lia]. rewrite H0. reflexivity.
    + exists [], i. reflexivity.
  - destruct (nth_error (pool s) l2) as [b|] eqn:Hb.
    2:{ apply nth_error_None in Hb. lia. }
    destruct (N.eqb_spec b 0) as [->|Hb0].
    + exists 1. do 2 eexists. split.
      * cbn [repeat]. eapply run_cons; [|reflexivity].
        cbn [step]. rewrite Hp. destruct (Nat.ltb_spec l2 (loop + W)); [|lia]. rewrite Hb. reflexivity.
      * exists [], l2. reflexivity.
    + destruct (IH (mkState (size s) (upd (pool s) l2 255%N) (set_pc (pcs s) t (TProbe loop (l2 + 1)))) loop (l2 + 1) i)
        as (k & s' & es & R & G); cbn [pcs pool]; try lia.
      * apply set_pc_same.
      * rewrite upd_length. lia.
      * rewrite nth_error_upd_ne by lia. auto.
      * exists (S k), s'. eexists. split.
        -- cbn [repeat]. eapply run_cons; [|exact R].
           cbn [step]. rewrite Hp. destruct (Nat.ltb_spec l2 (loop + W)); [|lia]. rewrite Hb.
           destruct (N.eqb_spec b 0); [contradiction|]. reflexivity.
        -- apply got_cons. exact G.
Qed.

Lemma solo_scan t n : forall s loop q i,
  pcs s t = TScan loop -> loop = q * W -> loop <= i -> i < size s -> i - loop <= n ->
  length (pool s) = padded W (size s) -> nth_error (pool s) i = Some 0%N ->
  exists k s' es, run W s (repeat (Step t) k) = Some (s', es) /\ got t es.
Proof.
  induction n as [n IH] using lt_wf_ind; intros s loop q i Hp Hq H1 H2 Hn Hl H0.
  assert (Hroom : loop + W <= padded W (size s)) by (apply padded_room with q; auto; lia).
  assert (Hstep : forall s' e, (if forallb (fun b => (b =? 255)%N) (slice (pool s) loop W)
              then Some (mkState (size s) (pool s) (set_pc (pcs s) t (TScan (loop + W))), ETau)
              else Some (mkState (size s) (pool s) (set_pc (pcs s) t (TProbe loop loop)), ETau)) = Some (s', e) ->
              step W s (Step t) = Some (s', e)).
  { intros s' e X. cbn [step]. rewrite Hp.
    destruct (Nat.ltb_spec loop (size s)); [|lia].
    destruct (Nat.leb_spec (loop + W) (length (pool s))); [|lia]. exact X. }
  destruct (forallb _ _) eqn:F.
  - assert (i >= loop + W).
    { destruct (Nat.lt_ge_cases i (loop + W)); auto. exfalso.
      rewrite forallb_forall in F.
      assert (Hin : In 0%N (slice (pool s) loop W)).
      { apply nth_error_In with (i - loop). rewrite nth_error_slice.
        destruct (Nat.ltb_spec (i - loop) W); [|lia]. rewrite <- H0. f_equal. lia. }
      apply F in Hin. discriminate. }
    destruct (IH (i - (loop + W)) ltac:(lia)
      (mkState (size s) (pool s) (set_pc (pcs s) t (TScan (loop + W)))) (loop + W) (S q) i)
      as (k & s' & es & R & G); cbn [pcs pool size]; auto; try lia.
    + apply set_pc_same.
    + exists (S k), s'. eexists. split; [|apply got_cons; exact G].
      cbn [repeat]. eapply run_cons; [|exact R]. apply Hstep. reflexivity.
  - destruct (Nat.lt_ge_cases i (loop + W)) as [Hi|Hi].
    + destruct (solo_probe t (i - loop)
        (mkState (size s) (pool s) (set_pc (pcs s) t (TProbe loop loop))) loop loop i)
        as (k & s' & es & R & G); cbn [pcs pool]; auto; try lia.
      * apply set_pc_same.
      * exists (S k), s'. eexists. split; [|apply got_cons; exact G].
        cbn [repeat]. eapply run_cons; [|exact R]. apply Hstep. reflexivity.
    + (* some byte of the block is not 255: probe the block until it is found or exhausted *)
      assert (Hpr : forall m s1 l2, pcs s1 t = TProbe loop l2 -> loop <= l2 <= loop + W -> loop + W - l2 = m ->
        size s1 = size s -> length (pool s1) = length (pool s) -> nth_error (pool s1) i = Some 0%N ->
        exists k s' es, run W s1 (repeat (Step t) k) = Some (s', es) /\ got t es).
      { induction m as [|m IHm]; intros s1 l2 P1 B1 E1 Z1 L1 N1.
        - destruct (IH (i - (loop + W)) ltac:(lia)
            (mkState (size s1) (pool s1) (set_pc (pcs s1) t (TScan (loop + W)))) (loop + W) (S q) i)
            as (k & s' & es & R & G); cbn [pcs pool size]; auto; try lia; try congruence.
          + apply set_pc_same.
          + exists (S k), s'. eexists. split; [|apply got_cons; exact G].
            cbn [repeat]. eapply run_cons; [|exact R]. cbn [step]. rewrite P1.
            destruct (Nat.ltb_spec l2 (loop + W)); [lia|]. reflexivity.
        - destruct (nth_error (pool s1) l2) as [b|] eqn:Hb.
          2:{ apply nth_error_None in Hb. lia. }
          destruct (N.eqb_spec b 0) as [->|Hb0].
          + exists 1. do 2 eexists. split.
            * cbn [repeat]. eapply run_cons; [|reflexivity].
              cbn [step]. rewrite P1. destruct (Nat.ltb_spec l2 (loop + W)); [|lia]. rewrite Hb. reflexivity.
            * exists [], l2. reflexivity.
          + destruct (IHm (mkState (size s1) (upd (pool s1) l2 255%N) (set_pc (pcs s1) t (TProbe loop (l2 + 1)))) (l2 + 1))
              as (k & s' & es & R & G); cbn [pcs pool size]; try lia.
            * apply set_pc_same.
            * rewrite upd_length. lia.
            * rewrite nth_error_upd_ne by lia. auto.
            * exists (S k), s'. eexists. split; [|apply got_cons; exact G].
              cbn [repeat]. eapply run_cons; [|exact R].
              cbn [step]. rewrite P1. destruct (Nat.ltb_spec l2 (loop + W)); [|lia]. rewrite Hb.
              destruct (N.eqb_spec b 0); [contradiction|]. reflexivity. }
      destruct (Hpr W (mkState (size s) (pool s) (set_pc (pcs s) t (TProbe loop loop))) loop)
        as (k & s' & es & R & G); cbn [pcs pool size]; auto; try lia.
      * apply set_pc_same.
      * exists (S k), s'. eexists. split; [|apply got_cons; exact G].
        cbn [repeat]. eapply run_cons; [|exact R]. apply Hstep. reflexivity.
Qed.

Lemma solo s v t i :
  inv s v -> pcs s t = TIdle -> i < size s -> out v i = false ->
  exists k s' es, run W s (Start t :: repeat (Step t) k) = Some (s', es) /\ got t es.
Proof.
  intros ((Hz & Hl & Hp) & _ & _) Ht Hi Ho.
  destruct (solo_scan t i (mkState (size s) (pool s) (set_pc (pcs s) t (TScan 0))) 0 0 i)
    as (k & s' & es & R & G); cbn [pcs pool size]; auto; try lia.
  - apply set_pc_same.
  - rewrite Hp by (pose proof (padded_ge (size s) Hz); lia).
    destruct (Nat.ltb_spec i (size s)); [|lia]. rewrite Ho. reflexivity.
  - exists k, s'. eexists. split; [|apply got_cons; exact G].
    eapply run_cons; [|exact R]. cbn [step]. rewrite Ht. reflexivity.
Qed.

End Proofs.
