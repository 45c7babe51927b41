From Verif Require Import Base CircularBufferModel CircularBufferSpec.

Lemma mod_inj M i j : 0 < M -> i mod M = j mod M -> i <= j -> j < i + M -> i = j.
Proof.
  intros HM E H1 H2.
  pose proof (Nat.div_mod_eq i M) as Ei. pose proof (Nat.div_mod_eq j M) as Ej.
  assert (j / M = i / M); [|nia].
  assert (j / M < i / M + 1) by nia. assert (i / M <= j / M) by (apply Nat.div_le_mono; lia). lia.
Qed.

Lemma used_mod M H T : 0 < M -> H <= T -> T < H + M -> used M (H mod M) (T mod M) = T - H.
Proof.
  intros HM H1 H2. unfold used.
  pose proof (Nat.div_mod_eq H M). pose proof (Nat.div_mod_eq T M).
  pose proof (Nat.mod_upper_bound H M ltac:(lia)). pose proof (Nat.mod_upper_bound T M ltac:(lia)).
  assert (T / M = H / M \/ T / M = H / M + 1).
  { assert (H / M <= T / M) by (apply Nat.div_le_mono; lia).
    assert (T / M < H / M + 2) by nia. lia. }
  destruct (Nat.leb_spec (H mod M) (T mod M)); nia.
Qed.

Section Proofs.
Context {A : Type}.
Variable M : nat.
Hypothesis HM : 0 < M.
Implicit Types s : state A.

(** [log]: everything ever published; [H]: how many of it were released; [d]: items already
    stored by the add call in progress. *)
Definition inv s (f : fifo A) : Prop :=
  exists log H d,
    let T := length log in
    H <= T /\ head s = H mod M /\ tail s = T mod M /\
    queue f = skipn H log /\
    (forall i, H <= i -> i < T + length d -> items s (i mod M) = nth_error (log ++ d) i) /\
    match pp s with
    | PIdle => d = [] /\ pending f = None /\ T - H <= M - 1
    | PWriting todo c n =>
        pending f = Some (d ++ todo) /\ c = (T + length d) mod M /\ n = length d + length todo /\
        T - H + length d + length todo <= M - 1
    end /\
    match cp s with
    | CIdle => window f = None /\ mark f = None
    | CEnum st n => st = head s /\ n <= T - H /\ window f = Some (firstn n (skipn H log)) /\ mark f = None
    | CLast i => exists n, n <= T - H /\ i = (H + n) mod M /\ window f = None /\ mark f = Some n
    end.

Lemma init_inv : inv init (mkFifo [] None None None).
Proof.
  exists [], 0, []. cbn. rewrite Nat.mod_small by lia. repeat split; auto; try lia.
Qed.

Ltac proj := cbn [items head tail pp cp queue pending window mark] in *.

Lemma skipn_lt_nonnil {B} (l : list B) n : n < length l -> skipn n l <> [].
Proof. intros Hn E. apply (f_equal (@length B)) in E. rewrite skipn_length in E. cbn in E. lia. Qed.

Lemma step_inv s f l s' e :
  inv s f -> step M s l = Some (s', e) -> exists f', allowed (M - 1) f e f' /\ inv s' f'.
Proof.
  destruct s as [it hd tl p c]. destruct f as [q pe w mk].
  intros (log & H & d & I) Hs. cbn zeta in I. proj.
  destruct I as (HT & Eh & Et & Eq & Hit & Ip & Ic).
  destruct l; cbn [step] in Hs; proj.
  - (* PAdd *)
    destruct p; [|discriminate]. destruct Ip as (-> & -> & Hn).
    assert (Hq : length q = length log - H) by (subst q; apply skipn_length).
    destruct (Nat.eqb_spec ((tl + 1) mod M) hd) as [E|E]; injection Hs as <- <-;
      (eexists; split; [apply AllowAddStart|]); exists log, H, []; cbn zeta; proj.
    + assert (Hfull : length log - H = M - 1).
      { rewrite Et, Eh in E. rewrite Nat.add_mod_idemp_l in E by lia.
        destruct (Nat.eq_dec M 1); [lia|].
        destruct (Nat.le_gt_cases (M - 1) (length log - H)); [lia|].
        symmetry in E. apply mod_inj in E; lia. }
      replace (M - 1 - length q) with 0 by lia. cbn [firstn app length].
      repeat split; auto; try lia. rewrite Et. f_equal. lia.
    + assert (length log - H < M - 1).
      { destruct (Nat.eq_dec (length log - H) (M - 1)) as [X|]; [|lia]. exfalso. apply E.
        rewrite Et, Eh, Nat.add_mod_idemp_l by lia.
        replace (length log + 1) with (H + 1 * M) by lia. apply Nat.mod_add. lia. }
      destruct (M - 1 - length q) eqn:X; [lia|]. cbn [firstn app length].
      rewrite firstn_nil.
      repeat split; auto; try lia. rewrite Et. f_equal. lia.
  - (* PAddMany *)
    destruct p; [|discriminate]. destruct Ip as (-> & -> & Hn). injection Hs as <- <-.
    assert (Hq : length q = length log - H) by (subst q; apply skipn_length).
    eexists; split; [apply AllowAddStart|]. exists log, H, []; cbn zeta; proj.
    subst hd tl. rewrite used_mod, Hq by lia.
    replace (M - (length log - H) - 1) with (M - 1 - (length log - H)) by lia.
    assert (F : firstn (Nat.min (M - 1 - (length log - H)) (length xs)) xs = firstn (M - 1 - (length log - H)) xs).
    { destruct (Nat.min_spec (M - 1 - (length log - H)) (length xs)) as [[? ->]|[? ->]]; auto.
      rewrite firstn_all, firstn_all2; auto. }
    rewrite F. cbn [app length].
    pose proof (firstn_length (M - 1 - (length log - H)) xs) as FL.
    repeat split; auto; try lia.
  - (* PStore *)
    destruct p as [|[|x todo] cu n]; try discriminate. injection Hs as <- <-.
    destruct Ip as (-> & -> & -> & Hle). cbn [length] in Hle.
    eexists; split; [apply AllowTau|]. exists log, H, (d ++ [x]); cbn zeta; proj.
    rewrite app_length. cbn [length].
    refine (conj HT (conj Eh (conj Et (conj Eq (conj _ (conj _ Ic)))))).
    + intros i H1 H2. unfold iset.
      destruct (Nat.eqb_spec (i mod M) ((length log + length d) mod M)) as [E|E].
      * apply mod_inj in E; try lia. subst i.
        rewrite app_assoc, nth_error_app2; rewrite app_length; [|lia].
        rewrite Nat.sub_diag. reflexivity.
      * assert (i <> length log + length d) by congruence.
        rewrite app_assoc, nth_error_app1 by (rewrite app_length; lia).
        apply Hit; lia.
    + rewrite <- app_assoc. cbn [app]. repeat split; try lia.
      rewrite Nat.add_mod_idemp_l by lia. f_equal. lia.
  - (* PPublish *)
    destruct p as [|[|x todo] cu n]; try discriminate. injection Hs as <- <-.
    destruct Ip as (-> & -> & -> & Hle). rewrite app_nil_r. cbn [length] in *. rewrite Nat.add_0_r in *.
    eexists; split; [apply AllowAdded|]. exists (log ++ d), H, []; cbn zeta; proj.
    rewrite app_length. cbn [length].
    refine (conj _ (conj Eh (conj _ (conj _ (conj _ (conj _ _)))))).
    + lia.
    + destruct (Nat.eqb_spec (length d) 0) as [E|E]; auto. rewrite E, Nat.add_0_r. auto.
    + rewrite skipn_app. subst q. f_equal.
      replace (H - length log) with 0 by lia. reflexivity.
    + intros i H1 H2. rewrite app_nil_r. apply Hit; lia.
    + repeat split; auto. lia.
    + destruct c as [|st n|i]; auto.
      * destruct Ic as (-> & Hn & -> & ->). repeat split; auto; [lia|].
        rewrite skipn_app, firstn_app. replace (n - length (skipn H log)) with 0 by (rewrite skipn_length; lia).
        cbn [firstn]. rewrite app_nil_r. reflexivity.
      * destruct Ic as (n & Hn & -> & -> & ->). exists n. repeat split; auto. lia.
  - (* CGetEnumerable *)
    assert (Hle : length log - H <= M - 1) by (destruct p; lia).
    assert (Hu : used M hd tl = length q).
    { subst hd tl q. rewrite used_mod, skipn_length by lia. reflexivity. }
    assert (Hs' : Some (mkState it hd tl p (CEnum hd (used M hd tl)), @EEnum A (used M hd tl)) = Some (s', e)).
    { destruct c; try discriminate; exact Hs. }
    clear Hs. injection Hs' as <- <-. rewrite Hu.
    eexists; split; [apply AllowEnum|]. exists log, H, d; cbn zeta; proj.
    refine (conj HT (conj Eh (conj Et (conj Eq (conj Hit (conj Ip _)))))).
    subst q. rewrite skipn_length. repeat split; auto.
    rewrite firstn_all2; [reflexivity|]. rewrite skipn_length. lia.
  - (* CLook *)
    destruct c as [|st n|i]; try discriminate. destruct Ic as (-> & Hn & -> & ->).
    destruct (Nat.ltb_spec k n) as [Hk|]; [|discriminate]. injection Hs as <- <-.
    assert (Hv : it ((hd + k) mod M) = nth_error (firstn n (skipn H log)) k).
    { subst hd. rewrite Nat.add_mod_idemp_l by lia. rewrite Hit by lia.
      rewrite nth_error_app1 by lia. rewrite nth_error_firstn. destruct (Nat.ltb_spec k n); [|lia].
      rewrite nth_error_skipn. f_equal; lia. }
    destruct (nth_error (firstn n (skipn H log)) k) as [v|] eqn:Ev.
    2:{ apply nth_error_None in Ev. rewrite firstn_length, skipn_length in Ev. lia. }
    rewrite Hv. eexists; split; [apply AllowLook; exact Ev|].
    exists log, H, d; cbn zeta; proj.
    refine (conj HT (conj Eh (conj Et (conj Eq (conj Hit (conj Ip _)))))). repeat split; auto.
  - (* CRelease *)
    destruct c as [|st n|i]; try discriminate. destruct Ic as (-> & Hn & -> & ->).
    injection Hs as <- <-.
    replace q with (firstn n (skipn H log) ++ skipn (H + n) log).
    2:{ subst q. rewrite Nat.add_comm, <- skipn_skipn. apply firstn_skipn. }
    eexists; split; [apply AllowRelease|]. exists log, (H + n), d; cbn zeta; proj.
    refine (conj _ (conj _ (conj Et (conj _ (conj _ (conj _ _)))))); auto; try lia.
    + subst hd. rewrite Nat.add_mod_idemp_l by lia. reflexivity.
    + intros i H1 H2. apply Hit; lia.
    + destruct p; [destruct Ip as (-> & -> & ?)|destruct Ip as (-> & -> & -> & ?)]; repeat split; auto; lia.
  - (* CGetLast *)
    destruct c as [|st n|i]; try discriminate. destruct Ic as (-> & ->). injection Hs as <- <-.
    eexists; split; [apply AllowLast|]. exists log, H, d; cbn zeta; proj.
    refine (conj HT (conj Eh (conj Et (conj Eq (conj Hit (conj Ip _)))))).
    exists (length log - H). subst q. rewrite skipn_length. repeat split; auto.
    rewrite Et. f_equal. lia.
  - (* CSetStart *)
    destruct c as [|st n|i]; try discriminate. destruct Ic as (n & Hn & -> & -> & ->).
    injection Hs as <- <-.
    eexists; split; [apply AllowSkip; subst q; rewrite skipn_length; auto|].
    exists log, (H + n), d; cbn zeta; proj.
    refine (conj _ (conj _ (conj Et (conj _ (conj _ (conj _ _)))))); auto; try lia.
    + rewrite Nat.mod_mod by lia. reflexivity.
    + subst q. rewrite skipn_skipn. f_equal. lia.
    + intros i H1 H2. apply Hit; lia.
    + destruct p; [destruct Ip as (-> & -> & ?)|destruct Ip as (-> & -> & -> & ?)]; repeat split; auto; lia.
Qed.

Lemma run_inv ls : forall s f s' es,
  inv s f -> run M s ls = Some (s', es) -> exists f', allowed_all (M - 1) f es f' /\ inv s' f'.
Proof.
  induction ls as [|l t IH]; intros s f s' es I R; cbn [run] in R.
  - injection R as <- <-. exists f. split; auto. constructor.
  - destruct (step M s l) as [[s1 e]|] eqn:E; [|discriminate].
    destruct (run M s1 t) as [[s2 es']|] eqn:E2; [|discriminate].
    injection R as <- <-.
    destruct (step_inv s f l s1 e I E) as (f1 & A1 & I1).
    destruct (IH s1 f1 s2 es' I1 E2) as (f2 & A2 & I2).
    exists f2. split; auto. econstructor; eauto.
Qed.

End Proofs.
