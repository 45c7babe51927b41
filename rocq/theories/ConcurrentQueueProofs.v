From Verif Require Import Base ConcurrentQueueModel ConcurrentQueueSpec.

Lemma tset_eq {X} (f : nat -> X) t x : tset f t x t = x.
Proof. unfold tset. now rewrite Nat.eqb_refl. Qed.
Lemma tset_ne {X} (f : nat -> X) t x u : u <> t -> tset f t x u = f u.
Proof. intros. unfold tset. now rewrite (proj2 (Nat.eqb_neq u t)). Qed.
Ltac thr u t := destruct (Nat.eq_dec u t) as [->|?]; [rewrite ?tset_eq in *|rewrite ?tset_ne in * by auto].

Definition idx (k : nat) : N := (N.of_nat k mod tagmod)%N.

Lemma inc_idx k : inc (idx k) = idx (S k).
Proof. unfold inc, idx. rewrite N.add_mod_idemp_l by discriminate. f_equal. lia. Qed.

Lemma ptr_eqb_node a b : ptr_eqb a b = true -> node a = node b.
Proof.
  unfold ptr_eqb. rewrite andb_true_iff. intros [H _]. destruct (node a), (node b); try discriminate; auto.
  apply Nat.eqb_eq in H. now subst.
Qed.
Lemma ptr_eqb_refl a : ptr_eqb a a = true.
Proof. unfold ptr_eqb. rewrite N.eqb_refl. destruct (node a); rewrite ?Nat.eqb_refl; reflexivity. Qed.

(** The pointer to the k-th node of the chain. *)
Definition at_ (ch : list nat) (k : nat) (p : ptr) : Prop := exists x, nth_error ch k = Some x /\ p = mkPtr (Some x) (idx k).

Definition pushing (p : pc) : option nat :=
  match p with PushLoad n | PushNext n _ | PushCas n _ => Some n | _ => None end.
Definition holds (p : pc) : option nat :=
  match p with PushLoad n | PushNext n _ | PushCas n _ | PushPrev n _ => Some n | _ => None end.
Definition popping (p : pc) : bool :=
  match p with PopHead | PopTail _ | PopPrev _ _ | PopCheck _ _ _ | PopCas _ _ => true | _ => false end.

Definition pc_ok (s : state) (v : view) (ch : list nat) (h : nat) (t : nat) : Prop :=
  match pcs s t with
  | Idle | PopHead | PushLoad _ | PushNext _ _ | PushCas _ _ => True
  | PushPrev n tl => exists k, at_ ch k tl /\ nth_error ch (S k) = Some n /\ returned v n = false /\ (forall y, nth_error ch k = Some y -> prevs s y = null)
  | PopTail hd => exists i, i <= h /\ at_ ch i hd
  | PopPrev hd tl => exists i, i <= h /\ at_ ch i hd /\ (node tl = node hd -> excuse v t = true)
  | PopCheck hd tl fp =>
      exists i, i <= h /\ at_ ch i hd /\ (node tl = node hd -> excuse v t = true) /\
        (fp = null /\ (i < h \/ excuse v t = true) \/
         exists x, nth_error ch (S i) = Some x /\ fp = mkPtr (Some x) (idx i) /\ forall y, nth_error ch i = Some y -> prevs s y <> null)
  | PopCas hd fp => exists i, i <= h /\ at_ ch i hd /\ exists x, nth_error ch (S i) = Some x /\ fp = mkPtr (Some x) (idx i) /\
      forall y, nth_error ch i = Some y -> prevs s y <> null
  | FixTest _ _ | FixNext _ _ | FixPrev _ _ _ => False
  end.

Record inv (s : state) (v : view) (ch : list nat) (h : nat) : Prop := {
  i_nd : NoDup ch;
  i_used : forall x, In x ch -> In x (used v);
  i_head : at_ ch h (head s);
  i_tail : exists T, length ch = S T /\ at_ ch T (tail s);
  i_queue : queue v = skipn (S h) ch;
  i_prev : forall k x, nth_error ch k = Some x ->
             prevs s x = null /\ h <= k \/ exists y, nth_error ch (S k) = Some y /\ prevs s x = mkPtr (Some y) (idx k);
  i_fresh : forall x, ~ In x ch -> prevs s x = null /\ returned v x = false;
  i_ret : forall k x y, nth_error ch k = Some x -> nth_error ch (S k) = Some y -> returned v y = true -> prevs s x <> null;
  i_push : forall t n, pushing (pcs s t) = Some n -> ~ In n ch;
  i_held : forall t n, holds (pcs s t) = Some n -> In n (used v);
  i_uniq : forall t u n, holds (pcs s t) = Some n -> holds (pcs s u) = Some n -> t = u;
  i_pc : forall t, pc_ok s v ch h t;
  i_exc : forall t, popping (pcs s t) = true -> unready (returned v) (queue v) = true -> excuse v t = true
}.

Lemma init_inv : inv init start [0] 0.
Proof.
  constructor; cbn; auto; try discriminate.
  - repeat constructor; auto.
  - exists 0. split; reflexivity.
  - exists 0. split; [reflexivity|]. exists 0. split; reflexivity.
  - intros [|[|k]] x; cbn; [|discriminate|discriminate]. intros _. left. auto.
Qed.

Lemma at_lt ch k p : at_ ch k p -> k < length ch.
Proof. intros (x & H & _). apply nth_error_Some. congruence. Qed.

Lemma at_inj ch i j p q : NoDup ch -> at_ ch i p -> at_ ch j q -> node p = node q -> i = j.
Proof.
  intros Hn (x & Hx & ->) (y & Hy & ->) [= ->]. eapply NoDup_nth_error; [exact Hn| |congruence].
  apply nth_error_Some. congruence.
Qed.

Lemma at_app ch k p n : at_ ch k p -> at_ (ch ++ [n]) k p.
Proof. intros (x & Hx & ->). exists x. split; [|reflexivity]. rewrite nth_error_app1; [exact Hx|]. apply nth_error_Some. congruence. Qed.

(** The queue is empty exactly when head and tail are the same place. *)
Lemma queue_hd s v ch h : inv s v ch h -> hd_error (queue v) = nth_error ch (S h).
Proof.
  intros []. rewrite i_queue0. clear. revert ch. induction (S h) as [|k IH]; intros [|x ch]; cbn; auto.
Qed.

(** Moving [t] only. *)
Lemma go_inv s v ch h t p :
  inv s v ch h -> pushing p = pushing (pcs s t) -> holds p = holds (pcs s t) -> popping p = popping (pcs s t) \/ popping p = false ->
  pc_ok (go s t p) v ch h t -> inv (go s t p) v ch h.
Proof.
  intros [] H1 H1' H2 H3. constructor; cbn [go head tail nexts prevs pcs]; auto.
  - intros u n. thr u t; [rewrite H1|]; apply i_push0.
  - intros u n. thr u t; [rewrite H1'|]; apply i_held0.
  - intros u w n. thr u t; thr w t; rewrite ?H1'; auto; apply i_uniq0.
  - intros u. destruct (Nat.eq_dec u t) as [->|Hu]; [exact H3|].
    specialize (i_pc0 u). unfold pc_ok in *. cbn [go pcs]. now rewrite tset_ne.
  - intros u. thr u t; [|apply i_exc0]. destruct H2 as [->| ->]; [apply i_exc0|discriminate].
Qed.

(** The excuses only grow. *)
Lemma pc_ok_mono s s' v v' ch h ch' h' u :
  pc_ok s v ch h u -> pcs s' u = pcs s u -> (forall k p, at_ ch k p -> at_ ch' k p) ->
  (forall k x, nth_error ch k = Some x -> nth_error ch' k = Some x) -> h <= h' ->
  (excuse v u = true -> excuse v' u = true) ->
  (forall y, prevs s y <> null -> prevs s' y <> null) ->
  (forall n tl k, pcs s u = PushPrev n tl -> at_ ch k tl -> nth_error ch (S k) = Some n -> returned v n = false ->
     (forall y, nth_error ch k = Some y -> prevs s y = null) ->
     returned v' n = false /\ (forall y, nth_error ch k = Some y -> prevs s' y = null)) ->
  pc_ok s' v' ch' h' u.
Proof.
  intros P Hpc Hat Hnth Hh He Hp Hr. unfold pc_ok in *. rewrite Hpc.
  assert (Hd : forall i y, i < length ch -> nth_error ch' i = Some y -> nth_error ch i = Some y).
  { intros i y Hi Hy. destruct (nth_error ch i) as [z|] eqn:Ez; [|apply nth_error_None in Ez; lia].
    rewrite (Hnth _ _ Ez) in Hy. exact Hy. }
  destruct (pcs s u); auto.
  - destruct P as (k & A & B & C & D). destruct (Hr n tl k eq_refl A B C D). exists k. pose proof (at_lt _ _ _ A).
    repeat split; auto.
  - destruct P as (i & A & B). exists i. split; [lia|auto].
  - destruct P as (i & A & B & C). exists i. split; [lia|]. split; auto.
  - destruct P as (i & A & B & C & D). pose proof (at_lt _ _ _ B). exists i. split; [lia|]. split; [auto|]. split; [auto|].
    destruct D as [[D1 D2]|(x & D1 & D2 & D3)]; [left; split; [auto|]; destruct D2; [left; lia|auto]|right].
    exists x. repeat split; auto.
  - destruct P as (i & A & B & x & C & D & D3). pose proof (at_lt _ _ _ B). exists i. split; [lia|]. split; [auto|].
    exists x. repeat split; auto.
Qed.

Lemma unready_grow q n r : r n = false -> unready r (q ++ [n]) = true -> unready r q = true.
Proof. destruct q; auto. Qed.

Lemma pushed_inv s v ch h t n tl0 :
  inv s v ch h -> pcs s t = PushCas n tl0 -> ptr_eqb (tail s) tl0 = true ->
  tl0 = tail s \/ True ->
  inv (mkState (head s) (mkPtr (Some n) (inc (tag (tail s)))) (nexts s) (prevs s) (tset (pcs s) t (PushPrev n (tail s))))
      (next v (EPushed t n)) (ch ++ [n]) h.
Proof.
  intros Hinv E Eq _. pose proof Hinv as []. destruct i_tail0 as (T & HT & Ht).
  assert (Hn : ~ In n ch) by (apply (i_push0 t); now rewrite E).
  assert (Hu : In n (used v)) by (apply (i_held0 t); now rewrite E).
  destruct (i_fresh0 n Hn) as [Hpn Hrn].
  pose proof (at_lt _ _ _ i_head0) as Hh.
  assert (Hnth : forall k x, nth_error (ch ++ [n]) k = Some x -> k <= T /\ nth_error ch k = Some x \/ k = S T /\ x = n).
  { intros k x H. destruct (lt_dec k (length ch)).
    - rewrite nth_error_app1 in H by lia. left. split; [lia|auto].
    - rewrite nth_error_app2 in H by lia. destruct (k - length ch) as [|m] eqn:Ek; cbn in H; [|destruct m; discriminate].
      right. injection H as <-. split; [lia|auto]. }
  assert (Hmono : forall k x, nth_error ch k = Some x -> nth_error (ch ++ [n]) k = Some x).
  { intros k x H. rewrite nth_error_app1; [exact H|]. apply nth_error_Some. congruence. }
  constructor; cbn [head tail nexts prevs pcs next moment queue used returned excuse empty]; auto.
  - apply NoDup_snoc; auto.
  - intros x. rewrite in_app_iff. intros [H|[<-|[]]]; auto.
  - now apply at_app.
  - exists (S T). split; [rewrite app_length; cbn; lia|]. exists n. split.
    + rewrite nth_error_app2 by lia. rewrite HT, Nat.sub_diag. reflexivity.
    + destruct Ht as (x & _ & ->). cbn [tag]. now rewrite inc_idx.
  - rewrite i_queue0, skipn_app. replace (S h - length ch) with 0 by lia. reflexivity.
  - intros k x H. destruct (Hnth k x H) as [[H1 H2]|[-> ->]].
    + destruct (i_prev0 k x H2) as [A|(y & A & B)]; [left; exact A|right; eauto].
    + left. split; [auto|lia].
  - intros x Hx. apply i_fresh0. intros H. apply Hx. rewrite in_app_iff. auto.
  - intros k x y H1 H2 H3. destruct (Hnth _ _ H2) as [[B1 B2]|[B1 B2]]; [|subst; congruence].
    destruct (Hnth _ _ H1) as [[A1 A2]|[A1 A2]]; [|lia]. eauto.
  - intros u m. thr u t; [discriminate|]. intros H. pose proof (i_push0 u m H) as A.
    rewrite in_app_iff. intros [C|[C|[]]]; [auto|]. subst m. assert (u = t) by (apply (i_uniq0 u t n); [destruct (pcs s u); try discriminate; exact H|now rewrite E]). auto.
  - intros u m. thr u t; [intros [= <-]; auto|apply i_held0].
  - assert (Ht' : holds (pcs s t) = Some n) by now rewrite E.
    intros u w m. thr u t; thr w t; auto; cbn [holds].
    + intros [= <-] H. now apply (i_uniq0 t w n).
    + intros H [= <-]. now apply (i_uniq0 u t n).
    + apply i_uniq0.
  - intros u. destruct (Nat.eq_dec u t) as [->|Hne].
    + unfold pc_ok. cbn [pcs]. rewrite tset_eq. exists T. split; [now apply at_app|]. split.
      * rewrite nth_error_app2 by lia. rewrite HT, Nat.sub_diag. reflexivity.
      * cbn [next moment returned prevs]. split; [auto|]. intros y Hy. destruct (Hnth _ _ Hy) as [[_ Hy2]|[Hy2 _]]; [|lia].
        destruct (i_prev0 _ _ Hy2) as [[A _]|(z & A & _)]; [auto|]. exfalso. rewrite (proj2 (nth_error_None ch (S T))) in A; [discriminate|lia].
    + eapply (pc_ok_mono s _ v _ ch h); [apply i_pc0|cbn [pcs]; now rewrite tset_ne|intros; now apply at_app|auto|lia| |auto|].
      * cbn [next moment excuse]. intros ->. reflexivity.
      * intros m tl k _ _ _ Hr Hp. cbn [next moment returned prevs]. auto.
  - intros u. thr u t; [discriminate|]. intros H1 H2. rewrite H2. now rewrite orb_true_r.
Qed.

Lemma returns_inv s v ch h t n tl0 :
  inv s v ch h -> pcs s t = PushPrev n tl0 ->
  exists x, node tl0 = Some x /\
  inv (mkState (head s) (tail s) (nexts s) (tset (prevs s) x (mkPtr (Some n) (tag tl0))) (tset (pcs s) t Idle))
      (next v (EPushReturns t n)) ch h.
Proof.
  intros Hinv E. pose proof Hinv as []. pose proof (i_pc0 t) as P. unfold pc_ok in P. rewrite E in P.
  destruct P as (k & (x & Hx & ->) & Hn & Hr & Hk). pose proof (Hk _ Hx) as Hnull. exists x. split; [reflexivity|]. cbn [tag].
  assert (Hk' : forall j y, nth_error ch j = Some y -> y = x -> j = k).
  { intros j y Hj ->. eapply NoDup_nth_error; [exact i_nd0| |congruence]. apply nth_error_Some. congruence. }
  constructor; cbn [head tail nexts prevs pcs next moment queue used returned excuse empty]; auto.
  - intros j y Hj. thr y x.
    + assert (j = k) by eauto. subst j. right. exists n. auto.
    + apply i_prev0. exact Hj.
  - intros y Hy. assert (y <> x) by (intros ->; apply Hy; eapply nth_error_In; eauto). rewrite tset_ne by auto.
    assert (y <> n) by (intros ->; apply Hy; eapply nth_error_In; eauto). rewrite tset_ne by auto. auto.
  - intros j y z Hj Hz. thr y x; [intros; discriminate|]. thr z n; [|intros; eauto].
    intros _ _. assert (S j = S k) by (eapply NoDup_nth_error; [exact i_nd0| |congruence]; apply nth_error_Some; congruence).
    assert (j = k) by lia. subst j. congruence.
  - intros u m. thr u t; [discriminate|apply i_push0].
  - intros u m. thr u t; [discriminate|apply i_held0].
  - intros u w m. thr u t; [discriminate|]. thr w t; [discriminate|]. apply i_uniq0.
  - intros u. destruct (Nat.eq_dec u t) as [->|Hne]; [unfold pc_ok; cbn [pcs]; now rewrite tset_eq|].
    eapply (pc_ok_mono s _ v _ ch h); [apply i_pc0|cbn [pcs]; now rewrite tset_ne|auto|auto|lia| | |].
    + cbn [next moment excuse]. intros ->. reflexivity.
    + cbn [prevs]. intros y Hy. thr y x; [discriminate|auto].
    + intros m tl j Hu Hj Hm Hrm Hp.
      assert (m <> n) by (intros ->; apply Hne; apply (i_uniq0 u t n); [now rewrite Hu|now rewrite E]).
      cbn [next moment returned prevs]. rewrite (tset_ne (returned v)) by auto. split; [auto|].
      intros y Hy. thr y x; [|auto]. assert (j = k) by eauto. subst j. congruence.
  - intros u. thr u t; [discriminate|]. intros H1 H2. rewrite H2. now rewrite orb_true_r.
Qed.

Lemma popped_inv s v ch h t hd fp :
  inv s v ch h -> pcs s t = PopCas hd fp -> ptr_eqb (head s) hd = true ->
  hd_error (queue v) = node fp /\ node fp <> None /\
  inv (mkState (mkPtr (node fp) (inc (tag hd))) (tail s) (nexts s) (prevs s) (tset (pcs s) t Idle))
      (next v (EPopped t (node fp))) ch (S h).
Proof.
  intros Hinv E Eq. pose proof Hinv as []. pose proof (i_pc0 t) as P. unfold pc_ok in P. rewrite E in P.
  destruct P as (i & Hi & Hat & x & Hx & -> & Hnn). cbn [node].
  assert (i = h) by (eapply at_inj; eauto; symmetry; now apply ptr_eqb_node). subst i.
  split; [rewrite (queue_hd _ _ _ _ Hinv); exact Hx|]. split; [discriminate|].
  destruct Hat as (y & Hy & ->). cbn [tag]. rewrite inc_idx.
  constructor; cbn [head tail nexts prevs pcs next moment queue used returned excuse empty]; auto.
  - exists x. auto.
  - rewrite i_queue0. clear. revert ch. induction (S h) as [|k IH]; intros [|a ch]; cbn; auto; apply IH.
  - intros k z Hz. destruct (i_prev0 k z Hz) as [[A B]|A]; [|auto]. destruct (Nat.eq_dec k h) as [->|]; [|left; split; [auto|lia]].
    exfalso. exact (Hnn _ Hz A).
  - intros u m. thr u t; [discriminate|apply i_push0].
  - intros u m. thr u t; [discriminate|apply i_held0].
  - intros u w m. thr u t; [discriminate|]. thr w t; [discriminate|]. apply i_uniq0.
  - intros u. destruct (Nat.eq_dec u t) as [->|Hne]; [unfold pc_ok; cbn [pcs]; now rewrite tset_eq|].
    eapply (pc_ok_mono s _ v _ ch h); [apply i_pc0|cbn [pcs]; now rewrite tset_ne|auto|auto|lia| |auto|].
    + cbn [next moment excuse]. intros ->. reflexivity.
    + intros m tl k _ _ _ Hr Hp. cbn [next moment returned prevs]. auto.
  - intros u. thr u t; [discriminate|]. intros H1 H2. rewrite H2. now rewrite orb_true_r.
Qed.

Lemma nexts_inv s v ch h t n tl f :
  inv s v ch h -> pcs s t = PushNext n tl ->
  inv (mkState (head s) (tail s) f (prevs s) (tset (pcs s) t (PushCas n tl))) v ch h.
Proof.
  intros Hinv E. assert (H : inv (go s t (PushCas n tl)) v ch h).
  { apply go_inv; rewrite ?E; auto. unfold pc_ok. cbn [go pcs]. now rewrite tset_eq. }
  destruct H. constructor; auto.
Qed.

Lemma step_inv s v ch h l s' e :
  inv s v ch h -> step s l = Some (s', e) -> client_ok v e ->
  fifo_ok v e /\ excused v e /\ exists ch' h', inv s' (next v e) ch' h'.
Proof.
  intros Hinv. pose proof Hinv as []. destruct l as [t n|t|t|t]; cbn [step].
  - destruct (pcs s t) eqn:E; try discriminate. intros [= <- <-] Hc. cbn [client_ok] in Hc. split; [exact I|]. split; [exact I|].
    exists ch, h. assert (Hn : ~ In n ch) by auto.
    constructor; cbn [go head tail nexts prevs pcs next moment queue used returned excuse empty]; auto.
    + intros x Hx. right. auto.
    + intros u m. thr u t; [intros [= <-]; auto|apply i_push0].
    + intros u m. thr u t; [intros [= <-]; now left|intros H; right; eauto].
    + assert (Hfr : forall w, holds (pcs s w) = Some n -> False) by (intros w H; apply Hc; eauto).
      intros u w m. thr u t; thr w t; auto; cbn [holds].
      * intros [= <-] H. destruct (Hfr _ H).
      * intros H [= <-]. destruct (Hfr _ H).
      * apply i_uniq0.
    + intros u. destruct (Nat.eq_dec u t) as [->|Hne]; [unfold pc_ok; cbn [go pcs]; now rewrite tset_eq|].
      eapply (pc_ok_mono s _ v _ ch h); [apply i_pc0|cbn [go pcs]; now rewrite tset_ne|auto|auto|lia|auto|auto|].
      intros m tl k _ _ _ Hr Hp. cbn [next returned go prevs]. auto.
    + intros u. thr u t; [discriminate|auto].
  - destruct (pcs s t) eqn:E; try discriminate. intros [= <- <-] _. split; [exact I|]. split; [exact I|].
    exists ch, h.
    constructor; cbn [go head tail nexts prevs pcs next moment queue used returned excuse empty]; auto.
    + intros u m. thr u t; [discriminate|apply i_push0].
    + intros u m. thr u t; [discriminate|apply i_held0].
    + intros u w m. thr u t; [discriminate|]. thr w t; [discriminate|]. apply i_uniq0.
    + intros u. destruct (Nat.eq_dec u t) as [->|Hne]; [unfold pc_ok; cbn [go pcs]; now rewrite tset_eq|].
      eapply (pc_ok_mono s _ v _ ch h); [apply i_pc0|cbn [go pcs]; now rewrite tset_ne|auto|auto|lia| |auto|].
      * cbn [next excuse]. now rewrite tset_ne.
      * intros m tl k _ _ _ Hr Hp. cbn [next returned go prevs]. auto.
    + intros u. thr u t; [auto|apply i_exc0].
  - pose proof (i_pc0 t) as P. unfold pc_ok in P.
    destruct (pcs s t) eqn:E; try discriminate; try contradiction.
    + intros [= <- <-] _. split; [exact I|]. split; [exact I|]. exists ch, h. apply go_inv; rewrite ?E; auto.
      unfold pc_ok. cbn [go pcs]. now rewrite tset_eq.
    + intros [= <- <-] _. split; [exact I|]. split; [exact I|]. exists ch, h. now apply nexts_inv.
    + destruct (ptr_eqb (tail s) tl) eqn:Eq; [|discriminate]. intros [= <- <-] _. split; [exact I|]. split; [exact I|].
      assert (tl = tail s).
      { unfold ptr_eqb in Eq. apply andb_true_iff in Eq as [A B]. apply N.eqb_eq in B.
        destruct tl as [a b], (tail s) as [c d]; cbn in *. subst. f_equal. destruct a, c; try discriminate; auto.
        apply Nat.eqb_eq in A. congruence. }
      subst tl. exists (ch ++ [n]), h. eapply pushed_inv; eauto.
    + destruct (returns_inv s v ch h t n tl Hinv E) as (x & -> & H). intros [= <- <-] _. split; [exact I|]. split; [exact I|]. eauto.
    + intros [= <- <-] _. split; [exact I|]. split; [exact I|]. exists ch, h. apply go_inv; rewrite ?E; auto.
      unfold pc_ok. cbn [go pcs]. rewrite tset_eq. exists h. auto.
    + intros [= <- <-] _. split; [exact I|]. split; [exact I|]. exists ch, h. apply go_inv; rewrite ?E; auto.
      unfold pc_ok. cbn [go pcs]. rewrite tset_eq. destruct P as (i & Hi & Hat). exists i. split; [auto|]. split; [auto|].
      intros Hn. destruct i_tail0 as (T & HT & Ht). assert (T = i) by (eapply at_inj; eauto). subst T.
      pose proof (at_lt _ _ _ i_head0). apply i_exc0; [now rewrite E|]. rewrite i_queue0, skipn_all2 by lia. reflexivity.
    + destruct P as (i & Hi & Hat & Hx). pose proof Hat as (x & Hnx & ->). cbn [node].
      intros [= <- <-] _. split; [exact I|]. split; [exact I|]. exists ch, h. apply go_inv; rewrite ?E; auto.
      unfold pc_ok. cbn [go pcs]. rewrite tset_eq. exists i. split; [auto|]. split; [auto|]. split; [auto|].
      destruct (prevs s x) as [m g] eqn:Ep.
      destruct (i_prev0 i x Hnx) as [[A B]|(y & A & B)].
      * left. split; [congruence|]. assert (i = h) by lia. subst i. right. apply i_exc0; [now rewrite E|].
        pose proof (queue_hd _ _ _ _ Hinv) as Hq. destruct (queue v) as [|q0 q]; [reflexivity|]. cbn [hd_error unready] in *.
        destruct (returned v q0) eqn:Er; [|reflexivity]. exfalso. eapply i_ret0; eauto.
      * right. exists y. split; [auto|]. split; [congruence|]. intros z Hz. cbn [go prevs]. rewrite Hnx in Hz. injection Hz as <-. intros Hz2. rewrite B in Hz2. discriminate.
    + destruct P as (i & Hi & Hat & Hx & D). destruct (ptr_eqb hd (head s)) eqn:Eq.
      * assert (i = h) by (eapply at_inj; eauto; now apply ptr_eqb_node). subst i.
        assert (Hidle : inv (go s t Idle) v ch h).
        { apply go_inv; rewrite ?E; auto. unfold pc_ok. cbn [go pcs]. now rewrite tset_eq. }
        destruct D as [[-> D]|(x & D1 & -> & D3)]; cbn [node null tag].
        -- intros [= <- <-] _. split; [exact I|]. split; [|eauto]. cbn [excused]. destruct D; [lia|auto].
        -- destruct (ptr_eqb tl hd) eqn:Eq2.
           ++ intros [= <- <-] _. split; [exact I|]. split; [|eauto]. cbn [excused]. apply Hx. now apply ptr_eqb_node.
           ++ destruct Hat as (y & Hy & ->). cbn [tag]. rewrite N.eqb_refl. cbn [negb].
              intros [= <- <-] _. split; [exact I|]. split; [exact I|]. exists ch, h. apply go_inv; rewrite ?E; auto.
              unfold pc_ok. cbn [go pcs]. rewrite tset_eq. exists h. split; [auto|]. split; [exists y; auto|]. exists x. auto.
      * intros [= <- <-] _. split; [exact I|]. split; [exact I|]. exists ch, h. apply go_inv; rewrite ?E; auto.
        unfold pc_ok. cbn [go pcs]. now rewrite tset_eq.
    + destruct (ptr_eqb (head s) hd) eqn:Eq; [|discriminate]. intros [= <- <-] _.
      destruct (popped_inv s v ch h t hd fp Hinv E Eq) as (A & B & C). split; [split; auto|]. split; [exact I|]. eauto.
  - destruct (pcs s t) eqn:E; try discriminate; intros [= <- <-] _; (split; [exact I|]); (split; [exact I|]); exists ch, h;
      (apply go_inv; rewrite ?E; auto; unfold pc_ok; cbn [go pcs]; now rewrite tset_eq).
Qed.

Lemma run_good ls : forall s v ch h s' es,
  inv s v ch h -> run s ls = Some (s', es) -> all client_ok v es ->
  all fifo_ok v es /\ all excused v es /\ exists ch' h', inv s' (fold_left next es v) ch' h'.
Proof.
  induction ls as [|l ls IH]; cbn [run]; intros s v ch h s' es Hi.
  - intros [= <- <-] _. cbn. eauto.
  - destruct (step s l) as [[s1 e]|] eqn:E; [|discriminate]. destruct (run s1 ls) as [[s2 es2]|] eqn:E2; [|discriminate].
    intros [= <- <-] [Hc Hcs]. destruct (step_inv _ _ _ _ _ _ _ Hi E Hc) as (A & B & ch' & h' & C).
    destruct (IH _ _ _ _ _ _ C E2 Hcs) as (A2 & B2 & C2). cbn [all fold_left]. auto.
Qed.

Lemma inv_progress s v ch h t : inv s v ch h -> pcs s t <> Idle -> step s (Step t) <> None \/ step s (CasFails t) <> None.
Proof.
  intros [] Hne. specialize (i_pc0 t). unfold pc_ok in i_pc0. cbn [step].
  destruct (pcs s t); try contradiction; try (left; discriminate); try (right; discriminate).
  - destruct i_pc0 as (k & (x & _ & ->) & _). left. discriminate.
  - destruct i_pc0 as (k & _ & (x & _ & ->) & _). left. discriminate.
  - left. destruct (ptr_eqb hd (head s)); [|discriminate]. destruct (node fp); [|discriminate].
    destruct (ptr_eqb tl hd); [discriminate|]. destruct (negb _); discriminate.
Qed.
