(** The invariant behind the shared resource theorems, for the limited variant. *)
From Verif Require Import Base SharedResourceModel SharedResourceSpec.
Local Open Scope N_scope.

Inductive place := Nowhere | Pend (t : nat) | Slot (i : N) | Stale (t : nat) | Gone.

Definition lifeof (p : place) : life :=
  match p with Nowhere => Unborn | Gone => Dead | _ => Live end.

Definition claims (p : pc) : option N :=
  match p with SData j _ | SExch j _ _ | SSub j _ _ => Some j | _ => None end.
Definition inflight (p : pc) : option N :=
  match p with GShare j | GRefs j _ => Some j | _ => None end.
Definition pending (p : pc) : option nat :=
  match p with SIndex d | SLoad _ d | SCas _ d | SData _ d => Some d | _ => None end.
Definition staleof (p : pc) : option nat :=
  match p with SExch _ st _ | SSub _ _ st | SDestroy st => st | _ => None end.

Definition len (l : list nat) : N := N.of_nat (length l).

Definition slot_ok (s : state) (L : N -> list nat) (own : N -> option nat) (ci c : N) (i : N) : Prop :=
  if i =? ci then own i = None /\ len (L i) <= c /\ refs s i = 1 + 2 * (c - len (L i))
  else match own i with
       | None => len (L i) < 65536 /\ refs s i = (word - 2 * len (L i)) mod word
       | Some t => match pcs s t with
                   | SData j _ => j = i /\ refs s i = 1 /\ L i = []
                   | SExch j _ d => j = i /\ refs s i = 1 /\ L i = [] /\ data s i = Some d
                   | SSub j k _ => j = i /\ exists q, k = 2 * q /\ len (L i) <= q /\ q < 65536 /\ refs s i = 1 + 2 * (q - len (L i))
                   | _ => False
                   end
       end.

Section Inv.
Variable Tmax : N.

Record inv (s : state) (v : view) (L : N -> list nat) (own : N -> option nat) (ci c : N) (loc : nat -> place) : Prop := {
  i_cur : current s = ci * 65536 + c;
  i_ci : ci < Tmax;
  i_c : c < 65536;
  i_gets : N.of_nat (gets v) = c;
  i_L : forall i t, In t (L i) <-> inflight (pcs s t) = Some i;
  i_nd : forall i, NoDup (L i);
  i_own : forall i t, claims (pcs s t) = Some i -> own i = Some t /\ i < Tmax;
  i_slot : forall i, i < Tmax -> slot_ok s L own ci c i;
  i_data : data s ci = cur v;
  i_lslot : forall x i, loc x = Slot i <-> i < Tmax /\ data s i = Some x;
  i_lpend : forall x t, loc x = Pend t <-> pending (pcs s t) = Some x;
  i_lstale : forall x t, loc x = Stale t <-> staleof (pcs s t) = Some x;
  i_lives : forall x, lives v x = lifeof (loc x);
  i_seen : forall t i, pcs s t = GShare i -> i < Tmax /\ In (data s i) (seen v t);
  i_took : forall t i d, pcs s t = GRefs i d -> i < Tmax /\ took v t = d;
  i_lim : forall t, match pcs s t with GLoad _ _ | GLoop _ _ _ | GUnref _ _ => False | _ => True end
}.

Lemma split_current ci c : c < 65536 -> N.shiftr (ci * 65536 + c) 16 = ci /\ N.land (ci * 65536 + c) 0xffff = c.
Proof.
  intros H. rewrite N.shiftr_div_pow2. change 0xffff with (N.ones 16). rewrite N.land_ones.
  change (2 ^ 16) with 65536. split.
  - symmetry. apply (N.div_unique _ _ _ c); lia.
  - symmetry. apply (N.mod_unique _ _ ci); lia.
Qed.

Lemma lor_one q : N.lor (2 * q) 1 = 2 * q + 1.
Proof. destruct q; reflexivity. Qed.

Lemma len_cons t l : len (t :: l) = len l + 1.
Proof. unfold len. cbn [length]. lia. Qed.

Lemma len_remove t l : NoDup l -> In t l -> len l = len (remove Nat.eq_dec t l) + 1.
Proof. intros H1 H2. unfold len. rewrite (remove_length_NoDup Nat.eq_dec t l H1 H2). lia. Qed.

Lemma tset_eq {X} (f : nat -> X) t x : tset f t x t = x.
Proof. unfold tset. now rewrite Nat.eqb_refl. Qed.
Lemma tset_ne {X} (f : nat -> X) t x u : u <> t -> tset f t x u = f u.
Proof. intros. unfold tset. now rewrite (proj2 (Nat.eqb_neq u t)). Qed.
Lemma nset_eq {X} (f : N -> X) t x : nset f t x t = x.
Proof. unfold nset. now rewrite N.eqb_refl. Qed.
Lemma nset_ne {X} (f : N -> X) t x u : u <> t -> nset f t x u = f u.
Proof. intros. unfold nset. now rewrite (proj2 (N.eqb_neq u t)). Qed.

(** A step that changes only the program counter of [t], neither claiming, releasing nor
    entering a slot, and keeping what it holds. *)
Lemma go_inv s v L own ci c loc t p :
  inv s v L own ci c loc ->
  claims (pcs s t) = None -> claims p = None ->
  inflight p = inflight (pcs s t) -> pending p = pending (pcs s t) -> staleof p = staleof (pcs s t) ->
  (forall i, p <> GShare i) ->
  (forall i d, p = GRefs i d -> i < Tmax /\ took v t = d) ->
  match p with GLoad _ _ | GLoop _ _ _ | GUnref _ _ => False | _ => True end ->
  inv (go s t p) v L own ci c loc.
Proof.
  intros [] Hc Hc' Hi Hp Hs Hg Ht Hl. constructor; cbn [go current refs data pcs]; auto.
  - intros i u. rewrite i_L0. destruct (Nat.eq_dec u t) as [->|]; [rewrite tset_eq, Hi|rewrite tset_ne by auto]; tauto.
  - intros i u. destruct (Nat.eq_dec u t) as [->|]; [rewrite tset_eq|rewrite tset_ne by auto]; [congruence|apply i_own0].
  - intros i Hlt. specialize (i_slot0 i Hlt). unfold slot_ok in *. cbn [go refs pcs data].
    destruct (i =? ci); [exact i_slot0|]. destruct (own i) as [u|]; [|exact i_slot0].
    destruct (Nat.eq_dec u t) as [->|]; [|rewrite tset_ne by auto; exact i_slot0].
    destruct (pcs s t); cbn [claims] in Hc; try contradiction; discriminate.
  - intros x u. rewrite i_lpend0. destruct (Nat.eq_dec u t) as [->|]; [rewrite tset_eq, Hp|rewrite tset_ne by auto]; tauto.
  - intros x u. rewrite i_lstale0. destruct (Nat.eq_dec u t) as [->|]; [rewrite tset_eq, Hs|rewrite tset_ne by auto]; tauto.
  - intros u i. destruct (Nat.eq_dec u t) as [->|]; [rewrite tset_eq|rewrite tset_ne by auto]; [intros E; now apply Hg in E|apply i_seen0].
  - intros u i d. destruct (Nat.eq_dec u t) as [->|]; [rewrite tset_eq|rewrite tset_ne by auto]; [apply Ht|apply i_took0].
  - intros u. destruct (Nat.eq_dec u t) as [->|]; [rewrite tset_eq|rewrite tset_ne by auto]; [exact Hl|apply i_lim0].
Qed.

Ltac thr u t := destruct (Nat.eq_dec u t) as [->|?]; [rewrite ?tset_eq in *|rewrite ?tset_ne in * by auto].
Ltac slot i j := destruct (N.eq_dec i j) as [->|?]; [rewrite ?nset_eq in *|rewrite ?nset_ne in * by auto].

Lemma setstart_inv s v L own ci c loc t d :
  inv s v L own ci c loc -> pcs s t = Idle -> lives v d = Unborn ->
  inv (go s t (SIndex d)) (next v (ESetStart t d)) L own ci c (tset loc d (Pend t)).
Proof.
  intros [] E Hd.
  assert (Hl : loc d = Nowhere) by (rewrite i_lives0 in Hd; destruct (loc d); try discriminate; reflexivity).
  constructor; cbn [go current refs data pcs next gets cur seen took lives]; auto.
  - intros i u. rewrite i_L0. thr u t; [rewrite E; cbn [inflight]|]; tauto.
  - intros i u. thr u t; [discriminate|apply i_own0].
  - intros i Hlt. specialize (i_slot0 i Hlt). unfold slot_ok in *. cbn [go refs pcs data].
    destruct (i =? ci); [exact i_slot0|]. destruct (own i) as [u|]; [|exact i_slot0].
    thr u t; [rewrite E in i_slot0; contradiction|exact i_slot0].
  - intros x i. thr x d; [|apply i_lslot0]. split; [discriminate|]. intros H. apply i_lslot0 in H. congruence.
  - intros x u. thr x d.
    + split.
      * intros [= ->]. now rewrite tset_eq.
      * thr u t; [reflexivity|]. intros H. apply i_lpend0 in H. congruence.
    + rewrite i_lpend0. thr u t; [rewrite E; cbn [pending]|tauto]. split; congruence.
  - intros x u. thr x d.
    + split; [discriminate|]. thr u t; [discriminate|]. intros H. apply i_lstale0 in H. congruence.
    + rewrite i_lstale0. thr u t; [rewrite E; cbn [staleof]|]; tauto.
  - intros x. thr x d; [reflexivity|apply i_lives0].
  - intros u i. thr u t; [discriminate|apply i_seen0].
  - intros u i x. thr u t; [discriminate|apply i_took0].
  - intros u. thr u t; [exact I|apply i_lim0].
Qed.

Lemma getstart_inv s v L own ci c loc t :
  Tmax <= 2 ^ 48 -> inv s v L own ci c loc -> pcs s t = Idle -> N.of_nat (gets v) + 1 < 2 ^ 16 ->
  inv (mkState (add64 (current s) 1) (refs s) (data s) (tset (pcs s) t (GShare (N.shiftr (current s) 16))))
      (next v (EGetStart t)) (nset L ci (t :: L ci)) own ci (c + 1) loc.
Proof.
  intros HT [] E Hg. change (2 ^ 16) with 65536 in Hg. change (2 ^ 48) with 281474976710656 in HT.
  destruct (split_current ci c i_c0) as [Esh _]. rewrite i_cur0, Esh.
  constructor; cbn [go current refs data pcs next gets cur seen took lives]; auto; try lia.
  - unfold add64, word. change (2 ^ 64) with 18446744073709551616. rewrite N.mod_small; lia.
  - intros i u. slot i ci.
    + cbn [In]. rewrite i_L0. thr u t; [cbn [inflight]; tauto|]. split; [intros [H|H]; [congruence|exact H]|tauto].
    + rewrite i_L0. thr u t; [rewrite E; cbn [inflight]|tauto]. split; congruence.
  - intros i. slot i ci; [constructor; [|apply i_nd0]; rewrite i_L0, E; discriminate|apply i_nd0].
  - intros i u. thr u t; [discriminate|apply i_own0].
  - intros i Hlt. specialize (i_slot0 i Hlt). unfold slot_ok in *. cbn [go refs pcs data].
    slot i ci.
    + rewrite N.eqb_refl in *. rewrite len_cons. destruct i_slot0 as (A & B & C). refine (conj A (conj _ _)); lia.
    + rewrite (proj2 (N.eqb_neq i ci)) in * by auto. destruct (own i) as [u|]; [|exact i_slot0].
      thr u t; [rewrite E in i_slot0; contradiction|exact i_slot0].
  - intros x u. rewrite i_lpend0. thr u t; [rewrite E; cbn [pending]|]; tauto.
  - intros x u. rewrite i_lstale0. thr u t; [rewrite E; cbn [staleof]|]; tauto.
  - intros u i. thr u t; [|apply i_seen0]. intros [= <-]. split; [auto|]. left. auto.
  - intros u i x. thr u t; [discriminate|apply i_took0].
  - intros u. thr u t; [exact I|apply i_lim0].
Qed.

(** A slot whose refs are zero is neither current nor claimed, and nobody is in it. *)
Lemma zero_free s v L own ci c loc i :
  inv s v L own ci c loc -> i < Tmax -> refs s i = 0 -> i <> ci /\ own i = None /\ L i = [].
Proof.
  intros [] Hi Hz. specialize (i_slot0 i Hi). unfold slot_ok in i_slot0. rewrite Hz in i_slot0.
  destruct (N.eqb_spec i ci) as [->|Hn]; [lia|]. split; [auto|].
  destruct (own i) as [u|].
  - destruct (pcs s u); try contradiction; try lia; exfalso; destruct i_slot0 as [_ (q & ?)]; lia.
  - split; [reflexivity|]. destruct i_slot0 as [A B]. unfold word in B.
    destruct (L i) as [|x l]; [reflexivity|]. rewrite len_cons in *. exfalso.
    rewrite N.mod_small in B; [lia|]. change (2 ^ 64) with 18446744073709551616. lia.
Qed.

Lemma cas_inv s v L own ci c loc t i d :
  inv s v L own ci c loc -> pcs s t = SCas i d -> i < Tmax -> refs s i = 0 ->
  inv (mkState (current s) (nset (refs s) i 1) (data s) (tset (pcs s) t (SData i d))) v L (nset own i (Some t)) ci c loc.
Proof.
  intros Hinv E Hi Hz. destruct (zero_free _ _ _ _ _ _ _ _ Hinv Hi Hz) as (Hne & Ho & HL). destruct Hinv.
  constructor; cbn [go current refs data pcs]; auto.
  - intros j u. rewrite i_L0. thr u t; [rewrite E; cbn [inflight]|]; tauto.
  - intros j u. thr u t; [intros [= <-]; now rewrite nset_eq|]. intros H. apply i_own0 in H. slot j i; [|exact H].
    rewrite Ho in H. destruct H. discriminate.
  - intros j Hlt. specialize (i_slot0 j Hlt). unfold slot_ok in *. cbn [go refs pcs data].
    slot j i.
    + rewrite (proj2 (N.eqb_neq i ci)) by auto. rewrite tset_eq. auto.
    + destruct (j =? ci); [exact i_slot0|]. destruct (own j) as [u|]; [|exact i_slot0].
      thr u t; [rewrite E in i_slot0; contradiction|exact i_slot0].
  - intros x u. rewrite i_lpend0. thr u t; [rewrite E; cbn [pending]|]; tauto.
  - intros x u. rewrite i_lstale0. thr u t; [rewrite E; cbn [staleof]|]; tauto.
  - intros u j. thr u t; [discriminate|apply i_seen0].
  - intros u j x. thr u t; [discriminate|apply i_took0].
  - intros u. thr u t; [exact I|apply i_lim0].
Qed.

Definition moved (loc : nat -> place) (old : option nat) (t d : nat) (i : N) : nat -> place :=
  tset (match old with Some y => tset loc y (Stale t) | None => loc end) d (Slot i).

Lemma data_inv s v L own ci c loc t i d :
  inv s v L own ci c loc -> pcs s t = SData i d ->
  inv (mkState (current s) (refs s) (nset (data s) i (Some d)) (tset (pcs s) t (SExch i (data s i) d)))
      v L own ci c (moved loc (data s i) t d i).
Proof.
  intros [] E. destruct (i_own0 i t) as [Ho Hi]; [now rewrite E|].
  pose proof (i_slot0 i Hi) as Hs. unfold slot_ok in Hs.
  destruct (N.eqb_spec i ci) as [->|Hne]; [destruct Hs; congruence|].
  rewrite Ho, E in Hs. destruct Hs as (_ & Hr & HL).
  assert (Hd : loc d = Pend t) by (apply i_lpend0; now rewrite E).
  assert (Hold : forall y, data s i = Some y -> loc y = Slot i /\ y <> d).
  { intros y Hy. assert (loc y = Slot i) by (apply i_lslot0; auto). split; [auto|]. intros ->. congruence. }
  constructor; cbn [go current refs data pcs]; auto.
  - intros j u. rewrite i_L0. thr u t; [rewrite E; cbn [inflight]|]; tauto.
  - intros j u. thr u t; [intros [= <-]; auto|apply i_own0].
  - intros j Hlt. specialize (i_slot0 j Hlt). unfold slot_ok in *. cbn [go refs pcs data].
    slot j i.
    + rewrite (proj2 (N.eqb_neq i ci)) by auto. rewrite Ho, tset_eq. auto.
    + destruct (j =? ci); [exact i_slot0|]. destruct (own j) as [u|]; [|exact i_slot0].
      thr u t; [rewrite E in i_slot0; lia|exact i_slot0].
  - rewrite nset_ne by auto. exact i_data0.
  - intros x j. unfold moved. thr x d.
    + split; [intros [= <-]; now rewrite nset_eq|]. intros [Hj Hx]. slot j i; [reflexivity|].
      assert (loc d = Slot j) by (apply i_lslot0; auto). congruence.
    + destruct (data s i) as [y|] eqn:Ey.
      * destruct (Hold y eq_refl) as [Hy1 Hy2]. thr x y.
        { split; [discriminate|]. intros [Hj Hx]. slot j i; [congruence|].
          assert (loc y = Slot j) by (apply i_lslot0; auto). congruence. }
        { rewrite i_lslot0. slot j i; [|tauto]. split; [intros []; congruence|intros [_ [= ->]]; congruence]. }
      * rewrite i_lslot0. slot j i; [|tauto]. split; [intros []; congruence|intros [_ [= ->]]; congruence].
  - intros x u. unfold moved. thr x d.
    + split; [discriminate|]. thr u t; [discriminate|]. intros H. apply i_lpend0 in H. congruence.
    + assert (H : match data s i with Some y => tset loc y (Stale t) | None => loc end x = Pend u <-> loc x = Pend u).
      { destruct (data s i) as [y|] eqn:Ey; [|tauto]. destruct (Hold y eq_refl). thr x y; [|tauto]. split; congruence. }
      rewrite H, i_lpend0. thr u t; [|tauto]. rewrite E. cbn [pending]. split; congruence.
  - intros x u. unfold moved. thr x d.
    + split; [discriminate|]. intros H. exfalso. thr u t.
      * cbn [staleof] in H. destruct (Hold d H). congruence.
      * apply i_lstale0 in H. congruence.
    + destruct (data s i) as [y|] eqn:Ey.
      * destruct (Hold y eq_refl) as [Hy1 Hy2]. thr x y.
        { split; [intros [= <-]; now rewrite tset_eq|]. thr u t; [reflexivity|]. intros H. apply i_lstale0 in H. congruence. }
        { rewrite i_lstale0. thr u t; [|tauto]. rewrite E. cbn [staleof]. split; congruence. }
      * rewrite i_lstale0. thr u t; [|tauto]. rewrite E. cbn [staleof]. tauto.
  - intros x. rewrite i_lives0. unfold moved. thr x d; [now rewrite Hd|].
    destruct (data s i) as [y|] eqn:Ey; [|reflexivity]. destruct (Hold y eq_refl) as [Hy1 Hy2]. thr x y; [now rewrite Hy1|reflexivity].
  - intros u j. thr u t; [discriminate|]. intros H. slot j i; [|now apply i_seen0].
    exfalso. assert (In u (L i)) by (apply i_L0; now rewrite H). rewrite HL in *. contradiction.
  - intros u j x. thr u t; [discriminate|apply i_took0].
  - intros u. thr u t; [exact I|apply i_lim0].
Qed.

Lemma exch_inv s v L own ci c loc t i st d :
  inv s v L own ci c loc -> pcs s t = SExch i st d ->
  lives v d = Live /\ inv (mkState (N.shiftl i 16) (refs s) (data s)
         (tset (pcs s) t (SSub (N.shiftr (current s) 16) (N.shiftl (N.land (current s) 0xffff) 1) st)))
      (next v (EPublished d)) L (nset (nset own i None) ci (Some t)) i 0 loc.
Proof.
  intros [] E. destruct (i_own0 i t) as [Ho Hi]; [now rewrite E|].
  pose proof (i_slot0 i Hi) as Hs. pose proof (i_slot0 ci i_ci0) as Hc. unfold slot_ok in Hs, Hc.
  rewrite N.eqb_refl in Hc. destruct Hc as (Hc1 & Hc2 & Hc3).
  destruct (N.eqb_spec i ci) as [->|Hne]; [destruct Hs; congruence|].
  rewrite Ho, E in Hs. destruct Hs as (_ & Hr & HL & Hd).
  destruct (split_current ci c i_c0) as [E1 E2]. rewrite i_cur0, E1, E2.
  rewrite !N.shiftl_mul_pow2. change (2 ^ 16) with 65536. change (2 ^ 1) with 2.
  assert (Hld : loc d = Slot i) by (apply i_lslot0; auto).
  split; [now rewrite i_lives0, Hld|].
  constructor; cbn [go current refs data pcs next gets cur seen took lives]; auto; try lia.
  - intros j u. rewrite i_L0. thr u t; [rewrite E; cbn [inflight]|]; tauto.
  - intros j u. thr u t; [intros [= <-]; now rewrite nset_eq|]. intros H. apply i_own0 in H. destruct H as [H1 H2]. split; [|auto].
    slot j ci; [congruence|]. slot j i; congruence.
  - intros j Hlt. specialize (i_slot0 j Hlt). unfold slot_ok in *. cbn [go refs pcs data].
    slot j ci.
    + rewrite (proj2 (N.eqb_neq ci i)) by auto. rewrite tset_eq. split; [reflexivity|]. exists c. lia.
    + slot j i.
      * rewrite N.eqb_refl. split; [reflexivity|]. rewrite HL. cbn. rewrite Hr. split; [lia|reflexivity].
      * rewrite (proj2 (N.eqb_neq j i)) by auto. rewrite (proj2 (N.eqb_neq j ci)) in i_slot0 by auto.
        destruct (own j) as [u|]; [|exact i_slot0].
        thr u t; [rewrite E in i_slot0; lia|exact i_slot0].
  - intros x u. rewrite i_lpend0. thr u t; [rewrite E; cbn [pending]|]; tauto.
  - intros x u. rewrite i_lstale0. thr u t; [rewrite E; cbn [staleof]|]; tauto.
  - intros u j. thr u t; [discriminate|]. intros H. destruct (i_seen0 u j H). split; [auto|]. now right.
  - intros u j x. thr u t; [discriminate|apply i_took0].
  - intros u. thr u t; [exact I|apply i_lim0].
Qed.

Lemma sub_inv s v L own ci c loc t i k st :
  inv s v L own ci c loc -> pcs s t = SSub i k st ->
  inv (mkState (current s) (nset (refs s) i (sub64 (refs s i) (N.lor k 1))) (data s) (tset (pcs s) t (SDestroy st)))
      v L (nset own i None) ci c loc.
Proof.
  intros [] E. destruct (i_own0 i t) as [Ho Hi]; [now rewrite E|].
  pose proof (i_slot0 i Hi) as Hs. unfold slot_ok in Hs.
  destruct (N.eqb_spec i ci) as [->|Hne]; [destruct Hs; congruence|].
  rewrite Ho, E in Hs. destruct Hs as (_ & q & -> & Hl & Hq & Hr). rewrite lor_one.
  constructor; cbn [go current refs data pcs]; auto.
  - intros j u. rewrite i_L0. thr u t; [rewrite E; cbn [inflight]|]; tauto.
  - intros j u. thr u t; [discriminate|]. intros H. apply i_own0 in H. destruct H as [H1 H2]. split; [|auto]. slot j i; congruence.
  - intros j Hlt. specialize (i_slot0 j Hlt). unfold slot_ok in *. cbn [go refs pcs data].
    slot j i.
    + rewrite (proj2 (N.eqb_neq i ci)) by auto. split; [lia|]. rewrite Hr. unfold sub64, word.
      change (2 ^ 64) with 18446744073709551616. f_equal. lia.
    + destruct (j =? ci); [exact i_slot0|]. destruct (own j) as [u|]; [|exact i_slot0].
      thr u t; [rewrite E in i_slot0; lia|exact i_slot0].
  - intros x u. rewrite i_lpend0. thr u t; [rewrite E; cbn [pending]|]; tauto.
  - intros x u. rewrite i_lstale0. thr u t; [rewrite E; cbn [staleof]|]; tauto.
  - intros u j. thr u t; [discriminate|apply i_seen0].
  - intros u j x. thr u t; [discriminate|apply i_took0].
  - intros u. thr u t; [exact I|apply i_lim0].
Qed.

Lemma destroy_inv s v L own ci c loc t st :
  inv s v L own ci c loc -> pcs s t = SDestroy st ->
  resource_ok v (EDestroyed st) /\ inv (go s t Idle) (next v (EDestroyed st)) L own ci c (match st with Some x => tset loc x Gone | None => loc end).
Proof.
  intros Hinv E. destruct st as [x|].
  2:{ split; [exact I|]. apply go_inv; auto; rewrite ?E; auto; congruence. }
  destruct Hinv. assert (Hx : loc x = Stale t) by (apply i_lstale0; now rewrite E).
  split.
  { cbn [resource_ok]. split; [now rewrite i_lives0, Hx|]. intros H. rewrite <- i_data0 in H.
    assert (loc x = Slot ci) by (apply i_lslot0; auto). congruence. }
  constructor; cbn [go current refs data pcs next gets cur seen took lives]; auto.
  - intros j u. rewrite i_L0. thr u t; [rewrite E; cbn [inflight]|]; tauto.
  - intros j u. thr u t; [discriminate|]. apply i_own0.
  - intros j Hlt. specialize (i_slot0 j Hlt). unfold slot_ok in *. cbn [go refs pcs data].
    destruct (j =? ci); [exact i_slot0|]. destruct (own j) as [u|]; [|exact i_slot0].
    thr u t; [rewrite E in i_slot0; contradiction|exact i_slot0].
  - intros y i. thr y x; [|apply i_lslot0]. split; [discriminate|]. intros H. apply i_lslot0 in H. congruence.
  - intros y u. thr y x.
    + split; [discriminate|]. thr u t; [discriminate|]. intros H. apply i_lpend0 in H. congruence.
    + rewrite i_lpend0. thr u t; [rewrite E; cbn [pending]|]; tauto.
  - intros y u. thr y x.
    + split; [discriminate|]. thr u t; [discriminate|]. intros H. apply i_lstale0 in H. congruence.
    + rewrite i_lstale0. thr u t; [rewrite E; cbn [staleof]|tauto]. split; congruence.
  - intros y. thr y x; [reflexivity|apply i_lives0].
  - intros u j. thr u t; [discriminate|apply i_seen0].
  - intros u j y. thr u t; [discriminate|apply i_took0].
  - intros u. thr u t; [exact I|apply i_lim0].
Qed.

Lemma share_inv s v L own ci c loc t i :
  inv s v L own ci c loc -> pcs s t = GShare i ->
  resource_ok v (EShared t (data s i)) /\ inv (go s t (GRefs i (data s i))) (next v (EShared t (data s i))) L own ci c loc.
Proof.
  intros Hinv E. pose proof Hinv as []. destruct (i_seen0 t i E) as [Hi Hs]. split.
  - split; [exact Hs|]. intros d Hd. rewrite i_lives0. replace (loc d) with (Slot i); [reflexivity|]. symmetry. apply i_lslot0. auto.
  - assert (inv s (next v (EShared t (data s i))) L own ci c loc).
    { constructor; auto. intros u j d Hu. cbn [next took]. thr u t; [congruence|now apply (i_took0 u j)]. }
    apply go_inv; auto; rewrite ?E; auto; try congruence.
    intros j d [= <- <-]. cbn [next took]. rewrite tset_eq. auto.
Qed.

Lemma refs_inv s v L own ci c loc t i d :
  inv s v L own ci c loc -> pcs s t = GRefs i d ->
  took v t = d /\ inv (mkState (current s) (nset (refs s) i (add64 (refs s i) 2)) (data s) (tset (pcs s) t Idle))
      v (nset L i (remove Nat.eq_dec t (L i))) own ci c loc.
Proof.
  intros [] E. destruct (i_took0 t i d E) as [Hi Ht]. split; [exact Ht|].
  assert (Hin : In t (L i)) by (apply i_L0; now rewrite E).
  pose proof (len_remove t (L i) (i_nd0 i) Hin) as Hlen.
  constructor; cbn [go current refs data pcs next gets cur seen took lives]; auto.
  - intros j u. slot j i.
    + rewrite in_remove_iff, i_L0. thr u t; [cbn [inflight]; split; [tauto|discriminate]|tauto].
    + rewrite i_L0. thr u t; [rewrite E; cbn [inflight]|tauto]. split; congruence.
  - intros j. slot j i; [apply remove_NoDup|]; apply i_nd0.
  - intros j u. thr u t; [discriminate|]. apply i_own0.
  - intros j Hlt. specialize (i_slot0 j Hlt). unfold slot_ok in *. cbn [go refs pcs data].
    slot j i.
    + destruct (N.eqb_spec i ci) as [->|Hne].
      * destruct i_slot0 as (A & B & C). split; [exact A|]. split; [lia|]. rewrite C. unfold add64, word.
        change (2 ^ 64) with 18446744073709551616. rewrite N.mod_small; lia.
      * destruct (own i) as [u|].
        { thr u t; [rewrite E in i_slot0; contradiction|].
          destruct (pcs s u); try contradiction.
          - destruct i_slot0 as (_ & _ & HL). rewrite HL in Hin. contradiction.
          - destruct i_slot0 as (_ & _ & HL & _). rewrite HL in Hin. contradiction.
          - destruct i_slot0 as (-> & q & -> & Hl & Hq & Hr). split; [reflexivity|]. exists q.
            refine (conj eq_refl (conj _ (conj Hq _))); [lia|]. rewrite Hr. unfold add64, word.
            change (2 ^ 64) with 18446744073709551616. rewrite N.mod_small; lia. }
        { destruct i_slot0 as [A B]. split; [lia|]. rewrite B. unfold add64. rewrite N.add_mod_idemp_l by discriminate.
          unfold word. change (2 ^ 64) with 18446744073709551616. f_equal. lia. }
    + destruct (j =? ci); [exact i_slot0|]. destruct (own j) as [u|]; [|exact i_slot0].
      thr u t; [rewrite E in i_slot0; contradiction|exact i_slot0].
  - intros y u. rewrite i_lpend0. thr u t; [rewrite E; cbn [pending]|]; tauto.
  - intros y u. rewrite i_lstale0. thr u t; [rewrite E; cbn [staleof]|tauto]. split; congruence.
  - intros u j. thr u t; [discriminate|apply i_seen0].
  - intros u j y. thr u t; [discriminate|apply i_took0].
  - intros u. thr u t; [exact I|apply i_lim0].
Qed.

Definition good (s : state) (v : view) : Prop := exists L own ci c loc, inv s v L own ci c loc.

Lemma init_good : 0 < Tmax -> good init start.
Proof.
  intros HT. exists (fun _ => []), (fun _ => None), 0, 0, (fun _ => Nowhere).
  constructor; cbn; auto; try lia; try discriminate; try (intros; split; intros; easy).
  - intros. constructor.
  - intros i Hi. unfold slot_ok. cbn. destruct (i =? 0) eqn:E; cbn; [|auto with zarith].
    split; [auto|lia]. split; [lia|reflexivity].
Qed.

Lemma step_good s v l s' e :
  Tmax <= 2 ^ 48 -> good s v -> step Tmax false s l = Some (s', e) -> client_ok v e ->
  resource_ok v e /\ good s' (next v e).
Proof.
  intros HT (L & own & ci & c & loc & H) Hs Hc. destruct l as [t d|t|t]; cbn [step] in Hs.
  - destruct (pcs s t) eqn:E; try discriminate. injection Hs as <- <-. split; [exact I|].
    eexists _, _, _, _, _. eapply setstart_inv; eauto.
  - destruct (pcs s t) eqn:E; try discriminate. injection Hs as <- <-. split; [exact I|].
    eexists _, _, _, _, _. eapply getstart_inv; eauto.
  - destruct (pcs s t) eqn:E; try discriminate.
    + injection Hs as <- <-. split; [exact I|]. eexists _, _, _, _, _. eapply go_inv; eauto; rewrite ?E; auto; congruence.
    + destruct (idx <? Tmax); [|discriminate].
      destruct (refs s idx =? 0); injection Hs as <- <-; (split; [exact I|]); eexists _, _, _, _, _; eapply go_inv; eauto; rewrite ?E; auto; congruence.
    + destruct (N.ltb_spec idx Tmax); [|discriminate].
      destruct (N.eqb_spec (refs s idx) 0); injection Hs as <- <-; (split; [exact I|]).
      * eexists _, _, _, _, _. eapply cas_inv; eauto.
      * eexists _, _, _, _, _; eapply go_inv; eauto; rewrite ?E; auto; congruence.
    + injection Hs as <- <-. split; [exact I|]. eexists _, _, _, _, _. eapply data_inv; eauto.
    + injection Hs as <- <-. edestruct exch_inv as [A B]; eauto. split; [exact A|]. eexists _, _, _, _, _; eauto.
    + destruct (prev <? Tmax); [|discriminate]. injection Hs as <- <-. split; [exact I|]. eexists _, _, _, _, _. eapply sub_inv; eauto.
    + injection Hs as <- <-. edestruct destroy_inv as [A B]; eauto. split; [exact A|]. eexists _, _, _, _, _; eauto.
    + destruct (idx <? Tmax); [|discriminate]. injection Hs as <- <-. edestruct share_inv as [A B]; eauto. split; [exact A|]. eexists _, _, _, _, _; eauto.
    + injection Hs as <- <-. edestruct refs_inv as [A B]; eauto. split; [exact A|]. eexists _, _, _, _, _; eauto.
    + destruct H. specialize (i_lim0 t). rewrite E in i_lim0. contradiction.
    + destruct H. specialize (i_lim0 t). rewrite E in i_lim0. contradiction.
    + destruct H. specialize (i_lim0 t). rewrite E in i_lim0. contradiction.
Qed.

Fixpoint after (v : view) (es : list event) : view :=
  match es with [] => v | e :: t => after (next v e) t end.

Lemma run_good ls : forall s v s' es,
  Tmax <= 2 ^ 48 -> good s v -> run Tmax false s ls = Some (s', es) -> all client_ok v es ->
  all resource_ok v es /\ good s' (after v es).
Proof.
  induction ls as [|l ls IH]; intros s v s' es HT Hg; cbn [run].
  - intros [= <- <-] _. split; [exact I|exact Hg].
  - destruct (step Tmax false s l) as [[s1 e]|] eqn:E; [|discriminate].
    destruct (run Tmax false s1 ls) as [[s2 es2]|] eqn:E2; [|discriminate].
    intros [= <- <-] [Hc1 Hc2]. destruct (step_good _ _ _ _ _ HT Hg E Hc1) as [A B].
    destruct (IH _ _ _ _ HT B E2 Hc2) as [C D]. split; [split; auto|exact D].
Qed.

(** No thread is ever stuck: the slots it touches exist. *)
Lemma good_live s v t : good s v -> 
  match pcs s t with Idle | SLoad _ _ | SCas _ _ => True | _ => step Tmax false s (Step t) <> None end.
Proof.
  intros (L & own & ci & c & loc & []). cbn [step]. destruct (pcs s t) eqn:E; try exact I; try discriminate.
  - destruct (i_own0 prev t) as [_ Hp]; [now rewrite E|]. apply N.ltb_lt in Hp. rewrite Hp. discriminate.
  - destruct (i_seen0 t idx E) as [Hp _]. apply N.ltb_lt in Hp. rewrite Hp. discriminate.
  - specialize (i_lim0 t). rewrite E in i_lim0. contradiction.
Qed.

End Inv.

(** The slot a scanning setter looks at exists. *)
Definition scan_ok (Tmax : N) (p : pc) : Prop :=
  match p with SLoad i _ | SCas i _ => i < Tmax | _ => True end.

Lemma step_scan Tmax u s l s' e :
  0 < Tmax -> step Tmax u s l = Some (s', e) ->
  (forall t, scan_ok Tmax (pcs s t)) -> forall t, scan_ok Tmax (pcs s' t).
Proof.
  intros HT Hs Hall t. assert (Hm : forall x, x mod Tmax < Tmax) by (intros; apply N.mod_lt; lia).
  destruct l as [a d|a|a]; cbn [step] in Hs; pose proof (Hall a) as Ha; pose proof (Hall t) as Ht;
    destruct (pcs s a) eqn:E; try discriminate; cbn [scan_ok] in Ha;
    repeat match type of Hs with (if ?b then _ else _) = _ => destruct b end; try discriminate;
    injection Hs as <- <-; cbn [go pcs];
    (destruct (Nat.eq_dec t a) as [->|]; [rewrite tset_eq|rewrite tset_ne by auto; exact Ht]);
    cbn [scan_ok]; auto; destruct u; exact I.
Qed.

Lemma run_scan Tmax u ls : forall s s' es,
  0 < Tmax -> run Tmax u s ls = Some (s', es) ->
  (forall t, scan_ok Tmax (pcs s t)) -> forall t, scan_ok Tmax (pcs s' t).
Proof.
  induction ls as [|l ls IH]; intros s s' es HT; cbn [run].
  - intros [= <- <-] H. exact H.
  - destruct (step Tmax u s l) as [[s1 e]|] eqn:E; [|discriminate].
    destruct (run Tmax u s1 ls) as [[s2 es2]|] eqn:E2; [|discriminate].
    intros [= <- <-] H. eapply IH; [exact HT|exact E2|]. eapply step_scan; eauto.
Qed.

Lemma never_stuck Tmax ls s es : 0 < Tmax -> Tmax <= 2 ^ 48 ->
  run Tmax false init ls = Some (s, es) -> all client_ok start es ->
  forall t, pcs s t <> Idle -> step Tmax false s (Step t) <> None.
Proof.
  intros H0 H1 R C t Ht.
  pose proof (good_live Tmax s _ t (proj2 (run_good Tmax ls init start s es H1 (init_good Tmax H0) R C))) as H.
  pose proof (run_scan Tmax false ls init s es H0 R (fun _ => I) t) as Hsc.
  destruct (pcs s t) eqn:E; try exact H; [congruence| |]; cbn [step]; rewrite E; cbn [scan_ok] in Hsc;
    apply N.ltb_lt in Hsc; rewrite Hsc; destruct (refs s idx =? 0); discriminate.
Qed.
