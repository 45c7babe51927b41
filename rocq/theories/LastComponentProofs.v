(** Proofs for C97. *)
From Verif Require Import Base LastComponentModel LastComponentSpec.
Local Open Scope N_scope.

Lemma strrchr_app a b c :
  strrchr (a ++ b) c = match strrchr b c with Some i => Some (length a + i)%nat | None => strrchr a c end.
Proof.
  induction a as [|x a IH]; cbn [app strrchr length]; [destruct (strrchr b c); reflexivity|].
  rewrite IH. destruct (strrchr b c); reflexivity.
Qed.

Lemma strrchr_none s c : ~ In c s -> strrchr s c = None.
Proof.
  induction s as [|x s IH]; intros H; [reflexivity|]. cbn [strrchr]. rewrite IH by (intros K; apply H; right; exact K).
  destruct (N.eqb_spec x c) as [->|]; [exfalso; apply H; left; reflexivity|reflexivity].
Qed.

Lemma strrchr_all s c : Forall (eq c) s -> s <> [] -> strrchr s c = Some (length s - 1)%nat.
Proof.
  intros F N. destruct s as [|x s _] using rev_ind; [contradiction|].
  rewrite strrchr_app. apply Forall_app in F. destruct F as [_ F]. inversion F; subst.
  cbn [strrchr]. rewrite N.eqb_refl, app_length. cbn [length]. f_equal. lia.
Qed.

Lemma at_app_l a b i : (i < length a)%nat -> at_ (a ++ b) i = at_ a i.
Proof. intros H. unfold at_. apply app_nth1, H. Qed.
Lemma at_app_r a b i : (length a <= i)%nat -> at_ (a ++ b) i = at_ b (i - length a).
Proof. intros H. unfold at_. apply app_nth2. lia. Qed.
Lemma at_end s i : (length s <= i)%nat -> at_ s i = 0.
Proof. intros H. unfold at_. apply nth_overflow, H. Qed.
Lemma at_in s i : (i < length s)%nat -> In (at_ s i) s.
Proof. intros H. apply nth_In, H. Qed.

Lemma back_stop test s p : forall j, (j < p)%nat -> (forall q, (j < q < p)%nat -> test (at_ s q) = true) ->
  j = 0%nat \/ test (at_ s j) = false -> back test s p = Z.of_nat j.
Proof.
  induction p as [|q IH]; intros j L T S; [lia|]. cbn [back].
  destruct (Nat.eq_dec j q) as [->|N].
  - destruct S as [->|S]; [reflexivity|]. rewrite S, andb_false_r. reflexivity.
  - destruct (Nat.ltb_spec 0 q); [|lia]. rewrite T by lia. cbn [andb]. apply IH; [lia| |exact S].
    intros r R. apply T. lia.
Qed.

Lemma back_nat test s p : back_from test s (Z.of_nat p) = back test s p.
Proof. unfold back_from. destruct (Z.ltb_spec (Z.of_nat p) 0); [lia|]. rewrite Nat2Z.id. reflexivity. Qed.

Lemma all_none s sep : Forall (eq sep) s -> sep <> 0 -> last_component (Some s) sep = None.
Proof.
  intros F Z. unfold last_component. destruct s as [|x t]; [reflexivity|]. set (s := x :: t) in *.
  rewrite strrchr_all by (auto; discriminate). set (n := length s).
  assert (P : (0 < n)%nat) by (unfold n, s; cbn; lia).
  rewrite at_end by (fold n; lia). cbn [N.eqb negb].
  rewrite back_nat.
  destruct (Nat.eq_dec n 1) as [E|E].
  - rewrite E. cbn [Nat.sub back]. reflexivity.
  - rewrite (back_stop _ s (n - 1) 0); [reflexivity|lia| |left; reflexivity].
    intros q Q. apply N.eqb_eq. rewrite Forall_forall in F. symmetry. apply F. apply at_in. fold n. lia.
Qed.

Lemma no_post sep pre comp : comp <> [] -> ~ In sep comp -> text comp -> (pre = [] \/ exists p, pre = p ++ [sep]) ->
  last_component (Some (pre ++ comp)) sep = Some (Z.of_nat (length pre), 0%Z).
Proof.
  intros C I T P. unfold last_component. rewrite strrchr_app, strrchr_none by exact I.
  assert (A : at_ comp 0 <> 0).
  { destruct comp as [|x t]; [contradiction|]. inversion T; assumption. }
  destruct P as [->|(p & ->)].
  - cbn [strrchr app]. destruct (N.eqb_spec (at_ comp 0) 0); [contradiction|reflexivity].
  - rewrite strrchr_app. cbn [strrchr]. rewrite N.eqb_refl.
    rewrite at_app_r by (rewrite app_length; cbn; lia).
    replace (length p + 0 + 1 - length (p ++ [sep]))%nat with 0%nat by (rewrite app_length; cbn; lia).
    destruct (N.eqb_spec (at_ comp 0) 0); [contradiction|]. cbn [negb].
    rewrite app_length. cbn [length]. f_equal. f_equal. lia.
Qed.

Lemma with_post sep pre comp post : comp <> [] -> ~ In sep comp -> Forall (eq sep) post -> post <> [] ->
  (pre = [] \/ exists p, pre = p ++ [sep]) ->
  last_component (Some (pre ++ comp ++ post)) sep =
    if (length pre =? 0)%nat then if (length comp =? 1)%nat then None else Some (0%Z, Z.of_nat (length comp))
    else if (length pre =? 1)%nat then Some (0%Z, Z.of_nat (length comp) + 1)%Z
    else Some (Z.of_nat (length pre), Z.of_nat (length comp)).
Proof.
  intros C I F N P. unfold last_component. set (s := pre ++ comp ++ post).
  assert (LC : (0 < length comp)%nat) by (destruct comp; [contradiction|cbn; lia]).
  assert (LP : (0 < length post)%nat) by (destruct post; [contradiction|cbn; lia]).
  assert (LS : length s = (length pre + length comp + length post)%nat) by (unfold s; rewrite !app_length; lia).
  assert (E : strrchr s sep = Some (length s - 1)%nat).
  { unfold s. rewrite !strrchr_app, strrchr_all by assumption. f_equal. rewrite !app_length. lia. }
  rewrite E. rewrite at_end by lia. cbn [N.eqb negb].
  set (e := (length pre + length comp - 1)%nat).
  assert (SC : forall q, (length pre <= q < length pre + length comp)%nat -> at_ s q <> sep).
  { intros q Q H. apply I. unfold s in H. rewrite at_app_r in H by lia. rewrite at_app_l in H by lia.
    rewrite <- H. apply at_in. lia. }
  rewrite back_nat. rewrite (back_stop _ s (length s - 1) e).
  - assert (B : back_from (fun c => negb (c =? sep)) s (Z.of_nat e) =
      if (e =? 0)%nat then (-1)%Z else Z.of_nat (length pre - 1)).
    { rewrite back_nat. destruct (Nat.eqb_spec e 0) as [->|NE]; [reflexivity|].
      apply back_stop; [unfold e in *; lia| |].
      - intros q Q. apply negb_true_iff, N.eqb_neq. apply SC. unfold e in Q. lia.
      - destruct P as [->|(p & Ep)]; [left; reflexivity|right]. unfold s. rewrite at_app_l by (rewrite Ep, app_length; cbn; lia).
        rewrite Ep, app_length. cbn [length]. rewrite Nat.add_sub, at_app_r by lia. rewrite Nat.sub_diag.
        unfold at_. cbn [nth]. rewrite N.eqb_refl. reflexivity. }
    rewrite B. destruct (Nat.eqb_spec (length pre) 0) as [E0|E0].
    + destruct (Nat.eqb_spec (length comp) 1) as [E1|E1].
      * destruct (Nat.eqb_spec e 0); [reflexivity|unfold e in *; lia].
      * destruct (Nat.eqb_spec e 0); [unfold e in *; lia|]. rewrite E0. cbn [Nat.sub Z.of_nat Z.ltb Z.compare Z.eqb].
        f_equal. f_equal. unfold e. lia.
    + destruct (Nat.eqb_spec e 0); [unfold e in *; lia|].
      destruct (Z.ltb_spec (Z.of_nat (length pre - 1)) 0); [lia|].
      destruct (Nat.eqb_spec (length pre) 1) as [E1|E1].
      * rewrite E1. cbn [Nat.sub Z.of_nat Z.eqb]. f_equal. f_equal. unfold e. lia.
      * destruct (Z.eqb_spec (Z.of_nat (length pre - 1)) 0); [lia|]. f_equal. f_equal; unfold e; lia.
  - unfold e. lia.
  - intros q Q. apply N.eqb_eq. unfold s. rewrite at_app_r by (unfold e in Q; lia).
    rewrite at_app_r by (unfold e in Q; lia). symmetry. rewrite Forall_forall in F. apply F, at_in. lia.
  - right. apply N.eqb_neq. apply SC. unfold e. lia.
Qed.

(** Every text is separators only or has a last component. *)
Lemma decompose sep s : Forall (eq sep) s \/ exists pre comp post, is_last sep s pre comp post.
Proof.
  induction s as [|x s IH]; [left; constructor|].
  destruct IH as [F|(pre & comp & post & E & C & I & F & P)].
  - destruct (N.eq_dec x sep) as [->|D]; [left; constructor; auto|right].
    exists [], [x], s. repeat split; auto; [discriminate|]. intros [H|[]]. congruence.
  - right. destruct pre as [|y pre].
    + destruct (N.eq_dec x sep) as [->|D].
      * exists [sep], comp, post. repeat split; auto; [rewrite E; reflexivity|]. right. exists []. reflexivity.
      * exists [], (x :: comp), post. repeat split; auto; [rewrite E; reflexivity|discriminate|].
        intros [H|H]; [congruence|contradiction].
    + exists (x :: y :: pre), comp, post. repeat split; auto; [rewrite E; reflexivity|].
      right. destruct P as [P|(p & P)]; [discriminate P|]. exists (x :: p). rewrite P. reflexivity.
Qed.
