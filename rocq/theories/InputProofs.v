(** Proofs for the input filter for file names (C78). *)
From Coq Require Import Ascii List NArith Bool Lia.
From Verif Require Import InputModel InputSpec.
Import ListNotations.

Lemma starts_with_spec p : forall f, starts_with p f = true <-> exists r, f = p ++ r.
Proof.
  induction p as [|x p IH]; intros f.
  - split; [intros _; exists f; reflexivity|reflexivity].
  - destruct f as [|y f]; cbn [starts_with].
    + split; [discriminate|intros (r & H); discriminate].
    + rewrite andb_true_iff, Ascii.eqb_eq, IH. split.
      * intros (-> & r & ->). exists r. reflexivity.
      * intros (r & [= -> ->]). split; [reflexivity|exists r; reflexivity].
Qed.

Lemma match_some paths : forall p f, match_path paths f = Some p -> newest paths p f.
Proof.
  induction paths as [|q paths IH]; intros p f H; [discriminate|]. cbn [match_path] in H.
  destruct (starts_with q f) eqn:E.
  - injection H as <-. exists [], paths. split; [reflexivity|]. split; [apply starts_with_spec; exact E|intros ? ? []].
  - destruct (IH p f H) as (b & a & -> & Hp & Hb). exists (q :: b), a. split; [reflexivity|]. split; [exact Hp|].
    intros q' r [<-|K]; [|exact (Hb q' r K)]. intros ->. assert (starts_with q (q ++ r) = true) by (apply starts_with_spec; eexists; reflexivity). congruence.
Qed.
Lemma match_none paths f : match_path paths f = None -> forall p r, In p paths -> f <> p ++ r.
Proof.
  induction paths as [|q paths IH]; intros H p r K; [contradiction|]. cbn [match_path] in H.
  destruct (starts_with q f) eqn:E; [discriminate|]. destruct K as [<-|K]; [|exact (IH H p r K)].
  intros ->. assert (starts_with q (q ++ r) = true) by (apply starts_with_spec; eexists; reflexivity). congruence.
Qed.
Lemma match_in paths f p : match_path paths f = Some p -> In p paths /\ exists r, f = p ++ r.
Proof. intros H. destruct (match_some paths p f H) as (b & a & -> & Hp & _). split; [apply in_elt|exact Hp]. Qed.

(** The filters of one call, as a function of what the call inside gives *)
Definition filters (paths : list (list ascii)) (file : option (list ascii)) (inner : bool -> list ascii -> result) :=
  fix filters (fs : list input) (on : bool) (logged : list (option (list ascii))) : result :=
    match fs with
    | [] => Done (if on then logged ++ [file] else logged)
    | Looks :: fs => filters fs on logged
    | FileFilter :: fs =>
        match paths, file with
        | [], _ => filters fs on logged
        | _ :: _, None => Bad
        | _ :: _, Some f =>
            match match_path paths f with
            | None => filters fs on logged
            | Some p =>
                match inner on (skipn (length p) f) with
                | Done l => filters fs false (logged ++ l)
                | r => r
                end
            end
        end
    end.
Lemma run_unfold fuel paths all on file : run (S fuel) paths all on file =
  filters paths file (fun on f => run fuel paths all on (Some f)) all on [].
Proof. reflexivity. Qed.

Lemma filters_none paths f inner fs : match_path paths f = None -> forall on l,
  filters paths (Some f) inner fs on l = Done (if on then l ++ [Some f] else l).
Proof.
  intros H. induction fs as [|x fs IH]; intros on l; [reflexivity|]. destruct x; cbn [filters]; [|apply IH].
  destruct paths as [|p paths]; [apply IH|]. rewrite H. apply IH.
Qed.

Lemma filters_off paths f p inner fs : match_path paths f = Some p -> inner false (skipn (length p) f) = Done [] -> forall l,
  filters paths (Some f) inner fs false l = Done l.
Proof.
  intros H I. induction fs as [|x fs IH]; intros l; [reflexivity|]. destruct x; cbn [filters]; [|apply IH].
  destruct paths as [|q paths]; [apply IH|]. rewrite H, I, app_nil_r. apply IH.
Qed.

Lemma filters_on paths f p inner fs g : match_path paths f = Some p -> inner false (skipn (length p) f) = Done [] ->
  inner true (skipn (length p) f) = Done [Some g] -> In FileFilter fs -> forall l,
  filters paths (Some f) inner fs true l = Done (l ++ [Some g]).
Proof.
  intros H I J. induction fs as [|x fs IH]; intros K l; [contradiction|]. destruct x; cbn [filters].
  - destruct paths as [|q paths]; [discriminate|]. rewrite H, J. apply filters_off with (p := p); assumption.
  - apply IH. destruct K as [K|K]; [discriminate|exact K].
Qed.

Lemma run_ok paths all : (forall p, In p paths -> p <> []) -> In FileFilter all ->
  forall fuel f, (length f < fuel)%nat ->
    run fuel paths all false (Some f) = Done [] /\
    exists g, shortened paths f g /\ run fuel paths all true (Some f) = Done [Some g].
Proof.
  intros Ne Ha. induction fuel as [|fuel IH]; intros f L; [lia|]. rewrite !run_unfold.
  destruct (match_path paths f) as [p|] eqn:E.
  - destruct (match_in paths f p E) as [Ip (r & ->)].
    assert (skipn (length p) (p ++ r) = r) as Sk by (rewrite skipn_app, skipn_all, PeanoNat.Nat.sub_diag; reflexivity).
    assert (length r < fuel)%nat as Lr.
    { rewrite app_length in L. specialize (Ne p Ip). destruct p; [contradiction|]. cbn in L. lia. }
    destruct (IH r Lr) as (I0 & g & Hg & I1). split.
    + apply filters_off with (p := p); [exact E|]. rewrite Sk. exact I0.
    + exists g. split; [apply s_step; [exact (match_some paths p _ E)|exact Hg]|].
      rewrite (filters_on paths (p ++ r) p _ all g); [reflexivity|exact E| | |exact Ha]; rewrite Sk; assumption.
  - rewrite !filters_none by exact E. split; [reflexivity|]. exists f.
    split; [constructor; apply match_none; exact E|reflexivity].
Qed.

Lemma no_paths fuel all on file : run (S fuel) [] all on file = Done (if on then [file] else []).
Proof.
  rewrite run_unfold.
  assert (forall l, filters [] file (fun on f => run fuel [] all on (Some f)) all on l = Done (if on then l ++ [file] else l)) as H.
  { generalize all at 2. intros fs. induction fs as [|x fs IH]; intros l'; [reflexivity|]. destruct x; apply IH. }
  rewrite H. destruct on; reflexivity.
Qed.

Lemma shortened_unique paths f g : (forall p, In p paths -> p <> []) -> shortened paths f g -> forall g', shortened paths f g' -> g = g'.
Proof.
  intros Ne H. induction H as [f Hs|p f g Hn H IH]; intros g' H'.
  - inversion H'; subst; [reflexivity|]. destruct H as (b & a & -> & (r & Hr) & _). elim (Hs p r (in_elt _ _ _) Hr).
  - inversion H' as [f' Hs|p' f' g'' Hn' H'' E]; subst.
    + destruct Hn as (b & a & -> & (r & Hr) & _). elim (Hs p r (in_elt _ _ _) Hr).
    + assert (p' = p) as ->.
      { rewrite E in Hn'. destruct Hn as (b & a & Eb & _ & Hb), Hn' as (b' & a' & Eb' & _ & Hb').
        rewrite Eb in Eb'. clear Eb. revert b' Eb' Hb'. induction b as [|x b IHb]; intros b' Eb' Hb'.
        - destruct b' as [|y b']; injection Eb' as E1 E2; [symmetry; exact E1|]. subst y. elim (Hb' p f (or_introl eq_refl) eq_refl).
        - destruct b' as [|y b']; injection Eb' as E1 E2.
          + subst x. elim (Hb p' f' (or_introl eq_refl)). symmetry. exact E.
          + apply (IHb (fun q r K => Hb q r (or_intror K)) b' E2 (fun q r K => Hb' q r (or_intror K))). }
      apply app_inv_head in E. subst f'. apply IH. exact H''.
Qed.

Lemma match_any paths f : In [] paths -> exists p, match_path paths f = Some p.
Proof.
  induction paths as [|q paths IH]; intros H; [contradiction|]. cbn [match_path].
  destruct (starts_with q f) eqn:E; [eexists; reflexivity|]. apply IH. destruct H as [->|H]; [discriminate E|exact H].
Qed.

(** With the empty path every call ends in a call inside *)
Lemma filters_deep paths f p inner : match_path paths f = Some p -> (forall on, inner on (skipn (length p) f) = Deep) ->
  forall fs, In FileFilter fs -> forall on l, filters paths (Some f) inner fs on l = Deep.
Proof.
  intros E I. induction fs as [|x fs IH]; intros K on l; [contradiction|]. destruct x; cbn [filters].
  - destruct paths as [|q paths]; [discriminate|]. rewrite E, I. reflexivity.
  - apply IH. destruct K as [K|K]; [discriminate|exact K].
Qed.
Lemma empty_path paths all : In [] paths -> In FileFilter all -> forall fuel f on, run fuel paths all on (Some f) = Deep.
Proof.
  intros He Ha. induction fuel as [|fuel IH]; intros f on; [reflexivity|]. rewrite run_unfold.
  destruct (match_any paths f He) as (p & E). apply filters_deep with (p := p); [exact E|intros o; apply IH|exact Ha].
Qed.

Lemma no_file paths all fuel on : paths <> [] -> In FileFilter all -> run (S fuel) paths all on None = Bad.
Proof.
  intros Hp Ha. rewrite run_unfold. generalize (@nil (option (list ascii))).
  assert (forall fs, In FileFilter fs -> forall l, filters paths None (fun on f => run fuel paths all on (Some f)) fs on l = Bad) as H.
  { induction fs as [|x fs IH]; intros K l; [contradiction|]. destruct x; cbn [filters].
    - destruct paths; [contradiction|reflexivity].
    - apply IH. destruct K as [K|K]; [discriminate|exact K]. }
  apply H. exact Ha.
Qed.
