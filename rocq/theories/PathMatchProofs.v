(** Matching two paths. *)
From Verif Require Import Base PathModel PathSpec.

Lemma strcmp_ok a : forall b, strcmp_eq a b = true <-> a = b.
Proof.
  induction a as [|x a IH]; intros [|y b]; cbn [strcmp_eq]; try (split; [discriminate|congruence] || (split; reflexivity)). rewrite andb_true_iff, N.eqb_eq, IH. split; [intros [-> ->]; reflexivity|]. intros H. injection H. auto.
Qed.
Lemma same_lower_ok a : forall b, same_lower a b = true <-> map lower a = map lower b.
Proof.
  induction a as [|x a IH]; intros [|y b]; cbn [same_lower map]; try (split; discriminate) || (split; reflexivity). change tolower with lower.
  destruct (N.eqb_spec (lower x) (lower y)) as [E|E].
  - rewrite IH, E. split; [now intros ->|]. intros H. now injection H.
  - split; [|intros H; injection H; contradiction]. intros H. apply N.eqb_eq in H. subst. contradiction.
Qed.

Lemma starts_ok o n : (match wildcard_of o with Some w => starts_with w (Some n) | None => false end) = true <-> any_name o n.
Proof.
  unfold wildcard_of, any_name. destruct (literal o); [split; [discriminate|intros [H _]; discriminate]|]. unfold starts_with. destruct n as [|c n].
  - split; [discriminate|]. intros (_ & r & E). discriminate.
  - rewrite N.eqb_eq. split; [intros ->; split; [reflexivity|now exists n]|]. intros (_ & r & E). injection E. auto.
Qed.

Lemma kind_eqb_ok a b : kind_eqb a b = true <-> a = b.
Proof. destruct a, b; cbn; (split; [discriminate|discriminate] || (split; reflexivity)). Qed.

Lemma match_component_ok o a b : match_component o a b = true <-> components_match o a b.
Proof.
  unfold match_component, components_match. destruct a as [ka na], b as [kb nb]. cbn [fst snd]. destruct (kind_eqb ka kb) eqn:K.
  - apply kind_eqb_ok in K. subst kb. split.
    + intros H. left. split; [reflexivity|]. intros x y -> ->. unfold names_match. rewrite <- !starts_ok. destruct (wildcard_of o) as [w|].
      * destruct (starts_with w (Some x)); [now left|]. destruct (starts_with w (Some y)); [right; now left|]. right. right. cbn [orb] in H. destruct (case_sensitive o); [now apply strcmp_ok|now apply same_lower_ok].
      * right. right. destruct (case_sensitive o); [now apply strcmp_ok|now apply same_lower_ok].
    + intros [[_ H]|[H _]]; [|contradiction]. destruct na as [x|], nb as [y|]; try (now destruct (match wildcard_of o with Some w => _ | None => _ end)).
      specialize (H x y eq_refl eq_refl). unfold names_match in H. rewrite <- !starts_ok in H. destruct (wildcard_of o) as [w|].
      * destruct (starts_with w (Some x)), (starts_with w (Some y)); try reflexivity. cbn [orb]. destruct H as [?|[?|H]]; try discriminate. destruct (case_sensitive o); [now apply strcmp_ok|now apply same_lower_ok].
      * destruct H as [?|[?|H]]; try discriminate. destruct (case_sensitive o); [now apply strcmp_ok|now apply same_lower_ok].
  - assert (N : ka <> kb) by (rewrite <- kind_eqb_ok, K; discriminate). unfold is_relative_root. cbn [fst]. rewrite negb_true_iff, orb_false_iff, andb_false_iff, !negb_false_iff, !kind_eqb_ok. split.
    + intros [H1 H2]. right. auto.
    + intros [[H _]|(_ & H1 & H2)]; [contradiction|]. auto.
Qed.

Lemma match_loop_ok o l : forall r, match_loop o l r = true <->
  (exists a b, r = a ++ b /\ Forall2 (components_match o) l a) \/ (exists a b, l = a ++ b /\ Forall2 (components_match o) a r).
Proof.
  induction l as [|x l IH]; intros [|y r]; cbn [match_loop].
  - split; [|reflexivity]. intros _. left. exists [], []. split; [reflexivity|constructor].
  - split; [|reflexivity]. intros _. left. exists [], (y :: r). split; [reflexivity|constructor].
  - split; [|reflexivity]. intros _. right. exists [], (x :: l). split; [reflexivity|constructor].
  - destruct (match_component o x y) eqn:M.
    + apply match_component_ok in M. rewrite IH. split.
      * intros [(a & b & -> & H)|(a & b & -> & H)]; [left; exists (y :: a), b|right; exists (x :: a), b]; (split; [reflexivity|now constructor]).
      * intros [(a & b & E & H)|(a & b & E & H)]; inversion H; subst; injection E as -> ->; [left|right]; eauto.
    + split; [discriminate|]. intros H. rewrite <- not_true_iff_false in M. exfalso. apply M. apply match_component_ok.
      destruct H as [(a & b & E & H)|(a & b & E & H)]; inversion H; subst; injection E as -> ->; assumption.
Qed.

Lemma Forall2_rev {A B} (R : A -> B -> Prop) l : forall r, Forall2 R l r -> Forall2 R (rev l) (rev r).
Proof. induction l; intros r H; inversion H; subst; [constructor|]. cbn [rev]. apply Forall2_app; [auto|]. now repeat constructor. Qed.

Lemma path_match_ok o l r : path_match o l r = true <-> tail_matches o (comps l) (comps r).
Proof.
  unfold path_match. rewrite match_loop_ok. unfold tail_matches. generalize (comps l) (comps r). clear l r. intros l r. split.
  - intros [(a & b & E & H)|(a & b & E & H)]; [left|right]; exists (rev b), (rev a); (split; [rewrite <- rev_app_distr, <- E; symmetry; apply rev_involutive|]); apply Forall2_rev in H; now rewrite rev_involutive in H.
  - intros [(a & b & -> & H)|(a & b & -> & H)]; [left|right]; exists (rev b), (rev a); (split; [apply rev_app_distr|]); now apply Forall2_rev.
Qed.
