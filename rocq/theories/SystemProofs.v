(** Proofs for the version of the system and the names of the process. *)
From Verif Require Import Base LastComponentModel SystemModel SystemSpec.
Local Open Scope N_scope.

Definition step_digit (n c : N) : N := n * 10 + (c - 48).

Lemma number_mono s : forall n, n <= fold_left step_digit s n.
Proof.
  induction s as [|c s IH]; intros n; cbn [fold_left]; [lia|]. specialize (IH (step_digit n c)). unfold step_digit in *. lia.
Qed.

Lemma put_at : forall vs i f v, nth_error vs i = Some v -> put vs i f = Some (firstn i vs ++ f v :: skipn (S i) vs).
Proof.
  induction vs as [|x t IH]; intros i f v E; destruct i as [|i]; try discriminate; cbn [nth_error put firstn app] in *.
  - injection E as ->. reflexivity.
  - rewrite (IH i f v E). reflexivity.
Qed.

Lemma put_none : forall vs i f, (length vs <= i)%nat -> put vs i f = None.
Proof. induction vs as [|x t IH]; intros i f L; [reflexivity|]. destruct i; cbn [length] in L; [lia|]. cbn [put]. rewrite IH by lia. reflexivity. Qed.

(** The digits of one part *)
Lemma parse_digits s : is_digits s -> forall rest pre v post, fold_left step_digit s v < 2 ^ 32 ->
  parse (s ++ rest) (length pre) (pre ++ v :: post) = parse rest (length pre) (pre ++ fold_left step_digit s v :: post).
Proof.
  induction 1 as [|c s H F IH]; intros rest pre v post L; [reflexivity|]. cbn [app parse fold_left] in *.
  destruct (N.eqb_spec c 46); [lia|]. rewrite (put_at _ _ _ v) by (rewrite nth_error_app2, Nat.sub_diag by lia; reflexivity).
  rewrite firstn_app, firstn_all, Nat.sub_diag. cbn [firstn]. rewrite app_nil_r.
  replace (skipn (S (length pre)) (pre ++ v :: post)) with post
    by (rewrite skipn_app, skipn_all2 by lia; replace (S (length pre) - length pre)%nat with 1%nat by lia; reflexivity).
  assert (E : u32 (v * 10 + (2 ^ 32 + c - 48)) = step_digit v c).
  { unfold u32, step_digit. pose proof (number_mono s (step_digit v c)). unfold step_digit in *.
    replace (v * 10 + (2 ^ 32 + c - 48)) with (v * 10 + (c - 48) + 1 * 2 ^ 32) by lia. rewrite N.mod_add by lia. apply N.mod_small. lia. }
  rewrite E. now apply IH.
Qed.

Lemma number_is s : number s = fold_left step_digit s 0.
Proof. reflexivity. Qed.

(** A text of parts, from part [length pre] on *)
Lemma parse_parts parts : parts <> [] -> Forall is_digits parts -> Forall (fun s => number s < 2 ^ 32) parts ->
  forall pre k, (length parts <= S k)%nat ->
  parse (pointed parts) (length pre) (pre ++ repeat 0 (S k)) = Some (pre ++ map number parts ++ repeat 0 (S k - length parts)).
Proof.
  induction parts as [|p t IH]; intros NE D B pre k L; [congruence|]. inversion D; subst. inversion B; subst. cbn [pointed repeat].
  destruct t as [|q t].
  - rewrite <- (app_nil_r p) at 1. rewrite parse_digits by assumption. cbn [parse map length Nat.sub app]. now rewrite Nat.sub_0_r.
  - rewrite parse_digits by assumption. cbn [parse]. rewrite N.eqb_refl. cbn [length] in L. destruct k as [|k]; [lia|].
    assert (NQ : q :: t <> []) by discriminate.
    specialize (IH NQ H2 H4 (pre ++ [number p]) k ltac:(cbn [length]; lia)).
    rewrite app_length in IH. cbn [length] in IH. rewrite Nat.add_1_r in IH. rewrite <- !app_assoc in IH. cbn [app] in IH.
    exact IH.
Qed.

Lemma strip_is max : forall s out, Forall (fun c => c < 128) s -> (length (out ++ filter alnum s) < max)%nat ->
  strip max s out = Some (out ++ filter alnum s).
Proof.
  induction s as [|c s IH]; intros out F L; cbn [strip filter] in *.
  - rewrite app_nil_r in *. destruct (Nat.ltb_spec (length out) max); [reflexivity|lia].
  - inversion F; subst. destruct (N.leb_spec 128 c); [lia|]. destruct (alnum c) eqn:A.
    + rewrite app_length in L. cbn [length] in L. destruct (Nat.ltb_spec (length out) max); [|lia].
      rewrite IH; auto; rewrite <- app_assoc; [reflexivity|]. rewrite app_length. cbn [app length]. lia.
    + now apply IH.
Qed.

Lemma strip_none max : forall s out, (exists c, In c s /\ 128 <= c) \/ (max <= length (out ++ filter alnum s))%nat -> strip max s out = None.
Proof.
  induction s as [|c s IH]; intros out H; cbn [strip filter] in *.
  - destruct H as [(c & [] & _)|H]. rewrite app_nil_r in H. destruct (Nat.ltb_spec (length out) max); [lia|reflexivity].
  - destruct (N.leb_spec 128 c) as [|Lc]; [reflexivity|].
    assert (H' : (exists x, In x s /\ 128 <= x) \/ (max <= length (out ++ (if alnum c then c :: filter alnum s else filter alnum s)))%nat).
    { destruct H as [(x & [->|I] & Hx)|H]; [lia|left; eauto|right; exact H]. }
    destruct (alnum c) eqn:A.
    + destruct (Nat.ltb_spec (length out) max); [|reflexivity]. apply IH. rewrite <- app_assoc. exact H'.
    + now apply IH.
Qed.

Lemma alnum_is c : alnum c = true <-> is_letter_or_digit c.
Proof. unfold alnum, is_letter_or_digit. lia. Qed.

Lemma filter_stripped s : stripped_of s (filter alnum s).
Proof.
  induction s as [|c s IH]; cbn [filter]; [constructor|]. destruct (alnum c) eqn:A.
  - constructor; [now apply alnum_is|exact IH].
  - constructor; [|exact IH]. rewrite <- alnum_is. congruence.
Qed.

Lemma stripped_unique s t : stripped_of s t -> t = filter alnum s.
Proof.
  induction 1 as [|c s t L H IH|c s t L H IH]; cbn [filter]; [reflexivity| |].
  - apply alnum_is in L. rewrite L. now rewrite IH.
  - rewrite <- alnum_is in L. destruct (alnum c); [congruence|exact IH].
Qed.
