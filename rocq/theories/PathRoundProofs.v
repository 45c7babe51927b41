(** What the parser makes of the text of components, and which texts lose nothing. *)
From Verif Require Import Base PathModel PathSpec PathParseProofs.

(** ** Reading the text of readable components *)

Definition regular (c : N) : Prop := (c <> 0 /\ c <> 47 /\ c <> 46)%N.

Lemma look_nil c : look c [] = None.
Proof.
  unfold look, cnt, others. cbn [countb filter hd length]. unfold found. cbn [Nat.eqb negb]. rewrite !andb_false_r. cbn [andb]. reflexivity.
Qed.

Lemma look_regular c t : regular c -> hd 0%N t = slash /\ cnt slash t = 2 \/ cnt slash t = 0 -> look c t = None.
Proof.
  intros (C0 & C1 & C2) H. destruct (look c t) as [k|] eqn:L; [|reflexivity]. exfalso. apply look_shape in L. unfold slash, dot in *.
  destruct k; try (destruct L as (? & ? & ? & ? & [?|?]); contradiction); try contradiction.
  - destruct L as (? & ? & ?). lia.
  - destruct L as (? & ? & ? & ?). destruct H as [[? ?]|?]; contradiction.
  - destruct L as (E & ? & ?). destruct H as [[E' ?]|?]; [rewrite E in E'; discriminate|contradiction].
  - destruct L as (? & ? & ? & ? & ? & [?|?]); contradiction.
Qed.

Lemma cnt_regular c n : (c = slash \/ c = dot) -> Forall regular n -> cnt c n = 0.
Proof.
  intros Hc H. induction H as [|x n (X0 & X1 & X2) _ IH]; [reflexivity|]. unfold cnt in *. rewrite countb_cons, IH.
  destruct (N.eqb_spec c x) as [->|]; [|reflexivity]. exfalso. unfold slash, dot in Hc. destruct Hc; contradiction.
Qed.
Lemma others_regular n : Forall regular n -> others n = length n.
Proof. intros H. pose proof (cnt_length n). rewrite !cnt_regular in * by auto. lia. Qed.

Lemma arun_app a s t : arun a (s ++ t) = arun (arun a s) t.
Proof. unfold arun. apply fold_left_app. Qed.
Lemma arun_cons a c s : arun a (c :: s) = arun (astep a c) s.
Proof. reflexivity. Qed.

Lemma run_name d h n : Forall regular n -> forall t, hd 0%N t = slash /\ cnt slash t = 2 \/ cnt slash t = 0 -> arun (mkAbs d t h) n = mkAbs d (t ++ n) h.
Proof.
  intros H. induction H as [|c n Hc Hn IH]; intros t Ht; [now rewrite app_nil_r|]. rewrite arun_cons. unfold astep. cbn [pend h_of d_of].
  rewrite (look_regular c t Hc Ht). assert (Ec : (c =? slash)%N = false) by (apply N.eqb_neq; apply Hc). rewrite Ec, andb_false_r.
  rewrite IH; [now rewrite <- app_assoc|]. assert (Z : cnt slash [c] = 0) by (apply cnt_regular; auto). rewrite cnt_app, Z, Nat.add_0_r.
  destruct Ht as [[E1 E2]|E]; [left|now right]. split; [|exact E2]. destruct t; [discriminate|exact E1].
Qed.

Lemma plain_regular n : plain n -> Forall regular n.
Proof. now intros [_ H]. Qed.
Lemma plain_length n : plain n -> length n <> 0.
Proof. intros [H _]. now destruct n. Qed.

Ltac counts H := rewrite ?cnt_app, ?others_app, ?(cnt_regular slash _ (or_introl eq_refl) H), ?(cnt_regular dot _ (or_intror eq_refl) H), ?(others_regular _ H).

(** What the texts are recognised as. *)
Lemma look_volume n c : plain n -> (c = 0 \/ c = slash)%N -> look c ([slash; slash] ++ n) = Some Volume.
Proof.
  intros P Hc. pose proof (plain_regular n P) as R. pose proof (plain_length n P) as L. unfold look. counts R. cbn [hd app]. unfold found.
  change (cnt slash [slash; slash]) with 2. change (cnt dot [slash; slash]) with 0. change (others [slash; slash]) with 0. cbn [Nat.add Nat.eqb N.eqb].
  destruct (length n); [contradiction|]. destruct Hc as [-> | ->]; reflexivity.
Qed.
Lemma look_root c : c <> slash -> look c [slash] = Some Root.
Proof.
  intros Hc. unfold look, found. cbn [hd]. change (cnt slash [slash]) with 1. change (cnt dot [slash]) with 0. change (others [slash]) with 0. cbn [Nat.eqb].
  rewrite !andb_false_r. cbn [andb negb]. rewrite N.eqb_refl. apply N.eqb_neq in Hc. rewrite Hc. cbn [negb]. now rewrite orb_true_r.
Qed.
Lemma look_parent c : look c [dot; dot; slash] = Some Parent.
Proof. reflexivity. Qed.

Lemma plain_head n : plain n -> hd 0%N n <> slash /\ hd 0%N n <> dot.
Proof. intros [H F]. destruct n as [|c n]; [contradiction|]. inversion F as [|? ? (? & ? & ?) ?]; subst. now split. Qed.
Lemma hd_app (n t : list N) : n <> [] -> hd 0%N (n ++ t) = hd 0%N n.
Proof. now destruct n. Qed.

Lemma look_directory n c : plain n -> look c (n ++ [slash]) = Some Directory.
Proof.
  intros P. pose proof (plain_regular n P) as R. pose proof (plain_length n P) as L. destruct (plain_head n P) as [H1 H2]. unfold look. counts R.
  rewrite hd_app by apply P. unfold found. apply N.eqb_neq in H1, H2. rewrite H1, H2. change (cnt slash [slash]) with 1. change (cnt dot [slash]) with 0. change (others [slash]) with 0.
  cbn [Nat.add Nat.eqb negb]. destruct (length n); [contradiction|]. reflexivity.
Qed.
Lemma look_file n c : plain n -> (c = 0 \/ c = dot)%N -> look c n = Some File.
Proof.
  intros P Hc. pose proof (plain_regular n P) as R. pose proof (plain_length n P) as L. destruct (plain_head n P) as [H1 H2]. unfold look. counts R. unfold found.
  apply N.eqb_neq in H1, H2. rewrite H1, H2. cbn [Nat.eqb negb andb]. destruct (length n); [contradiction|]. cbn [Nat.eqb negb]. destruct Hc as [-> | ->]; reflexivity.
Qed.
Lemma look_extension n c : plain n -> (c = 0 \/ c = dot)%N -> look c (dot :: n) = Some Extension.
Proof.
  intros P Hc. pose proof (plain_regular n P) as R. pose proof (plain_length n P) as L. change (dot :: n) with ([dot] ++ n). unfold look. counts R. unfold found. cbn [hd app].
  change (cnt slash [dot]) with 0. change (cnt dot [dot]) with 1. change (others [dot]) with 0. cbn [Nat.add Nat.eqb negb andb]. destruct (length n); [contradiction|].
  cbn [Nat.eqb negb]. destruct Hc as [-> | ->]; reflexivity.
Qed.
Lemma look_plain_slash n : plain n -> look slash n = None.
Proof.
  intros P. pose proof (plain_regular n P) as R. pose proof (plain_length n P) as L. destruct (plain_head n P) as [H1 H2]. unfold look. counts R. unfold found.
  apply N.eqb_neq in H1, H2. rewrite H1, H2. reflexivity.
Qed.

(** A state that has recognised [d] as soon as a character of that place, or the end, comes. *)
Definition allowed (p : place) (c : N) : Prop := match p with Anywhere => True | After_volume => c = slash | After_root => c <> slash end.
Record settles (a : abs) (d : list component) (p : place) : Prop := {
  s_step : forall c, c <> 0%N -> allowed p c -> astep a c = mkAbs d [c] false;
  s_finish : afinish a = rev d;
  s_top : no_file_on_top d }.

Lemma settles_empty d p : no_file_on_top d -> settles (mkAbs d [] false) d p.
Proof. intros T. constructor; [intros c _ _|..]; unfold astep, afinish; cbn [pend h_of d_of]; rewrite ?look_nil; [reflexivity..|assumption]. Qed.

Lemma settles_token d t k p : no_file_on_top (token k t :: d) -> k <> File -> k <> Extension -> look 0 t = Some k ->
  (forall c, c <> 0%N -> allowed p c -> look c t = Some k) -> settles (mkAbs d t false) (token k t :: d) p.
Proof.
  intros T H1 H2 L0 L. constructor; [intros c Hz Hc|..]; unfold astep, afinish; cbn [pend h_of d_of]; [rewrite (L c Hz Hc)|rewrite L0|]; [|reflexivity|assumption].
  destruct k; (reflexivity || contradiction).
Qed.

(** Inside a name with dots. *)
Lemma strip_top d : no_file_on_top d -> strip d [] = (d, []).
Proof. destruct d as [|[[] n] d]; cbn; (reflexivity || contradiction). Qed.

Lemma run_dotted d0 q : Forall (fun c => c <> 0 /\ c <> 47)%N q -> forall d t r, strip d [] = (d0, t) -> cnt slash r = 0 ->
  exists d' t' r', arun (mkAbs d (dot :: r) true) q = mkAbs d' (dot :: r') true /\ strip d' [] = (d0, t') /\ t' ++ dot :: r' = t ++ (dot :: r) ++ q /\ cnt slash r' = 0.
Proof.
  intros H. induction H as [|c q [C0 C1] Hq IH]; intros d t r Ed Hr; [exists d, t, r; rewrite app_nil_r; auto|].
  rewrite arun_cons. unfold astep. cbn [pend h_of d_of]. destruct (look c (dot :: r)) as [k|] eqn:L.
  - destruct (look_in_file c r k Hr L) as [-> _]. pose proof (look_shape _ _ _ L) as (_ & _ & _ & _ & [?| ->]); [contradiction|].
    destruct (IH (token Extension (dot :: r) :: d) (t ++ dot :: r) []) as (d' & t' & r' & E & Es & Et & Hr'); [|reflexivity|].
    + unfold token. cbn [strip skipn text]. rewrite strip_app, Ed. cbn [fst snd]. now rewrite app_nil_r.
    + exists d', t', r'. split; [exact E|]. split; [exact Es|]. split; [|exact Hr']. rewrite Et. now rewrite <- app_assoc.
  - assert (Ec : (c =? slash)%N = false) by (now apply N.eqb_neq). rewrite Ec. cbn [andb].
    change ((dot :: r) ++ [c]) with (dot :: r ++ [c]). destruct (IH d t (r ++ [c]) Ed) as (d' & t' & r' & E & Es & Et & Hr').
    + rewrite cnt_app, Hr, cnt_one. unfold slash in *. now rewrite Ec.
    + exists d', t', r'. split; [exact E|]. split; [exact Es|]. split; [|exact Hr']. rewrite Et. cbn [app]. now rewrite <- app_assoc.
Qed.

Lemma fix_up d d0 t r : strip d [] = (d0, t) -> cnt slash r = 0 -> no_file_on_top d0 ->
  astep (mkAbs d (dot :: r) true) slash = mkAbs ((Directory, Some (t ++ dot :: r)) :: d0) [] false.
Proof.
  intros Es Hr T. unfold astep. cbn [pend h_of d_of]. destruct (look slash (dot :: r)) as [k|] eqn:L; [destruct (look_in_file slash r k Hr L); contradiction|].
  rewrite N.eqb_refl. cbn [andb]. now rewrite Es.
Qed.

Lemma strip_fst_top d : no_file_on_top (fst (strip d [])).
Proof. induction d as [|[k n] d IH]; cbn [strip]; [exact Logic.I|]. destruct k; try exact Logic.I; rewrite strip_app; exact IH. Qed.

Lemma first_dot l : In dot l -> exists m q, l = m ++ dot :: q /\ ~ In dot m.
Proof.
  induction l as [|c l IH]; [intros []|]. intros H. destruct (N.eq_dec c dot) as [->|Hc]; [exists [], l; now split|].
  destruct IH as (m & q & -> & Hm); [now destruct H|]. exists (c :: m), q. split; [reflexivity|]. intros [?|?]; auto.
Qed.

Lemma regular_of n : Forall (fun c => c <> 0 /\ c <> 47)%N n -> ~ In dot n -> Forall regular n.
Proof. intros H Hn. rewrite Forall_forall in *. intros c I. destruct (H c I). split; [assumption|]. split; [assumption|]. intros ->. now apply Hn. Qed.

Lemma read_directory n d : dir_name n -> no_file_on_top d -> forall a p, settles a d p -> p <> After_volume ->
  settles (arun a (n ++ [slash])) ((Directory, Some n) :: d) Anywhere.
Proof.
  intros [F (c & r & Hc & Hn)] T a p Sa Hp.
  assert (First : forall x l, n = x :: l -> arun a (n ++ [slash]) = arun (mkAbs d [x] false) (l ++ [slash])).
  { intros x l ->. cbn [app]. rewrite arun_cons. inversion F as [|? ? [X0 X1] ?]; subst. f_equal. apply (s_step _ _ _ Sa); [assumption|]. destruct p; [exact Logic.I|contradiction|assumption]. }
  assert (Dotted : forall m q, m <> [] -> Forall regular m -> Forall (fun c => c <> 0 /\ c <> 47)%N q -> (exists x l, n = x :: l /\ (x :: l = m ++ dot :: q \/ x :: l = dot :: m ++ dot :: q)) ->
    settles (arun a (n ++ [slash])) ((Directory, Some n) :: d) Anywhere).
  { intros m q Hm Rm Fq (x & l & En & Hx). rewrite (First x l En). assert (Pm : plain m) by (now split).
    assert (G : exists k t, t ++ dot :: q = n /\ arun (mkAbs d [x] false) (l ++ [slash]) = arun (astep (mkAbs d t false) dot) (q ++ [slash]) /\
                 astep (mkAbs d t false) dot = mkAbs ((File, Some t) :: d) [dot] true /\ (k = tt)).
    { exists tt. destruct Hx as [Hx|Hx].
      - exists m. split; [now rewrite En|]. destruct m as [|y m]; [contradiction|]. injection Hx as -> ->. split; [|split; [|reflexivity]].
        + rewrite <- app_assoc, arun_app. inversion Rm; subst. rewrite run_name; [reflexivity|assumption|right]. apply cnt_regular; auto.
        + unfold astep. cbn [pend h_of d_of]. now rewrite (look_file (y :: m) dot Pm) by auto.
      - exists (dot :: m). split; [now rewrite En|]. injection Hx as -> ->. split; [|split; [|reflexivity]].
        + rewrite <- app_assoc, arun_app. rewrite run_name; [reflexivity|assumption|right; reflexivity].
        + unfold astep. cbn [pend h_of d_of]. now rewrite (look_extension m dot Pm) by auto. }
    destruct G as (_ & t & Et & E1 & E2 & _). rewrite E1, E2, arun_app.
    destruct (run_dotted d q Fq ((File, Some t) :: d) t []) as (d' & t' & r' & E3 & Es & Et' & Hr'); [|reflexivity|].
    { cbn [strip text]. rewrite strip_app, (strip_top d T). cbn [fst snd]. now rewrite app_nil_r. }
    rewrite E3. change (arun (mkAbs d' (dot :: r') true) [slash]) with (astep (mkAbs d' (dot :: r') true) slash).
    rewrite (fix_up d' d t' r' Es Hr' T), Et'. cbn [app]. rewrite Et. now apply settles_empty. }
  destruct Hn as [En|[En Hr]].
  - destruct (in_dec N.eq_dec dot n) as [I|I].
    + destruct (first_dot n I) as (m & q & Em & Hm). apply (Dotted m q).
      * intros ->. rewrite En in Em. injection Em as -> _. now apply Hc.
      * rewrite Em in F. apply Forall_app in F. now apply regular_of.
      * rewrite Em in F. apply Forall_app in F as [_ F]. now inversion F.
      * exists c, r. split; [exact En|]. left. congruence.
    + pose proof (regular_of n F I) as R. assert (P : plain n) by (split; [rewrite En; discriminate|exact R]).
      rewrite (First c r En). rewrite arun_app. rewrite En in R. inversion R; subst. rewrite run_name by (assumption || (right; apply cnt_regular; auto)). cbn [app].
      change (arun ?x [slash]) with (astep x slash). unfold astep. cbn [pend h_of d_of]. rewrite (look_plain_slash (c :: r)) by assumption. cbn [andb].
      assert (E : (Directory, Some (c :: r)) = token Directory ((c :: r) ++ [slash])).
      { unfold token. rewrite app_length. cbn [length]. replace (Datatypes.S (length r) + 1 - 1) with (length (c :: r)) by (cbn; lia). now rewrite firstn_app_exact. }
      rewrite E. apply settles_token; [exact Logic.I|discriminate|discriminate|now apply look_directory|]. intros; now apply look_directory.
  - destruct (first_dot r Hr) as (m & q & Em & Hm). rewrite En in F. inversion F as [|? ? _ F']; subst. inversion F' as [|? ? Fc F'']; subst. apply Forall_app in F'' as [F1 F2].
    apply (Dotted (c :: m) q); [discriminate| | |].
    + constructor; [destruct Fc; now repeat split|]. now apply regular_of.
    + now inversion F2.
    + exists 46%N, (c :: m ++ dot :: q). split; [reflexivity|]. now right.
Qed.

(** Extensions, when a dot or the end makes [x] the last component. *)
Lemma read_extensions es : Forall extension es -> forall a x d, astep a dot = mkAbs (x :: d) [dot] true -> afinish a = rev (x :: d) ->
  afinish (arun a (print es)) = rev (x :: d) ++ es.
Proof.
  intros H. induction H as [|e es (n & P & ->) _ IH]; intros a x d E1 E2; [now rewrite app_nil_r|].
  change (print ((Extension, Some n) :: es)) with (dot :: n ++ print es). rewrite arun_cons, E1, arun_app. rewrite run_name; [|now apply plain_regular|right; reflexivity].
  rewrite (IH _ (Extension, Some n) (x :: d)).
  - cbn [rev]. now rewrite <- !app_assoc.
  - unfold astep. cbn [pend h_of d_of app]. now rewrite (look_extension n dot P) by auto.
  - unfold afinish. cbn [pend d_of app]. now rewrite (look_extension n 0%N P) by auto.
Qed.

Lemma read_file f : file_part f -> forall a d p, settles a d p -> (p = After_volume -> f = []) -> afinish (arun a (print f)) = rev d ++ f.
Proof.
  intros H a d p Sa Hp.
  assert (First : forall x, f <> [] -> x <> 0%N -> x <> slash -> astep a x = mkAbs d [x] false).
  { intros x Hf Hx Hs. apply (s_step _ _ _ Sa); [assumption|]. destruct p; [exact Logic.I|exfalso; auto|assumption]. }
  destruct H as [|n es P He|n e es P He|e (n & P & ->)].
  - rewrite app_nil_r. apply (s_finish _ _ _ Sa).
  - change (print ((File, Some n) :: es)) with (n ++ print es). rewrite arun_app. pose proof (plain_regular n P) as R. destruct P as [Hn F]. destruct n as [|x n]; [contradiction|].
    inversion R as [|? ? Rx Rn]; subst. pose proof Rx as (X0 & X1 & X2). rewrite arun_cons, First by (discriminate || assumption). rewrite run_name by (assumption || (right; apply cnt_regular; auto)).
    assert (P : plain (x :: n)) by (now split). rewrite (read_extensions es He _ (File, Some (x :: n)) d).
    + cbn [rev]. now rewrite <- app_assoc.
    + unfold astep. cbn [pend h_of d_of app]. now rewrite (look_file (x :: n) dot P) by auto.
    + unfold afinish. cbn [pend d_of app]. now rewrite (look_file (x :: n) 0%N P) by auto.
  - inversion He as [|? ? (m & Pm & ->) He']; subst. change (print ((File, Some (46%N :: n)) :: (Extension, Some m) :: es)) with (dot :: n ++ dot :: m ++ print es).
    rewrite arun_cons, First by discriminate. rewrite arun_app, run_name by (first [now apply plain_regular | right; reflexivity]).
    rewrite arun_cons. unfold astep. cbn [pend h_of d_of app]. rewrite (look_extension n dot P) by auto. rewrite arun_app, run_name by (first [now apply plain_regular | right; reflexivity]).
    rewrite (read_extensions es He' _ (Extension, Some m) ((File, Some (dot :: n)) :: d)).
    + cbn [rev]. now rewrite <- !app_assoc.
    + unfold astep. cbn [pend h_of d_of app]. now rewrite (look_extension m dot Pm) by auto.
    + unfold afinish. cbn [pend d_of app]. now rewrite (look_extension m 0%N Pm) by auto.
  - change (print [(Extension, Some n)]) with (dot :: n ++ []). rewrite app_nil_r, arun_cons, First by discriminate. rewrite run_name by (first [now apply plain_regular | right; reflexivity]).
    unfold afinish. cbn [pend d_of app]. rewrite (look_extension n 0%N P) by auto. reflexivity.
Qed.

Lemma read_all p l : readable p l -> forall a d, settles a d p -> afinish (arun a (print l)) = rev d ++ l.
Proof.
  induction 1 as [p f Hf Hp|p n l P Hp _ IH|p l Hp _ IH|p n l P Hp _ IH|p l Hp _ IH]; intros a d Sa; pose proof (s_top _ _ _ Sa) as T.
  - now apply (read_file f Hf a d p).
  - change (print ((Volume, Some n) :: l)) with (slash :: slash :: n ++ print l). rewrite arun_cons, (s_step _ _ _ Sa) by (discriminate || (destruct p; (exact Logic.I || reflexivity || contradiction))).
    rewrite arun_cons. change (astep (mkAbs d [slash] false) slash) with (mkAbs d [slash; slash] false). rewrite arun_app, run_name; [|now apply plain_regular|left; now split].
    rewrite (IH _ ((Volume, Some n) :: d)); [cbn [rev]; now rewrite <- app_assoc|]. change (Volume, Some n) with (token Volume ([slash; slash] ++ n)).
    apply settles_token; [exact Logic.I|discriminate|discriminate|apply look_volume; auto|]. intros c _ Hc. apply look_volume; auto.
  - change (print ((Root, None) :: l)) with (slash :: print l). rewrite arun_cons, (s_step _ _ _ Sa) by (discriminate || (destruct p; (exact Logic.I || reflexivity || contradiction))).
    rewrite (IH _ ((Root, None) :: d)); [cbn [rev]; now rewrite <- app_assoc|]. change (Root, @None (list N)) with (token Root [slash]).
    apply settles_token; [exact Logic.I|discriminate|discriminate|reflexivity|]. intros c _ Hc. now apply look_root.
  - change (print ((Directory, Some n) :: l)) with ((n ++ [slash]) ++ print l). rewrite arun_app. rewrite (IH _ ((Directory, Some n) :: d)); [cbn [rev]; now rewrite <- app_assoc|].
    now apply (read_directory n d P T a p).
  - change (print ((Parent, None) :: l)) with (dot :: dot :: slash :: print l). rewrite arun_cons, (s_step _ _ _ Sa) by (discriminate || (destruct p; (exact Logic.I || discriminate || contradiction))).
    rewrite !arun_cons. change (astep (astep (mkAbs d [dot] false) dot) slash) with (mkAbs d [dot; dot; slash] false).
    rewrite (IH _ ((Parent, None) :: d)); [cbn [rev]; now rewrite <- app_assoc|]. change (Parent, @None (list N)) with (token Parent [dot; dot; slash]).
    apply settles_token; [exact Logic.I|discriminate|discriminate|reflexivity|]. intros c _ _. apply look_parent.
Qed.

Theorem aparse_print l : readable Anywhere l -> aparse (print l) = l.
Proof. intros H. unfold aparse. rewrite (read_all Anywhere l H _ []); [reflexivity|]. now apply settles_empty. Qed.
