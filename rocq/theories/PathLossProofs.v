(** What a parse says about an arbitrary text. *)
From Verif Require Import Base PathModel PathSpec PathParseProofs PathRoundProofs.

Inductive shape : list N -> Prop :=
| sh_empty : shape []
| sh_plain n : plain n -> shape n
| sh_dir n : plain n -> shape (n ++ [slash])
| sh_slash r : (r = [] \/ exists q, r = slash :: q) -> shape (slash :: r)
| sh_dot r : (forall q, r = dot :: slash :: q -> q = []) -> shape (dot :: r).

Definition reached (d : list component) (p : place) : Prop := forall r, readable p r -> readable Anywhere (rev d ++ r).
Definition ends_with_slash (d : list component) : Prop := d = [] \/ exists a, print (rev d) = a ++ [slash].

Record good (a : abs) (s : list N) : Prop := {
  g_text : print (rev (d_of a)) ++ pend a = s;
  g_shape : shape (pend a);
  g_files : if h_of a then
      exists d0 p n es r, d_of a = rev es ++ (File, Some n) :: d0 /\ reached d0 p /\ p <> After_volume /\ (plain n \/ exists m, n = dot :: m /\ plain m) /\
        Forall extension es /\ no_file_on_top d0 /\ pend a = dot :: r /\ cnt slash r = 0
    else exists p, reached (d_of a) p /\ (pend a = [] -> p = Anywhere) /\ (forall c r, pend a = c :: r -> allowed p c) /\ (p <> After_volume -> ends_with_slash (d_of a)) /\ no_file_on_top (d_of a) }.

(** A "." in front of a "/" was taken for a part of "..". *)
Definition bad (a : abs) (s : list N) : Prop :=
  exists base top q, d_of a = top ++ (Parent, None) :: base /\ s = print (rev base) ++ dot :: slash :: q /\ ends_with_slash base.

Lemma print_app a b : print (a ++ b) = print a ++ print b.
Proof. unfold print. now rewrite map_app, concat_app. Qed.
Lemma print_rev_cons c d : print (rev (c :: d)) = print (rev d) ++ text c.
Proof. cbn [rev]. rewrite print_app. unfold print at 2. cbn. now rewrite app_nil_r. Qed.

Lemma reached_cons d c p q : reached d p -> (forall r, readable q r -> readable p (c :: r)) -> reached (c :: d) q.
Proof. intros R H r Hr. cbn [rev]. rewrite <- app_assoc. cbn [app]. apply R, H, Hr. Qed.

Lemma regular_iff n : c_string n -> cnt slash n = 0 -> cnt dot n = 0 -> Forall regular n.
Proof.
  induction n as [|c n IH]; intros Z Cs Cd; [constructor|]. inversion Z; subst. unfold cnt in *. rewrite countb_cons in *.
  destruct (N.eqb_spec slash c) as [|Hs]; [discriminate|]. destruct (N.eqb_spec dot c) as [|Hd]; [discriminate|]. constructor; [|apply IH; auto].
  unfold slash, dot in *. repeat split; auto.
Qed.

Lemma c_string_app a b : c_string (a ++ b) <-> c_string a /\ c_string b.
Proof. unfold c_string. apply Forall_app. Qed.

(** ** The shape of what is recognised *)

Lemma shape_volume c t : shape t -> c_string t -> look c t = Some Volume -> exists n, plain n /\ t = [slash; slash] ++ n /\ (c = 0 \/ c = slash)%N.
Proof.
  intros Sh Z L. pose proof (look_shape _ _ _ L) as (Hh & Cs & Cd & Co & Hc). destruct Sh as [|n P|n P|r [-> |(q & ->)]|r _]; try discriminate.
  - destruct (plain_head n P); contradiction.
  - rewrite hd_app in Hh by apply P. destruct (plain_head n P); contradiction.
  - exists q. split; [|split; [reflexivity|exact Hc]]. change (slash :: slash :: q) with ([slash; slash] ++ q) in *. rewrite cnt_app in Cs, Cd. rewrite others_app in Co. apply c_string_app in Z as [_ Z].
    change (cnt slash [slash; slash]) with 2 in Cs. change (cnt dot [slash; slash]) with 0 in Cd. change (others [slash; slash]) with 0 in Co.
    split; [intros ->; now apply Co|]. apply regular_iff; (assumption || lia).
Qed.

Lemma shape_root c t : look c t = Some Root -> t = [slash] /\ c <> slash.
Proof.
  intros L. pose proof (look_shape _ _ _ L) as (Hh & Cs & Cd & Co & Hc). split; [|exact Hc]. pose proof (cnt_length t) as E. rewrite Cs, Cd, Co in E.
  destruct t as [|x [|y t]]; cbn in *; try lia. now subst.
Qed.

Lemma shape_directory c t : shape t -> look c t = Some Directory -> exists n, plain n /\ t = n ++ [slash].
Proof.
  intros Sh L. pose proof (look_shape _ _ _ L) as (Hh & Hd & Cs & Cd & Co). destruct Sh as [|n P|n P|r _|r _]; try contradiction.
  - exfalso. apply Cs. apply cnt_regular; [now left|now apply plain_regular].
  - now exists n.
Qed.

Lemma shape_file c t : shape t -> look c t = Some File -> plain t /\ (c = 0 \/ c = dot)%N.
Proof.
  intros Sh L. pose proof (look_shape _ _ _ L) as (Hh & Hd & Cs & Cd & Co & Hc). split; [|exact Hc]. destruct Sh as [|n P|n P|r _|r _]; try contradiction; [assumption|].
  exfalso. rewrite cnt_app in Cs. change (cnt slash [slash]) with 1 in Cs. lia.
Qed.

Lemma shape_extension c t : c_string t -> look c t = Some Extension -> exists n, plain n /\ t = dot :: n /\ (c = 0 \/ c = dot)%N.
Proof.
  intros Z L. pose proof (look_shape _ _ _ L) as (Hh & Cs & Cd & Co & Hc). destruct t as [|x n]; [discriminate|]. cbn [hd] in Hh. subst x. exists n. split; [|now split].
  change (dot :: n) with ([dot] ++ n) in *. rewrite cnt_app in Cs, Cd. rewrite others_app in Co. apply c_string_app in Z as [_ Z].
  change (cnt slash [dot]) with 0 in Cs. change (cnt dot [dot]) with 1 in Cd. change (others [dot]) with 0 in Co.
  split; [intros ->; now apply Co|]. apply regular_iff; (assumption || lia).
Qed.

Lemma all_slashes r : cnt dot r = 0 -> others r = 0 -> r <> [] -> exists q, r = slash :: q.
Proof.
  destruct r as [|c r]; [contradiction|]. intros Cd Co _. exists r. unfold cnt, others in *. rewrite countb_cons in *.
  destruct (N.eqb_spec dot c); [discriminate|]. destruct (N.eqb_spec c slash) as [->|]; [reflexivity|]. destruct (N.eqb_spec c dot); [subst; contradiction|]. discriminate.
Qed.

Lemma shape_parent c t : shape t -> look c t = Some Parent -> t = [dot; dot; slash] \/ exists r, t = dot :: slash :: r.
Proof.
  intros Sh L. pose proof (look_shape _ _ _ L) as (Hh & Cs & Cd & Co). destruct Sh as [|n P|n P|r _|r Hr]; try discriminate.
  - destruct (plain_head n P); contradiction.
  - rewrite hd_app in Hh by apply P. destruct (plain_head n P); contradiction.
  - change (dot :: r) with ([dot] ++ r) in *. rewrite cnt_app in Cs, Cd. rewrite others_app in Co.
    change (cnt slash [dot]) with 0 in Cs. change (cnt dot [dot]) with 1 in Cd. change (others [dot]) with 0 in Co.
    destruct r as [|x r]; [now cbn in Cd|]. unfold cnt, others in Cs, Cd, Co. rewrite countb_cons in Cs, Cd, Co.
    destruct (N.eqb_spec x slash) as [->|Hs]; [right; now exists r|]. destruct (N.eqb_spec x dot) as [->|Hd]; [|cbn in Co; lia]. left.
    destruct r as [|y r]; [now cbn in Cs|].
    destruct (all_slashes (y :: r)) as (q & E); [unfold cnt; cbn in Cd |- *; lia|unfold others; cbn in Co |- *; lia|discriminate|]. injection E as -> ->.
    now rewrite (Hr q eq_refl).
Qed.

Lemma shape_snoc t c : shape t -> look c t = None -> c <> 0%N -> shape (t ++ [c]).
Proof.
  intros Sh L Hz. destruct Sh as [|n P|n P|r Hr|r Hr].
  - cbn [app]. destruct (N.eq_dec c slash) as [->|]; [apply sh_slash; now left|]. destruct (N.eq_dec c dot) as [->|]; [apply sh_dot; discriminate|].
    apply sh_plain. split; [discriminate|]. constructor; [now repeat split|constructor].
  - destruct (N.eq_dec c slash) as [->|]; [now apply sh_dir|]. destruct (N.eq_dec c dot) as [->|]; [rewrite (look_file n dot P) in L by auto; discriminate|].
    apply sh_plain. split; [now destruct n|]. apply Forall_app. split; [apply P|]. constructor; [now repeat split|constructor].
  - now rewrite (look_directory n c P) in L.
  - cbn [app]. apply sh_slash. right. destruct Hr as [-> |(q & ->)]; [|now exists (q ++ [c])].
    destruct (N.eq_dec c slash) as [->|Hc]; [now exists []|]. rewrite (look_root c Hc) in L. discriminate.
  - cbn [app]. apply sh_dot. intros q E. destruct r as [|x [|y r]]; cbn [app] in E; [discriminate|now injection E|].
    injection E as -> -> <-. rewrite (Hr r eq_refl) in L. rewrite look_parent in L. discriminate.
Qed.

(** ** Steps *)

Lemma strip_files d0 n es : no_file_on_top d0 -> Forall extension es -> strip (rev es ++ (File, Some n) :: d0) [] = (d0, n ++ print es).
Proof.
  intros T H. induction es as [|e es IH] using rev_ind; cbn [rev app].
  - cbn [strip text]. rewrite strip_app, (strip_top d0 T). cbn [fst snd]. now rewrite !app_nil_r.
  - rewrite rev_app_distr. cbn [rev app]. apply Forall_app in H as [H He]. inversion He as [|? ? (m & P & ->) _]; subst. cbn [strip]. rewrite strip_app, (IH H). cbn [fst snd].
    rewrite print_app. unfold print at 3. cbn [map concat]. now rewrite app_nil_r, app_assoc.
Qed.

Lemma strip_parent top base : exists top', fst (strip (top ++ (Parent, None) :: base) []) = top' ++ (Parent, None) :: base.
Proof.
  induction top as [|[k n] top IH]; [now exists []|]. cbn [app strip]. destruct k; try (now exists ((Volume, n) :: top)); try (now eexists (_ :: top)).
  - rewrite strip_app. exact IH.
  - rewrite strip_app. exact IH.
Qed.

Lemma bad_step a s c : bad a s -> bad (astep a c) (s ++ [c]).
Proof.
  intros (base & top & q & Ed & -> & Es). unfold astep. destruct (look c (pend a)) as [k|].
  - destruct (if h_of a then _ else _) as [k' h']. exists base, (token k' (pend a) :: top), (q ++ [c]). cbn [d_of]. rewrite Ed. split; [reflexivity|]. rewrite <- app_assoc. now split.
  - destruct (h_of a && (c =? slash)%N).
    + destruct (strip_parent top base) as (top' & E). rewrite Ed. destruct (strip (top ++ (Parent, None) :: base) []) as [d t]. cbn [fst] in E. subst d.
      exists base, ((Directory, Some (t ++ pend a)) :: top'), (q ++ [c]). cbn [d_of]. split; [reflexivity|]. rewrite <- app_assoc. now split.
    + exists base, top, (q ++ [c]). cbn [d_of]. split; [exact Ed|]. rewrite <- app_assoc. now split.
Qed.

Lemma slash_end d c t : text c = t ++ [slash] -> ends_with_slash (c :: d).
Proof. intros E. right. rewrite print_rev_cons, E. exists (print (rev d) ++ t). now rewrite app_assoc. Qed.

Lemma plain_dir_name n : plain n -> dir_name n.
Proof.
  intros [Hn F]. split; [eapply Forall_impl; [|exact F]; intros ? (? & ? & ?); now split|]. destruct n as [|c n]; [contradiction|]. inversion F as [|? ? (? & ? & ?) ?]; subst. exists c, n. split; [assumption|now left].
Qed.

Lemma not_after_volume p c : allowed p c -> c <> slash -> p <> After_volume.
Proof. intros H N E. subst. now apply N. Qed.

Lemma token_good k t c d p : c_string t -> shape t -> t <> [] -> look c t = Some k -> (forall x r, t = x :: r -> allowed p x) -> reached d p -> k <> File -> k <> Extension ->
  (exists r, t = dot :: slash :: r) /\ k = Parent \/
  (text (token k t) = t /\ exists q, reached (token k t :: d) q /\ (c <> 0%N -> allowed q c) /\ (q <> After_volume -> ends_with_slash (token k t :: d)) /\ no_file_on_top (token k t :: d)).
Proof.
  intros Z Sh Hne L Hal R N1 N2. assert (L' := L). destruct k; try contradiction.
  - right. destruct (shape_volume c t Sh Z L) as (n & P & -> & Hc). split; [reflexivity|]. exists After_volume. split; [|split; [|split]].
    + unfold token. cbn [skipn app]. apply (reached_cons d _ p); [exact R|]. intros r Hr. constructor; [exact P| |exact Hr]. intros ->. now apply (Hal slash (slash :: n)).
    + intros Hz. destruct Hc; [contradiction|assumption].
    + contradiction.
    + exact Logic.I.
  - right. destruct (shape_root c t L) as [-> Hc]. split; [reflexivity|]. exists After_root. split; [|split; [|split]].
    + apply (reached_cons d _ p); [exact R|]. intros r Hr. constructor; [|exact Hr]. intros ->. now apply (Hal slash []).
    + intros _. exact Hc.
    + intros _. now apply (slash_end _ _ []).
    + exact Logic.I.
  - apply look_shape in L'. contradiction.
  - right. destruct (shape_directory c t Sh L) as (n & P & ->).
    assert (E : token Directory (n ++ [slash]) = (Directory, Some n)) by (unfold token; rewrite app_length, Nat.add_sub; now rewrite firstn_app_exact).
    rewrite E. split; [reflexivity|]. exists Anywhere. split; [|split; [|split]].
    + apply (reached_cons d _ p); [exact R|]. intros r Hr. constructor; [now apply plain_dir_name| |exact Hr]. destruct n as [|x n]; [now destruct P|].
      destruct (plain_head _ P). apply (not_after_volume p x); [now apply (Hal x (n ++ [slash]))|assumption].
    + intros _. exact Logic.I.
    + intros _. now apply (slash_end _ _ n).
    + exact Logic.I.
  - destruct (shape_parent c t Sh L) as [-> |(r & ->)]; [right|left; split; [now exists r|reflexivity]]. split; [reflexivity|]. exists Anywhere. split; [|split; [|split]].
    + apply (reached_cons d _ p); [exact R|]. intros r Hr. constructor; [|exact Hr]. apply (not_after_volume p dot); [now apply (Hal dot [dot; slash])|discriminate].
    + intros _. exact Logic.I.
    + intros _. now apply (slash_end _ _ [dot; dot]).
    + exact Logic.I.
Qed.

Lemma good_step a s c : c_string s -> c <> 0%N -> good a s -> good (astep a c) (s ++ [c]) \/ bad (astep a c) (s ++ [c]).
Proof.
  intros Z Hz [Ht Sh F]. assert (Zp : c_string (pend a)) by (rewrite <- Ht in Z; now apply c_string_app in Z). unfold astep. destruct (look c (pend a)) as [k|] eqn:L.
  - assert (Hne : pend a <> []) by (intros E; rewrite E, look_nil in L; discriminate). destruct (h_of a) eqn:Eh.
    + left. destruct F as (d0 & p & n & es & r & Ed & R & Hp & Hn & He & T & Er & Hr). rewrite Er in L. destruct (look_in_file c r k Hr L) as [-> _].
      rewrite <- Er in L. destruct (shape_extension c (pend a) Zp L) as (m & Pm & Em & Hc). assert (c = dot) as -> by (destruct Hc; [contradiction|assumption]).
      rewrite Er in Em. injection Em as ->. constructor; cbn [d_of pend h_of].
      * rewrite print_rev_cons, Er. unfold token. cbn [skipn text]. change ([46%N] ++ m) with (dot :: m). now rewrite <- Ht, Er.
      * apply sh_dot. discriminate.
      * exists d0, p, n, (es ++ [(Extension, Some m)]), []. split; [rewrite rev_app_distr, Er; cbn [rev app]; now rewrite Ed|]. split; [exact R|]. split; [exact Hp|]. split; [exact Hn|].
        split; [apply Forall_app; split; [exact He|]; constructor; [now exists m|constructor]|]. split; [exact T|]. now split.
    + destruct F as (p & R & _ & Hal & Hs & T). assert (Hf : k = File \/ k = Extension \/ (k <> File /\ k <> Extension)) by (destruct k; auto; right; right; split; discriminate).
      destruct Hf as [-> |[-> |[N1 N2]]].
      * left. destruct (shape_file c (pend a) Sh L) as [P Hc]. assert (c = dot) as -> by (destruct Hc; [contradiction|assumption]). constructor; cbn [d_of pend h_of].
        -- rewrite print_rev_cons. cbn [token text]. now rewrite Ht.
        -- apply sh_dot. discriminate.
        -- exists (d_of a), p, (pend a), [], []. split; [reflexivity|]. split; [exact R|]. split; [|split; [now left|split; [constructor|split; [exact T|now split]]]].
           destruct (pend a) as [|x t] eqn:Ep; [contradiction|]. destruct (plain_head _ P). apply (not_after_volume p x); [now apply (Hal x t)|assumption].
      * left. destruct (shape_extension c (pend a) Zp L) as (m & Pm & Em & Hc). assert (c = dot) as -> by (destruct Hc; [contradiction|assumption]). constructor; cbn [d_of pend h_of].
        -- rewrite print_rev_cons. cbn [token text]. now rewrite Ht.
        -- apply sh_dot. discriminate.
        -- exists (d_of a), p, (pend a), [], []. split; [reflexivity|]. split; [exact R|]. split; [|split; [right; now exists m|split; [constructor|split; [exact T|now split]]]].
           apply (not_after_volume p dot); [now apply (Hal dot m)|discriminate].
      * replace (match k with File => (File, true) | Extension => (File, true) | _ => (k, false) end) with (k, false) by (destruct k; (reflexivity || contradiction)).
        destruct (token_good k (pend a) c (d_of a) p Zp Sh Hne L Hal R N1 N2) as [[(r & Er) ->]|(Et & q & Rq & Aq & Hq & Tq)].
        -- right. exists (d_of a), [], (r ++ [c]). cbn [d_of]. split; [reflexivity|]. split; [rewrite <- Ht, Er; now rewrite <- app_assoc|].
           apply Hs. apply (not_after_volume p dot); [now apply (Hal dot (slash :: r))|discriminate].
        -- left. constructor; cbn [d_of pend h_of].
           ++ rewrite print_rev_cons, Et. now rewrite Ht.
           ++ apply (shape_snoc [] c sh_empty (look_nil c) Hz).
           ++ exists q. split; [exact Rq|]. split; [discriminate|]. split; [intros x y E; injection E as <- _; now apply Aq|]. now split.
  - left. destruct (h_of a) eqn:Eh.
    + destruct F as (d0 & p & n & es & r & Ed & R & Hp & Hn & He & T & Er & Hr). destruct (N.eqb_spec c slash) as [->|Hc]; cbn [andb].
      * assert (Es : strip (d_of a) [] = (d0, n ++ print es)) by (rewrite Ed; exact (strip_files d0 n es T He)). rewrite Es, Er.
        assert (Tx : print (rev d0) ++ (n ++ print es) ++ dot :: r = s).
        { rewrite <- Ht, Er, Ed. rewrite rev_app_distr, rev_involutive, print_app, print_rev_cons. cbn [text]. now rewrite <- !app_assoc. }
        assert (Fn : Forall (fun c => c <> 0 /\ c <> 47)%N ((n ++ print es) ++ dot :: r)).
        { rewrite <- Tx in Z. apply c_string_app in Z as [_ Z]. assert (Cs : cnt slash ((n ++ print es) ++ dot :: r) = 0).
          { rewrite !cnt_app. assert (E1 : cnt slash n = 0).
            { destruct Hn as [P|(m & -> & P)]; [now apply cnt_regular; [left|apply plain_regular]|]. change (dot :: m) with ([dot] ++ m). rewrite cnt_app, (cnt_regular slash m); [reflexivity|now left|now apply plain_regular]. }
            assert (E2 : cnt slash (print es) = 0).
            { clear - He. induction He as [|e es (m & P & ->) _ IH]; [reflexivity|]. change (print ((Extension, Some m) :: es)) with ([dot] ++ m ++ print es). rewrite !cnt_app, IH, (cnt_regular slash m); [reflexivity|now left|now apply plain_regular]. }
            rewrite E1, E2. change (dot :: r) with ([dot] ++ r). rewrite cnt_app, Hr. reflexivity. }
          clear - Z Cs. set (l := (n ++ print es) ++ dot :: r) in *. clearbody l. induction l as [|c l IH]; [constructor|]. inversion Z; subst. unfold cnt in Cs. rewrite countb_cons in Cs.
          destruct (N.eqb_spec slash c) as [|Hc]; [discriminate|]. constructor; [split; [assumption|]; intros ->; now apply Hc|]. now apply IH. }
        constructor; cbn [d_of pend h_of].
        -- rewrite print_rev_cons, app_nil_r. cbn [text]. rewrite <- Tx, <- !app_assoc. reflexivity.
        -- constructor.
        -- exists Anywhere. split; [|split; [reflexivity|split; [intros ? ? _; exact Logic.I|split; [intros _; now apply (slash_end _ _ ((n ++ print es) ++ dot :: r))|exact Logic.I]]]].
           apply (reached_cons d0 _ p); [exact R|]. intros x Hx. constructor; [|exact Hp|exact Hx]. split; [exact Fn|]. destruct Hn as [P|(m & -> & P)].
           ++ destruct (plain_head n P) as [_ H]. destruct n as [|y n]; [now destruct P|]. exists y, ((n ++ print es) ++ dot :: r). split; [exact H|]. now left.
           ++ destruct (plain_head m P) as [_ H]. destruct m as [|y m]; [now destruct P|]. exists y, ((m ++ print es) ++ dot :: r). split; [exact H|]. right. split; [reflexivity|].
              apply in_or_app. right. now left.
      * constructor; cbn [d_of pend h_of].
        -- now rewrite app_assoc, Ht.
        -- now apply shape_snoc.
        -- exists d0, p, n, es, (r ++ [c]). repeat (split; [assumption|]). rewrite Er. split; [reflexivity|]. rewrite cnt_app, Hr, cnt_one. apply N.eqb_neq in Hc. now rewrite Hc.
    + cbn [andb]. destruct F as (p & R & Hemp & Hal & Hs & T). constructor; cbn [d_of pend h_of].
      * now rewrite app_assoc, Ht.
      * now apply shape_snoc.
      * exists p. split; [exact R|]. split; [intros E; destruct (pend a); discriminate|]. split; [|now split].
        intros x r E. destruct (pend a) as [|y t] eqn:Ep; [rewrite (Hemp eq_refl); exact Logic.I|]. injection E as <- _. now apply (Hal y t).
Qed.

Lemma run_good s : c_string s -> forall t a, c_string t -> good a t \/ bad a t -> good (arun a s) (t ++ s) \/ bad (arun a s) (t ++ s).
Proof.
  intros Z. induction Z as [|c s Hc Z IH]; intros t a Zt H; [now rewrite app_nil_r|]. rewrite arun_cons. change (c :: s) with ([c] ++ s). rewrite app_assoc. apply IH.
  - apply c_string_app. split; [exact Zt|]. now constructor.
  - destruct H as [G|B]; [now apply good_step|right; now apply bad_step].
Qed.

Lemma start_good : good (mkAbs [] [] false) [].
Proof.
  constructor; cbn [d_of pend h_of]; [reflexivity|constructor|]. exists Anywhere. split; [intros r Hr; exact Hr|]. split; [reflexivity|]. split; [discriminate|]. split; [|exact Logic.I]. intros _. now left.
Qed.

Lemma good_finish a s : c_string s -> good a s ->
  (exists r, s = print (afinish a) ++ r /\ (r = [] -> readable Anywhere (afinish a))) \/
  exists base top q, afinish a = base ++ (Parent, None) :: top /\ s = print base ++ dot :: slash :: q /\ ends_with_slash (rev base).
Proof.
  intros Z [Ht Sh F]. assert (Zp : c_string (pend a)) by (rewrite <- Ht in Z; now apply c_string_app in Z). unfold afinish. destruct (look 0 (pend a)) as [k|] eqn:L.
  - assert (Hne : pend a <> []) by (intros E; rewrite E, look_nil in L; discriminate). destruct (h_of a) eqn:Eh.
    + left. destruct F as (d0 & p & n & es & r & Ed & R & Hp & Hn & He & T & Er & Hr). rewrite Er in L. destruct (look_in_file _ r k Hr L) as [-> _].
      rewrite <- Er in L. destruct (shape_extension _ (pend a) Zp L) as (m & Pm & Em & Hc). exists []. rewrite app_nil_r, print_rev_cons, Em. split; [cbn [token skipn text]; now rewrite <- Ht, Em|]. intros _.
      change (token Extension (dot :: m)) with (Extension, Some m). cbn [rev]. rewrite Ed, rev_app_distr, rev_involutive. cbn [rev]. rewrite <- !app_assoc. cbn [app]. apply R. assert (Hes : Forall extension (es ++ [(Extension, Some m)])) by (apply Forall_app; split; [exact He|]; constructor; [now exists m|constructor]).
      apply r_end; [|contradiction]. destruct Hn as [P|(x & -> & P)]; [now constructor|]. revert Hes. generalize (app_cons_not_nil es [] (Extension, Some m)). match goal with |- _ -> _ -> file_part (_ :: ?y) => change (es ++ [(Extension, Some m)]) with y; destruct y as [|e l] end; [contradiction|]. intros _ Hes. now constructor.
    + destruct F as (p & R & _ & Hal & Hs & T). assert (Hf : k = File \/ k = Extension \/ (k <> File /\ k <> Extension)) by (destruct k; auto; right; right; split; discriminate).
      destruct Hf as [-> |[-> |[N1 N2]]].
      * left. destruct (shape_file _ (pend a) Sh L) as [P _]. exists []. rewrite app_nil_r, print_rev_cons. cbn [token text]. split; [now rewrite Ht|]. intros _. cbn [rev]. apply R.
        apply r_end; [apply a_file; [exact P|constructor]|]. intros ->. exfalso. destruct (pend a) as [|x t] eqn:Ep; [contradiction|]. destruct (plain_head _ P) as [H _]. apply H. now apply (Hal x t).
      * left. destruct (shape_extension _ (pend a) Zp L) as (m & Pm & Em & _). exists []. rewrite app_nil_r, print_rev_cons, Em. split; [cbn [token skipn text]; now rewrite <- Ht, Em|]. intros _. cbn [rev token skipn]. apply R.
        apply r_end; [apply lone_extension; now exists m|]. intros ->. exfalso. specialize (Hal dot m Em). discriminate.
      * destruct (token_good k (pend a) 0%N (d_of a) p Zp Sh Hne L Hal R N1 N2) as [[(r & Er) ->]|(Et & q & Rq & _ & _ & _)].
        -- right. exists (rev (d_of a)), [], r. cbn [rev token]. split; [reflexivity|]. split; [now rewrite <- Ht, Er|]. rewrite rev_involutive. apply Hs. apply (not_after_volume p dot); [now apply (Hal dot (slash :: r))|discriminate].
        -- left. exists []. rewrite app_nil_r, print_rev_cons, Et. split; [now rewrite Ht|]. intros _. rewrite <- (app_nil_r (rev _)). apply Rq. apply r_end; [constructor|reflexivity].
  - left. exists (pend a). split; [now rewrite Ht|]. intros E. destruct (h_of a) eqn:Eh.
    + destruct F as (d0 & p & n & es & r & _ & _ & _ & _ & _ & _ & Er & _). rewrite Er in E. discriminate.
    + destruct F as (p & R & _). rewrite <- (app_nil_r (rev _)). apply R. apply r_end; [constructor|reflexivity].
Qed.

Lemma bad_finish a s : bad a s -> exists base top q, afinish a = base ++ (Parent, None) :: top /\ s = print base ++ dot :: slash :: q /\ ends_with_slash (rev base).
Proof.
  intros (base & top & q & Ed & E & Es). unfold afinish. rewrite Ed. exists (rev base).
  destruct (look 0 (pend a)) as [k|]; [exists (rev (token k (pend a) :: top))|exists (rev top)]; exists q; rewrite rev_involutive; (split; [|now split]).
  - change (token k (pend a) :: top ++ (Parent, None) :: base) with ((token k (pend a) :: top) ++ (Parent, None) :: base). rewrite rev_app_distr. cbn [rev]. rewrite <- !app_assoc. reflexivity.
  - rewrite rev_app_distr. cbn [rev]. now rewrite <- !app_assoc.
Qed.

Lemma aparse_cases s : c_string s ->
  (exists r, s = print (aparse s) ++ r /\ (r = [] -> readable Anywhere (aparse s))) \/
  exists base top q, aparse s = base ++ (Parent, None) :: top /\ s = print base ++ dot :: slash :: q /\ ends_with_slash (rev base).
Proof.
  intros Z. unfold aparse. destruct (run_good s Z [] (mkAbs [] [] false) (Forall_nil _) (or_introl start_good)) as [G|B]; cbn [app] in *; [now apply good_finish|right; now apply bad_finish].
Qed.

(** The text is kept, unless there is a name ".". *)
Theorem aparse_prefix s : c_string s -> no_dot_names s -> exists r, s = print (aparse s) ++ r.
Proof.
  intros Z [N1 N2]. destruct (aparse_cases s Z) as [(r & E & _)|(base & top & q & _ & E & [Hb|(a & Ha)])]; [eauto| |].
  - exfalso. destruct base; [|now apply (f_equal (@length _)) in Hb; rewrite rev_length in Hb]. apply (N1 q). exact E.
  - exfalso. rewrite rev_involutive in Ha. apply (N2 a q). rewrite E, Ha, <- app_assoc. reflexivity.
Qed.

(** Nothing is lost exactly for the texts of readable components. *)
Theorem aparse_lossless s : c_string s -> print (aparse s) = s -> readable Anywhere (aparse s).
Proof.
  intros Z H. destruct (aparse_cases s Z) as [(r & E & R)|(base & top & q & Ea & E & _)].
  - apply R. rewrite H in E. rewrite <- (app_nil_r s) in E at 1. now apply app_inv_head in E.
  - exfalso. rewrite Ea, print_app in H. rewrite E in H. apply app_inv_head in H. discriminate.
Qed.
