(** Replacing, separating and joining. *)
From Verif Require Import Base Word StringModel StringSpec StringPackProofs StringUtf8Proofs StringReadProofs StringCompareProofs StringMakeProofs StringBuildProofs StringFindProofs.

(** ** Sequences *)

Lemma occurs_skip (sub done post : list N) q : length done <= q -> sub <> [] -> (occurs_at sub (done ++ post) q <-> occurs_at sub post (q - length done)).
Proof.
  intros H Hne. rewrite !occurs_iff by exact Hne. rewrite skipn_app, (skipn_all2 done) by exact H. reflexivity.
Qed.

Lemma occurs_app_r (sub pre cs : list N) q : occurs_at sub cs q -> occurs_at sub (pre ++ cs) (length pre + q).
Proof. intros (a & b & -> & <-). exists (pre ++ a), b. rewrite app_length, <- app_assoc. now split. Qed.
Lemma occurs_app_l (sub cs post : list N) q : occurs_at sub cs q -> occurs_at sub (cs ++ post) q.
Proof. intros (a & b & -> & <-). exists a, (b ++ post). rewrite <- !app_assoc. now split. Qed.

Lemma joined_cons sep x l : l <> [] -> joined sep (x :: l) = x ++ sep ++ joined sep l.
Proof. destruct l; [contradiction|reflexivity]. Qed.
Lemma pieces_nonempty occ cs l : pieces occ cs l -> l <> [].
Proof. now destruct 1. Qed.
Lemma pieces_joined occ cs l : pieces occ cs l -> joined occ l = cs.
Proof. induction 1 as [cs H|pre post l H P IH]; [reflexivity|]. rewrite joined_cons by (now apply pieces_nonempty in P). now rewrite IH. Qed.

Lemma no_occurrence_before occ pre post : occ <> [] -> (forall q, q < length pre -> ~ occurs_at occ (pre ++ occ ++ post) q) -> ~ contains occ pre.
Proof.
  intros Hne H [q O]. pose proof (occurs_fits _ _ _ O). assert (1 <= length occ) by (destruct occ; [contradiction|cbn; lia]).
  apply (H q); [lia|]. now apply occurs_app_l.
Qed.
Lemma pieces_without occ cs l : occ <> [] -> pieces occ cs l -> Forall (fun x => ~ contains occ x) l.
Proof.
  intros Hne. induction 1 as [cs H|pre post l H P IH]; constructor; [exact H|constructor|now apply (no_occurrence_before occ pre post)|exact IH].
Qed.
Lemma pieces_any_without occs cs l : (forall occ, In occ occs -> occ <> []) -> pieces_any occs cs l -> Forall (fun x => forall occ, In occ occs -> ~ contains occ x) l.
Proof.
  intros Hne. induction 1 as [cs H|k occ pre post l Hk Hn P IH]; constructor; [exact H|constructor| |exact IH].
  intros o I [q O]. destruct Hn as (_ & _ & Hn). apply In_nth_error in I as I'. destruct I' as [j Hj].
  pose proof (occurs_fits _ _ _ O). assert (1 <= length o) by (specialize (Hne o I); destruct o; [contradiction|cbn; lia]).
  destruct (Hn j o q Hj ltac:(lia)); [now apply occurs_app_l|lia|lia].
Qed.

Section with_maps.
Context (M : env) (GM : good_maps M) (Junk : (junk M < 256)%N).

Lemma app3 (a b c d : list N) : length (a ++ b) + length c = length (a ++ b ++ c).
Proof. rewrite !app_length. lia. Qed.

Lemma substitute_ok s rep pre occ post rcs : represents M s (pre ++ occ ++ post) -> represents_or_null M rep rcs ->
  exists t, substitute M s (length pre) (length occ) rep = Some t /\ represents M t (pre ++ rcs ++ post).
Proof.
  intros R Rr. unfold substitute. destruct (without_ok M GM Junk s _ (length pre) (length occ) R) as (t & -> & R'); [rewrite !app_length; lia|].
  rewrite firstn_app_exact in R'. replace (skipn (length pre + length occ) (pre ++ occ ++ post)) with post in R'
    by (rewrite app_assoc, <- app_length; symmetry; apply skipn_app_exact).
  destruct rep as [r|]; cbn [represents_or_null] in Rr.
  - destruct (insert_ok M GM Junk t r _ rcs (length pre) R' Rr) as (u & -> & Ru); [rewrite app_length; lia|].
    rewrite firstn_app_exact, skipn_app_exact in Ru. eauto.
  - subst rcs. eauto.
Qed.

(** ** Replacing *)

Lemma safe_suffix occ ocs pre post : safe occ ocs (pre ++ post) -> safe occ ocs post.
Proof. unfold safe. destruct occ; [|trivial]. intros H [a ->]. apply H. exists (pre ++ a). now rewrite app_assoc. Qed.

Lemma safe_overlooked s occ done post ocs : safe occ ocs post -> ~ overlooked M s occ (done ++ post) ocs (length done).
Proof.
  intros Hs (E & Hl & Ht). destruct s as [w|h]; [|contradiction]. destruct occ as [w'|]; [|contradiction]. destruct done; [|discriminate]. cbn [app] in *.
  apply Hs. destruct Hl as (_ & (pre & rest & Ep & Hp) & _). exists pre. rewrite Ep in Hp. rewrite !app_length in Hp.
  assert (length rest = 0) by lia. destruct rest; [|discriminate]. rewrite Ep. now rewrite app_nil_r.
Qed.

Lemma least_split occ done post i : occ <> [] -> least occ (done ++ post) (length done) (Some i) ->
  exists pre post', post = pre ++ occ ++ post' /\ i = length (done ++ pre) /\ (forall q, q < length pre -> ~ occurs_at occ (pre ++ occ ++ post') q).
Proof.
  intros Hne (L & O & B). apply occurs_skip in O; [|assumption..]. destruct O as (pre & post' & E & Ep). exists pre, post'. split; [exact E|].
  split; [rewrite app_length; lia|]. intros q Hq. rewrite <- E. intros O'. apply (B (length done + q)); [lia|]. now apply occurs_app_r.
Qed.

Lemma replace_loop_ok occ rep ocs rcs : represents M occ ocs -> represents_or_null M rep rcs -> ocs <> [] -> forall fuel t done post,
  represents M t (done ++ post) -> safe occ ocs post -> length post < fuel ->
  exists t' out, replace_loop fuel M t occ rep (length done) (length (done ++ post)) (length ocs) (length rcs) = Some t' /\
    represents M t' (done ++ out) /\ replaced ocs rcs post out.
Proof.
  intros Ro Rr Hne. induction fuel as [|fuel IH]; intros t done post R Hs Hf; [lia|]. cbn [replace_loop].
  destruct (Nat.ltb_spec (length done) (length (done ++ post))) as [L|L].
  - destruct (find_ok M GM t occ (done ++ post) ocs (length done) R Ro Hne ltac:(lia)) as (r & -> & Hr & _). specialize (Hr (safe_overlooked t occ done post ocs Hs)).
    destruct r as [i|].
    + destruct (least_split ocs done post i Hne Hr) as (pre & post' & -> & -> & Hp).
      rewrite app_assoc in R. destruct (substitute_ok t rep (done ++ pre) ocs post' rcs R Rr) as (u & -> & Ru).
      destruct (IH u (done ++ pre ++ rcs) post') as (t' & out & E & R' & P).
      * now rewrite <- !app_assoc in *.
      * apply safe_suffix with (pre := pre ++ ocs). now rewrite <- app_assoc.
      * rewrite !app_length in Hf. assert (1 <= length ocs) by (destruct ocs; [contradiction|cbn; lia]). lia.
      * rewrite (app3 done pre rcs []). replace (length (done ++ pre ++ ocs ++ post') - length ocs + length rcs) with (length ((done ++ pre ++ rcs) ++ post')) by (rewrite !app_length; lia).
        exists t', (pre ++ rcs ++ out). split; [exact E|]. split; [now rewrite <- !app_assoc in *|]. now apply replaced_step.
    + exists t, post. split; [reflexivity|]. split; [exact R|]. apply replaced_none. intros [q O]. apply (Hr (length done + q)); [lia|]. now apply occurs_app_r.
  - exists t, post. split; [reflexivity|]. split; [exact R|]. rewrite app_length in L. destruct post; [|cbn in L; lia]. apply replaced_none.
    intros [q O]. apply occurs_fits in O. destruct ocs; [contradiction|cbn in O; lia].
Qed.

Lemma rep_length_ok rep rcs : represents_or_null M rep rcs -> rep_length M rep = Some (length rcs).
Proof. destruct rep as [r|]; cbn; [apply (get_length_ok M GM)|now intros ->]. Qed.

Lemma replace_ok s occ rep cs ocs rcs : represents M s cs -> represents M occ ocs -> represents_or_null M rep rcs -> ocs <> [] -> safe occ ocs cs ->
  exists t out, replace M s occ rep = Some t /\ represents M t out /\ replaced ocs rcs cs out.
Proof.
  intros R Ro Rr Hne Hs. unfold replace. destruct (find_ok M GM s occ cs ocs 0 R Ro Hne ltac:(lia)) as (r & -> & Hr & _). specialize (Hr (safe_overlooked s occ [] cs ocs Hs)).
  destruct r as [i|].
  - destruct (least_split ocs [] cs i Hne Hr) as (pre & post & -> & -> & Hp). cbn [app] in *. rewrite (get_length_ok M GM occ ocs Ro).
    destruct (substitute_ok s rep pre ocs post rcs R Rr) as (u & -> & Ru). rewrite (rep_length_ok rep rcs Rr), (get_length_ok M GM u _ Ru), (get_length_ok M GM s _ R).
    rewrite <- app_length. rewrite app_assoc in Ru.
    destruct (replace_loop_ok occ rep ocs rcs Ro Rr Hne (Datatypes.S (length (pre ++ ocs ++ post))) u (pre ++ rcs) post Ru) as (t & out & E & R' & P).
    { apply safe_suffix with (pre := pre ++ ocs). now rewrite <- app_assoc. } { rewrite !app_length. lia. }
    rewrite <- app_assoc in E. exists t, (pre ++ rcs ++ out). split; [exact E|]. split; [now rewrite <- app_assoc in R'|]. now apply replaced_step.
  - destruct (copy_ok M GM s cs R) as (t & -> & R'). exists t, cs. split; [reflexivity|]. split; [exact R'|]. apply replaced_none. intros [q O]. apply (Hr q); [lia|exact O].
Qed.

(** ** Separating *)

Lemma split_loop_ok s occ ocs : represents M occ ocs -> ocs <> [] -> forall fuel done post, represents M s (done ++ post) -> done <> [] -> length post < fuel ->
  exists l ls, split_loop fuel M s occ (length done) (length ocs) (length (done ++ post)) = Some l /\ Forall2 (represents M) l ls /\ pieces ocs post ls.
Proof.
  intros Ro Hne. induction fuel as [|fuel IH]; intros done post R Hd Hf; [lia|]. cbn [split_loop].
  destruct (find_ok M GM s occ (done ++ post) ocs (length done) R Ro Hne ltac:(rewrite app_length; lia)) as (r & -> & Hr & _).
  assert (Hno : ~ overlooked M s occ (done ++ post) ocs (length done)) by (intros [E _]; destruct done; [contradiction|discriminate]). specialize (Hr Hno).
  destruct r as [i|].
  - destruct (least_split ocs done post i Hne Hr) as (pre & post' & -> & -> & Hp).
    destruct (substring_ok M GM Junk s _ (length done) (length (done ++ pre) - length done) R) as (x & -> & Rx); [rewrite !app_length; lia|].
    rewrite skipn_app_exact in Rx. replace (length (done ++ pre) - length done) with (length pre) in Rx by (rewrite app_length; lia). rewrite firstn_app_exact in Rx.
    destruct (IH (done ++ pre ++ ocs) post') as (l & ls & E & F & P).
    + now rewrite <- !app_assoc.
    + intros E. apply app_eq_nil in E. now destruct E.
    + rewrite !app_length in Hf. assert (1 <= length ocs) by (destruct ocs; [contradiction|cbn; lia]). lia.
    + rewrite <- !app_assoc in E. rewrite (app3 done pre ocs []), E. exists (x :: l), (pre :: ls). split; [reflexivity|]. split; [now constructor|]. now apply pieces_step.
  - destruct (substring_ok M GM Junk s _ (length done) (length (done ++ post) - length done) R) as (x & -> & Rx); [rewrite app_length; lia|].
    rewrite skipn_app_exact in Rx. replace (length (done ++ post) - length done) with (length post) in Rx by (rewrite app_length; lia). rewrite firstn_all in Rx.
    exists [x], [post]. split; [reflexivity|]. split; [now repeat constructor|]. apply pieces_none. intros [q O]. apply (Hr (length done + q)); [lia|]. now apply occurs_app_r.
Qed.

Lemma split_ok s occ cs ocs : represents M s cs -> represents M occ ocs -> ocs <> [] -> ~ overlooked M s occ cs ocs 0 ->
  exists l ls, split M s occ = Some l /\ Forall2 (represents M) l ls /\ pieces ocs cs ls.
Proof.
  intros R Ro Hne Hno. unfold split. destruct (find_ok M GM s occ cs ocs 0 R Ro Hne ltac:(lia)) as (r & -> & Hr & _). specialize (Hr Hno). destruct r as [i|].
  - destruct (least_split ocs [] cs i Hne Hr) as (pre & post & -> & -> & Hp). cbn [app] in *. rewrite (get_length_ok M GM occ ocs Ro), (get_length_ok M GM s _ R).
    destruct (substring_ok M GM Junk s _ 0 (length pre) R) as (x & -> & Rx); [rewrite !app_length; lia|]. cbn [skipn] in Rx. rewrite firstn_app_exact in Rx.
    rewrite app_assoc in R. destruct (split_loop_ok s occ ocs Ro Hne (Datatypes.S (length (pre ++ ocs ++ post))) (pre ++ ocs) post R) as (l & ls & E & F & P).
    { intros E. apply app_eq_nil in E. now destruct E. } { rewrite !app_length. lia. }
    rewrite <- app_length. rewrite <- app_assoc in E. rewrite E. exists (x :: l), (pre :: ls). split; [reflexivity|]. split; [now constructor|]. now apply pieces_step.
  - destruct (copy_ok M GM s cs R) as (t & -> & R'). exists [t], [cs]. split; [reflexivity|]. split; [now repeat constructor|]. apply pieces_none. intros [q O]. apply (Hr q); [lia|exact O].
Qed.

(** The search that goes wrong gives the whole string as one piece. *)
Lemma split_overlooked s occ cs ocs : represents M s cs -> represents M occ ocs -> ocs <> [] -> overlooked M s occ cs ocs 0 ->
  exists t, split M s occ = Some [t] /\ represents M t cs.
Proof.
  intros R Ro Hne Ho. unfold split. destruct (find_ok M GM s occ cs ocs 0 R Ro Hne ltac:(lia)) as (r & -> & _ & Hr). rewrite (Hr Ho).
  destruct (copy_ok M GM s cs R) as (t & -> & R'). eauto.
Qed.

(** ** Joining *)

Lemma append_ok s t cs ds : represents M s cs -> represents M t ds -> exists u, (let? n := get_length M s in insert M s n t) = Some u /\ represents M u (cs ++ ds).
Proof.
  intros R R'. rewrite (get_length_ok M GM s cs R). destruct (insert_ok M GM Junk s t cs ds (length cs) R R' ltac:(lia)) as (u & -> & Ru).
  rewrite firstn_all, skipn_all, app_nil_r in Ru. eauto.
Qed.

Lemma join_loop_ok sep scs : represents_or_null M sep scs -> forall l ls s cs, represents M s cs -> Forall2 (represents M) l ls ->
  exists t, join_loop M s l sep = Some t /\ represents M t (joined scs (cs :: ls)).
Proof.
  intros Rs. induction l as [|x l IH]; intros ls s cs R F; inversion F as [|? y ? ls' Rx F']; subst; cbn [join_loop]; [eauto|].
  assert (E : exists u, match sep with Some p => let? n := get_length M s in insert M s n p | None => Some s end = Some u /\ represents M u (cs ++ scs)).
  { destruct sep as [p|]; [now apply append_ok|]. cbn in Rs. subst scs. rewrite app_nil_r. eauto. }
  destruct E as (u & -> & Ru). destruct (append_ok u x (cs ++ scs) y Ru Rx) as (v & Ev & Rv).
  destruct (get_length M u) as [n|]; [|discriminate]. rewrite Ev. destruct (IH ls' v _ Rv F') as (t & Et & Rt). exists t. split; [exact Et|].
  rewrite joined_cons by discriminate. destruct ls' as [|z ls']; [cbn [joined] in *; now rewrite <- app_assoc in Rt|].
  rewrite joined_cons in * by discriminate. rewrite <- !app_assoc in Rt. exact Rt.
Qed.

Lemma join_ok l sep ls scs : Forall2 (represents M) l ls -> represents_or_null M sep scs -> exists t, join M l sep = Some t /\ represents M t (joined scs ls).
Proof.
  intros F Rs. destruct F as [|s cs l ls R F]; cbn [join].
  - unfold create. cbn [strlen N.eqb]. unfold create_from.
    destruct (create_tagged_ok M GM ASCII [] [0%N] (Forall_nil _)) as (w & Ew & H1 & H2). change (create_tagged M [0%N] 0 ASCII = Some w) in Ew. rewrite Ew.
    destruct (N.eqb_spec w 0) as [Hw|Hw]; [destruct (H2 Hw); apply empty_fits|]. cbn [negb]. exists (Tagged w). split; [reflexivity|]. split; [constructor|now apply H1].
  - destruct (copy_ok M GM s cs R) as (t & -> & R'). now apply join_loop_ok.
Qed.

(** ** Several strings *)

Lemma find_closest_ok s cs i : represents M s cs -> i <= length cs -> forall subs scss, Forall2 (represents M) subs scss -> Forall (fun c => c <> []) scss ->
  (forall k sub scs, nth_error subs k = Some sub -> nth_error scss k = Some scs -> ~ overlooked M s sub cs scs i) ->
  forall pre best, closest pre cs i best -> exists r, find_closest M s i subs (length pre) best = Some r /\ closest (pre ++ scss) cs i r.
Proof.
  intros R Hi. induction subs as [|sub subs IH]; intros scss F Hne Hno pre best Hb; inversion F as [|? scs ? scss' Rs F']; subst; cbn [find_closest].
  { rewrite app_nil_r. eauto. }
  inversion Hne as [|? ? Hs Hne']; subst. destruct (find_ok M GM s sub cs scs i R Rs Hs Hi) as (r & -> & Hr & _). specialize (Hr (Hno 0 sub scs eq_refl eq_refl)).
  replace (length pre + 1) with (length (pre ++ [scs])) by (rewrite app_length; reflexivity). replace (pre ++ scs :: scss') with ((pre ++ [scs]) ++ scss') by (now rewrite <- app_assoc).
  apply IH; [exact F'|exact Hne'|intros k; apply (Hno (Datatypes.S k))|]. clear IH F F' Hno Hne Hne'.
  assert (Old : forall j o, nth_error (pre ++ [scs]) j = Some o -> nth_error pre j = Some o /\ j < length pre \/ j = length pre /\ o = scs).
  { intros j o E. destruct (Nat.lt_ge_cases j (length pre)) as [Lj|Lj].
    - rewrite nth_error_app1 in E by exact Lj. now left.
    - rewrite nth_error_app2 in E by exact Lj. right. destruct (j - length pre) as [|x] eqn:Ej; [|destruct x; discriminate]. injection E as <-. split; [lia|reflexivity]. }
  assert (New : nth_error (pre ++ [scs]) (length pre) = Some scs) by (rewrite nth_error_app2, Nat.sub_diag by lia; reflexivity).
  assert (Keep : forall k o, nth_error pre k = Some o -> nth_error (pre ++ [scs]) k = Some o) by (intros k o E; rewrite nth_error_app1; [exact E|apply nth_error_Some; congruence]).
  destruct r as [p|], best as [[q k]|]; cbn [closest least] in *.
  - destruct Hr as (H1 & H2 & H3), Hb as (B1 & (o & Bo & Bq) & B3). destruct (Nat.ltb_spec p q) as [L|L]; cbn [closest].
    + split; [exact H1|]. split; [now exists scs|]. intros j o' q' Ej Hq' O. destruct (Old j o' Ej) as [[E Lj]|[-> ->]].
      * destruct (B3 j o' q' E Hq' O); lia.
      * destruct (Nat.lt_ge_cases q' p) as [Hlt|Hge]; [destruct (H3 q' (conj Hq' Hlt) O)|]. lia.
    + split; [exact B1|]. split; [exists o; split; [now apply Keep|exact Bq]|]. intros j o' q' Ej Hq' O. destruct (Old j o' Ej) as [[E Lj]|[-> ->]]; [now apply B3 with o'|].
      assert (k < length pre) by (apply nth_error_Some; congruence). destruct (Nat.lt_ge_cases q' p) as [Hlt|Hge]; [destruct (H3 q' (conj Hq' Hlt) O)|]. lia.
  - destruct Hr as (H1 & H2 & H3). split; [exact H1|]. split; [now exists scs|]. intros j o' q' Ej Hq' O. destruct (Old j o' Ej) as [[E Lj]|[-> ->]].
    + apply nth_error_In in E. destruct (Hb o' q' E Hq' O).
    + destruct (Nat.lt_ge_cases q' p) as [Hlt|Hge]; [destruct (H3 q' (conj Hq' Hlt) O)|]. lia.
  - destruct Hb as (B1 & (o & Bo & Bq) & B3). split; [exact B1|]. split; [exists o; split; [now apply Keep|exact Bq]|]. intros j o' q' Ej Hq' O.
    destruct (Old j o' Ej) as [[E Lj]|[-> ->]]; [now apply B3 with o'|]. destruct (Hr q' Hq' O).
  - intros o q I Hq O. apply in_app_or in I. destruct I as [I|[<-|[]]]; [exact (Hb o q I Hq O)|exact (Hr q Hq O)].
Qed.

Lemma find_closest_start s cs i subs scss : represents M s cs -> i <= length cs -> Forall2 (represents M) subs scss -> Forall (fun c => c <> []) scss ->
  (forall k sub scs, nth_error subs k = Some sub -> nth_error scss k = Some scs -> ~ overlooked M s sub cs scs i) ->
  exists r, find_closest M s i subs 0 None = Some r /\ closest scss cs i r.
Proof. intros R Hi F Hne Hno. apply (find_closest_ok s cs i R Hi subs scss F Hne Hno [] None). now intros o q []. Qed.

(** The closest occurrence, seen from the rest of the sequence. *)
Lemma nearest_split occs done post p k : Forall (fun c => c <> []) occs -> nearest occs (done ++ post) (length done) p k ->
  exists occ pre post', nth_error occs k = Some occ /\ post = pre ++ occ ++ post' /\ p = length (done ++ pre) /\ nearest occs (pre ++ occ ++ post') 0 (length pre) k.
Proof.
  intros Hne (L & (occ & Ek & O) & B). assert (Ho : forall j o, nth_error occs j = Some o -> o <> []) by (intros j o E; rewrite Forall_forall in Hne; apply Hne; now apply nth_error_In with j).
  pose proof (Ho k occ Ek) as Hk. apply occurs_skip in O; [|assumption..]. destruct O as (pre & post' & -> & Ep). exists occ, pre, post'.
  split; [exact Ek|]. split; [reflexivity|]. split; [rewrite app_length; lia|]. split; [lia|]. split; [exists occ; split; [exact Ek|]; now exists pre, post'|].
  intros j o q Ej _ O. destruct (B j o (length done + q) Ej ltac:(lia)); [now apply occurs_app_r| |]; lia.
Qed.

Lemma Forall2_nth_error {A B} (R : A -> B -> Prop) l l' k b : Forall2 R l l' -> nth_error l' k = Some b -> exists a, nth_error l k = Some a /\ R a b.
Proof. intros F. revert k. induction F; intros [|k]; cbn; try discriminate; [intros E; injection E as <-; eauto|apply IHF]. Qed.

Lemma all_safe_suffix occs ocss pre post : all_safe occs ocss (pre ++ post) -> all_safe occs ocss post.
Proof. intros H k occ ocs E E'. apply safe_suffix with (pre := pre). now apply (H k). Qed.

Lemma nth_nonempty (ocss : list (list N)) k ocs : Forall (fun c => c <> []) ocss -> nth_error ocss k = Some ocs -> 1 <= length ocs.
Proof. intros H E. apply nth_error_In in E. rewrite Forall_forall in H. specialize (H ocs E). destruct ocs; [contradiction|cbn; lia]. Qed.

Lemma closest_none occs done post : closest occs (done ++ post) (length done) None -> forall occ, In occ occs -> ~ contains occ post.
Proof. intros H occ I [q O]. apply (H occ (length done + q) I); [lia|]. now apply occurs_app_r. Qed.

Lemma replace_any_loop_ok occs reps ocss rcss : Forall2 (represents M) occs ocss -> Forall2 (represents_or_null M) reps rcss -> length occs = length reps ->
  Forall (fun c => c <> []) ocss -> forall fuel t done post, represents M t (done ++ post) -> all_safe occs ocss post -> length post < fuel ->
  exists t' out, replace_any_loop fuel M t occs reps (length done) = Some t' /\ represents M t' (done ++ out) /\ replaced_any ocss rcss post out.
Proof.
  intros Fo Fr Hlen Hne. induction fuel as [|fuel IH]; intros t done post R Hs Hf; [lia|]. cbn [replace_any_loop]. rewrite (get_length_ok M GM t _ R).
  destruct (Nat.ltb_spec (length done) (length (done ++ post))) as [L|L].
  - destruct (find_closest_start t (done ++ post) (length done) occs ocss R ltac:(lia) Fo Hne) as (r & -> & Hr).
    { intros k occ ocs E E'. apply safe_overlooked. now apply (Hs k). }
    destruct r as [[i k]|].
    + destruct (nearest_split ocss done post i k Hne Hr) as (ocs & pre & post' & Ek & -> & -> & Hn).
      destruct (Forall2_nth_error _ _ _ k ocs Fo Ek) as (occ & Eo & Ro).
      assert (Er : exists rcs, nth_error rcss k = Some rcs).
      { destruct (nth_error rcss k) eqn:E; [eauto|]. apply nth_error_None in E. assert (k < length occs) by (apply nth_error_Some; congruence). rewrite (Forall2_length _ _ _ Fr) in Hlen. lia. }
      destruct Er as [rcs Er]. destruct (Forall2_nth_error _ _ _ k rcs Fr Er) as (rep & Er' & Rr). rewrite Eo, Er', (get_length_ok M GM occ ocs Ro).
      rewrite app_assoc in R. destruct (substitute_ok t rep (done ++ pre) ocs post' rcs R Rr) as (u & -> & Ru). rewrite (rep_length_ok rep rcs Rr).
      pose proof (nth_nonempty ocss k ocs Hne Ek) as Hl.
      destruct (IH u (done ++ pre ++ rcs) post') as (t' & out & E & R' & P).
      * now rewrite <- !app_assoc in *.
      * apply all_safe_suffix with (pre := pre ++ ocs). now rewrite <- app_assoc.
      * rewrite !app_length in Hf. lia.
      * rewrite (app3 done pre rcs []). exists t', (pre ++ rcs ++ out). split; [exact E|]. split; [now rewrite <- !app_assoc in *|]. now apply (replaced_any_step ocss rcss k).
    + exists t, post. split; [reflexivity|]. split; [exact R|]. apply replaced_any_none. exact (closest_none _ _ _ Hr).
  - exists t, post. split; [reflexivity|]. split; [exact R|]. rewrite app_length in L. destruct post; [|cbn in L; lia]. apply replaced_any_none.
    intros o I [q O]. apply occurs_fits in O. apply In_nth_error in I. destruct I as [k Ek]. pose proof (nth_nonempty ocss k o Hne Ek). cbn in O. lia.
Qed.

Lemma replace_any_ok s occs reps cs ocss rcss : represents M s cs -> Forall2 (represents M) occs ocss -> Forall2 (represents_or_null M) reps rcss -> length occs = length reps ->
  Forall (fun c => c <> []) ocss -> all_safe occs ocss cs ->
  exists t out, replace_any M s occs reps = Some t /\ represents M t out /\ replaced_any ocss rcss cs out.
Proof.
  intros R Fo Fr Hlen Hne Hs. unfold replace_any.
  destruct (find_closest_start s cs 0 occs ocss R ltac:(lia) Fo Hne) as (r & -> & Hr).
  { intros k occ ocs E E'. apply (safe_overlooked s occ [] cs ocs). now apply (Hs k). }
  destruct r as [[i k]|].
  - destruct (nearest_split ocss [] cs i k Hne Hr) as (ocs & pre & post & Ek & -> & -> & Hn). cbn [app] in *.
    destruct (Forall2_nth_error _ _ _ k ocs Fo Ek) as (occ & Eo & Ro).
    assert (Er : exists rcs, nth_error rcss k = Some rcs).
    { destruct (nth_error rcss k) eqn:E; [eauto|]. apply nth_error_None in E. assert (k < length occs) by (apply nth_error_Some; congruence). rewrite (Forall2_length _ _ _ Fr) in Hlen. lia. }
    destruct Er as [rcs Er]. destruct (Forall2_nth_error _ _ _ k rcs Fr Er) as (rep & Er' & Rr). rewrite Eo, Er', (get_length_ok M GM occ ocs Ro).
    destruct (substitute_ok s rep pre ocs post rcs R Rr) as (u & -> & Ru). rewrite (rep_length_ok rep rcs Rr), (get_length_ok M GM s _ R), <- app_length.
    rewrite app_assoc in Ru. destruct (replace_any_loop_ok occs reps ocss rcss Fo Fr Hlen Hne (Datatypes.S (length (pre ++ ocs ++ post))) u (pre ++ rcs) post Ru) as (t & out & E & R' & P).
    { apply all_safe_suffix with (pre := pre ++ ocs). now rewrite <- app_assoc. } { rewrite !app_length. lia. }
    exists t, (pre ++ rcs ++ out). split; [exact E|]. split; [now rewrite <- app_assoc in R'|]. now apply (replaced_any_step ocss rcss k).
  - destruct (copy_ok M GM s cs R) as (t & -> & R'). exists t, cs. split; [reflexivity|]. split; [exact R'|]. apply replaced_any_none. exact (closest_none ocss [] cs Hr).
Qed.

Lemma split_any_loop_ok s occs ocss : Forall2 (represents M) occs ocss -> Forall (fun c => c <> []) ocss -> forall fuel done post,
  represents M s (done ++ post) -> done <> [] -> length post < fuel ->
  exists l ls, split_any_loop fuel M s occs (length done) (length (done ++ post)) = Some l /\ Forall2 (represents M) l ls /\ pieces_any ocss post ls.
Proof.
  intros Fo Hne. induction fuel as [|fuel IH]; intros done post R Hd Hf; [lia|]. cbn [split_any_loop].
  destruct (find_closest_start s (done ++ post) (length done) occs ocss R ltac:(rewrite app_length; lia) Fo Hne) as (r & -> & Hr).
  { intros k sub scs _ _ [E _]. destruct done; [contradiction|discriminate]. }
  destruct r as [[i k]|].
  - destruct (nearest_split ocss done post i k Hne Hr) as (ocs & pre & post' & Ek & -> & -> & Hn). destruct (Forall2_nth_error _ _ _ k ocs Fo Ek) as (occ & Eo & Ro).
    rewrite Eo, (get_length_ok M GM occ ocs Ro). pose proof (nth_nonempty ocss k ocs Hne Ek) as Hl.
    destruct (substring_ok M GM Junk s _ (length done) (length (done ++ pre) - length done) R) as (x & -> & Rx); [rewrite !app_length; lia|].
    rewrite skipn_app_exact in Rx. replace (length (done ++ pre) - length done) with (length pre) in Rx by (rewrite app_length; lia). rewrite firstn_app_exact in Rx.
    destruct (IH (done ++ pre ++ ocs) post') as (l & ls & E & F & P).
    + now rewrite <- !app_assoc.
    + intros E. apply app_eq_nil in E. now destruct E.
    + rewrite !app_length in Hf. lia.
    + rewrite <- !app_assoc in E. rewrite (app3 done pre ocs []), E. exists (x :: l), (pre :: ls). split; [reflexivity|]. split; [now constructor|]. now apply (pieces_any_step ocss k).
  - destruct (substring_ok M GM Junk s _ (length done) (length (done ++ post) - length done) R) as (x & -> & Rx); [rewrite app_length; lia|].
    rewrite skipn_app_exact in Rx. replace (length (done ++ post) - length done) with (length post) in Rx by (rewrite app_length; lia). rewrite firstn_all in Rx.
    exists [x], [post]. split; [reflexivity|]. split; [now repeat constructor|]. apply pieces_any_none. exact (closest_none _ _ _ Hr).
Qed.

Lemma split_any_ok s occs cs ocss : represents M s cs -> Forall2 (represents M) occs ocss -> Forall (fun c => c <> []) ocss ->
  (forall k occ ocs, nth_error occs k = Some occ -> nth_error ocss k = Some ocs -> ~ overlooked M s occ cs ocs 0) ->
  exists l ls, split_any M s occs = Some l /\ Forall2 (represents M) l ls /\ pieces_any ocss cs ls.
Proof.
  intros R Fo Hne Hno. unfold split_any. destruct (find_closest_start s cs 0 occs ocss R ltac:(lia) Fo Hne Hno) as (r & -> & Hr). destruct r as [[i k]|].
  - destruct (nearest_split ocss [] cs i k Hne Hr) as (ocs & pre & post & Ek & -> & -> & Hn). cbn [app] in *. destruct (Forall2_nth_error _ _ _ k ocs Fo Ek) as (occ & Eo & Ro).
    rewrite Eo, (get_length_ok M GM occ ocs Ro), (get_length_ok M GM s _ R). pose proof (nth_nonempty ocss k ocs Hne Ek) as Hl.
    destruct (substring_ok M GM Junk s _ 0 (length pre) R) as (x & -> & Rx); [rewrite !app_length; lia|]. cbn [skipn] in Rx. rewrite firstn_app_exact in Rx.
    rewrite app_assoc in R. destruct (split_any_loop_ok s occs ocss Fo Hne (Datatypes.S (length (pre ++ ocs ++ post))) (pre ++ ocs) post R) as (l & ls & E & F & P).
    { intros E. apply app_eq_nil in E. destruct E as [_ ->]. cbn in Hl. lia. } { rewrite !app_length. lia. }
    rewrite <- app_length. rewrite <- app_assoc in E. rewrite E. exists (x :: l), (pre :: ls). split; [reflexivity|]. split; [now constructor|]. now apply (pieces_any_step ocss k).
  - destruct (copy_ok M GM s cs R) as (t & -> & R'). exists [t], [cs]. split; [reflexivity|]. split; [now repeat constructor|]. apply pieces_any_none. exact (closest_none ocss [] cs Hr).
Qed.
End with_maps.
