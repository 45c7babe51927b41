(** Proofs for the paged list. *)
From Verif Require Import Base ListModel ListSpec.
From Verif Require ArrayModel ArraySpec ArrayProofs.

Section Proofs.
Context {A : Type}.
Local Notation cell := (option A).
Local Notation rep := ArrayProofs.rep.
Implicit Types (l : plist A) (ls : list (list cell)) (xs : list cell).

Definition same l l' : Prop := pageSize l' = pageSize l /\ last l' = last l /\ count l' = count l.

Lemma Forall2_len {B C} (P : B -> C -> Prop) u v : Forall2 P u v -> length u = length v.
Proof. induction 1; cbn; auto. Qed.

Lemma forall2_split (P : ArrayModel.array A -> list cell -> Prop) ps pre xs post :
  Forall2 P ps (pre ++ xs :: post) ->
  exists qa a qb, ps = qa ++ a :: qb /\ length qa = length pre /\ Forall2 P qa pre /\ P a xs /\ Forall2 P qb post.
Proof.
  intros H. apply Forall2_app_inv_r in H as (qa & q & H1 & H2 & ->). inversion H2 as [|a ? qb ? Ha Hb]; subst.
  exists qa, a, qb. repeat split; auto. eapply Forall2_len; eauto.
Qed.

Lemma upd_mid {B} (p : list B) x q y : upd (p ++ x :: q) (length p) y = p ++ y :: q.
Proof. induction p; cbn; [reflexivity|]. now rewrite IHp. Qed.

Lemma nth_mid {B} (p : list B) x q : nth_error (p ++ x :: q) (length p) = Some x.
Proof. induction p; cbn; auto. Qed.

Lemma on_page_sim l pre xs post o ok :
  Forall2 rep (pages l) (pre ++ xs :: post) -> ArraySpec.valid (length xs) o ->
  exists l' r xs', on_page l (length pre) o ok = Some (l', r) /\ ArraySpec.spec_call ok xs o r xs' /\
    Forall2 rep (pages l') (pre ++ xs' :: post) /\ same l l'.
Proof.
  intros H V. apply forall2_split in H as (qa & a & qb & E & L & Ha & Hr & Hb).
  rewrite <- (proj1 (proj2 Hr)) in V. destruct (ArrayProofs.step_sim a xs o ok Hr V) as (a' & r & xs' & Es & Sp & Hr').
  unfold on_page. rewrite E, <- L, nth_mid. rewrite Es. rewrite upd_mid. do 3 eexists. split; [reflexivity|]. split; [exact Sp|].
  split; [|unfold same, with_pages; cbn [pageSize last count]; auto].
  cbn [pages with_pages]. apply Forall2_app; auto.
Qed.

Lemma page_count_sim l pre xs post :
  Forall2 rep (pages l) (pre ++ xs :: post) -> page_count l (length pre) = Some (length xs).
Proof.
  intros H. apply forall2_split in H as (qa & a & qb & E & L & Ha & Hr & Hb).
  unfold page_count. rewrite E, <- L, nth_mid. cbn [option_map]. f_equal. apply Hr.
Qed.

Lemma on_page_get l pre xs post i : Forall2 rep (pages l) (pre ++ xs :: post) -> i < length xs ->
  exists c, on_page l (length pre) (ArrayModel.Get i) true = Some (l, ArrayModel.RElem c) /\ forall x, nth_error xs i = Some (Some x) -> c = Some x.
Proof.
  intros H Hi. apply forall2_split in H as (qa & a & qb & E & L & Ha & Hr & Hb).
  destruct (ArrayProofs.step_sim a xs (ArrayModel.Get i) true Hr) as (a' & r & xs' & Es & Sp & Hr').
  { cbn [ArraySpec.valid]. now rewrite (proj1 (proj2 Hr)). }
  destruct Sp as [(-> & c & -> & Hc)|(? & _)]; [|discriminate]. exists c. split; [|exact Hc].
  unfold on_page. rewrite E, <- L, nth_mid, Es, upd_mid.
  assert (a' = a) as ->.
  { revert Es. cbn [ArrayModel.step]. destruct (_ <? _); [|discriminate]. destruct (ArrayModel.data a) as [d|]; [|discriminate].
    destruct (nth_error d i); [|discriminate]. now intros [= <- _]. }
  rewrite <- E. unfold with_pages. now destruct l.
Qed.

Lemma read_page_sim l pre xs post i : Forall2 rep (pages l) (pre ++ xs :: post) -> i < length xs ->
  exists c, read_page l (length pre) i = Some c /\ forall x, nth_error xs i = Some (Some x) -> c = Some x.
Proof. intros H Hi. destruct (on_page_get l pre xs post i H Hi) as (c & E & Hc). exists c. unfold read_page. now rewrite E. Qed.

(** Forgetting what is known about an element. *)
Lemma rep_weaken a xs ys : rep a xs -> length ys = length xs ->
  (forall i x, nth_error ys i = Some (Some x) -> nth_error xs i = Some (Some x)) -> rep a ys.
Proof.
  intros (I & C & G) L W. split; [exact I|]. split; [congruence|]. destruct (ArrayModel.data a); [|exact Logic.I].
  intros i x Hi. auto.
Qed.

Lemma pages_weaken ps pre xs ys post : Forall2 rep ps (pre ++ xs :: post) -> length ys = length xs ->
  (forall i x, nth_error ys i = Some (Some x) -> nth_error xs i = Some (Some x)) -> Forall2 rep ps (pre ++ ys :: post).
Proof.
  intros H L W. apply forall2_split in H as (qa & a & qb & -> & _ & Ha & Hr & Hb).
  apply Forall2_app; [auto|]. constructor; [|auto]. eapply rep_weaken; eauto.
Qed.

(** ** Layout *)
Lemma map_length_app_inv (ls : list (list cell)) u v : map (@length cell) ls = u ++ v ->
  exists a b, ls = a ++ b /\ map (@length cell) a = u /\ map (@length cell) b = v.
Proof. intros H. apply map_eq_app in H as (a & b & -> & <- & <-). eauto. Qed.

Lemma concat_full ls ps n : map (@length cell) ls = repeat ps n -> length (concat ls) = n * ps.
Proof.
  revert n. induction ls as [|x ls IH]; intros [|n]; cbn; try discriminate; auto.
  intros [= Ex E]. rewrite app_length, (IH n E). lia.
Qed.

Lemma concat_len ls ps n m : map (@length cell) ls = repeat ps n ++ [m] -> length (concat ls) = n * ps + m.
Proof.
  intros H. apply map_length_app_inv in H as (a & b & -> & Ha & Hb). rewrite concat_app, app_length, (concat_full _ _ _ Ha).
  destruct b as [|x [|]]; try discriminate. cbn. injection Hb as Hb. rewrite app_nil_r. lia.
Qed.

(** The page at position [p], the pages before and after it. *)
Lemma split_at ls ps n m p : map (@length cell) ls = repeat ps n ++ [m] -> p <= n ->
  exists pre x post, ls = pre ++ x :: post /\ length pre = p /\ map (@length cell) pre = repeat ps p /\
    map (@length cell) (x :: post) = repeat ps (n - p) ++ [m].
Proof.
  intros H Hp. replace n with (p + (n - p)) in H by lia. rewrite repeat_app, <- app_assoc in H.
  apply map_length_app_inv in H as (a & b & -> & Ha & Hb). destruct b as [|x post].
  - destruct (n - p); discriminate.
  - exists a, x, post. repeat split; auto. rewrite <- (map_length (@length cell) a), Ha. apply repeat_length.
Qed.

Definition inv l xs : Prop := exists ls n m,
  Forall2 rep (pages l) ls /\ concat ls = xs /\ map (@length cell) ls = repeat (pageSize l) n ++ [m] /\
  m <= pageSize l /\ (n <> 0 -> m <> 0) /\ last l = Some n /\ count l = n * pageSize l + m /\ 1 <= pageSize l.

Lemma inv_count l xs : inv l xs -> count l = length xs.
Proof. intros (ls & n & m & _ & <- & E & _ & _ & _ & -> & _). now rewrite (concat_len _ _ _ _ E). Qed.

Lemma pages_len l ls n m : Forall2 rep (pages l) ls -> map (@length cell) ls = repeat (pageSize l) n ++ [m] -> length (pages l) = S n.
Proof.
  intros F E. rewrite (Forall2_len _ _ _ F), <- (map_length (@length cell)), E, app_length, repeat_length. cbn. lia.
Qed.

Lemma walk_next_ok l p k : p + k < length (pages l) -> walk_next l p k = Some (p + k).
Proof.
  revert p. induction k as [|k IH]; intros p H; cbn [walk_next].
  - f_equal. lia.
  - destruct (Nat.ltb_spec (S p) (length (pages l))); [|lia]. rewrite IH by lia. f_equal. lia.
Qed.

Lemma walk_prev_ok p k : k <= p -> walk_prev p k = Some (p - k).
Proof.
  revert p. induction k as [|k IH]; intros p H; cbn [walk_prev].
  - f_equal. lia.
  - destruct p as [|p]; [lia|]. rewrite IH by lia. reflexivity.
Qed.

Lemma div_last n ps m : 1 <= ps -> m <= ps -> m <> 0 -> (n * ps + m - 1) / ps = n.
Proof. intros. symmetry. apply Nat.div_unique with (m - 1); lia. Qed.

Lemma index_parts i ps n m : 1 <= ps -> m <= ps -> i < n * ps + m ->
  i / ps <= n /\ i - i / ps * ps < ps /\ i = i / ps * ps + (i - i / ps * ps) /\ (i / ps = n -> i - i / ps * ps < m).
Proof.
  intros H1 H2 H3. pose proof (Nat.div_mod i ps ltac:(lia)) as D. pose proof (Nat.mod_upper_bound i ps ltac:(lia)) as U.
  set (q := i / ps) in *. set (r := i mod ps) in *. clearbody q r.
  assert (q <= n). { destruct (Nat.le_gt_cases q n); [auto|]. assert ((n + 1) * ps <= q * ps) by (apply Nat.mul_le_mono_r; lia). lia. }
  repeat split; lia.
Qed.

Lemma get_page_ok l xs pi : inv l xs -> count l <> 0 -> pi <= (count l - 1) / pageSize l -> get_page l pi = Some pi.
Proof.
  intros (ls & n & m & F & E & Em & Hm & Hn & EL & EC & Hp) Hc Hi. unfold get_page. rewrite EL.
  assert (D : (count l - 1) / pageSize l = n). { rewrite EC. apply div_last; auto. destruct n; [lia|auto]. }
  rewrite D in *. pose proof (pages_len _ _ _ _ F Em).
  destruct (n - pi <? pi).
  - rewrite walk_prev_ok by lia. f_equal. lia.
  - rewrite walk_next_ok by lia. reflexivity.
Qed.

(** The page and place of element [i]. *)
Lemma locate l xs i : inv l xs -> i < count l ->
  exists pre x post, Forall2 rep (pages l) (pre ++ x :: post) /\ xs = concat pre ++ x ++ concat post /\
    length pre = i / pageSize l /\ get_page l (i / pageSize l) = Some (length pre) /\
    i = length (concat pre) + (i - i / pageSize l * pageSize l) /\ i - i / pageSize l * pageSize l < length x /\
    (exists n m, map (@length cell) (pre ++ x :: post) = repeat (pageSize l) n ++ [m] /\
      m <= pageSize l /\ (n <> 0 -> m <> 0) /\ last l = Some n /\ count l = n * pageSize l + m /\ 1 <= pageSize l /\
      length pre <= n /\ map (@length cell) pre = repeat (pageSize l) (length pre)).
Proof.
  intros I Hi. pose proof I as (ls & n & m & F & E & Em & Hm & Hn & EL & EC & Hp).
  destruct (index_parts i (pageSize l) n m) as (P1 & P2 & P3 & P4); try lia.
  destruct (split_at ls (pageSize l) n m (i / pageSize l) Em P1) as (pre & x & post & -> & L & Mp & Mx).
  exists pre, x, post. split; [exact F|]. split. { rewrite <- E, concat_app. reflexivity. } split; [exact L|].
  split. { rewrite L. apply (get_page_ok l xs); [auto|lia|]. rewrite EC, div_last; [exact P1|lia..|]. destruct n; [lia|auto]. }
  split. { rewrite (concat_full _ _ _ Mp). exact P3. }
  split.
  { destruct (Nat.eq_dec (i / pageSize l) n) as [Q|Q].
    - rewrite Q, Nat.sub_diag in Mx. cbn in Mx. injection Mx as Mx _. rewrite Mx. now apply P4.
    - destruct (n - i / pageSize l) as [|k] eqn:K; [lia|]. cbn in Mx. injection Mx as Mx _. rewrite Mx. exact P2. }
  exists n, m. repeat split; auto; try lia. congruence.
Qed.

Lemma nth_concat pre (x : list cell) post j : j < length x ->
  nth_error (concat pre ++ x ++ concat post) (length (concat pre) + j) = nth_error x j.
Proof. intros. rewrite nth_error_app2 by lia. rewrite nth_error_app1 by lia. f_equal. lia. Qed.

Lemma upd_concat (a x b : list cell) j v : j < length x ->
  upd (a ++ x ++ b) (length a + j) v = a ++ upd x j v ++ b.
Proof.
  intros H. induction a as [|y a IH]; cbn.
  - revert j H. induction x as [|z x IHx]; intros [|j] H; cbn in *; try lia; auto. rewrite IHx; [auto|lia].
  - now rewrite IH.
Qed.

Lemma insert_concat (a x b : list cell) j v : j <= length x ->
  insert_at (a ++ x ++ b) (length a + j) v = a ++ insert_at x j v ++ b.
Proof.
  intros H. unfold insert_at. rewrite firstn_app_2, skipn_app, (skipn_all2 a) by lia.
  replace (length a + j - length a) with j by lia. cbn [app].
  rewrite firstn_app, skipn_app. replace (j - length x) with 0 by lia. cbn [firstn skipn]. rewrite app_nil_r, <- !app_assoc. reflexivity.
Qed.

Lemma remove_concat (a x b : list cell) j : j < length x ->
  remove_at (a ++ x ++ b) (length a + j) 1 = a ++ remove_at x j 1 ++ b.
Proof.
  intros H. unfold remove_at. rewrite firstn_app_2, skipn_app, (skipn_all2 a) by lia.
  replace (length a + j + 1 - length a) with (j + 1) by lia. cbn [app].
  rewrite firstn_app, skipn_app. replace (j - length x) with 0 by lia. replace (j + 1 - length x) with 0 by lia.
  cbn [firstn skipn]. rewrite app_nil_r, <- !app_assoc. reflexivity.
Qed.

Lemma map_len_mid pre (x y : list cell) post : length y = length x ->
  map (@length cell) (pre ++ y :: post) = map (@length cell) (pre ++ x :: post).
Proof. intros H. rewrite !map_app. cbn. now rewrite H. Qed.

(** ** Reading and replacing *)
Lemma get_sim l xs i e : inv l xs -> i < count l ->
  exists c, step l (Get i) e = Some (l, RElem c) /\ forall x, nth_error xs i = Some (Some x) -> c = Some x.
Proof.
  intros I Hi. destruct (locate l xs i I Hi) as (pre & x & post & F & -> & L & G & Ei & Hx & _).
  destruct (read_page_sim l pre x post _ F Hx) as (c & Ec & Hc). exists c. split.
  - cbn [step]. destruct (Nat.ltb_spec i (count l)); [|lia]. rewrite G, Ec. reflexivity.
  - intros v Hv. apply Hc. rewrite Ei, nth_concat in Hv; auto.
Qed.

Lemma replace_sim l xs i v e : inv l xs -> i < count l ->
  exists l', step l (Replace i v) e = Some (l', RVoid) /\ inv l' (match v with Some x => upd xs i (Some x) | None => xs end).
Proof.
  intros I Hi. destruct (locate l xs i I Hi) as (pre & x & post & F & -> & L & G & Ei & Hx & n & m & Em & Hm & Hn & EL & EC & Hp & _).
  destruct (on_page_sim l pre x post (ArrayModel.Replace (i - i / pageSize l * pageSize l) v) (snd e) F Hx)
    as (l' & r & x' & Es & Sp & F' & S1 & S2 & S3).
  exists l'. split.
  - cbn [step]. destruct (Nat.ltb_spec i (count l)); [|lia]. now rewrite G, Es.
  - destruct Sp as [(-> & ->)|(_ & ? & _)]; [|discriminate].
    exists (pre ++ match v with Some y => upd x (i - i / pageSize l * pageSize l) (Some y) | None => x end :: post), n, m.
    rewrite S1, S2, S3. repeat split; auto.
    + rewrite concat_app. cbn [concat]. destruct v as [y|]; [|reflexivity].
      pose proof (upd_concat (concat pre) x (concat post) _ (Some y) Hx) as U. rewrite <- Ei in U. now rewrite U.
    + rewrite <- Em. apply map_len_mid. destruct v; [apply upd_length|reflexivity].
Qed.

(** ** Appending *)
Lemma new_page_sim l ls n m e : Forall2 rep (pages l) ls -> map (@length cell) ls = repeat (pageSize l) n ++ [m] ->
  exists l', new_page l n e = Some l' /\ Forall2 rep (pages l') (ls ++ [[]]) /\
    pageSize l' = pageSize l /\ last l' = Some (S n) /\ count l' = count l /\ length (pages l) = S n.
Proof.
  intros F Em. pose proof (pages_len _ _ _ _ F Em) as PL.
  destruct (split_at ls _ n m n Em (le_n _)) as (pre & x & post & -> & L & _).
  pose proof F as F0. apply forall2_split in F as (qa & a & qb & E & La & Ha & Hr & Hb).
  assert (N : nth_error (pages l) n = Some a) by (rewrite E, <- L, <- La; apply nth_mid).
  unfold new_page. rewrite N. eexists. split; [reflexivity|].
  cbn [pages with_last with_pages pageSize last count]. rewrite PL. repeat split; auto.
  apply Forall2_app; [exact F0|]. constructor; [|constructor]. apply ArrayProofs.rep_create. apply Hr.
Qed.

Lemma full_tail (ps n m : nat) : repeat ps n ++ [ps] ++ [m] = repeat ps (S n) ++ [m].
Proof. change (repeat ps (S n)) with (ps :: repeat ps n). rewrite (repeat_cons n ps), <- app_assoc. reflexivity. Qed.

Lemma append_sim l xs v e : inv l xs -> fst e = true \/ snd e = true ->
  exists l' r xs', step l (Append v) e = Some (l', r) /\ spec_call e xs (Append v) r xs' /\ inv l' xs'.
Proof.
  intros I He. pose proof (inv_count _ _ I) as CL. pose proof I as (ls & n & m & F & E & Em & Hm & Hn & EL & EC & Hp).
  cbn [step]. unfold append, find_last. rewrite EL.
  destruct (split_at ls _ n m n Em (le_n _)) as (pre & x & post & -> & L & Mp & Mx).
  rewrite Nat.sub_diag in Mx. cbn in Mx. injection Mx as Mx Mo. destruct post; [|discriminate]. clear Mo.
  pose proof (page_count_sim l pre x [] F) as PC. rewrite L in PC. rewrite PC.
  destruct (Nat.eqb_spec (length x) (pageSize l)) as [Q|Q].
  - (* a new page *)
    destruct (new_page_sim l _ n m e F Em) as (l1 & En & F1 & A1 & A2 & A3 & A4). rewrite En, A4.
    replace (S n) with (length (pre ++ [x])) by (rewrite app_length; cbn; lia).
    destruct (on_page_sim l1 (pre ++ [x]) [] [] (ArrayModel.Append v) (snd e)) as (l' & r & x' & Es & Sp & F' & S1 & S2 & S3).
    { exact F1. } { exact Logic.I. }
    rewrite Es. destruct Sp as [(-> & ->)|(Ho & _ & -> & ->)].
    + eexists _, _, (xs ++ [v]). split; [reflexivity|]. split; [left; cbn [spec]; split; [f_equal; lia|reflexivity]|].
      exists ((pre ++ [x]) ++ [[v]]), (S n), 1. cbn [pages pageSize last count with_count]. rewrite S1, S2, S3, A1, A2, A3.
      repeat split; auto; try lia.
      * rewrite concat_app, E. reflexivity.
      * rewrite map_app, Em, <- Mx, Q. cbn [map length]. rewrite <- full_tail, <- app_assoc. reflexivity.
    + (* storage of the new page: already there, so nothing can fail *)
      exfalso. destruct He as [He|He]; [|congruence].
      revert Es. unfold on_page. apply forall2_split in F as (qa & a & qb & Ea & La & _).
      assert (NP : new_page l n e = Some l1) by exact En. unfold new_page in NP.
      destruct (nth_error (pages l) n) as [a0|]; [|discriminate]. injection NP as <-.
      cbn [pages with_last with_pages]. rewrite nth_error_app2 by (rewrite app_length; cbn; lia).
      replace (length (pre ++ [x]) - length (pages l)) with 0 by (rewrite app_length; cbn; lia). cbn [nth_error].
      unfold ArrayModel.create. rewrite He. cbn [ArrayModel.step]. unfold ArrayModel.ensure, ArrayModel.grow1.
      cbn [ArrayModel.count ArrayModel.data ArrayModel.is_null]. cbn [Nat.eqb negb orb]. rewrite andb_false_r.
      destruct (ArrayModel.lift _ _ _ _) as [[a1 r1]|] eqn:Lf; [|discriminate].
      unfold ArrayModel.lift in Lf. destruct (ArrayModel.copy_in _ _ _ _); [|discriminate]. injection Lf as <- <-. discriminate.
  - destruct (on_page_sim l pre x [] (ArrayModel.Append v) (snd e) F) as (l' & r & x' & Es & Sp & F' & S1 & S2 & S3).
    { exact Logic.I. }
    rewrite L in Es. rewrite Es. destruct Sp as [(-> & ->)|(Ho & _ & -> & ->)].
    + eexists _, _, (xs ++ [v]). split; [reflexivity|]. split; [left; cbn [spec]; split; [f_equal; lia|reflexivity]|].
      exists (pre ++ [x ++ [v]]), n, (m + 1). cbn [pages pageSize last count with_count]. rewrite S1, S2, S3.
      repeat split; auto; try lia.
      * rewrite <- E, !concat_app. cbn. rewrite !app_nil_r. now rewrite <- app_assoc.
      * rewrite map_app, Mp. cbn. rewrite app_length, Mx. reflexivity.
    + eexists _, _, xs. split; [reflexivity|]. split; [right; repeat split; eauto|].
      exists (pre ++ [x]), n, m. rewrite S1, S2, S3. repeat split; auto.
Qed.

Lemma append_many_firstn (a : ArrayModel.array A) ys k ok : k <= length ys ->
  ArrayModel.step a (ArrayModel.AppendMany (Some ys) k) ok = ArrayModel.step a (ArrayModel.AppendMany (Some (firstn k ys)) k) ok.
Proof.
  intros H. cbn [ArrayModel.step]. unfold ArrayModel.copy_in. rewrite firstn_length, firstn_firstn, Nat.min_id.
  replace (min k (length ys)) with k by lia. destruct (Nat.leb_spec k (length ys)); [|lia]. now rewrite Nat.leb_refl.
Qed.

Lemma elems_length (es : option (list A)) n : match es with Some xs => length xs = n | None => True end -> length (elems es n) = n.
Proof. destruct es; cbn; intros; [now rewrite map_length|apply repeat_length]. Qed.

(** Appending part of the caller's elements to a page. *)
Lemma on_page_part l pre x post es n loop want :
  Forall2 rep (pages l) (pre ++ x :: post) ->
  match es with Some xs => length xs = n | None => True end -> (es = None -> loop = 0) ->
  0 < want -> loop + want <= n ->
  exists ys l', elements_from es loop = Some ys /\
    on_page l (length pre) (ArrayModel.AppendMany ys want) true = Some (l', ArrayModel.RIndex (length x)) /\
    Forall2 rep (pages l') (pre ++ (x ++ slice (elems es n) loop want) :: post) /\ same l l'.
Proof.
  intros F He H0 Hw Hn. destruct es as [es|].
  - exists (Some (skipn loop es)). cbn [elements_from]. cbn in He.
    destruct (on_page_sim l pre x post (ArrayModel.AppendMany (Some (firstn want (skipn loop es))) want) true F) as (l' & r & x' & Es & Sp & F' & S).
    { cbn [ArraySpec.valid]. split; [exact Hw|]. rewrite firstn_length, skipn_length. lia. }
    destruct Sp as [(-> & ->)|(? & _)]; [|discriminate]. exists l'. split; [reflexivity|]. split; [|split; [|exact S]].
    + rewrite <- Es. unfold on_page. destruct (nth_error (pages l) (length pre)); [|reflexivity].
      rewrite append_many_firstn; [reflexivity|]. rewrite skipn_length. lia.
    + cbn [ArraySpec.elems] in F'. cbn [elems]. unfold slice. rewrite skipn_map, firstn_map. exact F'.
  - rewrite (H0 eq_refl) in *. exists None. cbn [elements_from Nat.eqb].
    destruct (on_page_sim l pre x post (ArrayModel.AppendMany None want) true F) as (l' & r & x' & Es & Sp & F' & S).
    { cbn [ArraySpec.valid]. auto. }
    destruct Sp as [(-> & ->)|(? & _)]; [|discriminate]. exists l'. repeat split; auto; try apply S.
    cbn [ArraySpec.elems] in F'. cbn [elems]. unfold slice. cbn [skipn].
    replace n with (want + (n - want)) by lia. rewrite repeat_app, firstn_app, repeat_length, Nat.sub_diag. cbn [firstn].
    rewrite app_nil_r, firstn_all2 by (rewrite repeat_length; lia). exact F'.
Qed.

Lemma firstn_slice {B} (l : list B) i n : firstn (i + n) l = firstn i l ++ slice l i n.
Proof.
  unfold slice. revert l. induction i as [|i IH]; intros l; cbn [firstn skipn Nat.add app]; [reflexivity|].
  destruct l; cbn [firstn skipn app]; [now rewrite firstn_nil|]. now rewrite IH.
Qed.

Lemma append_loop_sim es N e : match es with Some xs => length xs = N | None => True end -> snd e = true ->
  forall fuel l xs ls n m loop,
  Forall2 rep (pages l) ls -> map (@length cell) ls = repeat (pageSize l) n ++ [m] ->
  concat ls = xs ++ firstn loop (elems es N) -> m <= pageSize l -> last l = Some n -> count l = length xs -> 1 <= pageSize l ->
  loop <= N -> N - loop <= fuel -> (loop = N -> n <> 0 -> m <> 0) ->
  (es = None -> loop < N -> loop = 0 /\ m + N <= pageSize l) -> (m < pageSize l \/ (N - loop) mod pageSize l = 0) ->
  exists l', append_loop fuel l n loop es N e = Some (l', RIndex (length xs)) /\ inv l' (xs ++ elems es N).
Proof.
  intros He Hok. pose proof (elems_length es N He) as LE.
  induction fuel as [|fuel IH]; intros l xs ls n m loop F Em Ec Hm EL EC Hp Hl Hf Hx Hnull Hfit.
  all: cbn [append_loop]; destruct (Nat.ltb_spec loop N) as [Lt|Ge].
  1: lia.
  1, 3: replace loop with N in * by lia; eexists; (split; [rewrite EC; reflexivity|]);
    exists ls, n, m; cbn [pages pageSize last count with_count];
    (split; [exact F|split; [rewrite Ec, firstn_all2 by lia; reflexivity|]]);
    pose proof (concat_len _ _ _ _ Em) as CL; rewrite Ec, app_length, firstn_length in CL; repeat split; auto; lia.
  destruct (split_at ls _ n m n Em (le_n _)) as (pre & x & post & -> & L & Mp & Mx).
  rewrite Nat.sub_diag in Mx. cbn in Mx. injection Mx as Mx Mo. destruct post; [|discriminate]. clear Mo.
  pose proof (page_count_sim l pre x [] F) as PC. rewrite L in PC. rewrite PC, Mx.
  destruct (Nat.ltb_spec (pageSize l - m) (N - loop)) as [Big|Fits].
  - (* spills over: a new page *)
    assert (Hes : es = None -> False) by (intros Q; specialize (Hnull Q Lt); lia).
    destruct (new_page_sim l _ n m e F Em) as (l1 & En & F1 & A1 & A2 & A3 & A4). rewrite En, A4.
    destruct (Nat.eqb_spec (pageSize l - m) 0) as [Z|NZ].
    + (* the page is full *)
      assert (m = pageSize l) as -> by lia. destruct Hfit as [?|Hfit]; [lia|].
      assert (Hge : pageSize l <= N - loop).
      { destruct (Nat.le_gt_cases (pageSize l) (N - loop)); [auto|]. rewrite Nat.mod_small in Hfit; lia. }
      destruct (on_page_part l1 (pre ++ [x]) [] [] es N loop (pageSize l)) as (ys & l2 & Ee & Es & F2 & S1 & S2 & S3); auto; try lia; try tauto.
      replace (length (pre ++ [x])) with (S n) in Es by (rewrite app_length; cbn; lia).
      rewrite Ee, Hok, Es. cbn [app] in F2.
      eapply (IH l2 xs _ (S n) (pageSize l)); try exact F2; try (rewrite ?S1, ?S2, ?S3, ?A1, ?A2, ?A3); auto; try lia; try tauto.
      * rewrite map_app, Em. cbn [map]. rewrite slice_length by lia. rewrite <- full_tail, <- app_assoc. reflexivity.
      * rewrite concat_app, Ec. cbn [concat]. rewrite app_nil_r, <- app_assoc, <- firstn_slice. reflexivity.
      * right. replace (N - loop) with (N - (loop + pageSize l) + 1 * pageSize l) in Hfit by lia.
        rewrite Nat.mod_add in Hfit by lia. exact Hfit.
    + (* fill up the page *)
      rewrite <- app_assoc in F1. cbn [app] in F1.
      destruct (on_page_part l1 pre x [[]] es N loop (pageSize l - m)) as (ys & l2 & Ee & Es & F2 & S1 & S2 & S3); auto; try lia; try tauto.
      rewrite L in Es. rewrite Ee, Hok, Es.
      eapply (IH l2 xs _ (S n) 0); try exact F2; try (rewrite ?S1, ?S2, ?S3, ?A1, ?A2, ?A3); auto; try lia; try tauto.
      * rewrite map_app, Mp. cbn [map]. rewrite app_length, slice_length by lia. cbn [length]. rewrite Mx.
        replace (m + (pageSize l - m)) with (pageSize l) by lia. rewrite <- full_tail. reflexivity.
      * rewrite concat_app in Ec |- *. cbn [concat] in *. rewrite !app_nil_r in *. rewrite app_assoc, Ec, <- app_assoc, <- firstn_slice. reflexivity.
  - destruct (on_page_part l pre x [] es N loop (N - loop)) as (ys & l2 & Ee & Es & F2 & S1 & S2 & S3); auto; try lia.
    rewrite L in Es. rewrite Ee, Hok, Es.
    eapply (IH l2 xs _ n (m + (N - loop))); try exact F2; try (rewrite ?S1, ?S2, ?S3); auto; try lia.
    + rewrite map_app, Mp. cbn [map]. rewrite app_length, slice_length by lia. now rewrite Mx.
    + rewrite concat_app in Ec |- *. cbn [concat] in *. rewrite !app_nil_r in *. rewrite app_assoc, Ec, <- app_assoc, <- firstn_slice. reflexivity.
    + right. replace (N - (loop + (N - loop))) with 0 by lia. apply Nat.mod_0_l. lia.
Qed.

Lemma append_many_sim l xs es N e : inv l xs -> valid (count l) (AppendMany es N) ->
  append_many_safe (pageSize l) (count l) (AppendMany es N) -> snd e = true ->
  exists l', step l (AppendMany es N) e = Some (l', RIndex (length xs)) /\ inv l' (xs ++ elems es N).
Proof.
  intros I (HN & He) (Hnull & Hfit) Hok. pose proof (inv_count _ _ I) as CL. pose proof I as (ls & n & m & F & E & Em & Hm & Hn & EL & EC & Hp).
  cbn [step]. unfold append_many, find_last. rewrite EL.
  assert (R : m < pageSize l -> count l mod pageSize l = m).
  { intros Q. rewrite EC, Nat.add_comm, Nat.mod_add by lia. apply Nat.mod_small. lia. }
  assert (R0 : m = pageSize l -> count l mod pageSize l = 0).
  { intros Q. rewrite EC, Q. replace (n * pageSize l + pageSize l) with ((n + 1) * pageSize l) by lia. apply Nat.mod_mul. lia. }
  apply (append_loop_sim es N e He Hok N l xs ls n m 0); auto; try lia.
  - cbn [firstn]. now rewrite app_nil_r.
  - destruct (Nat.eq_dec m (pageSize l)) as [Em'|Ne]; [|left; lia]. right. rewrite Nat.sub_0_r.
    destruct Hfit as [Z|[Z|Z]]; auto; [exfalso; rewrite EC in Z; lia|now rewrite R0 in Z].
Qed.

(** ** Inserting *)
Lemma shift_up_sim e : snd e = true -> forall k l pre mid tl post,
  Forall2 rep (pages l) (pre ++ mid ++ tl :: post) -> length mid = k -> map (@length cell) mid = repeat (pageSize l) k -> 1 <= pageSize l ->
  exists l' ls', shift_up l (length pre) k e = Some l' /\ Forall2 rep (pages l') (pre ++ ls' ++ post) /\ same l l' /\
    concat ls' = concat (mid ++ [tl]) /\
    map (@length cell) ls' = match k with 0 => [length tl] | S j => (pageSize l - 1) :: repeat (pageSize l) j ++ [length tl + 1] end.
Proof.
  intros Hok. induction k as [|k IH]; intros l pre mid tl post F Lm Em Hp.
  - destruct mid; [|discriminate]. exists l, [tl]. repeat split; auto.
  - destruct mid as [|m0 mid] using rev_ind; [discriminate|]. clear IHmid. rewrite app_length in Lm. cbn in Lm.
    replace (S k) with (k + 1) in Em by lia. rewrite map_app, repeat_app in Em. cbn in Em.
    apply app_inj_tail in Em as [Em Lm0].
    destruct m0 as [|v m0] using rev_ind; [cbn in Lm0; lia|]. clear IHm0. rewrite app_length in Lm0. cbn in Lm0.
    cbn [shift_up].
    assert (Lp : length pre + k = length (pre ++ mid)) by (rewrite app_length; lia).
    assert (Lq : length pre + S k = length (pre ++ mid ++ [m0 ++ [v]])) by (rewrite !app_length; cbn; lia).
    rewrite <- app_assoc in F. cbn [app] in F.
    assert (F1 : Forall2 rep (pages l) ((pre ++ mid) ++ (m0 ++ [v]) :: tl :: post)) by (rewrite <- app_assoc; exact F).
    assert (F2 : Forall2 rep (pages l) ((pre ++ mid ++ [m0 ++ [v]]) ++ tl :: post)) by (rewrite <- !app_assoc; exact F).
    destruct (read_page_sim l (pre ++ mid) (m0 ++ [v]) (tl :: post) (pageSize l - 1) F1) as (c & Ec & Hc).
    { rewrite app_length. cbn. lia. }
    rewrite <- Lp in Ec. rewrite Ec.
    pose proof (page_count_sim l (pre ++ mid ++ [m0 ++ [v]]) tl post F2) as PC. rewrite <- Lq in PC. rewrite PC.
    assert (ST : exists l1 r, on_page l (length pre + S k) (if length tl =? 0 then ArrayModel.Append c else ArrayModel.Insert 0 c) (snd e) = Some (l1, r) /\
      Forall2 rep (pages l1) ((pre ++ mid ++ [m0 ++ [v]]) ++ (c :: tl) :: post) /\ same l l1).
    { rewrite Lq, Hok. destruct (Nat.eqb_spec (length tl) 0) as [Z|NZ].
      - destruct (on_page_sim l (pre ++ mid ++ [m0 ++ [v]]) tl post (ArrayModel.Append c) true F2) as (l1 & r & x' & Es & Sp & F' & S).
        { exact Logic.I. }
        destruct Sp as [(-> & ->)|(? & _)]; [|discriminate]. destruct tl; [|discriminate]. eauto.
      - destruct (on_page_sim l (pre ++ mid ++ [m0 ++ [v]]) tl post (ArrayModel.Insert 0 c) true F2) as (l1 & r & x' & Es & Sp & F' & S).
        { cbn [ArraySpec.valid]. lia. }
        destruct Sp as [(-> & ->)|(? & _)]; [|discriminate]. cbn in F'. eauto. }
    destruct ST as (l1 & r & Es & F3 & S1). rewrite Es.
    assert (F4 : Forall2 rep (pages l1) ((pre ++ mid) ++ (m0 ++ [v]) :: (v :: tl) :: post)).
    { rewrite <- app_assoc. replace (mid ++ (m0 ++ [v]) :: (v :: tl) :: post) with ((mid ++ [m0 ++ [v]]) ++ (v :: tl) :: post) by (rewrite <- app_assoc; reflexivity).
      rewrite app_assoc. eapply pages_weaken; [exact F3|reflexivity|]. intros [|i] w; cbn; [|auto]. intros [= ->].
      f_equal. apply Hc. rewrite nth_error_app2 by lia. replace (pageSize l - 1 - length m0) with 0 by lia. reflexivity. }
    destruct (on_page_sim l1 (pre ++ mid) (m0 ++ [v]) ((v :: tl) :: post) (ArrayModel.RemoveMany (pageSize l1 - 1) 1) (snd e) F4)
      as (l2 & r2 & x2 & Es2 & Sp & F5 & S2).
    { cbn [ArraySpec.valid]. rewrite app_length. cbn. destruct S1 as (-> & _). lia. }
    rewrite <- Lp in Es2. rewrite Es2.
    destruct Sp as [(_ & ->)|(? & ? & _)]; [|discriminate].
    assert (Ex : remove_at (m0 ++ [v]) (pageSize l1 - 1) 1 = m0).
    { destruct S1 as (-> & _). replace (pageSize l - 1) with (length m0) by lia. unfold remove_at.
      rewrite firstn_app_exact, skipn_all2 by (rewrite app_length; cbn; lia). apply app_nil_r. }
    rewrite Ex, <- app_assoc in F5.
    assert (P2 : pageSize l2 = pageSize l) by (destruct S1 as (<- & _); apply S2).
    destruct (IH l2 pre mid m0 ((v :: tl) :: post)) as (l' & ls' & E' & F' & S' & C' & M'); auto; try lia; [rewrite P2; exact Em|].
    exists l', (ls' ++ [v :: tl]). split; [exact E'|]. split; [rewrite <- app_assoc; exact F'|]. split.
    { destruct S1 as (a1 & a2 & a3), S2 as (b1 & b2 & b3), S' as (c1 & c2 & c3). repeat split; congruence. }
    split.
    { rewrite concat_app, C', !concat_app. cbn [concat]. rewrite !app_nil_r, <- !app_assoc. reflexivity. }
    rewrite map_app, M', P2. cbn [map length]. destruct k as [|j].
    + cbn [repeat app]. f_equal; [lia|]. f_equal. lia.
    + replace (length m0 + 1) with (pageSize l) by lia. cbn [app]. f_equal. rewrite <- app_assoc, full_tail. f_equal. f_equal. lia.
Qed.

Lemma insert_end (z : list cell) v : z ++ [v] = insert_at z (length z) [v].
Proof. unfold insert_at. rewrite firstn_all, skipn_all. now rewrite app_nil_r. Qed.

Lemma insert_sim l xs i v e : inv l xs -> i < count l -> snd e = true ->
  exists l', step l (Insert i v) e = Some (l', RIndex i) /\ inv l' (insert_at xs i [v]).
Proof.
  intros I Hi Hok. pose proof (inv_count _ _ I) as CL. pose proof I as (ls & n & m & F & E & Em & Hm & Hn & EL & EC & Hp).
  destruct (index_parts i (pageSize l) n m) as (P1 & P2 & P3 & P4); try lia.
  cbn [step]. unfold insert, find_last. rewrite EL. destruct (Nat.ltb_spec i (count l)); [|lia].
  rewrite (get_page_ok l xs); [|exact I|lia|rewrite EC, div_last; lia].
  set (pi := i / pageSize l) in *. set (ei := i - pi * pageSize l) in *. clearbody pi ei.
  assert (PC : page_count l n = Some m).
  { destruct (split_at ls _ n m n Em (le_n _)) as (pre & x & post & -> & L & Mp & Mx).
    rewrite Nat.sub_diag in Mx. cbn in Mx. injection Mx as Mx _. rewrite <- L, <- Mx. eapply page_count_sim. exact F. }
  rewrite PC.
  assert (T : exists l1 ls1 t mt,
    (if m =? pageSize l then match new_page l n e with Some l' => Some (l', length (pages l)) | None => None end else Some (l, n)) = Some (l1, t) /\
    Forall2 rep (pages l1) ls1 /\ map (@length cell) ls1 = repeat (pageSize l) t ++ [mt] /\ mt < pageSize l /\ concat ls1 = xs /\
    last l1 = Some t /\ count l1 = count l /\ pageSize l1 = pageSize l /\ pi <= t /\ (pi = t -> ei <= mt) /\ count l = t * pageSize l + mt).
  { destruct (Nat.eqb_spec m (pageSize l)) as [Q|Q].
    - destruct (new_page_sim l ls n m e F Em) as (l1 & En & F1 & A1 & A2 & A3 & A4). rewrite En, A4.
      exists l1, (ls ++ [[]]), (S n), 0. repeat split; auto; try lia.
      + rewrite map_app, Em, Q. cbn [map length]. rewrite <- full_tail, <- app_assoc. reflexivity.
      + rewrite concat_app. cbn. now rewrite app_nil_r.
    - exists l, ls, n, m. repeat split; auto; try lia. }
  destruct T as (l1 & ls1 & t & mt & Et & F1 & Em1 & Hmt & E1 & L1 & C1 & S1 & Hpt & Hei & EC1). rewrite Et. clear Et PC Em F E.
  destruct (Nat.ltb_spec t pi); [lia|].
  destruct (split_at ls1 _ t mt pi Em1 Hpt) as (pre & y & post & -> & Lp & Mp & My).
  destruct (map_length_app_inv (y :: post) _ _ My) as (mid & q & Eq & Mm & Mq).
  destruct q as [|tl [|]]; try discriminate. cbn in Mq. injection Mq as Mq.
  rewrite Eq in F1.
  assert (Lmid : length mid = t - pi) by (rewrite <- (map_length (@length cell)), Mm; apply repeat_length).
  destruct (shift_up_sim e Hok (t - pi) l1 pre mid tl []) as (l2 & ls2 & E2 & F2 & (S2 & L2 & C2) & K2 & M2); auto; try (rewrite S1; auto).
  rewrite Lp in E2. rewrite E2.
  assert (Z : exists z rest, ls2 = z :: rest /\ ei <= length z /\ S (length z) :: map (@length cell) rest = repeat (pageSize l) (t - pi) ++ [mt + 1]).
  { destruct ls2 as [|z rest]; [destruct (t - pi); discriminate|]. exists z, rest. split; [reflexivity|].
    destruct (t - pi) as [|j] eqn:J; cbn [map] in M2.
    - injection M2 as Mz Mr. rewrite Mr, Mz. split; [rewrite Mq; apply Hei; lia|]. cbn. f_equal. lia.
    - injection M2 as Mz Mr. rewrite Mr, Mz, S1. split; [lia|]. cbn. rewrite Mq. f_equal. lia. }
  destruct Z as (z & rest & -> & Hz & Mz). rewrite app_nil_r in F2.
  pose proof (page_count_sim l2 pre z rest F2) as PC. rewrite Lp in PC. rewrite PC.
  assert (ST : exists l3 j, on_page l2 pi (if ei =? length z then ArrayModel.Append v else ArrayModel.Insert ei v) (snd e) = Some (l3, ArrayModel.RIndex j) /\
    Forall2 rep (pages l3) (pre ++ insert_at z ei [v] :: rest) /\ same l2 l3).
  { rewrite Hok, <- Lp. destruct (Nat.eqb_spec ei (length z)) as [Q|Q].
    - destruct (on_page_sim l2 pre z rest (ArrayModel.Append v) true F2) as (l3 & r & x' & Es & Sp & F' & S3).
      { exact Logic.I. }
      destruct Sp as [(-> & ->)|(? & _)]; [|discriminate]. rewrite insert_end, <- Q in F'. eauto.
    - destruct (on_page_sim l2 pre z rest (ArrayModel.Insert ei v) true F2) as (l3 & r & x' & Es & Sp & F' & S3).
      { cbn [ArraySpec.valid]. lia. }
      destruct Sp as [(-> & ->)|(? & _)]; [|discriminate]. eauto. }
  destruct ST as (l3 & j & E3 & F3 & S3 & L3 & C3). rewrite E3. eexists. split; [reflexivity|].
  exists (pre ++ insert_at z ei [v] :: rest), t, (mt + 1). cbn [pages pageSize last count with_count].
  rewrite S3, L3, C3, S2, L2, C2, S1, L1, C1. split; [exact F3|]. split.
  { rewrite concat_app. cbn [concat]. rewrite <- E1, concat_app, Eq, <- K2. cbn [concat].
    rewrite P3, <- (concat_full pre _ _ Mp). symmetry. now apply insert_concat. }
  repeat split; auto; try lia.
  rewrite map_app, Mp. cbn [map]. rewrite insert_at_length. cbn [length]. replace (length z + 1) with (S (length z)) by lia.
  rewrite Mz. rewrite app_assoc, <- repeat_app. f_equal. f_equal. lia.
Qed.

(** ** Removing *)
Lemma shift_down_sim e : snd e = true -> forall k l pre x post,
  Forall2 rep (pages l) (pre ++ x :: post) -> length post = k -> Forall (fun y => y <> []) post ->
  exists l' ls', shift_down l (length pre) k e = Some l' /\ Forall2 rep (pages l') (pre ++ ls') /\ same l l' /\
    concat ls' = concat (x :: post) /\
    map (@length cell) ls' = match rev (map (@length cell) post) with
                             | [] => [length x]
                             | b :: r => S (length x) :: rev r ++ [b - 1]
                             end.
Proof.
  intros Hok. induction k as [|k IH]; intros l pre x post F Lk NE.
  - destruct post; [|discriminate]. exists l, [x]. repeat split; auto.
  - destruct post as [|y post]; [discriminate|]. injection Lk as Lk. inversion NE as [|? ? Hy NE']; subst.
    destruct y as [|v y]; [congruence|]. cbn [shift_down].
    assert (F1 : Forall2 rep (pages l) ((pre ++ [x]) ++ (v :: y) :: post)) by (rewrite <- app_assoc; exact F).
    assert (L1 : length (pre ++ [x]) = S (length pre)) by (rewrite app_length; cbn; lia).
    destruct (read_page_sim l (pre ++ [x]) (v :: y) post 0 F1) as (c & Ec & Hc). { cbn. lia. }
    rewrite L1 in Ec. rewrite Ec, Hok.
    destruct (on_page_sim l pre x ((v :: y) :: post) (ArrayModel.Append c) true F) as (l1 & r & x' & Es & Sp & F2 & S1).
    { exact Logic.I. }
    destruct Sp as [(-> & ->)|(? & _)]; [|discriminate]. rewrite Es.
    assert (F3 : Forall2 rep (pages l1) (pre ++ (x ++ [v]) :: (v :: y) :: post)).
    { eapply pages_weaken; [exact F2|rewrite !app_length; reflexivity|]. intros i w Hw.
      destruct (Nat.lt_ge_cases i (length x)); [now rewrite nth_error_app1 in *|]. rewrite nth_error_app2 in * by lia.
      destruct (i - length x) as [|[|]]; cbn in *; try discriminate. injection Hw as ->. now rewrite (Hc w eq_refl). }
    assert (F4 : Forall2 rep (pages l1) ((pre ++ [x ++ [v]]) ++ (v :: y) :: post)) by (rewrite <- app_assoc; exact F3).
    destruct (on_page_sim l1 (pre ++ [x ++ [v]]) (v :: y) post (ArrayModel.RemoveMany 0 1) true F4) as (l2 & r & x' & Es2 & Sp & F5 & S2).
    { cbn. lia. }
    assert (L2 : length (pre ++ [x ++ [v]]) = S (length pre)) by (rewrite app_length; cbn; lia).
    rewrite L2 in Es2. rewrite Es2. destruct Sp as [(_ & ->)|(? & _)]; [|discriminate]. cbn [remove_at] in F5.
    unfold remove_at in F5. cbn in F5.
    destruct (IH l2 (pre ++ [x ++ [v]]) y post F5 eq_refl NE') as (l' & ls' & E' & F' & S' & C' & M').
    rewrite L2 in E'. exists l', ((x ++ [v]) :: ls'). split; [exact E'|]. split; [rewrite <- app_assoc in F'; exact F'|].
    split. { destruct S1 as (a1 & a2 & a3), S2 as (b1 & b2 & b3), S' as (c1 & c2 & c3). repeat split; congruence. }
    split. { cbn [concat] in *. rewrite C', <- app_assoc. reflexivity. }
    cbn [map length rev]. rewrite M', app_length. cbn [length]. replace (length x + 1) with (S (length x)) by lia.
    destruct (rev (map (@length cell) post)) as [|b r0] eqn:R; cbn [app rev].
    + f_equal. f_equal. lia.
    + rewrite rev_app_distr. reflexivity.
Qed.

Lemma rev_repeat {B} (x : B) n : rev (repeat x n) = repeat x n.
Proof. induction n; cbn; [reflexivity|]. rewrite IHn. symmetry. apply (repeat_cons n x). Qed.

Lemma remove_sim l xs i e : inv l xs -> i < count l -> snd e = true ->
  exists l', step l (Remove i) e = Some (l', RVoid) /\ inv l' (remove_at xs i 1).
Proof.
  intros I Hi Hok. pose proof (inv_count _ _ I) as CL.
  destruct (locate l xs i I Hi) as (pre & x & post & F & -> & L & G & Ei & Hx & n & m & Em & Hm & Hn & EL & EC & Hp & Hpn & Mp).
  cbn [step]. unfold remove. destruct (Nat.ltb_spec i (count l)); [|lia]. rewrite G, Hok.
  set (ei := i - i / pageSize l * pageSize l) in *.
  destruct (on_page_sim l pre x post (ArrayModel.RemoveMany ei 1) true F) as (l1 & r & x' & Es & Sp & F1 & S1).
  { cbn. lia. }
  rewrite Es. destruct Sp as [(_ & ->)|(? & _)]; [|discriminate].
  assert (PL : length (pages l1) = S n).
  { rewrite (Forall2_len _ _ _ F1), <- (pages_len _ _ _ _ F Em), (Forall2_len _ _ _ F), !app_length. reflexivity. }
  rewrite PL. replace (S n - 1) with n by lia.
  assert (Mx : map (@length cell) (x :: post) = repeat (pageSize l) (n - length pre) ++ [m]).
  { rewrite map_app, Mp in Em. replace n with (length pre + (n - length pre)) in Em by lia. rewrite repeat_app, <- app_assoc in Em.
    now apply app_inv_head in Em. }
  assert (Lpost : length post = n - length pre).
  { apply (f_equal (@length nat)) in Mx. rewrite app_length, repeat_length, map_length in Mx. cbn in Mx. lia. }
  destruct (shift_down_sim e Hok (n - length pre) l1 pre (remove_at x ei 1) post F1 Lpost) as (l2 & ls2 & E2 & F2 & S2 & C2 & M2).
  { destruct (n - length pre) as [|k] eqn:K; [destruct post; [constructor|discriminate]|].
    cbn in Mx. injection Mx as _ Mx. apply Forall_forall. intros y Hy ->.
    assert (In 0 (map (@length cell) post)) as H0 by (apply in_map_iff; exists []; auto).
    rewrite Mx in H0. apply in_app_or in H0 as [H0|[H0|[]]]; [apply repeat_spec in H0; lia|]. apply Hn; lia. }
  rewrite E2.
  assert (Lr : length (remove_at x ei 1) = length x - 1) by (apply remove_at_length; lia).
  assert (M3 : map (@length cell) ls2 = repeat (pageSize l) (n - length pre) ++ [m - 1]).
  { rewrite M2, Lr. destruct (n - length pre) as [|k] eqn:K.
    - destruct post; [|discriminate]. cbn in *. injection Mx as ->. reflexivity.
    - cbn in Mx. injection Mx as Mx1 Mx. rewrite Mx, rev_app_distr. cbn. rewrite rev_involutive, Mx1. f_equal. lia. }
  assert (Em2 : map (@length cell) (pre ++ ls2) = repeat (pageSize l) n ++ [m - 1]).
  { rewrite map_app, Mp, M3, app_assoc, <- repeat_app. f_equal. f_equal. lia. }
  assert (SS : same l l2). { destruct S1 as (a1 & a2 & a3), S2 as (b1 & b2 & b3). repeat split; congruence. }
  destruct SS as (s1 & s2 & s3).
  assert (Cc : concat (pre ++ ls2) = remove_at (concat pre ++ x ++ concat post) i 1).
  { pose proof (remove_concat (concat pre) x (concat post) ei Hx) as U. rewrite <- Ei in U. rewrite U, concat_app, C2. reflexivity. }
  assert (PC : page_count (with_count l2 (count l2 - 1)) n = Some (m - 1)).
  { destruct (split_at (pre ++ ls2) _ n (m - 1) n Em2 (le_n _)) as (p' & y & q & Eq & Lp' & _ & My).
    rewrite Nat.sub_diag in My. cbn in My. injection My as My _. rewrite <- My, <- Lp'. unfold page_count, with_count. cbn [pages].
    rewrite Eq in F2. exact (page_count_sim l2 p' y q F2). }
  rewrite PC. cbn [count with_count]. rewrite s3.
  assert (Hm0 : m <> 0) by (destruct n; [lia|auto]).
  destruct (Nat.eqb_spec (count l - 1) 0) as [Z|NZ]; cbn [negb andb].
  - eexists. split; [reflexivity|]. exists (pre ++ ls2), n, (m - 1). cbn [pages pageSize last count with_count]. rewrite s1, s2, ?s3.
    repeat split; auto; try lia.
  - destruct (Nat.eqb_spec (m - 1) 0) as [Z1|NZ1].
    + destruct n as [|t]; [lia|]. eexists. split; [reflexivity|].
      replace (S t) with (t + 1) in Em2 by lia. rewrite repeat_app, <- app_assoc in Em2.
      apply map_length_app_inv in Em2 as (u & w & Eu & Mu & Mw).
      assert (exists w1, w = [w1; []]) as (w1 & ->).
      { destruct w as [|w1 [|w2 [|]]]; try discriminate. cbn in Mw. injection Mw as _ Mw. destruct w2; [eauto|cbn in Mw; lia]. }
      cbn in Mw. injection Mw as Mw.
      rewrite Eu in *. exists (u ++ [w1]), t, (pageSize l). cbn [pages pageSize last count with_last with_pages with_count]. rewrite s1.
      assert (Lu : length (u ++ [w1]) = S t). { rewrite app_length, <- (map_length (@length cell) u), Mu, repeat_length. cbn. lia. }
      repeat split; auto; try lia.
      * replace (u ++ [w1; []]) with ((u ++ [w1]) ++ [[]]) in F2 by (rewrite <- app_assoc; reflexivity).
        apply Forall2_app_inv_r in F2 as (qa & qb & Fa & Fb & ->). rewrite <- Lu, <- (Forall2_len _ _ _ Fa), firstn_app_exact. exact Fa.
      * rewrite <- Cc, !concat_app. cbn. now rewrite !app_nil_r.
      * rewrite map_app, Mu. cbn. now rewrite Mw.
    + eexists. split; [reflexivity|]. exists (pre ++ ls2), n, (m - 1). cbn [pages pageSize last count with_count]. rewrite s1, s2, ?s3.
      repeat split; auto; lia.
Qed.

Lemma remove_all_sim l xs e : inv l xs -> exists l', step l RemoveAll e = Some (l', RVoid) /\ inv l' [].
Proof.
  intros (ls & n & m & F & E & Em & Hm & Hn & EL & EC & Hp). cbn [step]. unfold remove_all.
  destruct ls as [|x post]; [destruct n; discriminate|]. inversion F as [|a ? qs ? Ha Hq]; subst.
  assert (F1 : Forall2 rep (pages (with_pages l (firstn 1 (a :: qs)))) ([] ++ x :: [])) by (cbn; constructor; auto).
  destruct (on_page_sim _ [] x [] ArrayModel.RemoveAll (snd e) F1 Logic.I) as (l1 & r & x' & Es & Sp & F2 & S1 & S2 & S3).
  cbn [length] in Es. rewrite Es. destruct Sp as [(_ & ->)|(_ & ? & _)]; [|discriminate].
  eexists. split; [reflexivity|]. exists [[]], 0, 0. cbn [pages pageSize last count with_last with_count]. rewrite S1. cbn [pageSize with_pages].
  repeat split; auto; lia.
Qed.

Lemma step_sim l xs o e : inv l xs -> valid (count l) o -> append_many_safe (pageSize l) (count l) o -> env_safe o e ->
  exists l' r xs', step l o e = Some (l', r) /\ spec_call e xs o r xs' /\ inv l' xs'.
Proof.
  intros I V Sf He. pose proof (inv_count _ _ I) as CL.
  destruct o as [v|es N|i v|i v|i| |i]; cbn [valid env_safe] in *.
  - now apply append_sim.
  - destruct (append_many_sim l xs es N e I V Sf He) as (l' & E & I'). do 3 eexists. split; [exact E|]. split; [|exact I']. left. split; reflexivity.
  - destruct (replace_sim l xs i v e I V) as (l' & E & I'). do 3 eexists. split; [exact E|]. split; [|exact I']. left. split; reflexivity.
  - destruct (insert_sim l xs i v e I V He) as (l' & E & I'). do 3 eexists. split; [exact E|]. split; [|exact I']. left. split; reflexivity.
  - destruct (remove_sim l xs i e I V He) as (l' & E & I'). do 3 eexists. split; [exact E|]. split; [|exact I']. left. split; reflexivity.
  - destruct (remove_all_sim l xs e I) as (l' & E & I'). do 3 eexists. split; [exact E|]. split; [|exact I']. left. split; reflexivity.
  - destruct (get_sim l xs i e I V) as (c & E & Hc). do 3 eexists. split; [exact E|]. split; [|exact I]. left. split; [reflexivity|]. eauto.
Qed.

Lemma run_sim ops : forall l xs, inv l xs -> safe_run l ops ->
  exists l' rs xs', run l ops = Some (l', rs) /\ spec_run xs ops rs xs' /\ inv l' xs'.
Proof.
  induction ops as [|[o e] t IH]; intros l xs I Sf; cbn [run].
  - do 3 eexists. split; [reflexivity|]. split; [constructor|exact I].
  - destruct Sf as ((V & Sm & He) & Sf). destruct (step_sim l xs o e I V Sm He) as (l1 & r & x1 & E & Sp & I1). rewrite E in *.
    destruct (IH l1 x1 I1 Sf) as (l2 & rs & x2 & E2 & Sp2 & I2). rewrite E2. do 3 eexists. split; [reflexivity|].
    split; [econstructor; eauto|exact I2].
Qed.

Lemma inv_holds l xs : inv l xs -> holds l xs.
Proof.
  intros I. split; [now apply inv_count|]. intros i x Hx. pose proof (nth_error_Some_lt _ _ _ Hx).
  rewrite <- (inv_count _ _ I) in H. destruct (get_sim l xs i (true, true) I H) as (c & E & Hc). now rewrite E, (Hc x Hx).
Qed.

Lemma create_sim chunk page e : 1 <= chunk -> 1 <= page -> exists l, create chunk page e = Some l /\ inv l [].
Proof.
  intros H1 H2. unfold create. destruct (Nat.leb_spec 1 chunk), (Nat.leb_spec 1 page); try lia. cbn [andb].
  eexists. split; [reflexivity|]. exists [[]], 0, 0. cbn [pages pageSize last count]. repeat split; auto; try lia.
  - constructor; [|constructor]. now apply ArrayProofs.rep_create.
  - destruct (_ =? _); lia.
Qed.

End Proofs.
