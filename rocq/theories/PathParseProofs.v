(** The parser on texts instead of offsets. *)
From Verif Require Import Base PathModel PathSpec.

Definition cnt (c : N) (l : list N) : nat := countb (N.eqb c) l.
Definition others (l : list N) : nat := countb (fun x => negb (x =? slash)%N && negb (x =? dot)%N) l.
Definition look (c : N) (pend : list N) : option kind := found c (hd 0%N pend) (cnt slash pend) (cnt dot pend) (others pend).

Definition token (k : kind) (pend : list N) : component :=
  (k, match k with
      | Volume => Some (skipn 2 pend)
      | Directory => Some (firstn (length pend - 1) pend)
      | File => Some pend
      | Extension => Some (skipn 1 pend)
      | _ => None
      end).

Fixpoint strip (d : list component) (t : list N) : list component * list N :=
  match d with
  | ((File | Extension) as k, n) :: rest => strip rest (text (k, n) ++ t)
  | _ => (d, t)
  end.

Record abs := mkAbs { d_of : list component; pend : list N; h_of : bool }.
Definition astep (a : abs) (c : N) : abs :=
  match look c (pend a) with
  | Some k =>
    let '(k, h) := if h_of a then (k, true) else match k with File => (File, true) | Extension => (File, true) | _ => (k, false) end in
    mkAbs (token k (pend a) :: d_of a) [c] h
  | None =>
    if h_of a && (c =? slash)%N then let '(d, t) := strip (d_of a) [] in mkAbs ((Directory, Some (t ++ pend a)) :: d) [] false
    else mkAbs (d_of a) (pend a ++ [c]) (h_of a)
  end.
Definition arun (a : abs) (s : list N) : abs := fold_left astep s a.
Definition afinish (a : abs) : list component :=
  rev (match look 0 (pend a) with Some k => token k (pend a) :: d_of a | None => d_of a end).
Definition aparse (s : list N) : list component := afinish (arun (mkAbs [] [] false) s).

(** ** The two agree *)

Lemma countb_cons {A} (f : A -> bool) x l : countb f (x :: l) = (if f x then 1 else 0) + countb f l.
Proof. unfold countb. cbn [filter]. now destruct (f x). Qed.

Lemma strip_app d : forall t, strip d t = (fst (strip d []), snd (strip d []) ++ t).
Proof.
  induction d as [|[k n] d IH]; intros t; cbn [strip]; [reflexivity|].
  destruct k; try reflexivity; rewrite (IH (text _ ++ t)), (IH (text _ ++ [])); cbn [fst snd]; now rewrite app_nil_r, app_assoc.
Qed.

Definition no_file_on_top (d : list component) : Prop := match d with ((File | Extension), _) :: _ => False | _ => True end.

Definition files_ok (path : list N) (a : abs) (k : nat) : Prop :=
  if h_of a then
    (exists r, pend a = dot :: r /\ cnt slash r = 0) /\
    exists j d t, strip (d_of a) [] = (d, t) /\ unfile (d_of a) (Z.of_nat k) = Some (d, (Z.of_nat j - 1)%Z) /\ slice path j (length t) = t /\ j + length t = k
  else no_file_on_top (d_of a).

Definition sim (path : list N) (i : nat) (p : parser) (a : abs) : Prop :=
  done p = d_of a /\ has_file p = h_of a /\
  exists k, start p = Z.of_nat k /\ k + length (pend a) = i /\ slice path k (length (pend a)) = pend a /\
    slashes p = cnt slash (pend a) /\ dots p = cnt dot (pend a) /\ chars p = others (pend a) /\ files_ok path a k.

Lemma cnt_app c a b : cnt c (a ++ b) = cnt c a + cnt c b.
Proof. apply countb_app. Qed.
Lemma others_app a b : others (a ++ b) = others a + others b.
Proof. apply countb_app. Qed.

Lemma slice_snoc (l : list N) k n c : nth_error l (k + n) = Some c -> slice l k (n + 1) = slice l k n ++ [c].
Proof.
  intros H. unfold slice. rewrite <- (firstn_skipn n (skipn k l)) at 1. rewrite firstn_app.
  assert (L : k + n < length l) by (apply nth_error_Some; congruence).
  rewrite firstn_length, skipn_length. replace (n + 1 - Nat.min n (length l - k)) with 1 by lia.
  rewrite firstn_firstn. replace (Nat.min (n + 1) n) with n by lia. f_equal. rewrite skipn_skipn. replace (n + k) with (k + n) by lia.
  rewrite <- (firstn_skipn (k + n) l) in H. rewrite nth_error_app2 in H by (rewrite firstn_length; lia). rewrite firstn_length in H.
  replace (k + n - Nat.min (k + n) (length l)) with 0 in H by lia. destruct (skipn (k + n) l); [discriminate|]. injection H as ->. reflexivity.
Qed.

Lemma slice_one (l : list N) k c : nth_error l k = Some c -> slice l k 1 = [c].
Proof. intros H. replace 1 with (0 + 1) by lia. rewrite (slice_snoc l k 0 c) by (now rewrite Nat.add_0_r). reflexivity. Qed.

Lemma slice_app (l : list N) k n m : slice l k (n + m) = slice l k n ++ slice l (k + n) m.
Proof.
  unfold slice. rewrite <- (firstn_skipn n (skipn k l)) at 1. rewrite firstn_app. rewrite firstn_firstn. replace (Nat.min (n + m) n) with n by lia.
  f_equal. rewrite firstn_length, skipn_length, skipn_skipn. replace (n + k) with (k + n) by lia.
  destruct (Nat.le_gt_cases n (length l - k)).
  - replace (n + m - Nat.min n (length l - k)) with m by lia. reflexivity.
  - rewrite (skipn_all2 (n := k + n)) by lia. now rewrite !firstn_nil.
Qed.

Lemma slice_sub (l : list N) k n a m : a + m <= n -> slice l (k + a) m = slice (slice l k n) a m.
Proof.
  intros H. unfold slice. rewrite skipn_firstn_comm, skipn_skipn, firstn_firstn. f_equal; [lia|]. f_equal. lia.
Qed.

Lemma slice_all (l : list N) : slice l 0 (length l) = l.
Proof. unfold slice. apply firstn_all. Qed.

Lemma first_char_ok path k n : slice path k (length n) = n -> n <> [] -> nth k path 0%N = hd 0%N n.
Proof.
  intros H Hn. destruct n as [|c n]; [contradiction|]. cbn [hd]. unfold slice in H. cbn [length] in H.
  assert (E : nth_error (skipn k path) 0 = Some c) by (destruct (skipn k path); cbn in H; [discriminate|injection H as -> _; reflexivity]).
  rewrite nth_error_skipn, Nat.add_0_r in E. now apply nth_error_nth.
Qed.

Lemma found_first_irrelevant c f f' : found c f 0 0 0 = found c f' 0 0 0.
Proof.
  unfold found. cbn [Nat.eqb negb]. rewrite !andb_false_r. cbn [andb].
  destruct (f =? slash)%N, (f =? dot)%N, (f' =? slash)%N, (f' =? dot)%N; reflexivity.
Qed.

Lemma look_ok path p a k c : start p = Z.of_nat k -> slice path k (length (pend a)) = pend a ->
  slashes p = cnt slash (pend a) -> dots p = cnt dot (pend a) -> chars p = others (pend a) ->
  found c (first_char path (start p)) (slashes p) (dots p) (chars p) = look c (pend a).
Proof.
  intros -> Hs -> -> ->. unfold look, first_char. rewrite Nat2Z.id. destruct (pend a) as [|x l] eqn:E; [apply found_first_irrelevant|].
  now rewrite (first_char_ok path k (x :: l)) by (assumption || discriminate).
Qed.

(** What is recognised says something about the text. *)
Lemma look_shape c t k : look c t = Some k ->
  match k with
  | Volume => hd 0%N t = slash /\ cnt slash t = 2 /\ cnt dot t = 0 /\ others t <> 0 /\ (c = 0 \/ c = slash)%N
  | Root => hd 0%N t = slash /\ cnt slash t = 1 /\ cnt dot t = 0 /\ others t = 0 /\ (c <> slash)%N
  | RelativeRoot => False
  | Directory => hd 0%N t <> slash /\ hd 0%N t <> dot /\ cnt slash t <> 0 /\ cnt dot t = 0 /\ others t <> 0
  | Parent => hd 0%N t = dot /\ cnt slash t <> 0 /\ cnt dot t = 2 /\ others t = 0
  | File => hd 0%N t <> slash /\ hd 0%N t <> dot /\ cnt slash t = 0 /\ cnt dot t = 0 /\ others t <> 0 /\ (c = 0 \/ c = dot)%N
  | Extension => hd 0%N t = dot /\ cnt slash t = 0 /\ cnt dot t = 1 /\ others t <> 0 /\ (c = 0 \/ c = dot)%N
  end.
Proof.
  unfold look, found. intros H.
  destruct (N.eqb_spec (hd 0%N t) slash) as [E1|E1]; [|destruct (N.eqb_spec (hd 0%N t) dot) as [E2|E2]];
    repeat match goal with H : (if ?b then _ else _) = Some _ |- _ => destruct b eqn:?; [injection H as <-|] end; try discriminate;
    repeat match goal with H : _ && _ = true |- _ => apply andb_prop in H as [? ?] end.
  all: repeat match goal with
              | H : _ || _ = true |- _ => apply orb_prop in H
              | H : negb _ = true |- _ => apply negb_true_iff in H
              | H : (_ =? _) = true |- _ => apply Nat.eqb_eq in H
              | H : (_ =? _) = false |- _ => apply Nat.eqb_neq in H
              | H : (_ =? _)%N = false |- _ => apply N.eqb_neq in H
              | H : (_ =? _)%N = true |- _ => apply N.eqb_eq in H
              | H : _ = true \/ _ |- _ => destruct H
              end; subst; try (repeat split; (assumption || discriminate || auto)).
Qed.

Lemma cnt_length t : cnt slash t + cnt dot t + others t = length t.
Proof.
  induction t as [|c t IH]; [reflexivity|]. unfold cnt, others in *. rewrite !countb_cons. cbn [length]. destruct (N.eqb_spec slash c), (N.eqb_spec dot c), (N.eqb_spec c slash), (N.eqb_spec c dot); subst; try easy; cbn [negb andb]; lia.
Qed.

Lemma create_token path k a t i : slice path a (length t) = t -> a + length t = i -> i <= length path ->
  match k with Volume => 2 <= length t | Directory | Extension => 1 <= length t | _ => True end ->
  create_component path k (Z.of_nat a) (Z.of_nat i - Z.of_nat a) = Some (token k t).
Proof.
  intros Hs Hi Hl Hk.
  assert (C : forall x n, x + n <= length t -> copy_string path (Z.of_nat a + Z.of_nat x) (Z.of_nat n) = Some (slice t x n)).
  { intros x n H. unfold copy_string.
    assert (E : ((0 <=? Z.of_nat a + Z.of_nat x) && (0 <=? Z.of_nat n) && (Z.of_nat a + Z.of_nat x + Z.of_nat n <=? Z.of_nat (length path)))%Z = true) by lia.
    rewrite E. rewrite <- Nat2Z.inj_add, !Nat2Z.id. f_equal. rewrite (slice_sub path a (length t) x n H). now rewrite Hs. }
  unfold create_component, token. destruct k; try reflexivity.
  - specialize (C 2 (length t - 2) ltac:(lia)). replace (Z.of_nat a + 2)%Z with (Z.of_nat a + Z.of_nat 2)%Z by lia.
    replace (Z.of_nat i - Z.of_nat a - 2)%Z with (Z.of_nat (length t - 2)) by lia. rewrite C. unfold slice. rewrite firstn_all2; [reflexivity|]. rewrite skipn_length. lia.
  - specialize (C 0 (length t - 1) ltac:(lia)). replace (Z.of_nat a + Z.of_nat 0)%Z with (Z.of_nat a) in C by lia.
    replace (Z.of_nat i - Z.of_nat a - 1)%Z with (Z.of_nat (length t - 1)) by lia. rewrite C. reflexivity.
  - specialize (C 0 (length t) ltac:(lia)). replace (Z.of_nat a + Z.of_nat 0)%Z with (Z.of_nat a) in C by lia.
    replace (Z.of_nat i - Z.of_nat a)%Z with (Z.of_nat (length t)) by lia. rewrite C. now rewrite slice_all.
  - specialize (C 1 (length t - 1) ltac:(lia)). replace (Z.of_nat a + 1)%Z with (Z.of_nat a + Z.of_nat 1)%Z by lia.
    replace (Z.of_nat i - Z.of_nat a - 1)%Z with (Z.of_nat (length t - 1)) by lia. rewrite C. unfold slice. rewrite firstn_all2; [reflexivity|]. rewrite skipn_length. lia.
Qed.

Lemma look_length c t k : look c t = Some k -> match k with Volume => 2 <= length t | Directory | Extension => 1 <= length t | _ => True end.
Proof. intros H. apply look_shape in H. pose proof (cnt_length t). destruct k; lia. Qed.

Lemma cnt_one x c : cnt x [c] = if (c =? x)%N then 1 else 0.
Proof. unfold cnt. rewrite countb_cons, N.eqb_sym. now destruct (c =? x)%N. Qed.

Lemma counted_ok c d s h x y z : counted c (mkParser d s x y z h) = mkParser d s (x + cnt slash [c]) (y + cnt dot [c]) (z + others [c]) h.
Proof.
  unfold counted, others. rewrite countb_cons. cbn [slashes dots chars done start has_file]. rewrite !cnt_one.
  destruct (N.eqb_spec c slash) as [->|]; [change (slash =? dot)%N with false|destruct (N.eqb_spec c dot) as [->|]]; cbn; now rewrite ?Nat.add_0_r.
Qed.

(** While there is a file, only extensions are found. *)
Lemma look_in_file c r k : cnt slash r = 0 -> look c (dot :: r) = Some k -> k = Extension /\ c <> slash.
Proof.
  intros Hr H. apply look_shape in H. change (dot :: r) with ([dot] ++ r) in H. rewrite cnt_app, cnt_one, Hr in H. cbn in H.
  destruct k; try (exfalso; lia); try (exfalso; tauto). split; [reflexivity|].
  destruct H as (_ & _ & _ & _ & [-> | ->]); discriminate.
Qed.

Lemma parse_char_ok path i c p a : nth_error path i = Some c -> c <> 0%N -> sim path i p a ->
  exists p', parse_char path (Z.of_nat i) c p = Some p' /\ sim path (i + 1) p' (astep a c).
Proof.
  intros Hc Hz (Hd & Hh & k & Hs & Hk & Hsl & C1 & C2 & C3 & F). assert (Li : i < length path) by (apply nth_error_Some; congruence).
  unfold parse_char, astep. rewrite (look_ok path p a k c Hs Hsl C1 C2 C3). rewrite Hh. destruct (look c (pend a)) as [ki|] eqn:L.
  - set (kh := if h_of a then _ else _). assert (Ekh : exists k' h', kh = (k', h')) by (destruct kh; eauto). destruct Ekh as (k' & h' & Ek). rewrite Ek.
    assert (Hl : match k' with Volume => 2 <= length (pend a) | Directory | Extension => 1 <= length (pend a) | _ => True end).
    { pose proof (look_length _ _ _ L). subst kh. destruct (h_of a); [injection Ek as <- _; assumption|]. destruct ki; injection Ek as <- _; (assumption || exact Logic.I). }
    rewrite Hs, (create_token path k' k (pend a) i Hsl Hk ltac:(lia) Hl). eexists. split; [reflexivity|]. rewrite counted_ok.
    unfold sim. cbn [done has_file start slashes dots chars d_of pend h_of]. rewrite Hd. split; [reflexivity|]. split; [reflexivity|]. exists i.
    split; [reflexivity|]. split; [reflexivity|]. split; [now apply slice_one|]. do 3 (split; [reflexivity|]).
    unfold files_ok in *. cbn [h_of pend d_of]. subst kh. destruct (h_of a) eqn:Eh.
    + injection Ek as <- <-. destruct F as [(r & Er & Cr) (j & d & t & Est & Eu & Ej & Ejk)]. rewrite Er in L.
      destruct (look_in_file c r ki Cr L) as [-> Hns]. pose proof (look_shape _ _ _ L) as (_ & _ & _ & _ & Hcd). assert (c = dot) as -> by (destruct Hcd; [contradiction|assumption]).
      split; [exists []; split; reflexivity|]. exists j, d, (t ++ pend a). rewrite Er in *. unfold token. cbn [skipn strip unfile text].
      rewrite strip_app, Est. cbn [fst snd]. change ([46%N] ++ r) with (dot :: r). rewrite app_nil_r. split; [reflexivity|].
      cbn [length] in *. replace (Z.of_nat i - (Z.of_nat (length r) + 1))%Z with (Z.of_nat k) by lia. split; [exact Eu|].
      rewrite app_length. cbn [length]. split; [|lia]. rewrite slice_app. f_equal; [exact Ej|]. replace (j + length t) with k by lia. exact Hsl.
    + destruct ki; injection Ek as <- <-; try exact Logic.I.
      * apply look_shape in L. destruct L as (_ & _ & L1 & _ & _ & Hcd). assert (c = dot) as -> by (destruct Hcd; [contradiction|assumption]).
        split; [exists []; split; reflexivity|]. exists k, (d_of a), (pend a). unfold token. cbn [strip unfile text]. rewrite app_nil_r.
        assert (Es : strip (d_of a) (pend a) = (d_of a, pend a)) by (destruct (d_of a) as [|[[] ?] ?]; cbn in *; (reflexivity || contradiction)).
        assert (Eu : forall s, unfile (d_of a) s = Some (d_of a, s)) by (intros s; destruct (d_of a) as [|[[] ?] ?]; cbn in *; (reflexivity || contradiction)).
        split; [exact Es|]. rewrite Eu. split; [f_equal; f_equal; lia|]. now split.
      * apply look_shape in L. destruct L as (_ & L1 & _ & _ & Hcd). assert (c = dot) as -> by (destruct Hcd; [contradiction|assumption]).
        split; [exists []; split; reflexivity|]. exists k, (d_of a), (pend a). unfold token. cbn [strip unfile text]. rewrite app_nil_r.
        assert (Es : strip (d_of a) (pend a) = (d_of a, pend a)) by (destruct (d_of a) as [|[[] ?] ?]; cbn in *; (reflexivity || contradiction)).
        assert (Eu : forall s, unfile (d_of a) s = Some (d_of a, s)) by (intros s; destruct (d_of a) as [|[[] ?] ?]; cbn in *; (reflexivity || contradiction)).
        split; [exact Es|]. rewrite Eu. split; [f_equal; f_equal; lia|]. now split.
  - destruct (h_of a && (c =? slash)%N) eqn:B.
    + apply andb_prop in B as [Bh Bc]. apply N.eqb_eq in Bc. subst c. unfold files_ok in F. rewrite Bh in F. destruct F as [(r & Er & Cr) (j & d & t & Est & Eu & Ej & Ejk)].
      rewrite Hd, Hs, Eu, Est. replace (Z.of_nat j - 1 + 1)%Z with (Z.of_nat j) by lia.
      assert (Ecc : create_component path Directory (Z.of_nat j) (Z.of_nat i - (Z.of_nat j - 1)) = Some (Directory, Some (t ++ pend a))).
      { replace (Z.of_nat i - (Z.of_nat j - 1))%Z with (Z.of_nat (i + 1) - Z.of_nat j)%Z by lia.
        rewrite (create_token path Directory j (t ++ pend a ++ [slash]) (i + 1)); [unfold token; repeat f_equal| | | |].
        - rewrite app_assoc, app_length. cbn [length]. rewrite Nat.add_sub. now rewrite firstn_app_exact.
        - rewrite !app_length. cbn [length]. rewrite slice_app. f_equal; [exact Ej|]. rewrite Ejk. rewrite <- Hsl at 2. apply slice_snoc. now rewrite Hk.
        - rewrite !app_length. cbn [length]. lia.
        - lia.
        - rewrite !app_length. cbn [length]. lia. }
      rewrite Ecc. eexists. split; [reflexivity|]. unfold sim. cbn [done has_file start slashes dots chars d_of pend h_of]. split; [reflexivity|]. split; [reflexivity|].
      exists (i + 1). split; [lia|]. split; [cbn [length]; lia|]. split; [reflexivity|]. do 3 (split; [reflexivity|]). exact Logic.I.
    + destruct p as [dp sp xp yp zp hp]. cbn [done has_file start slashes dots chars] in *. subst. eexists. split; [reflexivity|]. rewrite counted_ok. unfold sim. cbn [done has_file start slashes dots chars d_of pend h_of].
      split; [reflexivity|]. split; [reflexivity|]. exists k. split; [reflexivity|]. rewrite app_length. cbn [length]. split; [lia|].
      split; [rewrite (slice_snoc path k (length (pend a)) c) by assumption; now rewrite Hsl|]. rewrite !cnt_app, others_app. do 3 (split; [reflexivity|]).
      unfold files_ok in *. cbn [h_of pend d_of]. destruct (h_of a); [|exact F]. destruct F as [(r & Er & Cr) F]. split; [|exact F].
      exists (r ++ [c]). rewrite Er. split; [reflexivity|]. rewrite cnt_app, Cr, cnt_one. cbn [andb] in B. now rewrite B.
Qed.

Lemma parse_loop_ok path : c_string path -> forall rest i p a, skipn i path = rest -> i <= length path -> sim path i p a ->
  exists p', parse_loop path (Z.of_nat i) rest p = Some p' /\ sim path (length path) p' (arun a rest).
Proof.
  intros Hz. induction rest as [|c rest IH]; intros i p a Hr Hi Hsim.
  - assert (i = length path) as -> by (pose proof (skipn_length i path); rewrite Hr in *; cbn in *; lia). exists p. now split.
  - assert (Hc : nth_error path i = Some c) by (rewrite <- (Nat.add_0_r i), <- nth_error_skipn, Hr; reflexivity).
    assert (c <> 0%N) by (apply nth_error_In in Hc; unfold c_string in Hz; rewrite Forall_forall in Hz; auto).
    destruct (parse_char_ok path i c p a Hc H Hsim) as (p' & E & S'). cbn [parse_loop]. rewrite E. unfold arun. cbn [fold_left].
    replace (Z.of_nat i + 1)%Z with (Z.of_nat (i + 1)) by lia. apply IH; [|assert (i < length path) by (apply nth_error_Some; congruence); lia|exact S'].
    replace (i + 1) with (1 + i) by lia. rewrite <- (skipn_skipn 1 i path), Hr. reflexivity.
Qed.

Lemma completed_ok l : completed l = match l with
        | (k, _) :: _ => if true && negb (kind_eqb k Volume) && negb (kind_eqb k Root) then (RelativeRoot, None) :: l else l
        | [] => l
        end.
Proof. destruct l as [|[[] n] l]; reflexivity. Qed.

Theorem convert_ok path b : c_string path -> convert path b = Some (if b then completed (aparse path) else aparse path).
Proof.
  intros Hz. unfold convert. destruct (parse_loop_ok path Hz path 0 (mkParser [] 0 0 0 0 false) (mkAbs [] [] false) eq_refl ltac:(lia)) as (p & E & Hd & Hh & k & Hs & Hk & Hsl & C1 & C2 & C3 & F).
  { unfold sim. cbn [done has_file start slashes dots chars d_of pend h_of]. split; [reflexivity|]. split; [reflexivity|]. exists 0. now repeat split. }
  change (Z.of_nat 0) with 0%Z in E. rewrite E. set (a := arun _ path) in *. rewrite (look_ok path p a k 0%N Hs Hsl C1 C2 C3).
  unfold aparse. fold a. unfold afinish. destruct (look 0 (pend a)) as [ki|] eqn:L.
  - rewrite Hs, (create_token path ki k (pend a) (length path) Hsl Hk ltac:(lia) (look_length _ _ _ L)), Hd. f_equal.
    destruct b; [now rewrite completed_ok|]. now destruct (rev _) as [|[? ?] ?].
  - rewrite Hd. f_equal. destruct b; [now rewrite completed_ok|]. now destruct (rev _) as [|[? ?] ?].
Qed.
