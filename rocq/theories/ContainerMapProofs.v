(** Proofs about copying hash maps through reflection. *)
From Verif Require Import Base EnumerableModel EnumerableSpec MemoryProofs ContainerModel ContainerProofs HashMapModel HashMapSpec HashMapProofs HashMapStepProofs.

Section Proofs.
Context {K V : Type} (eqk : K -> K -> bool).
Hypothesis eqk_refl : forall a, eqk a a = true.
Hypothesis eqk_sym : forall a b, eqk a b = eqk b a.
Hypothesis eqk_trans : forall a b c, eqk a b = true -> eqk b c = true -> eqk a c = true.

(** One call by key. *)
Lemma kv_spec (st st' : state K V) l o r : spec_call eqk st (kv_call o) r st' -> listed st l -> unique eqk st -> unique eqk st' ->
  r = snd (kv_step eqk l o) /\ listed st' (fst (kv_step eqk l o)).
Proof.
  intros SP L U U'. destruct o as [k v|k|k| |bc]; cbn [kv_call spec_call kv_step fst snd] in *.
  - destruct SP as (-> & e & _ & [(k0 & c & P & S)|(A & En & S)]); (split; [reflexivity|]); eapply listed_same; try exact S.
    + destruct (listed_present eqk eqk_refl eqk_sym eqk_trans st l k e k0 c L U P) as (v0 & _ & -> & _). now apply (listed_set eqk eqk_sym eqk_trans st l k e k0 c v).
    + destruct (listed_absent eqk st l k L A) as (-> & _). destruct L as (es & D & F). exists (e :: es). split; [apply domain_put; [exact D|exact En|discriminate]|].
      constructor; [cbn [fst snd]; unfold put; now rewrite N.eqb_refl|]. eapply forall2_impl; [|exact F]. intros e' x X Y. unfold put.
      destruct (N.eqb_spec e' e) as [->|]; [congruence|exact Y].
  - destruct SP as (S & [(A & ->)|(e & k0 & c & x & P & -> & Rd)]); (split; [|eapply listed_same; eauto]).
    + destruct (listed_absent eqk st l k L A) as (_ & -> & _). reflexivity.
    + destruct (listed_present eqk eqk_refl eqk_sym eqk_trans st l k e k0 c L U P) as (v0 & -> & _ & ->). cbn [option_map snd]. rewrite Rd by discriminate. reflexivity.
  - destruct SP as (-> & [(A & S)|(e & k0 & c & P & S)]); (split; [reflexivity|]); eapply listed_same; try exact S.
    + destruct (listed_absent eqk st l k L A) as (_ & _ & ->). exact L.
    + now apply (listed_remove eqk eqk_sym eqk_trans st l k e k0 c).
  - destruct SP as (S & es & D & ->). split; [|eapply listed_same; eauto]. destruct L as (es' & D' & F). rewrite (domain_length st es es' D D'). f_equal. eapply forall2_length; eauto.
  - destruct SP as (-> & S & _). split; [reflexivity|]. now apply (listed_rehash eqk eqk_refl st).
Qed.

(** A history by keys, keeping the invariant. *)
Lemma kv_rel hash N0 : (forall a b, eqk a b = true -> hash a = hash b) -> forall (os : list (kvop K V)) n m st l,
  rel hash eqk N0 n m st -> n + length os <= N0 -> listed st l -> Forall (kv_ok N0) os ->
  exists m' st', run hash eqk m (map kv_call os) = Some (m', kv_run eqk l os) /\ rel hash eqk N0 (n + length os) m' st' /\ listed st' (kv_state eqk l os).
Proof.
  intros H4. induction os as [|o t IH]; intros n m st l R Hn Ls OK; cbn [map run kv_run kv_state length] in *.
  - exists m, st. rewrite Nat.add_0_r. auto.
  - inversion OK as [|? ? O1 O2]; subst.
    assert (CO : client_ok N0 st (kv_call o)).
    { destruct o as [k v|k|k| |bc]; try exact I. destruct O1 as (X1 & X2). cbn [kv_call client_ok]. split; [exact X1|]. split; [exact X2|]. intros e k c. now apply (listed_init st l). }
    destruct (good_holds hash eqk N0 n m st R ltac:(lia)) as (U & _).
    destruct (step_ok hash eqk eqk_refl eqk_sym eqk_trans H4 N0 n m st (kv_call o) R ltac:(lia) CO) as (m1 & r & st1 & E & SP & R1).
    destruct (good_holds hash eqk N0 (S n) m1 st1 R1 ltac:(lia)) as (U1 & _).
    destruct (kv_spec st st1 l o r SP Ls U U1) as (-> & L1). rewrite E. destruct (IH (S n) m1 st1 _ R1 ltac:(lia) L1 O2) as (m2 & st2 & E2 & R2 & L2). rewrite E2.
    destruct (kv_step eqk l o) as [l1 r]. cbn [fst snd] in *. exists m2, st2. split; [reflexivity|]. rewrite Nat.add_succ_r. auto.
Qed.

Definition sets (kvs : list (K * V)) : list (kvop K V) := map (fun x => Set_ (fst x) (snd x)) kvs.

(** Setting different keys lists them all. *)
Lemma kv_state_sets (kvs : list (K * V)) : forall l, (forall i j x y, nth_error (rev l ++ kvs) i = Some x -> nth_error (rev l ++ kvs) j = Some y -> eqk (fst x) (fst y) = true -> i = j) ->
  kv_state eqk l (sets kvs) = rev kvs ++ l.
Proof.
  clear eqk_refl eqk_sym eqk_trans.
  induction kvs as [|[k v] t IH]; intros l D; cbn [sets map kv_state kv_step fst snd rev]; [reflexivity|].
  assert (X : existsb (fun x => eqk k (fst x)) l = false).
  { destruct (existsb _ l) eqn:E; [|reflexivity]. apply existsb_exists in E as (y & Iy & Ey). apply in_rev, In_nth_error in Iy as (i & Ei). pose proof (nth_error_Some_lt _ _ _ Ei).
    assert (X1 : nth_error (rev l ++ (k, v) :: t) (length (rev l)) = Some (k, v)) by (rewrite nth_error_app2, Nat.sub_diag by lia; reflexivity).
    assert (X2 : nth_error (rev l ++ (k, v) :: t) i = Some y) by (rewrite nth_error_app1 by lia; exact Ei). pose proof (D _ _ _ _ X1 X2 Ey). lia. }
  rewrite X. fold (sets t). rewrite IH; [now rewrite <- app_assoc|]. cbn [rev]. intros i j x y. rewrite <- app_assoc. cbn [app]. apply D.
Qed.

Lemma kv_state_length (os : list (kvop K V)) : forall l, length (kv_state eqk l os) <= length l + length os.
Proof.
  clear eqk_refl eqk_sym eqk_trans.
  induction os as [|o t IH]; intros l; cbn [kv_state length]; [lia|]. specialize (IH (fst (kv_step eqk l o))). assert (length (fst (kv_step eqk l o)) <= S (length l)); [|lia].
  destruct o as [k v|k|k| |bc]; cbn [kv_step fst]; try lia.
  - destruct (existsb _ l); [rewrite map_length|cbn [length]]; lia.
  - clear IH. induction l as [|x l IHl]; cbn [filter length]; [lia|]. destruct (negb _); cbn [length]; lia.
Qed.

Definition put_map (hash' : K -> N) (n : hashmap K V) (x : K * V) : option (hashmap K V) := set_value hash' eqk n (fst x) (snd x).

Lemma puts_run hash' (kvs : list (K * V)) : forall n m rs, run hash' eqk n (map kv_call (sets kvs)) = Some (m, rs) -> puts (put_map hash') n kvs = Some m.
Proof.
  induction kvs as [|[k v] t IH]; intros n m rs E; cbn [sets map run puts kv_call fst snd] in *; [now injection E as ->|].
  unfold put_map at 1. cbn [fst snd]. cbn [step] in E. destruct (set_value hash' eqk n k v) as [n1|]; [|discriminate]. fold (sets t) in E.
  destruct (run hash' eqk n1 (map kv_call (sets t))) as [[n2 rs2]|] eqn:E2; [|discriminate]. injection E as <- _. eauto.
Qed.

(** What the loop reads. *)
Lemma read_entry hash N0 n m (st : state K V) e k v : (forall a b, eqk a b = true -> hash a = hash b) -> rel hash eqk N0 n m st -> S n <= N0 -> st e = Some (k, Some v) ->
  (exists m', step hash eqk m (GetKey e) = Some (m', RKey (Some k))) /\ (exists m', step hash eqk m (GetEntry e) = Some (m', RValue (Some (Some v)))).
Proof.
  intros H4 R Hn E. split.
  - destruct (step_ok hash eqk eqk_refl eqk_sym eqk_trans H4 N0 n m st (GetKey e) R Hn) as (m' & r & st' & E1 & (_ & ->) & _); [right; congruence|]. rewrite E in E1. eauto.
  - destruct (step_ok hash eqk eqk_refl eqk_sym eqk_trans H4 N0 n m st (GetEntry e) R Hn) as (m' & r & st' & E1 & SP & _); [right; congruence|].
    cbn [spec_call] in SP. rewrite E in SP. destruct SP as (_ & x & -> & Rd). rewrite Rd in E1 by discriminate. eauto.
Qed.

Lemma fill_map_is {C} hash junk (put : C -> K -> V -> option C) N0 n m (st : state K V) es kvs : (forall a b, eqk a b = true -> hash a = hash b) -> rel hash eqk N0 n m st -> S n <= N0 ->
  Forall2 (fun e x => st e = Some (fst x, Some (snd x))) es kvs ->
  forall fuel s i c, length es - i <= fuel -> i < length es -> EnumerableSpec.history_ok (enum_step m) es s (Some i) (repeat Next fuel) ->
  fill_map hash eqk junk put fuel m s (nth_error es i) s (nth_error es i) c = puts (fun c x => put c (fst x) (snd x)) c (skipn i kvs).
Proof.
  intros H4 R Hn F. induction fuel as [|fuel IH]; intros s i c Hf Hi H; [lia|].
  destruct (nth_error_lt_Some es i Hi) as [e He]. rewrite He. cbn [fill_map]. cbn [repeat EnumerableSpec.history_ok] in H.
  destruct (H I) as (s' & E & H'). rewrite E. cbn [move EnumerableSpec.value] in *.
  assert (exists x, nth_error kvs i = Some x /\ st e = Some (fst x, Some (snd x))) as ([k v] & Hx & Ee).
  { clear - F He. revert i He. induction F as [|a b u w P F IH]; intros [|i] He; cbn in *; try discriminate; [injection He as <-; eauto|auto]. }
  assert (Sk : skipn i kvs = (k, v) :: skipn (S i) kvs).
  { clear - Hx. revert i Hx. induction kvs as [|y l IH]; intros [|i] Hx; cbn in *; try discriminate; [now injection Hx as ->|auto]. }
  pose proof (forall2_length _ _ _ F) as Le.
  destruct (read_entry hash N0 n m st e k v H4 R Hn Ee) as ((ma & ->) & (mb & ->)). rewrite Sk. cbn [puts]. cbn [fst snd].
  destruct (put c k v) as [c'|]; [|reflexivity]. destruct (Nat.ltb_spec (S i) (length es)).
  - cbn [EnumerableSpec.value]. rewrite IH; auto. lia.
  - destruct fuel; cbn [EnumerableSpec.value fill_map]; rewrite skipn_all2 by lia; reflexivity.
Qed.

(** What the whole walk puts: the entries, each once. *)
Lemma fill_from_is hash N0 n m (st : state K V) l : (forall a b, eqk a b = true -> hash a = hash b) -> rel hash eqk N0 n m st -> S n <= N0 -> listed st l ->
  exists kvs, length kvs = length l /\ listed st kvs /\
    (forall i j x y, nth_error kvs i = Some x -> nth_error kvs j = Some y -> eqk (fst x) (fst y) = true -> i = j) /\
    forall C (put : C -> K -> V -> option C) junk fuel c, length kvs <= fuel ->
      fill_from hash eqk junk put fuel m c = puts (fun c x => put c (fst x) (snd x)) c kvs.
Proof.
  intros H4 Rm Hn Lm. destruct (good_holds hash eqk N0 n m st Rm ltac:(lia)) as (U & Z & es & e0 & ks & xs & D & Hd & En & _).
  assert (exists kvs, Forall2 (fun e x => st e = Some (fst x, Some (snd x))) es kvs) as (kvs & Fk).
  { destruct D as (_ & D). assert (forall e, In e es -> exists x, st e = Some (fst x, Some (snd x))) as X.
    { intros e Ie. apply D in Ie. destruct (st e) as [[k c]|] eqn:Ee; [|congruence]. pose proof (listed_init st l e k c Lm Ee). destruct c as [v|]; [|congruence]. exists (k, v). reflexivity. }
    clear - X. induction es as [|e t IH]; [exists []; constructor|]. destruct (X e (or_introl eq_refl)) as (x & Hx). destruct IH as (u & Hu); [intros; apply X; now right|]. exists (x :: u). now constructor. }
  assert (Len : length es = length kvs) by (eapply forall2_length; eauto).
  exists kvs. split; [|split; [|split]].
  - destruct Lm as (es' & D' & F2). rewrite <- Len, (domain_length st es es' D D'). now rewrite (forall2_length _ _ _ F2).
  - exists es; auto.
  - intros i j x y Ei Ej Ek. destruct D as (ND & _).
    assert (G : forall i x, nth_error kvs i = Some x -> exists e, nth_error es i = Some e /\ st e = Some (fst x, Some (snd x))).
    { clear - Fk. induction Fk as [|a b u w P Fk IH]; intros [|i] x He; cbn in *; try discriminate; [injection He as <-; eauto|auto]. }
    destruct (G i x Ei) as (e1 & A1 & B1), (G j y Ej) as (e2 & A2 & B2). pose proof (U e1 e2 _ _ _ _ B1 B2 Ek). subst e2.
    apply (proj1 (NoDup_nth_error es) ND); [apply nth_error_Some; congruence|congruence].
  - intros C put junk fuel c Hf. unfold fill_from. rewrite Hd. specialize (En (Current :: repeat Next fuel)). cbn [EnumerableSpec.history_ok] in En. destruct En as (s' & E1 & H').
    { unfold first. destruct es; cbn; auto. }
    rewrite E1. cbn [move] in *. unfold first in *. destruct (Nat.eqb_spec (length es) 0) as [Z0|Z0].
    + destruct es; [|discriminate]. destruct kvs; [|discriminate]. cbn [EnumerableSpec.value]. destruct fuel; reflexivity.
    + cbn [EnumerableSpec.value]. rewrite (fill_map_is hash junk put N0 n m st es kvs H4 Rm ltac:(lia) Fk fuel s' 0 c) by (auto; lia). reflexivity.
Qed.

End Proofs.

Lemma copy_unseen : forall (K V : Type) (hash hash' : K -> N) (eqk : K -> K -> bool) (junk : V) bc bc' (os os' : list (kvop K V)),
  lawful hash eqk -> lawful hash' eqk -> 1 <= bc -> 1 <= bc' -> let n := S (length os + length os') in fits n bc -> fits n bc' -> Forall (kv_ok n) (os ++ os') ->
  forall fuel, length os <= fuel ->
  exists m0 m rs0 m', create bc = Some m0 /\ run hash eqk m0 (map kv_call os) = Some (m, rs0) /\
    build_map hash hash' eqk junk fuel bc' m = Some m' /\
    exists m1 m2 rs, run hash eqk m (map kv_call os') = Some (m1, rs) /\ run hash' eqk m' (map kv_call os') = Some (m2, rs).
Proof.
  intros K V hash hash' eqk junk bc bc' os os' (H1 & H2 & H3 & H4) (_ & _ & _ & H4') Hb Hb' N0 F F' OK fuel Hf. assert (EN : N0 = S (length os + length os')) by reflexivity. clearbody N0. apply Forall_app in OK as (O1 & O2).
  destruct (create (K := K) (V := V) bc) as [m0|] eqn:E; [|unfold create in E; destruct (Nat.leb_spec 1 bc); [discriminate|lia]].
  destruct (create (K := K) (V := V) bc') as [n0|] eqn:E'; [|unfold create in E'; destruct (Nat.leb_spec 1 bc'); [discriminate|lia]].
  destruct (kv_rel eqk H1 H2 H3 hash N0 H4 os 0 m0 (@empty K V) [] (rel_create hash eqk N0 bc m0 E F) ltac:(lia) listed_empty O1) as (m & st & R & Rm & Lm). cbn [Nat.add] in Rm.
  set (l := kv_state eqk [] os) in *. assert (Ll : length l <= length os) by (exact (kv_state_length eqk os [])).
  destruct (good_holds hash eqk N0 (length os) m st Rm ltac:(lia)) as (U & _).
  destruct (fill_from_is eqk H1 H2 H3 hash N0 (length os) m st l H4 Rm ltac:(lia) Lm) as (kvs & Len & Lk & Dd & Fill).
  assert (Dk : kv_state eqk [] (sets kvs) = rev kvs) by (rewrite kv_state_sets, app_nil_r; [reflexivity|exact Dd]).
  assert (OKs : Forall (kv_ok N0) (sets kvs)) by (apply Forall_forall; intros o Io; apply in_map_iff in Io as (x & <- & _); exact I).
  destruct (kv_rel eqk H1 H2 H3 hash' N0 H4' (sets kvs) 0 n0 (@empty K V) [] (rel_create hash' eqk N0 bc' n0 E' F')) as (m' & st' & R' & Rm' & Lm').
  { unfold sets. rewrite map_length. lia. } { apply listed_empty. } { exact OKs. }
  cbn [Nat.add] in Rm'. unfold sets at 1 in Rm'. rewrite map_length in Rm'. rewrite Dk in Lm'.
  destruct (good_holds hash' eqk N0 (length kvs) m' st' Rm' ltac:(lia)) as (U' & _).
  assert (Ll' : listed st' l).
  { apply (listed_rehash eqk H1 st); auto. intros k c. rewrite (proj2 (listed_keys eqk H1 st kvs Lk U) k c), (proj2 (listed_keys eqk H1 st' (rev kvs) Lm' U') k c).
    split; intros (v & -> & Iv); exists v; (split; [reflexivity|]); apply in_rev; [now rewrite rev_involutive|exact Iv]. }
  destruct (kv_rel eqk H1 H2 H3 hash N0 H4 os' (length os) m st l Rm ltac:(lia) Lm O2) as (m1 & st1 & R1 & _).
  destruct (kv_rel eqk H1 H2 H3 hash' N0 H4' os' (length kvs) m' st' l Rm' ltac:(lia) Ll' O2) as (m2 & st2 & R2 & _).
  exists m0, m, (kv_run eqk [] os), m'. split; [reflexivity|]. split; [exact R|]. split; [|exists m1, m2, (kv_run eqk l os'); auto].
  unfold build_map. rewrite E', Fill by lia. eapply puts_run; eauto.
Qed.
