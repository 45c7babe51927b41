(** Proofs for dictionaries. *)
From Coq Require Import Permutation.
From Verif Require Import Base HashMapModel HashMapSpec HashMapEntryProofs HashMapProofs HashMapStepProofs DictionaryModel DictionarySpec.

Local Opaque HashMapModel.step.

Section Proofs.
Context {K V : Type} (hash : K -> N) (eqk : K -> K -> bool) (full : nat -> nat -> bool).
Hypothesis eqk_refl : forall a, eqk a a = true.
Hypothesis eqk_sym : forall a b, eqk a b = eqk b a.
Hypothesis eqk_trans : forall a b c, eqk a b = true -> eqk b c = true -> eqk a c = true.
Hypothesis eqk_hash : forall a b, eqk a b = true -> hash a = hash b.

Variable N0 : nat.
Hypothesis small : (N.of_nat N0 <= 2 ^ 35)%N.

Local Notation rel := (@HashMapProofs.rel K V hash eqk N0).
Local Notation st_ok := (step_ok hash eqk eqk_refl eqk_sym eqk_trans eqk_hash N0).

Lemma fits_sizes s : In s bucket_sizes -> fits N0 (N.to_nat s).
Proof.
  intros H. exists 29%N. rewrite N2Nat.id. split.
  - assert (F : forallb (fun s => (s + 1 <? 2 ^ 29)%N) bucket_sizes = true) by (vm_compute; reflexivity). rewrite forallb_forall in F. apply N.ltb_lt, F, H.
  - split; [reflexivity|]. change (2 ^ 64)%N with (2 ^ 35 * 2 ^ 29)%N. now apply N.mul_le_mono_r.
Qed.

Lemma sizes_pos s : In s bucket_sizes -> 1 <= N.to_nat s.
Proof.
  intros H. assert (F : forallb (fun s => (1 <=? s)%N) bucket_sizes = true) by (vm_compute; reflexivity). rewrite forallb_forall in F. specialize (F s H). apply N.leb_le in F. lia.
Qed.

Lemma next_size_ok bc : 1 <= bc -> fits N0 bc -> 1 <= next_size bc /\ fits N0 (next_size bc).
Proof.
  intros H F. unfold next_size. destruct (find _ bucket_sizes) as [s|] eqn:E; [|auto]. apply find_some in E as (E & _). split; [now apply sizes_pos|now apply fits_sizes].
Qed.

Lemma rel_unique n m st : rel n m st -> n <= N0 -> unique eqk st /\ st 0%N = None.
Proof. intros R H. destruct (good_holds hash eqk N0 n m st R H) as (U & Z & _). auto. Qed.

(** ** Growing *)
Lemma grow_ok n m st l : rel n m st -> S n <= N0 -> listed st l ->
  exists m' st', grow hash eqk full m = Some m' /\ rel (S n) m' st' /\ listed st' l /\ (full (count m) (bucketCount m) = false -> st' = st).
Proof.
  intros R Hn L. unfold grow. destruct (full (count m) (bucketCount m)).
  - pose proof R as (I & _ & F & _). destruct (next_size_ok (bucketCount m) (inv_bc hash eqk m I) F) as (P & F').
    destruct (st_ok n m st (Rehash (next_size (bucketCount m))) R Hn) as (m' & r & st' & E & SP & R').
    { cbn [client_ok]. split; [exact P|]. split; [exact F'|]. intros e k c. now apply (listed_init st l). }
    rewrite E. exists m', st'. split; [reflexivity|]. split; [exact R'|]. split; [|discriminate]. destruct SP as (_ & Sh & _).
    apply (listed_rehash eqk eqk_refl st); auto; [apply (rel_unique n m); [auto|lia]|apply (rel_unique (S n) m'); auto].
  - exists m, st. split; [reflexivity|]. split; [eapply rel_le; [|exact R]; lia|]. auto.
Qed.

(** ** Looking at an entry *)
Section At.
Variables (n : nat) (d : dict K V) (st : state K V).
Hypothesis R : rel n (dmap d) st.
Hypothesis Hn : S n <= N0.

Lemma find_ok k : exists e, d_find_key hash eqk d k = Some e /\
  ((absent eqk st k /\ e = 0%N) \/ exists k0 c, e <> 0%N /\ present eqk st k e k0 c).
Proof.
  destruct (st_ok n (dmap d) st (FindKey k) R Hn I) as (m' & r & st' & E & SP & _). unfold d_find_key. rewrite E. destruct SP as (_ & [(A & ->)|(e & k0 & c & Nz & P & ->)]); eauto 8.
Qed.

Lemma initialized_ok e : e = 0%N \/ st e <> None -> d_initialized hash eqk d e = Some (match st e with Some (_, Some _) => true | _ => false end).
Proof.
  intros H. unfold d_initialized. destruct (N.eqb_spec e 0) as [->|Nz].
  - rewrite (proj2 (rel_unique _ _ _ R ltac:(lia))). reflexivity.
  - destruct (st_ok n (dmap d) st (IsInitialized e) R Hn H) as (m' & r & st' & E & SP & _). rewrite E. destruct SP as (_ & ->). reflexivity.
Qed.

Lemma get_entry_ok e : e = 0%N \/ st e <> None ->
  exists x, d_get_entry hash eqk d e = Some x /\ match st e with None => x = None | Some (_, c) => exists y, x = Some y /\ reads c y end.
Proof.
  intros H. unfold d_get_entry. destruct (N.eqb_spec e 0) as [->|Nz].
  - rewrite (proj2 (rel_unique _ _ _ R ltac:(lia))). eauto.
  - destruct (st_ok n (dmap d) st (GetEntry e) R Hn H) as (m' & r & st' & E & SP & _). rewrite E. destruct SP as (_ & SP). destruct (st e) as [[k c]|]; [destruct SP as (y & -> & Rd); eauto|subst; eauto].
Qed.

Lemma get_key_of e : e = 0%N \/ st e <> None -> d_get_key hash eqk d e = Some (option_map fst (st e)).
Proof.
  intros H. unfold d_get_key. destruct (N.eqb_spec e 0) as [->|Nz].
  - rewrite (proj2 (rel_unique _ _ _ R ltac:(lia))). reflexivity.
  - destruct (st_ok n (dmap d) st (GetKey e) R Hn H) as (m' & r & st' & E & SP & _). rewrite E. destruct SP as (_ & ->). reflexivity.
Qed.

Lemma destroy_value_ok e k0 c : st e = Some (k0, c) -> destroy_value hash eqk d e = Some (match c with Some v => value_gone (vald d) v | None => [] end).
Proof.
  intros E. unfold destroy_value, value_gone. destruct (vald d); [|destruct c; reflexivity]. rewrite initialized_ok by (right; congruence). rewrite E. destruct c as [v|]; [|reflexivity].
  destruct (get_entry_ok e) as (x & -> & X); [right; congruence|]. rewrite E in X. destruct X as (y & -> & Rd). rewrite Rd by discriminate. reflexivity.
Qed.

Lemma destroy_key_ok e k0 c : st e = Some (k0, c) -> destroy_key hash eqk d e = Some (key_gone (keyd d) k0).
Proof. intros E. unfold destroy_key, key_gone. destruct (keyd d); [|reflexivity]. rewrite get_key_of by (right; congruence). rewrite E. reflexivity. Qed.

Lemma set_entry_ok e v k0 c : e <> 0%N -> st e = Some (k0, c) ->
  exists m' st', d_set_entry hash eqk d e v = Some (on d m', match c with Some v0 => value_gone (vald d) v0 | None => [] end) /\
    rel (S n) m' st' /\ same st' (put st e (Some (k0, Some v))).
Proof.
  intros Nz E. unfold d_set_entry. destruct (N.eqb_spec e 0) as [|_]; [congruence|]. rewrite (destroy_value_ok e k0 c E).
  destruct (st_ok n (dmap d) st (SetEntry e v) R Hn) as (m' & r & st' & Q & SP & R'); [right; congruence|]. rewrite Q. exists m', st'. split; [reflexivity|]. split; [exact R'|].
  destruct SP as (_ & S). now rewrite E in S.
Qed.

Lemma remove_entry_ok e k0 c : e <> 0%N -> st e = Some (k0, c) ->
  exists m' st', d_remove_entry hash eqk d e = Some (on d m', key_gone (keyd d) k0 ++ match c with Some v0 => value_gone (vald d) v0 | None => [] end) /\
    rel (S n) m' st' /\ same st' (put st e None).
Proof.
  intros Nz E. unfold d_remove_entry. destruct (N.eqb_spec e 0) as [|_]; [congruence|]. rewrite (destroy_value_ok e k0 c E), (destroy_key_ok e k0 c E).
  destruct (st_ok n (dmap d) st (RemoveEntry e) R Hn) as (m' & r & st' & Q & SP & R'); [right; congruence|]. rewrite Q. exists m', st'. split; [reflexivity|]. split; [exact R'|]. now destruct SP.
Qed.

End At.

(** ** Every action *)
Definition touches (a : action K V) (k0 : K) : Prop := match a with Delete k' | DeleteAt k' => eqk k' k0 = true | _ => False end.

Definition kept (st st' : state K V) (a : action K V) : Prop :=
  forall e k0 c, st e = Some (k0, c) -> ~ touches a k0 -> exists c', st' e = Some (k0, c').

Lemma kept_same st st' a : same st' st -> kept st st' a.
Proof. intros S e k0 c E _. exists c. now rewrite S. Qed.

Lemma kept_put st st' a e k0 c v : st e = Some (k0, c) -> same st' (put st e (Some (k0, Some v))) -> kept st st' a.
Proof.
  intros E S e' k' c' E' _. rewrite S. unfold put. destruct (N.eqb_spec e' e) as [->|]; [|eauto]. rewrite E in E'. injection E' as <- _. eauto.
Qed.

Lemma kept_new st st' a e x : st e = None -> same st' (put st e x) -> kept st st' a.
Proof. intros E S e' k' c' E' _. rewrite S. unfold put. destruct (N.eqb_spec e' e) as [->|]; [congruence|eauto]. Qed.

Lemma kept_gone st st' k e k0 c (a : action K V) : touches a k0 -> st e = Some (k0, c) -> eqk k k0 = true -> same st' (put st e None) -> kept st st' a.
Proof.
  intros T E Ek S e' k' c' E' NT. rewrite S. unfold put. destruct (N.eqb_spec e' e) as [->|]; [|eauto]. rewrite E in E'. injection E' as <- _. contradiction.
Qed.

Lemma listed_new (st : state K V) l e k v : listed st l -> st e = None -> listed (put st e (Some (k, Some v))) ((k, v) :: l).
Proof.
  intros (es & D & F) En. exists (e :: es). split; [apply domain_put; [exact D|exact En|discriminate]|]. constructor; [cbn [fst snd]; unfold put; now rewrite N.eqb_refl|].
  eapply forall2_impl; [|exact F]. intros e' x X Y. unfold put. destruct (N.eqb_spec e' e) as [->|]; [congruence|exact Y].
Qed.

Lemma put_put (st : state K V) e (x y : option (K * option V)) : same (put (put st e x) e y) (put st e y).
Proof. intros e'. unfold put. destruct (e' =? e)%N; reflexivity. Qed.

Lemma lookup_none (st : state K V) l k : listed st l -> absent eqk st k -> lookup eqk l k = None.
Proof. intros L A. destruct (listed_absent eqk st l k L A) as (_ & X & _). exact X. Qed.

Lemma lookup_some (st : state K V) l k e k0 c : listed st l -> unique eqk st -> present eqk st k e k0 c -> exists v, c = Some v /\ lookup eqk l k = Some (k0, v).
Proof. intros L U P. destruct (listed_present eqk eqk_refl eqk_sym eqk_trans st l k e k0 c L U P) as (v & -> & _ & X). eauto. Qed.

Definition act_result (n : nat) (d : dict K V) (st : state K V) (l : list (K * V)) (a : action K V) : Prop :=
  exists m' r ev st' l', act hash eqk full d a = Some (on d m', r, ev) /\ spec eqk (keyd d) (vald d) l a = (l', r, ev) /\
    rel (3 + n) m' st' /\ listed st' l' /\ (grows full d a = false -> kept st st' a).

Lemma on_self (d : dict K V) : on d (dmap d) = d.
Proof. now destruct d. Qed.

Lemma store_ok n d st l k v (a : action K V) : rel n (dmap d) st -> 3 + n <= N0 -> listed st l -> a = Put k v \/ a = Store k v ->
  (let? (d', e) := d_entry_for_key hash eqk full d k in if (e =? 0)%N then None else let? (d, evs) := d_set_entry hash eqk d' e v in Some (d, @RUnit K V, evs)) =
    act hash eqk full d a ->
  act_result n d st l a.
Proof.
  intros R Hn L Ha EA. unfold act_result. rewrite <- EA. unfold d_entry_for_key.
  destruct (grow_ok n (dmap d) st l R ltac:(lia) L) as (m1 & st1 & G & R1 & L1 & Q1). rewrite G.
  destruct (st_ok (S n) m1 st1 (EntryForKey k) R1 ltac:(lia) I) as (m2 & r & st2 & E2 & SP & R2). rewrite E2.
  pose proof (rel_unique _ _ _ R1 ltac:(lia)) as (U1 & _). destruct SP as (e & Nz & SP).
  set (d2 := on d m2). assert (R2' : rel (S (S n)) (dmap d2) st2) by exact R2.
  assert (GE : grows full d a = false -> st1 = st) by (destruct Ha as [-> | ->]; exact Q1).
  destruct SP as [(k0 & c & P & -> & S2)|(A & En & -> & S2)].
  - destruct (N.eqb_spec e 0) as [|_]; [congruence|]. destruct P as (P & Ek). destruct (set_entry_ok (S (S n)) d2 st2 R2' ltac:(lia) e v k0 c Nz) as (m3 & st3 & E3 & R3 & S3); [now rewrite S2|].
    rewrite E3. destruct (lookup_some st1 l k e k0 c L1 U1 (conj P Ek)) as (v0 & -> & LK).
    exists m3, RUnit, (value_gone (vald d) v0), st3, (replace eqk l k v). split; [reflexivity|]. split; [destruct Ha as [-> | ->]; cbn [spec]; rewrite LK; reflexivity|].
    split; [exact R3|]. assert (S13 : same st3 (put st1 e (Some (k0, Some v)))) by (eapply same_trans; [exact S3|apply put_same, S2]). split.
    + eapply listed_same; [exact S13|]. now apply (listed_set eqk eqk_sym eqk_trans st1 l k e k0 (Some v0) v).
    + intros Gf. rewrite <- (GE Gf). eapply kept_put; eauto.
  - destruct (N.eqb_spec e 0) as [|_]; [congruence|]. destruct (set_entry_ok (S (S n)) d2 st2 R2' ltac:(lia) e v k None Nz) as (m3 & st3 & E3 & R3 & S3); [rewrite S2; unfold put; now rewrite N.eqb_refl|].
    rewrite E3. exists m3, RUnit, [], st3, ((k, v) :: l). split; [reflexivity|]. split; [destruct Ha as [-> | ->]; cbn [spec]; rewrite (lookup_none st1 l k L1 A); reflexivity|].
    split; [exact R3|]. assert (S13 : same st3 (put st1 e (Some (k, Some v)))).
    { eapply same_trans; [exact S3|]. eapply same_trans; [apply put_same, S2|]. apply put_put. }
    split.
    + eapply listed_same; [exact S13|]. now apply listed_new.
    + intros Gf. rewrite <- (GE Gf). eapply kept_new; eauto.
Qed.

Lemma act_ok n d st l a : rel n (dmap d) st -> 3 + n <= N0 -> listed st l -> act_result n d st l a.
Proof.
  intros R Hn L. pose proof (rel_unique _ _ _ R ltac:(lia)) as (U & Z0).
  assert (R3 : rel (3 + n) (dmap d) st) by (eapply rel_le; [|exact R]; lia).
  assert (Rle : forall m st', rel (S n) m st' -> rel (3 + n) m st') by (intros; eapply rel_le; [|eassumption]; lia).
  assert (SAME : forall r ev, act hash eqk full d a = Some (d, r, ev) -> spec eqk (keyd d) (vald d) l a = (l, r, ev) -> act_result n d st l a).
  { intros r ev E1 E2. exists (dmap d), r, ev, st, l. rewrite on_self. split; [exact E1|]. split; [exact E2|]. split; [exact R3|]. split; [exact L|]. intros _. apply kept_same, same_refl. }
  destruct a as [k v|k|k|k v|k v|k|k|k|k|].
  - destruct (vald d) eqn:VD.
    + apply (store_ok n d st l k v); auto. cbn [act d_step]. unfold d_set_value. rewrite VD. cbn [negb]. destruct (d_entry_for_key hash eqk full d k) as [[d' e]|]; [|reflexivity].
      destruct (e =? 0)%N; [reflexivity|]. reflexivity.
    + unfold act_result. cbn [act d_step]. unfold d_set_value. rewrite VD. cbn [negb]. destruct (grow_ok n (dmap d) st l R ltac:(lia) L) as (m1 & st1 & G & R1 & L1 & Q1). rewrite G.
      destruct (st_ok (S n) m1 st1 (SetValue k v) R1 ltac:(lia) I) as (m2 & r & st2 & E2 & SP & R2). rewrite E2. pose proof (rel_unique _ _ _ R1 ltac:(lia)) as (U1 & _).
      assert (R2' : rel (3 + n) m2 st2) by (eapply rel_le; [|exact R2]; lia).
      destruct SP as (-> & e & Nz & [(k0 & c & P & S2)|(A & En & S2)]).
      * destruct (lookup_some st1 l k e k0 c L1 U1 P) as (v0 & -> & LK). eexists m2, RUnit, [], st2, _. split; [reflexivity|]. cbn [spec]. rewrite LK. split; [reflexivity|]. split; [exact R2'|]. split.
        -- eapply listed_same; [exact S2|]. now apply (listed_set eqk eqk_sym eqk_trans st1 l k e k0 (Some v0) v).
        -- intros Gf. rewrite <- (Q1 Gf). destruct P. eapply kept_put; eauto.
      * eexists m2, RUnit, [], st2, _. split; [reflexivity|]. cbn [spec]. rewrite (lookup_none st1 l k L1 A). split; [reflexivity|]. split; [exact R2'|]. split.
        -- eapply listed_same; [exact S2|]. now apply listed_new.
        -- intros Gf. rewrite <- (Q1 Gf). eapply kept_new; eauto.
  - destruct (st_ok n (dmap d) st (GetValue k) R ltac:(lia) I) as (m' & r & st' & E & SP & R'). unfold act_result. cbn [act d_step]. rewrite E. cbn [passed].
    exists m', r, [], st', l. split; [reflexivity|]. destruct SP as (S & SP). split; [|split; [now apply Rle|split; [eapply listed_same; eauto|intros _; now apply kept_same]]]. cbn [spec].
    destruct SP as [(A & ->)|(e & k0 & c & x & P & -> & Rd)].
    + rewrite (lookup_none st l k L A). reflexivity.
    + destruct (lookup_some st l k e k0 c L U P) as (v0 & -> & ->). rewrite Rd by discriminate. reflexivity.
  - (* Delete *)
    destruct (keyd d || vald d) eqn:KV.
    + assert (EQ : act hash eqk full d (Delete k) = unit_of (let? e := d_find_key hash eqk d k in d_remove_entry hash eqk d e)).
      { cbn [act d_step]. unfold d_remove_value. rewrite <- negb_orb, KV. reflexivity. }
      destruct (find_ok n d st R ltac:(lia) k) as (e & EF & [(A & ->)|(k0 & c & Nz & P)]).
      * apply (SAME RUnit []); [rewrite EQ, EF; reflexivity|]. cbn [spec]. rewrite (lookup_none st l k L A). reflexivity.
      * destruct P as (P & Ek). destruct (remove_entry_ok n d st R ltac:(lia) e k0 c Nz P) as (m' & st' & E & R' & S). destruct (lookup_some st l k e k0 c L U (conj P Ek)) as (v0 & -> & LK).
        unfold act_result. rewrite EQ, EF, E. eexists m', RUnit, _, st', _. split; [reflexivity|]. cbn [spec]. rewrite LK. split; [reflexivity|]. split; [now apply Rle|]. split.
        -- eapply listed_same; [exact S|]. now apply (listed_remove eqk eqk_sym eqk_trans st l k e k0 (Some v0)).
        -- intros _. eapply (kept_gone st st' k e k0); eauto.
    + assert (KD : keyd d = false /\ vald d = false) by (destruct (keyd d), (vald d); auto). destruct KD as (KD & VD).
      destruct (st_ok n (dmap d) st (RemoveValue k) R ltac:(lia) I) as (m' & r & st' & E & SP & R'). unfold act_result. cbn [act d_step]. unfold d_remove_value. rewrite KD, VD. cbn [negb andb]. rewrite E.
      destruct SP as (-> & [(A & S)|(e & k0 & c & P & S)]).
      * exists m', RUnit, [], st', l. split; [reflexivity|]. cbn [spec]. rewrite (lookup_none st l k L A). split; [reflexivity|]. split; [now apply Rle|]. split; [eapply listed_same; eauto|]. intros _. now apply kept_same.
      * destruct (lookup_some st l k e k0 c L U P) as (v0 & -> & LK). eexists m', RUnit, [], st', _. split; [reflexivity|]. cbn [spec]. rewrite LK. split; [reflexivity|]. split; [now apply Rle|]. split.
        -- eapply listed_same; [exact S|]. now apply (listed_remove eqk eqk_sym eqk_trans st l k e k0 (Some v0)).
        -- intros _. destruct P as (P & Ek). eapply (kept_gone st st' k e k0); eauto.
  - (* Store *)
    apply (store_ok n d st l k v); auto. cbn [act]. unfold and_then. cbn [d_step].
    destruct (grow_ok n (dmap d) st l R ltac:(lia) L) as (m1 & st1 & G & R1 & L1 & Q1). unfold d_entry_for_key. rewrite G.
    destruct (st_ok (S n) m1 st1 (EntryForKey k) R1 ltac:(lia) I) as (m2 & r & st2 & E2 & (e & Nz & SP) & R2). rewrite E2.
    assert (exists b, r = RCreated e b) as (b & ->) by (destruct SP as [(k0 & c & P & -> & S2)|(A & En & -> & S2)]; eauto).
    cbn [fst snd app]. destruct (N.eqb_spec e 0) as [|_]; [congruence|]. unfold unit_of. destruct (d_set_entry hash eqk (on d m2) e v) as [[? ?]|]; reflexivity.
  - (* Change *)
    destruct (find_ok n d st R ltac:(lia) k) as (e & EF & [(A & ->)|(k0 & c & Nz & P)]).
    + apply (SAME RUnit []); [cbn [act]; unfold and_then; cbn [d_step]; rewrite EF; reflexivity|]. cbn [spec]. rewrite (lookup_none st l k L A). reflexivity.
    + destruct P as (P & Ek). destruct (set_entry_ok n d st R ltac:(lia) e v k0 c Nz P) as (m' & st' & E & R' & S). destruct (lookup_some st l k e k0 c L U (conj P Ek)) as (v0 & -> & LK).
      unfold act_result. cbn [act]. unfold and_then. cbn [d_step]. rewrite EF. rewrite E. eexists m', RUnit, _, st', _. split; [reflexivity|]. cbn [spec]. rewrite LK. split; [reflexivity|]. split; [now apply Rle|]. split.
      * eapply listed_same; [exact S|]. now apply (listed_set eqk eqk_sym eqk_trans st l k e k0 (Some v0) v).
      * intros _. eapply kept_put; eauto.
  - (* ReadAt *)
    destruct (find_ok n d st R ltac:(lia) k) as (e & EF & [(A & ->)|(k0 & c & Nz & P)]).
    + apply (SAME (RValue None) []); [cbn [act]; unfold and_then; cbn [d_step]; rewrite EF; reflexivity|]. cbn [spec]. rewrite (lookup_none st l k L A). reflexivity.
    + destruct (lookup_some st l k e k0 c L U P) as (v0 & -> & LK). destruct P as (P & Ek). destruct (get_entry_ok n d st R ltac:(lia) e) as (x & E & X); [right; congruence|]. rewrite P in X. destruct X as (y & -> & Rd).
      rewrite Rd in E by discriminate. apply (SAME (RValue (Some (Some v0))) []); [cbn [act]; unfold and_then; cbn [d_step]; rewrite EF, E; reflexivity|]. cbn [spec]. rewrite LK. reflexivity.
  - (* KeyAt *)
    destruct (find_ok n d st R ltac:(lia) k) as (e & EF & [(A & ->)|(k0 & c & Nz & P)]).
    + apply (SAME (RKey None) []); [cbn [act]; unfold and_then; cbn [d_step]; rewrite EF; reflexivity|]. cbn [spec]. rewrite (lookup_none st l k L A). reflexivity.
    + destruct (lookup_some st l k e k0 c L U P) as (v0 & -> & LK). destruct P as (P & Ek). assert (E := get_key_of n d st R ltac:(lia) e ltac:(right; congruence)). rewrite P in E. cbn [option_map fst] in E.
      apply (SAME (RKey (Some k0)) []); [cbn [act]; unfold and_then; cbn [d_step]; rewrite EF, E; reflexivity|]. cbn [spec]. rewrite LK. reflexivity.
  - (* DeleteAt *)
    destruct (find_ok n d st R ltac:(lia) k) as (e & EF & [(A & ->)|(k0 & c & Nz & P)]).
    + apply (SAME RUnit []); [cbn [act]; unfold and_then; cbn [d_step]; rewrite EF; reflexivity|]. cbn [spec]. rewrite (lookup_none st l k L A). reflexivity.
    + destruct P as (P & Ek). destruct (remove_entry_ok n d st R ltac:(lia) e k0 c Nz P) as (m' & st' & E & R' & S). destruct (lookup_some st l k e k0 c L U (conj P Ek)) as (v0 & -> & LK).
      unfold act_result. cbn [act]. unfold and_then. cbn [d_step]. rewrite EF, E. eexists m', RUnit, _, st', _. split; [reflexivity|]. cbn [spec]. rewrite LK. split; [reflexivity|]. split; [now apply Rle|]. split.
      * eapply listed_same; [exact S|]. now apply (listed_remove eqk eqk_sym eqk_trans st l k e k0 (Some v0)).
      * intros _. eapply (kept_gone st st' k e k0); eauto.
  - (* Has *)
    destruct (find_ok n d st R ltac:(lia) k) as (e & EF & [(A & ->)|(k0 & c & Nz & P)]).
    + apply (SAME (RBool false) []); [cbn [act]; unfold and_then; cbn [d_step]; rewrite EF; reflexivity|]. cbn [spec]. rewrite (lookup_none st l k L A). reflexivity.
    + destruct (lookup_some st l k e k0 c L U P) as (v0 & -> & LK). destruct P as (P & Ek). assert (E := initialized_ok n d st R ltac:(lia) e ltac:(right; congruence)). rewrite P in E.
      apply (SAME (RBool true) []); [cbn [act]; unfold and_then; cbn [d_step]; rewrite EF, E; reflexivity|]. cbn [spec]. rewrite LK. reflexivity.
  - (* Size *)
    destruct (st_ok n (dmap d) st GetCount R ltac:(lia) I) as (m' & r & st' & E & SP & R'). unfold act_result. cbn [act d_step]. rewrite E. cbn [passed].
    destruct SP as (S & es & D & ->). exists m', (RCount (length es)), [], st', l. split; [reflexivity|]. split; [|split; [now apply Rle|split; [eapply listed_same; eauto|intros _; now apply kept_same]]].
    cbn [spec]. destruct L as (es' & D' & F). rewrite (domain_length st es es' D D'). now rewrite (forall2_length _ _ _ F).
Qed.

Lemma acts_ok p : forall n d st l, rel n (dmap d) st -> 3 * length p + n <= N0 -> listed st l ->
  exists m' rs evs st' l', acts hash eqk full d p = Some (on d m', rs, evs) /\ specs eqk (keyd d) (vald d) l p = (l', rs, evs) /\
    rel (3 * length p + n) m' st' /\ listed st' l'.
Proof.
  induction p as [|a p IH]; intros n d st l R Hn L; cbn [acts specs length] in *.
  - exists (dmap d), [], [], st, l. rewrite on_self. auto.
  - destruct (act_ok n d st l a R ltac:(lia) L) as (m1 & r & ev & st1 & l1 & E & Sp & R1 & L1 & _). rewrite E, Sp.
    destruct (IH (3 + n) (on d m1) st1 l1 R1 ltac:(lia) L1) as (m2 & rs & evs & st2 & l2 & E2 & S2 & R2 & L2). rewrite E2. cbn [on keyd vald] in S2. rewrite S2.
    exists m2, (r :: rs), (ev ++ evs), st2, l2. split; [reflexivity|]. split; [reflexivity|]. split; [|exact L2]. replace (3 * S (length p) + n) with (3 * length p + (3 + n)) by lia. exact R2.
Qed.

(** ** Destroying and listing *)
Definition pair_at (p : nat * nat * item K V) : list (K * V) := match ival (snd p) with Some v => [(ikey (snd p), v)] | None => [] end.

Lemma position_ok n d st l p : rel n (dmap d) st -> S n <= N0 -> listed st l -> In p (positions (dmap d)) ->
  exists v, st (entry_of (dmap d) p) = Some (ikey (snd p), Some v) /\ ival (snd p) = Some v /\ entry_of (dmap d) p <> 0%N.
Proof.
  intros R Hn L Hp. destruct (abs_entry hash eqk N0 n (dmap d) st p R ltac:(lia) Hp) as (E & Nn & Nz). destruct p as [[b i] it]. cbn [snd] in *. unfold view in *. destruct (live it); [|congruence].
  pose proof (listed_init st l _ _ _ L E) as Q. destruct (is_init (ihash it)); [|congruence]. destruct (ival it) as [v|]; [|congruence]. eauto.
Qed.

Lemma destroy_from_ok n d st l : rel n (dmap d) st -> S n <= N0 -> listed st l ->
  forall B A fuel, positions (dmap d) = A ++ B -> length B <= fuel ->
  destroy_from hash eqk fuel d (entry_at (dmap d) (hd_error B)) = Some (all_gone (keyd d) (vald d) (flat_map pair_at B)).
Proof.
  intros R Hn L. induction B as [|p B IH]; intros A fuel E Hf; cbn [length hd_error] in *.
  - destruct fuel; reflexivity.
  - destruct fuel as [|f]; [lia|]. assert (Hp : In p (positions (dmap d))) by (rewrite E; apply in_or_app; right; now left).
    destruct (position_ok n d st l p R Hn L Hp) as (v & Ev & Iv & Nz). cbn [destroy_from entry_at]. destruct (N.eqb_spec (entry_of (dmap d) p) 0) as [|_]; [contradiction|].
    rewrite (destroy_key_ok n d st R Hn _ _ _ Ev), (destroy_value_ok n d st R Hn _ _ _ Ev), (next_entry_is hash eqk N0 n (dmap d) st A p B R ltac:(lia) E).
    rewrite (IH (A ++ [p]) f) by (rewrite <- ?app_assoc; cbn [app]; auto; lia). cbn [flat_map]. unfold pair_at at 2. rewrite Iv. cbn [app all_gone flat_map fst snd]. now rewrite <- app_assoc.
Qed.

Lemma flat_pairs n d st l : rel n (dmap d) st -> S n <= N0 -> listed st l ->
  forall B, (forall p, In p B -> In p (positions (dmap d))) ->
  Forall2 (fun e x => st e = Some (fst x, Some (snd x))) (map (entry_of (dmap d)) B) (flat_map pair_at B) /\
  map fst (flat_map pair_at B) = map ikey (map snd B) /\ map (fun x => Some (snd x)) (flat_map pair_at B) = map ival (map snd B).
Proof.
  intros R Hn L. induction B as [|p B IH]; intros H; cbn [map flat_map]; [repeat split; constructor|].
  destruct (position_ok n d st l p R Hn L) as (v & Ev & Iv & Nz); [apply H; now left|]. destruct IH as (I1 & I2 & I3); [intros; apply H; now right|]. unfold pair_at at 1 3 5. rewrite Iv. cbn [app map fst snd].
  rewrite I2, I3. split; [constructor; auto|]. split; congruence.
Qed.

Lemma finish_ok n d st l : rel n (dmap d) st -> S n <= N0 -> listed st l ->
  exists l', Permutation l l' /\ d_destroy hash eqk d = Some (all_gone (keyd d) (vald d) l') /\
    d_step hash eqk full d DGetKeys = Some (d, RKeys (map fst l'), []) /\
    d_step hash eqk full d DGetValues = Some (d, RValues (map (fun x => Some (snd x)) l'), []).
Proof.
  intros R Hn L. set (ps := positions (dmap d)). destruct (flat_pairs n d st l R Hn L ps (fun p H => H)) as (F & FK & FV). exists (flat_map pair_at ps). split; [|split].
  - pose proof (rel_unique _ _ _ R ltac:(lia)) as (U & _).
    assert (L' : listed st (flat_map pair_at ps)) by (exists (entries (dmap d)); split; [eapply entries_domain; eauto; lia|exact F]).
    destruct (listed_keys eqk eqk_refl st l L U) as (N1 & M1). destruct (listed_keys eqk eqk_refl st _ L' U) as (N2 & M2). apply NoDup_Permutation; auto. intros [k v]. split; intros H.
    + destruct (proj1 (M2 k (Some v)) (proj2 (M1 k (Some v)) (ex_intro _ v (conj eq_refl H)))) as (v' & [= <-] & X). exact X.
    + destruct (proj1 (M1 k (Some v)) (proj2 (M2 k (Some v)) (ex_intro _ v (conj eq_refl H)))) as (v' & [= <-] & X). exact X.
  - unfold d_destroy. destruct (keyd d || vald d) eqn:KV.
    + rewrite (head_entry_is hash eqk N0 n (dmap d) st R) by lia. apply (destroy_from_ok n d st l R Hn L ps []); [reflexivity|]. apply slots_positions.
    + assert (KD : keyd d = false /\ vald d = false) by (destruct (keyd d), (vald d); auto). destruct KD as (-> & ->). f_equal. unfold all_gone, key_gone, value_gone. clear. induction (flat_map pair_at ps); auto.
  - cbn [d_step]. change (step hash eqk (dmap d) GetKeys) with (Some (dmap d, RKeys (V := V) (map ikey (live_items (dmap d))))). change (step hash eqk (dmap d) GetValues) with (Some (dmap d, RValues (K := K) (map ival (live_items (dmap d))))).
    cbn [passed]. rewrite on_self, <- positions_snd, FK, FV. auto.
Qed.

(** ** Creating *)
Lemma initial_size_ok s : s <> BothBits -> In (N.of_nat (initial_size s)) bucket_sizes.
Proof. destruct s; intros H; [..|congruence]; vm_compute; auto 30. Qed.

Lemma create_ok s kd vd : s <> BothBits -> exists d st, d_create s kd vd = Some d /\ keyd d = kd /\ vald d = vd /\ rel 0 (dmap d) st /\ listed st [].
Proof.
  intros Hs. pose proof (initial_size_ok s Hs) as Hi. unfold d_create. pose proof (sizes_pos _ Hi) as P. pose proof (fits_sizes _ Hi) as F. rewrite Nat2N.id in P, F.
  destruct (create (initial_size s)) as [m|] eqn:E.
  - pose proof (rel_create hash eqk N0 _ m E F) as R. eexists _, empty. split; [reflexivity|]. split; [reflexivity|]. split; [reflexivity|]. split; [exact R|].
    exists []. split; [|constructor]. split; [constructor|]. intros e. split; [intros []|intros H; now elim H].
  - exfalso. unfold create in E. destruct (initial_size s); [lia|discriminate].
Qed.

(** ** Entries *)
Lemma keeps_ok p k : forall n d st l e k0 c, rel n (dmap d) st -> 3 * length p + n <= N0 -> listed st l -> keeps hash eqk full d k p ->
  st e = Some (k0, c) -> eqk k k0 = true ->
  exists m' rs evs st' l' c', acts hash eqk full d p = Some (on d m', rs, evs) /\ rel (3 * length p + n) m' st' /\ listed st' l' /\ st' e = Some (k0, c').
Proof.
  induction p as [|a p IH]; intros n d st l e k0 c R Hn L Kp E Ek; cbn [acts length keeps] in *.
  - exists (dmap d), [], [], st, l, c. rewrite on_self. auto.
  - destruct (act_ok n d st l a R ltac:(lia) L) as (m1 & r & ev & st1 & l1 & EA & _ & R1 & L1 & Q). rewrite EA in *. destruct Kp as (G & NT & Kp).
    destruct (Q G e k0 c E) as (c1 & E1).
    { unfold touches. destruct a; auto; intros T; assert (X : eqk k k1 = true) by (apply (eqk_trans k k0 k1 Ek); now rewrite eqk_sym); congruence. }
    destruct (IH (3 + n) (on d m1) st1 l1 e k0 c1 R1 ltac:(lia) L1 Kp E1 Ek) as (m2 & rs & evs & st2 & l2 & c2 & E2 & R2 & L2 & F2). rewrite E2.
    eexists m2, _, _, st2, l2, c2. split; [reflexivity|]. split; [|auto]. replace (3 * S (length p) + n) with (3 * length p + (3 + n)) by lia. exact R2.
Qed.

Lemma find_is n d st k e k0 c : rel n (dmap d) st -> S n <= N0 -> st e = Some (k0, c) -> eqk k k0 = true -> d_find_key hash eqk d k = Some e.
Proof.
  intros R Hn E Ek. destruct (find_ok n d st R Hn k) as (e' & F & [(A & ->)|(k1 & c1 & Nz & P & Ek1)]).
  - exfalso. specialize (A e k0 c E). congruence.
  - rewrite F. f_equal. apply (proj1 (rel_unique _ _ _ R ltac:(lia)) e' e k1 c1 k0 c P E). apply (eqk_trans k1 k k0); [now rewrite eqk_sym|exact Ek].
Qed.

(** ** The specification alone *)
Definition apart (l : list (K * V)) : Prop := ForallOrdPairs (fun x y => eqk (fst x) (fst y) = false) l.

Lemma split_at l k k0 v0 : apart l -> lookup eqk l k = Some (k0, v0) ->
  exists A B, l = A ++ (k0, v0) :: B /\ (forall v, replace eqk l k v = A ++ (k0, v) :: B) /\ without eqk l k = A ++ B.
Proof.
  unfold lookup, replace, without. induction l as [|[k1 v1] l IH]; cbn [find fst]; [discriminate|]. intros Ap E. inversion Ap as [|x y Hx Hl]; subst. cbn [map filter fst]. destruct (eqk k k1) eqn:Ek.
  - injection E as -> ->. assert (Q : Forall (fun x => eqk k (fst x) = false) l).
    { eapply Forall_impl; [|exact Hx]. intros [k2 v2] H2. cbn [fst] in *. destruct (eqk k k2) eqn:E2; [|reflexivity]. rewrite <- H2. symmetry. apply (eqk_trans k0 k k2); [now rewrite eqk_sym|exact E2]. }
    exists [], l. cbn [app negb]. split; [reflexivity|]. split; [intros v; f_equal|]; clear - Q; induction Q as [|[k2 v2] l H2 _ IH]; cbn [map filter fst] in *; auto; rewrite H2; cbn [negb]; congruence.
  - destruct (IH Hl E) as (A & B & -> & R1 & R2). exists ((k1, v1) :: A), B. cbn [app negb]. split; [reflexivity|]. split; [intros v; now rewrite R1|now rewrite R2].
Qed.

Lemma apart_mid A B (x : K * V) : apart (A ++ x :: B) <-> apart (A ++ B) /\ Forall (fun y => eqk (fst x) (fst y) = false) (A ++ B).
Proof.
  unfold apart. induction A as [|a A IH]; cbn [app].
  - split; [intros H; inversion H; auto|intros (H1 & H2); now constructor].
  - split.
    + intros H. inversion H as [|? ? H1 H2]; subst. apply IH in H2 as (H2 & H3). rewrite Forall_app in H1. destruct H1 as (H1 & H4). inversion H4; subst. split; [constructor; [now rewrite Forall_app|exact H2]|constructor; [now rewrite eqk_sym|exact H3]].
    + intros (H1 & H2). inversion H1 as [|? ? H3 H4]; subst. inversion H2; subst. constructor; [|apply IH; auto]. rewrite Forall_app in *. destruct H3. split; [auto|]. constructor; [now rewrite eqk_sym|auto].
Qed.

Lemma lookup_apart l k v : lookup eqk l k = None -> apart l -> apart ((k, v) :: l).
Proof. intros E Ap. constructor; [|exact Ap]. apply Forall_forall. intros x Hx. cbn [fst]. exact (find_none _ _ E x Hx). Qed.

Lemma spec_apart kd vd l a : apart l -> apart (fst (fst (spec eqk kd vd l a))).
Proof.
  intros Ap. destruct a; cbn [spec fst]; auto; destruct (lookup eqk l k) as [[k0 v0]|] eqn:E; cbn [fst]; auto using lookup_apart; destruct (split_at l k k0 v0 Ap E) as (A & B & -> & R1 & R2); rewrite ?R1, ?R2; apply apart_mid in Ap as (Ap1 & Ap2); auto; apply apart_mid; auto.
Qed.

Lemma spec_flags kd vd (l : list (K * V)) a : fst (fst (spec eqk kd vd l a)) = fst (fst (spec eqk false false l a)).
Proof. destruct a; cbn [spec fst]; auto; destruct (lookup eqk l k) as [[k0 v0]|]; reflexivity. Qed.

Lemma keys_app (a b : list (event K V)) : keys_destroyed (a ++ b) = keys_destroyed a ++ keys_destroyed b.
Proof. apply flat_map_app. Qed.
Lemma values_app (a b : list (event K V)) : values_destroyed (a ++ b) = values_destroyed a ++ values_destroyed b.
Proof. apply flat_map_app. Qed.

Lemma values_all kd (l : list (K * V)) : values_destroyed (all_gone kd true l) = map (fun x => Some (Some (snd x))) l.
Proof. induction l as [|x l IH]; [reflexivity|]. cbn [all_gone flat_map map]. unfold all_gone in IH. rewrite values_app, IH. destruct kd; reflexivity. Qed.
Lemma keys_all vd (l : list (K * V)) : keys_destroyed (all_gone true vd l) = map (fun x => Some (fst x)) l.
Proof. induction l as [|x l IH]; [reflexivity|]. cbn [all_gone flat_map map]. unfold all_gone in IH. rewrite keys_app, IH. destruct vd; reflexivity. Qed.

Local Notation SSv := (map (fun x : K * V => Some (Some (snd x)))).
Local Notation Sk := (map (fun x : K * V => Some (fst x))).

Lemma values_step kd l a : apart l ->
  Permutation (values_destroyed (snd (spec eqk kd true l a)) ++ SSv (fst (fst (spec eqk kd true l a))))
    (SSv l ++ map (fun v => Some (Some v)) (match a with Put _ v | Store _ v => [v] | Change k v => match lookup eqk l k with Some _ => [v] | None => [] end | _ => [] end)).
Proof.
  intros Ap. destruct a; cbn [spec fst snd map]; try (destruct (lookup eqk l k) as [[k0 v0]|] eqn:E; cbn [fst snd map]);
    try destruct (split_at l k k0 v0 Ap E) as (A & B & -> & R1 & R2); rewrite ?R1, ?R2, ?values_app, ?map_app; cbn [map snd values_destroyed flat_map value_gone key_gone app]; rewrite ?app_nil_r; try reflexivity.
  all: try (destruct kd; cbn [key_gone values_destroyed flat_map app]).
  all: try (apply Permutation_cons_append).
  all: try (apply Permutation_middle).
  all: rewrite <- app_assoc; cbn [app]; apply Permutation_cons_app, Permutation_app_head, Permutation_cons_append.
Qed.

Lemma keys_step vd l a : apart l ->
  Permutation (keys_destroyed (snd (spec eqk true vd l a)) ++ Sk (fst (fst (spec eqk true vd l a))))
    (Sk l ++ map Some (match a with Put k _ | Store k _ => match lookup eqk l k with Some _ => [] | None => [k] end | _ => [] end)).
Proof.
  intros Ap. destruct a; cbn [spec fst snd map]; try (destruct (lookup eqk l k) as [[k0 v0]|] eqn:E; cbn [fst snd map]);
    try destruct (split_at l k k0 v0 Ap E) as (A & B & -> & R1 & R2); rewrite ?R1, ?R2, ?keys_app, ?map_app; cbn [map fst keys_destroyed flat_map key_gone app]; unfold value_gone;
    try destruct vd; cbn [keys_destroyed flat_map app]; rewrite ?map_app, ?app_nil_r; cbn [map fst]; try reflexivity; try apply Permutation_cons_append; try apply Permutation_middle.
Qed.

Lemma specs_values kd p : forall l, apart l ->
  Permutation (values_destroyed (snd (specs eqk kd true l p)) ++ SSv (fst (fst (specs eqk kd true l p)))) (SSv l ++ map (fun v => Some (Some v)) (values_stored eqk l p)).
Proof.
  induction p as [|a p IH]; intros l Ap; cbn [specs values_stored].
  - cbn [snd fst map values_destroyed flat_map app]. now rewrite app_nil_r.
  - pose proof (values_step kd l a Ap) as P1. pose proof (spec_apart kd true l a Ap) as Ap1. rewrite <- (spec_flags kd true). destruct (spec eqk kd true l a) as [[l1 r] ev]. cbn [fst snd] in *.
    pose proof (IH l1 Ap1) as P2. destruct (specs eqk kd true l1 p) as [[l2 rs] evs]. cbn [fst snd] in *. rewrite values_app, <- app_assoc, map_app.
    eapply Permutation_trans; [apply Permutation_app_head, P2|]. rewrite !app_assoc. apply Permutation_app_tail, P1.
Qed.

Lemma specs_keys vd p : forall l, apart l ->
  Permutation (keys_destroyed (snd (specs eqk true vd l p)) ++ Sk (fst (fst (specs eqk true vd l p)))) (Sk l ++ map Some (keys_added eqk l p)).
Proof.
  induction p as [|a p IH]; intros l Ap; cbn [specs keys_added].
  - cbn [snd fst map keys_destroyed flat_map app]. now rewrite app_nil_r.
  - pose proof (keys_step vd l a Ap) as P1. pose proof (spec_apart true vd l a Ap) as Ap1. rewrite <- (spec_flags true vd). destruct (spec eqk true vd l a) as [[l1 r] ev]. cbn [fst snd] in *.
    pose proof (IH l1 Ap1) as P2. destruct (specs eqk true vd l1 p) as [[l2 rs] evs]. cbn [fst snd] in *. rewrite keys_app, <- app_assoc, map_app.
    eapply Permutation_trans; [apply Permutation_app_head, P2|]. rewrite !app_assoc. apply Permutation_app_tail, P1.
Qed.

Lemma no_values kd p : forall l l' rs evs, specs (V := V) eqk kd false l p = (l', rs, evs) -> values_destroyed evs = [].
Proof.
  induction p as [|a p IH]; intros l l' rs evs; cbn [specs]; [now intros [= <- <- <-]|].
  assert (X : values_destroyed (snd (spec eqk kd false l a)) = []) by (destruct a; cbn [spec]; try reflexivity; destruct (lookup eqk l k) as [[k0 v0]|]; cbn [snd]; try reflexivity; destruct kd; reflexivity).
  destruct (spec eqk kd false l a) as [[l1 r] ev]. destruct (specs eqk kd false l1 p) as [[l2 rs2] evs2] eqn:E. intros [= <- <- <-]. cbn [snd] in X. now rewrite values_app, X, (IH _ _ _ _ E).
Qed.

Lemma no_keys vd p : forall l l' rs evs, specs (V := V) eqk false vd l p = (l', rs, evs) -> keys_destroyed evs = [].
Proof.
  induction p as [|a p IH]; intros l l' rs evs; cbn [specs]; [now intros [= <- <- <-]|].
  assert (X : keys_destroyed (snd (spec eqk false vd l a)) = []) by (destruct a; cbn [spec]; try reflexivity; destruct (lookup eqk l k) as [[k0 v0]|]; cbn [snd]; try reflexivity; destruct vd; reflexivity).
  destruct (spec eqk false vd l a) as [[l1 r] ev]. destruct (specs eqk false vd l1 p) as [[l2 rs2] evs2] eqn:E. intros [= <- <- <-]. cbn [snd] in X. now rewrite keys_app, X, (IH _ _ _ _ E).
Qed.

Lemma no_values_left kd (l : list (K * V)) : values_destroyed (all_gone kd false l) = [].
Proof. induction l as [|x l IH]; [reflexivity|]. cbn [all_gone flat_map]. unfold all_gone in IH. rewrite values_app, IH. destruct kd; reflexivity. Qed.
Lemma no_keys_left vd (l : list (K * V)) : keys_destroyed (all_gone false vd l) = [].
Proof. induction l as [|x l IH]; [reflexivity|]. cbn [all_gone flat_map]. unfold all_gone in IH. rewrite keys_app, IH. destruct vd; reflexivity. Qed.

End Proofs.
