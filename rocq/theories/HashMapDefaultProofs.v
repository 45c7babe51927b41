(** Proofs about HashMapDefaultModel. *)
From Verif Require Import Base HashMapModel HashMapSpec HashMapEntryProofs HashMapProofs HashMapStepProofs HashMapDefaultModel HashMapDefaultSpec.
From Verif Require EnumerableModel EnumerableSpec.
Local Open Scope N_scope.

Section Default.
Context {K V St : Type} (eqk : K -> K -> bool) (call : St -> op K V -> option (St * ret K V)).
Context (enum : St -> N -> EnumerableModel.action -> option (N * option N)).
Context (content : St -> N -> option (K * option V)).
Context (good : nat -> St -> state K V -> Prop) (IM : implements eqk call enum content good).

Lemma find_ok n m st k : good (S n) m st ->
  exists m' e st', find call m k = Some (m', e) /\ good n m' st' /\ same st' st /\
    ((absent eqk st k /\ e = 0) \/ exists k0 c, e <> 0 /\ present eqk st k e k0 c).
Proof.
  intros G. destruct IM as (Cl & _). destruct (Cl n m st (FindKey k) G I I) as (m' & r & st' & E & (Sm & D) & G').
  unfold find. rewrite E. destruct D as [(A & ->)|(e & k0 & c & Nz & P & ->)]; eexists _, _, _; repeat (split; eauto); right; eauto.
Qed.

Lemma absent_same (st st' : state K V) k : same st' st -> absent eqk st k -> absent eqk st' k.
Proof. intros Sm A e k0 c H. rewrite Sm in H. eauto. Qed.
Lemma put_same (st st' : state K V) e x : same st' st -> same (put st' e x) (put st e x).
Proof. intros Sm i. unfold put. destruct (i =? e); auto. Qed.
Lemma same_trans (a b c : state K V) : same a b -> same b c -> same a c.
Proof. intros X Y e. now rewrite X. Qed.

Lemma get_ok n m st k : good (S (S n)) m st ->
  exists m' r st', default_get call m k = Some (m', r) /\ spec_call eqk st (GetValue k) r st' /\ good n m' st'.
Proof.
  intros G. destruct (find_ok (S n) m st k G) as (m1 & e & st1 & E & G1 & Sm & D). unfold default_get. rewrite E.
  destruct IM as (Cl & Wk). destruct (Wk _ _ _ G1) as (_ & Z & _).
  destruct D as [(A & ->)|(k0 & c & Nz & P)].
  - destruct (Cl n m1 st1 (GetEntry 0) G1 I (or_introl eq_refl)) as (m' & r & st' & E' & (S' & R) & G'). rewrite Z in R.
    exists m', r, st'. split; [exact E'|]. split; [|exact G']. split; [eapply same_trans; eauto|]. left. auto.
  - destruct P as (Pe & Pk). assert (Pe1 : st1 e = Some (k0, c)) by (rewrite Sm; exact Pe).
    destruct (Cl n m1 st1 (GetEntry e) G1 I ltac:(right; congruence)) as (m' & r & st' & E' & (S' & R) & G'). rewrite Pe1 in R. destruct R as (x & -> & Rd).
    exists m', (RValue (Some x)), st'. split; [exact E'|]. split; [|exact G']. split; [eapply same_trans; eauto|]. right. exists e, k0, c, x. repeat split; auto.
Qed.

Lemma remove_ok n m st k : good (S (S n)) m st ->
  exists m' r st', default_remove call m k = Some (m', r) /\ spec_call eqk st (RemoveValue k) r st' /\ good n m' st'.
Proof.
  intros G. destruct (find_ok (S n) m st k G) as (m1 & e & st1 & E & G1 & Sm & D). unfold default_remove. rewrite E.
  destruct IM as (Cl & Wk). destruct (Wk _ _ _ G1) as (_ & Z & _).
  destruct D as [(A & ->)|(k0 & c & Nz & P)].
  - destruct (Cl n m1 st1 (RemoveEntry 0) G1 I (or_introl eq_refl)) as (m' & r & st' & E' & (-> & S') & G').
    exists m', RUnit, st'. split; [exact E'|]. split; [|exact G']. split; [reflexivity|]. left. split; [exact A|].
    intros i. rewrite S'. unfold put. destruct (N.eqb_spec i 0) as [->|]; [now rewrite <- Sm, Z|apply Sm].
  - pose proof P as (Pe & Pk). assert (Pe1 : st1 e = Some (k0, c)) by (rewrite Sm; exact Pe).
    destruct (Cl n m1 st1 (RemoveEntry e) G1 I ltac:(right; congruence)) as (m' & r & st' & E' & (-> & S') & G').
    exists m', RUnit, st'. split; [exact E'|]. split; [|exact G']. split; [reflexivity|]. right. exists e, k0, c. split; [exact P|].
    eapply same_trans; [exact S'|]. now apply put_same.
Qed.

Lemma set_ok n m st k v : good (S (S n)) m st ->
  exists m' r st', default_set call m k v = Some (m', r) /\ good n m' st' /\ r = RUnit /\
    ((absent eqk st k /\ same st' st) \/ (~ absent eqk st k /\ spec_call eqk st (SetValue k v) r st')).
Proof.
  intros G. destruct (find_ok (S n) m st k G) as (m1 & e & st1 & E & G1 & Sm & D). unfold default_set. rewrite E.
  destruct IM as (Cl & Wk). destruct (Wk _ _ _ G1) as (_ & Z & _).
  destruct D as [(A & ->)|(k0 & c & Nz & P)].
  - destruct (Cl n m1 st1 (SetEntry 0 v) G1 I (or_introl eq_refl)) as (m' & r & st' & E' & (-> & S') & G'). rewrite Z in S'.
    exists m', RUnit, st'. split; [exact E'|]. split; [exact G'|]. split; [reflexivity|]. left. split; [exact A|]. eapply same_trans; eauto.
  - pose proof P as (Pe & Pk). assert (Pe1 : st1 e = Some (k0, c)) by (rewrite Sm; exact Pe).
    destruct (Cl n m1 st1 (SetEntry e v) G1 I ltac:(right; congruence)) as (m' & r & st' & E' & (-> & S') & G'). rewrite Pe1 in S'.
    exists m', RUnit, st'. split; [exact E'|]. split; [exact G'|]. split; [reflexivity|]. right. split.
    + intros A. rewrite (A e k0 c Pe) in Pk. discriminate.
    + split; [reflexivity|]. exists e. split; [exact Nz|]. left. exists k0, c. split; [exact P|]. eapply same_trans; [exact S'|]. now apply put_same.
Qed.

(** ** Walking *)

Lemma collect_ok m (st : state K V) es : (forall e k c, st e = Some (k, c) -> exists x, content m e = Some (k, x) /\ reads c x) ->
  (forall e, In e es -> st e <> None) ->
  forall fuel s i, (length es - i <= fuel)%nat -> (i < length es)%nat ->
  EnumerableSpec.history_ok (enum m) es s (Some i) (repeat EnumerableModel.Next fuel) ->
  exists l, collect enum content fuel m s (nth_error es i) = Some l /\
    Forall2 (fun e x => exists c, st e = Some (fst x, c) /\ reads c (snd x)) (skipn i es) l.
Proof.
  intros Ct Lv. induction fuel as [|fuel IH]; intros s i Hf Hi H; [lia|].
  destruct (nth_error_lt_Some es i Hi) as [e He]. rewrite He. cbn [collect]. cbn [repeat EnumerableSpec.history_ok] in H.
  destruct (H I) as (s' & E & H'). destruct (st e) as [[k c]|] eqn:Se; [|now apply nth_error_In, Lv in He].
  destruct (Ct e k c Se) as (x & -> & Rd). rewrite E. cbn [EnumerableSpec.move] in *.
  assert (Sk : skipn i es = e :: skipn (S i) es).
  { clear - He. revert i He. induction es as [|y l IH]; intros [|i] He; cbn in *; try discriminate; [now injection He as ->|auto]. }
  destruct (Nat.ltb_spec (S i) (length es)) as [L|L].
  - cbn [EnumerableSpec.value]. destruct (IH s' (S i)) as (l & -> & F); [lia|lia|exact H'|]. eexists. split; [reflexivity|]. rewrite Sk. constructor; [|exact F]. exists c. auto.
  - cbn [EnumerableSpec.value]. assert (X : collect enum content fuel m s' None = Some []) by (destruct fuel; reflexivity). rewrite X.
    eexists. split; [reflexivity|]. rewrite Sk, (skipn_all2 es) by lia. constructor; [|constructor]. exists c. auto.
Qed.

Lemma walk_ok n m st s : good n m st ->
  exists es, domain st es /\ forall fuel, (length es <= fuel)%nat ->
    exists l, walk enum content fuel m s = Some l /\ Forall2 (fun e x => exists c, st e = Some (fst x, c) /\ reads c (snd x)) es l.
Proof.
  intros G. destruct IM as (_ & Wk). destruct (Wk n m st G) as (_ & _ & Ct & es & D & En). exists es. split; [exact D|]. intros fuel Hf.
  destruct (En s) as (e0 & r & E & H). unfold walk. rewrite E. specialize (H (EnumerableModel.Current :: repeat EnumerableModel.Next fuel)).
  cbn [EnumerableSpec.history_ok] in H. destruct H as (s' & E' & H').
  { unfold EnumerableSpec.client_ok, EnumerableSpec.first. destruct es; reflexivity. }
  rewrite E'. clear E'. cbn [EnumerableSpec.move] in *. unfold EnumerableSpec.first in *. destruct es as [|e es].
  - cbn [length Nat.eqb EnumerableSpec.value]. exists []. split; [destruct fuel; reflexivity|constructor].
  - cbn [length Nat.eqb EnumerableSpec.value] in *. apply (collect_ok m st (e :: es) Ct (fun x Hx => proj1 (proj2 D x) Hx) fuel s' 0); [cbn [length]; lia|cbn [length]; lia|exact H'].
Qed.

Lemma forall2_map_r {A B C} (P : A -> C -> Prop) (f : B -> C) l l' : Forall2 (fun a b => P a (f b)) l l' -> Forall2 P l (map f l').
Proof. induction 1; constructor; auto. Qed.

Lemma forall2_weaken {A B} (P Q : A -> B -> Prop) l l' : (forall a b, P a b -> Q a b) -> Forall2 P l l' -> Forall2 Q l l'.
Proof. intros H. induction 1; constructor; auto. Qed.

Lemma keys_ok n m st s : good n m st ->
  exists b, forall fuel, (b <= fuel)%nat -> exists r, default_keys enum content fuel m s = Some (m, r) /\ spec_call eqk st GetKeys r st.
Proof.
  intros G. destruct (walk_ok n m st s G) as (es & D & W). exists (length es). intros fuel Hf. destruct (W fuel Hf) as (l & E & F).
  unfold default_keys. rewrite E. eexists. split; [reflexivity|]. split; [intros e; reflexivity|]. exists es, (map fst l). split; [exact D|]. split; [reflexivity|].
  apply forall2_map_r. eapply forall2_weaken; [|exact F]. cbn beta. intros e x (c & H & _). eauto.
Qed.

Lemma values_ok n m st s : good n m st ->
  exists b, forall fuel, (b <= fuel)%nat -> exists r, default_values enum content fuel m s = Some (m, r) /\ spec_call eqk st GetValues r st.
Proof.
  intros G. destruct (walk_ok n m st s G) as (es & D & W). exists (length es). intros fuel Hf. destruct (W fuel Hf) as (l & E & F).
  unfold default_values. rewrite E. eexists. split; [reflexivity|]. split; [intros e; reflexivity|]. exists es, (map snd l). split; [exact D|]. split; [reflexivity|].
  apply forall2_map_r. eapply forall2_weaken; [|exact F]. cbn beta. intros e x (c & H & R). eauto.
Qed.

End Default.

(** ** The hash map of HashMapModel is an implementation *)

Lemma map_implements {K V} (hash : K -> N) (eqk : K -> K -> bool) : lawful hash eqk ->
  exists good : nat -> hashmap K V -> state K V -> Prop,
    implements eqk (step hash eqk) enum_step stored good /\
    forall n bc, (1 <= bc)%nat -> fits (S n) bc -> exists m, create bc = Some m /\ good n m (@empty K V).
Proof.
  intros (H1 & H2 & H3 & H4). exists (fun n m st => exists N0 n0, rel hash eqk N0 n0 m st /\ (n0 + n < N0)%nat). split; [split|].
  - intros n m st o (N0 & n0 & R & Hn) Rq CO.
    destruct (step_ok hash eqk H1 H2 H3 H4 N0 n0 m st o R ltac:(lia)) as (m' & r & st' & E & SP & R').
    { destruct o; try exact CO. destruct Rq. }
    exists m', r, st'. split; [exact E|]. split; [exact SP|]. exists N0, (S n0). split; [exact R'|lia].
  - intros n m st (N0 & n0 & R & Hn). destruct (good_holds hash eqk N0 n0 m st R ltac:(lia)) as (U & Z & es & e0 & ks & xs & D & Hd & En & _).
    split; [exact U|]. split; [exact Z|]. split.
    + intros e k c He.
      destruct (step_ok hash eqk H1 H2 H3 H4 N0 n0 m st (GetKey e) R ltac:(lia)) as (m1 & r1 & st1 & E1 & (_ & ->) & _); [right; congruence|].
      destruct (step_ok hash eqk H1 H2 H3 H4 N0 n0 m st (GetEntry e) R ltac:(lia)) as (m2 & r2 & st2 & E2 & (_ & S2) & _); [right; congruence|].
      rewrite He in E1, S2. destruct S2 as (x & -> & Rd). cbn [step option_map fst] in E1, E2. unfold stored. destruct (entry_item m e) as [[[[b i] it]|]|]; try discriminate.
      injection E1 as _ <-. injection E2 as _ <-. exists (ival it). auto.
    + exists es. split; [exact D|]. intros s. unfold enum_step at 1. rewrite Hd. eexists _, _. split; [reflexivity|exact En].
  - intros n bc Hb F. destruct (create (K := K) (V := V) bc) as [m|] eqn:E; [|unfold create in E; destruct (Nat.leb_spec 1 bc); [discriminate|lia]].
    exists m. split; [reflexivity|]. exists (S n), 0%nat. split; [eapply rel_create; eauto|lia].
Qed.

(** ** The hash *)

Lemma le_value_bound l : bytes l -> le_value l < 256 ^ N.of_nat (length l).
Proof.
  induction 1 as [|b l Hb _ IH]; cbn [le_value length]; [reflexivity|]. rewrite Nat2N.inj_succ, N.pow_succ_r'. nia.
Qed.

Lemma le_value_inj a : forall b, bytes a -> bytes b -> length a = length b -> le_value a = le_value b -> a = b.
Proof.
  induction a as [|x a IH]; intros [|y b] Ha Hb L E; try discriminate L; [reflexivity|]. inversion Ha; inversion Hb; subst. cbn [le_value length] in *.
  assert (x = y /\ le_value a = le_value b) as (-> & E') by nia. f_equal. apply IH; auto.
Qed.

Lemma same_bytes_eq a : forall b, same_bytes a b = true <-> a = b.
Proof.
  induction a as [|x a IH]; intros [|y b]; cbn [same_bytes]; split; intros H; try discriminate; try reflexivity.
  - apply andb_prop in H as (H1 & H2). apply N.eqb_eq in H1 as ->. apply IH in H2 as ->. reflexivity.
  - injection H as -> ->. rewrite N.eqb_refl. now apply IH.
Qed.

Lemma le_value_zeros l n : le_value (l ++ repeat 0 n) = le_value l.
Proof.
  induction l as [|b l IH]; cbn [le_value app]; [|now rewrite IH]. induction n as [|n IH]; cbn [repeat le_value]; [reflexivity|]. now rewrite IH.
Qed.

Lemma little_hash key : default_hash Little (length key) key = Some (le_value (firstn 8 key)).
Proof.
  unfold default_hash. rewrite Nat.leb_refl. destruct (Nat.leb_spec 8 (length key)); [reflexivity|]. unfold copy_to. rewrite firstn_all, (firstn_all2 (n := 8) key) by lia. cbn [Nat.add repeat length].
  destruct (Nat.leb_spec (length key) 8); [|lia]. cbn [firstn app word_value]. f_equal.
  change [0; 0; 0; 0; 0; 0; 0; 0] with (repeat 0 8). replace (skipn (length key) (repeat 0 8)) with (repeat 0 (8 - length key)%nat); [apply le_value_zeros|].
  clear. revert key. generalize 8%nat. intros n. induction n as [|n IH]; intros [|k key]; cbn [repeat skipn length Nat.sub]; auto.
Qed.

Lemma big_hash key : (8 <= length key)%nat -> default_hash Big (length key) key = Some (le_value (rev (firstn 8 key))).
Proof. intros H. unfold default_hash. destruct (Nat.leb_spec 8 (length key)); [reflexivity|lia]. Qed.

Lemma big_short size key : (size < 8)%nat -> default_hash Big size key = None.
Proof.
  intros H. unfold default_hash. destruct (Nat.leb_spec 8 size); [lia|]. destruct (Nat.leb_spec size (length key)); [|reflexivity]. unfold copy_to.
  rewrite firstn_length_le, repeat_length by lia. destruct (Nat.leb_spec (8 * (8 - size) + size) 8); [lia|reflexivity].
Qed.
