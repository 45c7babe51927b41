(** Proofs for the hash map: the operations. *)
From Verif Require Import Base Word HashMapModel HashMapSpec HashMapEntryProofs.

(** ** Lists *)
Lemma upd_split {A} (l : list A) i x y : nth_error l i = Some x ->
  exists l1 l2, l = l1 ++ x :: l2 /\ length l1 = i /\ upd l i y = l1 ++ y :: l2.
Proof.
  revert i. induction l as [|z l IH]; intros [|i] E; cbn in E; try discriminate.
  - injection E as ->. exists [], l. auto.
  - destruct (IH i E) as (l1 & l2 & -> & L & U). exists (z :: l1), l2. cbn. now rewrite L, U.
Qed.

Definition len_filter {A} (p : A -> bool) (l : list A) : nat := length (filter p l).

Lemma len_filter_app {A} (p : A -> bool) u v : len_filter p (u ++ v) = len_filter p u + len_filter p v.
Proof. unfold len_filter. now rewrite filter_app, app_length. Qed.

Lemma len_filter_cons {A} (p : A -> bool) x v : len_filter p (x :: v) = (if p x then 1 else 0) + len_filter p v.
Proof. unfold len_filter. cbn. destruct (p x); reflexivity. Qed.

Lemma len_filter_upd {A} (p : A -> bool) l i x y : nth_error l i = Some x ->
  len_filter p (upd l i y) + (if p x then 1 else 0) = len_filter p l + (if p y then 1 else 0).
Proof.
  intros E. destruct (upd_split l i x y E) as (l1 & l2 & -> & _ & ->). rewrite !len_filter_app, !len_filter_cons. lia.
Qed.

Section Proofs.
Context {K V : Type} (hash : K -> N) (eqk : K -> K -> bool).
Hypothesis eqk_refl : forall a, eqk a a = true.
Hypothesis eqk_sym : forall a b, eqk a b = eqk b a.
Hypothesis eqk_trans : forall a b c, eqk a b = true -> eqk b c = true -> eqk a c = true.
Hypothesis eqk_hash : forall a b, eqk a b = true -> hash a = hash b.

Local Notation item := (item K V).
Local Notation hashmap := (hashmap K V).
Local Notation get_key := (get_key hash eqk).
Local Notation bcN m := (N.of_nat (bucketCount m)).
Local Notation add_value := (@add_value K V).

Definition live (it : item) : bool := negb (is_empty (ihash it)).
Definition items_of (bk : option (list item)) : list item := match bk with Some l => l | None => [] end.
Definition masked (k : K) : N := N.land (hash k) RESERVED.
Definition home (bc : nat) (k : K) : nat := N.to_nat (masked k mod N.of_nat bc).

Lemma home_lt bc k : 1 <= bc -> home bc k < bc.
Proof. intros H. unfold home. pose proof (N.mod_lt (masked k) (N.of_nat bc)). lia. Qed.

Record inv (m : hashmap) : Prop := {
  inv_bc : 1 <= bucketCount m;
  inv_len : forall bs, buckets m = Some bs -> length bs = bucketCount m;
  inv_item : forall b i it, item_at m b i = Some it -> live it = true ->
    code (ihash it) = masked (ikey it) /\ b = home (bucketCount m) (ikey it) /\ (is_init (ihash it) = true -> ival it <> None);
  inv_uniq : forall b i it b' i' it', item_at m b i = Some it -> live it = true -> item_at m b' i' = Some it' -> live it' = true ->
    eqk (ikey it) (ikey it') = true -> b = b' /\ i = i';
  inv_count : count m = length (live_items m) }.

(** Items 0 to n-1 only. *)
Definition bounded (n : nat) (m : hashmap) : Prop := forall b i it, item_at m b i = Some it -> i < n.

Lemma item_bucket (m : hashmap) b i it : item_at m b i = Some it -> exists bs items, buckets m = Some bs /\ nth_error bs b = Some (Some items) /\ nth_error items i = Some it.
Proof.
  unfold item_at. destruct (buckets m) as [bs|]; [|discriminate]. destruct (nth_error bs b) as [[items|]|] eqn:E; try discriminate. eauto 6.
Qed.

Lemma item_lt (m : hashmap) b i it : inv m -> item_at m b i = Some it -> b < bucketCount m.
Proof.
  intros I H. destruct (item_bucket _ _ _ _ H) as (bs & items & E & E1 & _). rewrite <- (inv_len _ I _ E). eapply nth_error_Some_lt; eauto.
Qed.

(** ** Storing an item *)
Lemma live_items_upd (m : hashmap) bs b bk items : buckets m = Some bs -> nth_error bs b = Some bk ->
  length (live_items (mkMap (bucketCount m) (count m) (Some (upd bs b (Some items))))) + len_filter live (items_of bk) =
  length (live_items m) + len_filter live items.
Proof.
  intros E1 E2. unfold live_items. rewrite E1. cbn [buckets]. destruct (upd_split bs b bk (Some items) E2) as (l1 & l2 & -> & _ & ->).
  fold live. change (fun bk0 : option (list item) => match bk0 with Some l => l | None => [] end) with items_of.
  rewrite !map_app. cbn [map]. rewrite !concat_app. cbn [concat]. cbn [items_of].
  change (fun it : item => negb (is_empty (ihash it))) with live.
  change (@length item (filter live ?l)) with (len_filter live l). rewrite !len_filter_app. lia.
Qed.

Lemma set_item_ok (m : hashmap) b i it0 it : item_at m b i = Some it0 ->
  exists m', set_item m b i it = Some m' /\ bucketCount m' = bucketCount m /\ count m' = count m /\
    (forall bs, buckets m' = Some bs -> exists bs0, buckets m = Some bs0 /\ length bs = length bs0) /\
    (forall b' i', item_at m' b' i' = if (b' =? b) && (i' =? i) then Some it else item_at m b' i') /\
    length (live_items m') + (if live it0 then 1 else 0) = length (live_items m) + (if live it then 1 else 0).
Proof.
  intros H. destruct (item_bucket _ _ _ _ H) as (bs & items & E & E1 & E2). unfold set_item. rewrite E, E1.
  eexists. split; [reflexivity|]. cbn [bucketCount count buckets]. repeat split.
  - intros bs' X. injection X as <-. exists bs. split; [reflexivity|]. now rewrite upd_length.
  - intros b' i'. unfold item_at. cbn [buckets]. rewrite E. destruct (Nat.eqb_spec b' b) as [->|Hb].
    + rewrite nth_error_upd_eq by (eapply nth_error_Some_lt; eauto). rewrite E1. destruct (Nat.eqb_spec i' i) as [->|Hi]; cbn [andb].
      * apply nth_error_upd_eq. eapply nth_error_Some_lt; eauto.
      * rewrite nth_error_upd_ne by auto. reflexivity.
    + cbn [andb]. now rewrite nth_error_upd_ne by auto.
  - pose proof (live_items_upd m bs b (Some items) (upd items i it) E E1) as L. cbn [items_of] in L.
    pose proof (len_filter_upd live items i it0 it E2). lia.
Qed.

Lemma find_empty_ok (items : list item) : forall j, match find_empty items j with
  | Some i => j <= i /\ exists it, nth_error items (i - j) = Some it /\ live it = false
  | None => True end.
Proof.
  induction items as [|it t IH]; intros j; cbn [find_empty]; [exact I|]. destruct (is_empty (ihash it)) eqn:E.
  - split; [lia|]. exists it. rewrite Nat.sub_diag. unfold live. now rewrite E.
  - specialize (IH (S j)). destruct (find_empty t (S j)) as [i|]; [|exact I]. destruct IH as (H & x & H1 & H2). split; [lia|].
    exists x. replace (i - j) with (S (i - S j)) by lia. auto.
Qed.

Lemma add_value_ok (m : hashmap) b h k v n : b < bucketCount m -> (forall bs, buckets m = Some bs -> length bs = bucketCount m) -> bounded n m -> is_empty h = false ->
  exists m' i it, add_value m b h k v = Some (m', i) /\ bucketCount m' = bucketCount m /\ count m' = count m + 1 /\
    (forall bs, buckets m' = Some bs -> length bs = bucketCount m) /\
    (forall b' i', item_at m' b' i' = if (b' =? b) && (i' =? i) then Some it else item_at m b' i') /\
    (forall it0, item_at m b i = Some it0 -> live it0 = false) /\
    ihash it = match v with Some _ => N.lor h INIT | None => h end /\ ikey it = k /\ (v <> None -> ival it = v) /\
    i < S n /\ length (live_items m') = length (live_items m) + 1.
Proof.
  intros Hb Hlen Hbd He. unfold HashMapModel.add_value.
  set (h' := match v with Some _ => N.lor h INIT | None => h end).
  assert (He' : is_empty h' = false) by (unfold h'; destruct v; [now rewrite empty_init|exact He]).
  set (bs := match buckets m with Some bs => bs | None => repeat None (bucketCount m) end).
  assert (Lbs : length bs = bucketCount m). { unfold bs. destruct (buckets m) eqn:E; [auto|apply repeat_length]. }
  assert (IA : forall b' i', item_at m b' i' = match nth_error bs b' with Some (Some items) => nth_error items i' | _ => None end).
  { intros b' i'. unfold item_at, bs. destruct (buckets m) as [bs'|].
    - destruct (nth_error bs' b') as [[|]|]; reflexivity.
    - destruct (nth_error (repeat (@None (list item)) (bucketCount m)) b') as [[l|]|] eqn:E; try reflexivity.
      apply nth_error_In, repeat_spec in E. discriminate. }
  assert (LI : length (live_items m) = len_filter live (concat (map items_of bs))).
  { unfold live_items, bs. destruct (buckets m) as [bs'|]; [reflexivity|]. generalize (bucketCount m). induction n0; auto. }
  destruct (nth_error_lt_Some bs b ltac:(lia)) as [bk Eb]. rewrite Eb.
  change (match bk with Some items => items | None => [] end) with (items_of bk).
  assert (IB : forall i', item_at m b i' = nth_error (items_of bk) i').
  { intros i'. rewrite IA, Eb. destruct bk; [reflexivity|]. now destruct i'. }
  assert (LU : forall items, len_filter live (concat (map items_of (upd bs b (Some items)))) + len_filter live (items_of bk) = len_filter live (concat (map items_of bs)) + len_filter live items).
  { intros items. destruct (upd_split bs b bk (Some items) Eb) as (l1 & l2 & -> & _ & ->).
    rewrite !map_app. cbn [map]. rewrite !concat_app. cbn [concat items_of]. rewrite !len_filter_app. lia. }
  assert (UP : forall items b' i', item_at (mkMap (bucketCount m) (count m + 1) (Some (upd bs b (Some items)))) b' i' = if b' =? b then nth_error items i' else item_at m b' i').
  { intros items b' i'. unfold item_at at 1. cbn [buckets]. destruct (Nat.eqb_spec b' b) as [->|Hne].
    - now rewrite nth_error_upd_eq by lia.
    - rewrite nth_error_upd_ne by auto. rewrite IA. destruct (nth_error bs b') as [[|]|]; reflexivity. }
  assert (LN : forall x, live (mkItem h' k x) = true) by (intros x; unfold live; cbn [ihash]; now rewrite He').
  pose proof (find_empty_ok (items_of bk) 0) as FE. destruct (find_empty (items_of bk) 0) as [i|] eqn:Ef.
  - destruct FE as (_ & it0 & E0 & L0). rewrite Nat.sub_0_r in E0. rewrite E0.
    eexists _, i, (mkItem h' k (match v with Some _ => v | None => ival it0 end)). split; [reflexivity|]. cbn [bucketCount count buckets ihash ikey ival].
    split; [reflexivity|]. split; [reflexivity|]. split; [intros bs' X; injection X as <-; now rewrite upd_length|].
    split; [|split; [|split; [reflexivity|split; [reflexivity|split; [|split]]]]].
    + intros b' i'. rewrite UP. destruct (Nat.eqb_spec b' b) as [->|]; cbn [andb]; [|reflexivity]. rewrite IB.
      destruct (Nat.eqb_spec i' i) as [->|]; [apply nth_error_upd_eq; eapply nth_error_Some_lt; eauto|now rewrite nth_error_upd_ne by auto].
    + intros x X. rewrite IB, E0 in X. now injection X as <-.
    + destruct v; congruence.
    + assert (i < n) by (eapply Hbd; rewrite IB; eauto). lia.
    + unfold live_items at 1. cbn [buckets]. change (length (filter _ _)) with (len_filter live (concat (map items_of (upd bs b (Some (upd (items_of bk) i (mkItem h' k (match v with Some _ => v | None => ival it0 end)))))))).
      pose proof (LU (upd (items_of bk) i (mkItem h' k (match v with Some _ => v | None => ival it0 end)))) as A1.
      pose proof (len_filter_upd live (items_of bk) i it0 (mkItem h' k (match v with Some _ => v | None => ival it0 end)) E0) as A2.
      rewrite L0, LN in A2. lia.
  - eexists _, (length (items_of bk)), (mkItem h' k v). split; [reflexivity|]. cbn [bucketCount count buckets ihash ikey ival].
    split; [reflexivity|]. split; [reflexivity|]. split; [intros bs' X; injection X as <-; now rewrite upd_length|].
    split; [|split; [|split; [reflexivity|split; [reflexivity|split; [auto|split]]]]].
    + intros b' i'. rewrite UP. destruct (Nat.eqb_spec b' b) as [->|]; cbn [andb]; [|reflexivity]. rewrite IB.
      destruct (Nat.eqb_spec i' (length (items_of bk))) as [->|].
      * rewrite nth_error_app2, Nat.sub_diag by lia. reflexivity.
      * destruct (Nat.lt_ge_cases i' (length (items_of bk))).
        -- now rewrite nth_error_app1.
        -- rewrite (proj2 (nth_error_None _ _)) by (rewrite app_length; cbn; lia). symmetry. now apply nth_error_None.
    + intros x X. rewrite IB in X. apply nth_error_Some_lt in X. lia.
    + destruct (length (items_of bk)) as [|l] eqn:El; [lia|]. destruct (nth_error_lt_Some (items_of bk) l ltac:(lia)) as [x Hx].
      assert (l < n) by (eapply Hbd; rewrite IB; eauto). lia.
    + unfold live_items at 1. cbn [buckets]. change (length (filter _ _)) with (len_filter live (concat (map items_of (upd bs b (Some (items_of bk ++ [mkItem h' k v])))))).
      pose proof (LU (items_of bk ++ [mkItem h' k v])) as A1. rewrite len_filter_app, len_filter_cons, LN in A1.
      change (len_filter live []) with 0 in A1. lia.
Qed.

(** ** Finding a key *)
Lemma find_item_ok h k (items : list item) : forall j, match find_item eqk h k items j with
  | Some i => j <= i /\ exists it, nth_error items (i - j) = Some it /\ code (ihash it) = h /\ eqk k (ikey it) = true
  | None => forall i it, nth_error items i = Some it -> code (ihash it) = h -> eqk k (ikey it) = false end.
Proof.
  induction items as [|it t IH]; intros j; cbn [find_item]; [intros [|i]; discriminate|]. fold (code (ihash it)).
  destruct (N.eqb_spec h (code (ihash it))) as [E|E]; [destruct (eqk k (ikey it)) eqn:Ek|]; cbn [andb].
  - split; [lia|]. exists it. rewrite Nat.sub_diag. auto.
  - specialize (IH (S j)). destruct (find_item eqk h k t (S j)) as [i|].
    + destruct IH as (H & x & H1 & H2). split; [lia|]. exists x. replace (i - j) with (S (i - S j)) by lia. auto.
    + intros [|i] x X Cx; cbn in X; [now injection X as <-|eauto].
  - specialize (IH (S j)). destruct (find_item eqk h k t (S j)) as [i|].
    + destruct IH as (H & x & H1 & H2). split; [lia|]. exists x. replace (i - j) with (S (i - S j)) by lia. auto.
    + intros [|i] x X Cx; cbn in X; [injection X as <-; congruence|eauto].
Qed.

Lemma get_key_ok (m : hashmap) k : inv m -> exists r, get_key m k = Some (masked k, home (bucketCount m) k, r) /\
  match r with
  | Some i => exists it, item_at m (home (bucketCount m) k) i = Some it /\ live it = true /\ eqk k (ikey it) = true
  | None => forall b i it, item_at m b i = Some it -> live it = true -> eqk k (ikey it) = false
  end.
Proof.
  intros I. unfold HashMapModel.get_key. fold (masked k). fold (home (bucketCount m) k). destruct (buckets m) as [bs|] eqn:Eb.
  2:{ eexists. split; [reflexivity|]. intros b i it X. unfold item_at in X. rewrite Eb in X. discriminate. }
  pose proof (home_lt (bucketCount m) k (inv_bc m I)) as HL. destruct (nth_error_lt_Some bs (home (bucketCount m) k)) as [bk E].
  { rewrite (inv_len m I bs Eb). exact HL. }
  rewrite E.
  assert (NO : (forall i it, item_at m (home (bucketCount m) k) i = Some it -> live it = true -> eqk k (ikey it) = false) ->
    forall b i it, item_at m b i = Some it -> live it = true -> eqk k (ikey it) = false).
  { intros H b i it X Lv. destruct (eqk k (ikey it)) eqn:Ek; [|reflexivity]. exfalso.
    destruct (inv_item m I b i it X Lv) as (_ & Hb & _). assert (home (bucketCount m) (ikey it) = home (bucketCount m) k) as Hh.
    { unfold home, masked. now rewrite (eqk_hash _ _ Ek). }
    rewrite Hb, Hh in X. rewrite (H i it X Lv) in Ek. discriminate. }
  destruct bk as [items|].
  - eexists. split; [reflexivity|]. pose proof (find_item_ok (masked k) k items 0) as F. destruct (find_item eqk (masked k) k items 0) as [i|].
    + destruct F as (_ & it & F1 & F2 & F3). rewrite Nat.sub_0_r in F1. exists it. split; [unfold item_at; now rewrite Eb, E|]. split; [|exact F3].
      unfold live. destruct (is_empty (ihash it)) eqn:Em; [|reflexivity]. exfalso. eapply code_empty; eauto.
    + apply NO. intros i it X Lv. unfold item_at in X. rewrite Eb, E in X.
      assert (item_at m (home (bucketCount m) k) i = Some it) as X' by (unfold item_at; now rewrite Eb, E).
      destruct (inv_item m I _ _ _ X' Lv) as (Cd & Hh & _). destruct (eqk k (ikey it)) eqn:Ek; [|reflexivity].
      rewrite <- Ek. apply (F i it X). rewrite Cd. unfold masked. now rewrite (eqk_hash _ _ Ek).
  - eexists. split; [reflexivity|]. cbv beta iota. apply NO. intros i it X. unfold item_at in X. rewrite Eb, E in X. discriminate.
Qed.

(** ** The state a map stands for *)
Definition view (it : item) : option (K * option V) :=
  if live it then Some (ikey it, if is_init (ihash it) then ival it else None) else None.

Definition abs (m : hashmap) : state K V := fun e =>
  match dec (bcN m) e with
  | Some (b, i) => match item_at m (N.to_nat b) (N.to_nat i) with Some it => view it | None => None end
  | None => None
  end.

Definition encm (m : hashmap) (b i : nat) : N := enc (bcN m) (N.of_nat b) (N.of_nat i).

Lemma fits_bc n bc : fits n bc -> (N.of_nat bc + 1 < 2 ^ 63)%N.
Proof.
  intros (s & H1 & H2 & _). eapply N.lt_le_trans; [exact H1|]. apply N.pow_le_mono_r; lia.
Qed.

Lemma fits_item n bc i : fits n bc -> i < n -> (N.of_nat i * 2 ^ shift (N.of_nat bc) < 2 ^ 64)%N.
Proof.
  intros (s & H1 & H2 & H3) Hi. assert (shift (N.of_nat bc) <= s)%N as Hs by (unfold shift; eapply size_lt; eauto).
  assert (2 ^ shift (N.of_nat bc) <= 2 ^ s)%N by (apply N.pow_le_mono_r; lia). pose proof (pow2_pos s).
  assert (N.of_nat i * 2 ^ shift (N.of_nat bc) <= N.of_nat i * 2 ^ s)%N by (now apply N.mul_le_mono_l).
  assert (N.of_nat i * 2 ^ s < N.of_nat n * 2 ^ s)%N by (apply N.mul_lt_mono_pos_r; lia). lia.
Qed.

Section Fits.
Variable (N0 : nat).

Lemma to_entry_is m b i : fits N0 (bucketCount m) -> b < bucketCount m -> i < N0 -> to_entry m b i = Some (encm m b i).
Proof.
  intros F Hb Hi. unfold to_entry. rewrite index_to_entry_is by (try lia; eapply fits_bc; eauto).
  pose proof (fits_item _ _ _ F Hi). destruct (N.ltb_spec (N.of_nat i * 2 ^ shift (bcN m)) (2 ^ 64)); [reflexivity|lia].
Qed.

Lemma dec_encm m b i : fits N0 (bucketCount m) -> b < bucketCount m -> i < N0 -> dec (bcN m) (encm m b i) = Some (N.of_nat b, N.of_nat i).
Proof. intros F Hb Hi. apply dec_enc; [eapply fits_bc; eauto|lia|]. eapply fits_item; eauto. Qed.

Lemma abs_at m b i it : fits N0 (bucketCount m) -> b < bucketCount m -> i < N0 -> item_at m b i = Some it -> abs m (encm m b i) = view it.
Proof. intros F Hb Hi E. unfold abs. rewrite dec_encm by auto. now rewrite !Nat2N.id, E. Qed.

Lemma abs_none m b i : fits N0 (bucketCount m) -> b < bucketCount m -> i < N0 -> (forall it, item_at m b i = Some it -> live it = false) -> abs m (encm m b i) = None.
Proof.
  intros F Hb Hi E. unfold abs. rewrite dec_encm by auto. rewrite !Nat2N.id. destruct (item_at m b i) as [it|]; [|reflexivity].
  unfold view. now rewrite (E it eq_refl).
Qed.

Lemma abs_live m e k c : fits N0 (bucketCount m) -> abs m e = Some (k, c) ->
  exists b i it, e = encm m b i /\ item_at m b i = Some it /\ live it = true /\ k = ikey it /\ c = (if is_init (ihash it) then ival it else None) /\ e <> 0%N.
Proof.
  intros F E. unfold abs in E. destruct (dec (bcN m) e) as [[b i]|] eqn:D; [|discriminate].
  apply (enc_dec (bcN m) (fits_bc _ _ F)) in D as (-> & D1 & D2). destruct (item_at m (N.to_nat b) (N.to_nat i)) as [it|] eqn:I; [|discriminate].
  unfold view in E. destruct (live it) eqn:Lv; [|discriminate]. injection E as <- <-. exists (N.to_nat b), (N.to_nat i), it.
  unfold encm. rewrite !N2Nat.id. repeat split; auto.
Qed.

Lemma entry_item_at m b i it : inv m -> fits N0 (bucketCount m) -> i < N0 -> item_at m b i = Some it -> live it = true ->
  entry_item m (encm m b i) = Some (Some (b, i, it)).
Proof.
  intros I F Hi E Lv. pose proof (item_lt _ _ _ _ I E). unfold entry_item, encm. rewrite entry_to_index_enc by (first [lia|eapply fits_bc; eauto|eapply fits_item; eauto]).
  rewrite !Nat2N.id, E. unfold live in Lv. now destruct (is_empty (ihash it)).
Qed.

Lemma encm_inj m b i b' i' : fits N0 (bucketCount m) -> b < bucketCount m -> b' < bucketCount m -> encm m b i = encm m b' i' -> b = b' /\ i = i'.
Proof.
  intros F Hb Hb' E. unfold encm in E. apply enc_inj in E; try lia. eapply fits_bc; eauto.
Qed.

Lemma abs_update m m' b i it : fits N0 (bucketCount m) -> bucketCount m' = bucketCount m -> b < bucketCount m -> i < N0 ->
  (forall b' i', item_at m' b' i' = if (b' =? b) && (i' =? i) then Some it else item_at m b' i') ->
  same (abs m') (put (abs m) (encm m b i) (view it)).
Proof.
  intros F EB Hb Hi U e. unfold put, abs. rewrite EB. destruct (dec (bcN m) e) as [[b' i']|] eqn:D.
  - rewrite U. pose proof (enc_dec (bcN m) (fits_bc _ _ F) _ _ _ D) as (Ee & _ & _). destruct (N.eqb_spec e (encm m b i)) as [X|X].
    + rewrite X, dec_encm in D by auto. injection D as <- <-. rewrite !Nat2N.id, !Nat.eqb_refl. reflexivity.
    + destruct (Nat.eqb_spec (N.to_nat b') b) as [Xb|]; cbn [andb]; [|reflexivity]. destruct (Nat.eqb_spec (N.to_nat i') i) as [Xi|]; [|reflexivity].
      exfalso. apply X. rewrite Ee. unfold encm. rewrite <- Xb, <- Xi, !N2Nat.id. reflexivity.
  - destruct (N.eqb_spec e (encm m b i)) as [X|X]; [|reflexivity]. rewrite X, dec_encm in D by auto. discriminate.
Qed.

Lemma inv_update m m' b i it : inv m -> bucketCount m' = bucketCount m ->
  (forall bs, buckets m' = Some bs -> length bs = bucketCount m) -> count m' = length (live_items m') ->
  (forall b' i', item_at m' b' i' = if (b' =? b) && (i' =? i) then Some it else item_at m b' i') ->
  (live it = true -> code (ihash it) = masked (ikey it) /\ b = home (bucketCount m) (ikey it) /\ (is_init (ihash it) = true -> ival it <> None)) ->
  (live it = true -> forall b' i' it', item_at m b' i' = Some it' -> live it' = true -> eqk (ikey it) (ikey it') = true -> b' = b /\ i' = i) ->
  inv m'.
Proof.
  intros I EB EL EC U H1 H2. constructor.
  - rewrite EB. apply (inv_bc m I).
  - intros bs X. rewrite EB. auto.
  - intros b' i' it' X Lv. rewrite U in X. rewrite EB. destruct ((b' =? b) && (i' =? i)) eqn:Q; [|eapply inv_item; eauto].
    apply andb_true_iff in Q as [Q _]. apply Nat.eqb_eq in Q as ->. injection X as <-. auto.
  - intros b1 i1 it1 b2 i2 it2 X1 L1 X2 L2 Ek. rewrite U in X1, X2.
    destruct ((b1 =? b) && (i1 =? i)) eqn:Q1; destruct ((b2 =? b) && (i2 =? i)) eqn:Q2.
    + apply andb_true_iff in Q1 as [Q1 Q1'], Q2 as [Q2 Q2']. apply Nat.eqb_eq in Q1, Q1', Q2, Q2'. lia.
    + apply andb_true_iff in Q1 as [Q1 Q1']. apply Nat.eqb_eq in Q1, Q1'. injection X1 as <-. destruct (H2 L1 _ _ _ X2 L2 Ek). lia.
    + apply andb_true_iff in Q2 as [Q2 Q2']. apply Nat.eqb_eq in Q2, Q2'. injection X2 as <-. rewrite eqk_sym in Ek. destruct (H2 L2 _ _ _ X1 L1 Ek). lia.
    + eapply (inv_uniq m I); eauto.
  - exact EC.
Qed.

Lemma bounded_update m m' b i it n : bounded n m -> i < n ->
  (forall b' i', item_at m' b' i' = if (b' =? b) && (i' =? i) then Some it else item_at m b' i') -> bounded n m'.
Proof.
  intros B Hi U b' i' it' X. rewrite U in X. destruct ((b' =? b) && (i' =? i)) eqn:Q; [|eapply B; eauto].
  apply andb_true_iff in Q as [_ Q]. apply Nat.eqb_eq in Q. lia.
Qed.

Lemma bounded_le m n n' : n <= n' -> bounded n m -> bounded n' m.
Proof. intros H B b i it X. specialize (B b i it X). lia. Qed.

(** [n] bounds the buckets, [N0] is what entries can number. *)
Definition rel (n : nat) (m : hashmap) (st : state K V) : Prop :=
  inv m /\ bounded n m /\ fits N0 (bucketCount m) /\ same st (abs m) /\ count m <= n.

Lemma same_trans (a b c : state K V) : same a b -> same b c -> same a c.
Proof. intros H1 H2 e. now rewrite H1. Qed.

Lemma same_sym (a b : state K V) : same a b -> same b a.
Proof. intros H e. auto. Qed.

Lemma put_same (a b : state K V) e x : same a b -> same (put a e x) (put b e x).
Proof. intros H e'. unfold put. now rewrite H. Qed.

Lemma found m st b i it k n : rel n m st -> n <= N0 -> item_at m b i = Some it -> live it = true -> eqk k (ikey it) = true ->
  present eqk st k (encm m b i) (ikey it) (if is_init (ihash it) then ival it else None) /\ encm m b i <> 0%N /\ b < bucketCount m /\ i < N0.
Proof.
  intros (I & B & F & S & C) Hn E Lv Ek. pose proof (item_lt _ _ _ _ I E) as Hb. pose proof (B _ _ _ E) as Hi. split; [|split; [apply enc_nz|split; [auto|lia]]].
  split; [|exact Ek]. rewrite S, (abs_at m b i it) by (auto; lia). unfold view. now rewrite Lv.
Qed.

Lemma missing m st k n : rel n m st -> (forall b i it, item_at m b i = Some it -> live it = true -> eqk k (ikey it) = false) -> absent eqk st k.
Proof.
  intros (I & B & F & S & C) H e k0 c X. rewrite S in X. destruct (abs_live m e k0 c F X) as (b & i & it & _ & E & Lv & -> & _). eauto.
Qed.

(** Writing an item over a live one with an equal code and the same key. *)
Lemma rewrite_item n m st b i it h v : rel n m st -> n <= N0 -> item_at m b i = Some it -> live it = true -> is_empty h = false -> code h = code (ihash it) ->
  is_init h = true ->
  exists m', set_item m b i (mkItem h (ikey it) (Some v)) = Some m' /\ rel n m' (put st (encm m b i) (Some (ikey it, Some v))).
Proof.
  intros R Hn E Lv He Hc Hi. pose proof (found m st b i it (ikey it) n R Hn E Lv (eqk_refl _)) as (_ & _ & Hb & Hi').
  destruct R as (I & B & F & S & C). destruct (set_item_ok m b i it (mkItem h (ikey it) (Some v)) E) as (m' & Es & EB & EC & EL & U & CL).
  assert (Ln : live (mkItem h (ikey it) (Some v)) = true) by (unfold live; cbn [ihash]; now rewrite He).
  rewrite Lv, Ln in CL. exists m'. split; [exact Es|]. split; [|split; [|split; [|split]]].
  - eapply (inv_update m m' b i _ I EB); [| |exact U| |].
    + intros bs X. destruct (EL bs X) as (bs0 & X0 & ->). now apply (inv_len m I).
    + rewrite EC, (inv_count m I). lia.
    + intros _. cbn [ihash ikey ival]. destruct (inv_item m I _ _ _ E Lv) as (C1 & C2 & C3). rewrite Hc. repeat split; auto. discriminate.
    + intros _ b' i' it' X' L' Ek. cbn [ikey] in Ek. destruct (inv_uniq m I _ _ _ _ _ _ E Lv X' L' Ek). auto.
  - eapply bounded_update; [exact B| |exact U]. eapply B; eauto.
  - now rewrite EB.
  - apply same_sym. eapply same_trans; [eapply abs_update; eauto|]. unfold view. rewrite Ln. cbn [ihash ikey ival]. rewrite Hi. apply put_same. now apply same_sym.
  - lia.
Qed.

Lemma add_item n m st k v : rel n m st -> S n <= N0 -> (forall b i it, item_at m b i = Some it -> live it = true -> eqk k (ikey it) = false) ->
  exists m' i, add_value m (home (bucketCount m) k) (masked k) k v = Some (m', i) /\ bucketCount m' = bucketCount m /\ i < N0 /\
    st (encm m (home (bucketCount m) k) i) = None /\ rel (S n) m' (put st (encm m (home (bucketCount m) k) i) (Some (k, v))).
Proof.
  intros (I & B & F & S & C) Hn Hk. pose proof (home_lt (bucketCount m) k (inv_bc m I)) as Hb.
  destruct (add_value_ok m (home (bucketCount m) k) (masked k) k v n Hb (inv_len m I) B (empty_masked _)) as
    (m' & i & it & Ea & EB & EC & EL & U & Em & Ih & Ik & Iv & Hi & CL).
  assert (Ln : live it = true). { unfold live. rewrite Ih. destruct v; [rewrite empty_init|]; unfold masked; now rewrite empty_masked. }
  exists m', i. split; [exact Ea|]. split; [exact EB|]. split; [lia|]. split; [rewrite S; apply abs_none; auto; lia|]. split; [|split; [|split; [|split]]].
  - eapply (inv_update m m' _ i it I EB); [exact EL| |exact U| |].
    + rewrite EC, (inv_count m I). lia.
    + intros _. rewrite Ih, Ik. split; [|split; [reflexivity|]].
      * destruct v; [rewrite code_init|]; apply code_masked.
      * destruct v; [intros _; rewrite Iv by discriminate; discriminate|]. unfold masked. rewrite init_masked. discriminate.
    + intros _ b' i' it' X' L' Ek. rewrite Ik, (Hk _ _ _ X' L') in Ek. discriminate.
  - eapply bounded_update; [eapply (bounded_le _ n (Datatypes.S n)); eauto|exact Hi|exact U].
  - now rewrite EB.
  - apply same_sym. eapply same_trans; [apply (abs_update m m' _ i it F EB Hb); [lia|exact U]|]. unfold view. rewrite Ln, Ih, Ik.
    destruct v as [v|].
    + rewrite init_init, Iv by discriminate. apply put_same. now apply same_sym.
    + unfold masked. rewrite init_masked. apply put_same. now apply same_sym.
  - lia.
Qed.

Lemma remove_item_ok n m st b i it : rel n m st -> n <= N0 -> item_at m b i = Some it -> live it = true ->
  exists m', remove_item m (encm m b i) = Some m' /\ rel n m' (put st (encm m b i) None).
Proof.
  intros R Hn E Lv. pose proof (found m st b i it (ikey it) n R Hn E Lv (eqk_refl _)) as (_ & _ & Hb & Hi').
  destruct R as (I & B & F & S & C). unfold remove_item. rewrite (entry_item_at m b i it) by auto.
  set (it' := mkItem _ (ikey it) (ival it)). destruct (set_item_ok m b i it it' E) as (m' & Es & EB & EC & EL & U & CL). rewrite Es.
  assert (Ln : live it' = false) by (unfold live, it'; cbn [ihash]; now rewrite removed_empty).
  rewrite Lv, Ln in CL. eexists. split; [reflexivity|].
  assert (IE : forall b' i', item_at (mkMap (bucketCount m') (count m' - 1) (buckets m')) b' i' = item_at m' b' i') by reflexivity.
  split; [|split; [|split; [|split]]].
  - eapply (inv_update m _ b i it' I); cbn [bucketCount count buckets]; [exact EB| | |exact U| |].
    + intros bs X. destruct (EL bs X) as (bs0 & X0 & ->). now apply (inv_len m I).
    + change (live_items _) with (live_items m'). rewrite EC, (inv_count m I). lia.
    + rewrite Ln. discriminate.
    + rewrite Ln. discriminate.
  - intros b' i' x X. rewrite IE in X. revert X. eapply bounded_update; [exact B| |exact U]. eapply B; eauto.
  - cbn [bucketCount]. now rewrite EB.
  - apply same_sym. change (abs (mkMap (bucketCount m') (count m' - 1) (buckets m'))) with (abs m').
    eapply same_trans; [eapply abs_update; eauto|]. unfold view. rewrite Ln. apply put_same. now apply same_sym.
  - cbn [count]. lia.
Qed.

End Fits.
End Proofs.
