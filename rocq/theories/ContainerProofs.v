(** Proofs about copying containers through reflection. *)
From Verif Require Import Base LinkedListModel LinkedListSpec LinkedListProofs QueueModel QueueSpec QueueProofs EnumerableModel EnumerableSpec MemoryProofs EnumerableProofs ContainerModel ContainerSpec.
From Verif Require ArrayModel ArraySpec ArrayProofs ListModel ListSpec ListProofs MapperModel.

(** ** Walking *)
Section Fill.
Context {St A C : Type} (step : St -> action -> option (St * result)) (mem : N -> A) (put : C -> A -> option C) (xs : list N).

Fixpoint puts (c : C) (vs : list A) : option C :=
  match vs with [] => Some c | v :: t => let? c := put c v in puts c t end.

Lemma fill_next : forall fuel s i c, length xs - i <= fuel -> i < length xs ->
  history_ok step xs s (Some i) (repeat Next fuel) -> fill step mem put fuel s (nth_error xs i) c = puts c (map mem (skipn i xs)).
Proof.
  induction fuel as [|fuel IH]; intros s i c Hf Hi H; [lia|].
  destruct (nth_error_lt_Some xs i Hi) as [x Hx]. rewrite Hx. cbn [fill]. cbn [repeat history_ok] in H.
  destruct (H I) as (s' & E & H'). rewrite E. cbn [move value] in *.
  assert (Sk : skipn i xs = x :: skipn (S i) xs).
  { clear - Hx. revert i Hx. induction xs as [|y l IH]; intros [|i] Hx; cbn in *; try discriminate; [now injection Hx as ->|auto]. }
  rewrite Sk. cbn [map puts]. destruct (put c (mem x)) as [c'|]; [|reflexivity]. destruct (Nat.ltb_spec (S i) (length xs)).
  - cbn [value]. rewrite IH; auto. lia.
  - destruct fuel; cbn [value fill]; rewrite skipn_all2 by lia; reflexivity.
Qed.

Lemma fill_all_is s c fuel : enumerates step xs s -> length xs <= fuel -> fill_all step mem put fuel s c = puts c (map mem xs).
Proof.
  intros H Hf. unfold fill_all. assert (F : value xs (first xs) = nth_error xs 0) by (unfold first; destruct xs; reflexivity).
  specialize (H (Current :: repeat Next fuel)). cbn [history_ok] in H. destruct H as (s' & E & H').
  { unfold first. destruct xs; cbn; auto. }
  rewrite E. cbn [move] in *. rewrite F in *. unfold first in *. destruct (Nat.eqb_spec (length xs) 0).
  - destruct xs; [|discriminate]. destruct fuel; reflexivity.
  - rewrite fill_next; auto; lia.
Qed.

End Fill.

(** ** The handle *)
Lemma show_contents {C} i (c : C) : by_contents i -> show i (Some c) = Contents c.
Proof. intros (H1 & H2). destruct i; try congruence; reflexivity. Qed.

Lemma show_handle {C} i (h : option C) : ~ by_contents i \/ h = None -> show i h = Handle h.
Proof. unfold by_contents. intros [H| ->]; [|destruct i; reflexivity]. destruct i; try reflexivity; exfalso; apply H; split; discriminate. Qed.

(** ** Arrays *)
Lemma all_set_map {A} (vs : list A) : all_set (map Some vs) = Some vs.
Proof. induction vs as [|v t IH]; cbn [map all_set]; [reflexivity|]. now rewrite IH. Qed.

Lemma get_cell {A} (a : ArrayModel.array A) i x : ArrayModel.step a (ArrayModel.Get i) true = Some (a, ArrayModel.RElem (Some x)) ->
  exists d, ArrayModel.data a = Some d /\ nth_error d i = Some (Some x).
Proof.
  cbn [ArrayModel.step]. destruct (i <? ArrayModel.count a); [|discriminate]. destruct (ArrayModel.data a) as [d|]; [|discriminate].
  intros E. exists d. split; [reflexivity|]. destruct (nth_error d i); [|discriminate]. now injection E as ->.
Qed.

Lemma array_cells {A} (a : ArrayModel.array A) (vs : list A) : ArraySpec.holds a (map Some vs) ->
  firstn (ArrayModel.count a) (match ArrayModel.data a with Some d => d | None => [] end) = map Some vs.
Proof.
  intros (Hc & Hg). rewrite map_length in Hc. rewrite Hc. apply list_ext_nth_error. intros i. destruct (Nat.lt_ge_cases i (length vs)) as [L|L].
  - destruct (nth_error vs i) as [v|] eqn:Ev; [|apply nth_error_None in Ev; lia].
    assert (X : nth_error (map Some vs) i = Some (Some v)) by (now apply map_nth_error). destruct (get_cell a i v (Hg i v X)) as (d & -> & Ed).
    rewrite nth_error_firstn. destruct (Nat.ltb_spec i (length vs)); [congruence|lia].
  - rewrite (proj2 (nth_error_None (map Some vs) i)) by (rewrite map_length; lia). apply nth_error_None. rewrite firstn_length. lia.
Qed.

Lemma build_array_is {A} (a : ArrayModel.array A) (vs : list A) chunk created : ArraySpec.holds a (map Some vs) -> 1 <= chunk -> vs <> [] ->
  exists b, build_array chunk created true a = Some b /\ ArraySpec.holds b (map Some vs).
Proof.
  intros H Hc Hv. unfold build_array. rewrite (array_cells a vs H), all_set_map. destruct H as (Ec & _). rewrite map_length in Ec. rewrite Ec.
  destruct (ArrayProofs.step_sim (ArrayModel.create chunk created) [] (ArrayModel.AppendMany (Some vs) (length vs)) true (ArrayProofs.rep_create chunk created Hc)) as (b & r & l & E & S & R).
  { cbn [ArraySpec.valid]. split; [destruct vs; [congruence|cbn; lia]|reflexivity]. }
  rewrite E. exists b. split; [reflexivity|]. apply ArrayProofs.rep_holds. destruct S as [(_ & ->)|(X & _)]; [exact R|discriminate].
Qed.

(** ** Lists *)
Section List.
Context {A : Type}.

Lemma puts_list (env : nat -> ListModel.env) : (forall k, snd (env k) = true) -> forall (vs : list A) k l xs, ListProofs.inv l xs ->
  exists l', puts (put_list env) (k, l) vs = Some (k + length vs, l') /\ ListProofs.inv l' (xs ++ map Some vs).
Proof.
  intros He. induction vs as [|v t IH]; intros k l xs I; cbn [puts map length].
  - exists l. rewrite Nat.add_0_r, app_nil_r. auto.
  - unfold put_list at 1. cbn [fst snd]. destruct (ListProofs.append_sim l xs (Some v) (env k) I (or_intror (He k))) as (l1 & r & xs1 & E & S & I1).
    cbn [ListModel.step] in E. rewrite E. destruct S as [(_ & ->)|(X & _)]; [|rewrite He in X; discriminate].
    destruct (IH (S k) l1 _ I1) as (l' & -> & I'). exists l'. rewrite <- app_assoc in I'. cbn [app] in I'. split; [f_equal; f_equal; lia|exact I'].
Qed.

Lemma read_cell (l : ListModel.plist A) xs i v : ListProofs.inv l xs -> ListModel.step l (ListModel.Get i) (true, true) = Some (l, ListModel.RElem (Some v)) ->
  i < ListModel.count l ->
  exists a, nth_error (ListModel.pages l) (i / ListModel.pageSize l) = Some a /\
    ArrayModel.step a (ArrayModel.Get (i mod ListModel.pageSize l)) true = Some (a, ArrayModel.RElem (Some v)).
Proof.
  intros I E Hi. destruct (ListProofs.locate l xs i I Hi) as (pre & x & post & F & _ & L & G & _ & Hx & n & m & _ & _ & _ & _ & _ & Hp & _).
  cbn [ListModel.step] in E. destruct (Nat.ltb_spec i (ListModel.count l)); [|lia]. rewrite G, L in E.
  rewrite Nat.mod_eq by lia. rewrite (Nat.mul_comm (ListModel.pageSize l)).
  unfold ListModel.read_page, ListModel.on_page in E. destruct (nth_error (ListModel.pages l) (i / ListModel.pageSize l)) as [a|]; [|discriminate].
  exists a. split; [reflexivity|]. set (j := i - i / ListModel.pageSize l * ListModel.pageSize l) in *.
  cbn [ArrayModel.step] in *. destruct (j <? ArrayModel.count a); [|discriminate]. destruct (ArrayModel.data a) as [d|]; [|discriminate].
  destruct (nth_error d j) as [c|]; [|discriminate]. now injection E as ->.
Qed.

Lemma build_list_is mem storage size fuel chunk page env (l : ListModel.plist A) xs (vs : list A) :
  ListProofs.inv l xs -> ListSpec.holds l (map Some vs) -> in_memory mem storage size l -> length vs <= fuel ->
  1 <= chunk -> 1 <= page -> (forall k, snd (env k) = true) ->
  exists l', build_list mem storage size fuel chunk page env l = Some l' /\ ListSpec.holds l' (map Some vs).
Proof.
  intros I (Hc & Hg) Hm Hf H1 H2 He. pose proof (ListProofs.inv_count l xs I) as Cn. rewrite map_length in Hc.
  unfold build_list. destruct (list_enumerates storage size l xs I) as (b & -> & En).
  destruct (ListProofs.create_sim (A := A) chunk page (env 0) H1 H2) as (l0 & -> & I0).
  rewrite (fill_all_is _ mem (put_list env) _ b (1, l0) fuel En) by (rewrite element_addresses_length; lia).
  assert (X : map mem (element_addresses storage size (length xs) (ListModel.pageSize l)) = vs).
  { apply list_ext_nth_error. intros i. destruct (Nat.lt_ge_cases i (length vs)) as [L|L].
    - destruct (nth_error vs i) as [v|] eqn:Ev; [|apply nth_error_None in Ev; lia].
      erewrite map_nth_error; [|apply element_addresses_nth; lia]. f_equal.
      assert (Y : nth_error (map Some vs) i = Some (Some v)) by (now apply map_nth_error).
      destruct (read_cell l xs i v I (Hg i v Y) ltac:(lia)) as (a & E1 & E2). exact (Hm _ _ _ _ E1 E2).
    - rewrite (proj2 (nth_error_None vs i)) by lia. apply nth_error_None. rewrite map_length, element_addresses_length. lia. }
  rewrite X. destruct (puts_list env He vs 1 l0 [] I0) as (l' & -> & I'). exists l'. split; [reflexivity|]. now apply ListProofs.inv_holds.
Qed.

End List.

(** ** Linked lists *)
Section Linked.
Context {A : Type}.

Lemma lone h n : is_list (hset h n (Some (mkNode None None))) [n].
Proof.
  split; [repeat constructor; intros []|]. intros [|i] a E; cbn in E; [injection E as <-|destruct i; discriminate]. rewrite hset_eq. reflexivity.
Qed.

Lemma map_ext_off (f g : addr -> A) n (l : list addr) : ~ In n l -> (forall b, b <> n -> g b = f b) -> map g l = map f l.
Proof. intros H E. apply map_ext_in. intros a Ha. apply E. intros ->. auto. Qed.

Lemma puts_linked fuel : forall (vs : list A) s nl first last us,
  is_list (n_heap s) nl -> hd_error nl = Some first -> In last nl -> map (n_value s) nl = us ->
  NoDup (n_next s) -> disjoint nl (n_next s) -> length vs <= length (n_next s) -> length nl + length vs <= fuel ->
  exists s' last' nl', puts (put_linked fuel) (s, Some (first, last)) vs = Some (s', Some (first, last')) /\
    is_list (n_heap s') (nl ++ nl') /\ map (n_value s') (nl ++ nl') = us ++ vs.
Proof.
  induction vs as [|v t IH]; intros s nl first last us HL Hh Hl Hu ND Dj Hn Hf; cbn [puts].
  - exists s, last, []. rewrite !app_nil_r. auto.
  - unfold put_linked at 1. unfold create_node. cbn [fst snd]. destruct s as [h pay nx]. cbn [n_heap n_value n_next] in *.
    destruct nx as [|n nx]; [cbn in Hn; lia|]. cbn [n_heap n_value n_next].
    assert (Nn : ~ In n nl) by (intros X; apply (Dj n X); now left).
    destruct (in_split _ _ Hl) as (L1 & L2 & EL).
    assert (HL' : is_list (hset h n (Some (mkNode None None))) (L1 ++ last :: L2)).
    { rewrite <- EL. apply (is_list_frame h); [exact HL|]. intros a Ha. apply hset_ne. intros ->. auto. }
    destruct (append_ok _ L1 last L2 [] n [] 2 fuel HL' (lone h n)) as (h' & E & HL2 & U).
    { rewrite <- EL. intros a Ha [<-|[]]. auto. }
    { rewrite <- EL. cbn [length] in Hf. lia. } { cbn [length app] in *. lia. } { lia. }
    rewrite E. rewrite <- EL in HL2. cbn [app] in HL2.
    destruct (IH (mkNodes h' (fun b => if b =? n then v else pay b) nx) (nl ++ [n]) first n (us ++ [v])) as (s' & last' & nl' & E' & HL3 & Hm); cbn [n_heap n_value n_next].
    + exact HL2.
    + destruct nl; [discriminate|exact Hh].
    + apply in_or_app. right. now left.
    + rewrite map_app. cbn [map]. rewrite Nat.eqb_refl. f_equal. rewrite (map_ext_off pay _ n nl Nn); [exact Hu|].
      intros b Hb. destruct (Nat.eqb_spec b n); [congruence|reflexivity].
    + inversion ND; auto.
    + intros a Ha Hx. apply in_app_iff in Ha. destruct Ha as [Ha|[<-|[]]]; [apply (Dj a Ha); now right|]. inversion ND; auto.
    + cbn [length] in Hn. lia.
    + rewrite app_length. cbn [length] in *. lia.
    + exists s', last', (n :: nl'). rewrite <- !app_assoc in *. cbn [app] in *. auto.
Qed.

Lemma build_linked_is mem data fuel h l a (s : nodes A) : is_list h l -> In a l -> length l <= fuel -> enough s (length l) ->
  exists s' nl, build_linked mem data fuel s (h, a) = Some (s', hd_error nl) /\ is_list (n_heap s') nl /\
    map (n_value s') nl = map (fun n => mem (data n)) l.
Proof.
  intros HL Ha Hf (ND & En). unfold build_linked.
  assert (NE : l <> []) by (intros ->; destruct Ha). apply In_nth_error in Ha as Hj. destruct Hj as [j Hj]. pose proof (nth_error_Some_lt _ _ _ Hj).
  unfold linked_create. rewrite (get_head_at h l HL j a fuel Hj ltac:(lia)). destruct l as [|x t]; [congruence|]. cbn [nth_error].
  assert (E : enumerates (linked_step fuel h data) (map data (x :: t)) (mkInternal (Some a) (Some x) (Some x) None)).
  { apply (sim_enumerates _ _ (linked_rel data (x :: t)) (linked_sim fuel h data (x :: t) HL NE Hf)). unfold linked_rel, first, cursor_ok, at_node. cbn [length map Nat.eqb i_ptr i_extra0 i_extra1 i_ref nth_error].
    repeat split; [lia|now left|]. exists a. auto. }
  rewrite (fill_all_is _ mem (put_linked fuel) _ _ (s, None) fuel E) by (rewrite map_length; exact Hf). rewrite map_map. cbn [map puts].
  unfold put_linked at 1. unfold create_node. cbn [fst snd]. destruct s as [hp pay nx]. cbn [n_heap n_value n_next] in *. destruct nx as [|n nx]; [cbn in En; lia|].
  destruct (puts_linked fuel (map (fun n => mem (data n)) t) (mkNodes (hset hp n (Some (mkNode None None))) (fun b => if b =? n then mem (data x) else pay b) nx) [n] n n [mem (data x)])
    as (s' & last' & nl' & E' & HL' & Hm); cbn [n_heap n_value n_next].
  - apply lone.
  - reflexivity.
  - now left.
  - cbn [map]. now rewrite Nat.eqb_refl.
  - inversion ND; auto.
  - intros b [<-|[]]. inversion ND; auto.
  - rewrite map_length. cbn [length] in En. lia.
  - rewrite map_length. cbn [length] in *. lia.
  - rewrite E'. exists s', (n :: nl'). cbn [fst snd option_map hd_error]. auto.
Qed.

(** ** Queues *)
Lemma puts_queue fuel : 1 <= fuel -> forall (vs : list A) s q nl us,
  qinv (n_heap s, q) nl -> map (n_value s) nl = us -> NoDup (n_next s) -> disjoint nl (n_next s) -> length vs <= length (n_next s) ->
  exists s' q' nl', puts (put_queue fuel) (s, q) vs = Some (s', q') /\ qinv (n_heap s', q') (nl ++ nl') /\ map (n_value s') (nl ++ nl') = us ++ vs.
Proof.
  intros Hf. induction vs as [|v t IH]; intros s q nl us Iq Hu ND Dj Hn; cbn [puts].
  - exists s, q, []. rewrite !app_nil_r. auto.
  - unfold put_queue at 1. unfold create_node. cbn [fst snd]. destruct s as [h pay nx]. cbn [n_heap n_value n_next] in *.
    destruct nx as [|n nx]; [cbn in Hn; lia|]. cbn [n_heap n_value n_next]. assert (Nn : ~ In n nl) by (intros X; apply (Dj n X); now left).
    assert (I1 : qinv (hset h n (Some (mkNode None None)), q) nl).
    { destruct Iq as (HL & Hh & Ht & Hc & Hr). split; [|split; [exact Hh|split; [exact Ht|split; [exact Hc|]]]].
      - apply (is_list_frame h); [exact HL|]. intros a Ha. apply hset_ne. intros ->. apply in_rev in Ha. auto.
      - intros a Ha. destruct (Nat.eq_dec a n) as [->|Hne]; [apply hset_eq|]. rewrite hset_ne by exact Hne. auto. }
    destruct (qstep_sim fuel _ nl (Push n) Hf I1 Nn) as ([h' q'] & E & I2). cbn [qstep] in E.
    destruct (qpush fuel (hset h n (Some (mkNode None None))) q n) as [[h2 q2]|]; [|discriminate]. injection E as -> ->. cbn [fifo_step fst] in I2.
    destruct (IH (mkNodes h' (fun b => if b =? n then v else pay b) nx) q' (nl ++ [n]) (us ++ [v])) as (s' & q3 & nl' & E' & I3 & Hm); cbn [n_heap n_value n_next].
    + exact I2.
    + rewrite map_app. cbn [map]. rewrite Nat.eqb_refl. f_equal. rewrite (map_ext_off pay _ n nl Nn); [exact Hu|].
      intros b Hb. destruct (Nat.eqb_spec b n); [congruence|reflexivity].
    + inversion ND; auto.
    + intros a Ha Hx. apply in_app_iff in Ha. destruct Ha as [Ha|[<-|[]]]; [apply (Dj a Ha); now right|]. inversion ND; auto.
    + cbn [length] in Hn. lia.
    + exists s', q3, (n :: nl'). rewrite <- !app_assoc in *. cbn [app] in *. auto.
Qed.

Lemma qinv_holds fuel h q l : 1 <= fuel -> qinv (h, q) l -> queue_holds fuel h q l.
Proof.
  intros Hf Iq. pose proof Iq as (HL & Hh & Ht & Hc & _). split; [exact Hc|]. split.
  - rewrite Ht. apply (qwalk_ok h l []); auto.
  - intros ops V. destruct (qrun_sim fuel ops _ _ Hf Iq V) as (s & E & _). eauto.
Qed.

Lemma build_queue_is mem data fuel h q l (s : nodes A) : 1 <= fuel -> qinv (h, q) l -> length l <= fuel -> enough s (length l) -> n_heap s = fresh_nodes ->
  exists s' q' nl, build_queue mem data fuel s (h, q) = Some (s', q') /\ queue_holds fuel (n_heap s') q' nl /\
    map (n_value s') nl = map (fun n => mem (data n)) l.
Proof.
  intros Hf1 (HL & Hh & Ht & _) Hf (ND & En) Es. unfold build_queue.
  assert (E : enumerates (queue_enum_step h data) (map data l) (queue_create q)).
  { apply (sim_enumerates _ _ (queue_rel data l) (queue_sim h data l HL)).
    unfold queue_rel, first, queue_create. cbn [i_ptr i_extra0 i_extra1]. rewrite map_length, Ht. destruct l; cbn; repeat split; auto; lia. }
  rewrite (fill_all_is _ mem (put_queue fuel) _ _ (s, qcreate) fuel E) by (rewrite map_length; exact Hf). rewrite map_map.
  destruct (puts_queue fuel Hf1 (map (fun n => mem (data n)) l) s qcreate [] []) as (s' & q' & nl & E' & I' & Hm).
  - rewrite Es. apply qinv_init.
  - reflexivity.
  - exact ND.
  - intros a [].
  - now rewrite map_length.
  - exists s', q', nl. split; [exact E'|]. split; [|exact Hm]. now apply qinv_holds.
Qed.

End Linked.
