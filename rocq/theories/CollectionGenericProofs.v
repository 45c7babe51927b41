(** Any implementation that obeys a list of laws makes Collection.c and OrderedCollection.c behave as specified. *)
From Verif Require Import Base CollectionModel CollectionSpec CollectionLedgerProofs.
From Coq Require Import Permutation.

Section G.
Context {A St : Type}.
Implicit Types (l : ledger A).

Definition good (al : alloc) : bool := (grow_ok al && node_ok al)%bool.

Definition ascending (es : list entry) : Prop :=
  forall i j a b, i < j -> nth_error es i = Some a -> nth_error es j = Some b -> a < b.

Definition inserted (im : impl) (R : St -> ledger A -> Prop) l i x al (res : option (St * entry)) : Prop :=
  exists s' e, res = Some (s', e) /\
    ((e <> 0 /\ R s' (renew im (insert_at (keep l) i [(None, x)]) [e]) /\
      nth_error (entries (renew im (insert_at (keep l) i [(None, x)]) [e])) i = Some e) \/
     (e = 0 /\ good al = false /\ R s' l)).

(** The enumerator at position [i] *)
Definition at_pos (im : impl) l (i : nat) : enum :=
  match im with ListBacked => Internal (nth_error (entries l) i) | _ => Batch (length l) (Z.of_nat i) end.

Record laws (im : impl) (I : interface A St) (R : St -> ledger A -> Prop) : Prop := {
  L_wf : forall s l, R s l -> well_formed im l;
  L_count : forall s l, R s l -> i_count _ I s = length l;
  L_insert : forall s l x al, R s l -> (im = ArrayBacked -> good al = true) ->
    inserted im R l (length l) x al (i_insert _ I s x al);
  L_insert_at : forall s l x i al, R s l -> (im = ArrayBacked -> good al = true) -> i <= length l ->
    inserted im R l i x al (o_insert _ I s x i al);
  L_append : forall f, o_append _ I = Some f -> forall s l x al, R s l -> (im = ArrayBacked -> good al = true) ->
    inserted im R l (length l) x al (f s x al);
  L_prepend : o_prepend _ I = None;
  L_remove : forall s l e, R s l -> In e (entries l) ->
    exists s', i_remove _ I s e = Some s' /\ R s' (renew im (keep (without [e] l)) []);
  L_element : forall s l e x, R s l -> lookup l e = Some x -> i_element _ I s e = Some x;
  L_head : forall s l e0, R s l -> exists e, i_enumerator _ I s e0 Head = Some (e, nth_error (elements l) 0) /\
    (l <> [] -> e = at_pos im l 0) /\ (l = [] -> i_enumerator _ I s e Current = Some (e, None));
  L_tail : forall s l e0, R s l -> exists e, i_enumerator _ I s e0 Tail = Some (e, nth_error (elements l) (length l - 1)) /\
    (l <> [] -> e = at_pos im l (length l - 1));
  L_current : forall s l i, R s l -> i < length l ->
    i_enumerator _ I s (at_pos im l i) Current = Some (at_pos im l i, nth_error (elements l) i);
  L_next : forall s l i, R s l -> i < length l ->
    exists e, i_enumerator _ I s (at_pos im l i) Next = Some (e, nth_error (elements l) (i + 1)) /\
      (i + 1 < length l -> e = at_pos im l (i + 1));
  L_prev : forall s l i, R s l -> i < length l ->
    exists e, i_enumerator _ I s (at_pos im l i) Previous = Some (e, if i =? 0 then None else nth_error (elements l) (i - 1)) /\
      (0 < i -> e = at_pos im l (i - 1));
  L_enum_entry : forall s l i e, R s l -> nth_error (entries l) i = Some e ->
    i_enumerator_entry _ I s (at_pos im l i) = Some (s, e);
  L_destroy : forall s l, R s l -> exists s', i_destroy _ I s = Some s';
  L_remove_all : match i_remove_all _ I with
                 | Some f => im = FastArrayBacked /\ forall s l, R s l -> exists s', f s = Some s' /\ R s' []
                 | None => im <> FastArrayBacked end;
  L_remove_collection : match i_remove_collection _ I with
                        | Some f => im = FastArrayBacked /\ forall s l es, R s l -> NoDup es -> incl es (entries l) -> ascending es ->
                            exists s', f s es = Some s' /\ R s' (renew im (keep (without es l)) [])
                        | None => im <> FastArrayBacked end;
  L_entry : forall s l i e, R s l -> nth_error (entries l) i = Some e -> o_entry _ I s i = Some (s, e);
  L_index : forall s l i e, R s l -> nth_error (entries l) i = Some e -> o_index _ I s e = Some (Z.of_nat i);
  L_replace : match o_replace _ I with
              | Some f => forall s l x i, R s l -> i < length l ->
                  exists s' e, f s x i = Some (s', e) /\ e <> 0 /\ R s' (renew im (upd (keep l) i (None, x)) [e]) /\
                    nth_error (entries (renew im (upd (keep l) i (None, x)) [e])) i = Some e
              | None => im = ListBacked end;
  L_o_remove : forall f, o_remove _ I = Some f -> forall s l i, R s l -> i < length l ->
    exists s', f s i = Some s' /\ R s' (renew im (keep (remove_at l i 1)) []);
  L_o_element : forall f, o_element _ I = Some f -> forall s l i, R s l -> i < length l -> f s i = nth_error (elements l) i;
  L_last_entry : forall f, o_last_entry _ I = Some f -> forall s l, R s l -> l <> [] -> f s = Some (last (entries l) 0);
  L_remove_last : forall f, o_remove_last _ I = Some f -> forall s l, R s l -> l <> [] ->
    exists s', f s = Some s' /\ R s' (renew im (keep (removelast l)) []) }.

Context (im : impl) (I : interface A St) (R : St -> ledger A -> Prop) (L : laws im I R).

Lemma nth_entries l i : i < length l -> exists e x, nth_error l i = Some (e, x) /\ nth_error (entries l) i = Some e /\ nth_error (elements l) i = Some x.
Proof.
  intros H. destruct (nth_error l i) as [[e x]|] eqn:E; [|apply nth_error_None in E; lia].
  exists e, x. unfold entries, elements. rewrite !nth_error_map, E. auto.
Qed.

Lemma wf_nonzero s l i e : R s l -> nth_error (entries l) i = Some e -> e <> 0.
Proof.
  intros HR H ->. destruct (L_wf im I R L s l HR) as (_ & Z & _). apply Z. eapply nth_error_In, H.
Qed.

Lemma get_element_sim s l e : R s l -> e = 0 \/ In e (entries l) -> get_element I s e = Some (lookup l e).
Proof.
  intros HR H. unfold get_element. pose proof (L_wf im I R L s l HR) as (D & Z & _).
  destruct (Nat.eqb_spec e 0) as [->|N].
  - rewrite lookup_none by exact Z. reflexivity.
  - destruct H as [->|H]; [congruence|]. destruct (lookup_some l e H) as [x Hx].
    rewrite (L_element im I R L s l e x HR Hx), Hx. reflexivity.
Qed.

(** ** Enumeration *)
Lemma enumerate_from_sim s l : R s l -> forall k i fuel, i + k = length l -> k <= fuel -> i < length l ->
  enumerate_from I fuel s (at_pos im l i) (nth_error (elements l) i) Next = Some (skipn i (elements l)).
Proof.
  intros HR. induction k as [|k IH]; intros i fuel E F H; [lia|].
  destruct (nth_entries l i H) as (e & x & _ & _ & Ex). rewrite Ex.
  destruct fuel as [|fuel]; [lia|]. cbn [enumerate_from].
  destruct (L_next im I R L s l i HR H) as (e' & EN & EP). rewrite EN.
  assert (SK : skipn i (elements l) = x :: skipn (i + 1) (elements l)).
  { clear - Ex. revert i Ex. induction (elements l) as [|a t IHt]; intros [|i] Ex; cbn in *; try discriminate.
    - injection Ex as <-. reflexivity.
    - now apply IHt. }
  rewrite SK. destruct (Nat.eq_dec (i + 1) (length l)) as [Q|Q].
  - assert (N : nth_error (elements l) (i + 1) = None) by (apply nth_error_None; unfold elements; rewrite map_length; lia).
    rewrite N. assert (S0 : skipn (i + 1) (elements l) = []) by (apply skipn_all2; unfold elements; rewrite map_length; lia).
    rewrite S0. destruct fuel; reflexivity.
  - rewrite (EP ltac:(lia)). rewrite IH by lia. reflexivity.
Qed.

Lemma enumerate_sim s l : R s l -> enumerate I s = Some (elements l).
Proof.
  intros HR. unfold enumerate. destruct (L_head im I R L s l (Internal None) HR) as (e & EH & E1 & E2). rewrite EH.
  destruct l as [|p t] eqn:El.
  - rewrite (E2 eq_refl). destruct (i_count _ I s + 1); reflexivity.
  - rewrite <- El in *. assert (H : 0 < length l) by (rewrite El; cbn; lia).
    rewrite (E1 ltac:(rewrite El; discriminate)). rewrite (L_current im I R L s l 0 HR H).
    rewrite (L_count im I R L s l HR). apply (enumerate_from_sim s l HR (length l)); lia.
Qed.

Lemma enumerate_back_from_sim s l : R s l -> forall i fuel, i < length l -> i < fuel ->
  enumerate_from I fuel s (at_pos im l i) (nth_error (elements l) i) Previous = Some (rev (firstn (i + 1) (elements l))).
Proof.
  intros HR. induction i as [|i IH]; intros fuel H F; (destruct fuel as [|fuel]; [lia|]).
  - destruct (nth_entries l 0 H) as (e & x & _ & _ & Ex). rewrite Ex. cbn [enumerate_from].
    destruct (L_prev im I R L s l 0 HR H) as (e' & EN & EP). rewrite EN. cbn [Nat.eqb].
    destruct (elements l) as [|y t]; [discriminate|]. injection Ex as <-. destruct fuel; reflexivity.
  - destruct (nth_entries l (S i) H) as (e & x & _ & _ & Ex). rewrite Ex. cbn [enumerate_from].
    destruct (L_prev im I R L s l (S i) HR H) as (e' & EN & EP). rewrite EN. cbn [Nat.eqb].
    rewrite (EP ltac:(lia)). replace (S i - 1) with i by lia. rewrite IH by lia.
    assert (FN : firstn (S i + 1) (elements l) = firstn (i + 1) (elements l) ++ [x]).
    { clear - Ex. replace (S i + 1) with (S (S i)) by lia. replace (i + 1) with (S i) by lia. revert i Ex.
      induction (elements l) as [|a t IHt]; intros i Ex; [destruct i; discriminate|].
      destruct i as [|i]; cbn in *.
      - destruct t; [discriminate|]. injection Ex as <-. reflexivity.
      - now rewrite IHt. }
    rewrite FN, rev_app_distr. reflexivity.
Qed.

Lemma enumerate_back_sim s l : R s l -> enumerate_back I s = Some (rev (elements l)).
Proof.
  intros HR. unfold enumerate_back. destruct (L_head im I R L s l (Internal None) HR) as (e & EH & _). rewrite EH.
  destruct (L_tail im I R L s l e HR) as (e' & ET & EP). rewrite ET. rewrite (L_count im I R L s l HR).
  destruct l as [|p t] eqn:El; [reflexivity|]. rewrite <- El in *.
  assert (H : 0 < length l) by (rewrite El; cbn; lia).
  rewrite (EP ltac:(rewrite El; discriminate)). rewrite (enumerate_back_from_sim s l HR) by lia.
  replace (length l - 1 + 1) with (length (elements l)) by (unfold elements; rewrite map_length; lia). now rewrite firstn_all.
Qed.

Lemma skipn_cons {B} (l : list B) i x : nth_error l i = Some x -> skipn i l = x :: skipn (i + 1) l.
Proof.
  revert i. induction l as [|a t IHt]; intros [|i] Ex; cbn in *; try discriminate.
  - injection Ex as <-. reflexivity.
  - now apply IHt.
Qed.

Lemma entries_from_sim s l : R s l -> forall k i fuel, i + k = length l -> k <= fuel -> i < length l ->
  entries_from I fuel s (at_pos im l i) (nth_error (elements l) i) = Some (s, skipn i (entries l)).
Proof.
  intros HR. induction k as [|k IH]; intros i fuel E F H; [lia|].
  destruct (nth_entries l i H) as (e & x & _ & Ee & Ex). rewrite Ex.
  destruct fuel as [|fuel]; [lia|]. cbn [entries_from]. rewrite (L_enum_entry im I R L s l i e HR Ee).
  destruct (L_next im I R L s l i HR H) as (e' & EN & EP). rewrite EN. rewrite (skipn_cons _ _ _ Ee).
  destruct (Nat.eq_dec (i + 1) (length l)) as [Q|Q].
  - assert (N : nth_error (elements l) (i + 1) = None) by (apply nth_error_None; unfold elements; rewrite map_length; lia).
    rewrite N. assert (S0 : skipn (i + 1) (entries l) = []) by (apply skipn_all2; unfold entries; rewrite map_length; lia).
    rewrite S0. destruct fuel; reflexivity.
  - rewrite (EP ltac:(lia)). rewrite IH by lia. reflexivity.
Qed.

Lemma all_entries_sim s l : R s l -> all_entries I s = Some (s, entries l).
Proof.
  intros HR. unfold all_entries. destruct (L_head im I R L s l (Internal None) HR) as (e & EH & E1 & E2). rewrite EH.
  destruct l as [|p t] eqn:El.
  - rewrite (E2 eq_refl). destruct (i_count _ I s + 1); reflexivity.
  - rewrite <- El in *. assert (H : 0 < length l) by (rewrite El; cbn; lia).
    rewrite (E1 ltac:(rewrite El; discriminate)). rewrite (L_current im I R L s l 0 HR H).
    rewrite (L_count im I R L s l HR). rewrite (entries_from_sim s l HR (length l)) by lia. reflexivity.
Qed.

Lemma find_from_sim s l cmp x : R s l -> forall k i fuel, i + k = length l -> k <= fuel -> i < length l ->
  find_from I fuel s cmp x (at_pos im l i) (nth_error (elements l) i) =
    Some (s, match first_equal cmp x (skipn i l) with Some p => fst p | None => 0 end).
Proof.
  intros HR. induction k as [|k IH]; intros i fuel E F H; [lia|].
  destruct (nth_entries l i H) as (e & y & El & Ee & Ex). rewrite Ex.
  destruct fuel as [|fuel]; [lia|]. cbn [find_from]. rewrite (skipn_cons _ _ _ El). unfold first_equal. cbn [find snd].
  destruct (cmp y x).
  - cbn [fst]. apply (L_enum_entry im I R L s l i e HR Ee).
  - destruct (L_next im I R L s l i HR H) as (e' & EN & EP). rewrite EN.
    destruct (Nat.eq_dec (i + 1) (length l)) as [Q|Q].
    + assert (N : nth_error (elements l) (i + 1) = None) by (apply nth_error_None; unfold elements; rewrite map_length; lia).
      rewrite N. rewrite (skipn_all2 l) by lia. destruct fuel; reflexivity.
    + rewrite (EP ltac:(lia)). rewrite IH by lia. reflexivity.
Qed.

Lemma find_sim s l cmp x : R s l ->
  find_element I s cmp x = Some (s, match first_equal cmp x l with Some p => fst p | None => 0 end).
Proof.
  intros HR. unfold find_element. destruct (L_head im I R L s l (Internal None) HR) as (e & EH & E1 & E2). rewrite EH.
  destruct l as [|p t] eqn:El.
  - rewrite (E2 eq_refl). destruct (i_count _ I s + 1); reflexivity.
  - rewrite <- El in *. assert (H : 0 < length l) by (rewrite El; cbn; lia).
    rewrite (E1 ltac:(rewrite El; discriminate)). rewrite (L_current im I R L s l 0 HR H).
    rewrite (L_count im I R L s l HR). rewrite (find_from_sim s l cmp x HR (length l)) by lia. reflexivity.
Qed.

Lemma find_elements_sim s l cmp xs : R s l ->
  find_elements I s cmp xs = Some (s, flat_map (fun x => match first_equal cmp x l with Some p => [fst p] | None => [] end) xs).
Proof.
  intros HR. induction xs as [|x t IH]; [reflexivity|]. cbn [find_elements flat_map].
  rewrite (find_sim s l cmp x HR), IH. destruct (first_equal cmp x l) as [p|] eqn:F; [|reflexivity].
  destruct (Nat.eqb_spec (fst p) 0) as [Z|Z]; [|reflexivity].
  exfalso. destruct (L_wf im I R L s l HR) as (_ & N & _). apply N. unfold first_equal in F. apply find_some in F.
  rewrite <- Z. apply in_map. tauto.
Qed.

(** ** Removal *)
Definition out (dtor : bool) (d : list A) : list A := if dtor then d else [].

Definition opt_list (x : option A) : list A := match x with Some x => [x] | None => [] end.

Lemma destruct_sim dtor x : destruct_element dtor (Some (Some x)) = Some (out dtor [x]).
Proof. destruct dtor; reflexivity. Qed.

Lemma remove_element_sim dtor s l e : R s l -> e = 0 \/ In e (entries l) ->
  exists s', remove_element I dtor s e = Some (s', out dtor (opt_list (lookup l e))) /\ R s' (renew im (keep (without [e] l)) []).
Proof.
  intros HR H. unfold remove_element. pose proof (L_wf im I R L s l HR) as W. pose proof W as (D & Z & _).
  destruct (Nat.eqb_spec e 0) as [->|N].
  - exists s. rewrite lookup_none by exact Z. rewrite without_absent by exact Z. rewrite (renew_keep im l [] W).
    split; auto. destruct dtor; reflexivity.
  - assert (H' : In e (entries l)) by (destruct H; congruence). rewrite (get_element_sim s l e HR H).
    destruct (lookup_some l e H') as [x Hx]. rewrite Hx, destruct_sim.
    destruct (L_remove im I R L s l e HR H') as (s' & ER & HR'). rewrite ER. exists s'. auto.
Qed.

Lemma flat_map_same {B C} (f g : B -> list C) t : (forall y, In y t -> f y = g y) -> flat_map f t = flat_map g t.
Proof.
  intros H. induction t as [|y t IH]; [reflexivity|]. cbn. rewrite H by now left. f_equal. apply IH. intros z Hz. apply H. now right.
Qed.

Lemma remove_elements_sim dtor : im <> FastArrayBacked -> forall es s l, R s l -> NoDup es -> incl es (entries l) ->
  exists s', remove_elements I dtor s es = Some (s', out dtor (flat_map (fun e => opt_list (lookup l e)) es)) /\ R s' (without es l).
Proof.
  intros NF. induction es as [|e t IH]; intros s l HR D S.
  - exists s. rewrite without_nil. split; auto. cbn. destruct dtor; reflexivity.
  - inversion D as [|? ? N D']; subst. cbn [remove_elements flat_map].
    assert (He : In e (entries l)) by (apply S; now left).
    destruct (remove_element_sim dtor s l e HR (or_intror He)) as (s1 & E1 & R1). rewrite E1.
    assert (K : renew im (keep (without [e] l)) [] = without [e] l) by (destruct im; try congruence; apply fill_keep).
    rewrite K in R1. destruct (IH s1 (without [e] l) R1 D') as (s2 & E2 & R2).
    { intros y Hy. apply entries_without. split; [apply S; now right|]. intros [->|[]]. auto. }
    rewrite E2. exists s2. rewrite <- without_cons in R2. split; auto. f_equal. f_equal.
    assert (Q : flat_map (fun e0 => opt_list (lookup (without [e] l) e0)) t = flat_map (fun e0 => opt_list (lookup l e0)) t).
    { apply flat_map_same. intros y Hy. rewrite lookup_without; auto. intros [->|[]]. auto. }
    rewrite Q. destruct dtor; reflexivity.
Qed.

Lemma destruct_elements_sim dtor s l es : R s l -> incl es (entries l) ->
  destruct_elements I dtor s es = Some (out dtor (flat_map (fun e => opt_list (lookup l e)) es)).
Proof.
  intros HR. induction es as [|e t IH]; intros S; [destruct dtor; reflexivity|]. cbn [destruct_elements flat_map].
  assert (He : In e (entries l)) by (apply S; now left). rewrite (get_element_sim s l e HR (or_intror He)).
  destruct (lookup_some l e He) as [x Hx]. rewrite Hx, destruct_sim, IH by (intros y Hy; apply S; now right).
  destruct dtor; reflexivity.
Qed.

Lemma remove_collection_sim dtor s l es : R s l -> NoDup es -> incl es (entries l) -> (im = FastArrayBacked -> ascending es) ->
  exists s', remove_collection I dtor s es = Some (s', out dtor (flat_map (fun e => opt_list (lookup l e)) es)) /\
    R s' (renew im (keep (without es l)) []).
Proof.
  intros HR D S As. unfold remove_collection. pose proof (L_remove_collection im I R L) as LR.
  destruct (i_remove_collection _ I) as [f|].
  - destruct LR as [IM LR]. rewrite (destruct_elements_sim dtor s l es HR S).
    destruct (LR s l es HR D S (As IM)) as (s' & E & HR'). rewrite E. exists s'. auto.
  - destruct (remove_elements_sim dtor LR es s l HR D S) as (s' & E & HR'). exists s'. split; auto.
    assert (K : renew im (keep (without es l)) [] = without es l) by (destruct im; try congruence; apply fill_keep).
    now rewrite K.
Qed.

Lemma without_all l : without (entries l) l = [].
Proof.
  destruct (without (entries l) l) as [|p t] eqn:E; auto. exfalso.
  assert (H : In p (without (entries l) l)) by (rewrite E; now left). apply in_without in H.
  destruct H as [H N]. apply N. now apply in_map.
Qed.

Lemma lookup_all l : NoDup (entries l) -> flat_map (fun e => opt_list (lookup l e)) (entries l) = elements l.
Proof.
  intros D. unfold entries, elements. enough (E : forall t, incl t l -> flat_map (fun e => opt_list (lookup l e)) (map fst t) = map snd t) by (apply E; intros y; auto).
  induction t as [|[e x] t IH]; intros S; [reflexivity|]. cbn [map flat_map fst snd].
  rewrite (in_lookup l e x D) by (apply S; now left). cbn. f_equal. apply IH. intros y Hy. apply S. now right.
Qed.

Lemma remove_all_sim dtor s l : R s l ->
  exists s', remove_all I dtor s = Some (s', if (dtor && negb (forgets im (@RemoveAll A)))%bool then elements l else []) /\ R s' [].
Proof.
  intros HR. unfold remove_all. pose proof (L_remove_all im I R L) as LR. destruct (i_remove_all _ I) as [f|].
  - destruct LR as [IM LR]. destruct (LR s l HR) as (s' & E & HR'). rewrite E. exists s'. split; auto.
    rewrite IM. destruct dtor; reflexivity.
  - rewrite (all_entries_sim s l HR). pose proof (L_wf im I R L s l HR) as (D & _).
    destruct (remove_collection_sim dtor s l (entries l) HR D (incl_refl _)) as (s' & E & HR'); [congruence|].
    rewrite E. exists s'. rewrite without_all in HR'. split.
    + rewrite lookup_all by exact D. destruct im; [..|]; try congruence; destruct dtor; reflexivity.
    + destruct im; try congruence; exact HR'.
Qed.

(** ** Ordered calls *)
Lemma entry_at_sim s l i e : R s l -> nth_error (entries l) i = Some e -> entry_at_index I s i = Some (s, e).
Proof.
  intros HR H. unfold entry_at_index. rewrite (L_count im I R L s l HR).
  assert (i < length l) by (rewrite <- (map_length fst); eapply nth_error_Some_lt, H).
  destruct (Nat.ltb_spec i (length l)); [|lia]. apply (L_entry im I R L s l i e HR H).
Qed.

Lemma element_at_sim s l i : R s l -> i < length l -> element_at_index I s i = Some (s, nth_error (elements l) i).
Proof.
  intros HR H. unfold element_at_index. rewrite (L_count im I R L s l HR).
  destruct (Nat.ltb_spec i (length l)); [|lia].
  destruct (nth_entries l i H) as (e & x & El & Ee & Ex).
  destruct (o_element _ I) as [f|] eqn:F.
  - rewrite (L_o_element im I R L f F s l i HR H), Ex. reflexivity.
  - rewrite (entry_at_sim s l i e HR Ee). pose proof (L_wf im I R L s l HR) as (D & _).
    rewrite (get_element_sim s l e HR) by (right; eapply nth_error_In, Ee).
    now rewrite (nth_lookup l i e D Ee).
Qed.

Lemma destruct_at_sim dtor s l i x : R s l -> nth_error (elements l) i = Some x ->
  destruct_at_index I dtor s i = Some (s, out dtor [x]).
Proof.
  intros HR H. assert (i < length l) by (rewrite <- (map_length snd); eapply nth_error_Some_lt, H).
  unfold destruct_at_index. destruct dtor; [|reflexivity]. rewrite (element_at_sim s l i HR), H by auto. reflexivity.
Qed.

Lemma remove_at_sim dtor s l i : R s l -> i < length l ->
  exists s', remove_at_index I dtor s i = Some (s', out dtor (opt_list (nth_error (elements l) i))) /\ R s' (renew im (keep (remove_at l i 1)) []).
Proof.
  intros HR H. unfold remove_at_index. rewrite (L_count im I R L s l HR).
  destruct (Nat.ltb_spec i (length l)); [|lia]. destruct (nth_entries l i H) as (e & x & El & Ee & Ex). rewrite Ex.
  pose proof (L_wf im I R L s l HR) as (D & _).
  destruct (o_remove _ I) as [f|] eqn:F.
  - rewrite (destruct_at_sim dtor s l i x HR Ex). destruct (L_o_remove im I R L f F s l i HR H) as (s' & E & HR').
    rewrite E. exists s'. auto.
  - rewrite (entry_at_sim s l i e HR Ee).
    destruct (remove_element_sim dtor s l e HR) as (s' & E & HR'); [right; eapply nth_error_In, Ee|].
    rewrite E. exists s'. rewrite (nth_lookup l i e D Ee), Ex. rewrite (without_at l i e D Ee) in HR'. auto.
Qed.

Lemma insert_at_sim s l x i al : R s l -> (im = ArrayBacked -> good al = true) -> i <= length l ->
  inserted im R l i x al (insert_at_index I s x i al).
Proof.
  intros HR Ha H. unfold insert_at_index. rewrite (L_count im I R L s l HR).
  destruct (Nat.leb_spec i (length l)); [|lia]. now apply (L_insert_at im I R L).
Qed.

Lemma remove_at_insert {B} (l : list B) : forall i y, i < length l -> remove_at (insert_at l i [y]) (i + 1) 1 = upd l i y.
Proof.
  unfold remove_at, insert_at. induction l as [|a t IH]; intros [|i] y H; cbn in *; try lia; auto.
  f_equal. apply IH. lia.
Qed.

Lemma nth_error_insert_at1 {B} (l : list B) : forall i y, i < length l -> nth_error (insert_at l i [y]) (i + 1) = nth_error l i.
Proof.
  unfold insert_at. induction l as [|a t IH]; intros [|i] y H; cbn in *; try lia; auto. apply IH. lia.
Qed.

Lemma replace_sim dtor s l x i al : R s l -> i < length l -> good al = true \/ im = FastArrayBacked ->
  exists s' e, replace_at_index I dtor s x i al = Some (s', e, out dtor (opt_list (nth_error (elements l) i))) /\
    e <> 0 /\ R s' (renew im (upd (keep l) i (None, x)) [e]) /\
    nth_error (entries (renew im (upd (keep l) i (None, x)) [e])) i = Some e.
Proof.
  intros HR H Ha. unfold replace_at_index. rewrite (L_count im I R L s l HR).
  destruct (Nat.ltb_spec i (length l)); [|lia]. destruct (nth_entries l i H) as (e0 & x0 & El & Ee & Ex). rewrite Ex.
  pose proof (L_replace im I R L) as LR. destruct (o_replace _ I) as [f|].
  - rewrite (destruct_at_sim dtor s l i x0 HR Ex). destruct (LR s l x i HR H) as (s' & e & E & N & HR' & P).
    rewrite E. exists s', e. auto.
  - assert (Hg : good al = true) by (destruct Ha; congruence).
    destruct (insert_at_sim s l x i al HR) as (s1 & e & E1 & [(N & R1 & P)|(_ & Hb & _)]); [auto|lia| |congruence].
    rewrite E1. assert (IM : im = ListBacked) by assumption.
    rewrite IM in R1. cbn [renew] in R1. rewrite fill_insert in R1.
    assert (LL : length (insert_at l i [(e, x)]) = length l + 1) by (rewrite insert_at_length; reflexivity).
    destruct (remove_at_sim dtor s1 (insert_at l i [(e, x)]) (i + 1) R1 ltac:(lia)) as (s2 & E2 & R2).
    rewrite E2. exists s2, e. rewrite IM in R2 |- *. cbn [renew] in *. rewrite fill_keep, remove_at_insert in R2 by exact H.
    rewrite fill_upd by exact H. repeat split; auto.
    + f_equal. f_equal. f_equal. unfold elements. rewrite map_insert_at. cbn [map snd].
      rewrite nth_error_insert_at1 by (rewrite map_length; exact H). unfold elements in Ex. now rewrite Ex.
    + unfold entries. rewrite map_upd. apply nth_error_upd_eq. now rewrite map_length.
Qed.

Lemma remove_last_sim dtor s l : R s l -> l <> [] ->
  exists s', remove_last I dtor s = Some (s', out dtor (opt_list (nth_error (elements l) (length l - 1)))) /\
    R s' (renew im (keep (removelast l)) []).
Proof.
  intros HR H. unfold remove_last. rewrite (L_count im I R L s l HR).
  assert (0 < length l) by (destruct l; [congruence|cbn; lia]).
  destruct (Nat.eqb_spec (length l) 0); [lia|].
  destruct (nth_entries l (length l - 1) ltac:(lia)) as (e & x & El & Ee & Ex).
  destruct (o_remove_last _ I) as [f|] eqn:F.
  - rewrite (destruct_at_sim dtor s l (length l - 1) x HR Ex). destruct (L_remove_last im I R L f F s l HR H) as (s' & E & HR').
    rewrite E, Ex. exists s'. auto.
  - rewrite removelast_remove_at. apply (remove_at_sim dtor s l (length l - 1) HR). lia.
Qed.

Lemma last_entry_sim s l : R s l -> last_entry I s = Some (s, last (entries l) 0).
Proof.
  intros HR. unfold last_entry. rewrite (L_count im I R L s l HR). destruct l as [|p t] eqn:El; [reflexivity|]. rewrite <- El in *.
  assert (H : 0 < length l) by (rewrite El; cbn; lia). assert (N : l <> []) by (rewrite El; discriminate).
  destruct (Nat.eqb_spec (length l) 0); [lia|]. destruct (o_last_entry _ I) as [f|] eqn:F.
  - now rewrite (L_last_entry im I R L f F s l HR N).
  - apply (entry_at_sim s l); auto. rewrite <- (map_length fst l). apply last_nth_error.
    intros Q. apply map_eq_nil in Q. auto.
Qed.

Lemma renumber_eq (k1 k2 : list (option entry * A)) : map snd k1 = map snd k2 -> renumber k1 = renumber k2.
Proof.
  intros H. unfold renumber. rewrite H. f_equal. f_equal. rewrite <- (map_length snd k1), H, map_length. reflexivity.
Qed.

Lemma insert_many_sim xs : forall s l, R s l -> exists s' es, insert_elements I s xs = Some (s', es) /\
  length es = length xs /\ R s' (renew im (keep l ++ map (pair None) xs) es) /\
  es = skipn (length l) (entries (renew im (keep l ++ map (pair None) xs) es)).
Proof.
  induction xs as [|x t IH]; intros s l HR.
  - exists s, []. cbn [insert_elements map]. rewrite app_nil_r. pose proof (L_wf im I R L s l HR) as W.
    rewrite (renew_keep im l [] W). repeat split; auto. symmetry. apply skipn_all2. unfold entries. now rewrite map_length.
  - cbn [insert_elements]. destruct (L_insert im I R L s l x (mkAlloc true true) HR) as (s1 & e & E1 & [(N & R1 & P)|(_ & B & _)]); [auto| |discriminate B].
    rewrite E1. destruct (IH s1 _ R1) as (s2 & es & E2 & Len & R2 & Q). rewrite E2. exists s2, (e :: es). cbn [length map]. split; auto. split; [lia|].
    assert (LK : length l = length (keep l)) by now rewrite keep_length.
    assert (K : renew im (keep (renew im (insert_at (keep l) (length l) [(None, x)]) [e]) ++ map (pair None) t) es =
                renew im (keep l ++ (None, x) :: map (pair None) t) (e :: es)).
    { rewrite LK, insert_at_end. destruct im; cbn [renew].
      - rewrite !fill_app. cbn [fill hd tl]. rewrite <- app_assoc. reflexivity.
      - apply renumber_eq. rewrite !map_app, !keep_snd, renumber_elements, map_app, keep_snd. cbn [map snd].
        rewrite <- app_assoc. reflexivity.
      - rewrite !fill_app. cbn [fill hd tl]. rewrite <- app_assoc. reflexivity. }
    rewrite K in R2, Q. split; auto.
    rewrite renew_length, insert_at_length, keep_length in Q. cbn [length] in Q.
    assert (NE : nth_error (entries (renew im (keep l ++ (None, x) :: map (pair None) t) (e :: es))) (length l) = Some e).
    { rewrite LK, insert_at_end in P. rewrite <- LK in P. revert P. unfold entries. destruct im; cbn [renew].
      - rewrite !fill_app. cbn [fill hd tl]. rewrite !map_app, !nth_error_app, map_length, Nat.ltb_irrefl, Nat.sub_diag. cbn. auto.
      - fold (entries (renumber (keep l ++ [(None, x)]))). fold (entries (renumber (keep l ++ (None, x) :: map (pair None) t))).
        rewrite !renumber_entries, !app_length, keep_length. cbn [length]. intros P.
        assert (e = length l + 1).
        { apply (nth_error_nth _ _ 0) in P. rewrite seq_nth in P by lia. lia. }
        subst e. rewrite nth_error_nth' with (d := 0) by (rewrite seq_length; lia). rewrite seq_nth by lia. f_equal. lia.
      - rewrite !fill_app. cbn [fill hd tl]. rewrite !map_app, !nth_error_app, map_length, Nat.ltb_irrefl, Nat.sub_diag. cbn. auto. }
    rewrite (skipn_cons _ _ _ NE). f_equal. exact Q.
Qed.

(** ** One call *)
Definition destroyed_by (dtor : bool) l (o : op A) (r : ret A) : list A :=
  if (dtor && negb (forgets im o))%bool then leaving l o r else [].

Definition call_ok (dtor : bool) l (o : op A) (res : option (St * ret A * list A)) : Prop :=
  exists s' r, res = Some (s', r, destroyed_by dtor l o r) /\ R s' (next im l o r) /\
    (answer l o r (next im l o r) \/ (is_insertion o = true /\ allocates o = false /\ r = REntry 0)).

Lemma insertion_ok dtor s l o i x al res :
  R s l -> allocations o = al -> is_insertion o = true -> (forall r, leaving l o r = []) ->
  after l o = insert_at (keep l) i [(None, x)] -> (forall r l', answer l o r l' = returns_entry_at l' i r) ->
  inserted im R l i x al res -> call_ok dtor l o (returning res).
Proof.
  intros HR Ea Ei El Eaf Ean (s' & e & -> & [(N & HR' & P)|(E0 & B & HR')]).
  - exists s', (REntry e). assert (En : next im l o (REntry e) = renew im (insert_at (keep l) i [(None, x)]) [e]).
    { rewrite next_renew, Eaf; auto. destruct e; [congruence|]. now rewrite andb_false_r. }
    unfold destroyed_by. rewrite El, En. split; [cbn; now destruct (dtor && _)%bool|]. split; auto.
    left. rewrite Ean. exists e. auto.
  - subst e. exists s', (REntry 0). unfold destroyed_by, next. rewrite El, Ei. cbn [andb]. split; [cbn; now destruct (dtor && _)%bool|].
    split; auto. right. repeat split; auto. unfold allocates. rewrite Ea. exact B.
Qed.

Lemma removal_ok dtor l o s' d :
  is_insertion o = false -> forgets im o = false -> (forall r, leaving l o r = d) -> (forall r l', answer l o r l' = (r = RVoid)) ->
  R s' (renew im (after l o) []) -> call_ok dtor l o (removing (Some (s', out dtor d))).
Proof.
  intros Ei Ef El Ean HR. exists s', RVoid. unfold destroyed_by. rewrite El, Ef. split; [cbn; destruct dtor; reflexivity|].
  split; [rewrite next_renew; [exact HR|now rewrite Ei]|]. left. now rewrite Ean.
Qed.

Lemma query_ok dtor s l o r :
  R s l -> is_insertion o = false -> (forall r, leaving l o r = []) -> after l o = keep l ->
  answer l o r l -> call_ok dtor l o (Some (s, r, [])).
Proof.
  intros HR Ei El Eaf Ha. exists s, r. unfold destroyed_by. rewrite El.
  assert (En : next im l o r = l).
  { rewrite next_renew; [|now rewrite Ei]. rewrite Eaf. apply renew_keep, (L_wf im I R L s l HR). }
  rewrite En. split; [now destruct (dtor && _)%bool|]. auto.
Qed.

Lemma step_sim dtor s l o : R s l -> valid im l o -> call_ok dtor l o (step I dtor s o).
Proof.
  intros HR [V Va]. pose proof (L_wf im I R L s l HR) as W. pose proof W as (D & Z0 & F).
  assert (AL : im = ArrayBacked -> good (allocations o) = true).
  { intros ->. exact Va. }
  destruct o as [x al|e| |xs|es|e| | |cmp x|cmp xs| | |x i al|x al|x al|x i al|i| |i| |e|i| ]; cbn [step allocations] in *.
  - eapply (insertion_ok dtor s l (Insert x al) (length l) x al); auto; [|apply (L_insert im I R L); auto].
    cbn [after]. rewrite <- (keep_length l). now rewrite insert_at_end.
  - destruct (remove_element_sim dtor s l e HR V) as (s' & E & HR'). rewrite E. apply removal_ok; auto; now destruct im.
  - destruct (remove_all_sim dtor s l HR) as (s' & E & HR'). rewrite E. exists s', RVoid. cbn [removing]. split; [reflexivity|].
    split; [|left; reflexivity]. rewrite next_renew by reflexivity. cbn [after]. destruct im; exact HR'.
  - destruct (insert_many_sim xs s l HR) as (s' & es & E & Len & HR' & Q). rewrite E. exists s', (REntries es). cbn [listing].
    unfold destroyed_by. cbn [leaving]. split; [now destruct (dtor && _)%bool|].
    rewrite next_renew by reflexivity. cbn [after returned]. split; auto. left. cbn [answer]. now rewrite <- Q.
  - destruct V as (V1 & V2 & V3). destruct (remove_collection_sim dtor s l es HR V1 V2 V3) as (s' & E & HR'). rewrite E.
    apply removal_ok; auto. now destruct im.
  - rewrite (get_element_sim s l e HR V). apply query_ok; auto. reflexivity.
  - apply query_ok; auto. cbn. now rewrite (L_count im I R L s l HR).
  - rewrite (all_entries_sim s l HR). apply query_ok; auto. reflexivity.
  - rewrite (find_sim s l cmp x HR). cbn [returning]. apply query_ok; auto. reflexivity.
  - rewrite (find_elements_sim s l cmp xs HR). cbn [listing]. apply query_ok; auto. reflexivity.
  - rewrite (enumerate_sim s l HR). apply query_ok; auto. reflexivity.
  - rewrite (enumerate_back_sim s l HR). apply query_ok; auto. reflexivity.
  - eapply (insertion_ok dtor s l (InsertAt x i al) i x al); auto. apply insert_at_sim; auto.
  - eapply (insertion_ok dtor s l (Append x al) (length l) x al); auto.
    + cbn [after]. rewrite <- (keep_length l). now rewrite insert_at_end.
    + unfold append_element. destruct (o_append _ I) as [f|] eqn:Fa.
      * apply (L_append im I R L f Fa); auto.
      * rewrite (L_count im I R L s l HR). apply insert_at_sim; auto.
  - eapply (insertion_ok dtor s l (Prepend x al) 0 x al); auto.
    unfold prepend_element. rewrite (L_prepend im I R L). apply insert_at_sim; auto. lia.
  - assert (Hg : good al = true \/ im = FastArrayBacked) by (destruct im; auto).
    destruct (replace_sim dtor s l x i al HR V Hg) as (s' & e & E & N & HR' & P). rewrite E. exists s', (REntry e).
    assert (En : next im l (ReplaceAt x i al) (REntry e) = renew im (upd (keep l) i (None, x)) [e]).
    { rewrite next_renew; auto. destruct e; [congruence|]. now rewrite andb_false_r. }
    rewrite En. unfold destroyed_by. cbn [leaving]. split; [|split; auto].
    + destruct e; [congruence|]. destruct im; destruct dtor; reflexivity.
    + left. exists e. auto.
  - destruct (remove_at_sim dtor s l i HR V) as (s' & E & HR'). rewrite E. apply removal_ok; auto; now destruct im.
  - destruct (remove_last_sim dtor s l HR V) as (s' & E & HR'). rewrite E. apply removal_ok; auto; [now destruct im|].
    intros r. cbn [leaving]. rewrite <- (map_length snd l). fold (elements l). rewrite <- rev_hd. now destruct (rev (elements l)).
  - destruct (nth_entries l i V) as (e & x & El & Ee & Ex). rewrite (entry_at_sim s l i e HR Ee). cbn [returning].
    apply query_ok; auto. exists e. auto.
  - rewrite (last_entry_sim s l HR). cbn [returning]. apply query_ok; auto. reflexivity.
  - destruct (In_nth_error _ _ V) as [i Hi]. rewrite (L_index im I R L s l i e HR Hi). apply query_ok; auto. exists i. auto.
  - rewrite (element_at_sim s l i HR V). cbn [showing]. apply query_ok; auto. reflexivity.
  - unfold last_element. rewrite (last_entry_sim s l HR). pose proof D as D'.
    assert (G : get_element I s (last (entries l) 0) = Some (nth_error (elements l) (length l - 1))).
    { destruct l as [|p t] eqn:El; [reflexivity|]. rewrite <- El in *.
      assert (Q : nth_error (entries l) (length l - 1) = Some (last (entries l) 0)).
      { rewrite <- (map_length fst l). apply last_nth_error. intros Q. apply map_eq_nil in Q. congruence. }
      rewrite (get_element_sim s l _ HR) by (right; eapply nth_error_In, Q). now rewrite (nth_lookup l _ _ D Q). }
    rewrite G. cbn [showing]. apply query_ok; auto. cbn [answer]. rewrite rev_hd. unfold elements. now rewrite map_length.
Qed.

(** ** Histories *)
Lemma run_sim dtor ops : forall s l, R s l -> valid_run I im dtor s l ops ->
  exists s' rs, run I dtor s ops = Some (s', rs) /\ follows im dtor l ops rs /\ R s' (ledger_after im l ops rs).
Proof.
  induction ops as [|o t IH]; intros s l HR V; cbn [run valid_run] in *.
  - exists s, []. cbn. auto.
  - destruct V as [V1 V2]. destruct (step_sim dtor s l o HR V1) as (s1 & r & E & R1 & An). rewrite E in *.
    destruct (IH s1 _ R1 V2) as (s2 & rs & E2 & Fo & R2). rewrite E2. exists s2, ((r, destroyed_by dtor l o r) :: rs).
    split; auto. cbn [follows ledger_after]. split; auto. split; [|split; auto].
    split; auto. apply (L_wf im I R L s1 _ R1).
Qed.

Lemma destroy_sim dtor s l : R s l -> exists s', destroy I dtor s = Some (s', out dtor (elements l)).
Proof.
  intros HR. unfold destroy. rewrite (enumerate_sim s l HR). destruct (L_destroy im I R L s l HR) as [s' E]. rewrite E.
  exists s'. destruct dtor; reflexivity.
Qed.

End G.
