(** The data-oriented hash maps are the interleaved one with its buckets split by field, call for call. *)
From Verif Require Import Base Word BitTricksModel HashMapModel HashMapSplitModel.
From Verif Require EnumerableModel.
Local Open Scope N_scope.

Local Opaque index_to_entry entry_to_index wnot INIT EMPTY RESERVED.

Definition tmap {A B} (f : A -> B) (t : table A) : table B := option_map (map (option_map (map f))) t.

Lemma map_upd {A B} (f : A -> B) l i x : map f (upd l i x) = upd (map f l) i (f x).
Proof. revert i. induction l as [|y l IH]; intros [|i]; cbn; congruence. Qed.

Lemma map_upd_same {A B} (f : A -> B) l i x y : nth_error l i = Some y -> f x = f y -> map f (upd l i x) = map f l.
Proof. revert i. induction l as [|z l IH]; intros [|i]; cbn; try discriminate; [intros [= <-]; congruence|]. intros E F. f_equal. eauto. Qed.

Lemma tget_map {A B} (f : A -> B) t b i : tget (tmap f t) b i = option_map f (tget t b i).
Proof.
  destruct t as [bs|]; [|reflexivity]. cbn. rewrite nth_error_map. destruct (nth_error bs b) as [[l|]|]; [|reflexivity|reflexivity]. cbn. apply nth_error_map.
Qed.

Lemma tset_map {A B} (f : A -> B) t b i x : tset (tmap f t) b i (f x) = option_map (tmap f) (tset t b i x).
Proof.
  destruct t as [bs|]; [|reflexivity]. unfold tset, tmap at 1. cbn [option_map]. rewrite nth_error_map. destruct (nth_error bs b) as [[l|]|]; [|reflexivity|reflexivity]. cbn [option_map].
  rewrite map_length. destruct (Nat.ltb i (length l)); [|reflexivity]. cbn. rewrite map_upd. cbn. now rewrite map_upd.
Qed.

Lemma tappend_map {A B} (f : A -> B) bc t b x : tappend bc (tmap f t) b (f x) = option_map (fun p => (tmap f (fst p), snd p)) (tappend bc t b x).
Proof.
  unfold tappend. set (bs := match t with Some bs => bs | None => repeat None bc end).
  replace (match tmap f t with Some bs => bs | None => repeat None bc end) with (map (option_map (map f)) bs).
  2:{ subst bs. destruct t; [reflexivity|]. cbn. clear. induction bc; cbn; congruence. }
  rewrite nth_error_map. destruct (nth_error bs b) as [bk|]; [|reflexivity]. cbn. rewrite map_upd. destruct bk as [l|]; cbn; [rewrite map_app, map_length|]; reflexivity.
Qed.

Lemma upd_self {A} (l : list A) i x : nth_error l i = Some x -> upd l i x = l.
Proof. revert i. induction l as [|y l IH]; intros [|i]; cbn; try discriminate; [congruence|]. intros E. f_equal. auto. Qed.

Lemma tset_same {A} (t : table A) b i x : tget t b i = Some x -> tset t b i x = Some t.
Proof.
  destruct t as [bs|]; [|discriminate]. unfold tget, tset. destruct (nth_error bs b) as [[l|]|] eqn:E; try discriminate. intros H.
  assert (L : (i < length l)%nat) by (apply nth_error_Some; congruence). apply Nat.ltb_lt in L. rewrite L. rewrite (upd_self l) by auto. rewrite (upd_self bs) by auto. reflexivity.
Qed.

Lemma tset_some {A} (t : table A) b i x y : tget t b i = Some y -> exists t', tset t b i x = Some t'.
Proof.
  destruct t as [bs|]; [|discriminate]. unfold tget, tset. destruct (nth_error bs b) as [[l|]|] eqn:E; try discriminate. intros H.
  assert (L : (i < length l)%nat) by (apply nth_error_Some; congruence). apply Nat.ltb_lt in L. rewrite L. eauto.
Qed.

(** Writing an element that agrees with the old one in field [f] leaves that field's table. *)
Lemma tset_field {A B} (f : A -> B) t b i x y t' : tget t b i = Some y -> f x = f y -> tset t b i x = Some t' -> tmap f t' = tmap f t.
Proof.
  intros G F S. pose proof (tset_map f t b i x) as P. rewrite S in P. cbn in P. rewrite F in P. rewrite tset_same in P by (rewrite tget_map, G; reflexivity). congruence.
Qed.

Section Split.
Context {K V : Type} (hash : K -> N) (eqk : K -> K -> bool).
Notation item := (item K V).

Definition pair_of (it : item) : K * option V := (ikey it, ival it).
Definition hsplit (m : hashmap K V) : hmap K V := mkH (bucketCount m) (count m) (tmap ihash (buckets m)) (tmap pair_of (buckets m)).
Definition asplit (m : hashmap K V) : amap K V :=
  mkA (bucketCount m) (count m) (tmap ihash (buckets m)) (tmap ikey (buckets m)) (tmap ival (buckets m)).

(** ** The interleaved map in terms of tables *)
Lemma set_item_tset (m : hashmap K V) b i it it' : item_at m b i = Some it ->
  set_item m b i it' = option_map (mkMap (bucketCount m) (count m)) (tset (buckets m) b i it').
Proof.
  unfold item_at, set_item, tset. destruct (buckets m) as [bs|]; [|reflexivity]. destruct (nth_error bs b) as [[l|]|]; [|reflexivity|reflexivity]. intros H.
  assert (L : (i < length l)%nat) by (apply nth_error_Some; congruence). apply Nat.ltb_lt in L. now rewrite L.
Qed.

Lemma find_empty_h items i : find_empty items i = hfind_empty (map (ihash (K := K) (V := V)) items) i.
Proof. revert i. induction items as [|it t IH]; intros i; cbn; [reflexivity|]. destruct (is_empty (ihash it)); auto. Qed.

Lemma find_empty_lt items i j : find_empty (K := K) (V := V) items i = Some j -> (i <= j)%nat /\ exists it, nth_error items (j - i) = Some it.
Proof.
  revert i. induction items as [|it t IH]; intros i; cbn; [discriminate|]. destruct (is_empty (ihash it)).
  - intros [= <-]. split; [lia|]. rewrite Nat.sub_diag. cbn. eauto.
  - intros H. apply IH in H as (L & x & E). split; [lia|]. exists x. replace (j - i)%nat with (Datatypes.S (j - Datatypes.S i)) by lia. exact E.
Qed.

Lemma add_value_t (m : hashmap K V) b h k v :
  add_value m b h k v =
  let h := match v with Some _ => N.lor h INIT | None => h end in
  let? r := hreusable (tmap ihash (buckets m)) b in
  match r with
  | Some i => let? it := tget (buckets m) b i in
              let? t := tset (buckets m) b i (mkItem h k (match v with Some _ => v | None => ival it end)) in
              Some (mkMap (bucketCount m) (count m + 1) t, i)
  | None => let? (t, i) := tappend (bucketCount m) (buckets m) b (mkItem h k v) in Some (mkMap (bucketCount m) (count m + 1) t, i)
  end.
Proof.
  unfold add_value, hreusable, tappend, tget, tset. set (h' := match v with Some _ => N.lor h INIT | None => h end). cbn zeta. destruct (buckets m) as [bs|]; cbn [tmap option_map].
  - rewrite nth_error_map. destruct (nth_error bs b) as [[l|]|] eqn:E; cbn [option_map]; [|reflexivity|reflexivity]. rewrite find_empty_h.
    destruct (hfind_empty (map ihash l) 0) as [i|] eqn:F; [|reflexivity].
    rewrite <- find_empty_h in F. apply find_empty_lt in F as (_ & it & G). rewrite Nat.sub_0_r in G. rewrite G.
    assert (L : (i < length l)%nat) by (apply nth_error_Some; congruence). apply Nat.ltb_lt in L. rewrite L. reflexivity.
  - destruct (nth_error (repeat None (bucketCount m)) b) as [bk|] eqn:E; [|reflexivity]. apply nth_error_In, repeat_spec in E. subst bk. reflexivity.
Qed.

(** ** Scans *)
Lemma first_live_h items i : first_live items i = hfirst_live (map (ihash (K := K) (V := V)) items) i.
Proof. revert i. induction items as [|it t IH]; intros i; cbn; [reflexivity|]. destruct (is_empty (ihash it)); auto. Qed.

Lemma scan_up_h bs b s : scan_up bs b s = hscan_up (map (option_map (map (ihash (K := K) (V := V)))) bs) b s.
Proof.
  revert b s. induction bs as [|[l|] t IH]; intros b s; cbn; auto. rewrite first_live_h, skipn_map. destruct (hfirst_live _ s); auto.
Qed.

Lemma last_live_h items n : last_live items n = hlast_live (map (ihash (K := K) (V := V)) items) n.
Proof. induction n as [|n IH]; cbn; [reflexivity|]. rewrite nth_error_map. destruct (nth_error items n) as [it|]; cbn; [|auto]. destruct (is_empty (ihash it)); auto. Qed.

Lemma scan_down_h bs n u : scan_down bs n u = hscan_down (map (option_map (map (ihash (K := K) (V := V)))) bs) n u.
Proof.
  revert u. induction n as [|n IH]; intros u; cbn; [reflexivity|]. rewrite nth_error_map. destruct (nth_error bs n) as [[l|]|]; cbn; auto.
  rewrite last_live_h, map_length. destruct (hlast_live _ _); auto.
Qed.

Lemma hentry_of_h (m : hashmap K V) p : hentry_of (bucketCount m) p = position_entry m p.
Proof. unfold hentry_of, position_entry, to_entry. destruct p as [[b i]|]; reflexivity. Qed.

Lemma head_h (m : hashmap K V) : hhead (bucketCount m) (tmap ihash (buckets m)) = head_entry (K := K) (V := V) m.
Proof. unfold hhead, head_entry. destruct (buckets m) as [bs|]; [|reflexivity]. cbn [tmap option_map]. rewrite scan_up_h. apply hentry_of_h. Qed.

Lemma tail_h (m : hashmap K V) : htail (bucketCount m) (tmap ihash (buckets m)) = tail_entry (K := K) (V := V) m.
Proof. unfold htail, tail_entry. destruct (buckets m) as [bs|]; [|reflexivity]. cbn [tmap option_map]. rewrite scan_down_h, map_length. apply hentry_of_h. Qed.

Lemma next_h (m : hashmap K V) e : hnext (bucketCount m) (tmap ihash (buckets m)) e = next_entry (K := K) (V := V) m e.
Proof.
  unfold hnext, next_entry. destruct (buckets m) as [bs|]; [|reflexivity]. cbn [tmap option_map]. destruct (entry_to_index _ e) as [[[b i]|]|]; try reflexivity. rewrite scan_up_h, skipn_map. apply hentry_of_h.
Qed.

Lemma prev_h (m : hashmap K V) e : hprev (bucketCount m) (tmap ihash (buckets m)) e = prev_entry (K := K) (V := V) m e.
Proof.
  unfold hprev, prev_entry. destruct (buckets m) as [bs|]; [|reflexivity]. cbn [tmap option_map]. destruct (entry_to_index _ e) as [[[b i]|]|]; try reflexivity. rewrite scan_down_h. apply hentry_of_h.
Qed.

Lemma enum_h (m : hashmap K V) e a : henum (bucketCount m) (tmap ihash (buckets m)) e a = enum_step (K := K) (V := V) m e a.
Proof. unfold henum, enum_step. rewrite head_h, tail_h, next_h, prev_h. reflexivity. Qed.

Lemma slots_h (m : hashmap K V) : hslots (tmap ihash (buckets m)) = slots (K := K) (V := V) m.
Proof.
  unfold hslots, slots. destruct (buckets m) as [bs|]; [|reflexivity]. cbn. induction bs as [|[l|] t IH]; cbn; auto. rewrite !app_length, map_length. congruence.
Qed.

(** ** Entries and keys *)
Lemma hentry_h (m : hashmap K V) e : hentry (bucketCount m) (tmap ihash (buckets m)) e = option_map (option_map (fun x => (fst x, ihash (snd x)))) (entry_item (K := K) (V := V) m e).
Proof.
  unfold hentry, entry_item. destruct (entry_to_index _ e) as [[[b i]|]|]; try reflexivity. change (item_at m) with (tget (buckets m)). rewrite tget_map.
  destruct (tget (buckets m) (N.to_nat b) (N.to_nat i)) as [it|]; [|reflexivity]. cbn. destruct (is_empty (ihash it)); reflexivity.
Qed.

Lemma entry_item_at (m : hashmap K V) e b i it : entry_item (K := K) (V := V) m e = Some (Some (b, i, it)) -> tget (buckets m) b i = Some it.
Proof.
  unfold entry_item. destruct (entry_to_index _ e) as [[[b' i']|]|]; try discriminate. change (item_at m) with (tget (buckets m)).
  destruct (tget (buckets m) (N.to_nat b') (N.to_nat i')) as [x|] eqn:E; [|discriminate]. destruct (is_empty (ihash x)); [discriminate|]. intros [= <- <- <-]. exact E.
Qed.

Lemma hfind_h h k pre items (key : nat -> option K) :
  (forall i, key i = option_map ikey (nth_error (pre ++ items) i)) ->
  hfind eqk h k (map (ihash (K := K) (V := V)) items) key (length pre) = Some (find_item eqk h k items (length pre)).
Proof.
  revert pre. induction items as [|it t IH]; intros pre H; cbn; [reflexivity|].
  assert (R : hfind eqk h k (map ihash t) key (Datatypes.S (length pre)) = Some (find_item eqk h k t (Datatypes.S (length pre)))).
  { specialize (IH (pre ++ [it])). rewrite app_length in IH. cbn [length] in IH. rewrite Nat.add_1_r in IH. apply IH. intros i. rewrite H. now rewrite <- app_assoc. }
  destruct (h =? N.land (ihash it) (wnot 64 INIT)) eqn:E; cbn; [|exact R]. rewrite H, nth_error_app2, Nat.sub_diag by lia. cbn. destruct (eqk k (ikey it)); [reflexivity|exact R].
Qed.

Lemma hfind_0 h k items (key : nat -> option K) : (forall i, key i = option_map ikey (nth_error items i)) ->
  hfind eqk h k (map (ihash (K := K) (V := V)) items) key 0 = Some (find_item eqk h k items 0).
Proof. exact (hfind_h h k [] items key). Qed.

Lemma h_get_key_ok (m : hashmap K V) k : h_get_key hash eqk (hsplit m) k = get_key hash eqk m k.
Proof.
  unfold h_get_key, get_key, hsplit; cbn [hbc hcount hhashes hbuckets]. cbn zeta. set (b := N.to_nat _). destruct (buckets m) as [bs|] eqn:B; [|reflexivity].
  cbn [tmap option_map]. rewrite nth_error_map. destruct (nth_error bs b) as [[l|]|] eqn:E; try reflexivity. cbn [option_map]. rewrite hfind_0; [reflexivity|].
  intros i. change (Some (map (option_map (map pair_of)) bs)) with (tmap pair_of (Some bs)). rewrite tget_map. cbn [tget]. rewrite E. destruct (nth_error l i); reflexivity.
Qed.

Lemma a_get_key_ok (m : hashmap K V) k : a_get_key hash eqk (asplit m) k = get_key hash eqk m k.
Proof.
  unfold a_get_key, get_key, asplit; cbn [abc acount ahashes akeys avalues]. cbn zeta. set (b := N.to_nat _). destruct (buckets m) as [bs|] eqn:B; [|reflexivity].
  cbn [tmap option_map]. rewrite nth_error_map. destruct (nth_error bs b) as [[l|]|] eqn:E; try reflexivity. cbn [option_map]. rewrite hfind_0; [reflexivity|].
  intros i. change (Some (map (option_map (map ikey)) bs)) with (tmap (ikey (K := K) (V := V)) (Some bs)). rewrite tget_map. cbn [tget]. rewrite E. reflexivity.
Qed.

Lemma find_item_at h k items i j : find_item (V := V) eqk h k items i = Some j -> (i <= j)%nat /\ exists it, nth_error items (j - i) = Some it.
Proof.
  revert i. induction items as [|it t IH]; intros i; cbn; [discriminate|]. destruct ((h =? _) && eqk k (ikey it)).
  - intros [= <-]. split; [lia|]. rewrite Nat.sub_diag. cbn. eauto.
  - intros H. apply IH in H as (L & x & E). split; [lia|]. exists x. replace (j - i)%nat with (Datatypes.S (j - Datatypes.S i)) by lia. exact E.
Qed.

Lemma get_key_at (m : hashmap K V) k h b i : get_key hash eqk m k = Some (h, b, Some i) -> exists it, tget (buckets m) b i = Some it.
Proof.
  unfold get_key. cbn zeta. set (b' := N.to_nat _). destruct (buckets m) as [bs|]; [|discriminate]. cbn [tget]. destruct (nth_error bs b') as [[l|]|] eqn:E; try discriminate.
  intros [= <- <- F]. rewrite E. apply find_item_at in F as (_ & it & G). rewrite Nat.sub_0_r in G. eauto.
Qed.

(** ** Writing *)
Lemma hidx (m : hashmap K V) b i (it it' : item) (v : option V) : tget (buckets m) b i = Some it -> ikey it' = ikey it -> ival it' = v ->
  h_write (hsplit m) b i (ihash it') v = option_map hsplit (set_item m b i it').
Proof.
  intros G Ek Ev. rewrite (set_item_tset m b i it it' G). destruct (tset_some _ b i it' _ G) as (t' & S). rewrite S. cbn [option_map].
  unfold h_write, hsplit; cbn [hbc hcount hhashes hbuckets bucketCount count buckets]. rewrite (tset_map ihash), S. cbn [option_map]. rewrite tget_map, G. cbn [option_map fst pair_of].
  replace (ikey it, v) with (pair_of it') by (unfold pair_of; congruence). rewrite tset_map, S. reflexivity.
Qed.

Lemma aidx (m : hashmap K V) b i (it it' : item) (v : option V) : tget (buckets m) b i = Some it -> ikey it' = ikey it -> ival it' = v ->
  a_write (asplit m) b i (ihash it') v = option_map asplit (set_item m b i it').
Proof.
  intros G Ek Ev. rewrite (set_item_tset m b i it it' G). destruct (tset_some _ b i it' _ G) as (t' & S). rewrite S. cbn [option_map].
  unfold a_write, asplit; cbn [abc acount ahashes akeys avalues bucketCount count buckets]. rewrite (tset_map ihash), S. cbn [option_map]. subst v. rewrite (tset_map ival), S. cbn [option_map].
  rewrite (tset_field ikey _ _ _ _ _ _ G Ek S). reflexivity.
Qed.

Lemma h_add_ok (m : hashmap K V) b h k v : h_add_value (hsplit m) b h k v = option_map (fun p => (hsplit (fst p), snd p)) (add_value m b h k v).
Proof.
  rewrite add_value_t. unfold h_add_value, hsplit; cbn [hbc hcount hhashes hbuckets]. cbn zeta. set (h' := match v with Some _ => N.lor h INIT | None => h end).
  destruct (hreusable (tmap ihash (buckets m)) b) as [[i|]|]; [| |reflexivity].
  - rewrite tget_map. destruct (tget (buckets m) b i) as [it|] eqn:G.
    + cbn [option_map]. set (it' := mkItem h' k _). destruct (tset_some _ b i it' _ G) as (t' & S). change h' with (ihash it') at 1. rewrite tset_map, S. cbn [option_map].
      match goal with |- context [tset (tmap pair_of _) b i ?p] => change p with (pair_of it') end. rewrite tset_map, S. reflexivity.
    + destruct (tset (tmap ihash (buckets m)) b i h'); reflexivity.
  - change h' with (ihash (mkItem h' k v)) at 1. rewrite tappend_map. change (k, v) with (pair_of (mkItem h' k v)). rewrite tappend_map. destruct (tappend _ (buckets m) b _) as [[t i]|]; reflexivity.
Qed.

Lemma a_add_ok (m : hashmap K V) b h k v : a_add_value (asplit m) b h k v = option_map (fun p => (asplit (fst p), snd p)) (add_value m b h k v).
Proof.
  rewrite add_value_t. unfold a_add_value, asplit; cbn [abc acount ahashes akeys avalues]. cbn zeta. set (h' := match v with Some _ => N.lor h INIT | None => h end).
  destruct (hreusable (tmap ihash (buckets m)) b) as [[i|]|]; [| |reflexivity].
  - rewrite (tget_map ival). destruct (tget (buckets m) b i) as [it|] eqn:G.
    + cbn [option_map]. set (it' := mkItem h' k _). destruct (tset_some _ b i it' _ G) as (t' & S). change h' with (ihash it') at 1. rewrite tset_map, S. cbn [option_map].
      change k with (ikey it') at 1. rewrite tset_map, S. cbn [option_map]. destruct v as [v|].
      * change (Some v) with (ival it') at 1. rewrite tset_map, S. reflexivity.
      * cbn. do 3 f_equal. rewrite (tset_field ival _ _ _ it' it _ G eq_refl S). reflexivity.
    + destruct (tset (tmap ihash (buckets m)) b i h'); [|reflexivity]. destruct (tset (tmap ikey (buckets m)) b i k); reflexivity.
  - set (it' := mkItem h' k v). change h' with (ihash it') at 1. rewrite tappend_map. change k with (ikey it') at 1. rewrite tappend_map. change v with (ival it') at 1. rewrite tappend_map.
    destruct (tappend _ (buckets m) b _) as [[t i]|]; reflexivity.
Qed.

Lemma lor_twice h : N.lor (N.lor h INIT) INIT = N.lor h INIT.
Proof. now rewrite <- N.lor_assoc, N.lor_diag. Qed.

Lemma add_value_twice (m : hashmap K V) b h k v : add_value m b (N.lor h INIT) k (Some v) = add_value m b h k (Some v).
Proof. unfold add_value. now rewrite lor_twice. Qed.

Lemma h_remove_ok (m : hashmap K V) e : h_remove (hsplit m) e = option_map hsplit (remove_item m e).
Proof.
  unfold h_remove, remove_item, hsplit; cbn [hbc hcount hhashes hbuckets]. rewrite hentry_h. destruct (entry_item m e) as [[[[b i] it]|]|] eqn:E; [|reflexivity|reflexivity].
  apply entry_item_at in E. cbn [option_map fst snd]. set (it' := mkItem _ (ikey it) (ival it)). rewrite (set_item_tset m b i it it' E).
  destruct (tset_some _ b i it' _ E) as (t' & S). match goal with |- context [tset (tmap ihash _) b i ?h] => change h with (ihash it') end. rewrite tset_map, S. cbn.
  rewrite (tset_field pair_of _ _ _ it' it _ E eq_refl S). reflexivity.
Qed.

Lemma a_remove_ok (m : hashmap K V) e : a_remove (asplit m) e = option_map asplit (remove_item m e).
Proof.
  unfold a_remove, remove_item, asplit; cbn [abc acount ahashes akeys avalues]. rewrite hentry_h. destruct (entry_item m e) as [[[[b i] it]|]|] eqn:E; [|reflexivity|reflexivity].
  apply entry_item_at in E. cbn [option_map fst snd]. set (it' := mkItem _ (ikey it) (ival it)). rewrite (set_item_tset m b i it it' E).
  destruct (tset_some _ b i it' _ E) as (t' & S). match goal with |- context [tset (tmap ihash _) b i ?h] => change h with (ihash it') end. rewrite tset_map, S. cbn.
  rewrite (tset_field ikey _ _ _ it' it _ E eq_refl S), (tset_field ival _ _ _ it' it _ E eq_refl S). reflexivity.
Qed.

(** The copy of CCHashMapRehash, as a SetValue *)
Definition copy_one (n : hashmap K V) (it : item) : option (hashmap K V) :=
  match ival it with
  | Some v => set_value hash eqk n (ikey it) v
  | None =>
      let? (h, b, r) := get_key hash eqk n (ikey it) in
      match r with
      | Some i => let? o := item_at n b i in
                  set_item n b i (mkItem (if is_init h then ihash o else N.lor (ihash o) INIT) (ikey o) None)
      | None => let? (n, _) := add_value n b (N.lor h INIT) (ikey it) None in Some n
      end
  end.

Lemma h_set_value_ok (m : hashmap K V) k (it : item) : ikey it = k -> h_set_value hash eqk (hsplit m) k (ival it) = option_map hsplit (copy_one m it).
Proof.
  intros <-. unfold h_set_value, copy_one, set_value. rewrite h_get_key_ok. destruct (get_key hash eqk m (ikey it)) as [[[h b] [i|]]|] eqn:E; [| |destruct (ival it); reflexivity].
  - destruct (get_key_at _ _ _ _ _ E) as (o & G). replace (tget (hhashes (hsplit m)) b i) with (Some (ihash o)) by (cbn; now rewrite tget_map, G). unfold item_at. fold (tget (buckets m) b i). rewrite G.
    destruct (ival it) as [v|]; rewrite <- (hidx m b i o _ _ G) by reflexivity; reflexivity.
  - rewrite h_add_ok. destruct (ival it) as [v|]; [rewrite add_value_twice|]; destruct (add_value m b _ _ _) as [[? ?]|]; reflexivity.
Qed.

Lemma a_set_value_ok (m : hashmap K V) k (it : item) : ikey it = k -> a_set_value hash eqk (asplit m) k (ival it) = option_map asplit (copy_one m it).
Proof.
  intros <-. unfold a_set_value, copy_one, set_value. rewrite a_get_key_ok. destruct (get_key hash eqk m (ikey it)) as [[[h b] [i|]]|] eqn:E; [| |destruct (ival it); reflexivity].
  - destruct (get_key_at _ _ _ _ _ E) as (o & G). replace (tget (ahashes (asplit m)) b i) with (Some (ihash o)) by (cbn; now rewrite tget_map, G). unfold item_at. fold (tget (buckets m) b i). rewrite G.
    destruct (ival it) as [v|]; rewrite <- (aidx m b i o _ _ G) by reflexivity; reflexivity.
  - rewrite a_add_ok. destruct (ival it) as [v|]; [rewrite add_value_twice|]; destruct (add_value m b _ _ _) as [[? ?]|]; reflexivity.
Qed.

Lemma copy_entries_unfold fuel (m n : hashmap K V) e :
  copy_entries hash eqk fuel m n e =
  if e =? 0 then Some n
  else match fuel with
       | O => None
       | Datatypes.S f => let? x := entry_item m e in let? (_, _, it) := x in let? n := copy_one n it in let? e := next_entry m e in copy_entries hash eqk f m n e
       end.
Proof. destruct fuel; reflexivity. Qed.

Lemma h_copy_ok fuel (m n : hashmap K V) e : h_copy_entries hash eqk fuel (hsplit m) (hsplit n) e = option_map hsplit (copy_entries hash eqk fuel m n e).
Proof.
  revert n e. induction fuel as [|f IH]; intros n e; rewrite copy_entries_unfold; cbn [h_copy_entries]; destruct (e =? 0); try reflexivity.
  cbn [hsplit hbc hhashes]. rewrite hentry_h, next_h. destruct (entry_item m e) as [[[[b i] it]|]|] eqn:E; try reflexivity. apply entry_item_at in E. cbn [option_map fst snd].
  cbn [hsplit hbuckets]. rewrite tget_map, E. cbn [option_map pair_of fst snd]. rewrite h_set_value_ok by reflexivity. destruct (copy_one n it) as [n'|]; [|reflexivity]. cbn [option_map].
  destruct (next_entry m e) as [e'|]; [|reflexivity]. apply IH.
Qed.

Lemma a_copy_ok fuel (m n : hashmap K V) e : a_copy_entries hash eqk fuel (asplit m) (asplit n) e = option_map asplit (copy_entries hash eqk fuel m n e).
Proof.
  revert n e. induction fuel as [|f IH]; intros n e; rewrite copy_entries_unfold; cbn [a_copy_entries]; destruct (e =? 0); try reflexivity.
  cbn [asplit abc ahashes]. rewrite hentry_h, next_h. destruct (entry_item m e) as [[[[b i] it]|]|] eqn:E; try reflexivity. apply entry_item_at in E. cbn [option_map fst snd].
  cbn [asplit akeys avalues]. rewrite !tget_map, E. cbn [option_map fst snd]. rewrite a_set_value_ok by reflexivity. destruct (copy_one n it) as [n'|]; [|reflexivity]. cbn [option_map].
  destruct (next_entry m e) as [e'|]; [|reflexivity]. apply IH.
Qed.

Lemma h_create_ok bc : h_create bc = option_map hsplit (create (K := K) (V := V) bc).
Proof. unfold h_create, create. destruct (Nat.leb 1 bc); reflexivity. Qed.

Lemma a_create_ok bc : a_create bc = option_map asplit (create (K := K) (V := V) bc).
Proof. unfold a_create, create. destruct (Nat.leb 1 bc); reflexivity. Qed.

Lemma h_rehash_ok (m : hashmap K V) bc : h_rehash hash eqk (hsplit m) bc = option_map hsplit (rehash hash eqk m bc).
Proof.
  unfold h_rehash, rehash. rewrite h_create_ok. destruct (create bc) as [n|]; [|reflexivity]. cbn [option_map hsplit hbc hhashes]. rewrite head_h, slots_h.
  destruct (head_entry m) as [e|]; [|reflexivity]. apply h_copy_ok.
Qed.

Lemma a_rehash_ok (m : hashmap K V) bc : a_rehash hash eqk (asplit m) bc = option_map asplit (rehash hash eqk m bc).
Proof.
  unfold a_rehash, rehash. rewrite a_create_ok. destruct (create bc) as [n|]; [|reflexivity]. cbn [option_map asplit abc ahashes]. rewrite head_h, slots_h.
  destruct (head_entry m) as [e|]; [|reflexivity]. apply a_copy_ok.
Qed.

(** ** Listing *)
Lemma hlive_bucket_h {A} (f : item -> A) pre items :
  hlive_bucket (map ihash items) (Some (map f (pre ++ items))) (length pre) = Some (map f (filter (fun it => negb (is_empty (ihash it))) items)).
Proof.
  revert pre. induction items as [|it t IH]; intros pre; cbn; [reflexivity|]. specialize (IH (pre ++ [it])). rewrite app_length, <- app_assoc in IH. cbn in IH. rewrite Nat.add_1_r in IH. rewrite IH.
  destruct (is_empty (ihash it)); cbn; [reflexivity|]. rewrite nth_error_map, nth_error_app2, Nat.sub_diag by lia. reflexivity.
Qed.

Lemma hlive_buckets_h {A} (f : item -> A) pre bs :
  hlive_buckets (map (option_map (map ihash)) bs) (tmap f (Some (pre ++ bs))) (length pre) =
  Some (map f (filter (fun it => negb (is_empty (ihash it))) (concat (map (fun bk => match bk with Some l => l | None => [] end) bs)))).
Proof.
  revert pre. induction bs as [|bk t IH]; intros pre; cbn [map hlive_buckets]; [reflexivity|]. specialize (IH (pre ++ [bk])). rewrite app_length, <- app_assoc in IH. cbn [app length] in IH. rewrite Nat.add_1_r in IH.
  destruct bk as [l|]; cbn [option_map].
  - cbn [tmap option_map]. rewrite nth_error_map, nth_error_app2, Nat.sub_diag by lia. cbn [nth_error option_map]. pose proof (hlive_bucket_h f [] l) as Q. cbn [app length] in Q. rewrite Q.
    cbn [tmap option_map] in IH. rewrite IH. cbn [concat]. now rewrite filter_app, map_app.
  - exact IH.
Qed.

Lemma hlive_h {A} (f : item -> A) (m : hashmap K V) : hlive (tmap ihash (buckets m)) (tmap f (buckets m)) = Some (map f (live_items m)).
Proof. unfold hlive, live_items. destruct (buckets m) as [bs|]; [|reflexivity]. exact (hlive_buckets_h f [] bs). Qed.

(** ** Every call *)
Definition out_h (p : option (hashmap K V * ret K V)) := option_map (fun x => (hsplit (fst x), snd x)) p.
Definition out_a (p : option (hashmap K V * ret K V)) := option_map (fun x => (asplit (fst x), snd x)) p.

Lemma h_step_ok m o : h_step hash eqk (hsplit m) o = out_h (step hash eqk m o).
Proof.
  destruct o as [k v|k|k|k|k|e|e|e|e v|e| | | |bc]; cbn [h_step step].
  - change (Some v) with (ival (mkItem 0 k (Some v))). rewrite h_set_value_ok by reflexivity. change (copy_one m (mkItem 0 k (Some v))) with (set_value hash eqk m k v). destruct (set_value hash eqk m k v); reflexivity.
  - rewrite h_get_key_ok. destruct (get_key hash eqk m k) as [[[h b] [i|]]|] eqn:E; try reflexivity. cbn [hsplit hbuckets]. rewrite tget_map. change (item_at m b i) with (tget (buckets m) b i). destruct (tget (buckets m) b i); reflexivity.
  - rewrite h_get_key_ok. destruct (get_key hash eqk m k) as [[[h b] [i|]]|] eqn:E; try reflexivity. change (h_to_entry (hsplit m) b i) with (to_entry m b i). destruct (to_entry m b i) as [e|]; [|reflexivity].
    rewrite h_remove_ok. destruct (remove_item m e); reflexivity.
  - rewrite h_get_key_ok. destruct (get_key hash eqk m k) as [[[h b] [i|]]|] eqn:E; try reflexivity. change (h_to_entry (hsplit m) b i) with (to_entry m b i). destruct (to_entry m b i); reflexivity.
  - rewrite h_get_key_ok. destruct (get_key hash eqk m k) as [[[h b] [i|]]|] eqn:E; try reflexivity.
    + change (h_to_entry (hsplit m) b i) with (to_entry m b i). destruct (to_entry m b i); reflexivity.
    + rewrite h_add_ok. destruct (add_value m b h k None) as [[m' i]|]; [|reflexivity]. cbn [option_map fst snd]. change (h_to_entry (hsplit m') b i) with (to_entry m' b i). destruct (to_entry m' b i); reflexivity.
  - cbn [hsplit hbc hhashes]. rewrite hentry_h. destruct (entry_item m e) as [[[[b i] it]|]|]; reflexivity.
  - cbn [hsplit hbc hhashes]. rewrite hentry_h. destruct (entry_item m e) as [[[[b i] it]|]|] eqn:E; try reflexivity. apply entry_item_at in E. cbn [option_map fst snd hsplit hbuckets]. rewrite tget_map, E. reflexivity.
  - cbn [hsplit hbc hhashes]. rewrite hentry_h. destruct (entry_item m e) as [[[[b i] it]|]|] eqn:E; try reflexivity. apply entry_item_at in E. cbn [option_map fst snd hsplit hbuckets]. rewrite tget_map, E. reflexivity.
  - cbn [hbc hhashes hsplit]. rewrite hentry_h. destruct (entry_item m e) as [[[[b i] it]|]|] eqn:E; try reflexivity. apply entry_item_at in E. cbn [option_map fst snd].
    set (it' := mkItem _ (ikey it) (Some v)). fold (hsplit m). change (N.lor (ihash it) INIT) with (ihash it'). rewrite (hidx m b i it it' (Some v) E) by reflexivity. destruct (set_item m b i it'); reflexivity.
  - rewrite h_remove_ok. destruct (remove_item m e); reflexivity.
  - reflexivity.
  - cbn [hsplit hhashes hbuckets]. rewrite hlive_h. cbn. now rewrite map_map.
  - cbn [hsplit hhashes hbuckets]. rewrite hlive_h. cbn. now rewrite map_map.
  - rewrite h_rehash_ok. destruct (rehash hash eqk m bc); reflexivity.
Qed.

Lemma a_step_ok m o : a_step hash eqk (asplit m) o = out_a (step hash eqk m o).
Proof.
  destruct o as [k v|k|k|k|k|e|e|e|e v|e| | | |bc]; cbn [a_step step].
  - change (Some v) with (ival (mkItem 0 k (Some v))). rewrite a_set_value_ok by reflexivity. change (copy_one m (mkItem 0 k (Some v))) with (set_value hash eqk m k v). destruct (set_value hash eqk m k v); reflexivity.
  - rewrite a_get_key_ok. destruct (get_key hash eqk m k) as [[[h b] [i|]]|] eqn:E; try reflexivity. cbn [asplit avalues]. rewrite tget_map. change (item_at m b i) with (tget (buckets m) b i). destruct (tget (buckets m) b i); reflexivity.
  - rewrite a_get_key_ok. destruct (get_key hash eqk m k) as [[[h b] [i|]]|] eqn:E; try reflexivity. change (a_to_entry (asplit m) b i) with (to_entry m b i). destruct (to_entry m b i) as [e|]; [|reflexivity].
    rewrite a_remove_ok. destruct (remove_item m e); reflexivity.
  - rewrite a_get_key_ok. destruct (get_key hash eqk m k) as [[[h b] [i|]]|] eqn:E; try reflexivity. change (a_to_entry (asplit m) b i) with (to_entry m b i). destruct (to_entry m b i); reflexivity.
  - rewrite a_get_key_ok. destruct (get_key hash eqk m k) as [[[h b] [i|]]|] eqn:E; try reflexivity.
    + change (a_to_entry (asplit m) b i) with (to_entry m b i). destruct (to_entry m b i); reflexivity.
    + rewrite a_add_ok. destruct (add_value m b h k None) as [[m' i]|]; [|reflexivity]. cbn [option_map fst snd]. change (a_to_entry (asplit m') b i) with (to_entry m' b i). destruct (to_entry m' b i); reflexivity.
  - cbn [asplit abc ahashes]. rewrite hentry_h. destruct (entry_item m e) as [[[[b i] it]|]|]; reflexivity.
  - cbn [asplit abc ahashes]. rewrite hentry_h. destruct (entry_item m e) as [[[[b i] it]|]|] eqn:E; try reflexivity. apply entry_item_at in E. cbn [option_map fst snd asplit akeys avalues]. rewrite tget_map, E. reflexivity.
  - cbn [asplit abc ahashes]. rewrite hentry_h. destruct (entry_item m e) as [[[[b i] it]|]|] eqn:E; try reflexivity. apply entry_item_at in E. cbn [option_map fst snd asplit akeys avalues]. rewrite tget_map, E. reflexivity.
  - cbn [abc ahashes asplit]. rewrite hentry_h. destruct (entry_item m e) as [[[[b i] it]|]|] eqn:E; try reflexivity. apply entry_item_at in E. cbn [option_map fst snd].
    set (it' := mkItem _ (ikey it) (Some v)). fold (asplit m). change (N.lor (ihash it) INIT) with (ihash it'). rewrite (aidx m b i it it' (Some v) E) by reflexivity. destruct (set_item m b i it'); reflexivity.
  - rewrite a_remove_ok. destruct (remove_item m e); reflexivity.
  - reflexivity.
  - cbn [asplit ahashes akeys]. rewrite hlive_h. reflexivity.
  - cbn [asplit ahashes avalues]. rewrite hlive_h. reflexivity.
  - rewrite a_rehash_ok. destruct (rehash hash eqk m bc); reflexivity.
Qed.

Lemma h_run_ok m ops : h_run hash eqk (hsplit m) ops = option_map (fun x => (hsplit (fst x), snd x)) (run hash eqk m ops).
Proof.
  revert m. induction ops as [|o t IH]; intros m; cbn [h_run run]; [reflexivity|]. rewrite h_step_ok. destruct (step hash eqk m o) as [[m' r]|]; [|reflexivity]. cbn [out_h option_map fst snd].
  rewrite IH. destruct (run hash eqk m' t) as [[? ?]|]; reflexivity.
Qed.

Lemma a_run_ok m ops : a_run hash eqk (asplit m) ops = option_map (fun x => (asplit (fst x), snd x)) (run hash eqk m ops).
Proof.
  revert m. induction ops as [|o t IH]; intros m; cbn [a_run run]; [reflexivity|]. rewrite a_step_ok. destruct (step hash eqk m o) as [[m' r]|]; [|reflexivity]. cbn [out_a option_map fst snd].
  rewrite IH. destruct (run hash eqk m' t) as [[? ?]|]; reflexivity.
Qed.

End Split.
