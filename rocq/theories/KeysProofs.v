(** Proofs for C71. *)
From Verif Require Import Base BigIntModel BigIntSpec BigIntSubProofs BigIntFastModel BigIntFastSpec BigIntFastProofs StringModel StringSpec HashMapModel HashMapSpec DictionaryModel DictionarySpec KeysModel KeysSpec.
Local Open Scope Z_scope.

Lemma tail_eq : forall a b, compare_from_tail a b = Eq -> length a = length b -> a = b.
Proof.
  induction a as [|x a IH]; intros [|y b] E L; try discriminate; [reflexivity|]. cbn [compare_from_tail] in E.
  destruct (N.eqb_spec x y) as [->|]; [|destruct (x <? y)%N; discriminate]. f_equal. apply IH; [exact E|]. now injection L.
Qed.

Lemma compare_eq a b : compare a b = Eq -> a = b.
Proof.
  unfold compare. destruct a as [s l], b as [s' l']. cbn [sign limbs]. destruct (Bool.eqb s s') eqn:Es; cbn [negb]; [|destruct s; discriminate].
  apply Bool.eqb_prop in Es. subst s'. intros E. assert (E' : compare_components l l' = Eq) by (destruct s; [destruct (compare_components l l'); try discriminate; reflexivity|exact E]).
  unfold compare_components in E'. destruct (Nat.eqb_spec (length l) (length l')) as [L|L]; [|destruct (Nat.ltb (length l) (length l')); discriminate].
  f_equal. rewrite <- (rev_involutive l), <- (rev_involutive l'). f_equal. apply tail_eq; [exact E'|]. now rewrite !rev_length.
Qed.

Lemma tail_refl a : compare_from_tail a a = Eq.
Proof. induction a as [|x a IH]; [reflexivity|]. cbn [compare_from_tail]. now rewrite N.eqb_refl. Qed.

Lemma compare_refl a : compare a a = Eq.
Proof. unfold compare, compare_components. rewrite Bool.eqb_reflx, Nat.eqb_refl, tail_refl. cbn [negb]. now destruct (sign a). Qed.

(** A fast big integer as a big integer *)
Definition boxed (f : fast) : bigint := match f with BigIntFastModel.Tagged w => mkBig (fvalue f <? 0) [Z.to_N (Z.abs (fvalue f))] | Boxed b => b end.

Lemma in_range w : (w < 2 ^ 64)%N -> - 2 ^ 63 < fvalue (BigIntFastModel.Tagged w) < 2 ^ 63.
Proof. intros H. pose proof (tagged_range w H) as R. unfold BigIntFastSpec.inline in R. change (2 ^ 62) with 4611686018427387904 in R. change (2 ^ 63) with 9223372036854775808. lia. Qed.

Lemma set_int_is v : - 2 ^ 63 < v < 2 ^ 63 -> BigIntModel.set_int v = Some (mkBig (v <? 0) [Z.to_N (Z.abs v)]).
Proof. intros H. unfold BigIntModel.set_int. rewrite abs64_ok by exact H. now rewrite mask_neg. Qed.

Lemma boxed_value f : well_formed f -> value (boxed f) = fvalue f.
Proof.
  destruct f as [w|b]; [|reflexivity]. intros [_ H]. pose proof (in_range w H) as R. cbn [boxed]. set (v := fvalue _) in *. clearbody v.
  unfold value. cbn [sign limbs magnitude]. destruct (Z.ltb_spec v 0); lia.
Qed.

Lemma boxed_normal f : well_formed f -> normal (boxed f).
Proof.
  destruct f as [w|b]; [|trivial]. intros [_ H]. pose proof (in_range w H) as R. destruct (set_int_ok _ R) as (r & E & _ & [C _]). rewrite set_int_is in E by exact R. injection E as <-. exact C.
Qed.

Lemma comparator_eq f g : well_formed f -> well_formed g -> exists c, fast_comparator f g = Some c /\ (c = Eq <-> boxed f = boxed g).
Proof.
  unfold fast_comparator, compare_fast, compare_big_fast. destruct f as [w|a], g as [w'|b]; intros Hf Hg.
  - destruct Hf as [O1 H1], Hg as [O2 H2]. rewrite !get_tagged_ok by assumption. eexists. split; [reflexivity|]. rewrite compare_Z, Z.compare_eq_iff. split; [intros E; cbn [boxed]; now rewrite E|].
    intros E. rewrite <- (boxed_value (BigIntFastModel.Tagged w)), <- (boxed_value (BigIntFastModel.Tagged w')) by (split; assumption). now rewrite E.
  - destruct Hf as [O1 H1]. rewrite get_tagged_ok by assumption. unfold BigIntModel.compare_int. rewrite set_int_is by now apply in_range. cbn [option_map]. eexists. split; [reflexivity|].
    change (mkBig _ _) with (boxed (BigIntFastModel.Tagged w)). cbn [boxed]. split.
    + intros E. symmetry. apply compare_eq. destruct (compare b _); (discriminate || reflexivity).
    + intros <-. now rewrite compare_refl.
  - destruct Hg as [O1 H1]. rewrite get_tagged_ok by assumption. unfold BigIntModel.compare_int. rewrite set_int_is by now apply in_range. eexists. split; [reflexivity|].
    cbn [boxed]. split; [apply compare_eq|]. intros <-. apply compare_refl.
  - eexists. split; [reflexivity|]. cbn [boxed]. split; [apply compare_eq|]. intros <-. apply compare_refl.
Qed.

Lemma tagged_hash_is w : N.odd w = true -> (w < 2 ^ 64)%N -> tagged_hash w = Some (big_hash (boxed (BigIntFastModel.Tagged w))).
Proof.
  intros O1 H. unfold tagged_hash, BigIntFastModel.get_sign. rewrite get_tagged_ok by assumption. rewrite abs64_ok by now apply in_range.
  unfold big_hash. cbn [boxed limbs sign fold_left]. now rewrite N.lxor_0_l.
Qed.

Lemma fast_hash_is f : well_formed f -> fast_hash f = Some (big_hash (boxed f)).
Proof. destruct f as [w|b]; [intros []; now apply tagged_hash_is|reflexivity]. Qed.

Lemma fast_low_hash_is f : well_formed f -> fast_low_hash f = big_low_hash (boxed f).
Proof.
  destruct f as [w|b]; [|reflexivity]. intros [H1 H2]. cbn [fast_low_hash]. rewrite tagged_hash_is by assumption.
  unfold big_low_hash, big_hash. cbn [boxed limbs sign fold_left nth_error]. now rewrite N.lxor_0_l.
Qed.

Lemma low_hash_some b : normal b -> exists h, big_low_hash b = Some h.
Proof. intros H. unfold big_low_hash. destruct b as [s l]. destruct l as [|c l]; [destruct H; cbn in *; intuition congruence|]. cbn. eauto. Qed.

(** The specification depends on the comparator's answers only. *)
Section Ext.
Context {K V : Type} (e1 e2 : K -> K -> bool) (E : forall a b, e1 a b = e2 a b).

Lemma lookup_ext (l : list (K * V)) k : lookup e1 l k = lookup e2 l k.
Proof. unfold lookup. induction l as [|[k0 v0] l IH]; [reflexivity|]. simpl. rewrite E. now destruct (e2 k k0). Qed.
Lemma replace_ext (l : list (K * V)) k v : DictionarySpec.replace e1 l k v = DictionarySpec.replace e2 l k v.
Proof. unfold DictionarySpec.replace. apply map_ext. intros x. now rewrite E. Qed.
Lemma without_ext (l : list (K * V)) k : DictionarySpec.without e1 l k = DictionarySpec.without e2 l k.
Proof. unfold DictionarySpec.without. apply filter_ext. intros x. now rewrite E. Qed.
Lemma spec_ext kd vd (l : list (K * V)) a : spec e1 kd vd l a = spec e2 kd vd l a.
Proof. destruct a; cbn [spec]; rewrite ?lookup_ext, ?replace_ext, ?without_ext; reflexivity. Qed.
Lemma specs_ext kd vd p : forall l : list (K * V), specs e1 kd vd l p = specs e2 kd vd l p.
Proof.
  induction p as [|a p IH]; intros l; [reflexivity|]. cbn [specs]. rewrite spec_ext. destruct (spec e2 kd vd l a) as [[l' r] ev]. now rewrite IH.
Qed.
End Ext.
