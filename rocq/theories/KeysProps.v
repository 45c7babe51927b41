(** C71: the ready-made hashers and comparators of dictionary keys. *)
From Coq Require Import Permutation.
From Verif Require Import Base BigIntModel BigIntSpec BigIntProps BigIntFastModel BigIntFastSpec BigIntFastProps StringModel StringSpec StringMakeProofs StringProps HashMapModel HashMapSpec DictionaryModel DictionarySpec DictionaryProps KeysModel KeysSpec KeysProofs.

(** Two fast big integers the comparator calls equal, one of them inline and the other not perhaps, have the same hash and
    the same low hash. The hashers do not fail. *)
Theorem c71_fast_hash_agrees : forall f g, well_formed f -> well_formed g ->
  exists c h l h' l', fast_comparator f g = Some c /\ fast_hash f = Some h /\ fast_low_hash f = Some l /\ fast_hash g = Some h' /\ fast_low_hash g = Some l' /\
    (c = Eq -> h = h' /\ l = l').
Proof.
  intros f g Hf Hg. destruct (comparator_eq f g Hf Hg) as (c & E & I). destruct (low_hash_some _ (boxed_normal f Hf)) as (l & L). destruct (low_hash_some _ (boxed_normal g Hg)) as (l' & L').
  exists c, (big_hash (boxed f)), l, (big_hash (boxed g)), l'. split; [exact E|]. split; [now apply fast_hash_is|]. split; [now rewrite fast_low_hash_is|]. split; [now apply fast_hash_is|]. split; [now rewrite fast_low_hash_is|].
  intros Q. apply I in Q. rewrite Q in *. split; congruence.
Qed.
Print Assumptions c71_fast_hash_agrees.

(** So do two big integers. *)
Theorem c71_big_hash_agrees : forall a b, normal a -> normal b ->
  exists l l', big_low_hash a = Some l /\ big_low_hash b = Some l' /\ (big_comparator a b = Eq -> big_hash a = big_hash b /\ l = l').
Proof.
  intros a b Ha Hb. destruct (low_hash_some a Ha) as (l & L). destruct (low_hash_some b Hb) as (l' & L'). exists l, l'. split; [exact L|]. split; [exact L'|].
  intros E. apply compare_eq in E. subst b. split; congruence.
Qed.
Print Assumptions c71_big_hash_agrees.

(** A big integer and a fast big integer of the same value have the same hashes: with no negative zeros. *)
Theorem c71_same_hash_partial : forall f b, well_formed_canonical f -> canonical b -> fvalue f = value b ->
  fast_hash f = Some (big_hash b) /\ fast_low_hash f = big_low_hash b.
Proof.
  intros f b Hf Hb E. assert (W : well_formed f) by (destruct f; [exact Hf|exact (proj1 Hf)]).
  assert (Q : boxed f = b).
  { apply c15_canonical_unique; [|exact Hb|now rewrite boxed_value].
    split; [now apply boxed_normal|]. rewrite boxed_value by exact W. destruct f as [w|a]; [|exact (proj2 Hf)]. cbn [boxed sign]. intros Ng Z. rewrite Z in Ng. discriminate. }
  rewrite fast_hash_is, fast_low_hash_is, Q by exact W. auto.
Qed.
Print Assumptions c71_same_hash_partial.

(** What the hash map and the dictionary ask of a hasher and a comparator holds. *)
Theorem c71_int_lawful : forall P : fast -> Prop, (forall f, P f -> well_formed f) ->
  lawful (fun k : int_key P => hashed (fast_hash (int_of k))) int_equal /\ lawful (fun k : int_key P => hashed (fast_low_hash (int_of k))) int_equal.
Proof.
  intros P HP.
  assert (B : forall a b : int_key P, int_equal a b = true <-> boxed (int_of a) = boxed (int_of b)).
  { intros [a Ha] [b Hb]. unfold int_equal, int_of. cbn [proj1_sig]. destruct (comparator_eq a b (HP a Ha) (HP b Hb)) as (c & -> & I). rewrite <- I. destruct c; cbn; intuition discriminate. }
  assert (R : forall a : int_key P, int_equal a a = true) by (intros a; now apply B).
  assert (Sy : forall a b : int_key P, int_equal a b = int_equal b a).
  { intros a b. destruct (int_equal a b) eqn:E1, (int_equal b a) eqn:E2; try reflexivity; [apply B in E1; symmetry in E1; apply B in E1|apply B in E2; symmetry in E2; apply B in E2]; congruence. }
  assert (T : forall a b c : int_key P, int_equal a b = true -> int_equal b c = true -> int_equal a c = true).
  { intros a b c E1 E2. apply B in E1. apply B in E2. apply B. congruence. }
  split; (split; [exact R|split; [exact Sy|split; [exact T|]]]); intros a b E; apply B in E.
  - rewrite !fast_hash_is, E; [reflexivity| |]; [destruct b as [b Hb]|destruct a as [a Ha]]; cbn; now apply HP.
  - rewrite !fast_low_hash_is, E; [reflexivity| |]; [destruct b as [b Hb]|destruct a as [a Ha]]; cbn; now apply HP.
Qed.
Print Assumptions c71_int_lawful.

Theorem c71_big_lawful : forall P : bigint -> Prop,
  lawful (fun k : big_key P => big_hash (big_of k)) big_equal /\ lawful (fun k : big_key P => hashed (big_low_hash (big_of k))) big_equal.
Proof.
  intros P.
  assert (B : forall a b : big_key P, big_equal a b = true <-> big_of a = big_of b).
  { intros [a Ha] [b Hb]. unfold big_equal, big_of. cbn [proj1_sig]. split; [|intros ->; unfold big_comparator; now rewrite compare_refl].
    unfold big_comparator. destruct (compare a b) eqn:E; cbn; intros Q; try discriminate. now apply compare_eq. }
  assert (R : forall a : big_key P, big_equal a a = true) by (intros a; now apply B).
  assert (Sy : forall a b : big_key P, big_equal a b = big_equal b a).
  { intros a b. destruct (big_equal a b) eqn:E1, (big_equal b a) eqn:E2; try reflexivity; [apply B in E1; symmetry in E1; apply B in E1|apply B in E2; symmetry in E2; apply B in E2]; congruence. }
  assert (T : forall a b c : big_key P, big_equal a b = true -> big_equal b c = true -> big_equal a c = true).
  { intros a b c E1 E2. apply B in E1. apply B in E2. apply B. congruence. }
  split; (split; [exact R|split; [exact Sy|split; [exact T|]]]); intros a b E; apply B in E; now rewrite E.
Qed.
Print Assumptions c71_big_lawful.

(** A dictionary with fast big integers as keys is a map from integers, whichever of the two hashers it has; no key may be a
    negative zero. *)
Theorem c71_int_dictionary_partial : forall (V : Type) low full s kd vd (p : list (action (int_key well_formed_canonical) V)),
  s <> BothBits -> (N.of_nat (length p) <= 2 ^ 33)%N ->
  let hash := fun k : int_key well_formed_canonical => hashed ((if low : bool then fast_low_hash else fast_hash) (int_of k)) in
  exists d d' l rs evs, d_create s kd vd = Some d /\ acts hash int_equal full d p = Some (d', rs, evs) /\
    specs same_integer kd vd [] p = (l, rs, evs) /\ exists l', Permutation l l' /\ d_destroy hash int_equal d' = Some (all_gone kd vd l').
Proof.
  intros V low full s kd vd p Hs Hp hash.
  assert (W : forall f, well_formed_canonical f -> well_formed f) by (intros [w|b] H; [exact H|exact (proj1 H)]).
  assert (Lw : lawful hash int_equal) by (unfold hash; destruct low; apply (c71_int_lawful well_formed_canonical W)).
  destruct (c57_dictionary_partial (int_key well_formed_canonical) V hash int_equal full s kd vd p Lw Hs Hp) as (d & d' & l & rs & evs & E & E' & Sp & l' & Pm & De & _).
  exists d, d', l, rs, evs. split; [exact E|]. split; [exact E'|]. split; [|exists l'; auto]. rewrite <- Sp. apply specs_ext.
  intros [a Ha] [b Hb]. unfold same_integer, int_equal, int_of, fast_comparator. cbn [proj1_sig]. rewrite c16_compare_partial by assumption. cbn [says_equal].
  destruct (Z.compare_spec (fvalue a) (fvalue b)) as [Q|Q|Q]; apply Z.eqb_eq + apply Z.eqb_neq; lia.
Qed.
Print Assumptions c71_int_dictionary_partial.

Theorem c71_big_dictionary_partial : forall (V : Type) low full s kd vd (p : list (action (big_key canonical) V)),
  s <> BothBits -> (N.of_nat (length p) <= 2 ^ 33)%N ->
  let hash := fun k : big_key canonical => if low : bool then hashed (big_low_hash (big_of k)) else big_hash (big_of k) in
  exists d d' l rs evs, d_create s kd vd = Some d /\ acts hash big_equal full d p = Some (d', rs, evs) /\
    specs same_big kd vd [] p = (l, rs, evs) /\ exists l', Permutation l l' /\ d_destroy hash big_equal d' = Some (all_gone kd vd l').
Proof.
  intros V low full s kd vd p Hs Hp hash.
  assert (Lw : lawful hash big_equal) by (unfold hash; destruct low; apply (c71_big_lawful canonical)).
  destruct (c57_dictionary_partial (big_key canonical) V hash big_equal full s kd vd p Lw Hs Hp) as (d & d' & l & rs & evs & E & E' & Sp & l' & Pm & De & _).
  exists d, d', l, rs, evs. split; [exact E|]. split; [exact E'|]. split; [|exists l'; auto]. rewrite <- Sp. apply specs_ext.
  intros [a Ha] [b Hb]. unfold same_big, big_equal, big_of, big_comparator. cbn [proj1_sig]. rewrite c15_compare_partial by assumption. cbn [says_equal].
  destruct (Z.compare_spec (value a) (value b)) as [Q|Q|Q]; apply Z.eqb_eq + apply Z.eqb_neq; lia.
Qed.
Print Assumptions c71_big_dictionary_partial.

(** Adding 5 to -5 gives a zero that no dictionary finds among the keys it has 0 for: the comparator tells them apart, and so do the hashers. *)
Theorem c71_negative_zero_refuted : exists a z, BigIntModel.set_int (-5) = Some a /\ BigIntModel.add_int a 5 = Some z /\ value z = 0%Z /\
  well_formed (Boxed z) /\ fvalue (Boxed z) = fvalue BigIntFastModel.create /\ fast_comparator (Boxed z) BigIntFastModel.create = Some Lt /\
  fast_hash (Boxed z) = Some (2 ^ 63)%N /\ fast_hash BigIntFastModel.create = Some 0%N.
Proof.
  exists (mkBig true [5%N]), (mkBig true [0%N]). split; [reflexivity|]. split; [vm_compute; reflexivity|]. split; [reflexivity|]. split; [repeat split; try discriminate; intros d Hd; cbn in Hd; (repeat destruct Hd as [<-|Hd]; try reflexivity; try contradiction)|].
  split; [reflexivity|]. split; [vm_compute; reflexivity|]. split; vm_compute; reflexivity.
Qed.
Print Assumptions c71_negative_zero_refuted.

(** Strings that are not empty, whatever their representation: the comparator finds out whether they have the same
    characters, and the hasher respects it. *)
Lemma string_equal_is M same : good_maps M -> (forall s1 s2, same s1 s2 = true -> s1 = s2) ->
  forall a b : string_key M, string_equal same a b = characters_equal a b.
Proof.
  intros GM Hs [[s cs] [Ha Na]] [[s' cs'] [Hb Nb]]. unfold string_equal, characters_equal, string_of, characters. cbn [proj1_sig fst snd] in *.
  destruct (c26_equal_partial M (same s s') s s' cs cs' GM Ha Hb (Hs s s')) as (q & E & I). rewrite E.
  destruct (list_eq_dec N.eq_dec cs cs') as [Q|Q].
  - assert (X : q = true) by (apply I; split; [exact Q|]; intros [X _]; contradiction). now rewrite X.
  - destruct q; [|reflexivity]. exfalso. apply Q. now apply I.
Qed.

Theorem c71_string_lawful_partial : forall M same, good_maps M -> (forall s1 s2, same s1 s2 = true -> s1 = s2) ->
  lawful (fun k : string_key M => hashed (get_hash M (string_of k))) (string_equal same).
Proof.
  intros M same GM Hs. assert (B : forall a b : string_key M, string_equal same a b = true <-> characters a = characters b).
  { intros a b. rewrite string_equal_is by assumption. unfold characters_equal. destruct (list_eq_dec N.eq_dec (characters a) (characters b)); intuition discriminate. }
  split; [intros a; now apply B|]. split.
  { intros a b. destruct (string_equal same a b) eqn:E1, (string_equal same b a) eqn:E2; try reflexivity; [apply B in E1; symmetry in E1; apply B in E1|apply B in E2; symmetry in E2; apply B in E2]; congruence. }
  split; [intros a b c E1 E2; apply B in E1; apply B in E2; apply B; congruence|].
  intros a b E. apply B in E. destruct a as [[s cs] [Ha Na]], b as [[s' cs'] [Hb Nb]]. unfold string_of, characters in *. cbn [proj1_sig fst snd] in *. subst cs'.
  destruct (c50_hash M M s s' cs GM GM Ha Hb) as (k & -> & ->). reflexivity.
Qed.
Print Assumptions c71_string_lawful_partial.

(** A dictionary with strings that are not empty as keys is a map from sequences of characters. *)
Theorem c71_string_dictionary_partial : forall (V : Type) M same full s kd vd (p : list (action (string_key M) V)),
  good_maps M -> (forall s1 s2, same s1 s2 = true -> s1 = s2) -> s <> BothBits -> (N.of_nat (length p) <= 2 ^ 33)%N ->
  let hash := fun k : string_key M => hashed (get_hash M (string_of k)) in
  exists d d' l rs evs, d_create s kd vd = Some d /\ acts hash (string_equal same) full d p = Some (d', rs, evs) /\
    specs characters_equal kd vd [] p = (l, rs, evs) /\ exists l', Permutation l l' /\ d_destroy hash (string_equal same) d' = Some (all_gone kd vd l').
Proof.
  intros V M same full s kd vd p GM Hm Hs Hp hash.
  destruct (c57_dictionary_partial (string_key M) V hash (string_equal same) full s kd vd p (c71_string_lawful_partial M same GM Hm) Hs Hp) as (d & d' & l & rs & evs & E & E' & Sp & l' & Pm & De & _).
  exists d, d', l, rs, evs. split; [exact E|]. split; [exact E'|]. split; [|exists l'; auto]. rewrite <- Sp. apply specs_ext.
  intros a b. symmetry. now apply string_equal_is.
Qed.
Print Assumptions c71_string_dictionary_partial.

(** The empty constant string as a key of a dictionary: looking it up with the inline empty string finds it, the other way round nothing is found. *)
Theorem c71_empty_string_refuted : exists s1 s2 d d1 d2 rs, represents E0 s1 [] /\ represents E0 s2 [] /\
  let hash := fun s => hashed (get_hash E0 s) in let eqk := fun a b => says_yes (equal E0 false a b) in
  d_create (K := str) (V := N) Small false false = Some d /\
  acts hash eqk at_three_quarters d [Put s1 7; Read s2]%N = Some (d1, rs, []) /\ rs = [RUnit; RValue (Some (Some 7%N))] /\
  acts hash eqk at_three_quarters d [Put s2 7; Read s1]%N = Some (d2, [RUnit; RValue None], []).
Proof.
  destruct (d_create (K := str) (V := N) Small false false) as [d|] eqn:Ed; [|discriminate].
  set (hash := fun s => hashed (get_hash E0 s)). set (eqk := fun a b => says_yes (equal E0 false a b)).
  destruct (acts hash eqk at_three_quarters d [Put (constant ASCII []) 7; Read (StringModel.Tagged 3)]%N) as [[[d1 rs] ev]|] eqn:E1; [|vm_compute in Ed; injection Ed as <-; vm_compute in E1; discriminate].
  destruct (acts hash eqk at_three_quarters d [Put (StringModel.Tagged 3) 7; Read (constant ASCII [])]%N) as [[[d2 rs2] ev2]|] eqn:E2; [|vm_compute in Ed; injection Ed as <-; vm_compute in E2; discriminate].
  exists (constant ASCII []), (StringModel.Tagged 3), d, d1, d2, rs. split; [apply (constant_ok E0 ASCII []); constructor|].
  split; [split; [constructor|]; exists 3%N; split; [lia|]; split; [cbn; lia|]; now exists []|]. split; [reflexivity|]. fold hash eqk. rewrite E1, E2.
  vm_compute in Ed. injection Ed as <-. vm_compute in E1. vm_compute in E2. injection E1 as <- <- <-. injection E2 as <- <- <-. auto.
Qed.
Print Assumptions c71_empty_string_refuted.

(** Non-vacuity: 5 inline and 5 read from a string, a large number, and a string in two representations. *)
Definition int_key_of (f : fast) (H : well_formed_canonical f) : int_key well_formed_canonical := exist _ f H.
Lemma five_inline : well_formed_canonical (BigIntFastModel.Tagged 11). Proof. split; reflexivity. Qed.
Lemma five_boxed : well_formed_canonical (Boxed (mkBig false [5%N])). Proof. repeat split; try discriminate; intros d Hd; cbn in Hd; (repeat destruct Hd as [<-|Hd]; try reflexivity; try contradiction). Qed.
Lemma large_boxed : well_formed_canonical (Boxed (mkBig true [5; 1]%N)). Proof. repeat split; try discriminate; intros d Hd; cbn in Hd; (repeat destruct Hd as [<-|Hd]; try reflexivity; try contradiction). Qed.

Definition c71_program : list (action (int_key well_formed_canonical) N) :=
  [Put (int_key_of _ five_inline) 10; Put (int_key_of _ large_boxed) 20; Read (int_key_of _ five_boxed); Put (int_key_of _ five_boxed) 11;
   Read (int_key_of _ five_inline); Read (int_key_of _ large_boxed); Size]%N.
Definition values_read {K} (x : option (dict K N * list (ret K N) * list (event K N))) : option (list N) :=
  match x with Some (_, rs, _) => Some (flat_map (fun r => match r with RValue (Some (Some v)) => [v] | RCount n => [N.of_nat n] | _ => [] end) rs) | None => None end.

Example c71_case :
  BigIntFastModel.set_int 5 = Some (BigIntFastModel.Tagged 11) /\ BigIntFastModel.set_string [48; 120; 53]%N = Some (Boxed (mkBig false [5%N])) /\
  (let? d := d_create Small false false in values_read (acts (fun k => hashed (fast_hash (int_of k))) int_equal at_three_quarters d c71_program)) =
    Some [10; 11; 20; 2]%N.
Proof. split; [vm_compute; reflexivity|]. split; vm_compute; reflexivity. Qed.

Example c71_string_case : represents E0 (constant ASCII [97; 98]%N) [97; 98]%N.
Proof. apply (constant_ok E0 ASCII [97; 98]%N). repeat constructor; cbn; lia. Qed.
