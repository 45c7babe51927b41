(** Proofs for the hash map. *)
From Verif Require Import Base Word BitTricksModel BitTricksProofs HashMapModel HashMapSpec.
Local Open Scope N_scope.

(** ** Bits of hashes *)
Lemma land_bit x k : negb (N.land x (2 ^ k) =? 0) = N.testbit x k.
Proof.
  destruct (N.testbit x k) eqn:E.
  - destruct (N.eqb_spec (N.land x (2 ^ k)) 0) as [Z|]; [|reflexivity].
    assert (N.testbit (N.land x (2 ^ k)) k = true) as B by (rewrite N.land_spec, E, testbit_pow2, N.eqb_refl; reflexivity).
    rewrite Z, N.bits_0 in B. discriminate.
  - assert (N.land x (2 ^ k) = 0) as ->; [|reflexivity].
    apply N.bits_inj. intros i. rewrite N.land_spec, testbit_pow2, N.bits_0. destruct (N.eqb_spec i k); [subst; now rewrite E|now rewrite andb_false_r].
Qed.

Lemma is_empty_bit h : is_empty h = N.testbit h 63.
Proof. apply land_bit. Qed.

Lemma is_init_bit h : is_init h = N.testbit h 62.
Proof. apply land_bit. Qed.

Lemma reserved_bits x i : N.testbit (N.land x RESERVED) i = (N.testbit x i && (i <? 62))%bool.
Proof. unfold RESERVED. replace (2 ^ 62 - 1) with (N.ones 62) by reflexivity. now rewrite N.land_spec, testbit_ones. Qed.

Lemma not_init_bits i : N.testbit (wnot 64 INIT) i = ((i <? 64) && negb (i =? 62))%bool.
Proof.
  unfold INIT. rewrite testbit_wnot, testbit_pow2. destruct (N.eqb_spec i 62); [subst; reflexivity|].
  now destruct (i <? 64).
Qed.

Definition code (h : N) : N := N.land h (wnot 64 INIT).

Lemma code_bits h i : N.testbit (code h) i = (N.testbit h i && ((i <? 64) && negb (i =? 62)))%bool.
Proof. unfold code. now rewrite N.land_spec, not_init_bits. Qed.

Lemma code_masked x : code (N.land x RESERVED) = N.land x RESERVED.
Proof.
  apply N.bits_inj. intros i. rewrite code_bits, reserved_bits. destruct (N.ltb_spec i 62), (N.ltb_spec i 64), (N.eqb_spec i 62), (N.testbit x i); try reflexivity; lia.
Qed.

Lemma code_init h : code (N.lor h INIT) = code h.
Proof.
  apply N.bits_inj. intros i. rewrite !code_bits, N.lor_spec. unfold INIT. rewrite testbit_pow2.
  destruct (N.eqb_spec i 62), (N.testbit h i), (i <? 64); reflexivity.
Qed.

Lemma empty_init h : is_empty (N.lor h INIT) = is_empty h.
Proof. rewrite !is_empty_bit, N.lor_spec. unfold INIT. rewrite testbit_pow2. now rewrite orb_false_r. Qed.

Lemma init_init h : is_init (N.lor h INIT) = true.
Proof. rewrite is_init_bit, N.lor_spec. unfold INIT. rewrite testbit_pow2. now rewrite orb_true_r. Qed.

Lemma empty_masked x : is_empty (N.land x RESERVED) = false.
Proof. rewrite is_empty_bit, reserved_bits. now rewrite andb_false_r. Qed.

Lemma init_masked x : is_init (N.land x RESERVED) = false.
Proof. rewrite is_init_bit, reserved_bits. now rewrite andb_false_r. Qed.

Lemma code_empty h x : is_empty h = true -> code h <> N.land x RESERVED.
Proof.
  rewrite is_empty_bit. intros H E. apply (f_equal (fun y => N.testbit y 63)) in E. rewrite code_bits, reserved_bits, H in E.
  cbn in E. rewrite andb_false_r in E. discriminate.
Qed.

Lemma removed_empty h : is_empty (N.land (N.lor h EMPTY) (wnot 64 INIT)) = true.
Proof. rewrite is_empty_bit, N.land_spec, N.lor_spec, not_init_bits. unfold EMPTY. rewrite testbit_pow2. now rewrite orb_true_r. Qed.

Lemma size_lt x s : x < 2 ^ s -> N.size x <= s.
Proof.
  intros H. destruct (N.eq_dec x 0) as [->|]; [cbn; lia|]. rewrite N.size_log2 by auto.
  assert (N.log2 x < s) by (apply N.log2_lt_pow2; lia). lia.
Qed.

(** ** Entries *)
Section Entries.
Variable bc : N.
Hypothesis Hbc : bc + 1 < 2 ^ 63.

Definition shift : N := N.size (bc + 1).


Lemma lt_size x : x < 2 ^ N.size x.
Proof. apply N.size_gt. Qed.

Lemma shift_lt : shift < 64.
Proof. unfold shift. pose proof (size_lt (bc + 1) 63 Hbc). lia. Qed.

Lemma mask_is : mask_for_value (wadd 64 bc 1) = N.ones shift.
Proof.
  unfold wadd. rewrite N.mod_small by (assert (2 ^ 63 < 2 ^ 64) by (apply N.pow_lt_mono_r; lia); lia).
  apply mask_eq. assert (2 ^ 63 < 2 ^ 64) by (apply N.pow_lt_mono_r; lia). lia.
Qed.

Lemma popcount_ones_shift : count_set (N.ones shift) = shift.
Proof.
  pose proof shift_lt. assert (N.ones shift < 2 ^ 64).
  { rewrite N.ones_equiv. pose proof (pow2_pos shift). assert (2 ^ shift <= 2 ^ 64) by (apply N.pow_le_mono_r; lia). lia. }
  rewrite count_set_spec by auto. apply popcount_ones. lia.
Qed.

Lemma item_mask_bits i : N.testbit (wnot 64 (N.ones shift)) i = ((shift <=? i) && (i <? 64))%bool.
Proof.
  pose proof shift_lt. rewrite testbit_wnot, testbit_ones. destruct (N.ltb_spec i shift), (N.ltb_spec i 64), (N.leb_spec shift i); try reflexivity; lia.
Qed.

Definition enc (b i : N) : N := i * 2 ^ shift + (b + 1).

Lemma fits_iff i : (N.land i (N.shiftr (wnot 64 (N.ones shift)) shift) =? i) = (i * 2 ^ shift <? 2 ^ 64).
Proof.
  pose proof shift_lt as SL.
  assert (B : forall j, N.testbit (N.shiftr (wnot 64 (N.ones shift)) shift) j = (j <? 64 - shift)).
  { intros j. rewrite N.shiftr_spec by lia. rewrite item_mask_bits. destruct (N.leb_spec shift (j + shift)), (N.ltb_spec (j + shift) 64), (N.ltb_spec j (64 - shift)); try reflexivity; lia. }
  assert (M : N.shiftr (wnot 64 (N.ones shift)) shift = N.ones (64 - shift)).
  { apply N.bits_inj. intros j. now rewrite B, testbit_ones. }
  rewrite M, N.land_ones. assert (P : 2 ^ 64 = 2 ^ (64 - shift) * 2 ^ shift) by (rewrite <- N.pow_add_r; f_equal; lia).
  pose proof (pow2_pos shift). destruct (N.ltb_spec (i * 2 ^ shift) (2 ^ 64)) as [L|L].
  - apply N.eqb_eq. apply N.mod_small. rewrite P in L. apply N.mul_lt_mono_pos_r in L; auto.
  - apply N.eqb_neq. intros E. pose proof (N.mod_lt i (2 ^ (64 - shift)) (pow2_nz _)). rewrite E in H0.
    rewrite P in L. assert (i * 2 ^ shift < 2 ^ (64 - shift) * 2 ^ shift) by (now apply N.mul_lt_mono_pos_r). lia.
Qed.

Lemma lor_enc b i : b < bc -> i * 2 ^ shift < 2 ^ 64 -> N.lor (wshl 64 i shift) (wadd 64 b 1) = enc b i.
Proof.
  intros Hb Hi. pose proof (lt_size (bc + 1)) as L. fold shift in L. unfold wshl, wadd. rewrite (N.mod_small (i * 2 ^ shift)) by auto.
  rewrite (N.mod_small (b + 1)) by (assert (2 ^ 63 < 2 ^ 64) by (apply N.pow_lt_mono_r; lia); lia).
  unfold enc. apply N.bits_inj. intros j. rewrite N.lor_spec, testbit_mul_pow2, (testbit_split i shift (b + 1) j) by lia.
  destruct (N.ltb_spec j shift); [reflexivity|]. rewrite (testbit_high (b + 1) shift j) by lia. apply orb_false_r.
Qed.

Lemma index_to_entry_is b i : b < bc -> index_to_entry bc b i = Some (if i * 2 ^ shift <? 2 ^ 64 then enc b i else 0).
Proof.
  intros Hb. unfold index_to_entry. rewrite mask_is, popcount_ones_shift, fits_iff. pose proof shift_lt. destruct (N.leb_spec 64 shift); [lia|].
  destruct (N.ltb_spec (i * 2 ^ shift) (2 ^ 64)); [|reflexivity]. now rewrite lor_enc.
Qed.

Lemma enc_lt b i : b < bc -> i * 2 ^ shift < 2 ^ 64 -> enc b i < 2 ^ 64.
Proof.
  intros Hb Hi. pose proof (lt_size (bc + 1)) as L. fold shift in L. unfold enc. pose proof shift_lt.
  assert (P : 2 ^ 64 = 2 ^ (64 - shift) * 2 ^ shift) by (rewrite <- N.pow_add_r; f_equal; lia).
  rewrite P in *. apply N.mul_lt_mono_pos_r in Hi; [|apply pow2_pos].
  assert ((i + 1) * 2 ^ shift <= 2 ^ (64 - shift) * 2 ^ shift) by (apply N.mul_le_mono_r; lia). lia.
Qed.

Lemma land_mask b i : b < bc -> N.land (enc b i) (N.ones shift) = b + 1.
Proof.
  intros Hb. pose proof (lt_size (bc + 1)) as L. fold shift in L. rewrite N.land_ones. unfold enc.
  rewrite N.add_comm, N.mod_add by apply pow2_nz. apply N.mod_small. lia.
Qed.

Lemma land_item e : e < 2 ^ 64 -> N.shiftr (N.land e (wnot 64 (N.ones shift))) shift = e / 2 ^ shift.
Proof.
  intros He. rewrite <- N.shiftr_div_pow2. apply N.bits_inj. intros j. rewrite !N.shiftr_spec by lia. rewrite N.land_spec, item_mask_bits.
  destruct (N.leb_spec shift (j + shift)); [|lia]. destruct (N.ltb_spec (j + shift) 64); [now rewrite andb_true_r|].
  rewrite (testbit_high e 64) by auto. reflexivity.
Qed.

Lemma entry_to_index_enc b i : b < bc -> i * 2 ^ shift < 2 ^ 64 -> entry_to_index bc (enc b i) = Some (Some (b, i)).
Proof.
  intros Hb Hi. pose proof (lt_size (bc + 1)) as L. fold shift in L. unfold entry_to_index.
  destruct (N.eqb_spec (enc b i) 0) as [Z|_]; [unfold enc in Z; lia|].
  rewrite mask_is, popcount_ones_shift. pose proof shift_lt. destruct (N.leb_spec 64 shift); [lia|].
  rewrite land_mask, land_item by (auto using enc_lt). do 3 f_equal.
  - unfold wsub. assert (2 ^ 63 < 2 ^ 64) by (apply N.pow_lt_mono_r; lia). rewrite (N.mod_small 1) by lia.
    replace (b + 1 + (2 ^ 64 - 1)) with (b + 1 * 2 ^ 64) by lia. rewrite N.mod_add by apply pow2_nz. apply N.mod_small. lia.
  - unfold enc. rewrite N.div_add_l by apply pow2_nz. rewrite (N.div_small (b + 1)) by lia. lia.
Qed.

(** The position an entry stands for. *)
Definition dec (e : N) : option (N * N) :=
  if (e =? 0) || (2 ^ 64 <=? e) || (e mod 2 ^ shift =? 0) then None else Some (e mod 2 ^ shift - 1, e / 2 ^ shift).

Lemma dec_enc b i : b < bc -> i * 2 ^ shift < 2 ^ 64 -> dec (enc b i) = Some (b, i).
Proof.
  intros Hb Hi. pose proof (lt_size (bc + 1)) as L. fold shift in L. unfold dec.
  pose proof (enc_lt b i Hb Hi). destruct (N.eqb_spec (enc b i) 0) as [Z|_]; [unfold enc in Z; lia|].
  destruct (N.leb_spec (2 ^ 64) (enc b i)); [lia|]. rewrite <- N.land_ones, land_mask by auto.
  destruct (N.eqb_spec (b + 1) 0); [lia|]. cbn [orb]. unfold enc. rewrite N.div_add_l, (N.div_small (b + 1)) by (try apply pow2_nz; lia).
  do 2 f_equal; lia.
Qed.

Lemma enc_dec e b i : dec e = Some (b, i) -> e = enc b i /\ e <> 0 /\ i * 2 ^ shift < 2 ^ 64.
Proof.
  unfold dec. destruct (N.eqb_spec e 0); [discriminate|]. destruct (N.leb_spec (2 ^ 64) e); [discriminate|].
  destruct (N.eqb_spec (e mod 2 ^ shift) 0) as [|Z]; [discriminate|]. cbn [orb]. intros E. injection E as <- <-.
  pose proof (N.div_mod e (2 ^ shift) (pow2_nz _)) as D. unfold enc.
  set (r := e mod 2 ^ shift) in *. set (q := e / 2 ^ shift) in *. clearbody r q. repeat split; auto; lia.
Qed.

Lemma enc_inj b i b' i' : b < bc -> b' < bc -> enc b i = enc b' i' -> b = b' /\ i = i'.
Proof.
  intros H H' E. pose proof (lt_size (bc + 1)) as L. fold shift in L.
  assert (b + 1 = b' + 1) by (rewrite <- (land_mask b i H), <- (land_mask b' i' H'), E; reflexivity).
  assert (b = b') as -> by lia. unfold enc in E. assert (i * 2 ^ shift = i' * 2 ^ shift) by lia.
  apply N.mul_cancel_r in H1; [auto|apply pow2_nz].
Qed.

Lemma enc_nz b i : enc b i <> 0.
Proof. clear Hbc. unfold enc. lia. Qed.

End Entries.
