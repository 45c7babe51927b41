(** Words of packed digits. *)
From Verif Require Import Base Word StringModel StringSpec.
Local Open Scope N_scope.

Lemma packed_app b xs ys : packed b (xs ++ ys) = packed b xs + 2 ^ (b * N.of_nat (length xs)) * packed b ys.
Proof.
  induction xs as [|x xs IH]; cbn [app packed length]; [rewrite N.mul_0_r, N.pow_0_r; lia|].
  rewrite IH. replace (b * N.of_nat (Datatypes.S (length xs))) with (b + b * N.of_nat (length xs)) by lia. rewrite N.pow_add_r.
  generalize (2 ^ b) (2 ^ (b * N.of_nat (length xs))) (packed b ys) (packed b xs). intros. lia.
Qed.

Lemma packed_lt b ds : Forall (fun d => d < 2 ^ b) ds -> packed b ds < 2 ^ (b * N.of_nat (length ds)).
Proof.
  induction 1 as [|d ds Hd _ IH]; cbn [packed length]; [apply pow2_pos|].
  replace (b * N.of_nat (Datatypes.S (length ds))) with (b + b * N.of_nat (length ds)) by lia. rewrite N.pow_add_r.
  revert IH Hd. generalize (2 ^ b) (2 ^ (b * N.of_nat (length ds))) (packed b ds). intros p q r H1 H2. nia.
Qed.

Lemma Forall_firstn {A} (P : A -> Prop) n l : Forall P l -> Forall P (firstn n l).
Proof. intros H. revert n. induction H; intros [|n]; cbn; auto. Qed.
Lemma Forall_skipn {A} (P : A -> Prop) n l : Forall P l -> Forall P (skipn n l).
Proof. intros H. revert n. induction H; intros [|n]; cbn; auto. Qed.

Lemma packed_mod b ds n : Forall (fun d => d < 2 ^ b) ds -> packed b ds mod 2 ^ (b * N.of_nat n) = packed b (firstn n ds).
Proof.
  intros H. destruct (Nat.le_gt_cases n (length ds)) as [L|L].
  - rewrite <- (firstn_skipn n ds) at 1. rewrite packed_app, firstn_length, Nat.min_l by assumption.
    rewrite (N.mul_comm (2 ^ _) (packed _ _)), N.mod_add by apply pow2_nz. apply N.mod_small.
    pose proof (packed_lt b (firstn n ds) (Forall_firstn _ _ _ H)) as L'. now rewrite firstn_length, Nat.min_l in L' by assumption.
  - rewrite firstn_all2 by lia. apply N.mod_small. eapply N.lt_le_trans; [now apply packed_lt|]. apply N.pow_le_mono_r; [lia|]. nia.
Qed.

Lemma packed_div b ds n : Forall (fun d => d < 2 ^ b) ds -> packed b ds / 2 ^ (b * N.of_nat n) = packed b (skipn n ds).
Proof.
  intros H. destruct (Nat.le_gt_cases n (length ds)) as [L|L].
  - rewrite <- (firstn_skipn n ds) at 1. rewrite packed_app, firstn_length, Nat.min_l by assumption.
    rewrite (N.mul_comm (2 ^ _) (packed _ _)), N.div_add by apply pow2_nz. rewrite N.div_small; [lia|].
    pose proof (packed_lt b (firstn n ds) (Forall_firstn _ _ _ H)) as L'. now rewrite firstn_length, Nat.min_l in L' by assumption.
  - rewrite skipn_all2 by lia. apply N.div_small. eapply N.lt_le_trans; [now apply packed_lt|]. apply N.pow_le_mono_r; [lia|]. nia.
Qed.

Lemma packed_inj b xs ys : Forall (fun d => d < 2 ^ b) xs -> Forall (fun d => d < 2 ^ b) ys ->
  Forall (fun d => d <> 0) xs -> Forall (fun d => d <> 0) ys -> packed b xs = packed b ys -> xs = ys.
Proof.
  intros Hx. revert ys. induction Hx as [|x xs Lx _ IH]; intros ys Hy Nx Ny E.
  - destruct ys as [|y ys]; [reflexivity|]. exfalso. inversion Ny as [|? ? Hy0 ?]; subst. cbn [packed] in E. apply Hy0. lia.
  - destruct ys as [|y ys]; [exfalso; inversion Nx as [|? ? Hx0 ?]; subst; cbn [packed] in E; apply Hx0; lia|].
    inversion Nx as [|? ? Hx0 Nx']; inversion Ny as [|? ? Hy0 Ny']; inversion Hy as [|? ? Ly Hy']; subst. cbn [packed] in E.
    assert (x = y).
    { rewrite <- (N.mod_small x (2 ^ b)), <- (N.mod_small y (2 ^ b)) by assumption.
      rewrite <- (N.mod_add x (packed b xs) (2 ^ b)), <- (N.mod_add y (packed b ys) (2 ^ b)) by apply pow2_nz.
      f_equal. lia. }
    subst y. f_equal. apply IH; auto. apply (N.mul_cancel_l _ _ (2 ^ b)); [apply pow2_nz|lia].
Qed.

(** ** C shifts and masks *)

Lemma low_mask_ok n : 1 <= n <= 64 -> low_mask n = Some (N.ones n).
Proof.
  intros H. unfold low_mask, shr. destruct (N.leb_spec n 64); [|lia]. destruct (N.ltb_spec (64 - n) 64); [|lia]. f_equal.
  change (2 ^ 64 - 1) with (N.ones 64). apply N.bits_inj. intros i. rewrite N.shiftr_spec', !testbit_ones.
  destruct (N.ltb_spec (i + (64 - n)) 64), (N.ltb_spec i n); lia || reflexivity.
Qed.

Lemma shl_ok x n : n < 64 -> x * 2 ^ n < 2 ^ 64 -> shl x n = Some (x * 2 ^ n).
Proof. intros H L. unfold shl, wshl. destruct (N.ltb_spec n 64); [|lia]. f_equal. now apply N.mod_small. Qed.

Lemma shr_ok x n : n < 64 -> shr x n = Some (x / 2 ^ n).
Proof. intros H. unfold shr. destruct (N.ltb_spec n 64); [|lia]. f_equal. apply N.shiftr_div_pow2. Qed.

Lemma ones_shifted n k : n + k <= 64 -> N.ones n * 2 ^ k < 2 ^ 64.
Proof.
  intros H. rewrite N.ones_equiv. eapply N.lt_le_trans with (2 ^ n * 2 ^ k).
  - apply N.mul_lt_mono_pos_r; [apply pow2_pos|]. pose proof (pow2_pos n). lia.
  - rewrite <- N.pow_add_r. apply N.pow_le_mono_r; lia.
Qed.

Lemma land_shifted x n k : N.land x (N.ones n * 2 ^ k) = (x / 2 ^ k) mod 2 ^ n * 2 ^ k.
Proof.
  apply N.bits_inj. intros i. rewrite N.land_spec, !testbit_mul_pow2.
  destruct (N.ltb_spec i k) as [H|H]; [apply andb_false_r|].
  rewrite <- N.shiftr_div_pow2, <- N.land_ones, N.land_spec, N.shiftr_spec'. do 2 f_equal. lia.
Qed.

Lemma lor_add a c k : a < 2 ^ k -> N.lor a (c * 2 ^ k) = a + c * 2 ^ k.
Proof.
  intros H. apply N.bits_inj. intros i. rewrite N.lor_spec, testbit_mul_pow2, (N.add_comm a), testbit_split by assumption.
  destruct (N.ltb_spec i k); [apply orb_false_r|]. rewrite (testbit_high a k i) by assumption. reflexivity.
Qed.

(** ** A tag of two bits below *)

Lemma set_of_tag set v : set < 4 -> set_of (set + 4 * v) = set.
Proof. intros H. unfold set_of. change 3 with (N.ones 2). rewrite N.land_ones. change (2 ^ 2) with 4. rewrite N.mul_comm, N.mod_add by lia. now apply N.mod_small. Qed.

Lemma shiftr_tag set v : set < 4 -> N.shiftr (set + 4 * v) 2 = v.
Proof. intros H. rewrite N.shiftr_div_pow2. change (2 ^ 2) with 4. rewrite N.mul_comm, N.div_add by lia. rewrite N.div_small by assumption. lia. Qed.

Lemma wshl_tag v : v < 2 ^ 62 -> wshl 64 v 2 = v * 2 ^ 2.
Proof. intros H. unfold wshl. apply N.mod_small. change (2 ^ 2) with 4. change (2 ^ 64) with (2 ^ 62 * 4). lia. Qed.

Lemma lor_tag set v : set < 4 -> N.lor set (v * 2 ^ 2) = set + 4 * v.
Proof. intros H. rewrite lor_add by exact H. change (2 ^ 2) with 4. lia. Qed.

(** ** The sets *)

Lemma set_cases (P : N -> Prop) set : 1 <= set <= 3 -> P 1 -> P 2 -> P 3 -> P set.
Proof. intros H ? ? ?. assert (set = 1 \/ set = 2 \/ set = 3) as [-> | [-> | ->]] by lia; assumption. Qed.

Lemma map_size_ones set : 1 <= set <= 3 -> map_size set = N.ones (bits_of set).
Proof. intros H. now apply (set_cases (fun set => map_size set = N.ones (bits_of set))). Qed.

Lemma bits_max set : 1 <= set <= 3 -> bits_of set * N.of_nat (char_max set) <= 60.
Proof. intros H. now apply (set_cases (fun set => bits_of set * N.of_nat (char_max set) <= 60)); try apply H; vm_compute. Qed.

Lemma bits_pos set : 1 <= set <= 3 -> 5 <= bits_of set <= 7.
Proof. unfold bits_of. lia. Qed.

(** Facts about every inline string. *)
Record digits (set : N) (ds : list N) : Prop := mkDigits {
  dg_set : 1 <= set <= 3;
  dg_len : (length ds <= char_max set)%nat;
  dg_lt : Forall (fun d => d < 2 ^ bits_of set) ds;
  dg_nz : Forall (fun d => d <> 0) ds }.

Lemma digits_word set ds n : digits set ds -> (n <= char_max set)%nat -> bits_of set * N.of_nat n <= 60.
Proof. intros D H. pose proof (bits_max set (dg_set _ _ D)). pose proof (bits_pos set (dg_set _ _ D)). nia. Qed.

Lemma pow_le_62 b n : b * N.of_nat n <= 60 -> 2 ^ (b * N.of_nat n) < 2 ^ 62.
Proof. intros H. apply N.pow_lt_mono_r; lia. Qed.

Lemma packed_62 set ds : digits set ds -> packed (bits_of set) ds < 2 ^ 62.
Proof.
  intros D. eapply N.lt_trans; [apply packed_lt, (dg_lt _ _ D)|]. apply pow_le_62. apply (digits_word set ds); [exact D|apply D].
Qed.

Lemma digits_firstn set ds n : digits set ds -> digits set (firstn n ds).
Proof.
  intros D. split; [apply D| |apply Forall_firstn, D|apply Forall_firstn, D]. rewrite firstn_length. pose proof (dg_len _ _ D). lia.
Qed.
Lemma digits_skipn set ds n : digits set ds -> digits set (skipn n ds).
Proof.
  intros D. split; [apply D| |apply Forall_skipn, D|apply Forall_skipn, D]. rewrite skipn_length. pose proof (dg_len _ _ D). lia.
Qed.
Lemma digits_app set xs ys : digits set xs -> digits set ys -> (length xs + length ys <= char_max set)%nat -> digits set (xs ++ ys).
Proof. intros D E L. split; [apply D|rewrite app_length; exact L|apply Forall_app; split; [apply D|apply E]|apply Forall_app; split; [apply D|apply E]]. Qed.

(** Is any of the [k] digits from [j] on there? *)
Lemma on_range set ds j k : digits set ds -> (1 <= k)%nat ->
  negb (N.land (set + 4 * packed (bits_of set) ds) (N.ones (bits_of set * N.of_nat k) * 2 ^ (2 + bits_of set * N.of_nat j)) =? 0)
  = (j <? length ds)%nat.
Proof.
  intros D Hk. set (b := bits_of set) in *. rewrite land_shifted. rewrite N.pow_add_r. change (2 ^ 2) with 4.
  rewrite <- N.div_div by (lia || apply pow2_nz).
  pose proof (dg_set _ _ D) as Hs.
  replace ((set + 4 * packed b ds) / 4) with (packed b ds) by (rewrite (N.mul_comm 4), N.div_add, N.div_small by lia; lia).
  rewrite packed_div, packed_mod by (try apply Forall_skipn; apply D).
  destruct (Nat.ltb_spec j (length ds)) as [L|L].
  - assert (E : exists d l, firstn k (skipn j ds) = d :: l /\ d <> 0).
    { destruct (skipn j ds) as [|d l] eqn:E; [apply (f_equal (@length N)) in E; rewrite skipn_length in E; cbn in E; lia|].
      destruct k as [|k]; [lia|]. exists d, (firstn k l). split; [reflexivity|].
      pose proof (Forall_skipn _ j _ (dg_nz _ _ D)) as F. rewrite E in F. now inversion F. }
    destruct E as (d & l & E & Hd). rewrite E. cbn [packed].
    destruct (N.eqb_spec ((d + 2 ^ b * packed b l) * (4 * 2 ^ (b * N.of_nat j))) 0) as [Z|Z]; [exfalso|reflexivity].
    apply N.mul_eq_0 in Z. pose proof (pow2_pos (b * N.of_nat j)). destruct Z as [Z|Z]; [apply Hd|]; lia.
  - rewrite skipn_all2, firstn_nil by assumption. reflexivity.
Qed.

Lemma tagged_length_ok set ds : digits set ds -> tagged_length (set + 4 * packed (bits_of set) ds) = length ds.
Proof.
  intros D. unfold tagged_length. rewrite set_of_tag by (pose proof (dg_set _ _ D); lia).
  pose proof (dg_set _ _ D) as Hs. pose proof (dg_len _ _ D) as Hl.
  assert (R : forall j k m, (1 <= k)%nat -> m = N.ones (bits_of set * N.of_nat k) * 2 ^ (2 + bits_of set * N.of_nat j) ->
    negb (N.land (set + 4 * packed (bits_of set) ds) m =? 0) = (j <? length ds)%nat) by (intros j k m Hk ->; now apply on_range).
  set (w := set + 4 * packed (bits_of set) ds) in *. clearbody w. set (n := length ds) in *. clearbody n.
  assert (set = 1 \/ set = 2 \/ set = 3) as [-> | [-> | ->]] by lia; cbn [N.eqb Pos.eqb];
    unfold bits_of in *; cbn [char_max N.eqb Pos.eqb] in Hl.
  - rewrite (R 4%nat 4%nat 0x3ffffffc0000000), (R 6%nat 2%nat 0x3fff00000000000), (R 7%nat 1%nat 0x3f8000000000000), (R 5%nat 1%nat 0xfe000000000),
      (R 0%nat 4%nat 0x3ffffffc), (R 2%nat 2%nat 0x3fff0000), (R 3%nat 1%nat 0x3f800000), (R 1%nat 1%nat 0xfe00) by (lia || reflexivity).
    change (char_max 1) with 8%nat in Hl. do 9 (destruct n as [|n]; [reflexivity|]). lia.
  - rewrite (R 5%nat 5%nat 0x3fffffff00000000), (R 8%nat 2%nat 0x3ffc000000000000), (R 9%nat 1%nat 0x3f00000000000000), (R 6%nat 2%nat 0x3ffc000000000),
      (R 7%nat 1%nat 0x3f00000000000), (R 0%nat 5%nat 0xfffffffc), (R 3%nat 2%nat 0xfff00000), (R 4%nat 1%nat 0xfc000000), (R 1%nat 2%nat 0xfff00),
      (R 2%nat 1%nat 0xfc000) by (lia || reflexivity).
    change (char_max 2) with 10%nat in Hl. do 11 (destruct n as [|n]; [reflexivity|]). lia.
  - rewrite (R 6%nat 6%nat 0x3fffffff00000000), (R 9%nat 3%nat 0x3fff800000000000), (R 10%nat 2%nat 0x3ff0000000000000), (R 11%nat 1%nat 0x3e00000000000000),
      (R 6%nat 3%nat 0x7fff00000000), (R 7%nat 2%nat 0x7fe000000000), (R 8%nat 1%nat 0x7c0000000000),
      (R 0%nat 6%nat 0xfffffffc), (R 3%nat 3%nat 0xfffe0000), (R 4%nat 2%nat 0xffc00000), (R 5%nat 1%nat 0xf8000000),
      (R 0%nat 3%nat 0x1fffc), (R 1%nat 2%nat 0x1ff80), (R 2%nat 1%nat 0x1f000) by (lia || reflexivity).
    change (char_max 3) with 12%nat in Hl. do 13 (destruct n as [|n]; [reflexivity|]). lia.
Qed.

(** The digit at a place, 0 past the end. *)
Lemma digit_at set ds i : digits set ds -> (i <= char_max set)%nat ->
  N.land (packed (bits_of set) ds / 2 ^ (bits_of set * N.of_nat i)) (map_size set) = nth i ds 0.
Proof.
  intros D Hi. rewrite map_size_ones by apply D. rewrite N.land_ones, packed_div by apply D.
  replace (bits_of set) with (bits_of set * N.of_nat 1) at 2 by lia. rewrite packed_mod by (apply Forall_skipn, D).
  destruct (Nat.lt_ge_cases i (length ds)) as [L|L].
  - rewrite <- (firstn_skipn i ds) at 2. rewrite app_nth2, firstn_length, Nat.min_l, Nat.sub_diag by (rewrite ?firstn_length; lia).
    destruct (skipn i ds) as [|d l] eqn:E; [apply (f_equal (@length N)) in E; rewrite skipn_length in E; cbn in E; lia|]. cbn. lia.
  - rewrite skipn_all2, nth_overflow by assumption. reflexivity.
Qed.

(** Parts of the word. *)
Lemma low_part set ds n : digits set ds -> (1 <= n <= char_max set)%nat ->
  exists m, low_mask (N.of_nat n * bits_of set) = Some m /\ N.land (packed (bits_of set) ds) m = packed (bits_of set) (firstn n ds).
Proof.
  intros D Hn. pose proof (digits_word set ds n D ltac:(lia)). pose proof (bits_pos set (dg_set _ _ D)).
  eexists. split; [apply low_mask_ok; nia|]. rewrite N.land_ones, (N.mul_comm (N.of_nat n)). now apply packed_mod, D.
Qed.

Lemma mid_part set ds i n : digits set ds -> (1 <= n)%nat -> (i + n <= char_max set)%nat ->
  exists m m', low_mask (N.of_nat n * bits_of set) = Some m /\ shl m (N.of_nat i * bits_of set) = Some m' /\
    N.land (packed (bits_of set) ds) m' = packed (bits_of set) (firstn n (skipn i ds)) * 2 ^ (bits_of set * N.of_nat i).
Proof.
  intros D Hn Hi. pose proof (digits_word set ds (i + n) D Hi). pose proof (bits_pos set (dg_set _ _ D)).
  eexists. eexists. split; [apply low_mask_ok; nia|]. split; [apply shl_ok; [nia|apply ones_shifted; nia]|].
  rewrite land_shifted, (N.mul_comm (N.of_nat n)), (N.mul_comm (N.of_nat i)), packed_div, packed_mod by (try apply Forall_skipn; apply D). reflexivity.
Qed.

Lemma shifted_62 set ds i : digits set ds -> (i + length ds <= char_max set)%nat ->
  packed (bits_of set) ds * 2 ^ (bits_of set * N.of_nat i) < 2 ^ 62.
Proof.
  intros D H. pose proof (digits_word set ds (i + length ds) D H).
  eapply N.lt_le_trans with (2 ^ (bits_of set * N.of_nat (length ds)) * 2 ^ (bits_of set * N.of_nat i)).
  - apply N.mul_lt_mono_pos_r; [apply pow2_pos|]. apply packed_lt, D.
  - rewrite <- N.pow_add_r. apply N.pow_le_mono_r; [lia|]. nia.
Qed.
