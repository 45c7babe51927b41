(** UTF-8 characters in memory. *)
From Verif Require Import Base Word StringModel StringSpec StringPackProofs.
Local Open Scope N_scope.

Lemma tail_byte x : low_byte (N.land (N.lor x 0x80) 0xbf) = 0x80 + x mod 0x40.
Proof.
  unfold low_byte. change 256 with (2 ^ 8). change 0x40 with (2 ^ 6).
  assert (L : x mod 2 ^ 6 < 2 ^ 7) by (pose proof (N.mod_lt x (2 ^ 6) (pow2_nz 6)); change (2 ^ 6) with 64 in *; change (2 ^ 7) with 128; lia).
  change (0x80 + x mod 2 ^ 6) with (1 * 2 ^ 7 + x mod 2 ^ 6).
  apply N.bits_inj. intros i. rewrite testbit_split by assumption.
  destruct (N.ltb_spec i 8) as [H|H].
  - rewrite N.mod_pow2_bits_low by assumption. rewrite N.land_spec, N.lor_spec.
    assert (E : i = 0 \/ i = 1 \/ i = 2 \/ i = 3 \/ i = 4 \/ i = 5 \/ i = 6 \/ i = 7) by lia.
    repeat destruct E as [->|E]; [.. |subst i]; cbn -[N.modulo]; change 64 with (2 ^ 6);
      try (rewrite N.mod_pow2_bits_low by (vm_compute; reflexivity); rewrite orb_false_r, andb_true_r; reflexivity).
    + rewrite andb_false_r. symmetry. apply N.mod_pow2_bits_high. vm_compute. discriminate.
    + now rewrite orb_true_r.
  - rewrite N.mod_pow2_bits_high by assumption. destruct (N.ltb_spec i 7); [lia|].
    symmetry. apply (testbit_high 1 1); [reflexivity|lia].
Qed.

Lemma head_byte x m k : x < 2 ^ k -> m * 2 ^ k + 2 ^ k <= 256 -> low_byte (N.lor x (m * 2 ^ k)) = m * 2 ^ k + x.
Proof. intros Hx Hm. rewrite lor_add by assumption. unfold low_byte. rewrite N.mod_small; lia. Qed.

Lemma shiftr6 c : N.shiftr c 6 = c / 0x40.
Proof. apply N.shiftr_div_pow2. Qed.

Lemma char_size_ok c : c <> 0 -> char_size c = length (utf8_char c).
Proof.
  intros H. unfold char_size, utf8_char. destruct (N.eqb_spec c 0); [contradiction|].
  destruct (c <? 0x80); [reflexivity|]. destruct (c <? 0x800); [reflexivity|]. now destruct (c <? 0x10000).
Qed.

Lemma put_utf8_ok c : scalar c -> put_utf8 c = utf8_char c.
Proof.
  intros [H _]. unfold put_utf8, utf8_char, char_size. destruct (N.eqb_spec c 0); [lia|].
  destruct (N.ltb_spec c 0x80) as [L1|L1]; [|destruct (N.ltb_spec c 0x800) as [L2|L2]; [|destruct (N.ltb_spec c 0x10000) as [L3|L3]]].
  - change (nth 1 first_mark 0) with 0. rewrite N.lor_0_r. unfold low_byte. rewrite N.mod_small by lia. reflexivity.
  - change (nth 2 first_mark 0) with (6 * 2 ^ 5). rewrite tail_byte, shiftr6, head_byte; [reflexivity| |vm_compute; discriminate].
    apply N.div_lt_upper_bound; [lia|exact L2].
  - change (nth 3 first_mark 0) with (14 * 2 ^ 4). rewrite !tail_byte, !shiftr6, head_byte; [|rewrite N.div_div by lia; apply N.div_lt_upper_bound; [lia|exact L3]|vm_compute; discriminate].
    rewrite N.div_div by lia. reflexivity.
  - change (nth 4 first_mark 0) with (30 * 2 ^ 3). rewrite !tail_byte, !shiftr6, head_byte;
      [|rewrite !N.div_div by lia; apply N.div_lt_upper_bound; [lia|eapply N.le_lt_trans; [apply H|reflexivity]]|vm_compute; discriminate].
    rewrite !N.div_div by lia. reflexivity.
Qed.

Definition trailing_expected (b : nat) : nat :=
  (if b <? 192 then 0 else if b <? 224 then 1 else if b <? 240 then 2 else if b <? 248 then 3 else if b <? 252 then 4 else 5)%nat.
Lemma trailing_ok b : b < 256 -> nth_error trailing (N.to_nat b) = Some (trailing_expected (N.to_nat b)).
Proof.
  intros H. assert (A : forall n, In n (seq 0 256) -> nth_error trailing n = Some (trailing_expected n)).
  { apply Forall_forall. vm_compute. repeat constructor. }
  apply A. apply in_seq. lia.
Qed.

(** Reading back what is at a position. *)
Lemma nth_error_at {A} (pre l rest : list A) k x : nth_error l k = Some x -> nth_error (pre ++ l ++ rest) (length pre + k) = Some x.
Proof.
  intros H. rewrite nth_error_app2 by lia. replace (length pre + k - length pre)%nat with k by lia.
  rewrite nth_error_app1 by (apply nth_error_Some; congruence). exact H.
Qed.

Lemma wadd32 x y : x + y < 2 ^ 32 -> wadd 32 x y = x + y.
Proof. apply N.mod_small. Qed.
Lemma wshl32 x : x * 64 < 2 ^ 32 -> wshl 32 x 6 = x * 64.
Proof. intros H. unfold wshl. change (2 ^ 6) with 64. now apply N.mod_small. Qed.
Lemma wsub32 c o : c < 2 ^ 32 -> o < 2 ^ 32 -> wsub 32 (o + c) o = c.
Proof.
  intros Hc Ho. unfold wsub. rewrite (N.mod_small o) by assumption. replace (o + c + (2 ^ 32 - o)) with (c + 1 * 2 ^ 32) by lia.
  rewrite N.mod_add by (vm_compute; discriminate). now apply N.mod_small.
Qed.

Lemma utf8_bytes_lt c b : scalar c -> In b (utf8_char c) -> 0 < b < 256.
Proof.
  intros [H _] I. unfold utf8_char in I.
  assert (M : forall x, 0 <= x mod 0x40 < 64) by (intros x; split; [lia|apply N.mod_lt; lia]).
  destruct (N.ltb_spec c 0x80) as [L1|L1]; [|destruct (N.ltb_spec c 0x800) as [L2|L2]; [|destruct (N.ltb_spec c 0x10000) as [L3|L3]]];
    cbn [In] in I.
  - destruct I as [<-|[]]. lia.
  - assert (c / 0x40 < 32) by (apply N.div_lt_upper_bound; lia). pose proof (M c).
    destruct I as [<-|[<-|[]]]; lia.
  - assert (c / 0x1000 < 16) by (apply N.div_lt_upper_bound; lia). pose proof (M c). pose proof (M (c / 0x40)).
    destruct I as [<-|[<-|[<-|[]]]]; lia.
  - assert (c / 0x40000 < 8) by (apply N.div_lt_upper_bound; lia). pose proof (M c). pose proof (M (c / 0x40)). pose proof (M (c / 0x1000)).
    destruct I as [<-|[<-|[<-|[<-|[]]]]]; lia.
Qed.

Lemma get_utf8_ok pre c rest : scalar c -> get_utf8 (pre ++ utf8_char c ++ rest) (length pre) = Some (c, length (utf8_char c)).
Proof.
  intros S. pose proof S as [H1 H2]. unfold get_utf8.
  assert (A : forall k b, nth_error (utf8_char c) k = Some b -> nth_error (pre ++ utf8_char c ++ rest) (length pre + k) = Some b) by (intros; now apply nth_error_at).
  assert (T : forall b n, In b (utf8_char c) -> trailing_expected (N.to_nat b) = n -> nth_error trailing (N.to_nat b) = Some n).
  { intros b n I E. rewrite trailing_ok by (pose proof (utf8_bytes_lt c b S I); lia). now rewrite E. }
  assert (K : forall x n, x = c -> (if ((x <=? 0x10ffff) && ((x <? 0xd800) || (0xdfff <? x)))%N then Some (x, (n + 1)%nat) else None) = Some (c, (n + 1)%nat)).
  { intros x n ->. destruct (N.leb_spec c 0x10ffff), (N.ltb_spec c 0xd800), (N.ltb_spec 0xdfff c); cbn [andb orb]; try reflexivity; lia. }
  pose proof (fun k => A k) as A'. revert A T. unfold utf8_char.
  assert (M : forall x, x mod 0x40 < 64) by (intros x; apply N.mod_lt; lia).
  set (mem := pre ++ utf8_char c ++ rest) in *. clearbody mem.
  destruct (N.ltb_spec c 0x80) as [L1|L1]; [|destruct (N.ltb_spec c 0x800) as [L2|L2]; [|destruct (N.ltb_spec c 0x10000) as [L3|L3]]]; intros A T.
  - pose proof (A 0%nat _ eq_refl) as A0. rewrite Nat.add_0_r in A0. rewrite A0.
    rewrite (T c 0%nat (or_introl eq_refl)) by (unfold trailing_expected; destruct (Nat.ltb_spec (N.to_nat c) 192); [reflexivity|lia]).
    cbn [nth_error offsets gather]. rewrite A0. apply (K _ 0%nat). rewrite wadd32 by lia. now apply (wsub32 c 0); lia.
  - set (b0 := 0xc0 + c / 0x40) in *. set (b1 := 0x80 + c mod 0x40) in *.
    assert (Hb0 : b0 < 0xe0) by (unfold b0; assert (c / 0x40 < 32) by (apply N.div_lt_upper_bound; lia); lia).
    pose proof (M c) as M0.
    assert (D : b0 * 64 + b1 = 0x3080 + c) by (unfold b0, b1; pose proof (N.div_mod c 0x40 ltac:(lia)); lia).
    pose proof (A 0%nat _ eq_refl) as A0. rewrite Nat.add_0_r in A0. pose proof (A 1%nat _ eq_refl) as A1. rewrite A0.
    rewrite (T b0 1%nat (or_introl eq_refl)) by (unfold trailing_expected, b0 in *; repeat match goal with |- context [(?a <? ?b)%nat] => destruct (Nat.ltb_spec a b); try lia; try reflexivity end).
    cbn [nth_error offsets gather]. rewrite A0. rewrite (wadd32 0 b0), wshl32 by lia. rewrite A1. apply (K _ 1%nat).
    rewrite wadd32 by lia. rewrite N.add_0_l, D. apply wsub32; lia.
  - set (b0 := 0xe0 + c / 0x1000) in *. set (b1 := 0x80 + c / 0x40 mod 0x40) in *. set (b2 := 0x80 + c mod 0x40) in *.
    assert (Hb0 : b0 < 0xf0) by (unfold b0; assert (c / 0x1000 < 16) by (apply N.div_lt_upper_bound; lia); lia).
    pose proof (M c) as M0. pose proof (M (c / 0x40)) as M1.
    assert (D : (b0 * 64 + b1) * 64 + b2 = 0xe2080 + c).
    { unfold b0, b1, b2. pose proof (N.div_mod c 0x40 ltac:(lia)). pose proof (N.div_mod (c / 0x40) 0x40 ltac:(lia)) as D2. rewrite N.div_div in D2 by lia. change (0x40 * 0x40) with 0x1000 in D2. lia. }
    pose proof (A 0%nat _ eq_refl) as A0. rewrite Nat.add_0_r in A0. pose proof (A 1%nat _ eq_refl) as A1. pose proof (A 2%nat _ eq_refl) as A2. rewrite A0.
    rewrite (T b0 2%nat (or_introl eq_refl)) by (unfold trailing_expected, b0 in *; repeat match goal with |- context [(?a <? ?b)%nat] => destruct (Nat.ltb_spec a b); try lia; try reflexivity end).
    cbn [nth_error offsets gather]. rewrite A0. rewrite (wadd32 0 b0), wshl32 by lia. rewrite A1. rewrite wadd32, wshl32 by lia.
    replace (length pre + 1 + 1)%nat with (length pre + 2)%nat by lia. rewrite A2. apply (K _ 2%nat).
    rewrite wadd32 by lia. rewrite N.add_0_l, D. apply wsub32; lia.
  - set (b0 := 0xf0 + c / 0x40000) in *. set (b1 := 0x80 + c / 0x1000 mod 0x40) in *. set (b2 := 0x80 + c / 0x40 mod 0x40) in *. set (b3 := 0x80 + c mod 0x40) in *.
    assert (Hb0 : b0 < 0xf8) by (unfold b0; assert (c / 0x40000 < 8) by (apply N.div_lt_upper_bound; lia); lia).
    pose proof (M c) as M0. pose proof (M (c / 0x40)) as M1. pose proof (M (c / 0x1000)) as M2.
    assert (D : ((b0 * 64 + b1) * 64 + b2) * 64 + b3 = 0x03c82080 + c).
    { unfold b0, b1, b2, b3. pose proof (N.div_mod c 0x40 ltac:(lia)). pose proof (N.div_mod (c / 0x40) 0x40 ltac:(lia)) as D2. rewrite N.div_div in D2 by lia. change (0x40 * 0x40) with 0x1000 in D2.
      pose proof (N.div_mod (c / 0x1000) 0x40 ltac:(lia)) as D3. rewrite N.div_div in D3 by lia. change (0x1000 * 0x40) with 0x40000 in D3. lia. }
    pose proof (A 0%nat _ eq_refl) as A0. rewrite Nat.add_0_r in A0. pose proof (A 1%nat _ eq_refl) as A1. pose proof (A 2%nat _ eq_refl) as A2. pose proof (A 3%nat _ eq_refl) as A3. rewrite A0.
    rewrite (T b0 3%nat (or_introl eq_refl)) by (unfold trailing_expected, b0 in *; repeat match goal with |- context [(?a <? ?b)%nat] => destruct (Nat.ltb_spec a b); try lia; try reflexivity end).
    cbn [nth_error offsets gather]. rewrite A0. rewrite (wadd32 0 b0), wshl32 by lia. rewrite A1. rewrite wadd32, wshl32 by lia.
    replace (length pre + 1 + 1)%nat with (length pre + 2)%nat by lia. rewrite A2. rewrite wadd32, wshl32 by lia.
    replace (length pre + 2 + 1)%nat with (length pre + 3)%nat by lia. rewrite A3. apply (K _ 3%nat).
    rewrite wadd32 by lia. rewrite N.add_0_l, D. apply wsub32; lia.
Qed.

Lemma get_utf8_end pre rest : get_utf8 (pre ++ 0 :: rest) (length pre) = Some (0, 1%nat).
Proof.
  unfold get_utf8. assert (A : nth_error (pre ++ 0 :: rest) (length pre) = Some 0) by (rewrite nth_error_app2, Nat.sub_diag by lia; reflexivity).
  rewrite A. cbn [N.to_nat trailing repeat app nth_error offsets gather]. rewrite A. reflexivity.
Qed.

Lemma utf8_char_nonempty c : (1 <= length (utf8_char c) <= 4)%nat.
Proof. unfold utf8_char. destruct (c <? 0x80); [cbn; lia|]. destruct (c <? 0x800); [cbn; lia|]. destruct (c <? 0x10000); cbn; lia. Qed.

Lemma utf8_app a b : utf8 (a ++ b) = utf8 a ++ utf8 b.
Proof. unfold utf8. now rewrite map_app, concat_app. Qed.
Lemma utf8_cons c cs : utf8 (c :: cs) = utf8_char c ++ utf8 cs.
Proof. reflexivity. Qed.
Lemma utf8_len cs : (length cs <= length (utf8 cs) <= 4 * length cs)%nat.
Proof. induction cs as [|c cs IH]; [cbn; lia|]. rewrite utf8_cons, app_length. pose proof (utf8_char_nonempty c). cbn [length]. lia. Qed.
Lemma utf8_nz cs : Forall scalar cs -> Forall (fun b => b <> 0) (utf8 cs).
Proof.
  induction 1 as [|c cs S _ IH]; [constructor|]. rewrite utf8_cons. apply Forall_app. split; [|exact IH].
  apply Forall_forall. intros b I. pose proof (utf8_bytes_lt c b S I). lia.
Qed.

Lemma length_utf8_ok cs : Forall scalar cs -> forall pre rest fuel, (length cs < fuel)%nat ->
  length_utf8 fuel (pre ++ utf8 cs ++ 0 :: rest) (length pre) = Some (length cs).
Proof.
  induction 1 as [|c cs S _ IH]; intros pre rest fuel Hf; (destruct fuel as [|fuel]; [lia|]); cbn [length_utf8].
  - change (utf8 [] ++ 0 :: rest) with (0 :: rest). rewrite get_utf8_end. reflexivity.
  - rewrite utf8_cons, <- app_assoc, get_utf8_ok by assumption. destruct (N.eqb_spec c 0) as [->|_]; [destruct S; lia|].
    specialize (IH (pre ++ utf8_char c) rest fuel). rewrite app_length, <- app_assoc in IH. rewrite IH by (cbn [length] in Hf; lia). reflexivity.
Qed.

(** Back to the first byte of a character. *)
Lemma continuation x : N.land (0x80 + x mod 0x40) 0xc0 = 0x80.
Proof.
  pose proof (N.mod_lt x 0x40 ltac:(lia)) as H. set (y := x mod 0x40) in *. clearbody y.
  assert (A : forall n, In n (seq 0 64) -> N.land (0x80 + N.of_nat n) 0xc0 = 0x80) by (apply Forall_forall; vm_compute; repeat constructor).
  specialize (A (N.to_nat y)). rewrite N2Nat.id in A. apply A. apply in_seq. lia.
Qed.

Lemma not_continuation b : b < 256 -> ~ (0x80 <= b < 0xc0) -> N.land b 0xc0 <> 0x80.
Proof.
  intros H1 H2. assert (A : forall n, In n (seq 0 256) -> (n < 128 \/ 192 <= n)%nat -> N.land (N.of_nat n) 0xc0 <> 0x80).
  { assert (B : Forall (fun n => orb (negb (orb (n <? 128) (192 <=? n))%nat) (negb (N.land (N.of_nat n) 0xc0 =? 0x80)) = true) (seq 0 256)) by (vm_compute; repeat constructor).
    rewrite Forall_forall in B. intros n I D. specialize (B n I). apply orb_true_iff in B. destruct B as [B|B].
    - exfalso. destruct (Nat.ltb_spec n 128), (Nat.leb_spec 192 n); cbn in B; try discriminate; lia.
    - destruct (N.eqb_spec (N.land (N.of_nat n) 0xc0) 0x80); [discriminate|assumption]. }
  specialize (A (N.to_nat b)). rewrite N2Nat.id in A. apply A; [apply in_seq; lia|lia].
Qed.

Lemma utf8_char_shape c : scalar c ->
  exists b l, utf8_char c = b :: l /\ ~ (0x80 <= b < 0xc0) /\ b < 256 /\ Forall (fun b => N.land b 0xc0 = 0x80) l.
Proof.
  intros S. pose proof (utf8_bytes_lt c) as B. pose proof S as [H _]. unfold utf8_char in *.
  destruct (N.ltb_spec c 0x80) as [L1|L1]; [|destruct (N.ltb_spec c 0x800) as [L2|L2]; [|destruct (N.ltb_spec c 0x10000) as [L3|L3]]];
    eexists; eexists; (split; [reflexivity|]); (split; [|split; [apply B; [assumption|now left]|repeat constructor; apply continuation]]); lia.
Qed.

Lemma prev_codepoint_ok pre c rest k : scalar c -> (k < length (utf8_char c))%nat ->
  prev_codepoint (pre ++ utf8_char c ++ rest) (length pre + k) = Some (length pre).
Proof.
  intros S. destruct (utf8_char_shape c S) as (b & l & E & Hb & Lb & F). rewrite E. revert k. induction k as [|k IH]; intros Hk.
  - rewrite Nat.add_0_r. destruct (length pre) as [|n] eqn:En; [reflexivity|]. cbn [prev_codepoint].
    assert (A : nth_error (pre ++ (b :: l) ++ rest) (Datatypes.S n) = Some b).
    { rewrite <- En, <- (Nat.add_0_r (length pre)). now apply nth_error_at. }
    rewrite A. destruct (N.eqb_spec (N.land b 0xc0) 0x80) as [Z|Z]; [exfalso; now apply (not_continuation b Lb)|reflexivity].
  - replace (length pre + Datatypes.S k)%nat with (Datatypes.S (length pre + k)) by lia. cbn [prev_codepoint].
    destruct (nth_error l k) as [x|] eqn:Ex; [|apply nth_error_None in Ex; cbn [length] in Hk; lia].
    assert (A : nth_error (pre ++ (b :: l) ++ rest) (Datatypes.S (length pre + k)) = Some x).
    { replace (Datatypes.S (length pre + k)) with (length pre + Datatypes.S k)%nat by lia. now apply nth_error_at. }
    rewrite A. rewrite Forall_forall in F. rewrite (F x) by (now apply nth_error_In with k). cbn [N.eqb Pos.eqb]. apply IH. cbn [length] in *. lia.
Qed.
