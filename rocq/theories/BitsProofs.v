(** * Proofs about the bit arrays: memory accesses and the writing functions *)
From Verif Require Import Base Word BitsModel BitsSpec.

Lemma pow8 : (2 ^ N.of_nat 8 = 256)%N. Proof. reflexivity. Qed.
Lemma div8 q a : a < 8 -> (8 * q + a) / 8 = q.
Proof. intros H. rewrite Nat.mul_comm, Nat.div_add_l by lia. rewrite Nat.div_small; lia. Qed.
Lemma mod8 q a : a < 8 -> (8 * q + a) mod 8 = a.
Proof. intros H. rewrite Nat.add_comm, Nat.mul_comm, Nat.mod_add by lia. apply Nat.mod_small; lia. Qed.
Lemma split8 i : exists q a, i = 8 * q + a /\ a < 8 /\ i / 8 = q /\ i mod 8 = a.
Proof.
  exists (i / 8), (i mod 8). pose proof (Nat.div_mod i 8). pose proof (Nat.mod_upper_bound i 8). lia.
Qed.

Lemma bit8 m q a : a < 8 -> bit 8 m (8 * q + a) = N.testbit (nth q m 0%N) (N.of_nat a).
Proof. intros H. unfold bit. rewrite div8, mod8 by auto. reflexivity. Qed.

Lemma array_nth w m q : array w m -> (nth q m 0 < 2 ^ N.of_nat w)%N.
Proof.
  intros H. destruct (Nat.lt_ge_cases q (length m)) as [L|L].
  - apply (proj1 (Forall_forall _ _) H). apply nth_In; auto.
  - rewrite nth_overflow by lia. apply pow2_pos.
Qed.

Lemma array_upd w m q x : array w m -> (x < 2 ^ N.of_nat w)%N -> array w (upd m q x).
Proof.
  intros H Hx. revert q. induction H as [|h t Hh Ht IH]; intros [|q]; cbn [upd];
    constructor; auto. apply IH.
Qed.

Lemma array_app w a b : array w a -> array w b -> array w (a ++ b).
Proof. intros. apply Forall_app; split; auto. Qed.
Lemma array_firstn w n m : array w m -> array w (firstn n m).
Proof.
  intros H. revert n; induction H; intros [|n]; cbn [firstn]; constructor; auto.
  apply IHForall.
Qed.
Lemma array_skipn w n m : array w m -> array w (skipn n m).
Proof.
  intros H. revert n; induction H as [|h t Hh Ht IH]; intros [|n]; cbn [skipn];
    [constructor|constructor|constructor; auto|apply IH].
Qed.
Lemma array_slice w m i n : array w m -> array w (slice m i n).
Proof. intros. apply array_firstn, array_skipn; auto. Qed.
Lemma array_overwrite w m i xs : array w m -> array w xs -> array w (overwrite m i xs).
Proof. intros. apply array_app; [apply array_firstn|apply array_app; [|apply array_skipn]]; auto. Qed.

Lemma bytes_length n : forall x, length (bytes n x) = n.
Proof. induction n; intros; cbn [bytes length]; auto. Qed.
Lemma bytes_array n : forall x, array 8 (bytes n x).
Proof.
  induction n; intros; cbn [bytes]; constructor.
  - rewrite pow8. apply N.mod_lt. lia.
  - apply IHn.
Qed.

Lemma bytes_nth n : forall x q, q < n ->
  nth q (bytes n x) 0%N = N.modulo (N.shiftr x (N.of_nat (8 * q))) 256.
Proof.
  induction n; intros x q H; [lia|]. destruct q as [|q]; cbn [bytes nth].
  - reflexivity.
  - rewrite IHn by lia. f_equal. rewrite !N.shiftr_div_pow2.
    replace (N.of_nat (8 * S q)) with (8 + N.of_nat (8 * q))%N by lia.
    rewrite N.pow_add_r, <- N.div_div by apply pow2_nz. reflexivity.
Qed.

Lemma bytes_bit n x i : i < 8 * n -> bit 8 (bytes n x) i = N.testbit x (N.of_nat i).
Proof.
  intros H. destruct (split8 i) as (q & a & -> & Ha & _ & _). rewrite bit8 by auto.
  rewrite bytes_nth by lia. change 256%N with (2 ^ 8)%N.
  rewrite N.mod_pow2_bits_low by lia. rewrite N.shiftr_spec' . f_equal. lia.
Qed.

Lemma value_bit m : array 8 m -> forall i, N.testbit (value m) (N.of_nat i) = bit 8 m i.
Proof.
  induction 1 as [|h t Hh Ht IH]; intros i.
  - cbn [value]. unfold bit. rewrite nth_overflow by (cbn; lia). now rewrite !N.bits_0.
  - destruct (split8 i) as (q & a & -> & Ha & _ & _). rewrite bit8 by auto. cbn [value].
    replace (h + 256 * value t)%N with (value t * 2 ^ 8 + h)%N by lia.
    rewrite testbit_split by exact Hh.
    destruct q as [|q]; cbn [nth].
    + destruct (N.ltb_spec (N.of_nat (8 * 0 + a)) 8); [f_equal; lia|lia].
    + destruct (N.ltb_spec (N.of_nat (8 * S q + a)) 8); [lia|].
      replace (N.of_nat (8 * S q + a) - 8)%N with (N.of_nat (8 * q + a)) by lia.
      rewrite IH, bit8 by auto. reflexivity.
Qed.

Lemma value_lt m : array 8 m -> (value m < 2 ^ N.of_nat (8 * length m))%N.
Proof.
  induction 1 as [|h t Hh Ht IH]; [reflexivity|]. cbn [value length].
  replace (N.of_nat (8 * S (length t))) with (8 + N.of_nat (8 * length t))%N by lia.
  rewrite N.pow_add_r. rewrite pow8 in Hh. change (2 ^ 8)%N with 256%N.
  set (p := (2 ^ N.of_nat (8 * length t))%N) in *. clearbody p. lia.
Qed.

Lemma slice_bit m i n j : i + n <= length m -> j < 8 * n -> bit 8 (slice m i n) j = bit 8 m (8 * i + j).
Proof.
  intros H Hj. destruct (split8 j) as (q & a & -> & Ha & _ & _).
  replace (8 * i + (8 * q + a)) with (8 * (i + q) + a) by lia. rewrite !bit8 by auto.
  f_equal.
  assert (E : nth_error (slice m i n) q = nth_error m (i + q)).
  { rewrite nth_error_slice. destruct (Nat.ltb_spec q n); [reflexivity|lia]. }
  destruct (nth_error m (i + q)) as [x|] eqn:E'.
  - rewrite (nth_error_nth _ _ 0%N E), (nth_error_nth _ _ 0%N E'). reflexivity.
  - apply nth_error_None in E'. lia.
Qed.

Lemma read8_ok m i : i < length m -> read8 m i = Some (nth i m 0%N).
Proof. intros H. unfold read8. apply nth_error_nth'. auto. Qed.

Lemma read64_ok m i : array 8 m -> i + 8 <= length m ->
  exists x, read64 m i = Some x /\ (x < 2 ^ 64)%N /\
    forall j, j < 64 -> N.testbit x (N.of_nat j) = bit 8 m (8 * i + j).
Proof.
  intros A H. exists (value (slice m i 8)). unfold read64.
  destruct (Nat.leb_spec (i + 8) (length m)); [|lia].
  assert (A' : array 8 (slice m i 8)) by (apply array_slice; auto).
  split; [reflexivity|split].
  - pose proof (value_lt _ A') as L. rewrite slice_length in L by lia. exact L.
  - intros j Hj. rewrite value_bit by auto. apply slice_bit; lia.
Qed.

(** [a'] is [a] changed to [op a b] where [p] holds. *)
Definition changed (op : bool -> bool -> bool) (b : list N) (p : nat -> bool) (a a' : list N) : Prop :=
  array 8 a' /\ length a' = length a /\
  forall i, i < 8 * length a -> bit 8 a' i = if p i then op (bit 8 a i) (bit 8 b i) else bit 8 a i.

Lemma changed_none op b p a : array 8 a -> (forall i, p i = false) -> changed op b p a a.
Proof. intros A H. split; [auto|split; [auto|]]. intros i Hi. rewrite H. auto. Qed.

Lemma changed_trans op b p q r a a' a'' :
  changed op b p a a' -> changed op b q a' a'' ->
  (forall i, p i && q i = false) -> (forall i, r i = p i || q i) -> changed op b r a a''.
Proof.
  intros (A1 & L1 & B1) (A2 & L2 & B2) D O. split; [auto|split; [lia|]].
  intros i Hi. rewrite B2, B1, O by lia. specialize (D i).
  destruct (p i), (q i); try reflexivity. discriminate.
Qed.

Lemma changed_ext op b p q a a' : (forall i, p i = q i) -> changed op b p a a' -> changed op b q a a'.
Proof. intros E (A & L & B). split; [auto|split; [auto|]]. intros. rewrite B, E by auto. auto. Qed.

Definition bitwise (w : nat) (f : N -> N -> N) (op : bool -> bool -> bool) : Prop :=
  forall x y, (x < 2 ^ N.of_nat w -> y < 2 ^ N.of_nat w ->
    f x y < 2 ^ N.of_nat w /\
    forall j, j < N.of_nat w -> N.testbit (f x y) j = op (N.testbit x j) (N.testbit y j))%N.

Definition masked (f : N -> N -> N -> N) (op : bool -> bool -> bool) : Prop :=
  forall m x y, (m < 256 -> x < 256 -> y < 256 ->
    f m x y < 256 /\
    forall j, j < 8 -> N.testbit (f m x y) j =
      if N.testbit m j then op (N.testbit x j) (N.testbit y j) else N.testbit x j)%N.

Lemma upd_bit m k x i : k < length m -> i < 8 * length m ->
  bit 8 (upd m k x) i = if i / 8 =? k then N.testbit x (N.of_nat (i mod 8)) else bit 8 m i.
Proof.
  intros Hk Hi. unfold bit. destruct (Nat.eqb_spec (i / 8) k) as [->|E].
  - rewrite nth_upd_eq; auto.
  - rewrite nth_upd_ne; auto.
Qed.

Lemma overwrite_bit m k xs i : k + length xs <= length m -> i < 8 * length m ->
  bit 8 (overwrite m k xs) i = if within i (8 * k) (8 * length xs) then bit 8 xs (i - 8 * k) else bit 8 m i.
Proof.
  intros Hk Hi. destruct (split8 i) as (q & a & -> & Ha & _ & _). rewrite !(bit8 _ q a) by auto.
  assert (E : nth_error (overwrite m k xs) q = if (k <=? q) && (q <? k + length xs) then nth_error xs (q - k) else nth_error m q).
  { apply nth_error_overwrite. lia. }
  unfold within.
  destruct (Nat.leb_spec (8 * k) (8 * q + a)), (Nat.leb_spec k q); try lia; cbn [andb] in *.
  2:{ f_equal. rewrite (nth_error_nth' m 0%N) in E by lia. exact (nth_error_nth _ _ 0%N E). }
  destruct (Nat.ltb_spec (8 * q + a) (8 * k + 8 * length xs)), (Nat.ltb_spec q (k + length xs)); try lia.
  - replace (8 * q + a - 8 * k) with (8 * (q - k) + a) by lia. rewrite bit8 by auto. f_equal.
    rewrite (nth_error_nth' xs 0%N) in E by lia. exact (nth_error_nth _ _ 0%N E).
  - f_equal. rewrite (nth_error_nth' m 0%N) in E by lia. exact (nth_error_nth _ _ 0%N E).
Qed.

Lemma write8_ok m i x : i < length m -> write8 m i x = Some (upd m i x).
Proof. intros H. unfold write8. destruct (Nat.ltb_spec i (length m)); [auto|lia]. Qed.

Lemma words_ok f op b : bitwise 64 f op -> array 8 b -> forall n at_ a,
  array 8 a -> at_ + 8 * n <= length a -> at_ + 8 * n <= length b ->
  exists a', words f n at_ a b = Some a' /\
    changed op b (fun i => within i (8 * at_) (64 * n)) a a'.
Proof.
  intros F B. induction n as [|n IH]; intros at_ a A La Lb.
  { exists a. split; [reflexivity|]. apply changed_none; auto. intros i. unfold within. lia. }
  cbn [words].
  destruct (read64_ok a at_ A) as (x & -> & Hx & Bx); [lia|].
  destruct (read64_ok b at_ B) as (y & -> & Hy & By); [lia|].
  destruct (F x y Hx Hy) as [Hf Bf].
  unfold write64. destruct (Nat.leb_spec (at_ + 8) (length a)); [|lia].
  set (a1 := overwrite a at_ (bytes 8 (f x y))).
  assert (L1 : length a1 = length a) by (apply overwrite_length; rewrite bytes_length; lia).
  assert (C1 : changed op b (fun i => within i (8 * at_) 64) a a1).
  { split; [apply array_overwrite; auto; apply bytes_array|split; [auto|]].
    intros i Hi. unfold a1. rewrite overwrite_bit by (rewrite ?bytes_length; lia).
    rewrite bytes_length. change (8 * 8) with 64.
    destruct (within i (8 * at_) 64) eqn:W; [|reflexivity]. unfold within in W.
    rewrite bytes_bit by lia. rewrite Bf by lia. rewrite Bx, By by lia.
    now replace (8 * at_ + (i - 8 * at_)) with i by lia. }
  destruct (IH (at_ + 8) a1) as (a2 & -> & C2); [apply C1|lia|lia|].
  exists a2. split; [reflexivity|].
  apply (changed_trans _ _ _ _ _ _ _ _ C1 C2); intros i; unfold within; lia.
Qed.

Lemma octets_ok f op b : bitwise 8 f op -> array 8 b -> forall n at_ a,
  array 8 a -> at_ + n <= length a -> at_ + n <= length b ->
  exists a', octets f n at_ a b = Some a' /\
    changed op b (fun i => within i (8 * at_) (8 * n)) a a'.
Proof.
  intros F B. induction n as [|n IH]; intros at_ a A La Lb.
  { exists a. split; [reflexivity|]. apply changed_none; auto. intros i. unfold within. lia. }
  cbn [octets]. rewrite !read8_ok, write8_ok by lia.
  destruct (F (nth at_ a 0%N) (nth at_ b 0%N)) as [Hf Bf]; try (apply array_nth; auto).
  set (a1 := upd a at_ _).
  assert (C1 : changed op b (fun i => within i (8 * at_) 8) a a1).
  { split; [apply array_upd; auto|split; [apply upd_length|]].
    intros i Hi. unfold a1. rewrite upd_bit by lia.
    destruct (split8 i) as (q & r & -> & Hr & -> & ->). rewrite !bit8 by auto. unfold within.
    destruct (Nat.eqb_spec q at_) as [->|E].
    - replace ((8 * at_ <=? 8 * at_ + r) && (8 * at_ + r <? 8 * at_ + 8)) with true by lia.
      rewrite Bf by lia. reflexivity.
    - replace ((8 * at_ <=? 8 * q + r) && (8 * q + r <? 8 * at_ + 8)) with false by lia. reflexivity. }
  destruct (IH (at_ + 1) a1) as (a2 & -> & C2); [apply C1|rewrite (proj1 (proj2 C1)); lia|lia|].
  exists a2. split; [reflexivity|].
  apply (changed_trans _ _ _ _ _ _ _ _ C1 C2); intros i; unfold within; lia.
Qed.

(** ** The split *)

Lemma split_facts index count : exists q a,
  index = 8 * q + a /\ a < 8 /\ index mod 8 = a /\
  offset8 index = (if a =? 0 then q else q + 1) /\
  (a + count < 8 /\ adjusted index count = 0 /\ count64 index count = 0 /\ count8 index count = 0 \/
   8 <= a + count /\ exists n64 n8 r, count64 index count = n64 /\ count8 index count = n8 /\
     adjusted index count mod 8 = r /\ n8 < 8 /\ r < 8 /\
     8 * q + a + count = 8 * offset8 index + 64 * n64 + 8 * n8 + r).
Proof.
  destruct (split8 index) as (q & a & E & Ha & Hd & Hm). exists q, a.
  assert (O : offset8 index = if a =? 0 then q else q + 1).
  { unfold offset8. subst index. destruct (Nat.eqb_spec a 0) as [->|].
    - rewrite <- Nat.add_assoc. rewrite div8; lia.
    - replace (8 * q + a + 7) with (8 * (q + 1) + (a - 1)) by lia. rewrite div8; lia. }
  split; [auto|split; [auto|split; [auto|split; [auto|]]]].
  unfold count64, count8, count64, adjusted. rewrite Hm, O.
  destruct (Nat.leb_spec (8 - a) count) as [L|L].
  - right. split; [lia|].
    set (o := if a =? 0 then q else q + 1) in *.
    assert (Ho : 8 * o <= index + count) by (unfold o; destruct (Nat.eqb_spec a 0); lia).
    set (t := index + count - o * 8).
    pose proof (Nat.div_mod t 64 ltac:(lia)) as D1. pose proof (Nat.mod_upper_bound t 64 ltac:(lia)).
    pose proof (Nat.div_mod t 8 ltac:(lia)) as D2. pose proof (Nat.mod_upper_bound t 8 ltac:(lia)).
    set (t64 := t / 64) in *. set (u := t mod 64) in *. set (t8 := t / 8) in *. set (v := t mod 8) in *.
    exists t64, (t8 - t64 * 8), v. unfold t in *. clearbody t64 u t8 v o. lia.
  - left. split; [lia|]. cbn. lia.
Qed.

Lemma mask_bit index count j : (j < 8)%nat ->
  N.testbit (mask index count) (N.of_nat j) = within j (index mod 8) count.
Proof.
  intros H. unfold mask, within. set (a := index mod 8).
  assert (Ha : a < 8) by (apply Nat.mod_upper_bound; lia). clearbody a.
  rewrite testbit_wrap, N.land_spec.
  replace (N.of_nat j <? 8)%N with true by lia. cbn [andb].
  assert (B : N.testbit (N.shiftl 255 (N.of_nat a)) (N.of_nat j) = (a <=? j)).
  { rewrite N.shiftl_mul_pow2, testbit_mul_pow2.
    destruct (N.ltb_spec (N.of_nat j) (N.of_nat a)); [lia|].
    change 255%N with (N.ones 8). rewrite testbit_ones. lia. }
  rewrite B. f_equal.
  destruct (Nat.ltb_spec count 8).
  - rewrite <- ones_pred, testbit_ones. lia.
  - change 255%N with (N.ones 8). rewrite testbit_ones. lia.
Qed.

Lemma mask_lt index count : (mask index count < 256)%N.
Proof. unfold mask, wrap. apply N.mod_lt. discriminate. Qed.

Lemma byte_changed op f b a k p index count : masked f op -> array 8 a -> array 8 b ->
  k < length a -> k < length b ->
  (forall i, p i = (i / 8 =? k) && within (i mod 8) (index mod 8) count) ->
  exists a', write8 a k (f (mask index count) (nth k a 0%N) (nth k b 0%N)) = Some a' /\
    changed op b p a a'.
Proof.
  intros F A B La Lb P. rewrite write8_ok by auto. eexists. split; [reflexivity|].
  destruct (F (mask index count) (nth k a 0%N) (nth k b 0%N)) as [Hf Bf];
    [apply mask_lt|apply (array_nth 8); auto|apply (array_nth 8); auto|].
  split; [apply array_upd; auto|split; [apply upd_length|]].
  intros i Hi. rewrite upd_bit by lia. rewrite P.
  destruct (split8 i) as (q & r & -> & Hr & -> & ->). rewrite !bit8 by auto.
  destruct (Nat.eqb_spec q k) as [->|E]; [|reflexivity]. cbn [andb].
  rewrite Bf by lia. rewrite mask_bit by auto. reflexivity.
Qed.

Definition range_ok_for (op : bool -> bool -> bool)
    (run : list N -> list N -> nat -> nat -> option (list N)) (small : bool) : Prop :=
  forall a b index count, array 8 a -> array 8 b -> inside a index count -> length b = length a ->
  small = true \/ index mod 8 <> 0 \/ 8 <= count ->
  exists a', run a b index count = Some a' /\
    replaced a a' index (touched index count) (fun i => op (bit 8 a i) (bit 8 b i)).

Lemma range_op_ok op f64 first only f8 last small :
  bitwise 64 f64 op -> masked first op -> (small = true -> masked only op) ->
  bitwise 8 f8 op -> bitwise 8 last op ->
  range_ok_for op (range_op f64 first only f8 last) small.
Proof.
  intros F64 Ffirst Fonly F8 Flast a b index count A B [I1 I2] Lb HS.
  destruct (split_facts index count) as (q & x & E & Hx & Hm & O & C).
  unfold range_op. rewrite O, Hm in *.
  assert (T : forall a' p, (forall i, p i = within i index (touched index count)) ->
    changed op b p a a' ->
    replaced a a' index (touched index count) (fun i => op (bit 8 a i) (bit 8 b i))).
  { intros a' p P (A' & L & D). split; [auto|split; [auto|]]. intros i Hi. rewrite D, P by auto. auto. }
  unfold touched in *. rewrite Hm in *.
  destruct C as [(S & -> & -> & ->)|(S & n64 & n8 & r & -> & -> & -> & H8 & Hr & Sum)].
  - replace (x + count <? 8) with true in * by lia. cbn [words octets].
    replace (negb (0 mod 8 =? 0)) with false by reflexivity.
    destruct (Nat.eqb_spec x 0) as [X|X]; cbn [negb].
    + replace (count <? 8) with true by lia. rewrite !read8_ok by lia.
      destruct (byte_changed op only b a q (fun i => within i index count) index count) as (a1 & -> & C1);
        auto; try lia.
      { apply Fonly. destruct HS as [|[|]]; auto; lia. }
      { intros i. rewrite Hm. destruct (split8 i) as (q' & r' & -> & ? & -> & ->). unfold within. lia. }
      exists a1. split; [reflexivity|]. eapply T; [|exact C1]. auto.
    + replace (q + 1 - 1) with q by lia. rewrite !read8_ok by lia.
      destruct (byte_changed op first b a q (fun i => within i index count) index count) as (a1 & -> & C1);
        auto; try lia.
      { intros i. rewrite Hm. destruct (split8 i) as (q' & r' & -> & ? & -> & ->). unfold within. lia. }
      exists a1. split; [reflexivity|]. eapply T; [|exact C1]. auto.
  - replace (x + count <? 8) with false in * by lia.
    set (o := if x =? 0 then q else q + 1) in *.
    assert (Ho : x = 0 /\ o = q \/ x <> 0 /\ o = q + 1)
      by (unfold o; destruct (Nat.eqb_spec x 0); lia).
    destruct (words_ok f64 op b F64 B n64 o a A) as (a1 & -> & C1); [lia|lia|].
    assert (L1 : length a1 = length a) by apply C1.
    assert (M2 : exists a2, (if negb (x =? 0) then
        let? x0 := read8 a1 (o - 1) in
        let? y := read8 b (o - 1) in write8 a1 (o - 1) (first (mask index count) x0 y)
      else if count <? 8 then
        let? x0 := read8 a1 o in let? y := read8 b o in write8 a1 o (only (mask index count) x0 y)
      else Some a1) = Some a2 /\
      changed op b (fun i => within i index (if x =? 0 then 0 else 8 - x)) a1 a2).
    { destruct (Nat.eqb_spec x 0) as [X|X]; cbn [negb].
      - replace (count <? 8) with false by lia. exists a1. split; [reflexivity|].
        apply changed_none; [apply C1|]. intros i. unfold within. lia.
      - replace (o - 1) with q by lia. rewrite !read8_ok by lia.
        apply byte_changed; auto; try lia; [apply C1|].
        intros i. rewrite Hm. destruct (split8 i) as (q' & r' & -> & ? & -> & ->). unfold within. lia. }
    destruct M2 as (a2 & -> & C2).
    assert (L2 : length a2 = length a) by (rewrite (proj1 (proj2 C2)); auto).
    assert (C12 := changed_trans _ _ _ _ (fun i => within i (8 * o) (64 * n64) ||
      within i index (if x =? 0 then 0 else 8 - x)) _ _ _ C1 C2). cbv beta in C12.
    destruct (octets_ok f8 op b F8 B n8 (o + n64 * 8) a2) as (a3 & -> & C3); [apply C2|lia|lia|].
    assert (L3 : length a3 = length a) by (rewrite (proj1 (proj2 C3)); auto).
    assert (C13 := changed_trans _ _ _ _ (fun i => within i index (8 * o + 64 * n64 + 8 * n8 - index)) _ _ _
      (C12 ltac:(intros i; unfold within; destruct (Nat.eqb_spec x 0); lia) ltac:(auto)) C3).
    cbv beta in C13. specialize (C13 ltac:(intros i; unfold within; destruct (Nat.eqb_spec x 0); lia)).
    specialize (C13 ltac:(intros i; unfold within; destruct (Nat.eqb_spec x 0); lia)).
    destruct (Nat.eqb_spec r 0) as [R|R]; cbn [negb].
    + exists a3. split; [reflexivity|]. eapply T; [|exact C13]. intros i. cbv beta. f_equal.
      replace (index + count + 7) with (8 * (o + n64 * 8 + n8) + 7) by lia. rewrite div8; lia.
    + destruct (octets_ok last op b Flast B 1 (o + n64 * 8 + n8) a3) as (a4 & -> & C4); [apply C13|lia|lia|].
      exists a4. split; [reflexivity|].
      eapply T; [|eapply (changed_trans _ _ _ _ (fun i => within i index (8 * (o + n64 * 8 + n8 + 1) - index)) _ _ _ C13 C4)].
      * intros i. cbv beta. f_equal.
        replace (index + count + 7) with (8 * (o + n64 * 8 + n8 + 1) + (r - 1)) by lia. rewrite div8; lia.
      * intros i; unfold within; lia.
      * intros i; unfold within; lia.
Qed.
