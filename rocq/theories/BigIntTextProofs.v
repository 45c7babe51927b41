(** Proofs for C15: parsing and printing. *)
From Verif Require Import Base Word BigIntModel BigIntSpec BigIntProofs BigIntSubProofs.
Local Open Scope Z_scope.

Definition valid (s : list N) : Prop := forall c, In c s -> digit c <> None.
Definition num (s : list N) : Z := match digits 0 s with Some x => x | None => 0 end.

Lemma digit_bits c : digit c = option_map Z.of_N (hex_bits c).
Proof.
  destruct (N.lt_ge_cases c 128) as [H|H].
  - assert (E : forallb (fun c => match digit c, hex_bits c with Some a, Some b => a =? Z.of_N b | None, None => true | _, _ => false end)
                  (map N.of_nat (seq 0 128)) = true) by (vm_compute; reflexivity).
    rewrite forallb_forall in E. specialize (E c). cbv beta in E.
    assert (Hin : In c (map N.of_nat (seq 0 128))).
    { apply in_map_iff. exists (N.to_nat c). split; [lia|]. apply in_seq. lia. }
    specialize (E Hin). destruct (digit c), (hex_bits c); try discriminate; [|reflexivity]. cbn [option_map]. f_equal. lia.
  - unfold hex_bits.
    destruct (N.leb_spec c 57), (N.leb_spec c 102), (N.leb_spec c 70); try lia. rewrite !andb_false_r.
    cbn [option_map]. unfold digit. repeat (match goal with |- context [match ?x with _ => _ end] => is_var x; destruct x end; try reflexivity; try (exfalso; lia)).
Qed.

Lemma hex_bits_lt c b : hex_bits c = Some b -> (b < 16)%N.
Proof.
  unfold hex_bits. destruct (N.leb_spec 48 c), (N.leb_spec c 57), (N.leb_spec 97 c), (N.leb_spec c 102), (N.leb_spec 65 c), (N.leb_spec c 70);
    cbn [andb]; intros E; try discriminate; injection E as <-; lia.
Qed.

Lemma valid_cons c s : valid (c :: s) -> (exists b, hex_bits c = Some b /\ digit c = Some (Z.of_N b)) /\ valid s.
Proof.
  intros H. split; [|intros x Hx; apply H; now right]. specialize (H c (or_introl eq_refl)). rewrite digit_bits in *.
  destruct (hex_bits c) as [b|]; [|now destruct H]. exists b. split; reflexivity.
Qed.
Lemma valid_app_l a b : valid (a ++ b) -> valid a.
Proof. intros H c Hc. apply H. apply in_app_iff. auto. Qed.
Lemma valid_app_r a b : valid (a ++ b) -> valid b.
Proof. intros H c Hc. apply H. apply in_app_iff. auto. Qed.
Lemma valid_firstn n s : valid s -> valid (firstn n s).
Proof. rewrite <- (firstn_skipn n s) at 1. apply valid_app_l. Qed.
Lemma valid_skipn n s : valid s -> valid (skipn n s).
Proof. rewrite <- (firstn_skipn n s) at 1. apply valid_app_r. Qed.

Lemma digits_valid s : forall acc x, digits acc s = Some x -> valid s.
Proof.
  induction s as [|c s IH]; intros acc x E y Hy; [destruct Hy|]. cbn [digits] in E.
  destruct (digit c) eqn:D; [|discriminate]. destruct Hy as [<-|Hy]; [congruence|]. now apply (IH _ _ E).
Qed.

Definition p16 (n : nat) : Z := 16 ^ Z.of_nat n.
Lemma p16_S n : p16 (S n) = 16 * p16 n.
Proof. unfold p16. rewrite Nat2Z.inj_succ, Z.pow_succ_r by lia. reflexivity. Qed.
Lemma p16_pos n : 0 < p16 n.
Proof. apply Z.pow_pos_nonneg; lia. Qed.
Lemma p16_add n m : p16 (n + m) = p16 n * p16 m.
Proof. unfold p16. rewrite Nat2Z.inj_add, Z.pow_add_r by lia. reflexivity. Qed.
Lemma p16_pw n : p16 (16 * n) = pw n.
Proof. rewrite pw_two. unfold p16. change 16 with (2 ^ 4) at 1. rewrite <- Z.pow_mul_r by lia. f_equal. lia. Qed.

Lemma digits_acc s : valid s -> forall acc, digits acc s = Some (acc * p16 (length s) + num s) /\ 0 <= num s < p16 (length s).
Proof.
  unfold num. induction s as [|c s IH]; intros V acc; cbn [digits length].
  - change (p16 0) with 1. split; [f_equal|]; lia.
  - apply valid_cons in V. destruct V as [(b & Hb & Hd) V]. rewrite Hd. specialize (IH V). rewrite p16_S.
    destruct (IH (16 * acc + Z.of_N b)) as [E R]. destruct (IH (16 * 0 + Z.of_N b)) as [E0 _].
    rewrite E, E0. apply hex_bits_lt in Hb. split; [f_equal; nia|]. nia.
Qed.

Lemma num_bound s : valid s -> 0 <= num s < p16 (length s).
Proof. intros V. apply (digits_acc s V 0). Qed.
Lemma digits_num s acc : valid s -> digits acc s = Some (acc * p16 (length s) + num s).
Proof. intros V. apply (digits_acc s V acc). Qed.
Lemma num_cons c b s : valid (c :: s) -> hex_bits c = Some b -> num (c :: s) = Z.of_N b * p16 (length s) + num s.
Proof.
  intros V Hb. unfold num at 1. cbn [digits]. pose proof (digit_bits c) as D. rewrite Hb in D. cbn [option_map] in D. rewrite D.
  apply valid_cons in V. destruct V as [_ V]. rewrite (digits_num s _ V). lia.
Qed.
Lemma num_app a : forall b, valid (a ++ b) -> num (a ++ b) = num a * p16 (length b) + num b.
Proof.
  induction a as [|c a IH]; intros b V; cbn [app]; [reflexivity|].
  pose proof V as V'. cbn [app] in V. apply valid_cons in V. destruct V as [(x & Hx & _) V].
  rewrite (num_cons c x) by assumption. rewrite IH by assumption.
  rewrite (num_cons c x a); [|now apply valid_app_l in V'|assumption]. rewrite app_length, p16_add. ring.
Qed.

(** One component. *)
Lemma lor_low w b : (b < 16)%N -> N.lor (w * 16) b = (w * 16 + b)%N.
Proof.
  intros Hb. apply N.bits_inj. intros i. rewrite N.lor_spec. change 16%N with (2 ^ 4)%N in *.
  rewrite testbit_split by assumption. rewrite testbit_mul_pow2. destruct (N.ltb_spec i 4).
  - destruct (N.leb_spec 4 i); [lia|]. reflexivity.
  - destruct (N.leb_spec 4 i); [|lia]. rewrite (testbit_high b 4 i) by assumption. cbn [andb]. apply orb_false_r.
Qed.

Lemma lor_step w b k : (b < 16)%N -> N.lor (w * 2 ^ (4 * (k + 1))) (b * 2 ^ (4 * k)) = ((w * 16 + b) * 2 ^ (4 * k))%N.
Proof.
  intros Hb. replace (4 * (k + 1))%N with (4 + 4 * k)%N by lia. rewrite N.pow_add_r, N.mul_assoc. change (2 ^ 4)%N with 16%N.
  rewrite <- !N.shiftl_mul_pow2. rewrite <- N.shiftl_lor. now rewrite lor_low.
Qed.

Lemma parse_hex_ok n : forall s w, (n <= length s)%nat -> (n <= 16)%nat -> valid (firstn n s) -> (w < 2 ^ (64 - 4 * N.of_nat n))%N ->
  parse_hex s n (w * 2 ^ (4 * N.of_nat n)) = Some (Z.to_N (Z.of_N w * p16 n + num (firstn n s))).
Proof.
  induction n as [|n IH]; intros s w Hn H16 V Hw; cbn [parse_hex].
  - cbn [firstn]. change (p16 0) with 1. change (num []) with 0. f_equal. cbn [N.of_nat]. rewrite N.mul_0_r, N.pow_0_r. clear.
    lia.
  - destruct s as [|c s]; [cbn in Hn; lia|]. cbn [firstn length] in *.
    pose proof V as V'. apply valid_cons in V. destruct V as [(b & Hb & _) V]. rewrite Hb. pose proof (hex_bits_lt _ _ Hb) as Hb16.
    replace (N.of_nat (S n)) with (N.of_nat n + 1)%N in * by lia.
    assert (Hsh : wshl 64 b (N.of_nat n * 4) = (b * 2 ^ (4 * N.of_nat n))%N).
    { unfold wshl. rewrite (N.mul_comm (N.of_nat n)). apply N.mod_small.
      apply N.lt_le_trans with (16 * 2 ^ (4 * N.of_nat n))%N; [apply N.mul_lt_mono_pos_r; [apply pow2_pos|assumption]|].
      change 16%N with (2 ^ 4)%N. rewrite <- N.pow_add_r. apply N.pow_le_mono_r; lia. }
    rewrite Hsh, lor_step by assumption. rewrite IH; try assumption; try lia.
    + do 2 f_equal. rewrite (num_cons c b) by assumption. rewrite firstn_length, Nat.min_l, p16_S by lia. lia.
    + replace (64 - 4 * N.of_nat n)%N with (64 - 4 * (N.of_nat n + 1) + 4)%N by lia. rewrite N.pow_add_r. change (2 ^ 4)%N with 16%N. lia.
Qed.

Lemma parse_hex_0 n s : (n <= length s)%nat -> (n <= 16)%nat -> valid (firstn n s) -> parse_hex s n 0 = Some (Z.to_N (num (firstn n s))).
Proof.
  intros H1 H2 V. pose proof (parse_hex_ok n s 0%N H1 H2 V) as H. rewrite N.mul_0_l in H. rewrite H; [|apply pow2_pos].
  do 2 f_equal.
Qed.

(** All components. *)
Fixpoint chunks (n : nat) (s : list N) : list N :=
  match n with O => [] | S n => Z.to_N (num (firstn 16 s)) :: chunks n (skipn 16 s) end.
Lemma chunks_length n : forall s, length (chunks n s) = n.
Proof. induction n; intros s; cbn [chunks length]; congruence. Qed.

Lemma chunk_small s : valid s -> Z.of_N (Z.to_N (num (firstn 16 s))) < B.
Proof.
  intros V. pose proof (num_bound _ (valid_firstn 16 _ V)) as H. rewrite firstn_length in H.
  assert (p16 (Nat.min 16 (length s)) <= p16 16) by (unfold p16; apply Z.pow_le_mono_r; lia).
  change (p16 16) with 18446744073709551616 in *. rewrite B_val. lia.
Qed.

Lemma chunks_ok n : forall s, length s = (16 * n)%nat -> valid s -> small (chunks n s) /\ magnitude (rev (chunks n s)) = num s.
Proof.
  induction n as [|n IH]; intros s L V.
  - destruct s; [|cbn in L; lia]. split; [apply small_nil|reflexivity].
  - cbn [chunks rev]. destruct (IH (skipn 16 s)) as [S1 M1]; [rewrite skipn_length; lia|now apply valid_skipn|].
    split; [apply small_cons; [now apply chunk_small|assumption]|].
    rewrite mag_app, M1, rev_length, chunks_length. cbn [magnitude].
    rewrite <- (firstn_skipn 16 s) at 3. rewrite num_app by (now rewrite firstn_skipn).
    rewrite skipn_length. replace (length s - 16)%nat with (16 * n)%nat by lia. rewrite p16_pw.
    pose proof (num_bound _ (valid_firstn 16 _ V)). rewrite Z2N.id by lia. ring.
Qed.

Lemma parse_rest_ok n : forall s l, length s = (16 * n)%nat -> valid s -> (n <= length l)%nat ->
  parse_rest n s (n - 1) l = Some (rev (chunks n s) ++ skipn n l).
Proof.
  induction n as [|n IH]; intros s l L V Hl; [reflexivity|].
  cbn [parse_rest]. rewrite parse_hex_0 by (try apply valid_firstn; auto; lia).
  replace (Datatypes.S n - 1)%nat with n by lia. unfold replace. destruct (Nat.ltb_spec n (length l)); [|lia].
  rewrite IH; [|rewrite skipn_length; lia|now apply valid_skipn|rewrite upd_length; lia].
  cbn [chunks rev]. rewrite <- app_assoc. do 2 f_equal. rewrite upd_overwrite by assumption. unfold overwrite.
  rewrite skipn_app, firstn_length, Nat.min_l by lia. rewrite skipn_all2 by (rewrite firstn_length; lia).
  rewrite Nat.sub_diag. cbn [skipn app length]. now rewrite Nat.add_1_r.
Qed.

Lemma remove_last_zero n : remove_one (repeat 0%N (S n)) n = Some (repeat 0%N n).
Proof.
  unfold remove_one. rewrite repeat_length. destruct (Nat.ltb_spec n (S n)); [|lia]. f_equal. unfold remove_at.
  replace (S n) with (n + 1)%nat by lia. rewrite repeat_app. rewrite firstn_app, skipn_app, !repeat_length.
  rewrite firstn_all2 by (rewrite repeat_length; lia). rewrite Nat.sub_diag. cbn [firstn]. rewrite skipn_all2 by (rewrite repeat_length; lia).
  replace (n + 1 - n)%nat with 1%nat by lia. cbn [repeat skipn]. now rewrite !app_nil_r.
Qed.

Lemma parse_zero_ok n : forall s, length s = (16 * n)%nat -> valid s ->
  exists l nz, parse_zero n s (n - 1) (repeat 0%N n) = Some (l, nz) /\ small l /\ magnitude l = num s /\
    if nz : bool then sized l /\ num s <> 0 else l = [].
Proof.
  induction n as [|n IH]; intros s L V.
  - destruct s; [|cbn in L; lia]. exists [], false. repeat split. apply small_nil.
  - cbn [parse_zero]. rewrite parse_hex_0 by (try apply valid_firstn; auto; lia).
    pose proof (num_bound _ (valid_firstn 16 _ V)) as Hb.
    assert (Hlen : length (skipn 16 s) = (16 * n)%nat) by (rewrite skipn_length; lia).
    assert (Hnum : num s = num (firstn 16 s) * pw n + num (skipn 16 s)).
    { rewrite <- (firstn_skipn 16 s) at 1. rewrite num_app by (now rewrite firstn_skipn). now rewrite Hlen, p16_pw. }
    pose proof (num_bound _ (valid_skipn 16 _ V)) as Hr. rewrite Hlen, p16_pw in Hr.
    replace (Datatypes.S n - 1)%nat with n by lia.
    destruct (N.eqb_spec (Z.to_N (num (firstn 16 s))) 0) as [Z|Z].
    + rewrite remove_last_zero. destruct (IH _ Hlen (valid_skipn 16 _ V)) as (l & nz & E & S1 & M1 & C). exists l, nz.
      assert (H0 : num (firstn 16 s) = 0) by lia. rewrite Hnum, H0. cbn [Z.mul Z.add]. auto.
    + unfold replace. rewrite repeat_length. destruct (Nat.ltb_spec n (S n)); [|lia].
      rewrite parse_rest_ok by (rewrite ?upd_length, ?repeat_length; auto using valid_skipn).
      set (x := Z.to_N (num (firstn 16 s))) in *.
      assert (El : skipn n (upd (repeat 0%N (S n)) n x) = [x]).
      { rewrite upd_overwrite by (rewrite repeat_length; lia). unfold overwrite. rewrite skipn_app, firstn_length, repeat_length, Nat.min_l by lia.
        rewrite skipn_all2 by (rewrite firstn_length, repeat_length; lia). rewrite Nat.sub_diag. cbn [skipn app length].
        rewrite Nat.add_1_r, skipn_all2 by (rewrite repeat_length; lia). reflexivity. }
      rewrite El. destruct (chunks_ok n _ Hlen (valid_skipn 16 _ V)) as [S1 M1].
      assert (Sx : small (rev (chunks n (skipn 16 s)) ++ [x])).
      { apply small_app; [now apply small_rev|]. apply single_small. now apply chunk_small. }
      assert (Mx : magnitude (rev (chunks n (skipn 16 s)) ++ [x]) = num s).
      { rewrite mag_app, M1, rev_length, chunks_length, Hnum. cbn [magnitude]. subst x. rewrite Z2N.id by lia. ring. }
      eexists _, true. split; [reflexivity|]. split; [exact Sx|]. split; [exact Mx|].
      pose proof (pw_pos n) as Hp. assert (1 <= num (firstn 16 s)) by lia. split.
      * apply sized_intro; [exact Sx|rewrite app_length; cbn [length]; lia|]. right. rewrite Mx, app_length, rev_length, chunks_length.
        cbn [length]. replace (n + 1 - 1)%nat with n by lia. nia.
      * nia.
Qed.

Lemma canonical_zero : canonical (mkBig false [0%N]).
Proof. apply create_ok. Qed.

Lemma parse_digits_ok sg s : s <> [] -> valid s ->
  exists r, parse_digits sg s = Some r /\ value r = (if sg then - num s else num s) /\ canonical r.
Proof.
  intros Hs V. unfold parse_digits.
  set (count := Nat.div (length s) 16). set (left := Nat.modulo (length s) 16).
  assert (HL : length s = (16 * count + left)%nat) by (apply Nat.div_mod_eq).
  assert (Hleft : (left < 16)%nat) by (apply Nat.mod_upper_bound; lia). clearbody count left.
  assert (Hlen : length (skipn left s) = (16 * count)%nat) by (rewrite skipn_length; lia).
  assert (Hf : (if (left =? 0)%nat then Some 0%N else parse_hex s left 0) = Some (Z.to_N (num (firstn left s)))).
  { destruct (Nat.eqb_spec left 0) as [->|]; [reflexivity|]. apply parse_hex_0; [lia|lia|now apply valid_firstn]. }
  rewrite Hf. pose proof (num_bound _ (valid_firstn left _ V)) as Hb. rewrite firstn_length, Nat.min_l in Hb by lia.
  assert (Hnum : num s = num (firstn left s) * pw count + num (skipn left s)).
  { rewrite <- (firstn_skipn left s) at 1. rewrite num_app by (now rewrite firstn_skipn). now rewrite Hlen, p16_pw. }
  pose proof (num_bound _ (valid_skipn left _ V)) as Hr.
  destruct (N.eqb_spec (Z.to_N (num (firstn left s))) 0) as [Z|Z].
  - destruct (parse_zero_ok count _ Hlen (valid_skipn left _ V)) as (l & nz & E & S1 & M1 & C). rewrite E.
    assert (H0 : num (firstn left s) = 0) by lia. rewrite H0 in Hnum. cbn [Z.mul Z.add] in Hnum.
    destruct nz.
    + eexists. split; [reflexivity|]. unfold value. cbn [sign limbs]. rewrite M1, <- Hnum. split; [reflexivity|].
      apply canonical_intro; [split; [exact S1|exact (proj1 C)]|]. unfold value. cbn [sign limbs]. destruct sg; lia.
    + subst l. cbn [magnitude] in M1. eexists. split; [reflexivity|]. rewrite Hnum, <- M1. split; [now destruct sg|apply canonical_zero].
  - assert (H1 : 1 <= num (firstn left s)) by lia.
    rewrite parse_rest_ok; auto using valid_skipn; [|rewrite app_length, repeat_length; lia].
    rewrite (skipn_app count (repeat 0%N count)), repeat_length, Nat.sub_diag, (skipn_all2 (repeat 0%N count)) by (rewrite repeat_length; lia). cbn [skipn app].
    destruct (chunks_ok count _ Hlen (valid_skipn left _ V)) as [S1 M1].
    set (x := Z.to_N (num (firstn left s))) in *.
    assert (Hx : Z.of_N x = num (firstn left s)) by (subst x; lia).
    assert (Sx : small (rev (chunks count (skipn left s)) ++ [x])).
    { apply small_app; [now apply small_rev|]. apply single_small. rewrite Hx.
      assert (p16 left <= p16 16) by (unfold p16; apply Z.pow_le_mono_r; lia). change (p16 16) with B in *. lia. }
    assert (Mx : magnitude (rev (chunks count (skipn left s)) ++ [x]) = num s).
    { rewrite mag_app, M1, rev_length, chunks_length, Hnum. cbn [magnitude]. rewrite Hx. ring. }
    pose proof (pw_pos count).
    eexists. split; [reflexivity|]. unfold value. cbn [sign limbs]. rewrite Mx. split; [reflexivity|].
    apply canonical_intro.
    + split; [exact Sx|]. apply sized_intro; cbn [limbs]; [exact Sx|rewrite app_length; cbn [length]; lia|].
      right. rewrite Mx, app_length, rev_length, chunks_length. cbn [length]. replace (count + 1 - 1)%nat with count by lia. nia.
    + unfold value. cbn [sign limbs]. rewrite Mx. destruct sg; nia.
Qed.

Lemma parse_ok s z : denotes s z -> exists r, set_string s = Some r /\ value r = z /\ canonical r.
Proof.
  intros (neg & cs & n & -> & Hne & Hd & ->).
  pose proof (digits_valid _ _ _ Hd) as V. assert (Hn : num cs = n) by (unfold num; now rewrite Hd). rewrite <- Hn.
  destruct (parse_digits_ok neg cs Hne V) as (r & E & R). exists r. split; [|exact R].
  destruct cs as [|c cs]; [congruence|]. unfold set_string, parse, literal. destruct neg; cbn [app]; exact E.
Qed.

(** Printing. *)
Lemma digit_hex d : (d < 16)%N -> digit (hex_chr d) = Some (Z.of_N d).
Proof.
  intros H. assert (E : forallb (fun d => match digit (hex_chr d) with Some x => x =? Z.of_N d | None => false end) (map N.of_nat (seq 0 16)) = true)
    by (vm_compute; reflexivity).
  rewrite forallb_forall in E. specialize (E d). cbv beta in E.
  assert (Hin : In d (map N.of_nat (seq 0 16))) by (apply in_map_iff; exists (N.to_nat d); split; [lia|apply in_seq; lia]).
  specialize (E Hin). destruct (digit (hex_chr d)); [|discriminate]. f_equal. lia.
Qed.

Lemma print_limb_ok n : forall v acc rest, 
  digits acc (print_limb n v ++ rest) = digits (acc * p16 n + Z.of_N v mod p16 n) rest.
Proof.
  induction n as [|n IH]; intros v acc rest.
  - cbn [print_limb app]. change (p16 0) with 1. rewrite Z.mod_1_r. f_equal. lia.
  - cbn [print_limb app digits]. change 15%N with (N.ones 4). rewrite N.land_ones. rewrite digit_hex by (apply N.mod_lt; discriminate).
    rewrite IH, p16_S. f_equal. rewrite N.shiftr_div_pow2, N2Z.inj_mod, N2Z.inj_div, N2Z.inj_pow.
    change (Z.of_N (2 ^ 4)) with 16. change (Z.of_N 2) with 2.
    replace (2 ^ Z.of_N (N.of_nat n * 4)) with (p16 n).
    2:{ unfold p16. change 16 with (2 ^ 4). rewrite <- Z.pow_mul_r by lia. f_equal. lia. }
    rewrite (Z.mul_comm 16 (p16 n)). pose proof (p16_pos n). rewrite (Z.rem_mul_r (Z.of_N v) (p16 n) 16) by lia. ring.
Qed.

Lemma print_all_ok l : forall acc, small l -> digits acc (flat_map (print_limb 16) l) = Some (acc * pw (length l) + magnitude (rev l)).
Proof.
  induction l as [|x l IH]; intros acc Hs.
  - cbn [flat_map digits length rev magnitude]. rewrite pw_0. f_equal. lia.
  - cbn [flat_map]. rewrite print_limb_ok, IH by (now apply small_tl in Hs). cbn [rev length]. rewrite mag_app, rev_length, pw_S. cbn [magnitude].
    change (p16 16) with B. pose proof (small_hd _ _ Hs). rewrite Z.mod_small by lia. f_equal. ring.
Qed.

Lemma print_ok b : normal b -> denotes (get_string b) (value b).
Proof.
  intros [Sb Zb]. exists (sign b), (flat_map (print_limb 16) (rev (limbs b))), (magnitude (limbs b)).
  split; [reflexivity|]. split.
  - pose proof (sized_len _ Zb) as L. rewrite <- (rev_length (limbs b)) in L. destruct (rev (limbs b)); [cbn in L; lia|]. discriminate.
  - split; [|reflexivity]. rewrite print_all_ok by (now apply small_rev). rewrite rev_involutive. f_equal.
Qed.

Lemma mag_inj a : forall b, small a -> small b -> length a = length b -> magnitude a = magnitude b -> a = b.
Proof.
  induction a as [|x a IH]; intros [|y b] Sa Sb L M; try discriminate; [reflexivity|].
  pose proof (small_hd _ _ Sa). pose proof (small_hd _ _ Sb). rewrite !mag_cons in M. rewrite B_val in *.
  assert (Z.of_N x = Z.of_N y) by lia. f_equal; [lia|]. apply IH; [eapply small_tl; eauto|eapply small_tl; eauto|now injection L|lia].
Qed.

Lemma canonical_unique a b : canonical a -> canonical b -> value a = value b -> a = b.
Proof.
  intros Ca Cb V. pose proof (canonical_sign _ Ca) as Ea. pose proof (canonical_sign _ Cb) as Eb. rewrite V, <- Eb in Ea.
  destruct Ca as [[Sa Za] _], Cb as [[Sb Zb] _].
  assert (M : magnitude (limbs a) = magnitude (limbs b)) by (rewrite <- !value_abs by assumption; now rewrite V).
  destruct a as [s1 l1], b as [s2 l2]. cbn [sign limbs] in *. subst s2. f_equal. apply mag_inj; auto.
  unfold sized in *. rewrite M in Za. cbn [limbs] in *. lia.
Qed.
