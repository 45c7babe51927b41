(** Proofs about the format specifiers. *)
From Coq Require Import Ascii List NArith Lia Bool PeanoNat.
From Verif Require Import Base Word BitTricksModel BitTricksSpec BitTricksProofs FormatModel FormatSpec.
Import ListNotations.
Open Scope char_scope.
Open Scope N_scope.

(** ** Characters *)

Lemma digit_iff c : is_digit c = true <-> a_digit c.
Proof.
  destruct c as [[] [] [] [] [] [] [] []]; vm_compute; split; intro H; try discriminate; try reflexivity;
    try (repeat (destruct H as [H|H]; [discriminate|]); destruct H);
    repeat (first [left; reflexivity | right]).
Qed.
Lemma flag_iff c : is_flag c = true <-> a_flag c.
Proof.
  unfold is_flag, a_flag. rewrite existsb_exists. split.
  - intros (x & Hx & E). apply Ascii.eqb_eq in E. subst. exact Hx.
  - intros H. exists c. split; [exact H|apply Ascii.eqb_refl].
Qed.
Lemma digit_cases c : a_digit c -> 48 <= N_of_ascii c <= 57.
Proof.
  intros H. apply digit_iff in H. unfold is_digit in H. apply andb_true_iff in H. destruct H.
  split; apply N.leb_le; assumption.
Qed.
Lemma digit_false c : ~ a_digit c -> is_digit c = false.
Proof. intros H. destruct (is_digit c) eqn:E; [|reflexivity]. apply digit_iff in E. contradiction. Qed.

Definition plain (c : ascii) : Prop := ~ a_flag c /\ ~ a_digit c /\ c <> "*" /\ c <> ".".

Lemma eqb_ne (c x : ascii) : c <> x -> Ascii.eqb c x = false.
Proof. intros H. apply Ascii.eqb_neq. exact H. Qed.

Lemma flag_of_none c i : ~ a_flag c -> flag_of c i = None.
Proof.
  intros H. unfold flag_of. destruct i.
  assert (forall x, In x ["-"; "+"; " "; "#"; "0"] -> Ascii.eqb c x = false) as K.
  { intros x Hx. apply eqb_ne. intros ->. apply H. exact Hx. }
  rewrite !K by (cbn [In]; tauto). reflexivity.
Qed.

(** ** The scanner *)

Definition flags_info (fs : list ascii) (i : info) : info :=
  let '(mkinfo lj sp sx al pz fl ow w wa op p pa ol le) := i in
  mkinfo (lj || has "-" fs) (sp || has "+" fs) (sx || has " " fs) (al || has "#" fs) (pz || has "0" fs)
    (fl || negb (Nat.eqb (length fs) 0)) ow w wa op p pa ol le.

Lemma has_cons c x l : has c (x :: l) = Ascii.eqb x c || has c l.
Proof.
  unfold has. destruct (in_dec ascii_dec c (x :: l)) as [H|H].
  - destruct H as [->|H]; [rewrite Ascii.eqb_refl; reflexivity|].
    destruct (in_dec ascii_dec c l); [|contradiction]. symmetry. apply orb_true_r.
  - destruct (in_dec ascii_dec c l) as [K|K]; [exfalso; apply H; right; exact K|].
    rewrite eqb_ne; [reflexivity|]. intros ->. apply H. left. reflexivity.
Qed.

Lemma scan_flags fs : forall i n r, Forall a_flag fs ->
  scan 0 i n (fs ++ r) = scan 0 (flags_info fs i) (n + length fs) r.
Proof.
  induction fs as [|c fs IH]; intros i n r H.
  - cbn [app length]. rewrite Nat.add_0_r. f_equal. destruct i. cbn. rewrite ?orb_false_r. reflexivity.
  - apply Forall_cons_iff in H. destruct H as [Hc H].
    cbn [app scan length].
    assert (exists i', flag_of c i = Some i' /\ flags_info fs i' = flags_info (c :: fs) i) as (i' & -> & Hi).
    { destruct i as [lj sp sx al pz fl ow w wa op p pa ol le]. unfold flags_info. rewrite !has_cons.
      cbn [length Nat.eqb negb]. rewrite orb_true_r.
      destruct Hc as [<-|[<-|[<-|[<-|[<-|[]]]]]]; cbn [flag_of Ascii.eqb Bool.eqb];
        (eexists; split; [reflexivity|]); cbn; rewrite ?orb_true_r; reflexivity. }
    rewrite IH by exact H. rewrite Hi. f_equal. lia.
Qed.

Definition width_info (v : N) (i : info) : info :=
  let '(mkinfo lj sp sx al pz fl ow w wa op p pa ol le) := i in
  mkinfo lj sp sx al pz fl true v wa op p pa ol le.
Definition prec_info (v : N) (i : info) : info :=
  let '(mkinfo lj sp sx al pz fl ow w wa op p pa ol le) := i in
  mkinfo lj sp sx al pz fl ow w wa op v pa ol le.

Lemma scan_width ds : forall i n r, Forall a_digit ds -> opt_width i = true ->
  scan 1 i n (ds ++ r) = scan 1 (width_info (decimal_from (width i) ds) i) (n + length ds) r.
Proof.
  induction ds as [|c ds IH]; intros i n r H Hw.
  - cbn [app length decimal_from]. rewrite Nat.add_0_r. f_equal. destruct i. cbn in *. subst. reflexivity.
  - apply Forall_cons_iff in H. destruct H as [Hc H].
    cbn [app scan length decimal_from]. rewrite (proj2 (digit_iff c) Hc).
    change (Nat.leb 1 1 && true) with true. cbn iota.
    rewrite IH; [|exact H|destruct i; reflexivity].
    rewrite <- Nat.add_succ_comm. f_equal.
    destruct i as [lj0 sp0 sx0 al0 pz0 fl0 ow0 w0 wa0 op0 p0 pa0 ol0 le0]. cbn [width_digit width width_info]. unfold digit. rewrite N.mul_comm. reflexivity.
Qed.

Lemma scan_prec ds : forall i n r, Forall a_digit ds -> opt_prec i = true ->
  scan 2 i n (ds ++ r) = scan 2 (prec_info (decimal_from (prec i) ds) i) (n + length ds) r.
Proof.
  induction ds as [|c ds IH]; intros i n r H Hw.
  - cbn [app length decimal_from]. rewrite Nat.add_0_r. f_equal. destruct i. reflexivity.
  - apply Forall_cons_iff in H. destruct H as [Hc H].
    cbn [app scan length decimal_from]. rewrite (proj2 (digit_iff c) Hc).
    assert (Ascii.eqb c "." = false) as ->.
    { apply eqb_ne. intros ->. apply digit_cases in Hc. vm_compute in Hc. destruct Hc as [Hc _]. apply Hc. reflexivity. }
    rewrite Hw. cbn [Nat.leb andb].
    rewrite IH; [|exact H|destruct i; exact Hw].
    rewrite <- Nat.add_succ_comm. f_equal.
    destruct i as [lj0 sp0 sx0 al0 pz0 fl0 ow0 w0 wa0 op0 p0 pa0 ol0 le0]. cbn [prec_digit prec prec_info]. unfold digit. rewrite N.mul_comm. reflexivity.
Qed.

Lemma scan_plain o i n c r : plain c ->
  scan o i n (c :: r) =
    if Ascii.eqb c "h" || Ascii.eqb c "l" then
      scan 3 (set_length ((length_mod i * 256 + N_of_ascii c) mod 2 ^ 32) i) (S n) r
    else if Ascii.eqb c "j" || Ascii.eqb c "z" || Ascii.eqb c "t" || Ascii.eqb c "L" then
      (S n, set_length (N_of_ascii c) i)
    else (n, i).
Proof.
  intros (Hf & Hd & Hs & Hp). cbn [scan].
  assert (match o with O => flag_of c i | _ => None end = None) as -> by (destruct o; [apply flag_of_none; exact Hf|reflexivity]).
  rewrite (digit_false c Hd), (eqb_ne c "*" Hs), (eqb_ne c "." Hp), !andb_false_r.
  assert (Ascii.eqb c "-" = false) as -> by (apply eqb_ne; intros ->; apply Hf; cbn; tauto).
  rewrite !andb_false_r. reflexivity.
Qed.

Definition length_info (l : list ascii) (i : info) : info :=
  let '(mkinfo lj sp sx al pz fl ow w wa op p pa ol le) := i in
  mkinfo lj sp sx al pz fl ow w wa op p pa (negb (Nat.eqb (length l) 0)) (packed l 0).

Definition conv_ok (c : ascii) : Prop :=
  plain c /\ ~ In c ["h"; "l"; "j"; "z"; "t"; "L"].

Lemma conv_end o i n c r : conv_ok c -> scan o i n (c :: r) = (n, i).
Proof.
  intros [Hp Hl]. rewrite scan_plain by exact Hp.
  assert (forall x, In x ["h"; "l"; "j"; "z"; "t"; "L"] -> Ascii.eqb c x = false) as K.
  { intros x Hx. apply eqb_ne. intros ->. apply Hl. exact Hx. }
  rewrite !K by (cbn [In]; tauto). reflexivity.
Qed.

Ltac plain_char := repeat split; try discriminate; intros HH; cbn in HH;
  repeat (destruct HH as [HH|HH]; [discriminate|]); destruct HH.
Lemma scan_length o i n l c r : In l length_modifiers -> conv_ok c ->
  opt_length i = false -> length_mod i = 0 ->
  scan o i n (l ++ c :: r) = (n + length l, length_info l i)%nat.
Proof.
  intros Hl Hc H1 H2. destruct i as [lj sp sx al pz fl ow w wa op p pa ol le]. cbn in H1, H2. subst ol le.
  destruct Hl as [<-|[<-|[<-|[<-|[<-|[<-|[<-|[<-|[<-|[]]]]]]]]]]; cbn [app length length_info].
  - rewrite conv_end by exact Hc. rewrite Nat.add_0_r. reflexivity.
  - rewrite scan_plain by plain_char. cbn -[scan N.modulo]. rewrite scan_plain by plain_char. cbn -[scan N.modulo].
    rewrite conv_end by exact Hc. f_equal. lia.
  - rewrite scan_plain by plain_char. cbn -[scan N.modulo]. rewrite conv_end by exact Hc. f_equal. lia.
  - rewrite scan_plain by plain_char. cbn -[scan N.modulo]. rewrite conv_end by exact Hc. f_equal. lia.
  - rewrite scan_plain by plain_char. cbn -[scan N.modulo]. rewrite scan_plain by plain_char. cbn -[scan N.modulo].
    rewrite conv_end by exact Hc. f_equal. lia.
  - rewrite scan_plain by plain_char. cbn -[scan N.modulo]. f_equal. lia.
  - rewrite scan_plain by plain_char. cbn -[scan N.modulo]. f_equal. lia.
  - rewrite scan_plain by plain_char. cbn -[scan N.modulo]. f_equal. lia.
  - rewrite scan_plain by plain_char. cbn -[scan N.modulo]. f_equal. lia.
Qed.

Lemma wf_conv_ok d : wf d -> conv_ok (d_conv d).
Proof.
  intros W. destruct (wf_conv d W) as (A & B & C). repeat split; try assumption.
  - intros E. apply C. rewrite E. cbn; tauto.
  - intros E. apply C. rewrite E. cbn; tauto.
  - intros E. apply C. cbn in E |- *. tauto.
Qed.

Definition the_info (d : directive) : info :=
  mkinfo (has "-" (d_flags d)) (has "+" (d_flags d)) (has " " (d_flags d)) (has "#" (d_flags d)) (has "0" (d_flags d))
    (negb (Nat.eqb (length (d_flags d)) 0))
    (match d_width d with Absent => false | _ => true end)
    (match d_width d with Number ds => decimal ds | _ => 0 end)
    (match d_width d with Star => true | _ => false end)
    (match d_prec d with Absent => false | _ => true end)
    (match d_prec d with Number ds => decimal ds | _ => 0 end)
    (match d_prec d with Star => true | _ => false end)
    (negb (Nat.eqb (length (d_length d)) 0)) (packed (d_length d) 0).

Lemma not_flag_of l : forall c, In c l -> (forall x, In x l -> is_flag x = false) -> ~ a_flag c.
Proof. intros c H K E. apply flag_iff in E. rewrite K in E by exact H. discriminate. Qed.
Lemma digit_not_flag c : a_digit c -> c <> "0" -> ~ a_flag c.
Proof.
  intros H Hne E. destruct E as [<-|[<-|[<-|[<-|[<-|[]]]]]]; try (apply digit_cases in H; vm_compute in H; destruct H as [H1 H2]; first [apply H1; reflexivity|apply H2; reflexivity]).
  apply Hne. reflexivity.
Qed.

(** The part after the width, from any of the first states *)
Lemma scan_rest o i n p l c r :
  match p with Number ds => Forall a_digit ds | _ => True end ->
  In l length_modifiers -> conv_ok c -> (o <= 2)%nat ->
  opt_prec i = false -> prec i = 0 -> prec_in_args i = false -> opt_length i = false -> length_mod i = 0 ->
  scan o i n (show_prec p ++ l ++ c :: r) =
    (n + length (show_prec p) + length l,
     length_info l
       (let '(mkinfo lj sp sx al pz fl ow w wa _ _ _ ol le) := i in
        mkinfo lj sp sx al pz fl ow w wa
          (match p with Absent => false | _ => true end)
          (match p with Number ds => decimal ds | _ => 0 end)
          (match p with Star => true | _ => false end) ol le))%nat.
Proof.
  intros Hp Hl Hc Ho H1 H2 H3 H4 H5.
  assert (forall s, scan o i n ("." :: s) = scan 2 (set_prec true i) (S n) s) as Dot.
  { intros s. cbn [scan].
    assert (match o with O => flag_of "." i | _ => None end = None) as ->
      by (destruct o; [apply flag_of_none; plain_char|reflexivity]).
    change (is_digit ".") with false. change (Ascii.eqb "." "*") with false. change (Ascii.eqb "." ".") with true.
    rewrite !andb_false_r. assert (Nat.leb o 2 = true) as -> by (apply Nat.leb_le; exact Ho). reflexivity. }
  destruct i as [lj sp sx al pz fl ow w wa op p0 pa ol le]. cbn in H1, H2, H3, H4, H5. subst.
  destruct p as [|ds|]; cbn [show_prec app length].
  - rewrite scan_length by (auto; reflexivity). rewrite Nat.add_0_r. reflexivity.
  - rewrite Dot. rewrite scan_prec; [|exact Hp|reflexivity].
    rewrite scan_length by (auto; reflexivity).
    f_equal. lia.
  - rewrite Dot. cbn [scan]. change (is_digit "*") with false. cbn.
    rewrite scan_length by (auto; reflexivity).
    f_equal. lia.
Qed.

Lemma scan_directive d n r : wf d ->
  scan 0 no_info n (options d ++ r) = (n + length (options d) - 1, the_info d)%nat.
Proof.
  intros W. pose proof (wf_conv_ok d W) as Hc. destruct W as [Wf Ww Wp Wl _].
  unfold options. rewrite <- !app_assoc. rewrite scan_flags by exact Wf.
  unfold the_info. destruct d as [fs w p l c]. cbn [d_flags d_width d_prec d_length d_conv] in *.
  cbn [app].
  assert (scan 0 (flags_info fs no_info) (n + length fs) (show_width w ++ show_prec p ++ l ++ c :: r) =
    scan (match w with Absent => 0 | Number _ => 1 | Star => 2 end)
      (let '(mkinfo lj sp sx al pz fl _ _ _ op p pa ol le) := flags_info fs no_info in
       mkinfo lj sp sx al pz fl (match w with Absent => false | _ => true end)
         (match w with Number ds => decimal ds | _ => 0 end) (match w with Star => true | _ => false end)
         op p pa ol le) (n + length fs + length (show_width w)) (show_prec p ++ l ++ c :: r))%nat as ->.
  { destruct w as [|ds|]; cbn [show_width app length].
    - rewrite Nat.add_0_r. reflexivity.
    - destruct Ww as (Wd & Wn & Wz). destruct ds as [|x ds]; [contradiction|].
      apply Forall_cons_iff in Wd. destruct Wd as [Wx Wd].
      cbn [app scan]. rewrite flag_of_none.
      2: { apply digit_not_flag; [exact Wx|]. intros ->. apply Wz. reflexivity. }
      rewrite (proj2 (digit_iff x) Wx). cbn [Nat.leb andb].
      rewrite scan_width; [|exact Wd|reflexivity]. cbn [length]. rewrite <- Nat.add_succ_comm.
      cbn [flags_info no_info width_digit width width_info]. unfold digit.
      change (decimal (x :: ds)) with (decimal_from (10 * 0 + (N_of_ascii x - 48)) ds).
      rewrite !N.mul_0_r, !N.mul_0_l. reflexivity.
    - cbn [scan]. rewrite flag_of_none by plain_char. change (is_digit "*") with false.
      change (Ascii.eqb "*" "*") with true. cbn [Nat.leb andb].
      f_equal. lia. }
  rewrite scan_rest; try assumption; try reflexivity; [|destruct w; lia].
  f_equal. rewrite !app_length. cbn [length]. lia.
Qed.

Lemma get_info_percent d r : wf d ->
  get_info (show d ++ r) = (length (options d), the_info d).
Proof.
  intros W. unfold show. cbn [app get_info]. change (Ascii.eqb "%" "%") with true. cbv iota.
  rewrite scan_directive by exact W. f_equal. lia.
Qed.

Lemma options_head d : wf d -> exists c r, options d = c :: r /\ c <> "%" /\ c <> "[".
Proof.
  intros W. destruct (wf_conv d W) as (_ & _ & C). destruct W as [Wf Ww Wp Wl _].
  destruct d as [fs w p l c]. cbn [d_flags d_width d_prec d_length d_conv] in *. unfold options.
  cbn [d_flags d_width d_prec d_length d_conv].
  destruct fs as [|x fs].
  - destruct w as [|ds|]; cbn [show_width app].
    + destruct p; cbn [show_prec app]; try (do 2 eexists; split; [reflexivity|split; discriminate]).
      destruct l as [|y l]; cbn [app].
      * do 2 eexists. split; [reflexivity|]. split; intros ->; apply C; cbn; tauto.
      * do 2 eexists. split; [reflexivity|]. cbn in Wl.
        repeat (destruct Wl as [Wl|Wl]; [try discriminate; injection Wl as <- <-; split; discriminate|]). destruct Wl.
    + destruct Ww as (Wd & Wn & _). destruct ds as [|x ds]; [contradiction|].
      apply Forall_cons_iff in Wd. destruct Wd as [Wx _]. cbn [app].
      do 2 eexists. split; [reflexivity|]. split; intros ->; apply digit_iff in Wx; discriminate.
    + do 2 eexists. split; [reflexivity|]. split; discriminate.
  - apply Forall_cons_iff in Wf. destruct Wf as [Wx _]. cbn [app].
    do 2 eexists. split; [reflexivity|]. split; intros ->; apply flag_iff in Wx; discriminate.
Qed.

Lemma options_length d : wf d -> (0 < length (options d))%nat.
Proof. intros W. destruct (options_head d W) as (c & r & E & _). rewrite E. cbn. lia. Qed.

Lemma get_info_bare d r : wf d ->
  get_info (options d ++ r) = (length (options d) - 1, the_info d)%nat.
Proof.
  intros W. destruct (options_head d W) as (c & s & E & Hc & _).
  rewrite E. cbn [app get_info]. rewrite eqb_ne by exact Hc.
  change (c :: s ++ r) with ((c :: s) ++ r). rewrite <- E. rewrite scan_directive by exact W. reflexivity.
Qed.

Lemma options_last d r : nth (length (options d) - 1) (options d ++ r) zero = d_conv d.
Proof.
  unfold options. rewrite !app_assoc. set (x := ((d_flags d ++ _) ++ _) ++ _).
  rewrite app_length. cbn [length]. rewrite <- app_assoc. cbn [app].
  rewrite app_nth2 by lia. replace (length x + 1 - 1 - length x)%nat with 0%nat by lia. reflexivity.
Qed.
Lemma show_last d r : wf d -> nth (length (options d)) (show d ++ r) zero = d_conv d.
Proof.
  intros W. pose proof (options_length d W). unfold show.
  replace (length (options d)) with (S (length (options d) - 1)) at 1 by lia. cbn [app nth]. apply options_last.
Qed.

Lemma the_info_describes d : describes d (the_info d).
Proof.
  constructor; try reflexivity.
  - unfold the_info; cbn. destruct (d_width d); repeat split.
  - unfold the_info; cbn. destruct (d_prec d); repeat split.
  - split; reflexivity.
Qed.

(** ** Binary *)

Lemma apply_app a b m : apply (a ++ b) m = apply b (apply a m).
Proof. apply fold_left_app. Qed.

Lemma apply_pad fuel : forall c n m, (N.to_nat n <= fuel)%nat ->
  apply (pad fuel c n) m = m ++ repeat c (N.to_nat n).
Proof.
  induction fuel as [|fuel IH]; intros c n m H; cbn [pad].
  - replace (N.to_nat n) with 0%nat by lia. symmetry. apply app_nil_r.
  - destruct (N.eqb_spec n 0) as [->|Hn]; [symmetry; apply app_nil_r|].
    set (k := if 20 <? n then 20 else n).
    assert (0 < k <= n) as Hk by (unfold k; destruct (N.ltb_spec 20 n); lia). clearbody k.
    cbn [apply fold_left apply_act]. change (fold_left apply_act ?l ?x) with (apply l x).
    rewrite IH by lia. rewrite <- app_assoc, <- repeat_app. do 2 f_equal. lia.
Qed.

Lemma bits_of_S c v : bits_of (S c) v = bit_char (N.testbit v (N.of_nat c)) :: bits_of c v.
Proof.
  unfold bits_of. cbn [seq map]. f_equal.
  - do 2 f_equal. lia.
  - rewrite <- seq_shift, map_map. apply map_ext. intros k. do 3 f_equal. lia.
Qed.
Lemma bits_of_length c v : length (bits_of c v) = c.
Proof. unfold bits_of. rewrite map_length, seq_length. reflexivity. Qed.
Lemma bits_of_skip k : forall h v, skipn k (bits_of (k + h) v) = bits_of h v.
Proof. induction k as [|k IH]; intros h v; [reflexivity|]. cbn [Nat.add]. rewrite bits_of_S. apply IH. Qed.

Lemma mod_step v c : v mod 2 ^ N.succ c = N.b2n (N.testbit v c) * 2 ^ c + v mod 2 ^ c.
Proof.
  rewrite N.pow_succ_r', (N.mul_comm 2), N.mod_mul_r; [|apply N.pow_nonzero; discriminate|discriminate].
  rewrite <- N.testbit_spec'. lia.
Qed.

Lemma binary_bits c : forall acc v, binary_from acc (bits_of c v) = Some (acc * 2 ^ N.of_nat c + v mod 2 ^ N.of_nat c).
Proof.
  induction c as [|c IH]; intros acc v.
  - cbn [bits_of seq map binary_from]. f_equal. change (N.of_nat 0) with 0. rewrite N.pow_0_r, N.mod_1_r. lia.
  - rewrite bits_of_S. rewrite Nat2N.inj_succ, mod_step.
    set (x := N.of_nat c) in *. set (y := v mod 2 ^ x) in *.
    rewrite N.pow_succ_r'.
    destruct (N.testbit v x); cbn [bit_char binary_from Ascii.eqb Bool.eqb N.b2n].
    + rewrite IH. subst y x. f_equal. set (z := 2 ^ N.of_nat c). set (q := v mod z). clearbody q z. lia.
    + rewrite IH. subst y x. f_equal. set (z := 2 ^ N.of_nat c). set (q := v mod z). clearbody q z. lia.
Qed.

Lemma popcount_ones k : (k <= 64)%nat -> popcount 64 (N.ones (N.of_nat k)) = N.of_nat k.
Proof.
  intros H. do 65 (destruct k as [|k]; [vm_compute; reflexivity|]). lia.
Qed.

Lemma size_le v w : v < 2 ^ w -> N.size v <= w.
Proof.
  intros H. destruct (N.eq_dec v 0) as [->|Hv]; [cbn; lia|].
  rewrite N.size_log2 by exact Hv. apply N.le_succ_l. apply N.log2_lt_pow2; [lia|exact H].
Qed.
Lemma highest_index v : v < 2 ^ 64 -> count_set (mask_for_value (highest_set v)) = N.size v.
Proof.
  intros H. destruct (N.eq_dec v 0) as [->|Hv]; [vm_compute; reflexivity|].
  pose proof (highest_spec v ltac:(lia) H) as (k & E & Hk1 & Hk2).
  assert (N.log2 v = k) as Hlog.
  { pose proof (N.bit_log2 v Hv) as B. destruct (N.lt_trichotomy (N.log2 v) k) as [L|[L|L]]; [|exact L|].
    - rewrite N.bits_above_log2 in Hk1 by exact L. discriminate.
    - rewrite Hk2 in B by exact L. discriminate. }
  rewrite E, <- Hlog. clear k E Hk1 Hk2 Hlog.
  assert (N.log2 v < 64) as L by (apply N.log2_lt_pow2; [lia|exact H]).
  assert (2 ^ N.log2 v < 2 ^ 64) as P by (apply N.pow_lt_mono_r; [lia|exact L]).
  rewrite mask_eq by exact P.
  assert (N.size (2 ^ N.log2 v) = N.size v) as ->.
  { rewrite !N.size_log2 by (try exact Hv; apply N.pow_nonzero; discriminate). rewrite N.log2_pow2 by lia. reflexivity. }
  pose proof (size_le v 64 H) as S64.
  rewrite count_set_spec.
  - rewrite <- (N2Nat.id (N.size v)) at 1. rewrite popcount_ones by lia. apply N2Nat.id.
  - rewrite ones_pred. assert (2 ^ N.size v <= 2 ^ 64) by (apply N.pow_le_mono_r; [lia|exact S64]).
    pose proof (pow2_pos (N.size v)). lia.
Qed.

Lemma size_pos_bit v : v <> 0 -> exists k, N.to_nat (N.size v) = S k /\ N.testbit v (N.of_nat k) = true.
Proof.
  intros H. exists (N.to_nat (N.log2 v)). rewrite N.size_log2 by exact H. split; [lia|].
  rewrite N2Nat.id. apply N.bit_log2. exact H.
Qed.
Lemma lt_size v : v < 2 ^ N.size v.
Proof. apply N.size_gt. Qed.

(** Which digits are shown *)
Lemma shown_ok i bits v : (1 <= bits <= 64)%nat -> v < 2 ^ 64 ->
  (alt_form i = true -> v < 2 ^ N.of_nat bits) ->
  exists f, shown_bits i bits v = Some f /\ digits_of (alt_form i) bits v f.
Proof.
  intros Hb Hv Ha. unfold shown_bits. destruct (alt_form i).
  - specialize (Ha eq_refl). rewrite highest_index by exact Hv.
    destruct (N.eq_dec v 0) as [->|Hne].
    + cbn [N.size N.to_nat Nat.eqb]. eexists. split; [reflexivity|].
      destruct bits as [|b]; [lia|]. rewrite bits_of_S, N.bits_0. cbn [firstn bit_char].
      split; [|left; reflexivity]. cbn [binary_from Ascii.eqb Bool.eqb]. rewrite N.mod_0_l; [reflexivity|].
      apply N.pow_nonzero. discriminate.
    + destruct (size_pos_bit v Hne) as (k & E & Bk).
      pose proof (size_le v (N.of_nat bits) Ha) as Hs.
      rewrite E in *. cbn [Nat.eqb].
      assert (Nat.leb (S k) bits = true) as -> by (apply Nat.leb_le; lia).
      eexists. split; [reflexivity|].
      assert (skipn (bits - S k) (bits_of bits v) = bits_of (S k) v) as ->.
      { pose proof (bits_of_skip (bits - S k) (S k) v) as Sk.
        replace (bits - S k + S k)%nat with bits in Sk by lia. exact Sk. }
      rewrite firstn_all2 by (rewrite bits_of_length; lia).
      split.
      * rewrite binary_bits. f_equal. rewrite N.mul_0_l, N.add_0_l.
        rewrite !N.mod_small; [reflexivity|exact Ha|].
        replace (N.of_nat (S k)) with (N.size v) by lia. apply lt_size.
      * right. rewrite bits_of_S, Bk. reflexivity.
  - eexists. split; [reflexivity|]. split; [rewrite binary_bits; f_equal; lia|apply bits_of_length].
Qed.

Lemma shown_bad i bits v : (bits < 64)%nat -> alt_form i = true -> 2 ^ N.of_nat bits <= v -> v < 2 ^ 64 ->
  shown_bits i bits v = None.
Proof.
  intros Hb Ha H1 H2. unfold shown_bits. rewrite Ha, highest_index by exact H2.
  assert (N.of_nat bits < N.size v) as L.
  { destruct (N.lt_ge_cases (N.of_nat bits) (N.size v)) as [L|L]; [exact L|exfalso].
    pose proof (lt_size v). assert (2 ^ N.size v <= 2 ^ N.of_nat bits) by (apply N.pow_le_mono_r; lia). lia. }
  assert (Nat.eqb (N.to_nat (N.size v)) 0 = false) as -> by (apply Nat.eqb_neq; lia).
  assert (Nat.leb (N.to_nat (N.size v)) bits = false) as -> by (apply Nat.leb_gt; lia).
  reflexivity.
Qed.

Lemma to_size_small n : n < 2 ^ 31 -> to_size n = n.
Proof.
  intros H. unfold to_size. rewrite N.mod_small by (change (2 ^ 32) with 4294967296; change (2 ^ 31) with 2147483648 in H; lia).
  destruct (N.ltb_spec n (2 ^ 31)); [reflexivity|lia].
Qed.
Lemma to_size_big n : 2 ^ 31 <= n -> n < 2 ^ 32 -> to_size n = 2 ^ 64 - 2 ^ 32 + n.
Proof.
  intros H1 H2. unfold to_size. rewrite N.mod_small by exact H2.
  destruct (N.ltb_spec n (2 ^ 31)); [lia|reflexivity].
Qed.

(** What is written for some digits *)
Lemma write_ok i f m w p :
  (if opt_width i then Some (width i) else None) = w -> (if opt_prec i then Some (prec i) else None) = p ->
  fits w -> fits p ->
  (pad_zeros i = true -> left_justified i = false -> w <> None -> p = None) ->
  apply (write_bits i f) m =
  m ++ (let body := repeat "0" (filled p (length f)) ++ f in
        let fill := filled w (length body) in
        if left_justified i then body ++ repeat " " fill
        else repeat (if pad_zeros i && match p with None => true | _ => false end then "0" else " ") fill ++ body).
Proof.
  intros Ew Ep Fw Fp Z. unfold write_bits. rewrite !apply_app.
  set (len := N.of_nat (length f)).
  set (after := if opt_prec i && (len <? to_size (prec i)) then len + (to_size (prec i) - len) else len).
  assert (N.to_nat after = length (repeat "0" (filled p (length f)) ++ f)) as Hafter.
  { unfold after. rewrite app_length, repeat_length. destruct (opt_prec i); cbn [andb]; subst p; cbn [filled fits] in *.
    - rewrite to_size_small by exact Fp. destruct (N.ltb_spec len (prec i)); unfold len in *; lia.
    - unfold len. lia. }
  assert (forall m, apply (if opt_prec i && (len <? to_size (prec i)) then pad (N.to_nat (to_size (prec i))) "0" (to_size (prec i) - len) else []) m
    = m ++ repeat "0" (filled p (length f))) as Hp.
  { intros m0. destruct (opt_prec i); cbn [andb]; subst p; cbn [filled fits] in *.
    - rewrite to_size_small by exact Fp. destruct (N.ltb_spec len (prec i)) as [L|L].
      + rewrite apply_pad by lia. do 2 f_equal. unfold len. lia.
      + replace (N.to_nat (prec i) - length f)%nat with 0%nat by (unfold len in L; lia). symmetry. apply app_nil_r.
    - symmetry. apply app_nil_r. }
  rewrite Hp. clear Hp.
  set (body := repeat "0" (filled p (length f)) ++ f) in *. cbv zeta.
  set (fill := filled w (length body)).
  assert (forall c m, apply (if opt_width i && (after <? to_size (width i)) then pad (N.to_nat (to_size (width i))) c (to_size (width i) - after) else []) m
    = m ++ repeat c fill) as Hw.
  { intros c m0. unfold fill. destruct (opt_width i); cbn [andb]; subst w; cbn [filled fits] in *.
    - rewrite to_size_small by exact Fw. destruct (N.ltb_spec after (width i)) as [L|L].
      + rewrite apply_pad by lia. do 2 f_equal. lia.
      + replace (N.to_nat (width i) - length body)%nat with 0%nat by lia. symmetry. apply app_nil_r.
    - symmetry. apply app_nil_r. }
  destruct (left_justified i); cbn [negb andb].
  - rewrite Hw. cbn [apply fold_left apply_act]. unfold body. rewrite <- !app_assoc. reflexivity.
  - rewrite Hw. cbn [apply fold_left apply_act].
    assert (repeat (if pad_zeros i then "0" else " ") fill =
            repeat (if pad_zeros i && match p with None => true | _ => false end then "0" else " ") fill) as ->.
    { destruct (pad_zeros i); cbn [andb]; [|reflexivity].
      destruct w; [|unfold fill; reflexivity].
      rewrite (Z eq_refl eq_refl) by discriminate. reflexivity. }
    unfold body. rewrite <- !app_assoc. reflexivity.
Qed.

Lemma length_cases l bits : In l length_modifiers -> bits_in l = Some bits ->
  bit_count (packed l 0) = bits /\ is_long (packed l 0) = Nat.eqb bits 64 /\ (1 <= bits <= 64)%nat.
Proof.
  intros H E.
  repeat (destruct H as [<-|H]; [vm_compute in E; first [discriminate | injection E as <-; vm_compute; repeat split; lia]|]).
  destruct H.
Qed.

Lemma arg_lt bits v : v < 2 ^ arg_bits bits -> v < 2 ^ 64.
Proof.
  unfold arg_bits. destruct (Nat.eqb bits 64); [auto|]. intros H.
  assert (2 ^ 32 < 2 ^ 64) by (vm_compute; reflexivity). lia.
Qed.

(** The arguments taken by a width and a precision *)
Definition with_both (w p : option N) (i : info) : info :=
  let '(mkinfo lj sp sx al pz fl ow w0 wa op p0 pa ol le) := i in
  mkinfo lj sp sx al pz fl ow (match w with Some n => n | None => w0 end) wa op
    (match p with Some n => n | None => p0 end) pa ol le.

Lemma taken d wa w pa p a :
  resolved (d_width d) wa w -> resolved (d_prec d) pa p ->
  exists a', take_width (the_info d) (wa ++ pa ++ a) = Some (with_both w None (the_info d), a') /\
    take_prec (with_both w None (the_info d)) a' = Some (with_both w p (the_info d), a).
Proof.
  intros Hw Hp. exists (pa ++ a). destruct d as [fs dw dp l c]. cbn [d_width d_prec] in *.
  split.
  - unfold take_width, the_info. cbn [d_flags d_width d_prec d_length d_conv opt_width width_in_args with_both].
    destruct Hw; reflexivity.
  - unfold take_prec, the_info. cbn [d_flags d_width d_prec d_length d_conv opt_prec prec_in_args with_both].
    destruct Hp; reflexivity.
Qed.

Lemma next_value bits v a :
  (if Nat.eqb bits 64 then next_long (value_arg bits v :: a) else next_int (value_arg bits v :: a)) = Some (v, a).
Proof. unfold value_arg. destruct (Nat.eqb bits 64); reflexivity. Qed.

Lemma binary_run d r a m wa w pa p bits v :
  wf d -> d_conv d = "B" -> resolved (d_width d) wa w -> resolved (d_prec d) pa p ->
  bits_in (d_length d) = Some bits ->
  binary (show d ++ r) (wa ++ pa ++ value_arg bits v :: a) m =
  match shown_bits (with_both w p (the_info d)) bits v with
  | None => None
  | Some f => Some (length (show d), a, write_bits (with_both w p (the_info d)) f)
  end.
Proof.
  intros W Hc Hw Hp Hb. unfold binary. rewrite get_info_percent by exact W.
  rewrite show_last by exact W. rewrite Hc. change (Ascii.eqb "B" "B") with true. cbv iota.
  destruct (taken d wa w pa p (value_arg bits v :: a) Hw Hp) as (a' & -> & ->).
  destruct (length_cases _ _ (wf_length d W) Hb) as (E1 & E2 & _).
  replace (length_mod (with_both w p (the_info d))) with (packed (d_length d) 0) by reflexivity.
  rewrite E1, E2, next_value. reflexivity.
Qed.

Lemma both_width d wa w pa p : resolved (d_width d) wa w -> resolved (d_prec d) pa p ->
  (if opt_width (with_both w p (the_info d)) then Some (width (with_both w p (the_info d))) else None) = w /\
  (if opt_prec (with_both w p (the_info d)) then Some (prec (with_both w p (the_info d))) else None) = p.
Proof.
  intros Hw Hp. destruct d as [fs dw dp l c]. cbn [d_width d_prec] in *.
  split; [destruct Hw|destruct Hp]; reflexivity.
Qed.

Lemma binary_ok d r a m wa w pa p bits v :
  wf d -> d_conv d = "B" -> resolved (d_width d) wa w -> resolved (d_prec d) pa p -> fits w -> fits p ->
  bits_in (d_length d) = Some bits -> v < 2 ^ arg_bits bits ->
  (In "#" (d_flags d) -> v < 2 ^ N.of_nat bits) ->
  (In "0" (d_flags d) -> In "-" (d_flags d) \/ w = None \/ p = None) ->
  exists ds acts, binary (show d ++ r) (wa ++ pa ++ value_arg bits v :: a) m = Some (length (show d), a, acts) /\
    digits_of (has "#" (d_flags d)) bits v ds /\
    forall m, apply acts m = m ++ laid_out (d_flags d) w p ds.
Proof.
  intros W Hc Hw Hp Fw Fp Hb Hv Ha Hz.
  rewrite (binary_run d r a m wa w pa p bits v) by assumption.
  destruct (length_cases _ _ (wf_length d W) Hb) as (_ & _ & Hbits).
  destruct (shown_ok (with_both w p (the_info d)) bits v Hbits (arg_lt _ _ Hv)) as (f & -> & Hf).
  { change (alt_form (with_both w p (the_info d))) with (has "#" (d_flags d)). unfold has.
    destruct (in_dec ascii_dec "#" (d_flags d)) as [I|I]; [|discriminate]. intros _. exact (Ha I). }
  exists f. eexists. split; [reflexivity|]. split; [exact Hf|]. intros m0.
  destruct (both_width d wa w pa p Hw Hp) as [B1 B2].
  rewrite (write_ok _ f m0 w p B1 B2 Fw Fp).
  - reflexivity.
  - change (pad_zeros (with_both w p (the_info d))) with (has "0" (d_flags d)).
    change (left_justified (with_both w p (the_info d))) with (has "-" (d_flags d)).
    unfold has. intros Z L Nw. destruct (in_dec ascii_dec "0" (d_flags d)) as [I|I]; [|discriminate].
    destruct (in_dec ascii_dec "-" (d_flags d)) as [J|J]; [discriminate|].
    destruct (Hz I) as [K|[K|K]]; [contradiction|contradiction|exact K].
Qed.

Lemma binary_narrow d r a m wa w pa p bits v :
  wf d -> d_conv d = "B" -> resolved (d_width d) wa w -> resolved (d_prec d) pa p ->
  bits_in (d_length d) = Some bits -> v < 2 ^ arg_bits bits ->
  In "#" (d_flags d) -> 2 ^ N.of_nat bits <= v ->
  binary (show d ++ r) (wa ++ pa ++ value_arg bits v :: a) m = None.
Proof.
  intros W Hc Hw Hp Hb Hv Ha Hlow.
  rewrite (binary_run d r a m wa w pa p bits v) by assumption.
  rewrite shown_bad; [reflexivity| | |exact Hlow|exact (arg_lt _ _ Hv)].
  - destruct (Nat.lt_ge_cases bits 64) as [L|L]; [exact L|exfalso].
    pose proof (arg_lt _ _ Hv). assert (2 ^ 64 <= 2 ^ N.of_nat bits) by (apply N.pow_le_mono_r; lia). lia.
  - change (has "#" (d_flags d) = true). unfold has. destruct (in_dec ascii_dec "#" (d_flags d)); [reflexivity|contradiction].
Qed.

(** A negative width is taken as a very large one. *)
Lemma write_neg i f m p :
  opt_width i = true -> 2 ^ 31 <= width i -> width i < 2 ^ 32 ->
  (if opt_prec i then Some (prec i) else None) = p -> fits p -> (length f <= 64)%nat ->
  N.of_nat (length (apply (write_bits i f) m)) = N.of_nat (length m) + (2 ^ 64 - (2 ^ 32 - width i)).
Proof.
  intros Ow W1 W2 Ep Fp Lf. unfold write_bits. rewrite !apply_app. rewrite Ow.
  set (len := N.of_nat (length f)).
  set (after := if opt_prec i && (len <? to_size (prec i)) then len + (to_size (prec i) - len) else len).
  rewrite to_size_big by assumption.
  assert (exists q, after = N.of_nat q + len /\ after <= 2 ^ 31 + 64 /\
    forall m, apply (if opt_prec i && (len <? to_size (prec i)) then pad (N.to_nat (to_size (prec i))) "0" (to_size (prec i) - len) else []) m
    = m ++ repeat "0" q) as (q & Hq & Hle & Hp).
  { unfold after, len. change (2 ^ 31) with 2147483648 in *.
    destruct (opt_prec i); cbn [andb]; subst p; cbn [fits] in Fp.
    - rewrite to_size_small by exact Fp. destruct (N.ltb_spec (N.of_nat (length f)) (prec i)).
      + exists (N.to_nat (prec i - N.of_nat (length f))). split; [lia|split; [lia|]].
        intros m0. apply apply_pad. lia.
      + exists 0%nat. split; [lia|split; [lia|]]. intros m0. symmetry. apply app_nil_r.
    - exists 0%nat. split; [lia|split; [lia|]]. intros m0. symmetry. apply app_nil_r. }
  rewrite Hp. clear Hp. clearbody after.
  change (2 ^ 31) with 2147483648 in *. change (2 ^ 32) with 4294967296 in *.
  change (2 ^ 64) with 18446744073709551616 in *.
  destruct (N.ltb_spec after (18446744073709551616 - 4294967296 + width i)) as [L|L]; [|lia].
  destruct (left_justified i); cbn [negb andb].
  - rewrite apply_pad by lia. cbn [apply fold_left apply_act]. rewrite !app_length, !repeat_length. lia.
  - rewrite apply_pad by lia. cbn [apply fold_left apply_act]. rewrite !app_length, !repeat_length. lia.
Qed.

Lemma shown_length i bits v f : (1 <= bits <= 64)%nat -> shown_bits i bits v = Some f -> (length f <= 64)%nat.
Proof.
  intros Hb E. pose (g := fun o : option (list ascii) => match o with Some l => length l | None => 0%nat end).
  change (length f) with (g (Some f)). rewrite <- E. clear E f.
  unfold shown_bits. destruct (alt_form i).
  - destruct (Nat.eqb _ 0).
    + unfold g. rewrite firstn_length, bits_of_length. lia.
    + destruct (Nat.leb _ bits) eqn:L; [|unfold g; lia]. unfold g. rewrite firstn_length, skipn_length, bits_of_length.
      apply Nat.leb_le in L. lia.
  - unfold g. rewrite bits_of_length. lia.
Qed.

Lemma binary_negative d r a m pa p n bits v :
  wf d -> d_conv d = "B" -> d_width d = Star -> resolved (d_prec d) pa p -> fits p ->
  2 ^ 31 <= n -> n < 2 ^ 32 ->
  bits_in (d_length d) = Some bits -> v < 2 ^ arg_bits bits ->
  (In "#" (d_flags d) -> v < 2 ^ N.of_nat bits) ->
  exists acts, binary (show d ++ r) (AInt n :: pa ++ value_arg bits v :: a) m = Some (length (show d), a, acts) /\
    forall m, N.of_nat (length (apply acts m)) = N.of_nat (length m) + (2 ^ 64 - (2 ^ 32 - n)).
Proof.
  intros W Hc Hw Hp Fp N1 N2 Hb Hv Ha.
  assert (resolved (d_width d) [AInt n] (Some n)) as Rw by (rewrite Hw; constructor).
  pose proof (binary_run d r a m [AInt n] (Some n) pa p bits v W Hc Rw Hp Hb) as E. cbn [app] in E. rewrite E.
  destruct (length_cases _ _ (wf_length d W) Hb) as (_ & _ & Hbits).
  destruct (shown_ok (with_both (Some n) p (the_info d)) bits v Hbits (arg_lt _ _ Hv)) as (f & Ef & Hf).
  { change (alt_form (with_both (Some n) p (the_info d))) with (has "#" (d_flags d)). unfold has.
    destruct (in_dec ascii_dec "#" (d_flags d)) as [I|I]; [|discriminate]. intros _. exact (Ha I). }
  rewrite Ef. eexists. split; [reflexivity|]. intros m0.
  destruct (both_width d _ _ pa p Rw Hp) as [B1 B2].
  rewrite (write_neg _ f m0 p); try assumption.
  - reflexivity.
  - destruct d as [fs dw dp l c]. cbn in Hw. subst dw. reflexivity.
  - exact (shown_length _ _ _ _ Hbits Ef).
Qed.

(** ** Deletion *)

Lemma starts_app p r : starts p (p ++ r) = true.
Proof. unfold starts. rewrite firstn_app_exact. destruct (list_eq_dec ascii_dec p p); [reflexivity|contradiction]. Qed.
Lemma starts_false p s : firstn (length p) s <> p -> starts p s = false.
Proof. unfold starts. intros H. destruct (list_eq_dec ascii_dec (firstn (length p) s) p); [contradiction|reflexivity]. Qed.

Lemma decimal_from_le ds : forall v, v <= decimal_from v ds.
Proof.
  induction ds as [|c ds IH]; intros v; [cbn; lia|]. cbn [decimal_from].
  specialize (IH (10 * v + (N_of_ascii c - 48))). lia.
Qed.

Lemma read_number_ok ds : forall v r, Forall a_digit ds -> decimal_from v ds < 2 ^ 64 ->
  (forall c, hd_error r = Some c -> ~ a_digit c) ->
  read_number v (ds ++ r) = (decimal_from v ds, r).
Proof.
  induction ds as [|c ds IH]; intros v r H B Hr.
  - cbn [app decimal_from]. destruct r as [|c r]; [reflexivity|]. cbn [read_number].
    rewrite digit_false by (apply Hr; reflexivity). reflexivity.
  - apply Forall_cons_iff in H. destruct H as [Hc H]. cbn [app read_number decimal_from] in *.
    rewrite (proj2 (digit_iff c) Hc).
    pose proof (decimal_from_le ds (10 * v + (N_of_ascii c - 48))) as L.
    unfold digit. rewrite (N.mul_comm v 10). rewrite N.mod_small by lia.
    apply IH; assumption.
Qed.

Lemma del_not_digit r c : hd_error (["D"; "E"; "L"] ++ r) = Some c -> ~ a_digit c.
Proof. intros [= <-] H. apply digit_iff in H. discriminate. Qed.

Lemma deletion_number ds r a m : Forall a_digit ds -> decimal ds < 2 ^ 64 ->
  deletion ("%" :: ds ++ ["D"; "E"; "L"] ++ r) a m =
  Some (1 + length ds + 3, a, [Remove (match ds with [] => 1 | _ => decimal ds end)])%nat.
Proof.
  intros H B. unfold deletion. change (Ascii.eqb "%" "%") with true. cbv iota.
  destruct ds as [|c ds].
  - cbn [app]. change (Ascii.eqb "D" "*") with false. change (is_digit "D") with false. cbv iota.
    change ("D" :: "E" :: "L" :: r) with (["D"; "E"; "L"] ++ r). rewrite starts_app.
    do 3 f_equal. cbn [length app]. lia.
  - apply Forall_cons_iff in H. destruct H as [Hc H]. cbn [app].
    assert (Ascii.eqb c "*" = false) as -> by (apply eqb_ne; intros ->; apply digit_iff in Hc; discriminate).
    rewrite (proj2 (digit_iff c) Hc).
    change ("D" :: "E" :: "L" :: r) with (["D"; "E"; "L"] ++ r).
    change (decimal (c :: ds)) with (decimal_from (digit c) ds) in *.
    rewrite read_number_ok; [|exact H|exact B|apply del_not_digit].
    rewrite starts_app. do 3 f_equal. cbn [length]. rewrite !app_length. cbn [length]. lia.
Qed.

Lemma deletion_star n r a m :
  deletion (["%"; "*"; "D"; "E"; "L"] ++ r) (ALong n :: a) m = Some (5%nat, a, [Remove n]).
Proof.
  cbn [app]. unfold deletion. change (Ascii.eqb "%" "%") with true. change (Ascii.eqb "*" "*") with true.
  cbv iota. cbn [next_long]. change ("D" :: "E" :: "L" :: r) with (["D"; "E"; "L"] ++ r). rewrite starts_app.
  do 3 f_equal. cbn [length app]. lia.
Qed.

(** ** The C library's grammar *)

Lemma span_app p l s : Forall (fun c => p c = true) l -> (forall c, hd_error s = Some c -> p c = false) ->
  span p (l ++ s) = (l, s).
Proof.
  intros H Hs. induction l as [|c l IH].
  - cbn [app]. destruct s as [|c s]; [reflexivity|]. cbn [span]. rewrite (Hs c eq_refl). reflexivity.
  - apply Forall_cons_iff in H. destruct H as [Hc H]. cbn [app span]. rewrite Hc, IH by exact H. reflexivity.
Qed.

Definition bare (c : ascii) : Prop := ~ a_flag c /\ ~ a_digit c /\ c <> "*".
Lemma mods_plain l x t : In l length_modifiers -> l = x :: t -> plain x.
Proof.
  intros H ->. cbn in H.
  repeat (destruct H as [H|H]; [try discriminate; injection H as <- <-; plain_char|]). destruct H.
Qed.
Lemma head_rest l c r x : In l length_modifiers -> conv_ok c -> hd_error (l ++ c :: r) = Some x -> plain x.
Proof.
  intros Hl Hc E. destruct l as [|y l]; cbn in E; injection E as <-; [exact (proj1 Hc)|].
  exact (mods_plain _ _ _ Hl eq_refl).
Qed.
Lemma head_prec p l c r x : In l length_modifiers -> conv_ok c ->
  hd_error (show_prec p ++ l ++ c :: r) = Some x -> bare x.
Proof.
  intros Hl Hc E. destruct p as [|ds|]; cbn [show_prec app] in E.
  - destruct (head_rest l c r x Hl Hc E) as (A & B & C & _). repeat split; assumption.
  - injection E as <-. plain_char.
  - injection E as <-. plain_char.
Qed.

Lemma forall_digit ds : Forall a_digit ds -> Forall (fun c => is_digit c = true) ds.
Proof. apply Forall_impl. intros c. apply digit_iff. Qed.

Lemma parse_length_ok l c r : In l length_modifiers -> conv_ok c -> parse_length (l ++ c :: r) = (l, c :: r).
Proof.
  intros Hl [Hp Hn].
  assert (forall x, In x ["h"; "l"; "j"; "z"; "t"; "L"] -> Ascii.eqb c x = false) as K.
  { intros x Hx. apply eqb_ne. intros ->. apply Hn. exact Hx. }
  destruct Hl as [<-|[<-|[<-|[<-|[<-|[<-|[<-|[<-|[<-|[]]]]]]]]]]; cbn [app]; unfold parse_length;
    cbn [Ascii.eqb Bool.eqb orb]; try reflexivity; rewrite ?K by (cbn [In]; tauto); reflexivity.
Qed.

Lemma parse_prec_ok p l c r : match p with Number ds => Forall a_digit ds | _ => True end ->
  In l length_modifiers -> conv_ok c ->
  parse_prec (show_prec p ++ l ++ c :: r) = (p, l ++ c :: r).
Proof.
  intros Hp Hl Hc. pose proof (head_rest l c r) as Hd. specialize (fun x => Hd x Hl Hc).
  set (s := l ++ c :: r) in *. clearbody s.
  destruct p as [|ds|]; cbn [show_prec app]; unfold parse_prec.
  - destruct s as [|x s]; [reflexivity|]. destruct (Hd x eq_refl) as (_ & _ & _ & Hx). rewrite eqb_ne by exact Hx. reflexivity.
  - change (Ascii.eqb "." ".") with true. cbv iota.
    assert (span is_digit (ds ++ s) = (ds, s)) as E.
    { apply span_app; [apply forall_digit; exact Hp|]. intros x Hx. apply digit_false. apply (Hd x Hx). }
    destruct (ds ++ s) as [|x t] eqn:Eq.
    + apply app_eq_nil in Eq. destruct Eq as [-> ->]. reflexivity.
    + assert (Ascii.eqb x "*" = false) as ->.
      { apply eqb_ne. destruct ds as [|y ds]; cbn [app] in Eq.
        - subst s. apply (Hd x eq_refl).
        - injection Eq as <- _. apply Forall_cons_iff in Hp. destruct Hp as [Hy _]. intros ->. apply digit_iff in Hy. discriminate. }
      rewrite E. reflexivity.
  - reflexivity.
Qed.

Lemma parse_ok d r : wf d -> parse_directive (options d ++ r) = Some (d, r).
Proof.
  intros W. pose proof (wf_conv_ok d W) as Hc. destruct W as [Wf Ww Wp Wl _].
  destruct d as [fs w p l c]. cbn [d_flags d_width d_prec d_length d_conv] in *.
  unfold options. cbn [d_flags d_width d_prec d_length d_conv]. rewrite <- !app_assoc. cbn [app].
  pose proof (head_prec p l c r) as Hd. specialize (fun x => Hd x Wl Hc).
  pose proof (parse_prec_ok p l c r Wp Wl Hc) as Ep.
  set (s := show_prec p ++ l ++ c :: r) in *.
  assert (parse_width (show_width w ++ s) = (w, s)) as Ew.
  { clearbody s. destruct w as [|ds|]; cbn [show_width app]; unfold parse_width.
    - destruct s as [|x s]; [reflexivity|]. destruct (Hd x eq_refl) as (_ & Hx & Hs). rewrite eqb_ne by exact Hs.
      cbn [span]. rewrite digit_false by exact Hx. reflexivity.
    - destruct Ww as (Wd & Wn & _). destruct ds as [|x ds]; [contradiction|].
      rewrite span_app; [|apply forall_digit; exact Wd|intros y Hy; apply digit_false; apply (Hd y Hy)].
      cbn [app]. apply Forall_cons_iff in Wd. destruct Wd as [Hx _].
      rewrite eqb_ne; [reflexivity|]. intros ->. apply digit_iff in Hx. discriminate.
    - reflexivity. }
  unfold parse_directive.
  rewrite span_app.
  - rewrite Ew, Ep, parse_length_ok by assumption. reflexivity.
  - revert Wf. apply Forall_impl. intros x. apply flag_iff.
  - intros x Hx. destruct (is_flag x) eqn:E; [|reflexivity]. apply flag_iff in E. exfalso.
    destruct w as [|ds|]; cbn [show_width app] in Hx.
    + destruct (Hd x Hx) as (K & _). contradiction.
    + destruct Ww as (Wd & Wn & Wz). destruct ds as [|y ds]; [contradiction|]. cbn [app hd_error] in Hx. injection Hx as <-.
      apply Forall_cons_iff in Wd. destruct Wd as [Hy _]. apply (digit_not_flag y Hy); [|exact E].
      intros ->. apply Wz. reflexivity.
    + injection Hx as <-. apply flag_iff in E. discriminate.
Qed.

Lemma span_length p s a b : span p s = (a, b) -> (length b <= length s)%nat.
Proof.
  revert a b. induction s as [|c s IH]; intros a b H; cbn [span] in H; [injection H as <- <-; cbn; lia|].
  destruct (p c); [|injection H as <- <-; lia].
  destruct (span p s) as [a0 b0] eqn:E. injection H as <- <-. specialize (IH _ _ eq_refl). cbn. lia.
Qed.
Lemma parse_shorter s d r : parse_directive s = Some (d, r) -> (length r < length s)%nat.
Proof.
  unfold parse_directive. destruct (span is_flag s) as [f s1] eqn:E1. apply span_length in E1.
  destruct (parse_width s1) as [w s2] eqn:E2.
  assert (length s2 <= length s1)%nat as L2.
  { unfold parse_width in E2. destruct s1 as [|c t]; [injection E2 as <- <-; lia|].
    destruct (Ascii.eqb c "*"); [injection E2 as <- <-; cbn; lia|].
    destruct (span is_digit (c :: t)) as [a b] eqn:E. apply span_length in E.
    destruct a; injection E2 as <- <-; exact E. }
  destruct (parse_prec s2) as [p s3] eqn:E3.
  assert (length s3 <= length s2)%nat as L3.
  { unfold parse_prec in E3. destruct s2 as [|c t]; [injection E3 as <- <-; lia|].
    destruct (Ascii.eqb c "."); [|injection E3 as <- <-; lia].
    destruct t as [|c' t]; [injection E3 as <- <-; cbn; lia|].
    destruct (Ascii.eqb c' "*"); [injection E3 as <- <-; cbn; lia|].
    destruct (span is_digit (c' :: t)) as [a b] eqn:E. apply span_length in E. injection E3 as <- <-. cbn in *. lia. }
  destruct (parse_length s3) as [l s4] eqn:E4.
  assert (length s4 <= length s3)%nat as L4.
  { unfold parse_length in E4. destruct s3 as [|c t]; [injection E4 as <- <-; lia|].
    destruct (_ || _).
    - destruct t as [|c' t]; [injection E4 as <- <-; cbn; lia|].
      destruct (Ascii.eqb c' c); injection E4 as <- <-; cbn; lia.
    - destruct (_ || _); injection E4 as <- <-; cbn; lia. }
  destruct s4 as [|c t]; [discriminate|]. intros [= <- <-]. cbn in L4. lia.
Qed.

Lemma vprint_fuel P : forall f1 f2 s a, (length s < f1)%nat -> (length s < f2)%nat ->
  vprint P f1 s a = vprint P f2 s a.
Proof.
  induction f1 as [|f1 IH]; intros f2 s a H1 H2; [lia|]. destruct f2 as [|f2]; [lia|].
  cbn [vprint]. destruct s as [|c r]; [reflexivity|]. cbn [length] in *.
  destruct (Ascii.eqb c "%").
  - destruct r as [|c' r']; [reflexivity|]. cbn [length] in *.
    destruct (Ascii.eqb c' "%"); [rewrite (IH f2) by lia; reflexivity|].
    destruct (parse_directive (c' :: r')) as [[d rest]|] eqn:E; [|reflexivity].
    apply parse_shorter in E. cbn [length] in E.
    destruct (type_of d); [|reflexivity].
    destruct (take_star (d_width d) a) as [[w a1]|]; [|reflexivity].
    destruct (take_star (d_prec d) a1) as [[p a2]|]; [|reflexivity].
    destruct (take_value v a2) as [[x a3]|]; [|reflexivity].
    rewrite (IH f2) by lia. reflexivity.
  - rewrite (IH f2) by lia. reflexivity.
Qed.

Lemma print_nil P a : print P [] a = Some [].
Proof. reflexivity. Qed.
Lemma print_char P c s a : c <> "%" ->
  print P (c :: s) a = match print P s a with Some o => Some (c :: o) | None => None end.
Proof. intros H. unfold print. cbn [vprint length]. rewrite eqb_ne by exact H. reflexivity. Qed.
Lemma print_percent P s a :
  print P ("%" :: "%" :: s) a = match print P s a with Some o => Some ("%" :: o) | None => None end.
Proof.
  unfold print. cbn [length]. assert (length s < S (S (length s)))%nat as L by lia.
  set (n := S (S (length s))) in *. clearbody n. cbn [vprint]. change (Ascii.eqb "%" "%") with true. cbv iota.
  rewrite (vprint_fuel P n (S (length s))) by lia. reflexivity.
Qed.
Lemma print_show P d s a : wf d ->
  print P (show d ++ s) a =
  match type_of d with
  | None => None
  | Some t =>
      match take_star (d_width d) a with
      | None => None
      | Some (w, a) =>
          match take_star (d_prec d) a with
          | None => None
          | Some (p, a) =>
              match take_value t a with
              | None => None
              | Some (v, a) =>
                  match print P s a with
                  | Some o => Some (P d (w ++ p ++ [v]) ++ o)
                  | None => None
                  end
              end
          end
      end
  end.
Proof.
  intros W. destruct (options_head d W) as (c & r & E & Hc & _).
  unfold print at 1. assert (length s < length (show d ++ s))%nat as L.
  { rewrite app_length. cbn. lia. }
  set (n := length (show d ++ s)) in *. clearbody n.
  unfold show. cbn [app]. cbn [vprint]. change (Ascii.eqb "%" "%") with true. cbv iota.
  pose proof (parse_ok d s W) as Pk. rewrite E in Pk |- *. cbn [app] in Pk |- *. rewrite eqb_ne by exact Hc. rewrite Pk.
  destruct (type_of d); [|reflexivity].
  destruct (take_star (d_width d) a) as [[w a1]|]; [|reflexivity].
  destruct (take_star (d_prec d) a1) as [[p a2]|]; [|reflexivity].
  destruct (take_value v a2) as [[x a3]|]; [|reflexivity].
  unfold print. rewrite (vprint_fuel P n (S (length s))) by lia. reflexivity.
Qed.

(** ** Filters that leave a specifier alone *)

Lemma percent_info s : get_info ("%" :: "%" :: s) = (1%nat, no_info).
Proof. reflexivity. Qed.

Lemma binary_declines d r a m : wf d -> d_conv d <> "B" -> declines binary (show d ++ r) a m.
Proof.
  intros W Hc. unfold declines, binary. rewrite get_info_percent, show_last by exact W.
  rewrite eqb_ne by exact Hc. reflexivity.
Qed.

Lemma read_number_head l : forall r v, (exists c, In c l /\ ~ a_digit c) ->
  exists v' c r', read_number v (l ++ r) = (v', c :: r') /\ In c l.
Proof.
  induction l as [|x l IH]; intros r v (c & Hc & Hd); [destruct Hc|].
  cbn [app read_number]. destruct (is_digit x) eqn:E.
  - destruct Hc as [->|Hc]; [apply digit_iff in E; contradiction|].
    destruct (IH r ((v * 10 + digit x) mod 2 ^ 64)) as (v' & c' & r' & Eq & Hin); [exists c; split; assumption|].
    exists v', c', r'. split; [exact Eq|right; exact Hin].
  - do 3 eexists. split; [reflexivity|left; reflexivity].
Qed.

Lemma options_members d x : wf d -> In x (options d) ->
  a_flag x \/ a_digit x \/ In x ["*"; "."; "h"; "l"; "j"; "z"; "t"; "L"] \/ x = d_conv d.
Proof.
  intros W H. destruct W as [Wf Ww Wp Wl _]. unfold options in H. rewrite !in_app_iff in H.
  destruct H as [H|[H|[H|[H|H]]]].
  - left. rewrite Forall_forall in Wf. apply Wf. exact H.
  - destruct (d_width d) as [|ds|]; cbn [show_width] in H; [destruct H| |].
    + right. left. destruct Ww as (Wd & _). rewrite Forall_forall in Wd. apply Wd. exact H.
    + destruct H as [<-|[]]. right. right. left. cbn; tauto.
  - destruct (d_prec d) as [|ds|]; cbn [show_prec] in H; [destruct H| |].
    + destruct H as [<-|H]; [right; right; left; cbn; tauto|]. right. left. rewrite Forall_forall in Wp. apply Wp. exact H.
    + destruct H as [<-|[<-|[]]]; right; right; left; cbn; tauto.
  - right. right. left. cbn in Wl.
    repeat (destruct Wl as [Wl|Wl]; [rewrite <- Wl in H; cbn in H |- *; tauto|]). destruct Wl.
  - right. right. right. destruct H as [<-|[]]. reflexivity.
Qed.

Lemma deletion_declines d r a m : wf d -> d_width d <> Star -> d_conv d <> "D" ->
  declines deletion (show d ++ r) a m.
Proof.
  intros W Hw Hc. unfold declines, deletion, show. cbn [app]. change (Ascii.eqb "%" "%") with true. cbv iota.
  assert (forall x, In x (options d) -> x <> "D") as ND.
  { intros x Hx. destruct (options_members d x W Hx) as [K|[K|[K| ->]]]; [| | |exact Hc]; intros ->.
    - apply flag_iff in K. discriminate.
    - apply digit_iff in K. discriminate.
    - cbn in K. repeat (destruct K as [K|K]; [discriminate|]). exact K. }
  assert (forall x s, In x (options d) -> starts ["D"; "E"; "L"] (x :: s) = false) as NS.
  { intros x s Hx. apply starts_false. cbn [length firstn]. intros [= E _]. exact (ND x Hx E). }
  destruct (options_head d W) as (c & s & E & _).
  assert (c <> "*") as Hs.
  { intros ->. destruct (wf_conv d W) as (_ & _ & Nc). destruct W as [Wf Ww Wp Wl _]. destruct d as [fs w p l y]. unfold options in E. cbn [d_flags d_width d_prec d_length d_conv] in *.
    destruct fs as [|f fs]; cbn [app] in E.
    - destruct w as [|ds|]; cbn [show_width app] in E; [|destruct Ww as (Wd & Wn & _)|contradiction].
      + destruct p; cbn [show_prec app] in E; try discriminate.
        destruct l as [|z l]; cbn [app] in E; injection E as E _; [apply Nc; rewrite E; cbn; tauto|]. subst z.
        destruct (mods_plain _ _ _ Wl eq_refl) as (_ & _ & K & _). apply K. reflexivity.
      + destruct ds as [|x ds]; [contradiction|]. cbn [app] in E. injection E as -> _.
        apply Forall_cons_iff in Wd. destruct Wd as [Wd _]. apply digit_iff in Wd. discriminate.
    - injection E as -> _. apply Forall_cons_iff in Wf. destruct Wf as [Wf _]. apply flag_iff in Wf. discriminate. }
  assert (In c (options d)) as Hin by (rewrite E; left; reflexivity).
  rewrite E. cbn [app]. rewrite eqb_ne by exact Hs.
  destruct (is_digit c) eqn:Dg.
  - destruct (read_number_head s r (digit c)) as (v' & c' & r' & Eq & Hin').
    { exists (d_conv d). destruct (wf_conv d W) as (_ & Nd & _). split; [|exact Nd].
      pose proof (options_last d []) as Lst. rewrite app_nil_r, E in Lst. cbn [length] in Lst.
      replace (S (length s) - 1)%nat with (length s) in Lst by lia.
      destruct s as [|y s]; [cbn in Lst; rewrite Lst in Dg; apply digit_iff in Dg; contradiction|].
      cbn [length] in Lst. change (nth (S (length s)) (c :: y :: s) zero) with (nth (length s) (y :: s) zero) in Lst.
      rewrite <- Lst. apply nth_In. cbn. lia. }
    rewrite Eq. rewrite NS; [reflexivity|]. rewrite E. right. exact Hin'.
  - rewrite NS by exact Hin. reflexivity.
Qed.

Lemma array_declines P d r a m : wf d -> declines (array P) (show d ++ r) a m.
Proof.
  intros W. destruct (options_head d W) as (c & s & E & _ & Hc).
  unfold declines, array, show. rewrite E. cbn [app].
  rewrite starts_false; [reflexivity|]. cbn [length firstn]. intros [= K]. exact (Hc K).
Qed.
Lemma string_declines d r a m : wf d -> d_conv d <> "S" -> declines string_filter (show d ++ r) a m.
Proof.
  intros W Hn. destruct (options_head d W) as (c & s & E & _ & Hc).
  unfold declines, string_filter, show. rewrite E. cbn [app].
  rewrite starts_false; [reflexivity|]. cbn [length firstn]. intros [= K]. subst c.
  assert (In "S" (options d)) as Hin by (rewrite E; left; reflexivity).
  destruct (options_members d "S" W Hin) as [K|[K|[K|K]]].
  - apply flag_iff in K. discriminate.
  - apply digit_iff in K. discriminate.
  - cbn in K. repeat (destruct K as [K|K]; [discriminate|]). exact K.
  - apply Hn. symmetry. exact K.
Qed.

(** ** Arrays *)

Definition standard : list ascii :=
  ["d"; "i"; "o"; "u"; "x"; "X"; "f"; "F"; "e"; "E"; "g"; "G"; "a"; "A"; "c"; "s"; "p"].
Lemma among_in c l : among c l = true -> In c l.
Proof. unfold among. rewrite existsb_exists. intros (x & H & E). apply Ascii.eqb_eq in E. subst. exact H. Qed.
Lemma type_standard d t : type_of d = Some t -> In (d_conv d) standard.
Proof.
  unfold type_of. intros H.
  destruct (among (d_conv d) ["d"; "i"; "o"; "u"; "x"; "X"]) eqn:E1.
  { apply among_in in E1. unfold standard. cbn in E1 |- *. tauto. }
  destruct (among (d_conv d) ["f"; "F"; "e"; "E"; "g"; "G"; "a"; "A"]) eqn:E2.
  { apply among_in in E2. unfold standard. cbn in E2 |- *. tauto. }
  destruct (Ascii.eqb (d_conv d) "c") eqn:E3; [apply Ascii.eqb_eq in E3; rewrite E3; cbn; tauto|].
  destruct (Ascii.eqb (d_conv d) "s") eqn:E4; [apply Ascii.eqb_eq in E4; rewrite E4; cbn; tauto|].
  destruct (Ascii.eqb (d_conv d) "p") eqn:E5; [apply Ascii.eqb_eq in E5; rewrite E5; cbn; tauto|].
  discriminate.
Qed.

Lemma element_ok d t : wf d -> elements d = Some t -> element_of (d_conv d) (packed (d_length d) 0) = Some t.
Proof.
  intros W E. pose proof (wf_length d W) as Hl. unfold elements in E.
  destruct (type_of d) as [ty|] eqn:Et; [|discriminate].
  pose proof (type_standard d ty Et) as Hc.
  destruct d as [fs w p l c]. cbn [d_conv d_length] in *. unfold type_of in Et. cbn [d_conv d_length] in Et.
  clear W. cbn in Hl. cbn in Hc.
  repeat (destruct Hl as [<-|Hl];
    [repeat (destruct Hc as [<-|Hc]; [vm_compute in Et; first [discriminate|injection Et as <-; vm_compute in E |- *; exact E]|]); destruct Hc|]).
  destruct Hl.
Qed.

Lemma promotes_value d t ty v a : type_of d = Some ty -> elements d = Some t -> promotes t v ->
  take_value ty (v :: a) = Some (v, a).
Proof.
  unfold elements. intros ->. destruct ty; intros [= <-]; intros H.
  - revert H. repeat (match goal with |- context [if ?x then _ else _] => destruct x end);
      destruct v; cbn; try contradiction; reflexivity.
  - destruct v; try contradiction; reflexivity.
  - revert H. match goal with |- context [if ?x then _ else _] => destruct x end; destruct v; cbn; try contradiction; reflexivity.
  - destruct v; try contradiction; reflexivity.
  - destruct v; try contradiction; reflexivity.
Qed.

Lemma star_none w a : w <> Star -> take_star w a = Some ([], a).
Proof. destruct w; [reflexivity|reflexivity|contradiction]. Qed.

Lemma print_element P d t v : wf d -> no_star d -> elements d = Some t -> promotes t v ->
  print P (show d) [v] = Some (P d [v]).
Proof.
  intros W [N1 N2] E H. rewrite <- (app_nil_r (show d)). rewrite print_show by exact W.
  destruct (type_of d) as [ty|] eqn:Et; [|unfold elements in E; rewrite Et in E; discriminate].
  rewrite !star_none by assumption. rewrite (promotes_value d t ty v [] Et E H).
  rewrite print_nil. cbn [app]. rewrite app_nil_r. reflexivity.
Qed.

Lemma print_array_ok P d t sep : wf d -> no_star d -> elements d = Some t ->
  forall count l, Forall (promotes t) l -> (count <= length l)%nat ->
  exists acts, print_array P (show d) sep l count = Some acts /\
    forall m, apply acts m = m ++ join sep (map (fun v => P d [v]) (firstn count l)).
Proof.
  intros W Ns E. induction count as [|count IH]; intros l H Hc.
  - exists []. split; [destruct l; reflexivity|]. intros m. symmetry. apply app_nil_r.
  - destruct l as [|v l]; [cbn in Hc; lia|]. apply Forall_cons_iff in H. destruct H as [Hv H].
    cbn [print_array]. rewrite (print_element P d t v W Ns E Hv).
    cbn [length] in Hc.
    destruct count as [|k].
    + eexists. split; [reflexivity|]. intros m. reflexivity.
    + destruct (IH l H ltac:(lia)) as (acts & -> & Ha).
      eexists. split; [reflexivity|]. intros m.
      cbn [apply fold_left apply_act]. change (fold_left apply_act acts ?x) with (apply acts x). rewrite Ha.
      destruct l as [|v' l]; [cbn in Hc; lia|].
      rewrite <- !app_assoc. reflexivity.
Qed.

Lemma find_app c t s : ~ In c t -> find c (t ++ c :: s) = Some (length t).
Proof.
  induction t as [|x t IH]; intros H; cbn [app find length]; [rewrite Ascii.eqb_refl; reflexivity|].
  rewrite eqb_ne by (intros ->; apply H; left; reflexivity).
  rewrite IH by (intros K; apply H; right; exact K). reflexivity.
Qed.

Lemma separator_ok st sa sep f a : separator_text st sa sep ->
  separator (st ++ "]" :: f) (sa ++ a) = Some (inl (sep, "]" :: f, a)).
Proof.
  intros H. destruct H as [|t Hn Hh Hi|t]; cbn [app]; unfold separator.
  - reflexivity.
  - destruct t as [|c t]; [contradiction|]. destruct (Hh c eq_refl) as [_ Hs]. cbn [app].
    rewrite eqb_ne by (intros ->; apply Hi; left; reflexivity). rewrite eqb_ne by exact Hs.
    change (c :: t ++ "]" :: f) with ((c :: t) ++ "]" :: f). rewrite find_app by exact Hi.
    rewrite firstn_app_exact, skipn_app_exact. reflexivity.
  - reflexivity.
Qed.

Lemma separator_head st sa sep f c : separator_text st sa sep -> hd_error (st ++ "]" :: f) = Some c -> ~ a_digit c.
Proof.
  intros H E. destruct H as [|t Hn Hh Hi|t].
  - injection E as <-. intros K. apply digit_iff in K. discriminate.
  - destruct t as [|x t]; [contradiction|]. cbn in E. injection E as <-. apply (Hh x eq_refl).
  - injection E as <-. intros K. apply digit_iff in K. discriminate.
Qed.

Lemma array_run P ct ca count st sa sep d r a m :
  count_text ct ca count -> separator_text st sa sep -> wf d ->
  array P ("%" :: "[" :: ct ++ st ++ "]" :: options d ++ r) (ca ++ sa ++ a) m =
  let taken := (4 + length ct + length st + length (options d) - 1)%nat in
  if count =? 0 then Some (taken, a, [])
  else match next_ptr a with
       | None => None
       | Some (o, a) =>
           match element_of (d_conv d) (packed (d_length d) 0) with
           | None => Some (taken, a, [])
           | Some t =>
               match o with
               | OArray t' l =>
                   if element_eqb t t' then
                     match print_array P (show d) sep l (N.to_nat count) with
                     | Some acts => Some (taken, a, acts)
                     | None => None
                     end
                   else None
               | _ => None
               end
           end
       end.
Proof.
  intros Hct Hst W. unfold array.
  change ("%" :: "[" :: ct ++ st ++ "]" :: options d ++ r) with (["%"; "["] ++ ct ++ st ++ "]" :: options d ++ r).
  rewrite starts_app. change (skipn 2 (["%"; "["] ++ ct ++ st ++ "]" :: options d ++ r)) with (ct ++ st ++ "]" :: options d ++ r).
  set (f := st ++ "]" :: options d ++ r).
  assert (match ct ++ f with
           | c :: r0 =>
               if Ascii.eqb c "*" then match next_long (ca ++ sa ++ a) with Some (n, a) => Some (Some (n, a, r0)) | None => None end
               else if is_digit c then let '(n, r1) := read_number (digit c) r0 in Some (Some (n, ca ++ sa ++ a, r1))
               else Some None
           | [] => Some None
           end = Some (Some (count, sa ++ a, f))) as ->.
  { destruct Hct as [ds Hd Hn Hb|n]; cbn [app].
    - destruct ds as [|c ds]; [contradiction|]. apply Forall_cons_iff in Hd. destruct Hd as [Hc Hd]. cbn [app].
      rewrite eqb_ne by (intros ->; apply digit_iff in Hc; discriminate).
      rewrite (proj2 (digit_iff c) Hc).
      change (decimal (c :: ds)) with (decimal_from (digit c) ds) in *.
      rewrite read_number_ok; [reflexivity|exact Hd|exact Hb|]. intros x. apply (separator_head st sa sep _ x Hst).
    - reflexivity. }
  unfold f. rewrite separator_ok with (sep := sep) by exact Hst. cbv beta iota zeta.
  change (skipn 1 ("]" :: options d ++ r)) with (options d ++ r).
  rewrite get_info_bare by exact W.
  rewrite options_last.
  pose proof (options_length d W) as Lo.
  assert (length (["%"; "["] ++ ct ++ st ++ "]" :: options d ++ r) - length (options d ++ r) + (length (options d) - 1) + 1
    = 4 + length ct + length st + length (options d) - 1)%nat as ->.
  { rewrite !app_length. cbn [length]. rewrite !app_length. lia. }
  replace (S (length (options d) - 1)) with (length (options d)) by lia.
  rewrite firstn_app_exact.
  reflexivity.
Qed.

Lemma element_eqb_refl t : element_eqb t t = true.
Proof. destruct t; reflexivity. Qed.

Lemma array_ok P ct ca count st sa sep d t l r a m :
  count_text ct ca count -> separator_text st sa sep -> wf d -> no_star d -> elements d = Some t ->
  Forall (promotes t) l -> 0 < count -> (N.to_nat count <= length l)%nat ->
  exists acts,
    array P ("%" :: "[" :: ct ++ st ++ "]" :: options d ++ r) (ca ++ sa ++ APtr (OArray t l) :: a) m =
      Some (length ("%" :: "[" :: ct ++ st ++ "]" :: options d), a, acts) /\
    forall m, apply acts m = m ++ join sep (map (fun v => P d [v]) (firstn (N.to_nat count) l)).
Proof.
  intros Hct Hst W Ns E Hl Hc0 Hc.
  destruct (print_array_ok P d t sep W Ns E (N.to_nat count) l Hl Hc) as (acts & Ea & Ha).
  exists acts. split; [|exact Ha].
  rewrite (array_run P ct ca count st sa sep d r _ m Hct Hst W). cbv zeta.
  destruct (N.eqb_spec count 0) as [->|_]; [lia|]. cbn [next_ptr].
  rewrite (element_ok d t W E), element_eqb_refl, Ea.
  do 3 f_equal. cbn [length]. rewrite !app_length. cbn [length]. pose proof (options_length d W). lia.
Qed.

Lemma array_empty P ct ca st sa sep d r a m :
  count_text ct ca 0 -> separator_text st sa sep -> wf d ->
  array P ("%" :: "[" :: ct ++ st ++ "]" :: options d ++ r) (ca ++ sa ++ a) m =
    Some (length ("%" :: "[" :: ct ++ st ++ "]" :: options d), a, []).
Proof.
  intros Hct Hst W. rewrite (array_run P ct ca 0 st sa sep d r a m Hct Hst W). cbv zeta. change (0 =? 0) with true. cbv iota.
  do 3 f_equal. cbn [length]. rewrite !app_length. cbn [length]. pose proof (options_length d W). lia.
Qed.
