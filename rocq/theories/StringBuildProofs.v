(** Making strings from strings. *)
From Verif Require Import Base Word StringModel StringSpec StringPackProofs StringUtf8Proofs StringReadProofs StringCompareProofs StringMakeProofs.

Section with_maps.
Context (M : env) (GM : good_maps M).

Lemma encodable_of s cs : represents M s cs -> Forall (encodable (get_encoding M s)) cs.
Proof.
  intros R. destruct s as [w|h]; cbn [get_encoding]; [|apply R]. destruct R as [S [set I]]. rewrite (tagged_set M _ _ _ I).
  destruct I as (Hs & _ & ds & F & _). destruct (GM set Hs) as (_ & _ & G). clear - S F G.
  induction F as [|c d cs ds Hd F IH]; constructor; inversion S; subst; [|now apply IH]. apply G; [now apply first_at_in in Hd|now apply scalar_nz].
Qed.

(** ** Copies of characters *)

Lemma encode_loop_ok s cs : represents M s cs -> forall n i st, positioned s cs st (At i) -> i + n <= length cs ->
  encode_loop M s st (nth i cs 0%N) n = Some (utf8 (firstn n (skipn i cs))).
Proof.
  intros R. pose proof (represents_scalar M s cs R) as S. induction n as [|n IH]; intros i st P Hn; cbn [encode_loop]; [reflexivity|].
  assert (Hi : i < length cs) by lia. pose proof (scalar_nth cs i S Hi) as Si. assert (Hne : cs <> []) by (intros ->; cbn in Hi; lia).
  destruct (N.eqb_spec (nth i cs 0%N) 0) as [Z|Z]; [now apply scalar_nz in Si|]. rewrite (positioned_index s cs st _ P). cbn [index].
  rewrite (skipn_nth cs i Hi). cbn [firstn]. rewrite utf8_cons, (put_utf8_ok _ Si). destruct n as [|n].
  - destruct (moved cs (At i) Next) as [p'|] eqn:Em; [|discriminate]. destruct (move_ok M GM s cs st (At i) Next p' R Hne P Em) as (st' & -> & _). reflexivity.
  - assert (Em : moved cs (At i) Next = Some (At (i + 1))) by (cbn [moved]; destruct (Nat.ltb_spec (i + 1) (length cs)); [reflexivity|lia]).
    destruct (move_ok M GM s cs st (At i) Next _ R Hne P Em) as (st' & -> & P'). cbn [returned char_at_position]. rewrite (IH (i + 1) st' P') by lia. reflexivity.
Qed.

Lemma all_short cs : length (utf8 cs) = length cs -> utf8 cs = cs.
Proof.
  induction cs as [|c cs IH]; [reflexivity|]. rewrite utf8_cons, app_length. cbn [length]. pose proof (utf8_char_nonempty c). pose proof (utf8_len cs). intros E.
  rewrite IH by lia. unfold utf8_char in *. destruct (c <? 0x80)%N; [reflexivity|]. destruct (c <? 0x800)%N; [cbn in E; lia|]. destruct (c <? 0x10000)%N; cbn in E; lia.
Qed.

Lemma Forall_slice {A} (P : A -> Prop) i n l : Forall P l -> Forall P (firstn n (skipn i l)).
Proof. intros H. now apply Forall_firstn, Forall_skipn. Qed.

Lemma strncpy_part l r i n : Forall (fun b => b <> 0%N) l -> i + n <= length l -> strncpy (skipn i (l ++ r)) n = Some (firstn n (skipn i l)).
Proof.
  intros H L. rewrite skipn_app. replace (i - length l) with 0 by lia. cbn [skipn]. apply strncpy_ok; [now apply Forall_skipn|]. rewrite skipn_length. lia.
Qed.

Lemma forward_snoc s : forall n st c, forward M s st c (Datatypes.S n) = let? (st, c) := forward M s st c n in enum_move M s st Next.
Proof.
  induction n as [|n IH]; intros st c.
  - cbn [forward]. now destruct (enum_move M s st Next) as [[st' c']|].
  - change (forward M s st c (Datatypes.S (Datatypes.S n))) with (let? (st, c) := enum_move M s st Next in forward M s st c (Datatypes.S n)).
    change (forward M s st c (Datatypes.S n)) with (let? (st, c) := enum_move M s st Next in forward M s st c n).
    destruct (enum_move M s st Next) as [[st1 c1]|]; [apply IH|reflexivity].
Qed.

Lemma forward_any s cs offset : represents M s cs -> cs <> [] -> offset <= length cs -> forall st, positioned s cs st (At 0) ->
  exists st' c, forward M s st (nth 0 cs 0%N) offset = Some (st', c) /\ positioned s cs st' (if offset <? length cs then At offset else Past).
Proof.
  intros R Hne Ho st P. destruct (Nat.ltb_spec offset (length cs)) as [L|L].
  - destruct (forward_ok M GM s cs R Hne offset 0 st _ P L eq_refl) as (st' & Ef & P'). eauto.
  - assert (E : offset = length cs) by lia. clear Ho L. assert (Hl : 0 < length cs) by (destruct cs; [contradiction|cbn; lia]).
    destruct offset as [|k]; [lia|].
    destruct (forward_ok M GM s cs R Hne k 0 st _ P ltac:(lia) eq_refl) as (st' & Ef & P'). cbn [Nat.add] in *.
    assert (Em : moved cs (At k) Next = Some Past) by (cbn [moved]; destruct (Nat.ltb_spec (k + 1) (length cs)); [lia|reflexivity]).
    destruct (move_ok M GM s cs st' (At k) Next _ R Hne P' Em) as (st'' & E2 & P''). exists st'', (returned s cs Past Next). split; [|exact P''].
    rewrite forward_snoc, Ef. exact E2.
Qed.

Lemma copy_characters_ok s cs offset n : represents M s cs -> offset + n <= length cs -> copy_characters M s offset n = Some (utf8 (firstn n (skipn offset cs))).
Proof.
  intros R L. unfold copy_characters. rewrite (get_length_ok M GM s cs R). destruct (Nat.leb_spec (offset + n) (length cs)); [|lia]. cbn [negb].
  pose proof (represents_scalar M s cs R) as S.
  assert (By : (let? st := get_enumerator M s in let? c0 := enum_current s st in let? (st, _) := forward M s st c0 offset in let? c := enum_current s st in encode_loop M s st c n)
    = Some (utf8 (firstn n (skipn offset cs)))).
  { destruct cs as [|c0 cs].
    - destruct (get_enumerator_empty M GM s R) as (st & -> & Ec & _). rewrite Ec. cbn [length] in L. assert (offset = 0) by lia. assert (n = 0) by lia. subst. cbn [forward]. rewrite Ec. reflexivity.
    - destruct (get_enumerator_ok M GM s (c0 :: cs) R ltac:(discriminate)) as (st & -> & P). rewrite (positioned_current M s _ st _ R P). cbn [char_at_position].
      destruct (forward_any s (c0 :: cs) offset R ltac:(discriminate) ltac:(lia) st P) as (st' & c & -> & P'). rewrite (positioned_current M s _ st' _ R P').
      destruct (Nat.ltb_spec offset (length (c0 :: cs))) as [Lo|Lo].
      + cbn [char_at_position]. now apply encode_loop_ok.
      + assert (n = 0) by lia. subst n. reflexivity. }
  destruct s as [w|h]; [exact By|]. destruct (h_encoding h) eqn:E.
  - destruct (stored_ascii h cs R E) as [r ->]. pose proof (stored_encodable h cs ASCII R E) as Se.
    rewrite strncpy_part by (auto using forall_nz). f_equal. symmetry. apply ascii_utf8. now apply Forall_slice.
  - rewrite (get_size_ok M GM (Heap h) cs R). destruct (Nat.eqb_spec (length (utf8 cs) - offset) n) as [En|En]; [|exact By].
    pose proof (utf8_len cs) as Lu. assert (Es : utf8 cs = cs) by (apply all_short; lia). destruct (stored_utf8 h cs R E) as [r ->]. rewrite Es.
    rewrite strncpy_part by (auto using forall_nz). f_equal. rewrite <- (firstn_skipn offset cs) in Es. rewrite utf8_app in Es.
    assert (Eo : length (utf8 (firstn offset cs)) = length (firstn offset cs)).
    { apply (f_equal (@length N)) in Es. rewrite !app_length in Es. pose proof (utf8_len (firstn offset cs)). pose proof (utf8_len (skipn offset cs)). lia. }
    rewrite (all_short _ Eo) in Es. apply app_inv_head in Es. replace (firstn n (skipn offset cs)) with (skipn offset cs) by (symmetry; apply firstn_all2; rewrite skipn_length; lia). now symmetry.
Qed.

Lemma filled_ok capacity bytes : length bytes < capacity -> filled capacity bytes = Some (bytes ++ [0%N]).
Proof. intros H. unfold filled. destruct (Nat.leb_spec (length bytes + 1) capacity); [reflexivity|lia]. Qed.

Lemma copy_ok s cs : represents M s cs -> exists s', copy M s = Some s' /\ represents M s' cs.
Proof.
  intros R. destruct s as [w|h]; cbn [copy]; [eauto|]. destruct (h_free h); [eauto|]. rewrite (get_size_ok M GM (Heap h) cs R).
  destruct R as (Se & _ & rest & -> & _). rewrite <- (encode_utf8 _ _ Se). destruct (create_with_size_ok M GM (h_encoding h) (h_before h) cs rest Se) as (s' & -> & R' & _). eauto.
Qed.

(** ** Substrings *)

Context (Junk : (junk M < 256)%N).

Lemma create_filled e capacity cs : Forall (encodable e) cs -> length (utf8 cs) < capacity ->
  exists s, (let? mem := filled capacity (utf8 cs) in create M e Freed (Some (junk M)) mem) = Some s /\ represents M s cs.
Proof.
  intros Se L. rewrite filled_ok by exact L. rewrite <- (encode_utf8 e cs Se). destruct (create_ok M GM e Freed (Some (junk M)) cs [] Se) as (s & -> & R & _); [right; now exists (junk M)|]. eauto.
Qed.

Lemma utf8_slice_len cs i n : length (utf8 (firstn n (skipn i cs))) <= length (utf8 cs).
Proof.
  rewrite <- (firstn_skipn i cs) at 2. rewrite <- (firstn_skipn n (skipn i cs)) at 2. rewrite !utf8_app, !app_length. lia.
Qed.

Lemma inline_digits_intro set cs ds : (1 <= set <= 3)%N -> Forall2 (first_at (chars_of M set)) cs ds -> length ds <= char_max set -> Forall scalar cs ->
  represents M (Tagged (set + 4 * packed (bits_of set) ds)) cs.
Proof.
  intros Hs F L S. split; [exact S|]. exists set. split; [exact Hs|]. split; [rewrite (Forall2_length _ _ _ F); exact L|]. now exists ds.
Qed.

Lemma substring_ok s cs offset n : represents M s cs -> offset + n <= length cs -> exists s', substring M s offset n = Some s' /\ represents M s' (firstn n (skipn offset cs)).
Proof.
  intros R L. pose proof (represents_scalar M s cs R) as S. unfold substring. rewrite (get_length_ok M GM s cs R).
  destruct (Nat.leb_spec (offset + n) (length cs)); [|lia]. cbn [negb]. destruct s as [w|h].
  - destruct R as [_ [set I]]. rewrite (tagged_set M _ _ _ I). destruct (inline_digits M GM set cs w S I) as (ds & D & Ld & F & ->).
    pose proof (dg_set _ _ D) as Hs. pose proof (dg_len _ _ D) as Hm.
    pose proof (inline_digits_intro set (firstn n (skipn offset cs)) (firstn n (skipn offset ds)) Hs) as Res.
    assert (F' : Forall2 (first_at (chars_of M set)) (firstn n (skipn offset cs)) (firstn n (skipn offset ds))) by (apply firstn_digits, skipn_digits, F).
    assert (Lf : length (firstn n (skipn offset ds)) = n) by (rewrite firstn_length, skipn_length; lia).
    specialize (Res F' ltac:(lia) (Forall_slice _ _ _ _ S)).
    destruct (Nat.eqb_spec n 0) as [->|Hn].
    + exists (Tagged set). split; [reflexivity|]. cbn [firstn packed] in *. now rewrite N.mul_0_r, N.add_0_r in Res.
    + destruct (mid_part set ds offset n D ltac:(lia) ltac:(lia)) as (m & m' & -> & -> & E). rewrite shiftr_tag by lia. rewrite E.
      pose proof (digits_word set ds offset D ltac:(lia)). rewrite shr_ok by lia. rewrite (N.mul_comm (N.of_nat offset)), N.div_mul by apply pow2_nz.
      rewrite wshl_tag by (apply packed_62, digits_firstn, digits_skipn, D). rewrite N.lor_comm, lor_tag by lia. eauto.
  - destruct (negb (h_unsafe h) && encoding_eqb (h_encoding h) ASCII) eqn:Ef.
    + apply andb_true_iff in Ef. destruct Ef as [_ Ef]. assert (E : h_encoding h = ASCII) by (now destruct (h_encoding h)).
      destruct (stored_ascii h cs R E) as [r ->]. pose proof (stored_encodable h cs ASCII R E) as Se.
      rewrite skipn_app. replace (offset - length cs) with 0 by lia. change (skipn 0 r) with r. replace (skipn offset cs ++ r) with (firstn n (skipn offset cs) ++ (skipn n (skipn offset cs) ++ r)) by (rewrite app_assoc, firstn_skipn; reflexivity).
      destruct (create_with_size_ok M GM ASCII (h_before h) (firstn n (skipn offset cs)) (skipn n (skipn offset cs) ++ r) (Forall_slice _ _ _ _ Se)) as (s' & Ec & R' & _).
      cbn [encode] in Ec. rewrite firstn_length, skipn_length, Nat.min_l in Ec by lia. rewrite Ec. eauto.
    + rewrite (get_size_ok M GM (Heap h) cs R), (copy_characters_ok (Heap h) cs offset n R L).
      apply create_filled; [apply Forall_slice, R|]. pose proof (utf8_slice_len cs offset n). lia.
Qed.

(** ** Insertion *)

Lemma push_digits set ds es : digits set ds -> digits set es -> length ds + length es <= char_max set ->
  (packed (bits_of set) es * 2 ^ (bits_of set * N.of_nat (length ds)) < 2 ^ 62)%N /\
  N.lor (set + 4 * packed (bits_of set) ds) (wshl 64 (packed (bits_of set) es * 2 ^ (bits_of set * N.of_nat (length ds))) 2)
  = (set + 4 * packed (bits_of set) (ds ++ es))%N.
Proof.
  intros D E L. pose proof (shifted_62 set es (length ds) E L) as H62. pose proof (dg_set _ _ D) as Hs. split; [exact H62|].
  rewrite wshl_tag by exact H62. rewrite <- N.mul_assoc, <- N.pow_add_r, lor_add.
  - rewrite packed_app, N.pow_add_r. change (2 ^ 2)%N with 4%N. lia.
  - pose proof (packed_lt (bits_of set) ds (dg_lt _ _ D)) as P. rewrite N.pow_add_r. change (2 ^ 2)%N with 4%N. lia.
Qed.

Lemma encodable_join e e' cs cs' : Forall (encodable e) cs -> Forall (encodable e') cs' ->
  Forall (encodable (match e with UTF8 => UTF8 | ASCII => e' end)) cs /\ Forall (encodable (match e with UTF8 => UTF8 | ASCII => e' end)) cs'.
Proof.
  intros H H'. destruct e; (split; [|]); try assumption.
  - eapply Forall_impl; [|exact H]. intros c [S L]. split; [exact S|]. now destruct e'.
  - eapply Forall_impl; [|exact H']. intros c [S L]. now split.
Qed.

Lemma low_start set ds n : digits set ds -> n <= length ds ->
  (if n =? 0 then Some set else let? m := low_mask (N.of_nat n * bits_of set) in Some (N.lor set (wshl 64 (N.land (packed (bits_of set) ds) m) 2)))
  = Some (set + 4 * packed (bits_of set) (firstn n ds))%N.
Proof.
  intros D L. pose proof (dg_len _ _ D). pose proof (dg_set _ _ D). destruct (Nat.eqb_spec n 0) as [->|Hn]; [cbn [firstn packed]; f_equal; lia|].
  destruct (low_part set ds n D ltac:(lia)) as (m & -> & ->). rewrite wshl_tag by (apply packed_62, digits_firstn, D). now rewrite lor_tag by lia.
Qed.

Lemma insert_ok s ins cs ics i : represents M s cs -> represents M ins ics -> i <= length cs ->
  exists s', insert M s i ins = Some s' /\ represents M s' (firstn i cs ++ ics ++ skipn i cs).
Proof.
  intros R1 R2 L. pose proof (represents_scalar M s cs R1) as S1. pose proof (represents_scalar M ins ics R2) as S2. unfold insert.
  rewrite (get_length_ok M GM s cs R1), (get_length_ok M GM ins ics R2). destruct (Nat.leb_spec i (length cs)); [|lia]. cbn [negb].
  assert (Slow : exists s', (let? size := get_size M s in
      let? inssize := get_size M ins in
      let? a := copy_characters M s 0 i in
      let? b := copy_characters M ins 0 (length ics) in
      let? c := (if i <? length cs then copy_characters M s i (length cs - i) else Some []) in
      let? mem := filled (size + inssize + 1) (a ++ b ++ c) in
      create M (match get_encoding M s with UTF8 => UTF8 | ASCII => get_encoding M ins end) Freed (Some (junk M)) mem) = Some s'
    /\ represents M s' (firstn i cs ++ ics ++ skipn i cs)).
  { rewrite (get_size_ok M GM s cs R1), (get_size_ok M GM ins ics R2), (copy_characters_ok s cs 0 i R1), (copy_characters_ok ins ics 0 (length ics) R2) by lia.
    cbn [skipn]. rewrite firstn_all.
    assert (Ec : (if i <? length cs then copy_characters M s i (length cs - i) else Some []) = Some (utf8 (skipn i cs))).
    { destruct (Nat.ltb_spec i (length cs)) as [Li|Li].
      - rewrite (copy_characters_ok s cs i _ R1) by lia. rewrite (firstn_all2 (skipn i cs)) by (rewrite skipn_length; lia). reflexivity.
      - rewrite skipn_all2 by exact Li. reflexivity. }
    rewrite Ec. rewrite <- !utf8_app. destruct (encodable_join _ _ _ _ (encodable_of s cs R1) (encodable_of ins ics R2)) as [E1 E2]. apply create_filled.
    - apply Forall_app. split; [now apply Forall_firstn|]. apply Forall_app. split; [exact E2|now apply Forall_skipn].
    - rewrite !utf8_app, !app_length. rewrite <- (firstn_skipn i cs) at 3. rewrite utf8_app, app_length. lia. }
  destruct s as [w1|h1]; [destruct ins as [w2|h2]|]; try exact Slow.
  destruct ((set_of w1 =? set_of w2)%N && (length cs + length ics <? char_max (set_of w1))) eqn:Ef; [|exact Slow]. clear Slow.
  apply andb_true_iff in Ef. destruct Ef as [Es El]. apply N.eqb_eq in Es. apply Nat.ltb_lt in El.
  destruct R1 as [_ [set I1]], R2 as [_ [set' I2]]. pose proof (tagged_set M _ _ _ I1) as T1. pose proof (tagged_set M _ _ _ I2) as T2.
  replace set' with set in I2 by congruence. rewrite T1 in *. clear Es T1 T2 set'.
  destruct (inline_digits M GM set cs w1 S1 I1) as (ds & D & L1 & F & ->). destruct (inline_digits M GM set ics w2 S2 I2) as (es & D' & L2 & F' & ->).
  pose proof (dg_set _ _ D) as Hs. rewrite !shiftr_tag by lia. rewrite low_start by (assumption || lia).
  assert (Lf : length (firstn i ds) = i) by (rewrite firstn_length; lia).
  destruct (push_digits set (firstn i ds) es (digits_firstn _ _ _ D) D' ltac:(lia)) as [H62 P1]. rewrite Lf in H62, P1.
  pose proof (digits_word set ds i D ltac:(lia)) as W1. pose proof (digits_word set ds (length ics) D ltac:(lia)) as W2.
  rewrite shl_ok by (first [lia | rewrite (N.mul_comm (N.of_nat i)); eapply N.lt_trans; [exact H62|reflexivity]]).
  rewrite (N.mul_comm (N.of_nat i)), P1.
  assert (D2 : digits set (firstn i ds ++ es)) by (apply digits_app; [apply digits_firstn, D|exact D'|lia]).
  assert (F2 : Forall2 (first_at (chars_of M set)) (firstn i cs ++ ics) (firstn i ds ++ es)) by (apply Forall2_app; [apply firstn_digits, F|exact F']).
  destruct (Nat.ltb_spec i (length cs)) as [Li|Li].
  - destruct (mid_part set ds i (length cs - i) D ltac:(lia) ltac:(lia)) as (m & m' & -> & Em & E). rewrite (N.mul_comm (N.of_nat i)) in Em. rewrite Em, E. clear Em E.
    rewrite (firstn_all2 (skipn i ds)) by (rewrite skipn_length; lia).
    destruct (push_digits set (firstn i ds ++ es) (skipn i ds) D2 (digits_skipn _ _ _ D)) as [H62' P2]; [rewrite app_length, skipn_length; lia|].
    rewrite app_length, Lf, L2, Nat2N.inj_add, N.mul_add_distr_l, N.pow_add_r, N.mul_assoc in H62', P2.
    rewrite (N.mul_comm (N.of_nat (length ics))). rewrite shl_ok by (first [lia | eapply N.lt_trans; [exact H62'|reflexivity]]). rewrite P2.
    eexists. split; [reflexivity|]. rewrite !app_assoc. apply inline_digits_intro; [exact Hs|apply Forall2_app; [exact F2|apply skipn_digits, F]|rewrite !app_length, skipn_length; lia|].
    rewrite <- app_assoc. apply Forall_app. split; [now apply Forall_firstn|]. apply Forall_app. split; [exact S2|now apply Forall_skipn].
  - rewrite (skipn_all2 cs), app_nil_r by exact Li. eexists. split; [reflexivity|]. apply inline_digits_intro; [exact Hs|exact F2|apply D2|].
    apply Forall_app. split; [now apply Forall_firstn|exact S2].
Qed.

(** ** Removal *)

Lemma without_ok s cs offset n : represents M s cs -> offset + n <= length cs ->
  exists s', without M s offset n = Some s' /\ represents M s' (firstn offset cs ++ skipn (offset + n) cs).
Proof.
  intros R L. pose proof (represents_scalar M s cs R) as S. unfold without. rewrite (get_length_ok M GM s cs R).
  destruct (Nat.leb_spec (offset + n) (length cs)); [|lia]. cbn [negb]. destruct (Nat.eqb_spec n 0) as [->|Hn].
  { rewrite Nat.add_0_r, firstn_skipn. now apply copy_ok. }
  destruct (Nat.eqb_spec (offset + n) (length cs)) as [E|E].
  { rewrite (skipn_all2 cs) by lia. rewrite app_nil_r. destruct (substring_ok s cs 0 offset R ltac:(lia)) as (s' & Es & R'). eauto. }
  destruct s as [w|h].
  - destruct R as [_ [set I]]. rewrite (tagged_set M _ _ _ I). destruct (inline_digits M GM set cs w S I) as (ds & D & Ld & F & ->).
    pose proof (dg_set _ _ D) as Hs. pose proof (dg_len _ _ D) as Hm. rewrite !shiftr_tag by lia. rewrite low_start by (assumption || lia).
    destruct (mid_part set ds (n + offset) (length cs - (n + offset)) D ltac:(lia) ltac:(lia)) as (m & m' & -> & -> & Ea). rewrite Ea.
    pose proof (digits_word set ds n D ltac:(lia)). rewrite shr_ok by lia. rewrite (firstn_all2 (skipn (n + offset) ds)) by (rewrite skipn_length; lia).
    assert (Ediv : (packed (bits_of set) (skipn (n + offset) ds) * 2 ^ (bits_of set * N.of_nat (n + offset)) / 2 ^ (N.of_nat n * bits_of set))%N
      = (packed (bits_of set) (skipn (n + offset) ds) * 2 ^ (bits_of set * N.of_nat offset))%N).
    { rewrite Nat2N.inj_add, N.mul_add_distr_l, N.pow_add_r, (N.mul_comm (N.of_nat n)), (N.mul_comm (2 ^ (bits_of set * N.of_nat n))), N.mul_assoc. apply N.div_mul, pow2_nz. }
    rewrite Ediv. clear Ediv Ea. assert (Lf : length (firstn offset ds) = offset) by (rewrite firstn_length; lia).
    destruct (push_digits set (firstn offset ds) (skipn (n + offset) ds) (digits_firstn _ _ _ D) (digits_skipn _ _ _ D)) as [H62 P]; [rewrite skipn_length; lia|].
    rewrite Lf in P. rewrite P. eexists. split; [reflexivity|]. replace (offset + n) with (n + offset) by lia.
    apply inline_digits_intro; [exact Hs|apply Forall2_app; [apply firstn_digits, F|apply skipn_digits, F]|rewrite app_length, skipn_length; lia|].
    apply Forall_app. split; [now apply Forall_firstn|now apply Forall_skipn].
  - rewrite (get_size_ok M GM (Heap h) cs R), (copy_characters_ok (Heap h) cs 0 offset R), (copy_characters_ok (Heap h) cs (offset + n) _ R) by lia. cbn [skipn].
    rewrite (firstn_all2 (skipn (offset + n) cs)) by (rewrite skipn_length; lia). rewrite <- utf8_app. apply create_filled.
    + apply Forall_app. split; [apply Forall_firstn, R|apply Forall_skipn, R].
    + pose proof (utf8_len (firstn n (skipn offset cs))) as Lu. rewrite firstn_length, skipn_length in Lu.
      assert (Eu : length (utf8 cs) = length (utf8 (firstn offset cs)) + (length (utf8 (firstn n (skipn offset cs))) + length (utf8 (skipn (offset + n) cs)))).
      { rewrite <- !app_length, <- !utf8_app. f_equal. f_equal. rewrite (Nat.add_comm offset n), <- skipn_skipn, firstn_skipn. symmetry. apply firstn_skipn. }
      rewrite utf8_app, app_length. lia.
Qed.
End with_maps.
