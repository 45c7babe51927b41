(** Length, size, characters and enumerators of the strings that represent a sequence. *)
From Verif Require Import Base Word StringModel StringSpec StringPackProofs StringUtf8Proofs.

(** ** Maps *)

Lemma in_map_some c l i j : in_map c l i = Some j <-> exists d, (j = i + d)%N /\ first_at l c d.
Proof.
  revert i. induction l as [|x l IH]; intros i; cbn [in_map].
  - split; [discriminate|]. intros (d & _ & [E _]). destruct (N.to_nat d); discriminate.
  - destruct (N.eqb_spec x c) as [->|Hne].
    + split.
      * intros E. injection E as <-. exists 0%N. split; [lia|]. split; [reflexivity|]. cbn. lia.
      * intros (d & -> & [_ F]). destruct (N.eq_dec d 0) as [->|Hd]; [f_equal; lia|]. exfalso. apply (F 0); [lia|reflexivity].
    + rewrite IH. split; intros (d & E & [F1 F2]).
      * exists (d + 1)%N. split; [lia|]. assert (Ed : N.to_nat (d + 1) = Datatypes.S (N.to_nat d)) by lia.
        split; [rewrite Ed; exact F1|]. rewrite Ed. intros [|k] Hk; [cbn; congruence|]. apply F2. lia.
      * destruct (N.eq_dec d 0) as [->|Hd]; [cbn in F1; congruence|]. exists (d - 1)%N. split; [lia|].
        assert (Ed : N.to_nat d = Datatypes.S (N.to_nat (d - 1))) by lia. split; [rewrite Ed in F1; exact F1|].
        intros k Hk. apply (F2 (Datatypes.S k)). lia.
Qed.

Lemma in_map_ok c l d : in_map c l 0 = Some d <-> first_at l c d.
Proof.
  rewrite in_map_some. split; [intros (d' & E & F); now replace d with d' by lia|]. intros F. exists d. split; [lia|exact F].
Qed.

Lemma in_map_none c l i : in_map c l i = None <-> ~ In c l.
Proof.
  revert i. induction l as [|x l IH]; intros i; cbn [in_map In]; [tauto|]. destruct (N.eqb_spec x c) as [->|H]; [split; [discriminate|tauto]|].
  rewrite IH. tauto.
Qed.

Lemma first_at_unique l c d d' : first_at l c d -> first_at l c d' -> d = d'.
Proof. rewrite <- !in_map_ok. congruence. Qed.
Lemma first_at_fun l c c' d : first_at l c d -> first_at l c' d -> c = c'.
Proof. intros [E _] [E' _]. congruence. Qed.

Lemma in_first_at l c : In c l -> exists d, first_at l c d.
Proof. intros H. destruct (in_map c l 0) as [d|] eqn:E; [exists d; now apply in_map_ok|]. now apply in_map_none in E. Qed.
Lemma first_at_in l c d : first_at l c d -> In c l.
Proof. intros [E _]. now apply nth_error_In in E. Qed.

Section with_maps.
Context (M : env) (GM : good_maps M).

Lemma map_length set : (1 <= set <= 3)%N -> N.of_nat (length (chars_of M set)) = (2 ^ bits_of set - 1)%N.
Proof.
  intros H. destruct (GM set H) as (L & _). rewrite L, N2Nat.id, map_size_ones, N.ones_equiv by assumption. pose proof (pow2_pos (bits_of set)). lia.
Qed.

Lemma digit_ok set c d : (1 <= set <= 3)%N -> c <> 0%N -> first_at (chars_of M set) c d -> (d < 2 ^ bits_of set)%N /\ d <> 0%N.
Proof.
  intros H Hc [E _]. split.
  - pose proof (map_length set H). assert (N.to_nat d < length (chars_of M set)) by (apply nth_error_Some; congruence).
    pose proof (pow2_pos (bits_of set)). lia.
  - intros ->. destruct (GM set H) as (_ & Z & _). change (N.to_nat 0) with 0 in E. rewrite E in Z. congruence.
Qed.

Lemma scalar_nz c : scalar c -> c <> 0%N.
Proof. intros [H _]. lia. Qed.

(** The digits of an inline string. *)
Lemma inline_digits set cs w : Forall scalar cs -> inline M set cs w ->
  exists ds, digits set ds /\ length ds = length cs /\ Forall2 (first_at (chars_of M set)) cs ds /\ w = (set + 4 * packed (bits_of set) ds)%N.
Proof.
  intros S (Hs & Hl & ds & F & ->). exists ds. assert (L : length ds = length cs) by (symmetry; clear - F; induction F; cbn; congruence).
  split; [|split; [exact L|split; [exact F|reflexivity]]].
  assert (A : Forall (fun d => (d < 2 ^ bits_of set)%N /\ d <> 0%N) ds).
  { clear Hl L. revert S. induction F as [|c d cs ds Hd F IH]; intros S; constructor; inversion S; subst.
    - apply (digit_ok set c); auto using scalar_nz.
    - now apply IH. }
  split; [assumption|lia| |]; (eapply Forall_impl; [|exact A]); intros d [? ?]; assumption.
Qed.

Lemma inline_intro set cs ds : digits set ds -> Forall2 (first_at (chars_of M set)) cs ds -> inline M set cs (set + 4 * packed (bits_of set) ds)%N.
Proof.
  intros D F. assert (L : length ds = length cs) by (symmetry; clear - F; induction F; cbn; congruence).
  split; [apply D|]. split; [rewrite <- L; apply D|]. eauto.
Qed.

Lemma Forall2_nth {A B} (R : A -> B -> Prop) l l' i a b : Forall2 R l l' -> nth_error l i = Some a -> nth_error l' i = Some b -> R a b.
Proof. intros F. revert i. induction F; intros [|i]; cbn; try discriminate; [congruence|eauto]. Qed.

Lemma tagged_set set cs w : inline M set cs w -> set_of w = set.
Proof. intros (H & _ & ds & _ & ->). apply set_of_tag. lia. Qed.

Lemma tagged_len set cs w : Forall scalar cs -> inline M set cs w -> tagged_length w = length cs.
Proof. intros S I. destruct (inline_digits set cs w S I) as (ds & D & L & _ & ->). now rewrite tagged_length_ok. Qed.

(** The map entry of a digit, the entry 0 past the end. *)
Lemma char_of_digit set cs ds i : Forall2 (first_at (chars_of M set)) cs ds -> (1 <= set <= 3)%N ->
  nth_error (chars_of M set) (N.to_nat (nth i ds 0%N)) = Some (nth i cs 0%N).
Proof.
  intros F Hs. revert i. induction F as [|c d cs ds [E _] F IH]; intros [|i]; cbn [nth]; try apply (GM set Hs); [exact E|apply IH].
Qed.

Lemma tagged_at_ok set cs w i : Forall scalar cs -> inline M set cs w -> tagged_at M w (Some i) = Some (nth i cs 0%N).
Proof.
  intros S I. destruct (inline_digits set cs w S I) as (ds & D & L & F & ->). unfold tagged_at. pose proof (dg_set _ _ D) as Hs.
  rewrite set_of_tag by lia. destruct (Nat.ltb_spec i (char_max set)) as [H|H].
  - pose proof (digits_word set ds i D ltac:(lia)). rewrite shr_ok by lia.
    rewrite N.shiftr_div_pow2, N.div_div by (apply pow2_nz || (vm_compute; discriminate)).
    rewrite (N.mul_comm (2 ^ _)), <- N.div_div by (apply pow2_nz || (vm_compute; discriminate)).
    rewrite <- (N.shiftr_div_pow2 _ 2), shiftr_tag by lia. rewrite digit_at by (lia || assumption). now apply char_of_digit.
  - rewrite nth_overflow by (pose proof (dg_len _ _ D); lia). reflexivity.
Qed.

Lemma lookup_ok set cs ds i : digits set ds -> Forall2 (first_at (chars_of M set)) cs ds -> i <= char_max set ->
  lookup M set (packed (bits_of set) ds) i = Some (nth i cs 0%N).
Proof.
  intros D F Hi. unfold lookup. pose proof (digits_word set ds i D ltac:(lia)). rewrite shr_ok by lia.
  rewrite digit_at by assumption. apply char_of_digit; [exact F|apply D].
Qed.

Lemma char_size_nth cs i : Forall scalar cs -> char_size (nth i cs 0%N) = match nth_error cs i with Some c => length (utf8_char c) | None => 0 end.
Proof.
  intros S. destruct (nth_error cs i) as [c|] eqn:E.
  - erewrite nth_error_nth by exact E. apply char_size_ok, scalar_nz. rewrite Forall_forall in S. apply S. now apply nth_error_In with i.
  - rewrite nth_overflow by (now apply nth_error_None). reflexivity.
Qed.

Lemma tagged_size_ok set cs ds : Forall scalar cs -> digits set ds -> Forall2 (first_at (chars_of M set)) cs ds ->
  forall n i, i + n <= char_max set -> tagged_size M set (packed (bits_of set) ds) i n = Some (length (utf8 (firstn n (skipn i cs)))).
Proof.
  intros S D F. induction n as [|n IH]; intros i Hi; cbn [tagged_size]; [reflexivity|].
  rewrite (lookup_ok set cs ds i D F) by lia. rewrite IH by lia. rewrite char_size_nth by assumption. f_equal.
  destruct (nth_error cs i) as [c|] eqn:E.
  - assert (Es : skipn i cs = c :: skipn (i + 1) cs).
    { rewrite Nat.add_1_r. clear - E. revert i E. induction cs as [|x cs IH]; intros [|i] E; try discriminate; [injection E as ->; reflexivity|]. cbn [skipn]. now apply IH. }
    rewrite Es. cbn [firstn]. rewrite utf8_cons, app_length. reflexivity.
  - apply nth_error_None in E. rewrite !skipn_all2, !firstn_nil by lia. reflexivity.
Qed.

(** ** Bytes in memory *)

Lemma encode_nz e cs : Forall (encodable e) cs -> Forall (fun b => b <> 0%N) (encode e cs).
Proof.
  intros H. destruct e; cbn [encode]; [eapply Forall_impl; [|exact H]; intros c [S _]; now apply scalar_nz|].
  apply utf8_nz. eapply Forall_impl; [|exact H]. now intros c [S _].
Qed.

Lemma strlen_ok l r : Forall (fun b => b <> 0%N) l -> strlen (l ++ 0%N :: r) = Some (length l).
Proof.
  induction 1 as [|b l Hb _ IH]; cbn [app strlen length]; [reflexivity|]. destruct (N.eqb_spec b 0); [contradiction|]. now rewrite IH.
Qed.

Lemma strncpy_ok l r n : Forall (fun b => b <> 0%N) l -> n <= length l -> strncpy (l ++ r) n = Some (firstn n l).
Proof.
  intros H. revert n. induction H as [|b l Hb _ IH]; intros n Hn; (destruct n as [|n]; [now destruct (_ ++ r)|]); cbn [length] in Hn; [lia|].
  cbn [app strncpy firstn]. destruct (N.eqb_spec b 0); [contradiction|]. now rewrite IH by lia.
Qed.

Lemma encodable_scalar e cs : Forall (encodable e) cs -> Forall scalar cs.
Proof. intros H. eapply Forall_impl; [|exact H]. now intros c [S _]. Qed.

Lemma represents_scalar s cs : represents M s cs -> Forall scalar cs.
Proof. destruct s as [w|h]; [now intros [S _]|intros [S _]; exact (encodable_scalar _ _ S)]. Qed.

(** For ASCII and UTF-8 alike the bytes are the UTF-8 encoding. *)
Lemma ascii_utf8 cs : Forall (encodable ASCII) cs -> utf8 cs = cs.
Proof.
  induction 1 as [|c cs [S L] _ IH]; [reflexivity|]. rewrite utf8_cons, IH. unfold utf8_char.
  change (match ASCII with ASCII => (c < 128)%N | UTF8 => True end) with (c < 128)%N in L.
  destruct (N.ltb_spec c 0x80); [reflexivity|lia].
Qed.
Lemma encode_utf8 e cs : Forall (encodable e) cs -> encode e cs = utf8 cs.
Proof. destruct e; intros H; [symmetry; now apply ascii_utf8|reflexivity]. Qed.

Lemma get_size_ok s cs : represents M s cs -> get_size M s = Some (length (utf8 cs)).
Proof.
  destruct s as [w|h]; intros R; cbn [get_size].
  - destruct R as [S [set I]]. destruct (inline_digits set cs w S I) as (ds & D & L & F & ->). pose proof (dg_set _ _ D).
    rewrite set_of_tag, shiftr_tag by lia. rewrite (tagged_size_ok set cs ds S D F) by lia.
    cbn [skipn]. rewrite firstn_all2 by (pose proof (dg_len _ _ D); lia). reflexivity.
  - destruct R as (S & _ & rest & E & Z & [Hn|Hn]); rewrite Hn.
    + destruct Z as [[r ->]|(_ & Z & _)]; [|contradiction]. rewrite E, strlen_ok by (now apply encode_nz). now rewrite encode_utf8.
    + now rewrite encode_utf8.
Qed.

Lemma stored_utf8 h cs : stored h cs -> h_encoding h = UTF8 -> exists r, h_mem h = utf8 cs ++ 0%N :: r.
Proof. intros (_ & _ & rest & E & Z & _) Hu. rewrite Hu in *. destruct Z as [[r ->]|(Z & _)]; [now exists r|discriminate]. Qed.
Lemma stored_ascii h cs : stored h cs -> h_encoding h = ASCII -> exists r, h_mem h = cs ++ r.
Proof. intros (_ & _ & rest & E & _) Hu. rewrite Hu in *. now exists rest. Qed.
Lemma stored_encodable h cs e : stored h cs -> h_encoding h = e -> Forall (encodable e) cs.
Proof. intros (S & _) <-. exact S. Qed.

Lemma get_length_ok s cs : represents M s cs -> get_length M s = Some (length cs).
Proof.
  destruct s as [w|h]; intros R; cbn [get_length].
  - destruct R as [S [set I]]. f_equal. now apply (tagged_len set cs).
  - destruct (h_encoding h) eqn:E.
    + rewrite (get_size_ok _ cs R). f_equal. f_equal. apply ascii_utf8. now apply (stored_encodable h).
    + destruct (stored_utf8 h cs R E) as [r Em]. rewrite Em.
      apply (length_utf8_ok cs) with (pre := []); [exact (represents_scalar _ _ R)|].
      rewrite app_length. pose proof (utf8_len cs). lia.
Qed.

(** ** Enumerators *)

Definition positioned (s : str) (cs : list N) (st : estate) (p : position) : Prop :=
  match p with At i => i < length cs | Past => True end /\
  match s with
  | Tagged _ => exists off fwd, st = Internal (index p) (char_at_position cs p) off fwd
  | Heap h =>
      match h_encoding h with
      | ASCII => st = Batch (index p) (match p with At _ => length cs | Past => 0 end)
      | UTF8 => exists off fwd, st = Internal (index p) (char_at_position cs p) off fwd /\
                  match p with At i => off = length (utf8 (firstn (if fwd then i + 1 else i) cs)) | Past => True end
      end
  end.

Lemma positioned_index s cs st p : positioned s cs st p -> enum_index st = index p.
Proof.
  intros [_ H]. destruct s as [w|h]; [destruct H as (off & fwd & ->); reflexivity|]. destruct (h_encoding h); [now subst st|].
  destruct H as (off & fwd & -> & _). reflexivity.
Qed.

Lemma sext_small b : (b < 128)%N -> sext b = b.
Proof. intros H. unfold sext. destruct (N.ltb_spec b 128); [reflexivity|lia]. Qed.

Lemma batch_at_ok h cs i : stored h cs -> h_encoding h = ASCII -> i < length cs -> batch_at h (Some i) = Some (nth i cs 0%N).
Proof.
  intros R E H. destruct (stored_ascii h cs R E) as [r Em]. unfold batch_at. rewrite Em, nth_error_app1 by assumption.
  destruct (nth_error cs i) as [c|] eqn:Ec; [|apply nth_error_None in Ec; lia]. erewrite nth_error_nth by exact Ec. f_equal. apply sext_small.
  pose proof (stored_encodable h cs ASCII R E) as F. rewrite Forall_forall in F. apply (F c). now apply nth_error_In with i.
Qed.

Lemma positioned_current s cs st p : represents M s cs -> positioned s cs st p -> enum_current s st = Some (char_at_position cs p).
Proof.
  intros R [Hi H]. destruct s as [w|h]; [destruct H as (off & fwd & ->); reflexivity|]. destruct (h_encoding h) eqn:E.
  - subst st. destruct p as [i|]; cbn [index enum_current char_at_position]; [|reflexivity].
    destruct (Nat.eqb_spec (length cs) 0); [lia|]. now apply batch_at_ok.
  - destruct H as (off & fwd & -> & _). reflexivity.
Qed.

(** The bytes around the character at a place. *)
Lemma around cs i : i < length cs -> cs = firstn i cs ++ nth i cs 0%N :: skipn (i + 1) cs.
Proof.
  intros H. rewrite <- (firstn_skipn i cs) at 1. f_equal. rewrite Nat.add_1_r.
  revert i H. induction cs as [|c cs IH]; intros [|i] H; cbn [length] in *; try lia; [reflexivity|]. cbn [skipn nth]. apply IH. lia.
Qed.
Lemma firstn_next cs i : i < length cs -> firstn (i + 1) cs = firstn i cs ++ [nth i cs 0%N].
Proof.
  intros H. rewrite (around cs i H) at 1. rewrite firstn_app, firstn_length, Nat.min_l by lia.
  replace (i + 1 - i) with 1 by lia. cbn [firstn]. rewrite firstn_firstn, Nat.min_r by lia. reflexivity.
Qed.

Lemma utf8_around cs i r : i < length cs ->
  utf8 cs ++ r = utf8 (firstn i cs) ++ utf8_char (nth i cs 0%N) ++ (utf8 (skipn (i + 1) cs) ++ r).
Proof. intros H. rewrite (around cs i H) at 1. rewrite utf8_app, utf8_cons, <- !app_assoc. reflexivity. Qed.

Lemma scalar_nth cs i : Forall scalar cs -> i < length cs -> scalar (nth i cs 0%N).
Proof. intros S H. rewrite Forall_forall in S. apply S. now apply nth_In. Qed.

Lemma get_at mem cs r i : mem = utf8 cs ++ r -> Forall scalar cs -> i < length cs ->
  get_utf8 mem (length (utf8 (firstn i cs))) = Some (nth i cs 0%N, length (utf8_char (nth i cs 0%N))).
Proof. intros -> S H. rewrite (utf8_around cs i r H). apply get_utf8_ok. now apply scalar_nth. Qed.

Lemma utf8_next_len cs i : i < length cs ->
  length (utf8 (firstn (i + 1) cs)) = length (utf8 (firstn i cs)) + length (utf8_char (nth i cs 0%N)).
Proof. intros H. rewrite (firstn_next cs i H), utf8_app, app_length. cbn [utf8 map concat]. now rewrite app_nil_r. Qed.

Lemma on_ok mem cs r i j : mem = utf8 cs ++ r -> Forall scalar cs -> j < length cs ->
  on_utf8 mem i (length (utf8 (firstn j cs))) = Some (Some (succ_index i), nth j cs 0%N, length (utf8 (firstn (j + 1) cs))).
Proof. intros E S H. unfold on_utf8. rewrite (get_at mem cs r j E S H), utf8_next_len by assumption. reflexivity. Qed.

Lemma prev_at mem cs r j : mem = utf8 cs ++ r -> Forall scalar cs -> j < length cs ->
  exists k, length (utf8 (firstn (j + 1) cs)) = Datatypes.S k /\ prev_codepoint mem k = Some (length (utf8 (firstn j cs))).
Proof.
  intros E S H. pose proof (utf8_char_nonempty (nth j cs 0%N)) as L. rewrite utf8_next_len by assumption.
  exists (length (utf8 (firstn j cs)) + (length (utf8_char (nth j cs 0%N)) - 1)). split; [lia|].
  rewrite E, (utf8_around cs j r H). apply prev_codepoint_ok; [now apply scalar_nth|lia].
Qed.

Lemma back_ok mem cs r i j : mem = utf8 cs ++ r -> Forall scalar cs -> j < length cs ->
  back_utf8 mem i (length (utf8 (firstn (j + 1) cs))) = Some (pred_index i, nth j cs 0%N, length (utf8 (firstn j cs))).
Proof.
  intros E S H. destruct (prev_at mem cs r j E S H) as (k & Ek & Ep). unfold back_utf8. rewrite Ek, Ep.
  now rewrite (get_at mem cs r j E S H).
Qed.

Definition returned (s : str) (cs : list N) (p : position) (a : action) : N :=
  match a, p with Next, Past | Previous, Past => past_char s | _, _ => char_at_position cs p end.

Lemma tagged_go set cs w i : Forall scalar cs -> inline M set cs w ->
  tagged_at M w (Some i) = Some (char_at_position cs (At i)).
Proof. intros. now apply (tagged_at_ok set). Qed.

Lemma move_ok s cs st p a p' : represents M s cs -> cs <> [] -> positioned s cs st p -> moved cs p a = Some p' ->
  exists st', enum_move M s st a = Some (st', returned s cs p' a) /\ positioned s cs st' p'.
Proof.
  intros R Hne P Hm.
  assert (Hl : 0 < length cs) by (destruct cs; [contradiction|cbn; lia]).
  assert (Hc : a = Current -> enum_move M s st a = (let? c := enum_current s st in Some (st, c)))
    by (intros ->; unfold enum_move; destruct st, s; reflexivity).
  assert (Da : a = Current \/ a <> Current) by (destruct a; (now left) || (right; discriminate)). destruct Da as [->|Ha].
  { injection Hm as <-. rewrite Hc by reflexivity. rewrite (positioned_current s cs st p R P). exists st. split; [|exact P]. now destruct p. }
  clear Hc. pose proof P as [Hp P']. destruct s as [w|h].
  - destruct P' as (off & fwd & ->). assert (Em : enum_move M (Tagged w) (Internal (index p) (char_at_position cs p) off fwd) a
      = tagged_step M w (Internal (index p) (char_at_position cs p) off fwd) a) by (destruct a; [reflexivity..|contradiction]).
    rewrite Em. clear Em. destruct R as [S [set I]]. pose proof (tagged_len set cs w S I) as Hlen. pose proof (tagged_go set cs w) as G.
    destruct a; cbn [moved] in Hm; cbn [tagged_step]; try contradiction.
    + injection Hm as <-. rewrite G by assumption. eexists. split; [reflexivity|]. split; [lia|]. now exists off, fwd.
    + injection Hm as <-. rewrite Hlen. replace (pred_index (length cs)) with (Some (length cs - 1)) by (destruct (length cs); [lia|cbn; f_equal; lia]).
      rewrite G by assumption. eexists. split; [reflexivity|]. split; [lia|]. now exists off, fwd.
    + destruct p as [i|]; [|discriminate]. injection Hm as <-. cbn [index succ_index]. rewrite Hlen.
      destruct (Nat.ltb_spec (i + 1) (length cs)); destruct (Nat.leb_spec (length cs) (i + 1)); try lia.
      * rewrite G by assumption. eexists. split; [reflexivity|]. split; [lia|]. now exists off, fwd.
      * eexists. split; [reflexivity|]. split; [exact Logic.I|]. now exists off, fwd.
    + destruct p as [[|i]|]; [| |discriminate]; injection Hm as <-; cbn [index].
      * eexists. split; [reflexivity|]. split; [exact Logic.I|]. now exists off, fwd.
      * rewrite G by assumption. eexists. split; [reflexivity|]. split; [lia|]. now exists off, fwd.
  - unfold past_char, positioned in *. destruct (h_encoding h) eqn:E.
    + subst st. pose proof (get_length_ok (Heap h) cs R) as GL. pose proof (batch_at_ok h cs) as B.
      destruct R as (R1 & (b0 & Eb0 & Lb0) & R2). assert (R : stored h cs) by (split; [exact R1|split; [now exists b0|exact R2]]).
      assert (Past_ok : batch_at h None = Some (returned (Heap h) cs Past Next)) by (unfold batch_at, returned, past_char; rewrite E, Eb0; reflexivity).
      destruct a; cbn [moved] in Hm; cbn [enum_move]; unfold enumerator; rewrite ?E; unfold ascii_step; try contradiction.
      * injection Hm as <-. rewrite GL, B by (lia || assumption). eexists. split; [reflexivity|]. split; [lia|reflexivity].
      * injection Hm as <-. rewrite GL. replace (pred_index (length cs)) with (Some (length cs - 1)) by (destruct (length cs); [lia|cbn; f_equal; lia]).
        rewrite B by (lia || assumption). eexists. split; [reflexivity|]. split; [lia|reflexivity].
      * destruct p as [i|]; [|discriminate]. injection Hm as <-. cbn [index succ_index]. destruct (Nat.eqb_spec (length cs) 0); [lia|].
        destruct (Nat.ltb_spec (i + 1) (length cs)).
        -- rewrite B by (lia || assumption). eexists. split; [reflexivity|]. split; [lia|reflexivity].
        -- rewrite Past_ok. eexists. split; [reflexivity|]. split; [exact Logic.I|reflexivity].
      * destruct p as [[|i]|]; [| |discriminate]; injection Hm as <-; cbn [index]; destruct (Nat.eqb_spec (length cs) 0); try lia.
        -- rewrite Past_ok. eexists. split; [reflexivity|]. split; [exact Logic.I|reflexivity].
        -- rewrite B by (lia || assumption). eexists. split; [reflexivity|]. split; [lia|reflexivity].
    + destruct P' as (off & fwd & -> & Ho). assert (Em : enum_move M (Heap h) (Internal (index p) (char_at_position cs p) off fwd) a
        = utf8_step M h (Internal (index p) (char_at_position cs p) off fwd) a)
        by (destruct a; cbn [enum_move]; unfold enumerator; rewrite ?E; [reflexivity..|contradiction]).
      rewrite Em. clear Em. pose proof (represents_scalar _ _ R) as S. destruct (stored_utf8 h cs R E) as [r Er].
      unfold utf8_step. rewrite (get_length_ok (Heap h) cs R).
      assert (Rp : returned (Heap h) cs Past a = 0%N) by (unfold returned, past_char; rewrite E; now destruct a).
      destruct a; cbn [moved] in Hm; try contradiction.
      * injection Hm as <-. pose proof (get_at _ cs _ 0 Er S Hl) as G. cbn [firstn] in G. change (length (utf8 [])) with 0 in G. rewrite G.
        eexists. split; [reflexivity|]. split; [lia|]. exists (length (utf8_char (nth 0 cs 0%N))), true. split; [reflexivity|].
        rewrite utf8_next_len by assumption. reflexivity.
      * injection Hm as <-. rewrite (get_size_ok (Heap h) cs R).
        destruct (prev_at _ cs _ (length cs - 1) Er S ltac:(lia)) as (k & Ek & Ep).
        replace (length cs - 1 + 1) with (length cs) in Ek by lia. rewrite firstn_all in Ek. rewrite Ek, Ep.
        rewrite (get_at _ cs _ (length cs - 1) Er S) by lia.
        replace (pred_index (length cs)) with (Some (length cs - 1)) by (destruct (length cs); [lia|cbn; f_equal; lia]).
        eexists. split; [reflexivity|]. split; [lia|]. do 2 eexists. split; [reflexivity|]. reflexivity.
      * destruct p as [i|]; [|discriminate]. injection Hm as <-. cbn [index succ_index].
        destruct (Nat.ltb_spec (i + 1) (length cs)) as [L|L]; destruct (Nat.leb_spec (length cs) (i + 1)); try lia.
        -- assert (Eo : (if fwd then Some off else let? (_, _, off) := on_utf8 (h_mem h) (Some i) off in Some off) = Some (length (utf8 (firstn (i + 1) cs)))).
           { destruct fwd; subst off; [reflexivity|]. now rewrite (on_ok _ cs _ (Some i) i Er S) by assumption. }
           rewrite Eo, (on_ok _ cs _ (Some i) (i + 1) Er S) by assumption.
           eexists. split; [reflexivity|]. split; [lia|]. do 2 eexists. split; [reflexivity|]. reflexivity.
        -- rewrite Rp. eexists. split; [reflexivity|]. split; [exact Logic.I|]. do 2 eexists. split; [reflexivity|exact Logic.I].
      * destruct p as [[|i]|]; [| |discriminate]; injection Hm as <-; cbn [index].
        -- rewrite Rp. eexists. split; [reflexivity|]. split; [exact Logic.I|]. do 2 eexists. split; [reflexivity|exact Logic.I].
        -- assert (Eo : (if fwd then let? (_, _, off) := back_utf8 (h_mem h) (Datatypes.S i) off in Some off else Some off) = Some (length (utf8 (firstn (i + 1) cs)))).
           { destruct fwd; subst off.
             - rewrite (back_ok _ cs _ (Datatypes.S i) (Datatypes.S i) Er S) by assumption. rewrite Nat.add_1_r. reflexivity.
             - rewrite Nat.add_1_r. reflexivity. }
           rewrite Eo, (back_ok _ cs _ (Datatypes.S i) i Er S) by lia. cbn [pred_index].
           eexists. split; [reflexivity|]. split; [lia|]. do 2 eexists. split; [reflexivity|]. reflexivity.
Qed.

Lemma get_enumerator_ok s cs : represents M s cs -> cs <> [] -> exists st, get_enumerator M s = Some st /\ positioned s cs st (At 0).
Proof.
  intros R Hne. set (start := match s with Heap h => match h_encoding h with ASCII => Batch None 0 | UTF8 => Internal None 0 0 true end | Tagged _ => Internal None 0 0 true end).
  assert (P : positioned s cs start Past).
  { split; [exact Logic.I|]. subst start. destruct s as [w|h]; [now do 2 eexists|]. destruct (h_encoding h); [reflexivity|].
    do 2 eexists. split; [reflexivity|exact Logic.I]. }
  destruct (move_ok s cs start Past Head (At 0) R Hne P eq_refl) as (st & Em & P'). exists st. split; [|exact P'].
  unfold get_enumerator. fold start. replace (enumerator M s start Head) with (enum_move M s start Head) by (unfold enum_move, start; destruct s as [w|h]; [reflexivity|]; now destruct (h_encoding h)).
  now rewrite Em.
Qed.

(** The empty string. *)
Lemma get_enumerator_empty s : represents M s [] ->
  exists st, get_enumerator M s = Some st /\ enum_current s st = Some 0%N /\ enum_index st = Some 0 /\
    enum_move M s st Next = Some ((match s with Heap h => match h_encoding h with ASCII => Batch (Some 0) 0 | UTF8 => Internal None 0 1 true end | Tagged _ => Internal None 0 0 true end), 0%N).
Proof.
  intros R. destruct s as [w|h].
  - destruct R as [S [set I]]. pose proof (tagged_at_ok set [] w 0 S I) as G. cbn [nth] in G. pose proof (tagged_len set [] w S I) as L.
    unfold get_enumerator, enumerator, tagged_step. rewrite G. eexists. split; [reflexivity|]. split; [reflexivity|]. split; [reflexivity|].
    unfold enum_move, enumerator, tagged_step. rewrite L. reflexivity.
  - pose proof (get_length_ok (Heap h) [] R) as GL. destruct R as (_ & _ & rest & Em & Z & _).
    assert (E0 : exists r, h_mem h = 0%N :: r).
    { destruct Z as [[r ->]|(_ & _ & Z)]; [|contradiction]. exists r. rewrite Em. now destruct (h_encoding h). }
    destruct E0 as [r E0]. unfold get_enumerator, enumerator. destruct (h_encoding h) eqn:E.
    + unfold ascii_step. rewrite GL. unfold batch_at. rewrite E0. cbn [nth_error]. eexists. split; [reflexivity|].
      split; [reflexivity|]. split; [reflexivity|]. reflexivity.
    + unfold utf8_step. rewrite GL, E0. rewrite (get_utf8_end [] r : get_utf8 (0%N :: r) 0 = _). eexists. split; [reflexivity|].
      split; [reflexivity|]. split; [reflexivity|]. unfold enum_move, enumerator. rewrite E. unfold utf8_step. rewrite GL. reflexivity.
Qed.

(** ** Character at an index *)

Lemma forward_ok s cs : represents M s cs -> cs <> [] -> forall n i st c, positioned s cs st (At i) -> i + n < length cs -> c = nth i cs 0%N ->
  exists st', forward M s st c n = Some (st', nth (i + n) cs 0%N) /\ positioned s cs st' (At (i + n)).
Proof.
  intros R Hne. induction n as [|n IH]; intros i st c P H ->; cbn [forward].
  - rewrite Nat.add_0_r. eauto.
  - assert (Hm : moved cs (At i) Next = Some (At (i + 1))) by (cbn [moved]; destruct (Nat.ltb_spec (i + 1) (length cs)); [reflexivity|lia]).
    destruct (move_ok s cs st (At i) Next (At (i + 1)) R Hne P Hm) as (st' & -> & P'). cbn [returned char_at_position].
    replace (i + Datatypes.S n) with (i + 1 + n) by lia. apply IH; [exact P'|lia|reflexivity].
Qed.

Lemma char_at_ok s cs i : represents M s cs -> i < length cs -> char_at M s i = Some (nth i cs 0%N).
Proof.
  intros R H. assert (Hne : cs <> []) by (intros ->; cbn in H; lia). unfold char_at. rewrite (get_length_ok s cs R). destruct (Nat.ltb_spec i (length cs)); [|lia]. cbn [negb].
  destruct s as [w|h]; [destruct R as [S [set I]]; now apply (tagged_at_ok set)|]. destruct (h_encoding h) eqn:E; [now apply batch_at_ok|].
  destruct (get_enumerator_ok (Heap h) cs R Hne) as (st & -> & P). rewrite (positioned_current _ cs st _ R P).
  destruct (forward_ok (Heap h) cs R Hne i 0 st (nth 0 cs 0%N) P ltac:(lia) eq_refl) as (st' & Ef & _). cbn [char_at_position]. now rewrite Ef.
Qed.

(** Any sequence of calls of an enumerator. *)
Lemma quiet_past s : (match s with Heap h => h_encoding h = ASCII -> h_before h = Some 0%N | Tagged _ => True end) -> past_char s = 0%N.
Proof. destruct s as [w|h]; [reflexivity|]. unfold past_char. destruct (h_encoding h); [|reflexivity]. intros H. now rewrite H. Qed.

Lemma enumerated_ok s cs : represents M s cs -> cs <> [] -> quiet s -> forall l st p cl, positioned s cs st p -> walked cs p l = Some cl -> enumerated M s st l = Some cl.
Proof.
  intros R Hne Q. induction l as [|a l IH]; intros st p cl P W; cbn [walked enumerated] in *; [exact W|].
  destruct (moved cs p a) as [p'|] eqn:Em; [|discriminate]. destruct (walked cs p' l) as [cl'|] eqn:Ew; [|discriminate]. injection W as <-.
  destruct (move_ok s cs st p a p' R Hne P Em) as (st' & -> & P'). rewrite (IH st' p' cl' P' Ew), (positioned_index s cs st' p' P'). f_equal. f_equal. f_equal.
  unfold returned. rewrite (quiet_past s Q). destruct p'; [now destruct a|]. now destruct a.
Qed.
End with_maps.
