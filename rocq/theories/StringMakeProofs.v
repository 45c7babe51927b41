(** Creating strings, and making strings from strings. *)
From Verif Require Import Base Word StringModel StringSpec StringPackProofs StringUtf8Proofs StringReadProofs StringCompareProofs.

Section with_maps.
Context (M : env) (GM : good_maps M).

(** ** Inline strings *)

Lemma Forall2_length {A B} (R : A -> B -> Prop) l l' : Forall2 R l l' -> length l = length l'.
Proof. induction 1; cbn; congruence. Qed.

Lemma nz_digit set c d : (1 <= set <= 3)%N -> scalar c -> first_at (chars_of M set) c d -> (d < 2 ^ bits_of set)%N /\ d <> 0%N.
Proof. intros. apply (digit_ok M GM set c); auto using scalar_nz. Qed.

Lemma digits_of set cs ds : (1 <= set <= 3)%N -> Forall scalar cs -> length cs <= char_max set -> Forall2 (first_at (chars_of M set)) cs ds -> digits set ds.
Proof.
  intros Hs S L F. destruct (inline_digits M GM set cs (set + 4 * packed (bits_of set) ds) S) as (es & D & _ & F' & _).
  { split; [exact Hs|]. split; [exact L|]. now exists ds. }
  now rewrite (proj1 (digits_eq M set cs cs ds es F F') eq_refl).
Qed.

(** One more digit at the end. *)
Lemma push_digit set cs ds c d : (1 <= set <= 3)%N -> Forall scalar cs -> scalar c -> length cs < char_max set -> Forall2 (first_at (chars_of M set)) cs ds -> first_at (chars_of M set) c d ->
  exists x, shl d (bits_of set * N.of_nat (length cs)) = Some x /\
    N.lor (set + 4 * packed (bits_of set) ds) (wshl 64 x 2) = (set + 4 * packed (bits_of set) (ds ++ [d]))%N.
Proof.
  intros Hs S Sc L F Hd. assert (D : digits set ds) by (apply (digits_of set cs); auto; lia). pose proof (Forall2_length _ _ _ F) as El.
  assert (D1 : digits set [d]) by (apply (digits_of set [c]); auto; cbn [length]; lia).
  pose proof (shifted_62 set [d] (length cs) D1 ltac:(cbn [length]; lia)) as H62. cbn [packed] in H62. rewrite N.mul_0_r, N.add_0_r in H62.
  pose proof (digits_word set ds (length cs) D ltac:(lia)) as W. exists (d * 2 ^ (bits_of set * N.of_nat (length cs)))%N.
  split; [apply shl_ok; [lia|]; eapply N.lt_trans; [exact H62|reflexivity]|].
  rewrite wshl_tag by exact H62. rewrite <- N.mul_assoc, <- N.pow_add_r, lor_add.
  - rewrite packed_app, <- El, N.pow_add_r. cbn [packed]. change (2 ^ 2)%N with 4%N. lia.
  - pose proof (packed_lt (bits_of set) ds (dg_lt _ _ D)) as P. rewrite <- El in P. rewrite N.pow_add_r. change (2 ^ 2)%N with 4%N. lia.
Qed.

Lemma tag_ascii_ok set : (1 <= set <= 3)%N -> forall todo done ds rest, Forall (encodable ASCII) todo -> Forall scalar done ->
  length done + length todo <= char_max set -> Forall2 (first_at (chars_of M set)) done ds ->
  exists w, tag_ascii M set (todo ++ rest) (N.of_nat (length done)) (length todo) (set + 4 * packed (bits_of set) ds) = Some w /\
    (w <> 0%N -> inline M set (done ++ todo) w) /\ (w = 0%N -> ~ forall c, In c todo -> In c (chars_of M set)).
Proof.
  intros Hs. induction todo as [|c todo IH]; intros done ds rest St Sd L F; cbn [tag_ascii length app].
  - eexists. split; [now destruct rest|]. split; [|lia]. intros _. rewrite app_nil_r. split; [exact Hs|]. split; [cbn [length] in L; lia|]. now exists ds.
  - inversion St as [|? ? [Sc Lc] St']; subst. rewrite sext_small by exact Lc. destruct (in_map c (chars_of M set) 0) as [d|] eqn:E.
    + apply in_map_ok in E. cbn [length] in L. destruct (push_digit set done ds c d Hs Sd Sc ltac:(lia) F E) as (x & -> & ->).
      destruct (IH (done ++ [c]) (ds ++ [d]) rest St') as (w & Ew & H1 & H2).
      * apply Forall_app. split; [exact Sd|now constructor].
      * rewrite app_length. cbn [length]. lia.
      * apply Forall2_app; [exact F|now constructor].
      * rewrite app_length in Ew. cbn [length] in Ew. replace (N.of_nat (length done + 1)) with (N.of_nat (length done) + 1)%N in Ew by lia. rewrite Ew.
        exists w. split; [reflexivity|]. rewrite <- app_assoc in H1. split; [exact H1|]. intros Hw A. apply (H2 Hw). intros c' I. apply A. now right.
    + exists 0%N. split; [reflexivity|]. split; [lia|]. intros _ A. apply in_map_none in E. apply E, A. now left.
Qed.

Lemma quotient_max set : (1 <= set <= 3)%N -> (62 / bits_of set)%N = N.of_nat (char_max set).
Proof. intros H. now apply (set_cases (fun set => (62 / bits_of set)%N = N.of_nat (char_max set))). Qed.

Lemma tag_utf8_ok set : (1 <= set <= 3)%N -> forall todo done ds rest fuel, Forall scalar todo -> Forall scalar done ->
  length done <= char_max set -> Forall2 (first_at (chars_of M set)) done ds -> length todo < fuel ->
  exists w, tag_utf8 fuel M set (utf8 done ++ utf8 todo ++ rest) (length (utf8 done)) (length (utf8 (done ++ todo))) (N.of_nat (length done)) (set + 4 * packed (bits_of set) ds) = Some w /\
    (w <> 0%N -> inline M set (done ++ todo) w) /\ (w = 0%N -> ~ (length (done ++ todo) <= char_max set /\ forall c, In c todo -> In c (chars_of M set))).
Proof.
  intros Hs. induction todo as [|c todo IH]; intros done ds rest fuel St Sd L F Hf; (destruct fuel as [|fuel]; [lia|]); cbn [tag_utf8].
  - rewrite app_nil_r, Nat.leb_refl. eexists. split; [reflexivity|]. split; [|lia]. intros _. split; [exact Hs|]. split; [exact L|]. now exists ds.
  - inversion St as [|? ? Sc St']; subst. rewrite utf8_app, utf8_cons, !app_length. pose proof (utf8_char_nonempty c).
    destruct (Nat.leb_spec (length (utf8 done) + (length (utf8_char c) + length (utf8 todo))) (length (utf8 done))); [lia|].
    rewrite <- !app_assoc. rewrite (get_utf8_ok (utf8 done) c (utf8 todo ++ rest) Sc). rewrite (quotient_max set Hs).
    destruct (N.ltb_spec (N.of_nat (length done)) (N.of_nat (char_max set))) as [Lm|Lm].
    + destruct (in_map c (chars_of M set) 0) as [d|] eqn:E.
      * apply in_map_ok in E. destruct (push_digit set done ds c d Hs Sd Sc ltac:(lia) F E) as (x & -> & ->).
        destruct (IH (done ++ [c]) (ds ++ [d]) rest fuel St') as (w & Ew & H1 & H2).
        -- apply Forall_app. split; [exact Sd|now constructor].
        -- rewrite app_length. cbn [length]. lia.
        -- apply Forall2_app; [exact F|now constructor].
        -- cbn [length] in Hf. lia.
        -- rewrite !utf8_app in Ew. change (utf8 [c]) with (utf8_char c ++ []) in Ew. rewrite app_nil_r, !app_length, <- !app_assoc, <- Nat.add_assoc in Ew. cbn [length] in Ew.
           replace (N.of_nat (length done + 1)) with (N.of_nat (length done) + 1)%N in Ew by lia. rewrite Ew. exists w. split; [reflexivity|].
           rewrite <- app_assoc in H1, H2. cbn [app] in H1, H2. split; [exact H1|]. intros Hw [A1 A2]. apply (H2 Hw). rewrite app_length in *. split; [exact A1|]. intros c' I. apply A2. now right.
      * exists 0%N. split; [reflexivity|]. split; [lia|]. intros _ [_ A]. apply in_map_none in E. apply E, A. now left.
    + exists 0%N. split; [reflexivity|]. split; [lia|]. intros _ [A _]. cbn [length] in A. lia.
Qed.

Definition fits_in (cs : list N) (set : N) : Prop := length cs <= char_max set /\ forall c, In c cs -> In c (chars_of M set).

Lemma tag_from_ok set e cs rest : (1 <= set <= 3)%N -> Forall (encodable e) cs ->
  length (encode e cs) <= char_max set * (match e with UTF8 => 4 | ASCII => 1 end) ->
  exists w, tag_from M set (encode e cs ++ rest) (length (encode e cs)) e = Some w /\ (w <> 0%N -> inline M set cs w) /\ (w = 0%N -> ~ fits_in cs set).
Proof.
  intros Hs Se L. unfold tag_from. assert (E0 : (set + 4 * packed (bits_of set) [])%N = set) by (cbn [packed]; lia). destruct e; cbn [encode] in *.
  - destruct (tag_ascii_ok set Hs cs [] [] rest Se (Forall_nil _)) as (w & Ew & H1 & H2); [cbn [length]; lia|constructor|].
    rewrite E0 in Ew. exists w. split; [exact Ew|]. split; [exact H1|]. intros Hw [_ A]. now apply (H2 Hw).
  - destruct (tag_utf8_ok set Hs cs [] [] rest (Datatypes.S (length (utf8 cs))) (encodable_scalar _ _ Se) (Forall_nil _)) as (w & Ew & H1 & H2); [cbn [length]; lia|constructor|pose proof (utf8_len cs); lia|].
    rewrite E0 in Ew. exists w. split; [exact Ew|]. split; [exact H1|]. exact H2.
Qed.

Lemma encode_len e cs : length (encode e cs) <= length cs * (match e with UTF8 => 4 | ASCII => 1 end).
Proof. destruct e; cbn [encode]; [lia|]. pose proof (utf8_len cs). lia. Qed.

Lemma tag_first_ok e cs rest : Forall (encodable e) cs -> forall sets, (forall set, In set sets -> (1 <= set <= 3)%N) ->
  exists w, tag_first M sets (encode e cs ++ rest) (length (encode e cs)) e = Some w /\
    (w <> 0%N -> exists set, inline M set cs w) /\ (w = 0%N -> forall set, In set sets -> ~ fits_in cs set).
Proof.
  intros Se. induction sets as [|set sets IH]; intros Hs; cbn [tag_first].
  - exists 0%N. split; [reflexivity|]. split; [lia|]. intros _ set [].
  - destruct (IH (fun x Hx => Hs x (or_intror Hx))) as (w' & E' & H1' & H2').
    destruct (Nat.leb_spec (length (encode e cs)) (char_max set * (match e with UTF8 => 4 | ASCII => 1 end))) as [L|L].
    + destruct (tag_from_ok set e cs rest (Hs set (or_introl eq_refl)) Se L) as (w & -> & H1 & H2). destruct (N.eqb_spec w 0) as [->|Hw].
      * rewrite E'. exists w'. split; [reflexivity|]. split; [exact H1'|]. intros Hw set' [<-|I]; [now apply H2|now apply H2'].
      * exists w. split; [reflexivity|]. split; [intros _; exists set; now apply H1|]. contradiction.
    + rewrite E'. exists w'. split; [reflexivity|]. split; [exact H1'|]. intros Hw set' [<-|I]; [|now apply H2'].
      intros [A _]. pose proof (encode_len e cs). destruct e; lia.
Qed.

Lemma fits_iff cs : fits M cs <-> exists set, In set [3%N; 2%N; 1%N] /\ fits_in cs set.
Proof.
  unfold fits, fits_in. split; intros (set & H & H'); exists set; (split; [|exact H']).
  - cbn [In]. lia.
  - cbn [In] in H. lia.
Qed.

Lemma create_tagged_ok e cs rest : Forall (encodable e) cs ->
  exists w, create_tagged M (encode e cs ++ rest) (length (encode e cs)) e = Some w /\ (w <> 0%N -> exists set, inline M set cs w) /\ (w = 0%N -> ~ fits M cs).
Proof.
  intros Se. destruct (tag_first_ok e cs rest Se [3%N; 2%N; 1%N]) as (w & Ew & H1 & H2); [cbn [In]; intros; lia|].
  exists w. split; [exact Ew|]. split; [exact H1|]. intros Hw F. apply fits_iff in F. destruct F as (set & I & F). exact (H2 Hw set I F).
Qed.

Lemma inline_fits set cs w : inline M set cs w -> fits M cs.
Proof.
  intros (Hs & L & ds & F & _). exists set. split; [exact Hs|]. split; [exact L|]. clear L.
  induction F as [|c d cs ds Hd F IH]; intros c' I; [destruct I|]. destruct I as [<-|I]; [now apply first_at_in in Hd|now apply IH].
Qed.

Lemma empty_fits : fits M [].
Proof. exists 3%N. split; [lia|]. split; [cbn; lia|]. intros c []. Qed.

(** ** Creation *)

Lemma create_from_ok e m before cs rest same : Forall (encodable e) cs ->
  (m = Copied \/ (exists b, before = Some b /\ (b < 256)%N) /\ ((exists r, rest = 0%N :: r) \/ e = ASCII) /\ (same = true \/ strlen (encode e cs ++ rest) <> None)) ->
  exists s, create_from M e m before (encode e cs ++ rest) (length (encode e cs)) same = Some s /\ represents M s cs /\ (is_tagged s = true <-> fits M cs).
Proof.
  intros Se Hm. unfold create_from. destruct (create_tagged_ok e cs rest Se) as (w & -> & H1 & H2). destruct (N.eqb_spec w 0) as [Hw|Hw]; cbn [negb].
  2: { destruct (H1 Hw) as [set I]. exists (Tagged w). split; [reflexivity|]. split; [split; [exact (encodable_scalar _ _ Se)|now exists set]|].
       split; [intros _; exact (inline_fits set cs w I)|reflexivity]. }
  specialize (H2 Hw). assert (Hne : cs <> []) by (intros ->; apply H2, empty_fits).
  assert (No : forall h, is_tagged (Heap h) = true <-> fits M cs) by (intros h; split; [discriminate|contradiction]).
  assert (Hin : forall free un mem before, (mem = encode e cs ++ rest /\ ((exists r, rest = 0%N :: r) \/ e = ASCII) \/ mem = encode e cs ++ [0%N]) -> (exists b, before = Some b /\ (b < 256)%N) ->
    represents M (Heap (mkInfo e free un (Some (length (encode e cs))) mem before)) cs).
  { intros free un mem bef Hmem Hb. cbn [represents]. unfold stored. cbn [h_encoding h_before h_mem h_size]. split; [exact Se|]. split; [exact Hb|].
    destruct Hmem as [[-> Hr]| ->]; eexists; (split; [reflexivity|]); (split; [|now right]); [|left; now exists []].
    destruct Hr as [Hr|Hr]; [now left|right; split; [exact Hr|split; [discriminate|exact Hne]]]. }
  assert (Ec : strncpy (encode e cs ++ rest) (length (encode e cs)) = Some (encode e cs)) by (rewrite strncpy_ok, firstn_all by (auto using encode_nz); reflexivity).
  destruct m.
  - rewrite Ec. eexists. split; [reflexivity|]. split; [|apply No]. apply Hin; [now right|]. exists 0%N. split; [reflexivity|lia].
  - destruct Hm as [?|(Hb & Hr & Hl)]; [discriminate|]. destruct same.
    + eexists. split; [reflexivity|]. split; [|apply No]. apply Hin; [left; now split|exact Hb].
    + destruct Hl as [?|Hl]; [discriminate|]. destruct (strlen _) as [n|]; [|contradiction].
      eexists. split; [reflexivity|]. split; [|apply No]. apply Hin; [left; now split|exact Hb].
  - destruct Hm as [?|(Hb & Hr & Hl)]; [discriminate|]. destruct same.
    + eexists. split; [reflexivity|]. split; [|apply No]. apply Hin; [left; now split|exact Hb].
    + destruct Hl as [?|Hl]; [discriminate|]. destruct (strlen _) as [n|]; [|contradiction].
      eexists. split; [reflexivity|]. split; [|apply No]. apply Hin; [left; now split|exact Hb].
Qed.

Lemma create_ok e m before cs r : Forall (encodable e) cs -> (m = Copied \/ exists b, before = Some b /\ (b < 256)%N) ->
  exists s, create M e m before (encode e cs ++ 0%N :: r) = Some s /\ represents M s cs /\ (is_tagged s = true <-> fits M cs).
Proof.
  intros Se Hm. unfold create. rewrite strlen_ok by (now apply encode_nz). apply create_from_ok; [exact Se|].
  destruct Hm as [Hm|Hb]; [now left|right]. split; [exact Hb|]. split; [left; now exists r|now left].
Qed.

Lemma create_with_size_ok e before cs rest : Forall (encodable e) cs ->
  exists s, create_with_size M e Copied before (encode e cs ++ rest) (length (encode e cs)) = Some s /\ represents M s cs /\ (is_tagged s = true <-> fits M cs).
Proof. intros Se. apply create_from_ok; [exact Se|now left]. Qed.

Lemma constant_ok e cs : Forall (encodable e) cs -> represents M (constant e (encode e cs)) cs.
Proof.
  intros Se. cbn [represents constant]. unfold stored. cbn [h_encoding h_before h_mem h_size]. split; [exact Se|]. split; [exists 0%N; split; [reflexivity|lia]|].
  exists [0%N]. split; [reflexivity|]. split; [left; now exists []|now left].
Qed.

Lemma tag_character_ok c : scalar c -> forall sets, (forall set, In set sets -> (1 <= set <= 3)%N) ->
  match tag_character M sets c with Some w => exists set, inline M set [c] w | None => forall set, In set sets -> ~ In c (chars_of M set) end.
Proof.
  intros Sc. induction sets as [|set sets IH]; intros Hs; cbn [tag_character]; [now intros set []|].
  destruct (in_map c (chars_of M set) 0) as [d|] eqn:E.
  - exists set. apply in_map_ok in E. assert (Hset := Hs set (or_introl eq_refl)). destruct (nz_digit set c d Hset Sc E) as [Ld _].
    assert (1 <= char_max set) by (apply (set_cases (fun set => 1 <= char_max set)); cbn; lia || assumption).
    rewrite wshl_tag by (eapply N.lt_le_trans; [exact Ld|]; apply N.pow_le_mono_r; [lia|]; pose proof (bits_pos set Hset); lia).
    rewrite lor_tag by lia. split; [exact Hset|]. split; [cbn [length]; lia|]. exists [d]. split; [now constructor|]. cbn [packed]. lia.
  - specialize (IH (fun x Hx => Hs x (or_intror Hx))). destruct (tag_character M sets c); [exact IH|]. intros set' [<-|I]; [now apply in_map_none in E|now apply IH].
Qed.

Lemma create_character_ok c : scalar c -> represents M (create_character M c) [c] /\ (is_tagged (create_character M c) = true <-> fits M [c]).
Proof.
  intros Sc. unfold create_character. pose proof (tag_character_ok c Sc [3%N; 2%N; 1%N]) as H.
  destruct (tag_character M _ c) as [w|].
  - destruct H as [set I]; [cbn [In]; intros; lia|]. split; [split; [now constructor|now exists set]|]. split; [intros _; exact (inline_fits set _ w I)|reflexivity].
  - specialize (H ltac:(cbn [In]; intros; lia)).
    assert (Nf : forall h, is_tagged (Heap h) = true <-> fits M [c]).
    { intros h. split; [discriminate|]. intros F. apply fits_iff in F. destruct F as (set & I & _ & A). destruct (H set I). apply A. now left. }
    rewrite char_size_ok by (now apply scalar_nz). pose proof (utf8_char_nonempty c).
    assert (Eu : utf8 [c] = utf8_char c) by (rewrite utf8_cons; change (utf8 []) with (@nil N); apply app_nil_r).
    destruct (Nat.ltb_spec 1 (length (utf8_char c))) as [L|L]; (split; [|apply Nf]); cbn [represents]; unfold stored; cbn [h_encoding h_before h_mem h_size].
    + split; [constructor; [now split|constructor]|]. split; [exists 0%N; split; [reflexivity|lia]|]. exists [0%N]. rewrite put_utf8_ok by exact Sc. cbn [encode]. rewrite Eu.
      split; [reflexivity|]. split; [left; now exists []|now right].
    + assert (Lc : (c < 128)%N).
      { unfold utf8_char in L. destruct (N.ltb_spec c 0x80); [assumption|]. destruct (c <? 0x800)%N; [cbn in L; lia|]. destruct (c <? 0x10000)%N; cbn in L; lia. }
      split; [constructor; [now split|constructor]|]. split; [exists 0%N; split; [reflexivity|lia]|]. exists [0%N]. cbn [encode].
      unfold low_byte. rewrite N.mod_small by lia. split; [reflexivity|]. split; [left; now exists []|right]. cbn [length] in *. f_equal. lia.
Qed.
End with_maps.
