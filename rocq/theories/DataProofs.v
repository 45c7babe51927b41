From Verif Require Import Base DataModel DataSpec.

(** * Lists *)
Ltac tests := repeat (match goal with |- context [?x <? ?y] => destruct (Nat.ltb_spec x y) | |- context [?x <=? ?y] => destruct (Nat.leb_spec x y) | |- context [?x =? ?y] => destruct (Nat.eqb_spec x y) end; cbn [andb orb negb]).
Lemma overwrite_app {A} (l : list A) i a b : i + length a + length b <= length l -> overwrite (overwrite l i a) (i + length a) b = overwrite l i (a ++ b).
Proof.
  intros H. apply list_ext_nth_error. intros j.
  rewrite nth_error_overwrite by (rewrite overwrite_length; lia). rewrite nth_error_overwrite by lia. rewrite nth_error_overwrite by (rewrite app_length; lia).
  rewrite app_length, nth_error_app. tests; try lia; auto.
  f_equal. lia.
Qed.
Lemma firstn_plus {A} a b : forall l : list A, firstn (a + b) l = firstn a l ++ firstn b (skipn a l).
Proof.
  induction a as [|a IH]; intros l; [reflexivity|]. destruct l; cbn [Nat.add firstn skipn app]; [now rewrite firstn_nil|]. now rewrite IH.
Qed.
Lemma slice_app {A} (l : list A) o a b : slice l o a ++ slice l (o + a) b = slice l o (a + b).
Proof. unfold slice. rewrite firstn_plus, skipn_skipn. do 3 f_equal. lia. Qed.
Lemma slice_0 {A} (l : list A) o : slice l o 0 = [].
Proof. reflexivity. Qed.
Lemma overwrite_nil {A} (l : list A) i : i <= length l -> overwrite l i [] = l.
Proof. intros H. unfold overwrite. cbn [length app]. rewrite Nat.add_0_r. apply firstn_skipn. Qed.
Lemma slice_overwrite {A} (l : list A) i xs : i + length xs <= length l -> slice (overwrite l i xs) i (length xs) = xs.
Proof.
  intros H. apply list_ext_nth_error. intros j. rewrite nth_error_slice, nth_error_overwrite by auto.
  tests; try lia.
  - f_equal. lia.
  - symmetry. apply nth_error_None. lia.
Qed.

Section generic.
Context {St : Type} (I : interface St) (inv : St -> Prop) (contents : St -> list N) (okr okw : nat -> nat -> Prop) (full : Prop).
Hypothesis L : lawful I inv contents okr okw full.

(** Same internal state as far as transfers care *)
Definition same (d d' : data St) : Prop := contents (d_int d') = contents (d_int d) /\ inv (d_int d') /\ i_pms I (d_int d') = i_pms I (d_int d).

Lemma read_piece_ok d off n buf at_ : inv (d_int d) -> off + n <= length (contents (d_int d)) -> okr off n -> at_ + n <= length buf ->
  exists d' k, read_piece I d off n buf at_ = Some (d', overwrite buf at_ (slice (contents (d_int d)) off k), k) /\ k <= n /\ (full -> k = n) /\
    same d d' /\ d_hash d' = d_hash d /\ d_mut d' = false.
Proof.
  intros Hi Hb Hr Hat. destruct (law_read _ _ _ _ _ _ L _ _ _ Hi Hb Hr) as (m & s' & E1 & E2 & E3 & E4 & E5 & E6 & E7 & E8 & E9).
  unfold read_piece, map_buffer, unmap_buffer, put. rewrite E1, E5, E6, E2.
  rewrite slice_length by lia. destruct (Nat.leb_spec (at_ + m_size m) (length buf)); [|lia].
  do 2 eexists. split; [reflexivity|]. unfold same. cbn [d_int d_hash d_mut RO wr]. auto 8.
Qed.

Lemma read_loop_ok off p buf0 : p <> 0 -> forall k l d buf,
  inv (d_int d) -> off + (l + k) * p <= length (contents (d_int d)) -> (l + k) * p <= length buf ->
  (forall j, l <= j < l + k -> okr (off + j * p) p) ->
  buf = overwrite buf0 0 (slice (contents (d_int d)) off (l * p)) -> length buf0 = length buf ->
  exists d' r e, read_loop I d off p l k buf (l * p) = Some (d', overwrite buf0 0 (slice (contents (d_int d)) off r), r, e) /\
    r <= (l + k) * p /\ (e = false -> r = (l + k) * p) /\ (full -> e = false) /\ same d d' /\ d_hash d' = d_hash d /\ (d_mut d = false \/ 0 < k -> d_mut d' = false).
Proof.
  intros Hp. induction k as [|k IH]; intros l d buf Hi Hb Hl Hr Hbuf Hlen; cbn [read_loop].
  - exists d, (l * p), false. subst buf. rewrite Nat.add_0_r. unfold same. split; [reflexivity|]. repeat (split; [auto; lia|]). intros [A|A]; [auto|lia].
  - destruct (read_piece_ok d (off + l * p) p buf (l * p) Hi ltac:(nia) (Hr l ltac:(lia)) ltac:(nia)) as (d1 & c & E1 & E2 & E3 & (S1 & S2 & S3) & E5 & E6).
    rewrite E1. cbn beta iota zeta.
    assert (Eb : overwrite buf (l * p) (slice (contents (d_int d)) (off + l * p) c) = overwrite buf0 0 (slice (contents (d_int d)) off (l * p + c))).
    { rewrite Hbuf. rewrite <- slice_app. rewrite <- overwrite_app by (rewrite !slice_length by nia; nia).
      rewrite slice_length by nia. reflexivity. }
    destruct (Nat.eqb_spec c p) as [->|Hc].
    + destruct (IH (S l) d1 (overwrite buf (l * p) (slice (contents (d_int d)) (off + l * p) p)) S2) as (d2 & r & e & F1 & F2 & F3 & F4 & (S4 & S5 & S6) & F6 & F7).
      * rewrite S1. nia.
      * rewrite overwrite_length by (rewrite slice_length; nia). nia.
      * intros j Hj. apply Hr. lia.
      * rewrite Eb, S1. do 2 f_equal. lia.
      * rewrite overwrite_length by (rewrite slice_length; nia). exact Hlen.
      * rewrite S1 in F1. replace (l * p + p) with (S l * p) by lia. rewrite F1. exists d2, r, e. split; [reflexivity|]. unfold same.
        split; [lia|]. split; [intros A; rewrite F3 by auto; lia|]. split; [auto|]. split; [rewrite S4, S6; auto|]. split; [congruence|]. intros _. apply F7. auto.
    + rewrite Eb. exists d1, (l * p + c), true. split; [reflexivity|]. split; [nia|]. split; [discriminate|]. split; [intros F; exfalso; auto|].
      unfold same. auto.
Qed.

Lemma read_buffer_ok d off n buf : inv (d_int d) -> off + n <= length (contents (d_int d)) -> n <= length buf ->
  (i_read I = None -> provided okr (i_pms I (d_int d)) off n) ->
  exists d' c, read_buffer I d off n buf = Some (d', overwrite buf 0 (slice (contents (d_int d)) off c), c) /\ count_ok full c n /\ same d d' /\
    d_hash d' = d_hash d /\ d_mut d' = (match i_read I with Some _ => d_mut d | None => false end).
Proof.
  intros Hi Hb Hl Hp. unfold read_buffer. destruct (i_read I) as [f|] eqn:Ef.
  - rewrite (law_opt_read _ _ _ _ _ _ L f Ef) by auto. exists d, n. unfold count_ok, same. auto 8.
  - specialize (Hp eq_refl). unfold pieces, provided in *. destruct (i_pms I (d_int d)) as [p|] eqn:Ep.
    + destruct Hp as (P0 & P1 & P2). destruct (Nat.eqb_spec p 0); [lia|].
      pose proof (Nat.div_mod n p P0) as D. pose proof (Nat.mod_upper_bound n p P0) as B. set (q := n / p) in *.
      destruct (read_loop_ok off p buf P0 q 0 d buf Hi) as (d1 & r & e & F1 & F2 & F3 & F4 & (S1 & S2 & S3) & F6 & F7); auto; try nia.
      { intros j Hj. apply P1. lia. }
      cbn [Nat.mul] in F1. rewrite F1. destruct e.
      * exists d1, r. split; [reflexivity|]. unfold count_ok. split; [split; [nia|intros F; apply F4 in F; discriminate]|].
        split; [unfold same; auto|]. split; [auto|]. apply F7. right.
        destruct q; [|lia]. cbn in F2. assert (r = 0) by lia. subst r. cbn in F1. congruence.
      * cbn [Nat.add] in F3. specialize (F3 eq_refl). subst r.
        assert (S1' := S1). destruct (read_piece_ok d1 (off + q * p) (n - q * p) (overwrite buf 0 (slice (contents (d_int d)) off (q * p))) (q * p) S2) as (d2 & c & G1 & G2 & G3 & (T1 & T2 & T3) & G5 & G6).
        { rewrite S1. nia. } { replace (n - q * p) with (n mod p) by nia. exact P2. } { rewrite overwrite_length by (rewrite slice_length; nia). nia. }
        rewrite G1. cbn beta iota zeta. exists d2, (q * p + c). rewrite S1, <- slice_app, <- overwrite_app by (rewrite !slice_length by nia; nia).
        rewrite slice_length by nia. split; [reflexivity|]. unfold count_ok. split; [split; [nia|intros F; rewrite G3 by auto; nia]|].
        unfold same. repeat split; congruence.
    + cbn [read_loop]. rewrite Nat.add_0_r, Nat.sub_0_r.
      destruct (read_piece_ok d off n buf 0 Hi ltac:(lia) Hp ltac:(lia)) as (d2 & c & G1 & G2 & G3 & (T1 & T2 & T3) & G5 & G6).
      rewrite G1. cbn beta iota zeta. exists d2, c. split; [reflexivity|]. unfold count_ok, same. repeat split; auto; congruence.
Qed.

(** ** Write and fill *)
Section write.
Context (src : nat -> nat -> option (list N)) (bytes : list N).
(** The bytes to be written *)
Hypothesis Hsrc : forall i n, i + n <= length bytes -> src i n = Some (slice bytes i n).

Lemma write_piece_ok d off n at_ : inv (d_int d) -> off + n <= length (contents (d_int d)) -> okw off n -> at_ + n <= length bytes ->
  exists d' k, write_piece I d off n src at_ = Some (d', k) /\ k <= n /\ (full -> k = n) /\
    contents (d_int d') = overwrite (contents (d_int d)) off (slice bytes at_ k) /\ inv (d_int d') /\ i_pms I (d_int d') = i_pms I (d_int d) /\
    d_hash d' = d_hash d /\ d_mut d' = true.
Proof.
  intros Hi Hb Hr Hat. destruct (law_write _ _ _ _ _ _ L _ _ _ Hi Hb Hr) as (m & E1 & E2 & E3 & E4 & E5).
  destruct (E5 (slice bytes at_ (m_size m))) as (m' & s' & F1 & F2 & F3 & F4 & F5 & F6 & F7). { rewrite slice_length; lia. }
  unfold write_piece, map_buffer, unmap_buffer. rewrite E1, Hsrc by lia. rewrite F1, F4. exists {| d_int := s'; d_hash := d_hash d; d_mut := wr (m_hint m') |}, (m_size m).
  rewrite F3. split; [reflexivity|]. cbn [d_int d_hash d_mut]. rewrite F2. auto 10.
Qed.

Lemma write_loop_ok c0 off p : p <> 0 -> forall k l d,
  inv (d_int d) -> off + (l + k) * p <= length c0 -> (l + k) * p <= length bytes ->
  (forall j, l <= j < l + k -> okw (off + j * p) p) ->
  contents (d_int d) = overwrite c0 off (slice bytes 0 (l * p)) ->
  exists d' r e, write_loop I d off p l k src (l * p) = Some (d', r, e) /\ contents (d_int d') = overwrite c0 off (slice bytes 0 r) /\
    r <= (l + k) * p /\ (e = false -> r = (l + k) * p) /\ (full -> e = false) /\ inv (d_int d') /\ i_pms I (d_int d') = i_pms I (d_int d) /\
    d_hash d' = d_hash d /\ (e = true -> d_mut d' = true).
Proof.
  intros Hp. induction k as [|k IH]; intros l d Hi Hb Hl Hr Hc; cbn [write_loop].
  - exists d, (l * p), false. rewrite Nat.add_0_r. repeat (split; [auto; lia|]). discriminate.
  - assert (Hlen : length (contents (d_int d)) = length c0). { rewrite Hc. apply overwrite_length. rewrite slice_length; nia. }
    destruct (write_piece_ok d (off + l * p) p (l * p) Hi ltac:(nia) (Hr l ltac:(lia)) ltac:(nia)) as (d1 & c & E1 & E2 & E3 & E4 & E5 & E6 & E7 & E8).
    rewrite E1.
    assert (Ec : contents (d_int d1) = overwrite c0 off (slice bytes 0 (l * p + c))).
    { rewrite E4, Hc. rewrite <- slice_app. rewrite <- overwrite_app by (rewrite !slice_length by nia; nia). rewrite slice_length by nia. reflexivity. }
    destruct (Nat.eqb_spec c p) as [->|Hcp].
    + destruct (IH (S l) d1 E5) as (d2 & r & e & F1 & F2 & F3 & F4 & F5 & F6 & F7 & F8 & F9); try nia.
      * intros j Hj. apply Hr. lia.
      * rewrite Ec. do 2 f_equal. lia.
      * replace (l * p + p) with (S l * p) by lia. rewrite F1. exists d2, r, e. split; [reflexivity|]. split; [auto|]. split; [lia|].
        split; [intros A; rewrite F4 by auto; lia|]. repeat split; auto; congruence.
    + exists d1, (l * p + c), true. split; [reflexivity|]. split; [auto|]. split; [nia|]. split; [discriminate|]. split; [intros F; exfalso; auto|]. auto.
Qed.

Lemma write_pieces_ok d off n : n = length bytes -> inv (d_int d) -> off + n <= length (contents (d_int d)) -> provided okw (i_pms I (d_int d)) off n ->
  exists d' c, write_pieces I d off n src = Some (d', c) /\ count_ok full c n /\
    contents (d_int d') = overwrite (contents (d_int d)) off (slice bytes 0 c) /\ inv (d_int d') /\ i_pms I (d_int d') = i_pms I (d_int d) /\
    d_hash d' = d_hash d /\ d_mut d' = true.
Proof.
  intros Hn Hi Hb Hp. unfold write_pieces. unfold pieces, provided in *. destruct (i_pms I (d_int d)) as [p|] eqn:Ep.
  - destruct Hp as (P0 & P1 & P2). destruct (Nat.eqb_spec p 0); [lia|].
    pose proof (Nat.div_mod n p P0) as D. pose proof (Nat.mod_upper_bound n p P0) as B. set (q := n / p) in *.
    destruct (write_loop_ok (contents (d_int d)) off p P0 q 0 d Hi) as (d1 & r & e & F1 & F2 & F3 & F4 & F5 & F6 & F7 & F8 & F9); auto; try nia.
    { intros j Hj. apply P1. lia. } { cbn. symmetry. apply overwrite_nil. lia. }
    cbn [Nat.mul] in F1. rewrite F1. destruct e.
    + exists d1, r. split; [reflexivity|]. unfold count_ok. split; [split; [nia|intros F; apply F5 in F; discriminate]|]. repeat split; auto; congruence.
    + cbn [Nat.add] in F4. specialize (F4 eq_refl). subst r.
      assert (Hlen : length (contents (d_int d1)) = length (contents (d_int d))). { rewrite F2. apply overwrite_length. rewrite slice_length; nia. }
      destruct (write_piece_ok d1 (off + q * p) (n - q * p) (q * p) F6) as (d2 & c & G1 & G2 & G3 & G4 & G5 & G6 & G7 & G8).
      { nia. } { replace (n - q * p) with (n mod p) by nia. exact P2. } { nia. }
      rewrite G1. exists (set_mut d2), (q * p + c). split; [reflexivity|]. unfold count_ok. split; [split; [nia|intros F; rewrite G3 by auto; nia]|].
      cbn [set_mut d_int d_hash d_mut]. split; [|repeat split; auto; congruence].
      rewrite G4, F2. rewrite <- slice_app. rewrite <- overwrite_app by (rewrite !slice_length by nia; nia). rewrite slice_length by nia. reflexivity.
  - cbn [write_loop]. rewrite Nat.add_0_r, Nat.sub_0_r.
    destruct (write_piece_ok d off n 0 Hi ltac:(lia) Hp ltac:(lia)) as (d2 & c & G1 & G2 & G3 & G4 & G5 & G6 & G7 & G8).
    rewrite G1. exists (set_mut d2), c. split; [reflexivity|]. unfold count_ok. cbn [set_mut d_int d_hash d_mut]. repeat split; auto; congruence.
Qed.
End write.

Lemma write_buffer_ok d off n buf : inv (d_int d) -> off + n <= length (contents (d_int d)) -> n <= length buf ->
  (i_write I = None -> provided okw (i_pms I (d_int d)) off n) ->
  exists d' c, write_buffer I d off n buf = Some (d', c) /\ count_ok full c n /\
    contents (d_int d') = overwrite (contents (d_int d)) off (slice buf 0 c) /\ inv (d_int d') /\ i_pms I (d_int d') = i_pms I (d_int d) /\
    d_hash d' = d_hash d /\ d_mut d' = true.
Proof.
  intros Hi Hb Hl Hp. unfold write_buffer. destruct (i_write I) as [f|] eqn:Ef.
  - destruct (law_opt_write _ _ _ _ _ _ L f Ef (d_int d) off n buf Hi Hb Hl) as (s' & E1 & E2 & E3 & E4). rewrite E1.
    exists (changed d s'), n. split; [reflexivity|]. unfold count_ok. cbn [changed d_int d_hash d_mut]. auto 8.
  - destruct (write_pieces_ok (get buf) (firstn n buf)) with (d := d) (off := off) (n := n) as (d' & c & E1 & E2 & E3 & E4); auto.
    + intros i k Hk. rewrite firstn_length, Nat.min_l in Hk by auto. unfold get. destruct (Nat.leb_spec (i + k) (length buf)); [|lia].
      f_equal. apply list_ext_nth_error. intros j. rewrite !nth_error_slice, nth_error_firstn. tests; auto; lia.
    + rewrite firstn_length. lia.
    + exists d', c. split; [exact E1|]. split; [exact E2|]. rewrite E3. split; [|exact E4]. f_equal. unfold slice. cbn [skipn].
      rewrite firstn_firstn. f_equal. destruct E2. lia.
Qed.

Lemma slice_repeat {A} (v : A) n i k : i + k <= n -> slice (repeat v n) i k = repeat v k.
Proof.
  intros H. apply list_ext_nth_error. intros j. rewrite nth_error_slice. destruct (Nat.ltb_spec j k).
  - rewrite !nth_error_repeat by lia. reflexivity.
  - symmetry. apply nth_error_None. rewrite repeat_length. lia.
Qed.

Lemma fill_buffer_ok d off n v : inv (d_int d) -> off + n <= length (contents (d_int d)) ->
  (i_fill I = None -> provided okw (i_pms I (d_int d)) off n) ->
  exists d' c, fill_buffer I d off n v = Some (d', c) /\ count_ok full c n /\
    contents (d_int d') = overwrite (contents (d_int d)) off (repeat v c) /\ inv (d_int d') /\ i_pms I (d_int d') = i_pms I (d_int d) /\
    d_hash d' = d_hash d /\ d_mut d' = true.
Proof.
  intros Hi Hb Hp. unfold fill_buffer. destruct (i_fill I) as [f|] eqn:Ef.
  - destruct (law_opt_fill _ _ _ _ _ _ L f Ef (d_int d) off n v Hi Hb) as (s' & E1 & E2 & E3 & E4). rewrite E1.
    exists (changed d s'), n. split; [reflexivity|]. unfold count_ok. cbn [changed d_int d_hash d_mut]. auto 8.
  - destruct (write_pieces_ok (fun _ n => Some (repeat v n)) (repeat v n)) with (d := d) (off := off) (n := n) as (d' & c & E1 & E2 & E3 & E4); auto.
    + intros i k Hk. rewrite repeat_length in Hk. rewrite slice_repeat by auto. reflexivity.
    + now rewrite repeat_length.
    + exists d', c. split; [exact E1|]. split; [exact E2|]. rewrite E3. split; [|exact E4]. f_equal. destruct E2. apply slice_repeat. lia.
Qed.
End generic.

(** ** Copy *)
Section copy.
Context {St T : Type} (I : interface St) (inv : St -> Prop) (contents : St -> list N) (okr okw : nat -> nat -> Prop).
Hypothesis L : lawful I inv contents okr okw True.
Context (J : interface T) (jinv : T -> Prop) (jcontents : T -> list N) (jokr jokw : nat -> nat -> Prop) (jfull : Prop).
Hypothesis M : lawful J jinv jcontents jokr jokw jfull.

Lemma copy_piece_ok d e off n doff : inv (d_int d) -> jinv (d_int e) -> off + n <= length (contents (d_int d)) -> doff + n <= length (jcontents (d_int e)) ->
  okr off n -> jokw doff n ->
  exists d' e' k, copy_piece I J d e off n doff = Some (d', e', k) /\ k <= n /\ (jfull -> k = n) /\ same I inv contents d d' /\ d_hash d' = d_hash d /\
    jcontents (d_int e') = overwrite (jcontents (d_int e)) doff (slice (contents (d_int d)) off k) /\ jinv (d_int e') /\ i_pms J (d_int e') = i_pms J (d_int e) /\
    d_hash e' = d_hash e /\ d_mut e' = true.
Proof.
  intros Hi Hj Hb Hc Hr Hw. destruct (law_read _ _ _ _ _ _ L _ _ _ Hi Hb Hr) as (m & s' & E1 & E2 & E3 & E4 & E5 & E6 & E7 & E8 & E9).
  specialize (E4 Logic.I). destruct (law_write _ _ _ _ _ _ M _ _ _ Hj Hc Hw) as (w & F1 & F2 & F3 & F4 & F5).
  unfold peek in E5. destruct (Nat.leb_spec (m_start m + m_size m) (length (m_mem m))) as [Hm|]; [|discriminate]. injection E5 as E5.
  destruct (F5 (slice (contents (d_int d)) off (m_size w))) as (w' & t' & G1 & G2 & G3 & G4 & G5 & G6 & G7). { rewrite slice_length; lia. }
  unfold copy_piece, map_buffer, unmap_buffer. rewrite E1, E4, F1. unfold get.
  destruct (Nat.leb_spec (m_start m + m_size w) (length (m_mem m))); [|lia].
  replace (slice (m_mem m) (m_start m) (m_size w)) with (slice (contents (d_int d)) off (m_size w)).
  2: { transitivity (firstn (m_size w) (slice (contents (d_int d)) off (m_size m))); [|rewrite <- E5]; unfold slice; rewrite firstn_firstn; f_equal; lia. }
  rewrite G1, G4, E6. do 3 eexists. split; [rewrite G3; reflexivity|]. unfold same. cbn [d_int d_hash d_mut]. rewrite G2. repeat split; auto.
Qed.

Lemma copy_loop_ok c0 off p doff : p <> 0 -> forall k l d e,
  inv (d_int d) -> jinv (d_int e) -> off + (l + k) * p <= length (contents (d_int d)) -> doff + (l + k) * p <= length c0 ->
  (forall j, l <= j < l + k -> okr (off + j * p) p) -> (forall j, l <= j < l + k -> jokw (doff + j * p) p) ->
  jcontents (d_int e) = overwrite c0 doff (slice (contents (d_int d)) off (l * p)) ->
  exists d' e' r b, copy_loop I J d e off p doff l k (l * p) = Some (d', e', r, b) /\ same I inv contents d d' /\ d_hash d' = d_hash d /\
    jcontents (d_int e') = overwrite c0 doff (slice (contents (d_int d)) off r) /\
    r <= (l + k) * p /\ (b = false -> r = (l + k) * p) /\ (jfull -> b = false) /\ jinv (d_int e') /\ i_pms J (d_int e') = i_pms J (d_int e) /\
    d_hash e' = d_hash e /\ (b = true -> d_mut e' = true).
Proof.
  intros Hp. induction k as [|k IH]; intros l d e Hi Hj Hb Hb2 Hr Hw Hc; cbn [copy_loop].
  - exists d, e, (l * p), false. rewrite Nat.add_0_r. unfold same. repeat (split; [auto; lia|]). discriminate.
  - assert (Hlen : length (jcontents (d_int e)) = length c0). { rewrite Hc. apply overwrite_length. rewrite slice_length; nia. }
    destruct (copy_piece_ok d e (off + l * p) p (doff + l * p) Hi Hj ltac:(nia) ltac:(nia) (Hr l ltac:(lia)) (Hw l ltac:(lia)))
      as (d1 & e1 & c & E1 & E2 & E3 & (S1 & S2 & S3) & E5 & E6 & E7 & E8 & E9 & E10).
    rewrite E1. cbn beta iota zeta.
    assert (Ec : jcontents (d_int e1) = overwrite c0 doff (slice (contents (d_int d)) off (l * p + c))).
    { rewrite E6, Hc. rewrite <- slice_app. rewrite <- overwrite_app by (rewrite !slice_length by nia; nia). rewrite slice_length by nia. reflexivity. }
    destruct (Nat.eqb_spec c p) as [->|Hcp].
    + destruct (IH (S l) d1 e1 S2 E7) as (d2 & e2 & r & b & F1 & (S4 & S5 & S6) & F3 & F4 & F5 & F6 & F7 & F8 & F9 & F10 & F11); try (rewrite ?S1; nia).
      * intros j Hj'. apply Hr. lia.
      * intros j Hj'. apply Hw. lia.
      * rewrite Ec, S1. do 2 f_equal. lia.
      * replace (l * p + p) with (S l * p) by lia. rewrite F1. exists d2, e2, r, b. split; [reflexivity|]. unfold same.
        split; [rewrite S4, S6; auto|]. split; [congruence|]. split; [rewrite F4, S1; auto|]. split; [lia|].
        split; [intros A; rewrite F6 by auto; lia|]. repeat split; auto; congruence.
    + exists d1, e1, (l * p + c), true. split; [reflexivity|]. unfold same. split; [auto|]. split; [auto|]. split; [auto|]. split; [nia|]. split; [discriminate|].
      split; [intros F; exfalso; auto|]. auto.
Qed.

Lemma copy_pieces_ok d e off n doff : inv (d_int d) -> jinv (d_int e) -> off + n <= length (contents (d_int d)) -> doff + n <= length (jcontents (d_int e)) ->
  provided okr (i_pms I (d_int d)) off n -> provided jokw (i_pms I (d_int d)) doff n ->
  exists d' e' c, copy_pieces I J d e off n doff = Some (d', e', c) /\ count_ok jfull c n /\ same I inv contents d d' /\
    jcontents (d_int e') = overwrite (jcontents (d_int e)) doff (slice (contents (d_int d)) off c) /\ jinv (d_int e') /\ i_pms J (d_int e') = i_pms J (d_int e) /\
    d_hash e' = d_hash e /\ d_mut e' = true.
Proof.
  intros Hi Hj Hb Hc Hp Hq. unfold copy_pieces. unfold pieces, provided in *. destruct (i_pms I (d_int d)) as [p|] eqn:Ep.
  - destruct Hp as (P0 & P1 & P2). destruct Hq as (Q0 & Q1 & Q2). destruct (Nat.eqb_spec p 0); [lia|].
    pose proof (Nat.div_mod n p P0) as D. pose proof (Nat.mod_upper_bound n p P0) as B. set (q := n / p) in *.
    destruct (copy_loop_ok (jcontents (d_int e)) off p doff P0 q 0 d e Hi Hj) as (d1 & e1 & r & b & F1 & (S1 & S2 & S3) & F3 & F4 & F5 & F6 & F7 & F8 & F9 & F10 & F11); auto; try nia.
    { intros j Hj'. apply P1. lia. } { intros j Hj'. apply Q1. lia. } { cbn. symmetry. apply overwrite_nil. lia. }
    cbn [Nat.mul] in F1. rewrite F1. destruct b.
    + exists d1, e1, r. split; [reflexivity|]. unfold count_ok. split; [split; [nia|intros F; apply F7 in F; discriminate]|]. unfold same. repeat split; auto; congruence.
    + cbn [Nat.add] in F6. specialize (F6 eq_refl). subst r.
      assert (Hlen : length (jcontents (d_int e1)) = length (jcontents (d_int e))). { rewrite F4. apply overwrite_length. rewrite slice_length; nia. }
      destruct (copy_piece_ok d1 e1 (off + q * p) (n - q * p) (doff + q * p) S2 F8) as (d2 & e2 & c & G1 & G2 & G3 & (T1 & T2 & T3) & G5 & G6 & G7 & G8 & G9 & G10).
      { rewrite S1. nia. } { nia. } { replace (n - q * p) with (n mod p) by nia. exact P2. } { replace (n - q * p) with (n mod p) by nia. exact Q2. }
      rewrite G1. cbn beta iota zeta. exists d2, (set_mut e2), (q * p + c). split; [reflexivity|]. unfold count_ok. split; [split; [nia|intros F; rewrite G3 by auto; nia]|].
      cbn [set_mut d_int d_hash d_mut]. unfold same. split; [repeat split; auto; congruence|]. split; [|repeat split; auto; congruence].
      rewrite G6, F4, S1. rewrite <- slice_app. rewrite <- overwrite_app by (rewrite !slice_length by nia; nia). rewrite slice_length by nia. reflexivity.
  - cbn [copy_loop]. rewrite !Nat.add_0_r, Nat.sub_0_r.
    destruct (copy_piece_ok d e off n doff Hi Hj ltac:(lia) ltac:(lia) Hp Hq) as (d2 & e2 & c & G1 & G2 & G3 & (T1 & T2 & T3) & G5 & G6 & G7 & G8 & G9 & G10).
    rewrite G1. cbn beta iota zeta. exists d2, (set_mut e2), c. split; [reflexivity|]. unfold count_ok, same. cbn [set_mut d_int d_hash d_mut]. repeat split; auto; congruence.
Qed.
End copy.

(** * C24 *)
Section hash.
Context {St : Type} (I : interface St) (inv : St -> Prop) (contents : St -> list N) (okr okw : nat -> nat -> Prop) (h : list N -> N).
Hypothesis L : lawful I inv contents okr okw True.

(** What the flag and the stored hash are worth in each phase *)
Definition flag_ok (d : data St) (p : phase) : Prop :=
  match p with Clean => d_hash d = h (contents (d_int d)) | Dirty => d_mut d = true | Resized => True end.

Lemma history d p ops : inv (d_int d) -> flag_ok d p -> history_ok I inv contents okr okw h d p ops.
Proof.
  revert d p. induction ops as [|o t IH]; intros d p Hi Hf; cbn [history_ok]; [exact Logic.I|]. intros [Hc Hd].
  destruct o as [off n buf|off n buf|off n v|off n|off bytes|s|n|]; cbn [step impl_ok reads_map] in *.
  - destruct Hc as (Hb & Hl & Hp). destruct (read_buffer_ok I inv contents okr okw True L d off n buf Hi Hb Hl (fun _ => Hp)) as (d' & c & E1 & (E2 & E3) & (S1 & S2 & S3) & E5 & E6).
    rewrite E1, E3 by exact Logic.I. do 2 eexists. split; [reflexivity|]. split; [auto|]. apply IH; [auto|]. unfold next. cbn [modifies].
    destruct p; cbn [flag_ok] in *; auto.
    + congruence.
    + rewrite E6. destruct (i_read I); auto. exfalso. apply Hd; auto.
  - destruct Hc as (Hb & Hl & Hp). destruct (write_buffer_ok I inv contents okr okw True L d off n buf Hi Hb Hl (fun _ => Hp)) as (d' & c & E1 & (E2 & E3) & S1 & S2 & S3 & E5 & E6).
    rewrite E1. rewrite E3 in * by exact Logic.I. do 2 eexists. split; [reflexivity|]. split; [auto|]. apply IH; auto.
  - destruct Hc as (Hb & Hp). destruct (fill_buffer_ok I inv contents okr okw True L d off n v Hi Hb (fun _ => Hp)) as (d' & c & E1 & (E2 & E3) & S1 & S2 & S3 & E5 & E6).
    rewrite E1. rewrite E3 in * by exact Logic.I. do 2 eexists. split; [reflexivity|]. split; [auto|]. apply IH; auto.
  - destruct Hc as (Hb & Hp). destruct (law_read _ _ _ _ _ _ L _ _ _ Hi Hb Hp) as (m & s' & E1 & E2 & E3 & E4 & E5 & E6 & E7 & E8 & E9).
    specialize (E4 Logic.I). unfold map_buffer, unmap_buffer. rewrite E1, E5, E6, E4. do 2 eexists. split; [reflexivity|]. split; [auto|]. apply IH; [auto|].
    unfold next. cbn [modifies]. destruct p; cbn [flag_ok d_hash d_int] in *; auto.
    + congruence.
    + exfalso. apply Hd; auto.
  - destruct Hc as (Hb & Hp). destruct (law_write _ _ _ _ _ _ L _ _ _ Hi Hb Hp) as (m & E1 & E2 & E3 & E4 & E5).
    destruct (E5 bytes) as (m' & s' & F1 & F2 & F3 & F4 & F5 & F6 & F7). { symmetry. apply E4. exact Logic.I. }
    unfold map_buffer, unmap_buffer. rewrite E1, F1, F4. do 2 eexists. split; [reflexivity|]. split; [exact F5|]. apply IH; [auto|]. unfold next. cbn. now rewrite F2.
  - do 2 eexists. split; [reflexivity|]. split; [reflexivity|]. apply IH; [exact Hc|]. reflexivity.
  - unfold set_size. destruct (i_resize I) as [f|] eqn:Ef; [destruct (f (d_int d) n) as [s'|] eqn:Es|].
    + do 2 eexists. split; [reflexivity|]. split; [discriminate|]. apply IH; [apply (law_resize _ _ _ _ _ _ L f Ef (d_int d) n); auto|].
      unfold next. cbn [modifies]. destruct p; cbn [flag_ok d_mut] in *; auto.
    + do 2 eexists. split; [reflexivity|]. split; [auto|]. apply IH; [auto|]. unfold next. cbn [modifies]. destruct p; auto.
    + do 2 eexists. split; [reflexivity|]. split; [auto|]. apply IH; [auto|]. unfold next. cbn [modifies]. destruct p; auto.
  - unfold get_hash. destruct (d_mut d) eqn:Em.
    + do 2 eexists. split; [reflexivity|]. split; [auto|]. apply IH; [auto|]. reflexivity.
    + do 2 eexists. split; [reflexivity|]. destruct p; cbn [flag_ok] in *; [|congruence|congruence]. split; [rewrite Hf; auto|]. apply IH; auto.
Qed.
End hash.

(** * The interfaces *)
Lemma put_ok buf i b : i + length b <= length buf -> put buf i b = Some (overwrite buf i b).
Proof. intros H. unfold put. destruct (Nat.leb_spec (i + length b) (length buf)); [auto|lia]. Qed.
Lemma get_ok buf i n : i + n <= length buf -> get buf i n = Some (slice buf i n).
Proof. intros H. unfold get. destruct (Nat.leb_spec (i + n) (length buf)); [auto|lia]. Qed.

Lemma overwrite_all {A} (l b : list A) : length b = length l -> overwrite l 0 b = b.
Proof. intros H. unfold overwrite. cbn [firstn app Nat.add]. rewrite skipn_all2 by lia. apply app_nil_r. Qed.

Lemma buffer_read_law s off n : off + n <= length s -> exists m, buffer_map s off n RO = Some m /\ m_hint m = RO /\ m_size m = n /\
  peek m = Some (slice s off n) /\ buffer_unmap s m = Some s.
Proof.
  intros H. unfold buffer_map. destruct (Nat.leb_spec (off + n) (length s)); [|lia]. eexists. split; [reflexivity|]. unfold peek, buffer_unmap. cbn [m_hint m_size m_start m_mem RO wr].
  rewrite slice_length by lia. cbn [Nat.add]. rewrite Nat.leb_refl. repeat split. f_equal. unfold slice. cbn [skipn]. rewrite firstn_firstn. f_equal. lia.
Qed.
Lemma buffer_write_law s off n : off + n <= length s -> exists m, buffer_map s off n WO = Some m /\ m_hint m = WO /\ m_size m = n /\
  forall bytes, length bytes = n -> exists m', poke m bytes = Some m' /\ m_hint m' = WO /\ m_size m' = n /\ buffer_unmap s m' = Some (overwrite s off bytes).
Proof.
  intros H. unfold buffer_map. destruct (Nat.leb_spec (off + n) (length s)); [|lia]. eexists. split; [reflexivity|]. unfold poke, buffer_unmap. cbn [m_hint m_size m_start m_mem WO wr].
  split; [auto|]. split; [auto|]. intros bytes Hb. rewrite slice_length by lia. cbn [Nat.add]. rewrite Hb, Nat.eqb_refl, Nat.leb_refl. cbn [andb].
  eexists. split; [reflexivity|]. cbn [m_hint m_size m_mem m_off WO wr]. repeat split. rewrite overwrite_all by (rewrite slice_length; lia). apply put_ok. lia.
Qed.

Lemma buffer_lawful : lawful buffer_interface (fun _ => True) (fun s => s) (fun _ _ => True) (fun _ _ => True) True.
Proof.
  split; cbn [buffer_interface i_pms i_map i_unmap i_read i_write i_copy i_fill i_resize].
  - intros s off n _ H _. destruct (buffer_read_law s off n H) as (m & E1 & E2 & E3 & E4 & E5). exists m, s. rewrite E3. repeat split; auto.
  - intros s off n _ H _. destruct (buffer_write_law s off n H) as (m & E1 & E2 & E3 & E4). exists m. rewrite E3. repeat split; auto.
    intros b Hb. destruct (E4 b Hb) as (m' & F1 & F2 & F3 & F4). exists m', (overwrite s off b). repeat split; auto.
  - intros f [= <-] s off n buf _ H1 H2. unfold buffer_read. rewrite get_ok by auto. rewrite put_ok by (rewrite slice_length; lia). reflexivity.
  - intros f [= <-] s off n buf _ H1 H2. unfold buffer_write. rewrite get_ok by auto. rewrite put_ok by (rewrite slice_length; lia). eauto.
  - intros f [= <-] s off n v _ H1. unfold buffer_fill. rewrite put_ok by (rewrite repeat_length; lia). eauto.
  - auto.
  - intros f [= <-] s off n t toff _ _ H1 H2. unfold buffer_copy. rewrite get_ok by auto. rewrite put_ok by (rewrite slice_length; lia). eauto.
Qed.

Lemma piece_lawful p q (full : Prop) : (full -> p <= q) -> lawful (piece_interface p q) (fun _ => True) (fun s => s) (fun _ n => n <= p) (fun _ n => n <= p) full.
Proof.
  intros Hpq. split; cbn [piece_interface i_pms i_map i_unmap i_read i_write i_copy i_fill i_resize]; try discriminate.
  - intros s off n _ H Hn. destruct (buffer_read_law s off (Nat.min n q)) as (m & E1 & E2 & E3 & E4 & E5); [lia|].
    exists m, s. rewrite E3. repeat split; auto; try lia.
  - intros s off n _ H Hn. destruct (buffer_write_law s off (Nat.min n q)) as (m & E1 & E2 & E3 & E4); [lia|]. exists m. rewrite E3. repeat split; auto; try lia.
    intros b Hb. destruct (E4 b Hb) as (m' & F1 & F2 & F3 & F4). exists m', (overwrite s off b). repeat split; auto.
Qed.

(** ** The container *)
Lemma concat_skipn es a : forall l : list (list N), Forall (fun e => length e = es) l -> concat (skipn a l) = skipn (a * es) (concat l).
Proof.
  induction a as [|a IH]; intros l H; [reflexivity|]. destruct l as [|e t]; cbn [skipn concat]; [now rewrite skipn_nil|].
  inversion H as [|? ? He Ht]; subst. rewrite IH by auto. rewrite skipn_app, (skipn_all2 e) by lia. cbn [app]. f_equal. lia.
Qed.
Lemma concat_length es (l : list (list N)) : Forall (fun e => length e = es) l -> length (concat l) = length l * es.
Proof. induction 1 as [|e t He Ht IH]; cbn [concat length]; [reflexivity|]. rewrite app_length, IH, He. lia. Qed.

Section container.
Context (es ao count a q : nat).
Hypothesis (Hes : es <> 0) (Hao : ao = a * es) (Hcount : count = ao + q * es).

Lemma copy_in_tail : forall elems index ptr, Forall (fun e => length e = es) elems -> index < q -> length ptr = q * es ->
  copy_in elems es ao count (a + index) index ptr = Some (overwrite ptr (index * es) (firstn ((q - index) * es) (concat elems))).
Proof.
  induction elems as [|e t IH]; intros index ptr Hf Hi Hp; cbn [copy_in concat].
  - rewrite firstn_nil, overwrite_nil by nia. reflexivity.
  - inversion Hf as [|? ? He Ht]; subst e0 || idtac. destruct (Nat.leb_spec ao ((a + index) * es)); [|nia].
    rewrite put_ok by nia. destruct (Nat.eqb_spec ((a + index + 1) * es) count) as [E|E].
    + assert (index + 1 = q) by nia. replace (q - index) with 1 by lia. rewrite Nat.mul_1_l, firstn_app, firstn_all2 by lia.
      replace (es - length e) with 0 by lia. cbn [firstn]. rewrite app_nil_r. reflexivity.
    + assert (index + 1 < q). { assert (index + 1 <> q) by (intros C; apply E; nia). lia. }
      rewrite <- Nat.add_assoc, IH by (auto; rewrite ?overwrite_length; nia). f_equal.
      rewrite firstn_app, (firstn_all2 e) by nia. rewrite <- overwrite_app by (rewrite firstn_length; nia).
      rewrite He. replace (index * es + es) with ((index + 1) * es) by lia. do 2 f_equal. nia.
Qed.
Lemma copy_in_skip ptr : forall elems ci, ci <= a -> copy_in elems es ao count ci 0 ptr = copy_in (skipn (a - ci) elems) es ao count a 0 ptr.
Proof.
  induction elems as [|e t IH]; intros ci Hc.
  - rewrite skipn_nil. reflexivity.
  - destruct (Nat.eq_dec ci a) as [->|Hn]; [now rewrite Nat.sub_diag|]. cbn [copy_in]. destruct (Nat.leb_spec ao (ci * es)); [nia|].
    rewrite IH by lia. replace (a - ci) with (S (a - (ci + 1))) by lia. reflexivity.
Qed.
Lemma copy_in_ok elems ptr : Forall (fun e => length e = es) elems -> 0 < q -> length ptr = q * es ->
  copy_in elems es ao count 0 0 ptr = Some (overwrite ptr 0 (slice (concat elems) ao (q * es))).
Proof.
  intros Hf Hq Hp. rewrite copy_in_skip, Nat.sub_0_r by lia. replace a with (a + 0) at 2 by lia. rewrite copy_in_tail by (auto; rewrite <- (firstn_skipn a elems) in Hf; apply Forall_app in Hf; tauto).
  rewrite Nat.sub_0_r. cbn [Nat.mul]. rewrite concat_skipn with (es := es) by auto. rewrite <- Hao. reflexivity.
Qed.

Lemma copy_out_tail ptr : length ptr = q * es -> forall elems index, Forall (fun e => length e = es) elems -> index < q ->
  exists elems', copy_out elems es ao count (a + index) index ptr = Some elems' /\ Forall (fun e => length e = es) elems' /\
    concat elems' = overwrite (concat elems) 0 (firstn (length (concat elems)) (skipn (index * es) ptr)).
Proof.
  intros Hp. induction elems as [|e t IH]; intros index Hf Hi; cbn [copy_out concat].
  - exists []. repeat split; auto.
  - inversion Hf as [|? ? He Ht]; subst. destruct (Nat.leb_spec (a * length e) ((a + index) * length e)); [|nia].
    set (es := length e) in *. rewrite get_ok by nia. rewrite app_length. fold es.
    assert (Eb : skipn (index * es) ptr = slice ptr (index * es) es ++ skipn ((index + 1) * es) ptr).
    { unfold slice. rewrite <- (firstn_skipn es (skipn (index * es) ptr)) at 1. rewrite skipn_skipn. do 2 f_equal. lia. }
    rewrite Eb. set (b := slice ptr (index * es) es) in *. assert (Lb : length b = es) by (apply slice_length; nia).
    rewrite firstn_app, Lb, firstn_all2 by lia. replace (es + length (concat t) - es) with (length (concat t)) by lia.
    destruct (Nat.eqb_spec ((a + index + 1) * es) (a * es + q * es)) as [E|E].
    + assert (index + 1 = q) by nia. exists (b :: t). split; [reflexivity|]. split; [auto|]. cbn [concat].
      rewrite (skipn_all2 ptr) by nia. rewrite firstn_nil, app_nil_r. unfold overwrite. cbn [firstn app Nat.add]. rewrite Lb.
      rewrite skipn_app, (skipn_all2 e) by (fold es; lia). fold es. rewrite Nat.sub_diag. reflexivity.
    + assert (index + 1 < q). { assert (index + 1 <> q) by (intros C; apply E; nia). lia. }
      destruct (IH (index + 1) Ht) as (t' & E1 & E2 & E3); [lia|]. rewrite Nat.add_assoc in E1. rewrite E1. exists (b :: t'). split; [reflexivity|]. split; [auto|].
      cbn [concat]. rewrite E3. unfold overwrite. cbn [firstn app Nat.add]. rewrite app_length, Lb, <- app_assoc. do 2 f_equal.
      rewrite skipn_app, (skipn_all2 e) by (fold es; lia). cbn [app]. fold es. f_equal. lia.
Qed.
Lemma copy_out_skip ptr : forall elems ci, ci <= a ->
  copy_out elems es ao count ci 0 ptr = (let? t := copy_out (skipn (a - ci) elems) es ao count a 0 ptr in Some (firstn (a - ci) elems ++ t)).
Proof.
  induction elems as [|e t IH]; intros ci Hc.
  - rewrite skipn_nil, firstn_nil. reflexivity.
  - destruct (Nat.eq_dec ci a) as [->|Hn].
    + rewrite Nat.sub_diag. cbn [skipn firstn app]. destruct (copy_out (e :: t) es ao count a 0 ptr); reflexivity.
    + replace (a - ci) with (S (a - (ci + 1))) by lia. cbn [copy_out skipn firstn app]. destruct (Nat.leb_spec ao (ci * es)); [nia|].
      rewrite IH by lia. destruct (copy_out (skipn (a - (ci + 1)) t) es ao count a 0 ptr); reflexivity.
Qed.
Lemma copy_out_ok elems ptr : Forall (fun e => length e = es) elems -> 0 < q -> length ptr = q * es -> a <= length elems ->
  exists elems', copy_out elems es ao count 0 0 ptr = Some elems' /\ Forall (fun e => length e = es) elems' /\
    concat elems' = overwrite (concat elems) ao (firstn (length (concat elems) - ao) ptr).
Proof.
  intros Hf Hq Hp Ha. rewrite copy_out_skip, Nat.sub_0_r by lia. pose proof Hf as Hf'. rewrite <- (firstn_skipn a elems) in Hf'. apply Forall_app in Hf'. destruct Hf' as [F1 F2].
  destruct (copy_out_tail ptr Hp (skipn a elems) 0 F2 Hq) as (t & E1 & E2 & E3). rewrite Nat.add_0_r in E1. rewrite E1. exists (firstn a elems ++ t).
  split; [reflexivity|]. split; [apply Forall_app; auto|]. rewrite concat_app, E3. cbn [Nat.mul skipn].
  assert (Lf : length (concat (firstn a elems)) = ao). { rewrite concat_length with (es := es) by auto. rewrite firstn_length. nia. }
  rewrite <- (firstn_skipn a elems) at 4 5. rewrite concat_app, app_length, Lf. set (x := concat (firstn a elems)) in *. set (y := concat (skipn a elems)) in *.
  replace (ao + length y - ao) with (length y) by lia. set (z := firstn (length y) ptr). unfold overwrite. cbn [firstn app Nat.add].
  rewrite firstn_app, Lf, Nat.sub_diag, firstn_all2 by lia. cbn [firstn]. rewrite app_nil_r. do 2 f_equal. rewrite skipn_app, (skipn_all2 x) by lia. cbn [app]. f_equal. lia.
Qed.
End container.

(** Requests that fill whole elements *)
Lemma alloc_facts es off n : es <> 0 -> exists a q, off - off mod es = a * es /\ alloc_size es off n = q * es /\ off mod es + n <= q * es /\ off = a * es + off mod es /\ off mod es < es /\
  (n <> 0 \/ off mod es <> 0 -> 0 < q) /\ (off mod es = 0 -> n mod es = 0 -> n = q * es).
Proof.
  intros H. pose proof (Nat.div_mod off es H) as D1. pose proof (Nat.mod_upper_bound off es H) as B1. pose proof (Nat.div_mod n es H) as D2. pose proof (Nat.mod_upper_bound n es H) as B2.
  set (r := off mod es) in *. set (r2 := n mod es) in *. set (x := off / es) in *. set (y := n / es) in *.
  exists x, (y + (if r2 =? 0 then 0 else 1) + (if r =? 0 then 0 else 1)). unfold alloc_size, aligned_size. fold r r2. clearbody r r2 x y.
  destruct (Nat.eqb_spec r2 0); destruct (Nat.eqb_spec r 0); repeat split; try nia.
Qed.


(** A map for reading and writing in which any bytes were stored, given back *)
Lemma container_map_ok es s off n acc : cinv es s -> (rd acc = true -> n <> 0 \/ off mod es <> 0) ->
  exists m, container_map s off n acc = Some m /\ m_hint m = acc /\ m_size m = n /\ m_start m = off mod es /\ m_off m = off /\ length (m_mem m) = alloc_size es off n /\
    (rd acc = true -> exists j, length j = alloc_size es off n /\ m_mem m = overwrite j 0 (slice (bytes_of s) (off - off mod es) (alloc_size es off n))).
Proof.
  intros [(Hes & Hf) Ee] Hn. unfold container_map. rewrite Ee in *. destruct (Nat.eqb_spec es 0); [lia|]. destruct (alloc_facts es off n Hes) as (a & q & A1 & A2 & A3 & A4 & A5 & A6 & A7).
  set (j := map (c_junk s) (seq 0 (alloc_size es off n))). assert (Lj : length j = alloc_size es off n) by (unfold j; rewrite map_length, seq_length; reflexivity).
  destruct (rd acc) eqn:Er.
  - assert (Hq : 0 < q) by auto. rewrite (copy_in_ok es _ _ a q) by (auto; congruence).
    eexists. split; [reflexivity|]. cbn [m_hint m_size m_start m_off m_mem]. rewrite A2 in *. repeat split; auto.
    + rewrite overwrite_length; [auto|]. unfold slice. rewrite firstn_length. lia.
    + intros _. exists j. auto.
  - eexists. split; [reflexivity|]. cbn [m_hint m_size m_start m_off m_mem]. repeat split; auto. discriminate.
Qed.

Lemma container_unmap_ok es s m : cinv es s -> wr (m_hint m) = true -> m_off m <= length (bytes_of s) -> m_size m <> 0 \/ m_off m mod es <> 0 ->
  length (m_mem m) = alloc_size es (m_off m) (m_size m) ->
  exists s', container_unmap s m = Some s' /\ cinv es s' /\
    let ao := m_off m - m_off m mod es in bytes_of s' = overwrite (bytes_of s) ao (firstn (length (bytes_of s) - ao) (m_mem m)).
Proof.
  intros [(Hes & Hf) Ee] Hw Hb Hn Hl. unfold container_unmap. rewrite Hw, Ee in *. destruct (Nat.eqb_spec es 0); [lia|].
  destruct (alloc_facts es (m_off m) (m_size m) Hes) as (a & q & A1 & A2 & A3 & A4 & A5 & A6 & A7).
  destruct (copy_out_ok es (m_off m - m_off m mod es) (m_off m - m_off m mod es + alloc_size es (m_off m) (m_size m)) a q Hes A1 ltac:(congruence) (c_elems s) (m_mem m) Hf (A6 Hn) ltac:(congruence)) as (e & E1 & E2 & E3).
  { unfold bytes_of in Hb. rewrite concat_length with (es := es) in Hb by auto. nia. }
  rewrite E1. eexists. split; [reflexivity|]. split; [|exact E3]. split; [|reflexivity]. split; auto.
Qed.

Lemma container_peek es s off n acc m : cinv es s -> rd acc = true -> off + n <= length (bytes_of s) -> n <> 0 \/ off mod es <> 0 ->
  container_map s off n acc = Some m -> peek m = Some (slice (bytes_of s) off n).
Proof.
  intros Hi Hr Hb Hn Em. destruct (container_map_ok es s off n acc Hi (fun _ => Hn)) as (m' & E1 & E2 & E3 & E4 & E5 & E6 & E7). rewrite Em in E1. injection E1 as <-.
  destruct (E7 Hr) as (j & F1 & F2). destruct Hi as [(Hes & Hf) Ee]. rewrite Ee in *. destruct (alloc_facts es off n Hes) as (a & q & A1 & A2 & A3 & A4 & A5 & A6 & A7).
  unfold peek. rewrite E3, E4, E6. destruct (Nat.leb_spec (off mod es + n) (alloc_size es off n)); [|lia]. f_equal. rewrite F2.
  apply list_ext_nth_error. intros i. rewrite !nth_error_slice. destruct (Nat.ltb_spec i n); [|reflexivity].
  assert (Ls : length (slice (bytes_of s) (off - off mod es) (alloc_size es off n)) <= alloc_size es off n) by (unfold slice; rewrite firstn_length; lia).
  rewrite nth_error_overwrite by lia. cbn [Nat.leb andb]. unfold slice at 1. rewrite firstn_length, skipn_length. destruct (Nat.ltb_spec (off mod es + i) (0 + Nat.min (alloc_size es off n) (length (bytes_of s) - (off - off mod es)))); [|lia].
  rewrite nth_error_slice, Nat.sub_0_r. destruct (Nat.ltb_spec (off mod es + i) (alloc_size es off n)); [|lia]. f_equal. lia.
Qed.

Lemma container_lawful es : es <> 0 ->
  lawful container_interface (cinv es) bytes_of (fun _ n => n <> 0) (fun off n => n <> 0 /\ off mod es = 0 /\ n mod es = 0) True.
Proof.
  intros Hes. split; cbn [container_interface i_pms i_map i_unmap i_read i_write i_copy i_fill i_resize]; try discriminate.
  - intros s off n Hi Hb Hn. destruct (container_map_ok es s off n RO Hi) as (m & E1 & E2 & E3 & E4 & E5 & E6 & E7); [auto|].
    exists m, s. rewrite E3. split; [auto|]. split; [auto|]. split; [auto|]. split; [auto|].
    split; [apply (container_peek es s off n RO); auto|]. split; [|auto]. unfold container_unmap. rewrite E2. destruct Hi as [_ ->]. destruct (Nat.eqb_spec es 0); [lia|reflexivity].
  - intros s off n Hi Hb (Hn & H1 & H2). destruct (container_map_ok es s off n WO Hi) as (m & E1 & E2 & E3 & E4 & E5 & E6 & E7); [discriminate|].
    exists m. rewrite E3. split; [auto|]. split; [auto|]. split; [auto|]. split; [auto|]. intros bytes Lb.
    destruct (alloc_facts es off n Hes) as (a & q & A1 & A2 & A3 & A4 & A5 & A6 & A7). specialize (A7 H1 H2).
    unfold poke. rewrite E3, E4, E6, Lb, Nat.eqb_refl, H1. destruct (Nat.leb_spec (0 + n) (alloc_size es off n)); [|lia]. cbn [andb].
    rewrite overwrite_all by lia.
    destruct (container_unmap_ok es s {| m_mem := bytes; m_start := 0; m_off := m_off m; m_size := n; m_hint := m_hint m |} Hi) as (s' & F1 & F2 & F3); cbn [m_hint m_off m_size m_mem] in *.
    { now rewrite E2. } { lia. } { auto. } { rewrite E5. lia. }
    eexists _, s'. split; [reflexivity|]. cbn [m_hint m_size]. split; [auto|]. split; [auto|]. split; [exact F1|]. split; [|auto].
    rewrite F3, E5, H1, Nat.sub_0_r. f_equal. apply firstn_all2. lia.
Qed.

(** A map for reading and writing keeps the bytes around it *)
Lemma container_rw es s off bytes : cinv es s -> off + length bytes <= length (bytes_of s) -> bytes <> [] ->
  exists m m' s', container_map s off (length bytes) RW = Some m /\ peek m = Some (slice (bytes_of s) off (length bytes)) /\
    poke m bytes = Some m' /\ container_unmap s m' = Some s' /\ cinv es s' /\ bytes_of s' = overwrite (bytes_of s) off bytes.
Proof.
  intros Hi Hb Hne. set (n := length bytes) in *. assert (Hn : n <> 0) by (destruct bytes; cbn in *; congruence).
  destruct (container_map_ok es s off n RW Hi) as (m & E1 & E2 & E3 & E4 & E5 & E6 & E7); [auto|]. pose proof Hi as [(Hes & Hf) Ee]. rewrite Ee in *.
  destruct (alloc_facts es off n Hes) as (a & q & A1 & A2 & A3 & A4 & A5 & A6 & A7). destruct (E7 eq_refl) as (j & F1 & F2).
  exists m, {| m_mem := overwrite (m_mem m) (m_start m) bytes; m_start := m_start m; m_off := m_off m; m_size := m_size m; m_hint := m_hint m |}.
  destruct (container_unmap_ok es s {| m_mem := overwrite (m_mem m) (m_start m) bytes; m_start := m_start m; m_off := m_off m; m_size := m_size m; m_hint := m_hint m |} Hi) as (s' & G1 & G2 & G3); cbn [m_hint m_off m_size m_mem] in *.
  { now rewrite E2. } { lia. } { rewrite E3; auto. } { rewrite overwrite_length, E6, E3, E5; [auto|]. rewrite E6, E4. lia. }
  exists s'. split; [auto|]. split; [apply (container_peek es s off n RW); auto|].
  split; [unfold poke; rewrite E3, E4, E6; fold n; rewrite Nat.eqb_refl; destruct (Nat.leb_spec (off mod es + n) (alloc_size es off n)); [reflexivity|lia]|].
  split; [exact G1|]. split; [auto|]. rewrite G3, E5, E4, F2, A2. set (c := bytes_of s) in *. set (r := off mod es) in *.
  assert (Ls : length (slice c (off - r) (q * es)) = Nat.min (q * es) (length c - (off - r))) by (unfold slice; rewrite firstn_length, skipn_length; reflexivity).
  assert (Lo : length (overwrite j 0 (slice c (off - r) (q * es))) = q * es). { rewrite overwrite_length; lia. }
  assert (Lp : length (overwrite (overwrite j 0 (slice c (off - r) (q * es))) r bytes) = q * es). { rewrite overwrite_length by (fold n; lia). exact Lo. }
  apply list_ext_nth_error. intros i. rewrite (nth_error_overwrite c) by (rewrite firstn_length; lia). rewrite (nth_error_overwrite c) by (fold n; lia).
  rewrite firstn_length, Lp, nth_error_firstn, nth_error_overwrite by (fold n; lia). rewrite nth_error_overwrite by lia. rewrite Ls, nth_error_slice. fold n. clearbody r n c.
  assert (Hr : r <= off) by lia. assert (Hq : r + n <= q * es) by lia. set (w := q * es) in *. clearbody w. clear - Hb Hr Hq Hn.
  destruct (Nat.leb_spec (off - r) i); cbn [andb]; [|destruct (Nat.leb_spec off i); [lia|reflexivity]].
  destruct (Nat.ltb_spec i (off - r + Nat.min (length c - (off - r)) w)); [|destruct (Nat.leb_spec off i); destruct (Nat.ltb_spec i (off + n)); try lia; reflexivity].
  destruct (Nat.ltb_spec (i - (off - r)) (length c - (off - r))); [|lia].
  destruct (Nat.leb_spec r (i - (off - r))); destruct (Nat.leb_spec off i); try lia; cbn [andb].
  - destruct (Nat.ltb_spec (i - (off - r)) (r + n)); destruct (Nat.ltb_spec i (off + n)); try lia; [f_equal; lia|].
    cbn [Nat.leb andb]. destruct (Nat.ltb_spec (i - (off - r)) (0 + Nat.min w (length c - (off - r)))); [|lia]. destruct (Nat.ltb_spec (i - (off - r) - 0) w); [|lia]. f_equal. lia.
  - cbn [Nat.leb andb]. destruct (Nat.ltb_spec (i - (off - r)) (0 + Nat.min w (length c - (off - r)))); [|lia]. destruct (Nat.ltb_spec (i - (off - r) - 0) w); [|lia]. f_equal. lia.
Qed.
