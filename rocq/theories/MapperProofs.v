(** Proofs for C79, C80 and C81. *)
From Verif Require Import Base Word BigIntModel BigIntSpec BigIntProofs BigIntSubProofs BigIntTextProofs BigIntFastModel BigIntFastSpec BigIntFastProofs BigIntProps
  StringModel StringSpec StringPackProofs StringUtf8Proofs StringReadProofs StringMakeProofs StringBuildProofs MapperModel MapperSpec.
Local Open Scope N_scope.

(** ** Big integers *)

Lemma shifted c r : r <= 1 -> N.lor (wshl 64 c 1) r = 2 * (c mod 2 ^ 63) + r.
Proof.
  intros H. unfold wshl. change (2 ^ 64) with (2 ^ 63 * 2 ^ 1). rewrite N.mul_mod_distr_r by discriminate.
  rewrite N.lor_comm, lor_add by (change (2 ^ 1) with 2; lia). change (2 ^ 1) with 2. lia.
Qed.
Lemma low_bit x r : r <= 1 -> N.land (2 * x + r) 1 = r.
Proof.
  intros H. change 1 with (N.ones 1) at 1. rewrite N.land_ones. change (2 ^ 1) with 2. rewrite N.add_comm, N.mul_comm, N.mod_add by lia. apply N.mod_small. lia.
Qed.
Lemma high_bits x r : r <= 1 -> N.shiftr (2 * x + r) 1 = x.
Proof. intros H. rewrite N.shiftr_div_pow2. change (2 ^ 1) with 2. rewrite N.add_comm, N.mul_comm, N.div_add by lia. rewrite N.div_small; lia. Qed.
Lemma top_bit c : c < 2 ^ 64 -> N.shiftr c 63 <= 1.
Proof. intros H. rewrite N.shiftr_div_pow2. assert (c / 2 ^ 63 < 2) by (apply N.div_lt_upper_bound; [discriminate|exact H]). lia. Qed.
Lemma joined c : c < 2 ^ 64 -> N.lor (c mod 2 ^ 63) (wshl 64 (N.shiftr c 63) 63) = c.
Proof.
  intros H. pose proof (top_bit c H) as T. unfold wshl. rewrite (N.mod_small (N.shiftr c 63 * 2 ^ 63)).
  - rewrite lor_add by (apply N.mod_lt; discriminate). rewrite N.shiftr_div_pow2. rewrite (N.div_mod c (2 ^ 63)) at 3 by discriminate. lia.
  - change (2 ^ 64) with (2 * 2 ^ 63). apply N.mul_lt_mono_pos_r; [reflexivity|lia].
Qed.
Lemma topless c : c < 2 ^ 64 -> N.shiftr c 63 = 0 -> c mod 2 ^ 63 = c.
Proof. intros H E. rewrite N.shiftr_div_pow2 in E. rewrite (N.div_mod c (2 ^ 63)) at 2 by discriminate. rewrite E. lia. Qed.

(** What comes back: the components without a last one that is 0. *)
Definition unpadded (l : list N) : list N := if last l 0 =? 0 then removelast l else l.

Lemma shift_round ls : forall c r, c < 2 ^ 64 -> small ls -> r <= 1 ->
  exists w ws, shift_in (c :: ls) r = w :: ws /\ N.land w 1 = r /\ shift_out ws (N.shiftr w 1) = unpadded (c :: ls).
Proof.
  induction ls as [|c' ls IH]; intros c r Hc Hs Hr; exists (N.lor (wshl 64 c 1) r).
  - exists (shift_in [] (N.shiftr c 63)). rewrite shifted by exact Hr. rewrite low_bit, high_bits by exact Hr. split; [cbn [shift_in]; now rewrite shifted|split; [reflexivity|]].
    cbn [shift_in]. unfold unpadded. cbn [last removelast]. pose proof (top_bit c Hc). pose proof (joined c Hc) as J. destruct (N.eqb_spec (N.shiftr c 63) 0) as [E|E].
    + cbn [shift_out]. rewrite (topless c Hc E). reflexivity.
    + assert (E1 : N.shiftr c 63 = 1) by lia. rewrite E1 in *. cbn [shift_out]. change (N.land 1 1) with 1. rewrite J. change (N.shiftr 1 1 =? 0) with true. cbv iota.
      destruct (N.eqb_spec c 0) as [->|]; [discriminate E1|reflexivity].
  - assert (Hc' : c' < 2 ^ 64) by (apply Hs; now left). assert (Hs' : small ls) by (intros d Hd; apply Hs; now right).
    destruct (IH c' (N.shiftr c 63) Hc' Hs' (top_bit c Hc)) as (w & ws & E1 & E2 & E3). exists (w :: ws). rewrite shifted by exact Hr. rewrite low_bit, high_bits by exact Hr.
    split; [|split; [reflexivity|]].
    + change (shift_in (c :: c' :: ls) r) with (N.lor (wshl 64 c 1) r :: shift_in (c' :: ls) (N.shiftr c 63)). rewrite E1, shifted by exact Hr. reflexivity.
    + cbn [shift_out]. rewrite E2, (joined c Hc), E3. unfold unpadded. change (last (c :: c' :: ls) 0) with (last (c' :: ls) 0). change (removelast (c :: c' :: ls)) with (c :: removelast (c' :: ls)).
      now destruct (last (c' :: ls) 0 =? 0).
Qed.

Lemma words_round b : normal b -> unmap_words (shift_in (limbs b) (if sign b then 1 else 0)) = Some (mkBig (sign b) (unpadded (limbs b))).
Proof.
  intros [Hs Hz]. pose proof (sized_len _ Hz) as L. destruct b as [s [|c ls]]; cbn [limbs sign] in *; [cbn in L; lia|].
  destruct (shift_round ls c (if s then 1 else 0)) as (w & ws & E1 & E2 & E3); [apply Hs; now left|intros d Hd; apply Hs; now right|destruct s; lia|].
  rewrite E1. cbn [unmap_words]. rewrite E2, E3. now destruct s.
Qed.

Lemma unpadded_iff b : normal b -> (unpadded (limbs b) = limbs b <-> value b <> 0%Z).
Proof.
  intros [Hs Hz]. pose proof (sized_len _ Hz) as L. unfold value. destruct b as [s l]. cbn [limbs sign] in *. unfold unpadded.
  assert (Hv : (if s then - magnitude l else magnitude l)%Z <> 0%Z <-> magnitude l <> 0%Z) by (destruct s; lia). rewrite Hv. clear Hv.
  destruct (Nat.leb_spec 2 (length l)) as [L2|L2].
  - pose proof (sized_last l Hs Hz L2) as Hl. pose proof (sized_lower l Hs Hz L2) as Hlo. pose proof (pw_pos (length l - 1)).
    destruct (N.eqb_spec (last l 0) 0); [contradiction|]. split; [lia|reflexivity].
  - destruct l as [|c [|c' l]]; cbn [length] in *; try lia. cbn [last removelast magnitude]. destruct (N.eqb_spec c 0) as [->|Hc].
    + split; [discriminate|intros H; now elim H].
    + split; [lia|reflexivity].
Qed.

Lemma big_round_words b : normal b -> (big_round Serialize b = Some b <-> value b <> 0%Z).
Proof.
  intros H. unfold big_round. cbn [map_big unmap_big]. rewrite (words_round b H), <- (unpadded_iff b H). destruct b as [s l]. cbn [sign limbs]. split; [|intros ->; reflexivity].
  intros E. now injection E as E.
Qed.

Lemma words_zero b : normal b -> value b = 0%Z -> unmap_words (shift_in (limbs b) (if sign b then 1 else 0)) = Some (mkBig (sign b) []).
Proof.
  intros Hn V. rewrite (words_round b Hn). destruct Hn as [Hs Hz]. pose proof (sized_len _ Hz) as L. do 2 f_equal.
  destruct b as [s l]. unfold value in V. cbn [limbs sign] in *. assert (V' : magnitude l = 0%Z) by (destruct s; lia). clear V.
  destruct (Nat.leb_spec 2 (length l)) as [L2|L2].
  - pose proof (sized_lower l Hs Hz L2). pose proof (pw_pos (length l - 1)). lia.
  - destruct l as [|c [|c' l]]; cbn [length] in *; try lia. cbn [magnitude] in V'. assert (c = 0) as -> by lia. reflexivity.
Qed.

Lemma big_round_text i b : i <> Serialize -> canonical b -> big_round i b = Some b.
Proof.
  intros Hi C. destruct (c15_round_trip b (proj1 C)) as (r & E & _ & _ & U). specialize (U C). subst r.
  destruct i; try reflexivity; try (now elim Hi); exact E.
Qed.

(** ** Strings *)

Section M.
Variable M : StringModel.env.
Hypothesis GM : good_maps M.

Lemma ascii_bytes cs : Forall scalar cs -> (ascii cs <-> length (utf8 cs) = length cs).
Proof.
  intros Hs. split.
  - intros Ha. rewrite ascii_utf8; [reflexivity|]. apply Forall_forall. intros c Hc. split; [exact (proj1 (Forall_forall _ _) Hs c Hc)|exact (proj1 (Forall_forall _ _) Ha c Hc)].
  - induction cs as [|c cs IH]; intros E; [constructor|]. rewrite utf8_cons, app_length in E. cbn [length] in E. pose proof (utf8_char_nonempty c). pose proof (utf8_len cs).
    assert (E1 : length (utf8_char c) = 1%nat) by lia. assert (E2 : length (utf8 cs) = length cs) by lia. inversion Hs; subst. constructor; [|now apply IH].
    unfold utf8_char in E1. destruct (N.ltb_spec c 0x80) as [L|L]; [exact L|]. destruct (c <? 0x800); [discriminate E1|]. destruct (c <? 0x10000); discriminate E1.
Qed.

Lemma temp_buffer_ok s cs : represents M s cs -> exists rest, temp_buffer M s = Some (utf8 cs ++ rest).
Proof.
  intros R. assert (C : (let? len := get_length M s in let? bs := copy_characters M s 0 len in let? size := get_size M s in filled (size + 1) bs) = Some (utf8 cs ++ [0])).
  { rewrite (get_length_ok M GM s cs R), (copy_characters_ok M GM s cs 0 (length cs) R) by lia. cbn [skipn]. rewrite firstn_all, (get_size_ok M GM s cs R).
    unfold filled. now rewrite Nat.leb_refl. }
  unfold temp_buffer. rewrite C. destruct s as [w|h]; [eauto|]. destruct (h_unsafe h); [eauto|]. destruct R as (Se & _ & rest & -> & _).
  exists rest. now rewrite (encode_utf8 _ _ Se).
Qed.

Lemma map_bytes i s cs : as_bytes i -> represents M s cs -> map_str M i s = Some (SBytes (firstn (length cs) (utf8 cs))).
Proof.
  intros Hi R. destruct (temp_buffer_ok s cs R) as [rest E]. pose proof (utf8_len cs) as L.
  assert (C : (let? mem := temp_buffer M s in let? n := get_length M s in let? bs := read_bytes mem n in Some (SBytes bs)) = Some (SBytes (firstn (length cs) (utf8 cs)))).
  { rewrite E, (get_length_ok M GM s cs R). unfold read_bytes. rewrite app_length. destruct (Nat.leb_spec (length cs) (length (utf8 cs) + length rest)); [|lia].
    rewrite firstn_app. replace (length cs - length (utf8 cs))%nat with 0%nat by lia. cbn [firstn]. now rewrite app_nil_r. }
  destruct Hi as [->|[->| ->]]; exact C.
Qed.

Lemma strncpy_length n : forall mem l, strncpy mem n = Some l -> length l = n.
Proof.
  induction n as [|n IH]; intros mem l E; [destruct mem; now injection E as <-|]. destruct mem as [|b mem]; [discriminate|]. cbn [strncpy] in E. destruct (b =? 0).
  - injection E as <-. cbn [length]. now rewrite repeat_length.
  - destruct (strncpy mem n) as [r|] eqn:Er; [|discriminate]. injection E as <-. cbn. now rewrite (IH _ _ Er).
Qed.

Lemma str_bytes i before rest s cs : ascii_maps M -> as_bytes i -> represents M s cs ->
  ((exists r, str_round M i before rest s = Some r /\ represents M r cs) <-> ascii cs).
Proof.
  intros Am Hi R. pose proof (represents_scalar M s cs R) as Sc. unfold str_round. rewrite (map_bytes i s cs Hi R). cbn [unmap_str]. split.
  - intros (r & E & Rr). apply ascii_bytes; [exact Sc|]. pose proof (utf8_len cs) as L. rewrite firstn_length, Nat.min_l in E by lia.
    unfold create_with_size, create_from in E. destruct (create_tagged M _ _ _) as [w|]; [|discriminate]. destruct (negb (w =? 0)).
    + injection E as <-. destruct Rr as [_ [set (Hset & _ & ds & F & _)]]. apply ascii_bytes; [exact Sc|].
      clear - F Am Hset. unfold ascii. induction F as [|c d cs ds [Hn _] _ IH]; constructor; [|exact IH]. apply (Am set); [exact Hset|]. now apply nth_error_In in Hn.
    + destruct (strncpy _ _) as [l|] eqn:El; [|discriminate]. injection E as <-. destruct Rr as (_ & _ & r' & _ & _ & [X|X]); cbn [h_size] in X; [discriminate|].
      cbn [h_encoding encode] in X.
      injection X as X. lia.
  - intros Ha. assert (El : length (utf8 cs) = length cs) by now apply ascii_bytes. rewrite <- El, firstn_all.
    assert (Se : Forall (encodable UTF8) cs) by (eapply Forall_impl; [|exact Sc]; intros c Hc; split; [exact Hc|exact I]).
    destruct (create_with_size_ok M GM UTF8 before cs rest Se) as (r & E & Rr & _). exists r. split; [|exact Rr]. exact E.
Qed.

Lemma str_object i before rest s cs : ~ as_bytes i -> represents M s cs -> exists r, str_round M i before rest s = Some r /\ represents M r cs.
Proof.
  intros Hi R. unfold str_round. destruct i; try (elim Hi; unfold as_bytes; tauto); cbn [map_str].
  - eexists. split; [reflexivity|exact R].
  - destruct (copy_ok M GM s cs R) as (r & -> & Rr). cbn [unmap_str]. eauto.
  - destruct (copy_ok M GM s cs R) as (r & -> & Rr). cbn [unmap_str]. eauto.
Qed.
End M.

(** ** Types *)

Lemma index_lookup t i : index_of t = Some i -> nth_error lookups (N.to_nat i) = Some t /\ i < 53.
Proof. destruct t; cbn [index_of]; intros E; try discriminate; injection E as <-; split; reflexivity. Qed.
Lemma index_inj t u i : index_of t = Some i -> index_of u = Some i -> t = u.
Proof. intros H1 H2. apply index_lookup in H1, H2. destruct H1 as [H1 _], H2 as [H2 _]. congruence. Qed.
Lemma lookup_index n t : nth_error lookups n = Some t -> index_of t = Some (N.of_nat n).
Proof.
  intros H. assert (L : (n < length lookups)%nat) by (apply nth_error_Some; congruence). change (length lookups) with 53%nat in L.
  do 53 (destruct n as [|n]; [injection H as <-; reflexivity|]). lia.
Qed.
