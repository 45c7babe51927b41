(** Searching in the strings that represent a sequence. *)
From Verif Require Import Base Word StringModel StringSpec StringPackProofs StringUtf8Proofs StringReadProofs StringCompareProofs.

Lemma occurs_iff (sub cs : list N) p : sub <> [] -> (occurs_at sub cs p <-> firstn (length sub) (skipn p cs) = sub).
Proof.
  intros Hne. split.
  - intros (pre & post & -> & <-). rewrite skipn_app_exact. apply firstn_app_exact.
  - intros E. exists (firstn p cs), (skipn (length sub) (skipn p cs)). split.
    + rewrite <- E at 1. rewrite firstn_skipn. symmetry. apply firstn_skipn.
    + rewrite firstn_length. apply (f_equal (@length N)) in E. rewrite firstn_length, skipn_length in E. destruct sub; [contradiction|]. cbn [length] in *. lia.
Qed.

Lemma occurs_fits (sub cs : list N) p : occurs_at sub cs p -> p + length sub <= length cs.
Proof. intros (pre & post & -> & <-). rewrite !app_length. lia. Qed.

Lemma least_fun sub cs i r r' : least sub cs i r -> least sub cs i r' -> r = r'.
Proof.
  destruct r as [p|], r' as [p'|]; cbn [least]; intros H H'; [|exfalso..|reflexivity].
  - destruct H as (H1 & H2 & H3), H' as (H1' & H2' & H3'). f_equal. destruct (Nat.lt_trichotomy p p') as [L|[L|L]]; [|exact L|].
    + destruct (H3' p ltac:(lia) H2).
    + destruct (H3 p' ltac:(lia) H2').
  - destruct H as (H1 & H2 & _). exact (H' p H1 H2).
  - destruct H' as (H1 & H2 & _). exact (H p' H1 H2).
Qed.

Section with_maps.
Context (M : env) (GM : good_maps M).

Lemma same_chars_ok s sub cs scs : represents M s cs -> represents M sub scs -> forall n i j, i + n <= length cs -> j + n <= length scs -> 1 <= n ->
  exists q, same_chars M s sub i j n = Some q /\ (q = true <-> firstn n (skipn i cs) = firstn n (skipn j scs)).
Proof.
  intros R1 R2. induction n as [|n IH]; intros i j Hi Hj Hn; [lia|]. cbn [same_chars].
  rewrite (char_at_ok M GM s cs i R1), (char_at_ok M GM sub scs j R2) by lia. rewrite (skipn_nth cs i), (skipn_nth scs j) by lia. cbn [firstn].
  destruct (N.eqb_spec (nth i cs 0%N) (nth j scs 0%N)) as [E|E].
  - rewrite E. destruct n as [|n]; [exists true; split; [reflexivity|]; now split|].
    destruct (IH (i + 1) (j + 1) ltac:(lia) ltac:(lia) ltac:(lia)) as (q & -> & Hq). exists q. split; [reflexivity|]. rewrite Hq. split; [now intros ->|]. congruence.
  - exists false. split; [reflexivity|]. split; [discriminate|congruence].
Qed.

Lemma find_general_ok s sub cs scs : represents M s cs -> represents M sub scs -> scs <> [] -> forall n i, length cs < n + i -> i <= length cs ->
  exists r, find_general n M s sub i (length cs) (length scs) = Some r /\ least scs cs i r.
Proof.
  intros R1 R2 Hne. assert (Hl : 1 <= length scs) by (destruct scs; [contradiction|cbn; lia]).
  induction n as [|n IH]; intros i Hn Hi; [lia|]. cbn [find_general].
  destruct (Nat.leb_spec (length scs) (length cs - i)) as [L|L]; cbn [andb].
  - destruct (Nat.ltb_spec i (length cs)); [|lia]. destruct (same_chars_ok s sub cs scs R1 R2 (length scs) i 0 ltac:(lia) ltac:(lia) Hl) as (q & -> & Hq).
    change (skipn 0 scs) with scs in Hq. rewrite firstn_all in Hq. destruct q.
    + exists (Some i). split; [reflexivity|]. split; [lia|]. split; [apply occurs_iff; [exact Hne|]; now apply Hq|]. intros q Hq'. lia.
    + destruct (IH (i + 1) ltac:(lia) ltac:(lia)) as (r & -> & Hr). exists r. split; [reflexivity|].
      assert (Hi' : ~ occurs_at scs cs i) by (rewrite occurs_iff by exact Hne; intros E; apply Hq in E; discriminate).
      destruct r as [p|]; cbn [least] in *.
      * destruct Hr as (A & B & C). split; [lia|]. split; [exact B|]. intros q Hq'. destruct (Nat.eq_dec q i) as [->|]; [exact Hi'|]. apply C. lia.
      * intros q Hq'. destruct (Nat.eq_dec q i) as [->|]; [exact Hi'|]. apply Hr. lia.
  - exists None. split; [reflexivity|]. intros q Hq O. apply occurs_fits in O. lia.
Qed.

(** The loop over the word: [k] places after the start [i]. *)
Lemma find_tagged_ok set cs scs ds es i : digits set ds -> digits set es -> Forall2 (first_at (chars_of M set)) cs ds -> Forall2 (first_at (chars_of M set)) scs es ->
  scs <> [] -> forall n k, 
  match find_tagged n (bits_of set) (packed (bits_of set) (skipn k ds)) (packed (bits_of set) es * 2 ^ (bits_of set * N.of_nat i))
    (N.ones (bits_of set * N.of_nat (length scs)) * 2 ^ (bits_of set * N.of_nat i)) (i + k) (length cs) with
  | Some p => i + k <= p < i + k + n /\ occurs_at scs cs p /\ forall q, i + k <= q < p -> ~ occurs_at scs cs q
  | None => forall q, i + k <= q < i + k + n -> ~ occurs_at scs cs q
  end.
Proof.
  intros D D' F F' Hne. assert (L' : length es = length scs) by (symmetry; clear - F'; induction F'; cbn; congruence).
  induction n as [|n IH]; intros k; cbn [find_tagged]; [intros q Hq; lia|].
  destruct (Nat.ltb_spec (i + k) (length cs)) as [L|L].
  2: { intros q Hq O. apply occurs_fits in O. destruct scs; [contradiction|]. cbn [length] in O. lia. }
  assert (T : (N.land (packed (bits_of set) (skipn k ds)) (N.ones (bits_of set * N.of_nat (length scs)) * 2 ^ (bits_of set * N.of_nat i)) =?
     packed (bits_of set) es * 2 ^ (bits_of set * N.of_nat i))%N = true <-> occurs_at scs cs (i + k)).
  { rewrite N.eqb_eq, land_shifted, N.mul_cancel_r by apply pow2_nz. rewrite packed_div, packed_mod, skipn_skipn by (repeat apply Forall_skipn; apply D).
    rewrite occurs_iff by exact Hne. rewrite (digits_eq M set _ _ _ _ (firstn_digits M set _ _ (length scs) (skipn_digits M set cs ds (i + k) F)) F').
    rewrite <- L'. split; [|intros ->; reflexivity]. apply packed_inj; try apply D'; apply Forall_firstn, Forall_skipn, D. }
  destruct (N.eqb_spec (N.land (packed (bits_of set) (skipn k ds)) (N.ones (bits_of set * N.of_nat (length scs)) * 2 ^ (bits_of set * N.of_nat i)))
     (packed (bits_of set) es * 2 ^ (bits_of set * N.of_nat i))) as [E|E].
  - split; [lia|]. split; [now apply T|]. intros q Hq. lia.
  - assert (Hk : ~ occurs_at scs cs (i + k)) by (intros O; apply T in O; discriminate).
    rewrite N.shiftr_div_pow2. replace (2 ^ bits_of set)%N with (2 ^ (bits_of set * N.of_nat 1))%N by (f_equal; lia). rewrite packed_div, skipn_skipn by (apply Forall_skipn, D).
    replace (1 + k) with (k + 1) by lia. rewrite <- Nat.add_assoc. specialize (IH (k + 1)). destruct (find_tagged n _ _ _ _ (i + (k + 1)) _) as [p|].
    + destruct IH as (A & B & C). split; [lia|]. split; [exact B|]. intros q Hq. destruct (Nat.eq_dec q (i + k)) as [->|]; [exact Hk|]. apply C. lia.
    + intros q Hq. destruct (Nat.eq_dec q (i + k)) as [->|]; [exact Hk|]. apply IH. lia.
Qed.

Lemma find_ok s sub cs scs i : represents M s cs -> represents M sub scs -> scs <> [] -> i <= length cs ->
  exists r, find M s i sub = Some r /\ (~ overlooked M s sub cs scs i -> least scs cs i r) /\ (overlooked M s sub cs scs i -> r = None).
Proof.
  intros R1 R2 Hne Hi. unfold find. rewrite (get_length_ok M GM s cs R1), (get_length_ok M GM sub scs R2).
  assert (Hl : 1 <= length scs) by (destruct scs; [contradiction|cbn; lia]).
  destruct (Nat.leb_spec i (length cs)) as [_|]; [|lia]. cbn [negb].
  destruct (Nat.eqb_spec (length cs) 0) as [E0|E0]; cbn [negb andb].
  { exists None. split; [reflexivity|]. split; [|reflexivity]. intros _ q Hq O. apply occurs_fits in O. lia. }
  destruct (Nat.leb_spec (length scs) (length cs - i)) as [L|L].
  2: { exists None. split; [reflexivity|]. split; [|reflexivity]. intros _ q Hq O. apply occurs_fits in O. lia. }
  destruct (find_general_ok s sub cs scs R1 R2 Hne (Datatypes.S (length cs)) i ltac:(lia) Hi) as (r & Er & Hr).
  destruct s as [w1|h1]; [destruct sub as [w2|h2]|]; try (exists r; split; [exact Er|]; split; [now intros _|]; intros (_ & _ & []); fail).
  pose proof (represents_scalar M _ _ R1) as S1. pose proof (represents_scalar M _ _ R2) as S2.
  destruct (N.eqb_spec (set_of w1) (set_of w2)) as [Hs|Hs].
  2: { exists r. split; [exact Er|]. split; [now intros _|]. intros (_ & _ & ? & _). contradiction. }
  destruct R1 as [_ [set I1]], R2 as [_ [set' I2]]. pose proof (tagged_set M _ _ _ I1) as T1. pose proof (tagged_set M _ _ _ I2) as T2.
  replace set' with set in I2 by congruence. unfold overlooked. rewrite T1.
  destruct (inline_digits M GM set cs w1 S1 I1) as (ds & D & L1 & F & Ew1). destruct (inline_digits M GM set scs w2 S2 I2) as (es & D' & L2 & F' & Ew2).
  pose proof (bits_pos set (dg_set _ _ D)) as Hb. pose proof (dg_set _ _ D) as Hset. pose proof (dg_len _ _ D) as Hmax.
  pose proof (digits_word set ds i D ltac:(lia)) as W1. pose proof (digits_word set ds (length scs) D ltac:(lia)) as W2. pose proof (digits_word set ds (length scs + i) D ltac:(lia)) as W3.
  rewrite Ew1, Ew2, !shiftr_tag by lia.
  pose proof (shifted_62 set es i D' ltac:(lia)) as Hsh.
  rewrite shl_ok by (first [lia | eapply N.lt_trans; [exact Hsh|reflexivity]]).
  rewrite low_mask_ok by nia. rewrite shl_ok by (first [lia | apply ones_shifted; nia]).
  eexists. split; [reflexivity|]. rewrite (N.mul_comm (N.of_nat (length scs))).
  pose proof (find_tagged_ok set cs scs ds es i D D' F F' Hne (char_max set - length scs) 0) as G. rewrite Nat.add_0_r in G. cbn [skipn] in G.
  destruct (find_tagged _ _ _ _ _ _ _) as [p|].
  - destruct G as (A & B & C). split; [intros _; cbn [least]; repeat split; [lia|exact B|exact C]|].
    intros (-> & Hle & _ & Hfull). exfalso. pose proof (least_fun scs cs 0 _ (Some p) Hle (conj (proj1 A) (conj B C))) as E. injection E as E. lia.
  - split; [|reflexivity]. intros Hno q Hq O. apply Hno. pose proof (occurs_fits _ _ _ O) as Oq.
    destruct (Nat.lt_ge_cases q (i + (char_max set - length scs))) as [Hlt|Hge]; [destruct (G q (conj Hq Hlt) O)|].
    assert (i = 0) by lia. subst i. assert (q = length cs - length scs) by lia. subst q. split; [reflexivity|]. split; [|split; [rewrite !set_of_tag by lia; reflexivity|lia]].
    cbn [least]. split; [lia|]. split; [exact O|]. intros q Hq'. apply G. lia.
Qed.
End with_maps.
