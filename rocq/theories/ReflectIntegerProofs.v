(** Proofs for the integers of the binary serialisation. *)
From Verif Require Import Base ReflectStreamModel ReflectIntegerModel ReflectIntegerSpec ReflectStreamProofs ReflectIntegerDecode.
Local Open Scope N_scope.

(** ** Numbers *)
Lemma first_in size off c0 u us rest : opening off c0 -> off = 1 -> u < 256 -> (0 < size)%nat -> N.testbit (hd 0 (encode off c0 0 (u :: us) ++ rest)) 6 = (c0 =? 64).
Proof.
  intros O Ho Hu _. destruct (first_ok off c0 u O Hu) as [_ _ _ _ _ _ _ GS GS']. assert (Hm : (0 + off) mod 8 = off) by (subst off; reflexivity). cbn [encode]. rewrite Hm. destruct us as [|x us]; [|cbn [app hd]; auto].
  destruct (N.land u (high off) =? 0); cbn [app hd]; auto.
Qed.

Lemma encode_length off : forall bs c k, (length (encode off c k bs) <= length bs + 1)%nat.
Proof. induction bs as [|b bs IH]; intros c k; cbn [encode length]; [lia|]. destruct bs as [|x bs]; [destruct (_ =? 0); cbn [length]; lia|]. cbn [length] in *. specialize (IH (N.shiftr (N.land b (high ((k + off) mod 8))) 1) (k + 1)). lia. Qed.

Lemma magnitude_app a b : magnitude (a ++ b) = (magnitude a + 256 ^ Z.of_nat (length a) * magnitude b)%Z.
Proof.
  induction a as [|x a IH]; cbn [app magnitude length]; [change (256 ^ Z.of_nat 0)%Z with 1%Z; lia|]. rewrite IH, Nat2Z.inj_succ, Z.pow_succ_r by lia. ring.
Qed.

Lemma magnitude_zeros n : magnitude (repeat 0 n) = 0%Z.
Proof. induction n as [|n IH]; cbn [repeat magnitude]; [reflexivity|]. now rewrite IH. Qed.

Lemma magnitude_bounds bs : bytes bs -> (0 <= magnitude bs < 256 ^ Z.of_nat (length bs))%Z.
Proof. induction 1 as [|b bs Hb _ IH]; cbn [magnitude length]; [cbn; lia|]. rewrite Nat2Z.inj_succ, Z.pow_succ_r by lia. lia. Qed.

Lemma pow256 n : (256 ^ Z.of_nat n = 2 ^ (8 * Z.of_nat n))%Z.
Proof. rewrite Z.pow_mul_r by lia. reflexivity. Qed.

Lemma pow_half n : (0 < n)%nat -> (2 ^ (8 * Z.of_nat n) = 2 * 2 ^ (8 * Z.of_nat n - 1))%Z.
Proof. intros H. rewrite <- Z.pow_succ_r by lia. f_equal. lia. Qed.

Lemma complement bs : bytes bs -> magnitude (map (fun b => 255 - b) bs) = (256 ^ Z.of_nat (length bs) - 1 - magnitude bs)%Z.
Proof. induction 1 as [|b bs Hb _ IH]; cbn [map magnitude length]; [reflexivity|]. rewrite IH, Nat2Z.inj_succ, Z.pow_succ_r by lia. rewrite N2Z.inj_sub by lia. ring. Qed.

Lemma complement_bytes bs : bytes (map (fun b => 255 - b) bs).
Proof. apply Forall_map. apply Forall_forall. intros; lia. Qed.

Lemma trim_zeros l : exists n, l = trim l ++ repeat 0 n /\ (length l = length (trim l) + n)%nat.
Proof.
  induction l as [|b l (n & E & L)]; cbn [trim]; [exists 0%nat; split; reflexivity|]. destruct (forallb (N.eqb 0) l) eqn:F.
  - exists (length l). split; [|reflexivity]. cbn [app]. f_equal. clear E L. induction l as [|x l IH]; [reflexivity|]. cbn [forallb] in F. apply andb_true_iff in F as [F1 F2]. apply N.eqb_eq in F1. subst x. cbn [length repeat]. now rewrite <- IH.
  - exists n. cbn [app length]. rewrite <- E. split; [reflexivity|]. rewrite L at 1. reflexivity.
Qed.

Lemma trim_last l : (length (trim l) <= 1)%nat \/ last (trim l) 0 <> 0.
Proof.
  induction l as [|b l IH]; cbn [trim]; [left; cbn; lia|]. destruct (forallb (N.eqb 0) l) eqn:F; [left; cbn; lia|]. right. destruct l as [|x l]; [discriminate|]. rewrite last_cons. destruct IH as [IH|IH].
  - cbn [trim] in *. destruct (forallb (N.eqb 0) l) eqn:F'; [|cbn [length] in IH; destruct l as [|y l]; [discriminate|cbn [trim length] in IH; lia]]. cbn [last]. cbn [forallb] in F. rewrite F' in F. rewrite andb_true_r in F. apply N.eqb_neq in F. congruence.
  - cbn [trim] in *. rewrite last_cons in *. destruct (forallb (N.eqb 0) l); cbn [last] in *; auto.
Qed.

Lemma trim_bytes l : bytes l -> bytes (trim l).
Proof. intros B. destruct (trim_zeros l) as (n & E & _). rewrite E in B. now apply Forall_app in B. Qed.

Lemma trim_magnitude l : magnitude (trim l) = magnitude l.
Proof. destruct (trim_zeros l) as (n & E & _). rewrite E at 2. rewrite magnitude_app, magnitude_zeros. lia. Qed.

Lemma trim_not_nil l : l <> [] -> trim l <> [].
Proof. destruct l; [contradiction|discriminate]. Qed.

Lemma trim_fits l n : bytes l -> (0 < n)%nat -> (magnitude l < 256 ^ Z.of_nat n)%Z -> (length (trim l) <= n)%nat.
Proof.
  intros B Hn H. destruct (trim_last l) as [L|L]; [lia|]. destruct (le_gt_dec (length (trim l)) n) as [|G]; [assumption|exfalso]. rewrite <- trim_magnitude in H. pose proof (trim_bytes l B) as Bt. destruct (trim l) as [|y t] using rev_ind; [cbn in G; lia|]. clear IHt.
  rewrite last_last in L. rewrite app_length in G. cbn [length] in G. rewrite magnitude_app in H. cbn [magnitude] in H. apply Forall_app in Bt as [Bt _]. pose proof (magnitude_bounds t Bt). assert (256 ^ Z.of_nat n <= 256 ^ Z.of_nat (length t))%Z by (apply Z.pow_le_mono_r; lia). nia.
Qed.

Lemma lowest_first_bytes e bs : bytes bs -> bytes (lowest_first e bs).
Proof. unfold lowest_first. destruct (is_big e); auto. apply Forall_rev. Qed.

Lemma lowest_first_length e bs : length (lowest_first e bs) = length bs.
Proof. unfold lowest_first. destruct (is_big e); auto. apply rev_length. Qed.

Lemma lowest_first_twice e bs : lowest_first e (lowest_first e bs) = bs.
Proof. unfold lowest_first. destruct (is_big e); auto. apply rev_involutive. Qed.

Lemma number_is signed e bs : number signed e bs = let m := magnitude (lowest_first e bs) in if signed && (2 ^ (8 * Z.of_nat (length bs) - 1) <=? m)%Z then (m - 2 ^ (8 * Z.of_nat (length bs)))%Z else m.
Proof. unfold number, lowest_first. destruct e; reflexivity. Qed.

Lemma number_of signed e bs : number signed e (lowest_first e bs) = let m := magnitude bs in if signed && (2 ^ (8 * Z.of_nat (length bs) - 1) <=? m)%Z then (m - 2 ^ (8 * Z.of_nat (length bs)))%Z else m.
Proof. rewrite number_is, lowest_first_twice, lowest_first_length. reflexivity. Qed.

Lemma top_bit l : l <> [] -> bytes l -> N.testbit (last l 0) 7 = (2 ^ (8 * Z.of_nat (length l) - 1) <=? magnitude l)%Z.
Proof.
  intros NE B. destruct l as [|h l] using rev_ind; [contradiction|]. clear IHl NE. rewrite last_last, app_length, magnitude_app. cbn [length magnitude]. apply Forall_app in B as [B Bh]. pose proof (Forall_inv Bh) as Hh. cbn beta in Hh. pose proof (magnitude_bounds l B) as M.
  replace (8 * Z.of_nat (length l + 1) - 1)%Z with (7 + 8 * Z.of_nat (length l))%Z by lia. rewrite Z.pow_add_r by lia. rewrite <- pow256. set (P := (256 ^ Z.of_nat (length l))%Z) in *. change (2 ^ 7)%Z with 128%Z.
  assert (E : N.testbit h 7 = (128 <=? h)).
  { assert (A : forallb (fun h => Bool.eqb (N.testbit h 7) (128 <=? h)) (range 256) = true) by (vm_compute; reflexivity). rewrite forallb_forall in A. apply Bool.eqb_true_iff, A, in_range. lia. }
  rewrite E. destruct (N.leb_spec 128 h), (Z.leb_spec (128 * P) (magnitude l + P * (Z.of_N h + 256 * 0))); auto; exfalso; nia.
Qed.

Lemma invert_is sign l : bytes l -> map (invert sign) l = if sign then map (fun b => 255 - b) l else l.
Proof.
  intros B. destruct sign; [|apply map_id]. induction B as [|b l Hb _ IH]; cbn [map]; [reflexivity|]. rewrite IH. f_equal. unfold invert. symmetry. apply (N.mod_unique _ _ b); lia.
Qed.

Lemma clear_top data : data <> [] -> bytes data -> (magnitude data < 2 ^ (8 * Z.of_nat (length data) - 1))%Z -> upd data (length data - 1) (N.land (nth (length data - 1) data 0) 127) = data.
Proof.
  intros NE B M. pose proof (top_bit data NE B) as T. replace (2 ^ (8 * Z.of_nat (length data) - 1) <=? magnitude data)%Z with false in T by lia. destruct data as [|h l] using rev_ind; [contradiction|]. clear IHl. rewrite last_last in T. rewrite app_length. cbn [length].
  replace (length l + 1 - 1)%nat with (length l) by lia. rewrite nth_middle. apply Forall_app in B as [_ Bh]. pose proof (Forall_inv Bh) as Hh. cbn beta in Hh. assert (E : N.land h 127 = h).
  { assert (A : forallb (fun h => N.testbit h 7 || (N.land h 127 =? h)) (range 256) = true) by (vm_compute; reflexivity). rewrite forallb_forall in A. specialize (A h (in_range 256 h ltac:(lia))). cbn beta in A. rewrite T in A. now apply N.eqb_eq. }
  rewrite E. clear. induction l as [|x l IH]; cbn [app upd length]; [reflexivity|now rewrite IH].
Qed.

(** ** Round trips *)
Section Trip.
Variables (e1 e2 : endian) (bs : list N) (n2 : nat).
Hypothesis B : bytes bs.
Hypothesis Hn1 : (1 <= length bs <= 64)%nat.
Hypothesis Hn2 : (1 <= n2)%nat.

Lemma not_nil : lowest_first e1 bs <> [].
Proof. intros H. apply (f_equal (@length N)) in H. rewrite lowest_first_length in H. cbn in H. lia. Qed.

Lemma size_test : (((length bs =? 0) || negb (length bs <=? 64))%nat) = false.
Proof. lia. Qed.

Lemma unsigned_trip : fits false n2 (number false e1 bs) -> kept false (number false e1 bs) ->
  exists out, serialize_variable false e1 bs = Some out /\ forall rest, exists bs2, deserialize_variable false e2 n2 (out ++ rest) = Some (bs2, rest) /\ bytes bs2 /\ length bs2 = n2 /\ number false e2 bs2 = number false e1 bs.
Proof.
  rewrite number_is. cbn [andb fits kept]. set (l := lowest_first e1 bs). assert (Bl : bytes l) by now apply lowest_first_bytes. intros F K. assert (L2 : (length (trim l) <= n2)%nat) by (apply trim_fits; [assumption|lia|rewrite pow256; lia]).
  assert (L7 : (length (trim l) <= 7)%nat) by (apply trim_fits; [assumption|lia|rewrite pow256; exact (proj2 K)]). unfold serialize_variable. rewrite size_test. fold l. pose proof (encode_length 0 (trim l) 0 0). replace (length (encode 0 0 0 (trim l)) <=? 64)%nat with true by lia.
  eexists. split; [reflexivity|]. intros rest. unfold deserialize_variable. replace (n2 =? 0)%nat with false by lia. rewrite decode_whole; [|left; auto|apply trim_not_nil, not_nil|now apply trim_bytes|lia|assumption].
  eexists. split; [reflexivity|]. assert (Bd : bytes (trim l ++ repeat 0 (n2 - length (trim l)))) by (apply Forall_app; split; [now apply trim_bytes|apply Forall_forall; intros x Hx; apply repeat_spec in Hx; subst; lia]).
  split; [now apply lowest_first_bytes|]. rewrite lowest_first_length, app_length, repeat_length. split; [lia|]. rewrite number_of. cbn [andb]. rewrite magnitude_app, magnitude_zeros, trim_magnitude. lia.
Qed.

Lemma signed_trip : fits true n2 (number true e1 bs) -> kept true (number true e1 bs) ->
  exists out, serialize_variable true e1 bs = Some out /\ forall rest, exists bs2, deserialize_variable true e2 n2 (out ++ rest) = Some (bs2, rest) /\ bytes bs2 /\ length bs2 = n2 /\ number true e2 bs2 = number true e1 bs.
Proof.
  rewrite number_is. cbn [andb fits kept]. set (l := lowest_first e1 bs). assert (Bl : bytes l) by now apply lowest_first_bytes. assert (Ll : length l = length bs) by apply lowest_first_length. pose proof (magnitude_bounds l Bl) as Ml. rewrite pow256, Ll in Ml.
  pose proof (top_bit l not_nil Bl) as T. rewrite Ll in T. pose proof (pow_half (length bs) ltac:(lia)) as PH. set (sign := N.testbit (last l 0) 7) in *. rewrite <- T. set (v := if sign then _ else _). intros F K.
  set (tl := map (invert sign) l). assert (Etl : tl = if sign then map (fun b => 255 - b) l else l) by now apply invert_is. assert (Bt : bytes tl) by (rewrite Etl; destruct sign; [apply complement_bytes|assumption]).
  assert (Mt : magnitude tl = if sign then (- v - 1)%Z else v).
  { rewrite Etl. subst v. destruct sign; [rewrite complement, Ll, pow256 by assumption; lia|reflexivity]. }
  assert (Sv : sign = true -> (v < 0)%Z) by (subst v; intros ->; lia). assert (Sv' : sign = false -> (0 <= v)%Z) by (subst v; intros ->; lia).
  assert (M2 : (magnitude tl < 2 ^ (8 * Z.of_nat n2 - 1))%Z) by (rewrite Mt; destruct sign; lia). assert (M48 : (magnitude tl < 2 ^ 48)%Z) by (rewrite Mt; destruct sign; lia). assert (M0 : (0 <= magnitude tl)%Z) by (apply magnitude_bounds; assumption).
  pose proof (pow_half n2 ltac:(lia)) as PH2. assert (L2 : (length (trim tl) <= n2)%nat) by (apply trim_fits; [assumption|lia|rewrite pow256; lia]). assert (L6 : (length (trim tl) <= 6)%nat) by (apply trim_fits; [assumption|lia|rewrite pow256; exact M48]).
  assert (NE : tl <> []) by (unfold tl; pose proof not_nil as X; fold l in X; destruct l; [contradiction|discriminate]).
  unfold serialize_variable. rewrite size_test. fold l. cbn zeta. fold sign. fold tl. set (c0 := if sign then 64 else 0). assert (O : opening 1 c0) by (right; split; [reflexivity|]; subst c0; destruct sign; auto).
  pose proof (encode_length 1 (trim tl) c0 0). replace (length (encode 1 c0 0 (trim tl)) <=? 64)%nat with true by lia. eexists. split; [reflexivity|]. intros rest. unfold deserialize_variable. replace (n2 =? 0)%nat with false by lia.
  rewrite decode_whole; [|assumption|now apply trim_not_nil|now apply trim_bytes|lia|assumption]. set (data := trim tl ++ repeat 0 (n2 - length (trim tl))).
  assert (Bd : bytes data) by (apply Forall_app; split; [now apply trim_bytes|apply Forall_forall; intros x Hx; apply repeat_spec in Hx; subst; lia]). assert (Ld : length data = n2) by (unfold data; rewrite app_length, repeat_length; lia).
  assert (Md : magnitude data = magnitude tl) by (unfold data; rewrite magnitude_app, magnitude_zeros, trim_magnitude; lia).
  assert (C : upd data (n2 - 1) (N.land (nth (n2 - 1) data 0) 127) = data) by (rewrite <- Ld; apply clear_top; [intros E; rewrite E in Ld; cbn in Ld; lia|assumption|rewrite Ld; lia]). rewrite C.
  assert (Hd : N.testbit (hd 0 (encode 1 c0 0 (trim tl) ++ rest)) 6 = sign).
  { pose proof (trim_not_nil tl NE) as NT. pose proof (trim_bytes tl Bt) as BT. destruct (trim tl) as [|u us]; [contradiction|]. rewrite (first_in 1); auto; [subst c0; destruct sign; reflexivity|exact (Forall_inv BT)]. }
  rewrite Hd. eexists. split; [reflexivity|]. split; [apply lowest_first_bytes; destruct sign; [apply complement_bytes|assumption]|]. split; [rewrite lowest_first_length; destruct sign; [rewrite map_length|]; assumption|]. rewrite number_of. cbn [andb].
  destruct sign.
  - rewrite map_length, Ld, complement, Ld, pow256, Md, Mt by assumption. replace (2 ^ (8 * Z.of_nat n2 - 1) <=? 2 ^ (8 * Z.of_nat n2) - 1 - (- v - 1))%Z with true by (specialize (Sv eq_refl); lia). lia.
  - rewrite Ld, Md, Mt. replace (2 ^ (8 * Z.of_nat n2 - 1) <=? v)%Z with false by lia. reflexivity.
Qed.

End Trip.

(** ** Eight bytes *)
Lemma magnitude_inj a : forall b, bytes a -> bytes b -> length a = length b -> magnitude a = magnitude b -> a = b.
Proof.
  induction a as [|x a IH]; intros [|y b] Ba Bb L M; cbn [length magnitude] in *; try discriminate; [reflexivity|].
  pose proof (Forall_inv Ba) as Hx. pose proof (Forall_inv Bb) as Hy. cbn beta in Hx, Hy. assert (x = y) by lia. subst y. f_equal. apply IH; [exact (Forall_inv_tail Ba)|exact (Forall_inv_tail Bb)|congruence|lia].
Qed.

Lemma eight l : length l = 8%nat -> exists a b c d e f g h : N, l = [a; b; c; d; e; f; g; h].
Proof. intros L. do 8 (destruct l as [|? l]; [discriminate|]). destruct l; [|discriminate]. repeat eexists. Qed.

Lemma shifted_small h : h < 256 -> N.land (N.shiftr h 1) (high 0) = 0 /\ N.land (N.shiftr h 1) (low 0) = N.shiftr h 1.
Proof.
  intros H. assert (A : forallb (fun h => (N.land (N.shiftr h 1) (high 0) =? 0) && (N.land (N.shiftr h 1) (low 0) =? N.shiftr h 1)) (range 256) = true) by (vm_compute; reflexivity). rewrite forallb_forall in A.
  specialize (A h (in_range 256 h ltac:(lia))). cbn beta in A. apply andb_true_iff in A as [A1 A2]. apply N.eqb_eq in A1, A2. now split.
Qed.

Lemma all_of h : h < 256 -> N.land h (high 7) = h /\ N.land h (low 7) = 0.
Proof.
  intros H. split; [|unfold low; apply N.land_0_r]. assert (A : forallb (fun h => N.land h (high 7) =? h) (range 256) = true) by (vm_compute; reflexivity). rewrite forallb_forall in A.
  specialize (A h (in_range 256 h ltac:(lia))). cbn beta in A. now apply N.eqb_eq.
Qed.

Ltac byte_facts B := repeat match type of B with Forall _ (_ :: _) => let H := fresh "Hb" in let B' := fresh "B" in pose proof (Forall_inv B) as H; pose proof (Forall_inv_tail B) as B'; cbn beta in H; clear B; rename B' into B end.

Lemma unsigned_large a b c d e f g h rest : bytes [a; b; c; d; e; f; g; h] -> h <> 0 ->
  decode 0 8 0 (repeat 0 8) (encode 0 0 0 [a; b; c; d; e; f; g; h] ++ rest) = Some (repeat 255 8, rest).
Proof.
  intros B Hh. assert (Ba : a < 256) by exact (Forall_inv B). assert (Bus : bytes [b; c; d; e; f; g]) by (apply Forall_inv_tail in B; unfold bytes in *; rewrite Forall_forall in *; intros x Hx; apply B; cbn [In] in *; tauto). assert (Bg : g < 256) by (unfold bytes in *; rewrite Forall_forall in B; apply B; cbn [In]; tauto). assert (Bh : h < 256) by (unfold bytes in *; rewrite Forall_forall in B; apply B; cbn [In]; tauto).
  rewrite encode_step. change ((0 + 0) mod 8) with 0. change (0 + 1) with 1. cbn [app]. rewrite (decode_first 0 0 7) by (auto; left; auto).
  pose proof (decode_prefix 0 8 [b; c; d; e; f; g] [] a 0 h [] 1 1 rest) as P. cbn [length app] in P. destruct P as (t' & Et & E1); auto; try lia. change (6 + 1)%nat with 7%nat in E1. cbn [app]. rewrite E1. clear E1. cbn [last] in Et. subst t'. cbn [removelast length app repeat]. change (1 + N.of_nat 6) with 7. change (0 + N.of_nat 6) with 6.
  cbn [encode]. change ((7 + 0) mod 8) with 7. destruct (all_of h Bh) as [A1 A2]. rewrite A1, A2. destruct (N.eqb_spec h 0) as [|_]; [contradiction|]. cbn [app].
  pose proof (decode_step 0 8 [a; b; c; d; e; f] g 6 h 0 7 (N.shiftr h 1 :: rest) eq_refl eq_refl ltac:(lia) Bg Bh eq_refl) as E2. cbn [app repeat] in E2. change (6 + 1) with 7 in E2. rewrite A2 in E2. rewrite E2. clear E2. change (7 + 1) with 8. cbn [decode]. change ((8 + 0) mod 8) with 0.
  destruct (shifted_small h Bh) as [S1 S2]. rewrite S1. reflexivity.
Qed.

Lemma signed_large c0 a b c d e f g h rest : opening 1 c0 -> bytes [a; b; c; d; e; f; g; h] -> h < 128 -> g <> 0 \/ h <> 0 ->
  decode 1 8 0 (repeat 0 8) (encode 1 c0 0 (trim [a; b; c; d; e; f; g; h]) ++ rest) = Some ([a; b; c; d; e; f; 0; N.lor (N.shiftr g 1) h], rest).
Proof.
  intros O B Hh NZ. assert (Ba : a < 256) by exact (Forall_inv B). assert (Bus : bytes [b; c; d; e; f]) by (apply Forall_inv_tail in B; unfold bytes in *; rewrite Forall_forall in *; intros x Hx; apply B; cbn [In] in *; tauto). assert (Bf : f < 256) by (unfold bytes in *; rewrite Forall_forall in B; apply B; cbn [In]; tauto). assert (Bg : g < 256) by (unfold bytes in *; rewrite Forall_forall in B; apply B; cbn [In]; tauto).
  assert (Hl : N.land h (low 0) = h /\ N.land h (high 0) = 0).
  { assert (A : forallb (fun h => (N.land h (low 0) =? h) && (N.land h (high 0) =? 0)) (range 128) = true) by (vm_compute; reflexivity). rewrite forallb_forall in A. specialize (A h (in_range 128 h ltac:(lia))). cbn beta in A. apply andb_true_iff in A as [A1 A2]. apply N.eqb_eq in A1, A2. now split. }
  destruct Hl as [Hl1 Hl2]. destruct (shifted_small g Bg) as [S1 S2]. destruct (all_of g Bg) as [A1 A2].
  assert (T : trim [a; b; c; d; e; f; g; h] = [a; b; c; d; e; f; g] ++ (if h =? 0 then [] else [h])).
  { assert (F0 : forall l, forallb (N.eqb 0) (l ++ [g; h]) = false) by (intros l; rewrite forallb_app; cbn [forallb]; destruct (N.eqb_spec 0 g), (N.eqb_spec 0 h); cbn [andb]; try apply andb_false_r; lia).
    pose proof (F0 [b; c; d; e; f]) as F1. pose proof (F0 [c; d; e; f]) as F2. pose proof (F0 [d; e; f]) as F3. pose proof (F0 [e; f]) as F4. pose proof (F0 [f]) as F5. pose proof (F0 []) as F6. cbn [app] in *. clear F0.
    cbn [trim]. rewrite F1, F2, F3, F4, F5, F6. cbn [app]. do 7 f_equal. cbn [forallb]. rewrite andb_true_r. rewrite N.eqb_sym. destruct (h =? 0); reflexivity. }
  rewrite T. clear T. cbn [app]. rewrite encode_step. change ((0 + 1) mod 8) with 1. change (0 + 1) with 1. cbn [app]. rewrite (decode_first 1 c0 7) by assumption.
  pose proof (decode_prefix 1 8 [b; c; d; e; f] [] a 1 g (if h =? 0 then [] else [h]) 2 1 rest) as P. cbn [length app] in P. destruct P as (t' & Et & E1); auto; try lia. change (5 + 2)%nat with 7%nat in E1. cbn [app]. rewrite E1. clear E1. cbn [last] in Et. subst t'. cbn [removelast length app repeat]. change (1 + N.of_nat 5) with 6.
  assert (En : encode 1 (N.shiftr (N.land f (high 6)) 1) 6 (g :: (if h =? 0 then [] else [h])) = [N.lor (N.lor (N.shiftr (N.land f (high 6)) 1) (N.land g (low 7))) 128; N.lor (N.shiftr g 1) h]).
  { destruct (N.eqb_spec h 0) as [->|Hn].
    - cbn [encode]. change ((6 + 1) mod 8) with 7. rewrite A1. destruct (N.eqb_spec g 0) as [->|_]; [destruct NZ; congruence|]. now rewrite N.lor_0_r.
    - rewrite encode_step. change ((6 + 1) mod 8) with 7. rewrite A1. f_equal. cbn [encode]. change (6 + 1) with 7. change ((7 + 1) mod 8) with 0. rewrite Hl1, Hl2. reflexivity. }
  rewrite En. cbn [app]. pose proof (decode_step 1 8 [a; b; c; d; e] f 6 g 1 6 (N.lor (N.shiftr g 1) h :: rest) eq_refl eq_refl ltac:(lia) Bf Bg eq_refl) as E2. cbn [app repeat] in E2. change (6 + 1) with 7 in E2. rewrite E2. clear E2. cbn [decode]. change ((7 + 1) mod 8) with 0.
  rewrite !N.land_lor_distr_l, S1, S2, Hl1, Hl2. rewrite A2. reflexivity.
Qed.

Lemma lor_small x y : x < 128 -> y < 128 -> N.lor x y < 128.
Proof.
  intros Hx Hy. assert (A : forallb (fun x => forallb (fun y => N.lor x y <? 128) (range 128)) (range 128) = true) by (vm_compute; reflexivity). rewrite forallb_forall in A. specialize (A x (in_range 128 x ltac:(lia))). rewrite forallb_forall in A.
  apply N.ltb_lt. exact (A y (in_range 128 y ltac:(lia))).
Qed.

(** Reading a signed number *)
Lemma signed_read e2 n2 s data rest sign : (1 <= n2)%nat -> decode 1 n2 0 (repeat 0 n2) s = Some (data, rest) -> N.testbit (hd 0 s) 6 = sign -> bytes data -> length data = n2 -> (magnitude data < 2 ^ (8 * Z.of_nat n2 - 1))%Z ->
  exists bs2, deserialize_variable true e2 n2 s = Some (bs2, rest) /\ bytes bs2 /\ length bs2 = n2 /\ number true e2 bs2 = if sign then (- magnitude data - 1)%Z else magnitude data.
Proof.
  intros Hn D Hd Bd Ld M. unfold deserialize_variable. replace (n2 =? 0)%nat with false by lia. rewrite D.
  assert (C : upd data (n2 - 1) (N.land (nth (n2 - 1) data 0) 127) = data) by (rewrite <- Ld; apply clear_top; [intros E; rewrite E in Ld; cbn in Ld; lia|assumption|rewrite Ld; lia]). rewrite C, Hd. pose proof (pow_half n2 ltac:(lia)) as PH2. pose proof (magnitude_bounds data Bd) as M0.
  eexists. split; [reflexivity|]. split; [apply lowest_first_bytes; destruct sign; [apply complement_bytes|assumption]|]. split; [rewrite lowest_first_length; destruct sign; [rewrite map_length|]; assumption|]. rewrite number_of. cbn [andb].
  destruct sign.
  - rewrite map_length, Ld, complement, Ld, pow256 by assumption. replace (2 ^ (8 * Z.of_nat n2 - 1) <=? 2 ^ (8 * Z.of_nat n2) - 1 - magnitude data)%Z with true by lia. lia.
  - rewrite Ld. replace (2 ^ (8 * Z.of_nat n2 - 1) <=? magnitude data)%Z with false by lia. reflexivity.
Qed.

Lemma unsigned_64 e1 e2 bs : bytes bs -> length bs = 8%nat ->
  exists out, serialize_variable false e1 bs = Some out /\
  forall rest, exists bs2, deserialize_variable false e2 8 (out ++ rest) = Some (bs2, rest) /\ bytes bs2 /\ length bs2 = 8%nat /\
    number false e2 bs2 = (if (number false e1 bs <? 2 ^ 56)%Z then number false e1 bs else 2 ^ 64 - 1)%Z.
Proof.
  intros B L. assert (R : (0 <= number false e1 bs < 2 ^ 64)%Z).
  { rewrite number_is. cbn [andb]. pose proof (magnitude_bounds _ (lowest_first_bytes e1 bs B)) as M. rewrite lowest_first_length, L in M. exact M. }
  destruct (Z.ltb_spec (number false e1 bs) (2 ^ 56)) as [H|H].
  - apply (unsigned_trip e1 e2 bs 8 B ltac:(lia) ltac:(lia)); cbn [fits kept]; [exact R|lia].
  - rewrite number_is in H. cbn [andb] in H. set (l := lowest_first e1 bs) in *. assert (Bl : bytes l) by now apply lowest_first_bytes. assert (Ll : length l = 8%nat) by (unfold l; now rewrite lowest_first_length).
    unfold serialize_variable. replace ((length bs =? 0)%nat || negb (length bs <=? 64)%nat) with false by lia. fold l. destruct (eight l Ll) as (a & b & c & d & e & f & g & h & El). rewrite El in *. assert (Hh : h <> 0).
    { intros ->. pose proof (magnitude_bounds [a; b; c; d; e; f; g]) as M. unfold bytes in *. rewrite Forall_forall in *. specialize (M ltac:(intros x Hx; apply Bl; cbn [In] in *; tauto)). change [a; b; c; d; e; f; g; 0] with ([a; b; c; d; e; f; g] ++ [0]) in H. rewrite magnitude_app in H. cbn [magnitude] in H. change (256 ^ Z.of_nat (length [a; b; c; d; e; f; g]))%Z with (2 ^ 56)%Z in *. cbn [magnitude] in M. lia. }
    assert (T : trim [a; b; c; d; e; f; g; h] = [a; b; c; d; e; f; g; h]).
    { assert (F0 : forall l, forallb (N.eqb 0) (l ++ [h]) = false) by (intros l0; rewrite forallb_app; cbn [forallb]; destruct (N.eqb_spec 0 h); [congruence|]; apply andb_false_r).
      pose proof (F0 [b; c; d; e; f; g]) as F1. pose proof (F0 [c; d; e; f; g]) as F2. pose proof (F0 [d; e; f; g]) as F3. pose proof (F0 [e; f; g]) as F4. pose proof (F0 [f; g]) as F5. pose proof (F0 [g]) as F6. pose proof (F0 []) as F7. cbn [app] in *. clear F0.
      cbn [trim]. rewrite F1, F2, F3, F4, F5, F6, F7. reflexivity. }
    rewrite T. pose proof (encode_length 0 [a; b; c; d; e; f; g; h] 0 0) as EL. cbn [length] in EL. replace (length (encode 0 0 0 [a; b; c; d; e; f; g; h]) <=? 64)%nat with true by lia. eexists. split; [reflexivity|]. intros rest. unfold deserialize_variable. change (8 =? 0)%nat with false.
    cbv iota. rewrite unsigned_large by assumption. eexists. split; [reflexivity|]. assert (B255 : bytes (repeat 255 8)) by (apply Forall_forall; intros x Hx; apply repeat_spec in Hx; subst; lia). split; [now apply lowest_first_bytes|]. rewrite lowest_first_length. split; [reflexivity|]. rewrite number_of. reflexivity.
Qed.

Lemma signed_64 e1 e2 bs : bytes bs -> length bs = 8%nat -> let v := number true e1 bs in
  exists out, serialize_variable true e1 bs = Some out /\
  forall rest, exists bs2, deserialize_variable true e2 8 (out ++ rest) = Some (bs2, rest) /\ bytes bs2 /\ length bs2 = 8%nat /\
    (number true e2 bs2 = v <-> ((v / 2 ^ 48) mod 256 = if v <? 0 then 255 else 0)%Z).
Proof.
  intros B L v. set (l := lowest_first e1 bs). assert (Bl : bytes l) by now apply lowest_first_bytes. assert (Ll : length l = 8%nat) by (unfold l; now rewrite lowest_first_length). pose proof (magnitude_bounds l Bl) as Ml. rewrite pow256, Ll in Ml.
  assert (NE : l <> []) by (intros E; rewrite E in Ll; discriminate). pose proof (top_bit l NE Bl) as T. rewrite Ll in T. set (sign := N.testbit (last l 0) 7) in *.
  assert (Ev : v = if sign then (magnitude l - 2 ^ 64)%Z else magnitude l) by (unfold v; rewrite number_is; cbn [andb]; fold l; rewrite L, <- T; reflexivity). clearbody v.
  change (2 ^ (8 * Z.of_nat 8 - 1))%Z with (2 ^ 63)%Z in *. change (2 ^ (8 * Z.of_nat 8))%Z with (2 ^ 64)%Z in *.
  set (tl := map (invert sign) l). assert (Etl : tl = if sign then map (fun b => 255 - b) l else l) by now apply invert_is. assert (Bt : bytes tl) by (rewrite Etl; destruct sign; [apply complement_bytes|assumption]). assert (Lt : length tl = 8%nat) by (unfold tl; now rewrite map_length).
  assert (Mt : magnitude tl = if sign then (- v - 1)%Z else v).
  { rewrite Etl. destruct sign; [rewrite complement, Ll, pow256 by assumption; change (2 ^ (8 * Z.of_nat 8))%Z with (2 ^ 64)%Z; lia|lia]. }
  assert (Vr : (v <? 0)%Z = sign) by (rewrite Ev; destruct sign; lia). assert (Mt' : (0 <= magnitude tl < 2 ^ 63)%Z) by (rewrite Mt, Ev; destruct sign; lia). rewrite Vr.
  unfold serialize_variable. replace ((length bs =? 0)%nat || negb (length bs <=? 64)%nat) with false by lia. fold l. cbn zeta. fold sign. fold tl. set (c0 := if sign then 64 else 0). assert (O : opening 1 c0) by (right; split; [reflexivity|]; subst c0; destruct sign; auto).
  destruct (eight tl Lt) as (a & b & c & d & e & f & g & h & El). rewrite El in *. clear El.
  assert (Bi : forall x, In x [a; b; c; d; e; f; g; h] -> x < 256) by (unfold bytes in Bt; rewrite Forall_forall in Bt; exact Bt).
  assert (M6 : (0 <= magnitude [a; b; c; d; e; f] < 2 ^ 48)%Z) by (apply (magnitude_bounds [a; b; c; d; e; f]); apply Forall_forall; intros x Hx; apply Bi; cbn [In] in *; tauto).
  assert (Mq : magnitude [a; b; c; d; e; f; g; h] = (magnitude [a; b; c; d; e; f] + 2 ^ 48 * (Z.of_N g + 256 * Z.of_N h))%Z) by (cbn [magnitude]; lia).
  assert (Hg : g < 256) by (apply Bi; cbn [In]; tauto). assert (Hh : h < 128) by (rewrite Mq in Mt'; clear - Mt' M6; lia).
  assert (Q : ((v / 2 ^ 48) mod 256 = if sign then 255 - Z.of_N g else Z.of_N g)%Z).
  { destruct sign.
    - assert (E : v = (2 ^ 48 * (-1 - (Z.of_N g + 256 * Z.of_N h)) + (2 ^ 48 - 1 - magnitude [a; b; c; d; e; f]))%Z) by lia. rewrite <- (Z.div_unique v (2 ^ 48) (-1 - (Z.of_N g + 256 * Z.of_N h)) (2 ^ 48 - 1 - magnitude [a; b; c; d; e; f])) by lia.
      symmetry. apply (Z.mod_unique _ _ (-1 - Z.of_N h)); lia.
    - assert (E : v = (2 ^ 48 * (Z.of_N g + 256 * Z.of_N h) + magnitude [a; b; c; d; e; f])%Z) by lia. rewrite <- (Z.div_unique v (2 ^ 48) (Z.of_N g + 256 * Z.of_N h) (magnitude [a; b; c; d; e; f])) by lia.
      symmetry. apply (Z.mod_unique _ _ (Z.of_N h)); lia. }
  assert (Len : (length (encode 1 c0 0 (trim [a; b; c; d; e; f; g; h])) <= 9)%nat).
  { pose proof (encode_length 1 (trim [a; b; c; d; e; f; g; h]) c0 0). destruct (trim_zeros [a; b; c; d; e; f; g; h]) as (n & _ & Ln). change (length [a; b; c; d; e; f; g; h]) with 8%nat in Ln. lia. }
  replace (length (encode 1 c0 0 (trim [a; b; c; d; e; f; g; h])) <=? 64)%nat with true by lia. eexists. split; [reflexivity|]. intros rest.
  assert (Hd : N.testbit (hd 0 (encode 1 c0 0 (trim [a; b; c; d; e; f; g; h]) ++ rest)) 6 = sign).
  { pose proof (trim_bytes _ Bt) as BT. pose proof (trim_not_nil [a; b; c; d; e; f; g; h] ltac:(discriminate)) as NT. destruct (trim [a; b; c; d; e; f; g; h]) as [|u us]; [contradiction|]. rewrite (first_in 1); auto; [subst c0; destruct sign; reflexivity|exact (Forall_inv BT)]. }
  destruct (N.eq_dec g 0) as [G0|G0], (N.eq_dec h 0) as [H0|H0].
  - (* below 2^48 *)
    assert (L6 : (length (trim [a; b; c; d; e; f; g; h]) <= 6)%nat) by (apply trim_fits; [assumption|lia|rewrite Mq, G0, H0; lia]).
    assert (Dc : decode 1 8 0 (repeat 0 8) (encode 1 c0 0 (trim [a; b; c; d; e; f; g; h]) ++ rest) = Some (trim [a; b; c; d; e; f; g; h] ++ repeat 0 (8 - length (trim [a; b; c; d; e; f; g; h])), rest)) by (apply decode_whole; [assumption|now apply trim_not_nil|now apply trim_bytes|lia|lia]).
    set (data := trim [a; b; c; d; e; f; g; h] ++ repeat 0 (8 - length (trim [a; b; c; d; e; f; g; h]))) in *.
    assert (Bd : bytes data) by (apply Forall_app; split; [now apply trim_bytes|apply Forall_forall; intros x Hx; apply repeat_spec in Hx; subst; lia]). assert (Ld : length data = 8%nat) by (unfold data; rewrite app_length, repeat_length; lia).
    assert (Md : magnitude data = magnitude [a; b; c; d; e; f; g; h]) by (unfold data; rewrite magnitude_app, magnitude_zeros, trim_magnitude; lia).
    destruct (signed_read e2 8 _ data rest sign ltac:(lia) Dc Hd Bd Ld ltac:(rewrite Md; exact (proj2 Mt'))) as (bs2 & E & B2 & L2 & N2). exists bs2. split; [exact E|]. split; [exact B2|]. split; [exact L2|]. rewrite N2, Md, Mt, Q, G0. destruct sign; split; intros _; lia.
  - subst g. pose proof (signed_large c0 a b c d e f 0 h rest O Bt Hh (or_intror H0)) as Dc. change (N.lor (N.shiftr 0 1) h) with h in Dc.
    destruct (signed_read e2 8 _ _ rest sign ltac:(lia) Dc Hd Bt eq_refl (proj2 Mt')) as (bs2 & E & B2 & L2 & N2). exists bs2. split; [exact E|]. split; [exact B2|]. split; [exact L2|]. rewrite N2, Mt, Q. destruct sign; split; intros _; lia.
  - pose proof (signed_large c0 a b c d e f g h rest O Bt Hh (or_introl G0)) as Dc. set (x := N.lor (N.shiftr g 1) h) in *.
    assert (Hx : x < 128) by (subst x h; rewrite N.lor_0_r, N.shiftr_div_pow2; change (2 ^ 1) with 2; apply N.div_lt_upper_bound; lia).
    assert (Bd : bytes [a; b; c; d; e; f; 0; x]) by (apply Forall_forall; intros y Hy; cbn [In] in *; intuition (subst; try lia; try (apply Bi; cbn [In]; tauto))).
    assert (Md : magnitude [a; b; c; d; e; f; 0; x] = (magnitude [a; b; c; d; e; f] + 2 ^ 48 * (256 * Z.of_N x))%Z) by (cbn [magnitude]; lia).
    destruct (signed_read e2 8 _ _ rest sign ltac:(lia) Dc Hd Bd eq_refl ltac:(rewrite Md; change (2 ^ (8 * Z.of_nat 8 - 1))%Z with (2 ^ 63)%Z; lia)) as (bs2 & E & B2 & L2 & N2). exists bs2. split; [exact E|]. split; [exact B2|]. split; [exact L2|]. rewrite N2, Md, Q. rewrite Mq in Mt. clear - Mt G0 Hg M6.
    destruct sign; split; intros X; exfalso; lia.
  - pose proof (signed_large c0 a b c d e f g h rest O Bt Hh (or_introl G0)) as Dc. set (x := N.lor (N.shiftr g 1) h) in *.
    assert (Hx : x < 128).
    { subst x. assert (A : N.shiftr g 1 < 128) by (rewrite N.shiftr_div_pow2; change (2 ^ 1) with 2; apply N.div_lt_upper_bound; lia). now apply lor_small. }
    assert (Bd : bytes [a; b; c; d; e; f; 0; x]) by (apply Forall_forall; intros y Hy; cbn [In] in *; intuition (subst; try lia; try (apply Bi; cbn [In]; tauto))).
    assert (Md : magnitude [a; b; c; d; e; f; 0; x] = (magnitude [a; b; c; d; e; f] + 2 ^ 48 * (256 * Z.of_N x))%Z) by (cbn [magnitude]; lia).
    destruct (signed_read e2 8 _ _ rest sign ltac:(lia) Dc Hd Bd eq_refl ltac:(rewrite Md; change (2 ^ (8 * Z.of_nat 8 - 1))%Z with (2 ^ 63)%Z; lia)) as (bs2 & E & B2 & L2 & N2). exists bs2. split; [exact E|]. split; [exact B2|]. split; [exact L2|]. rewrite N2, Md, Q. rewrite Mq in Mt. clear - Mt G0 Hg M6.
    destruct sign; split; intros X; exfalso; lia.
Qed.

(** ** Fixed sizes *)
Lemma take_bytes_length n : forall s a r, take_bytes n s = Some (a, r) -> length a = n /\ s = a ++ r.
Proof.
  induction n as [|n IH]; intros s a r H; cbn [take_bytes] in H; [injection H as <- <-; auto|]. destruct s as [|b s]; [discriminate|]. destruct (take_bytes n s) as [[x y]|] eqn:E; [|discriminate]. injection H as <- <-. apply IH in E as [<- ->]. auto.
Qed.

Lemma fixed_trip e1 e2 wire bs : bytes bs -> (length bs <= 64)%nat ->
  exists out, serialize_endian e1 bs wire = Some out /\ forall rest, exists bs2, deserialize_endian e2 (length bs) wire (out ++ rest) = Some (bs2, rest) /\ bytes bs2 /\ length bs2 = length bs /\ lowest_first e2 bs2 = lowest_first e1 bs.
Proof.
  intros B L. unfold serialize_endian, deserialize_endian, lowest_first. replace (length bs <=? 64)%nat with true by lia. assert (T : forall rest, take_bytes (length bs) (bs ++ rest) = Some (bs, rest)) by (intros; now apply take_bytes_app).
  assert (T' : forall rest, take_bytes (length bs) (rev bs ++ rest) = Some (rev bs, rest)) by (intros; apply take_bytes_app, rev_length). assert (B' : bytes (rev bs)) by now apply Forall_rev.
  destruct (is_big e1), (is_big wire), (is_big e2); cbn [Bool.eqb]; (eexists; split; [reflexivity|]); intros rest; rewrite ?T, ?T'; (eexists; split; [reflexivity|]); rewrite ?rev_involutive, ?rev_length; auto.
Qed.
