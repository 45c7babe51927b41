From Verif Require Import Base FileModel FileSpec.
Local Open Scope N_scope.

Lemma len_app {A} (a b : list A) : len (a ++ b) = len a + len b.
Proof. unfold len. rewrite app_length. lia. Qed.
Lemma len_nil {A} : len (@nil A) = 0.
Proof. reflexivity. Qed.
Lemma len_zero {A} (l : list A) : len l = 0 -> l = [].
Proof. destruct l; [reflexivity|]. unfold len. cbn. lia. Qed.
Lemma len_take {A} n (l : list A) : len (take n l) = N.min n (len l).
Proof. unfold len, take. rewrite firstn_length. lia. Qed.
Lemma len_drop {A} n (l : list A) : len (drop n l) = len l - n.
Proof. unfold len, drop. rewrite skipn_length. lia. Qed.
Lemma len_zeros n : len (zeros n) = n.
Proof. unfold len, zeros. rewrite repeat_length. lia. Qed.

Lemma take_all {A} n (l : list A) : len l <= n -> take n l = l.
Proof. unfold len, take. intros H. apply firstn_all2. lia. Qed.
Lemma drop_all {A} n (l : list A) : len l <= n -> drop n l = [].
Proof. unfold len, drop. intros H. apply skipn_all2. lia. Qed.
Lemma take_drop {A} n (l : list A) : take n l ++ drop n l = l.
Proof. apply firstn_skipn. Qed.
Lemma drop_drop {A} n m (l : list A) : drop n (drop m l) = drop (m + n) l.
Proof. unfold drop. rewrite skipn_skipn. f_equal. lia. Qed.
Lemma drop_0 {A} (l : list A) : drop 0 l = l.
Proof. reflexivity. Qed.
Lemma take_0 {A} (l : list A) : take 0 l = [].
Proof. reflexivity. Qed.
Lemma take_app {A} (a b : list A) n : n = len a -> take n (a ++ b) = a.
Proof. intros ->. unfold take, len. rewrite Nat2N.id. apply firstn_app_exact. Qed.
Lemma drop_app {A} (a b : list A) n : n = len a -> drop n (a ++ b) = b.
Proof. intros ->. unfold drop, len. rewrite Nat2N.id. apply skipn_app_exact. Qed.
Lemma drop_app_add {A} (a b : list A) n : drop (len a + n) (a ++ b) = drop n b.
Proof. rewrite <- drop_drop. rewrite drop_app by reflexivity. reflexivity. Qed.
Lemma take_add {A} n m (l : list A) : take (n + m) l = take n l ++ take m (drop n l).
Proof. unfold take, drop. replace (N.to_nat (n + m)) with (N.to_nat n + N.to_nat m)%nat by lia. revert l. induction (N.to_nat n) as [|k IH]; intros [|x l]; cbn; try reflexivity; [rewrite firstn_nil; reflexivity|]. f_equal. apply IH. Qed.
Lemma word_small n : n < 2 ^ 64 -> word n = n.
Proof. apply N.mod_small. Qed.
Lemma zeros_0 : zeros 0 = [].
Proof. reflexivity. Qed.

(** ** Streams, in terms of what is before and after the position *)

Lemma fread_ok a b n p : p = len a -> fread n (mkFile (a ++ b) p) = (take n b, mkFile (a ++ b) (p + len (take n b))).
Proof. intros ->. unfold fread. cbn [bytes pos]. rewrite drop_app by reflexivity. reflexivity. Qed.

Lemma fwrite_ok a b data p : p = len a -> fwrite data (mkFile (a ++ b) p) = mkFile (a ++ data ++ drop (len data) b) (p + len data).
Proof.
  intros ->. unfold fwrite. destruct data as [|d data]; [cbn [app]; rewrite len_nil, drop_0, N.add_0_r; reflexivity|]. cbn [bytes pos].
  rewrite drop_app_add. rewrite len_app. replace (len a - (len a + len b)) with 0 by lia. rewrite zeros_0, app_nil_r, take_app by reflexivity. reflexivity.
Qed.

Lemma set_offset_ok n f : n < 2 ^ 63 -> set_offset n f = (true, mkFile (bytes f) n).
Proof. intros H. unfold set_offset. destruct (N.ltb_spec n (2 ^ 63)); [reflexivity|lia]. Qed.

Lemma finish_ok o offset n f : moved o offset n < 2 ^ 63 -> finish o offset (offset + n) f = (true, mkFile (bytes f) (moved o offset n)).
Proof.
  intros H. unfold finish, moved in *. destruct o; [apply set_offset_ok, H|]. rewrite word_small by (change (2 ^ 63) with 9223372036854775808 in H; change (2 ^ 64) with 18446744073709551616; lia). apply set_offset_ok, H.
Qed.

Lemma moved_le o offset n : offset <= moved o offset n <= offset + n.
Proof. destruct o; cbn; lia. Qed.

Lemma read_ok t n o f : t <> HWrite -> pos f < 2 ^ 63 -> len (bytes f) < 2 ^ 63 ->
  read t n o f = (true, part (bytes f) (pos f) n, mkFile (bytes f) (moved o (pos f) (len (part (bytes f) (pos f) n)))).
Proof.
  intros Ht Hp Hl. unfold read. destruct f as [b p]. cbn [bytes pos] in *. unfold fread. cbn [bytes pos]. fold (part b p n).
  assert (L : p + len (part b p n) < 2 ^ 63) by (unfold part; rewrite len_take, len_drop; lia).
  pose proof (moved_le o p (len (part b p n))). rewrite finish_ok by lia. destruct t; [reflexivity|congruence|reflexivity].
Qed.

Lemma write_ok t data o f : t <> HRead -> pos f + len data < 2 ^ 63 ->
  write t data o f = (true, mkFile (overwritten (bytes f) (pos f) data) (moved o (pos f) (len data))).
Proof.
  intros Ht H. unfold write. pose proof (moved_le o (pos f) (len data)). rewrite finish_ok by lia.
  replace (bytes (fwrite data f)) with (overwritten (bytes f) (pos f) data); [destruct t; [congruence|reflexivity|reflexivity]|].
  unfold fwrite, overwritten. destruct data as [|d data]; [reflexivity|]. cbn [bytes]. f_equal. unfold before.
  destruct (N.le_gt_cases (pos f) (len (bytes f))) as [L|L].
  - replace (pos f - len (bytes f)) with 0 by lia. rewrite zeros_0, !app_nil_r. reflexivity.
  - rewrite (take_all (pos f) (bytes f)) by lia. rewrite take_all; [reflexivity|]. rewrite len_app, len_zeros. lia.
Qed.

(** ** Inserting *)

Lemma insert_loop_step fuel offset count chunk_size size (pre : list N) W chunk Q p : len pre = offset + count ->
  offset + count + len W + len chunk + len Q + size < 2 ^ 62 -> len W < size ->
  insert_loop (S fuel) offset count chunk_size size (len W) chunk (mkFile (pre ++ W ++ Q) p) =
  insert_loop fuel offset count chunk_size size (len (W ++ chunk)) (if len (W ++ chunk) <? size then take chunk_size Q else [])
    (mkFile (pre ++ (W ++ chunk) ++ drop (len chunk) Q) (len pre + len W + len chunk)).
Proof.
  intros Lp B Ls. cbn [insert_loop]. change (2 ^ 62) with 4611686018427387904 in B.
  destruct (N.ltb_spec (len W) size) as [_|]; [|lia].
  assert (B63 : forall n, n <= offset + count + len W + len chunk + len Q + size -> n < 2 ^ 63) by (intros n Hn; change (2 ^ 63) with 9223372036854775808; lia).
  assert (B64 : forall n, n <= offset + count + len W + len chunk + len Q + size -> n < 2 ^ 64) by (intros n Hn; change (2 ^ 64) with 18446744073709551616; lia).
  rewrite (word_small (offset + len W + count)) by (apply B64; lia). rewrite set_offset_ok by (apply B63; lia). cbn [bytes].
  rewrite (word_small (len W + len chunk)) by (apply B64; lia). rewrite <- len_app.
  assert (P : offset + len W + count = len (pre ++ W)) by (rewrite len_app; lia). rewrite P.
  replace (pre ++ W ++ Q) with ((pre ++ W) ++ Q) by (rewrite app_assoc; reflexivity).
  assert (F : forall q, q = len (pre ++ W) -> fwrite chunk (mkFile ((pre ++ W) ++ Q) q) = mkFile (pre ++ (W ++ chunk) ++ drop (len chunk) Q) (len pre + len W + len chunk)).
  { intros q ->. rewrite fwrite_ok by reflexivity. rewrite len_app. rewrite <- !app_assoc. reflexivity. }
  destruct (N.ltb_spec (len (W ++ chunk)) size) as [H|H].
  - rewrite read_ok; [|discriminate|cbn [pos]; apply B63; rewrite len_app; lia|cbn [bytes]; apply B63; rewrite !len_app; lia].
    cbn [bytes pos moved]. unfold part. rewrite drop_app by reflexivity. rewrite F by reflexivity. reflexivity.
  - rewrite F by reflexivity. reflexivity.
Qed.

(** The loop once the first chunk is in place: [Z] is what is read from then on *)
Lemma insert_loop_rest offset count B size (pre A Z : list N) : 0 < B -> len pre = offset + count -> size <= len A + len Z -> len Z <= size ->
  offset + count + 3 * B + len A + 3 * len Z + 2 * size < 2 ^ 62 -> len A = B ->
  forall fuel j p, (N.to_nat (size - len A - j) < fuel)%nat ->
  exists k p', size <= len A + j + k * B /\ (k = 0 \/ len A + j + k * B < size + B) /\
    insert_loop fuel offset count B size (len (A ++ take j Z)) (if len (A ++ take j Z) <? size then take B (drop j Z) else []) (mkFile (pre ++ (A ++ take j Z) ++ drop (j + B) Z) p) =
    Some (mkFile (pre ++ A ++ take (j + k * B) Z) p').
Proof.
  intros HB Lp Ls Lz Bd BA. change (2 ^ 62) with 4611686018427387904 in Bd. induction fuel as [|fuel IH]; intros j p F; [lia|].
  assert (Lw : len (A ++ take j Z) = len A + N.min j (len Z)) by (rewrite len_app, len_take; reflexivity).
  destruct (N.ltb_spec (len (A ++ take j Z)) size) as [H|H].
  - assert (Hjz : j < len Z) by lia.
    rewrite insert_loop_step; [|exact Lp|rewrite len_take, !len_drop; change (2 ^ 62) with 4611686018427387904; lia|exact H].
    assert (E1 : (A ++ take j Z) ++ take B (drop j Z) = A ++ take (j + B) Z) by (rewrite take_add, app_assoc; reflexivity).
    assert (E2 : drop (len (take B (drop j Z))) (drop (j + B) Z) = drop (j + B + B) Z).
    { rewrite len_take, len_drop, drop_drop. destruct (N.le_gt_cases B (len Z - j)) as [L|L]; [f_equal; lia|]. rewrite !drop_all by lia. reflexivity. }
    rewrite E1, E2. destruct (IH (j + B) (len pre + len (A ++ take j Z) + len (take B (drop j Z)))) as (k & p' & J1 & J2 & J3); [lia|].
    exists (k + 1), p'. replace (j + (k + 1) * B) with (j + B + k * B) by lia. split; [lia|]. split; [right; destruct J2 as [->|J2]; lia|]. exact J3.
  - exists 0, p. split; [lia|]. split; [left; reflexivity|]. rewrite N.mul_0_l, N.add_0_r. cbn [insert_loop]. destruct (N.ltb_spec (len (A ++ take j Z)) size); [lia|].
    rewrite (drop_all (j + B) Z) by lia. rewrite app_nil_r. reflexivity.
Qed.

(** What inserting [data] does before a remainder [R] of the file, with chunks of [B] bytes *)
Lemma insert_ok fuel block data o pre R : 0 < block -> let B := N.max block (len data) in
  len pre + 8 * (len R + B) < 2 ^ 62 -> (N.to_nat (len R) < fuel)%nat ->
  exists k, insert fuel block HUpdate data o (mkFile (pre ++ R) (len pre)) =
    Some (true, mkFile (pre ++ data ++ (if len R <=? B then R else take B R ++ take (k * B) (drop (len data) R))) (moved o (len pre) (len data))) /\
    len R <= B + k * B /\ (k = 0 \/ k * B < len R).
Proof.
  intros Hb B Bd F. unfold insert. cbn [bytes pos].
  replace (if block <? len data then len data else block) with B by (unfold B; destruct (N.ltb_spec block (len data)); lia).
  assert (HB : 0 < B) by (unfold B; lia). assert (Hc : len data <= B) by (unfold B; lia). clearbody B.
  change (2 ^ 62) with 4611686018427387904 in Bd.
  assert (B63 : forall n, n <= len pre + 8 * (len R + B) -> n < 2 ^ 63) by (intros n Hn; change (2 ^ 63) with 9223372036854775808; lia).
  replace (word (len (pre ++ R) + 2 ^ 64 - len pre)) with (len R).
  2:{ rewrite len_app. unfold word. change (2 ^ 64) with 18446744073709551616. replace (len pre + len R + 18446744073709551616 - len pre) with (len R + 1 * 18446744073709551616) by lia. rewrite N.mod_add by lia. rewrite N.mod_small by lia. reflexivity. }
  rewrite read_ok; [|discriminate|cbn [pos]; apply B63; lia|cbn [bytes]; apply B63; rewrite len_app; lia]. cbn [bytes pos moved]. unfold part. rewrite drop_app by reflexivity.
  rewrite fwrite_ok by reflexivity.
  pose proof (moved_le o (len pre) (len data)) as Lm.
  assert (Lp : len (pre ++ data) = len pre + len data) by apply len_app.
  rewrite (app_assoc pre data). destruct (N.leb_spec (len R) B) as [H|H].
  - exists 0. rewrite (take_all B R H). destruct (N.eq_dec (len R) 0) as [Z|NZ].
    + pose proof (len_zero _ Z) as ->. rewrite len_nil. destruct fuel as [|fuel]; [lia|]. cbn [insert_loop]. rewrite (drop_all (len data) []) by (rewrite len_nil; lia).
      rewrite N.ltb_irrefl. rewrite finish_ok by (apply B63; lia). cbn [bytes]. rewrite !app_nil_r. split; [reflexivity|]. split; lia.
    + destruct fuel as [|[|fuel]]; [lia|lia|]. pose proof (insert_loop_step (S fuel) (len pre) (len data) B (len R) (pre ++ data) [] R (drop (len data) R) (len pre + len data) Lp) as St.
      rewrite len_nil in St. cbn [app] in St. rewrite St; [|rewrite len_drop; change (2 ^ 62) with 4611686018427387904; lia|lia]. clear St.
      rewrite (drop_all (len R)) by (rewrite len_drop; lia). rewrite app_nil_r. cbn [insert_loop]. destruct (N.ltb_spec (len R) (len R)); [lia|].
      rewrite finish_ok by (apply B63; lia). cbn [bytes]. rewrite <- app_assoc. split; [reflexivity|]. split; lia.
  - assert (La : len (take B R) = B) by (rewrite len_take; lia). assert (Lz : len (drop (len data) R) = len R - len data) by apply len_drop.
    destruct fuel as [|fuel]; [lia|].
    pose proof (insert_loop_step fuel (len pre) (len data) B (len R) (pre ++ data) [] (take B R) (drop (len data) R) (len pre + len data) Lp) as St.
    rewrite len_nil in St. cbn [app] in St. rewrite St; [|rewrite La, Lz; change (2 ^ 62) with 4611686018427387904; lia|lia]. clear St.
    destruct (insert_loop_rest (len pre) (len data) B (len R) (pre ++ data) (take B R) (drop (len data) R) HB Lp ltac:(lia) ltac:(lia) ltac:(change (2 ^ 62) with 4611686018427387904; lia) ltac:(lia) fuel 0 (len (pre ++ data) + 0 + len (take B R))) as (k & p' & J1 & J2 & J3); [lia|].
    rewrite take_0, app_nil_r, drop_0, N.add_0_l, La in J3. rewrite La. replace (len R <=? B) with false by (symmetry; apply N.leb_gt; lia).
    exists k. rewrite J3. rewrite finish_ok by (apply B63; lia). cbn [bytes]. rewrite <- app_assoc. split; [reflexivity|]. rewrite La in J1, J2. split; [lia|]. destruct J2 as [J2|J2]; [left; exact J2|right; lia].
Qed.

(** Past the end, the loop does not end *)
Lemma insert_loop_forever offset count B size f : len (bytes f) <= pos f -> 0 < size -> len (bytes f) <= word (offset + count) -> pos f < 2 ^ 63 -> len (bytes f) < 2 ^ 63 ->
  forall fuel, insert_loop fuel offset count B size 0 [] f = None.
Proof.
  intros Lp Ls Lw Bp Bl fuel. revert f Lp Lw Bp Bl. induction fuel as [|fuel IH]; intros f Lp Lw Bp Bl; cbn [insert_loop]; (destruct (N.ltb_spec 0 size); [|lia]); [reflexivity|].
  change (word (0 + len [])) with 0. rewrite (N.add_0_r offset). destruct (N.ltb_spec 0 size); [|lia].
  unfold set_offset at 1. destruct (N.ltb_spec (word (offset + count)) (2 ^ 63)) as [L|L].
  - rewrite read_ok; [|discriminate|cbn [pos]; exact L|cbn [bytes]; exact Bl]. cbn [bytes pos moved]. unfold part. rewrite (drop_all (word (offset + count))) by lia.
    replace (take B []) with (@nil N) by (unfold take; rewrite firstn_nil; reflexivity). cbn [fwrite]. apply IH; assumption.
  - rewrite read_ok; [|discriminate|exact Bp|exact Bl]. unfold part. rewrite (drop_all (pos f)) by lia.
    replace (take B []) with (@nil N) by (unfold take; rewrite firstn_nil; reflexivity). cbn [fwrite moved]. apply IH; assumption.
Qed.

Lemma insert_forever fuel block data o f : len (bytes f) < pos f -> pos f + len data < 2 ^ 63 -> insert fuel block HUpdate data o f = None.
Proof.
  intros L B. change (2 ^ 63) with 9223372036854775808 in B. unfold insert. rewrite read_ok; [|discriminate|change (2 ^ 63) with 9223372036854775808; lia|change (2 ^ 63) with 9223372036854775808; lia].
  unfold part. rewrite (drop_all (pos f)) by lia. replace (take _ []) with (@nil N) by (unfold take; rewrite firstn_nil; reflexivity). cbn [moved].
  set (f' := fwrite data (mkFile (bytes f) (pos f))).
  assert (Hs : 0 < word (len (bytes f) + 2 ^ 64 - pos f)).
  { unfold word. change (2 ^ 64) with 18446744073709551616. rewrite N.mod_small by lia. lia. }
  assert (Hf : len (bytes f') <= pos f' /\ len (bytes f') <= pos f + len data /\ pos f' <= pos f + len data).
  { unfold f', fwrite. destruct data as [|d data]; cbn [bytes pos]; [rewrite len_nil; lia|]. rewrite (drop_all (pos f + len (d :: data))) by lia. rewrite app_nil_r, len_app, len_take, len_app, len_zeros. lia. }
  rewrite insert_loop_forever; [reflexivity|lia|exact Hs| | |].
  - rewrite word_small by (change (2 ^ 64) with 18446744073709551616; lia). lia.
  - change (2 ^ 63) with 9223372036854775808. lia.
  - change (2 ^ 63) with 9223372036854775808. lia.
Qed.

(** ** Removing *)

Lemma overwritten_mid (a b data : list N) n : n = len a -> overwritten (a ++ b) n data = a ++ data ++ drop (len data) b.
Proof.
  intros ->. unfold overwritten. destruct data as [|d data]; [rewrite len_nil, drop_0; reflexivity|]. unfold before. rewrite len_app. replace (len a - (len a + len b)) with 0 by lia.
  rewrite zeros_0, app_nil_r, take_app by reflexivity. rewrite drop_app_add. reflexivity.
Qed.

Lemma remove_loop_ok offset count B (pre R : list N) : 0 < B -> len pre = offset -> count <= len R -> offset + 2 * len R + B < 2 ^ 62 ->
  forall fuel sh p, sh <= len R - count -> (N.to_nat (len R - count - sh) <= fuel)%nat ->
  exists p', remove_loop fuel offset count B (len R) sh (mkFile (pre ++ take sh (drop count R) ++ drop sh R) p) = Some (mkFile (pre ++ drop count R ++ drop (len R - count) R) p').
Proof.
  intros HB Lp Lc Bd. change (2 ^ 62) with 4611686018427387904 in Bd.
  assert (B63 : forall n, n <= offset + 2 * len R + B -> n < 2 ^ 63) by (intros n Hn; change (2 ^ 63) with 9223372036854775808; lia).
  assert (B64 : forall n, n <= offset + 2 * len R + B -> n < 2 ^ 64) by (intros n Hn; change (2 ^ 64) with 18446744073709551616; lia).
  induction fuel as [|fuel IH]; intros sh p Ls F; cbn [remove_loop]; (destruct (N.ltb_spec sh (len R - count)) as [H|H]).
  - lia.
  - exists p. replace (len R - count) with sh by lia. rewrite (take_all sh (drop count R)) by (rewrite len_drop; lia). reflexivity.
  - rewrite (word_small (offset + sh + count)) by (apply B64; lia). rewrite set_offset_ok by (apply B63; lia). cbn [bytes].
    assert (Lw : len (pre ++ take sh (drop count R)) = offset + sh) by (rewrite len_app, len_take, len_drop; lia).
    assert (Lt : len (pre ++ take sh (drop count R) ++ drop sh R) = offset + len R) by (rewrite app_assoc, len_app, Lw, len_drop; lia).
    rewrite read_ok; [|discriminate|cbn [pos]; apply B63; lia|cbn [bytes]; apply B63; rewrite Lt; lia]. cbn [bytes pos moved]. unfold part.
    assert (D : drop (offset + sh + count) (pre ++ take sh (drop count R) ++ drop sh R) = drop (count + sh) R).
    { rewrite app_assoc. rewrite <- Lw. rewrite drop_app_add. rewrite drop_drop. f_equal. lia. }
    rewrite D. set (chunk := take B (drop (count + sh) R)).
    assert (Lk : len chunk = N.min B (len R - count - sh)) by (unfold chunk; rewrite len_take, len_drop; lia).
    rewrite (word_small (offset + sh)) by (apply B64; lia). rewrite set_offset_ok by (apply B63; lia). cbn [bytes].
    rewrite write_ok; [|discriminate|cbn [pos]; apply B63; lia]. cbn [bytes pos moved]. rewrite app_assoc. rewrite overwritten_mid by (symmetry; exact Lw).
    rewrite (word_small (sh + len chunk)) by (apply B64; lia). destruct (IH (sh + len chunk) (offset + sh)) as (p' & E); [lia|lia|]. exists p'. rewrite <- E. f_equal. f_equal.
    assert (Ec : chunk = take (len chunk) (drop (count + sh) R)); [|rewrite (take_add sh (len chunk)), !drop_drop, <- Ec, <- !app_assoc; reflexivity].
    unfold chunk. rewrite len_take, len_drop. destruct (N.le_gt_cases B (len R - (count + sh))) as [L|L]; [f_equal; lia|]. rewrite !take_all by (rewrite len_drop; lia). reflexivity.
  - exists p. replace (len R - count) with sh by lia. rewrite (take_all sh (drop count R)) by (rewrite len_drop; lia). reflexivity.
Qed.

Lemma remove_ok fuel block count o pre R : 0 < block -> len pre + 2 * len R + block < 2 ^ 62 -> (N.to_nat (len R) <= fuel)%nat ->
  exists p, remove fuel block HUpdate count o (mkFile (pre ++ R) (len pre)) = Some (finish o (len pre) (len pre + count) (mkFile (pre ++ drop count R) p)).
Proof.
  intros HB Bd F. unfold remove. cbn [bytes pos]. rewrite len_app. destruct (N.ltb_spec (len pre + len R) (len pre)); [lia|]. replace (len pre + len R - len pre) with (len R) by lia.
  destruct (N.leb_spec (len R) count) as [H'|H'].
  - exists (len pre). unfold ftruncate. cbn [bytes pos]. rewrite len_app. replace (len pre - (len pre + len R)) with 0 by lia. rewrite zeros_0, app_nil_r, take_app by reflexivity. rewrite (drop_all count R) by lia. rewrite app_nil_r. reflexivity.
  - destruct (remove_loop_ok (len pre) count block pre R HB eq_refl ltac:(lia) Bd fuel 0 (len pre) ltac:(lia) ltac:(lia)) as (p & E). rewrite take_0, drop_0 in E. cbn [app] in E. rewrite E. exists p.
    unfold ftruncate. cbn [bytes pos]. rewrite app_assoc. assert (L : len (pre ++ drop count R) = len pre + len R - count) by (rewrite len_app, len_drop; lia).
    rewrite len_app, L. replace (len pre + len R - count - _) with 0 by lia. rewrite zeros_0, app_nil_r. rewrite take_app by (symmetry; exact L). reflexivity.
Qed.

(** ** Virtual files *)

Lemma v_read_ok t n o f : t <> HWrite -> pos f < 2 ^ 63 -> len (bytes f) < 2 ^ 63 ->
  v_read t n o f = (true, part (bytes f) (pos f) n, mkFile (bytes f) (moved o (pos f) (len (part (bytes f) (pos f) n)))).
Proof.
  intros Ht Hp Hl. unfold v_read. destruct f as [b p]. cbn [bytes pos] in *. destruct (N.eqb_spec n 0) as [->|NZ].
  - unfold part. rewrite take_0, len_nil. replace (moved o p 0) with p by (destruct o; cbn; lia). destruct t; congruence.
  - assert (E : (if p <? len b then take (N.min (len b - p) n) (drop p b) else []) = part b p n).
    { unfold part. destruct (N.ltb_spec p (len b)).
      - destruct (N.le_gt_cases n (len b - p)); [replace (N.min (len b - p) n) with n by lia; reflexivity|]. rewrite !take_all by (rewrite len_drop; lia). reflexivity.
      - rewrite (drop_all p b) by lia. unfold take. rewrite firstn_nil. reflexivity. }
    rewrite E. unfold v_finish. assert (L : p + len (part b p n) < 2 ^ 63) by (unfold part; rewrite len_take, len_drop; lia).
    rewrite word_small by (change (2 ^ 64) with 18446744073709551616; change (2 ^ 63) with 9223372036854775808 in L; lia). destruct t; [|congruence|]; destruct o; reflexivity.
Qed.

Lemma len_eqb_nil (data : list N) : (len data =? 0) = match data with [] => true | _ => false end.
Proof. destruct data; [reflexivity|]. apply N.eqb_neq. unfold len. cbn. lia. Qed.

Lemma v_write_ok junk t data o f : (forall n, len (junk n) = n) -> t <> HRead -> pos f + len data < 2 ^ 63 ->
  v_write junk t data o f = (true, mkFile (overwritten (bytes f) (pos f) data) (moved o (pos f) (len data))).
Proof.
  intros J Ht H. unfold v_write. rewrite len_eqb_nil. destruct data as [|d data]; [rewrite len_nil; cbn [overwritten]; destruct f as [b p]; cbn [pos bytes]; replace (moved o p 0) with p by (destruct o; cbn; lia); destruct t; congruence|].
  assert (L0 : 0 < len (d :: data)) by (unfold len; cbn; lia). set (D := d :: data) in *. destruct f as [b p]. cbn [bytes pos] in *.
  assert (E : array_replace p D (if len b <=? p then b ++ zeros (p - len b) ++ junk (len D) else if len b <=? p + len D then b ++ junk (p + len D - len b) else b) = overwritten b p D).
  { unfold overwritten. unfold D at 4. fold D. unfold array_replace, before. destruct (N.leb_spec (len b) p) as [H1|H1].
    - rewrite (drop_all (p + len D) b) by lia. rewrite (take_all p b) by lia. rewrite (app_assoc b). rewrite (take_app (b ++ zeros (p - len b))) by (rewrite len_app, len_zeros; lia).
      rewrite (drop_all (p + len D)) by (rewrite !len_app, len_zeros, J; lia). reflexivity.
    - replace (p - len b) with 0 by lia. rewrite zeros_0, app_nil_r. destruct (N.leb_spec (len b) (p + len D)) as [H2|H2]; [|reflexivity].
      rewrite (drop_all (p + len D) b) by lia. rewrite drop_all by (rewrite len_app, J; lia). f_equal. unfold take. rewrite firstn_app. replace (N.to_nat p - length b)%nat with O by (unfold len in H1; lia). cbn [firstn]. rewrite app_nil_r. reflexivity. }
  rewrite E. unfold v_finish. rewrite word_small by (change (2 ^ 64) with 18446744073709551616; change (2 ^ 63) with 9223372036854775808 in H; lia). destruct t; [congruence| |]; destruct o; reflexivity.
Qed.

Lemma v_insert_ok junk data o f : pos f < len (bytes f) -> pos f + len data < 2 ^ 63 ->
  v_insert junk HUpdate data o f = (true, mkFile (inserted (bytes f) (pos f) data) (moved o (pos f) (len data))).
Proof.
  intros L H. unfold v_insert. rewrite len_eqb_nil. destruct data as [|d data]; [rewrite len_nil; cbn [inserted]; destruct f as [b p]; cbn [pos bytes]; replace (moved o p 0) with p by (destruct o; cbn; lia); reflexivity|].
  destruct (N.leb_spec (len (bytes f)) (pos f)); [lia|]. unfold v_finish. rewrite word_small by (change (2 ^ 64) with 18446744073709551616; change (2 ^ 63) with 9223372036854775808 in H; lia).
  unfold array_insert, inserted, before. replace (pos f - len (bytes f)) with 0 by lia. rewrite zeros_0, app_nil_r. destruct o; reflexivity.
Qed.

Lemma v_insert_end junk data o f : len (bytes f) <= pos f -> data <> [] -> (forall n, len (junk n) = n) -> pos f + len data < 2 ^ 63 ->
  v_insert junk HUpdate data o f = (true, mkFile (before (bytes f) (pos f) ++ data ++ junk (len data) ++ data) (moved o (pos f) (len data))).
Proof.
  intros L Nn J H. unfold v_insert. rewrite len_eqb_nil. destruct data as [|d data]; [congruence|]. set (D := d :: data) in *. destruct (N.leb_spec (len (bytes f)) (pos f)); [|lia].
  unfold v_finish. rewrite word_small by (change (2 ^ 64) with 18446744073709551616; change (2 ^ 63) with 9223372036854775808 in H; lia).
  assert (E : array_insert (pos f) D ((bytes f ++ zeros (pos f - len (bytes f)) ++ junk (len D)) ++ D) = before (bytes f) (pos f) ++ D ++ junk (len D) ++ D).
  { unfold array_insert, before. rewrite (take_all (pos f) (bytes f)) by lia. rewrite (app_assoc (bytes f)). rewrite <- (app_assoc (bytes f ++ zeros _)). rewrite take_app, drop_app by (rewrite len_app, len_zeros; lia). reflexivity. }
  rewrite E. destruct o; reflexivity.
Qed.

Lemma v_remove_ok count o f : v_remove HUpdate count o f = (true, mkFile (removed (bytes f) (pos f) count) (match o with Preserve => pos f | Update => word (pos f + count) end)).
Proof.
  unfold v_remove, v_finish, removed, array_remove. destruct f as [b p]. cbn [bytes pos]. f_equal. f_equal. destruct (N.ltb_spec p (len b)) as [H|H].
  - f_equal. destruct (N.le_gt_cases count (len b - p)); [f_equal; lia|]. rewrite !drop_all by lia. reflexivity.
  - rewrite take_all, drop_all by lia. rewrite app_nil_r. reflexivity.
Qed.

(** ** Copying *)

Lemma copy_loop_ok block S0 rest : 0 < block -> 2 * len S0 + block < 2 ^ 62 ->
  forall fuel done (todo : list N) junk, S0 = done ++ todo -> (N.to_nat (len todo) < fuel)%nat ->
  junk = drop (len done) rest -> 
  exists p, copy_loop fuel block (mkFile S0 (len done)) (mkFile (done ++ junk) (len done)) = Some (true, mkFile (S0 ++ drop (len S0) rest) p).
Proof.
  intros HB Bd. change (2 ^ 62) with 4611686018427387904 in Bd. induction fuel as [|fuel IH]; intros done todo junk Es F Ej; [lia|]. cbn [copy_loop].
  assert (Ls : len S0 = len done + len todo) by (rewrite Es, len_app; reflexivity).
  assert (B63 : forall n, n <= len S0 + block -> n < 2 ^ 63) by (intros n Hn; change (2 ^ 63) with 9223372036854775808; lia).
  rewrite read_ok; [|discriminate|cbn [pos]; apply B63; lia|cbn [bytes]; apply B63; lia]. cbn [bytes pos moved].
  assert (Pt : part S0 (len done) block = take block todo) by (unfold part; rewrite Es, drop_app by reflexivity; reflexivity). rewrite Pt.
  assert (Lk : len (take block todo) = N.min block (len todo)) by apply len_take.
  rewrite write_ok; [|discriminate|cbn [pos]; apply B63; lia]. cbn [bytes pos moved]. rewrite overwritten_mid by reflexivity.
  destruct (N.eqb_spec (len (take block todo)) 0) as [Z|NZ].
  - assert (todo = []) as -> by (apply len_zero; lia). rewrite app_nil_r in Es. subst S0. exists (len done + len (take block (@nil N))). f_equal. f_equal. f_equal.
    replace (take block []) with (@nil N) by (unfold take; rewrite firstn_nil; reflexivity). rewrite len_nil, drop_0. cbn [app]. rewrite Ej. reflexivity.
  - destruct (IH (done ++ take block todo) (drop block todo) (drop (len (take block todo)) junk)) as (p & E).
    + rewrite <- app_assoc, take_drop. exact Es.
    + rewrite len_drop. lia.
    + rewrite Ej, drop_drop, len_app. reflexivity.
    + exists p. rewrite len_app in E. rewrite app_assoc. exact E.
Qed.

Lemma copy_file_ok fuel block source dest : 0 < block -> 2 * len source + block < 2 ^ 62 -> (N.to_nat (len source) < fuel)%nat ->
  copy_file fuel block source dest = Some (true, source ++ drop (len source) (match dest with Some d => d | None => [] end)).
Proof.
  intros HB Bd F. unfold copy_file. set (d := match dest with Some d => d | None => [] end).
  destruct (copy_loop_ok block source d HB Bd fuel [] source d eq_refl F) as (p & E); [rewrite len_nil, drop_0; reflexivity|]. cbn [app] in E. rewrite len_nil in E. rewrite E. reflexivity.
Qed.
