From Verif Require Import Base Word MemoryModel MemorySpec.

Lemma at_place size off l n : size <> 0 -> (off + N.of_nat n < 2 ^ 64)%N -> l < n -> at_ size off l = place size off l.
Proof. intros Hs Ho Hl. unfold at_, place. rewrite (N.mod_small (off + N.of_nat l)) by lia. reflexivity. Qed.

Lemma place_lt size off l : size <> 0 -> place size off l < size.
Proof. intros. unfold place. pose proof (N.mod_lt (off + N.of_nat l) (N.of_nat size) ltac:(lia)). lia. Qed.

Lemma place_inj size off i j : i < size -> j < size -> place size off i = place size off j -> i = j.
Proof.
  intros Hi Hj E. unfold place in E. apply N2Nat.inj in E. set (s := N.of_nat size) in *.
  assert (Hs : s <> 0%N) by lia.
  pose proof (N.div_mod (off + N.of_nat i) s Hs) as Di. pose proof (N.div_mod (off + N.of_nat j) s Hs) as Dj.
  rewrite E in Di. set (qi := ((off + N.of_nat i) / s)%N) in *. set (qj := ((off + N.of_nat j) / s)%N) in *.
  set (r := ((off + N.of_nat j) mod s)%N) in *. clearbody qi qj r.
  assert (qi = qj) by (destruct (N.lt_trichotomy qi qj) as [L|[L|L]]; auto; nia). subst. lia.
Qed.

Lemma straight_id vs l : vs <> 0 -> straight vs l = l.
Proof. intros. unfold straight. pose proof (Nat.div_mod l vs H). lia. Qed.

Lemma divmod_eq vs q r : r < vs -> (q * vs + r) / vs = q /\ (q * vs + r) mod vs = r.
Proof.
  intros H. rewrite Nat.add_comm. split.
  - rewrite Nat.div_add, Nat.div_small by lia. lia.
  - rewrite Nat.mod_add, Nat.mod_small by lia. lia.
Qed.

Lemma mirrored_mirrored vs l : vs <> 0 -> mirrored vs (mirrored vs l) = l.
Proof.
  intros H. unfold mirrored. pose proof (Nat.div_mod l vs H). pose proof (Nat.mod_upper_bound l vs H).
  set (q := l / vs) in *. set (r := l mod vs) in *. clearbody q r.
  replace (vs - 1 - r + q * vs) with (q * vs + (vs - 1 - r)) by lia.
  destruct (divmod_eq vs q (vs - 1 - r)) as [-> ->]; lia.
Qed.

Lemma index_inj h o vs i j : vs <> 0 -> index_of h o vs i = index_of h o vs j -> i = j.
Proof.
  intros H. assert (S : straight vs i = straight vs j -> i = j) by (rewrite !straight_id; auto).
  assert (M : mirrored vs i = mirrored vs j -> i = j).
  { intros E. rewrite <- (mirrored_mirrored vs i), E, mirrored_mirrored; auto. }
  destruct o, h; auto.
Qed.

(** Byte l of whole values stays in its value. *)
Lemma index_bound h o vs l n : vs <> 0 -> l < n * vs -> index_of h o vs l < n * vs.
Proof.
  intros H Hl. assert (M : mirrored vs l < n * vs).
  { unfold mirrored. pose proof (Nat.div_mod l vs H). pose proof (Nat.mod_upper_bound l vs H).
    assert (l / vs < n) by (apply Nat.div_lt_upper_bound; lia). nia. }
  assert (straight vs l < n * vs) by (rewrite straight_id; auto). destruct o, h; auto.
Qed.

Lemma store_ok l i v : i < length l -> store l i v = Some (upd l i v).
Proof. intros H. unfold store. destruct (Nat.ltb_spec i (length l)); [reflexivity|lia]. Qed.

(** The write loop writes exactly its places. *)
Lemma write_loop_spec ix off buf count size (Hs : size <> 0) (Ho : (off + N.of_nat count < 2 ^ 64)%N) (Hc : count <= size)
    (Hb : forall l, l < count -> ix l < length buf) n : forall l mem,
  l + n = count -> length mem = size ->
  exists mem', write_loop ix mem size off l n buf = Some mem' /\ length mem' = size /\
    (forall k, l <= k < count -> nth_error mem' (place size off k) = nth_error buf (ix k)) /\
    (forall p, (forall k, l <= k < count -> p <> place size off k) -> nth_error mem' p = nth_error mem p).
Proof.
  induction n as [|n IH]; intros l mem Hl Hm; cbn [write_loop].
  - exists mem. repeat split; auto. intros k Hk. lia.
  - destruct (nth_error buf (ix l)) as [v|] eqn:E; [|apply nth_error_None in E; specialize (Hb l); lia].
    rewrite (at_place size off l count) by (auto; lia).
    rewrite store_ok by (rewrite Hm; now apply place_lt).
    destruct (IH (S l) (upd mem (place size off l) v)) as (mem' & E' & L' & A & B); [lia|now rewrite upd_length|].
    exists mem'. split; [exact E'|]. split; [exact L'|]. split.
    + intros k Hk. destruct (Nat.eq_dec k l) as [->|]; [|apply A; lia].
      rewrite B; [rewrite nth_error_upd_eq by (rewrite Hm; now apply place_lt); congruence|].
      intros k Hk2 C. apply place_inj in C; lia.
    + intros p Hp. rewrite B by (intros k Hk; apply Hp; lia). apply nth_error_upd_ne. intros C. apply (Hp l); [lia|auto].
Qed.

Lemma read_loop_spec ix off mem count size (Hs : size <> 0) (Ho : (off + N.of_nat count < 2 ^ 64)%N) (Hm : length mem = size)
    (Hi : forall i j, ix i = ix j -> i = j) n : forall l buf,
  l + n = count -> (forall k, k < count -> ix k < length buf) ->
  exists buf', read_loop ix mem size off l n buf = Some buf' /\ length buf' = length buf /\
    (forall k, l <= k < count -> nth_error buf' (ix k) = nth_error mem (place size off k)) /\
    (forall p, (forall k, l <= k < count -> p <> ix k) -> nth_error buf' p = nth_error buf p).
Proof.
  induction n as [|n IH]; intros l buf Hl Hb; cbn [read_loop].
  - exists buf. repeat split; auto. intros k Hk. lia.
  - rewrite (at_place size off l count) by (auto; lia).
    destruct (nth_error mem (place size off l)) as [v|] eqn:E; [|apply nth_error_None in E; pose proof (place_lt size off l Hs); lia].
    rewrite store_ok by (apply Hb; lia).
    destruct (IH (S l) (upd buf (ix l) v)) as (buf' & E' & L' & A & B); [lia|intros k Hk; rewrite upd_length; auto|].
    exists buf'. split; [exact E'|]. split; [now rewrite L', upd_length|]. split.
    + intros k Hk. destruct (Nat.eq_dec k l) as [->|]; [|apply A; lia].
      rewrite B; [rewrite nth_error_upd_eq by (apply Hb; lia); congruence|].
      intros k Hk2 C. apply Hi in C. lia.
    + intros p Hp. rewrite B by (intros k Hk; apply Hp; lia). apply nth_error_upd_ne. intros C. apply (Hp l); [lia|auto].
Qed.

Lemma write_spec h o vs mem off count buf : vs <> 0 -> count <= length mem -> (off + N.of_nat count < 2 ^ 64)%N ->
  (forall l, l < count -> index_of h o vs l < length buf) ->
  exists mem', write h o vs mem (length mem) off count buf = Some mem' /\ length mem' = length mem /\
    (forall k, k < count -> nth_error mem' (place (length mem) off k) = nth_error buf (index_of h o vs k)) /\
    (forall p, (forall k, k < count -> p <> place (length mem) off k) -> nth_error mem' p = nth_error mem p).
Proof.
  intros Hv Hc Ho Hb. unfold write. destruct (Nat.eqb_spec (length mem) 0) as [E|E].
  - assert (count = 0) as -> by lia. cbn. exists mem. repeat split; auto. intros k Hk. lia.
  - cbn [andb]. destruct (write_loop_spec (index_of h o vs) off buf count (length mem) E Ho Hc Hb count 0 mem eq_refl eq_refl) as (m & A & B & C & D).
    exists m. split; [exact A|]. split; [exact B|]. split; [intros k Hk; apply C; lia|]. intros p Hp. apply D. intros k Hk. apply Hp. lia.
Qed.

Lemma read_spec h o vs mem off count buf : vs <> 0 -> (count = 0 \/ mem <> []) -> (off + N.of_nat count < 2 ^ 64)%N ->
  (forall l, l < count -> index_of h o vs l < length buf) ->
  exists buf', read h o vs mem (length mem) off count buf = Some buf' /\ length buf' = length buf /\
    (forall k, k < count -> nth_error buf' (index_of h o vs k) = nth_error mem (place (length mem) off k)) /\
    (forall p, (forall k, k < count -> p <> index_of h o vs k) -> nth_error buf' p = nth_error buf p).
Proof.
  intros Hv Hc Ho Hb. unfold read. destruct (Nat.eqb_spec (length mem) 0) as [E|E].
  - assert (count = 0) as -> by (destruct Hc as [->|Hc]; auto; destruct mem; [congruence|discriminate E]).
    cbn. exists buf. repeat split; auto. intros k Hk. lia.
  - cbn [andb]. destruct (read_loop_spec (index_of h o vs) off mem count (length mem) E Ho eq_refl (fun i j => index_inj h o vs i j Hv) count 0 buf eq_refl Hb) as (m & A & B & C & D).
    exists m. split; [exact A|]. split; [exact B|]. split; [intros k Hk; apply C; lia|]. intros p Hp. apply D. intros k Hk. apply Hp. lia.
Qed.

(** Bytes of values. *)
Lemma value_length vs v n buf : length buf = n * vs -> v < n -> length (value vs v buf) = vs.
Proof. intros L H. unfold value. rewrite firstn_length, skipn_length. nia. Qed.
Lemma value_nth vs v buf j : j < vs -> nth_error (value vs v buf) j = nth_error buf (v * vs + j).
Proof. intros H. unfold value. rewrite nth_error_firstn, nth_error_skipn. destruct (Nat.ltb_spec j vs); [reflexivity|lia]. Qed.

Lemma mem_value_length vs v mem off : length (mem_value vs v mem off) = vs.
Proof. unfold mem_value. now rewrite map_length, seq_length. Qed.
Lemma mem_value_nth vs v mem off j : mem <> [] -> j < vs -> nth_error (mem_value vs v mem off) j = nth_error mem (place (length mem) off (v * vs + j)).
Proof.
  intros Hm H. unfold mem_value. erewrite map_nth_error; [|apply (nth_error_nth' (seq 0 vs) 0); rewrite seq_length; auto].
  rewrite seq_nth by auto. cbn [Nat.add]. symmetry. apply nth_error_nth'. apply place_lt. destruct mem; [congruence|discriminate].
Qed.

Lemma nth_error_rev {A} (l : list A) j : j < length l -> nth_error (rev l) j = nth_error l (length l - 1 - j).
Proof.
  intros H. destruct (nth_error_lt_Some l j H) as [x0 _]. rewrite (nth_error_nth' (rev l) x0) by (rewrite rev_length; auto). rewrite rev_nth by auto.
  rewrite (nth_error_nth' l x0) by lia. f_equal. f_equal. lia.
Qed.

(** Values whose bytes are the same, or mirrored, as the call's order says. *)
Lemma orders_agree h o vs (A B : list N) : length A = vs -> length B = vs ->
  (forall j, j < vs -> nth_error B j = nth_error A (index_of h o vs j)) ->
  number (memory_order h o) B = number h A.
Proof.
  intros LA LB H. destruct (Nat.eq_dec vs 0) as [->|Hv].
  { destruct A, B; try discriminate. destruct o, h; reflexivity. }
  assert (S : (forall j, j < vs -> nth_error B j = nth_error A (straight vs j)) -> B = A).
  { intros E. apply list_ext_nth_error. intros j. destruct (Nat.lt_ge_cases j vs).
    - rewrite E by auto. now rewrite straight_id.
    - transitivity (@None N); [|symmetry]; apply nth_error_None; lia. }
  assert (M : (forall j, j < vs -> nth_error B j = nth_error A (mirrored vs j)) -> B = rev A).
  { intros E. apply list_ext_nth_error. intros j. destruct (Nat.lt_ge_cases j vs).
    - rewrite E by auto. rewrite nth_error_rev by lia. f_equal. unfold mirrored. rewrite Nat.mod_small, Nat.div_small by auto. lia.
    - transitivity (@None N); [|symmetry]; apply nth_error_None; rewrite ?rev_length; lia. }
  destruct o, h; cbn [index_of memory_order number] in *; first [rewrite (S H); reflexivity | rewrite (M H); rewrite ?rev_involutive; reflexivity].
Qed.

Lemma index_value h o vs v j : j < vs -> index_of h o vs (v * vs + j) = v * vs + index_of h o vs j.
Proof.
  intros H. assert (S : straight vs (v * vs + j) = v * vs + straight vs j) by (rewrite !straight_id by lia; auto).
  assert (M : mirrored vs (v * vs + j) = v * vs + mirrored vs j).
  { unfold mirrored. destruct (divmod_eq vs v j H) as [-> ->]. rewrite Nat.mod_small, Nat.div_small by auto. lia. }
  destruct o, h; auto.
Qed.

(** * Swap *)
Lemma swap_loop_spec data0 : forall n l data, length data = length data0 -> l + n = length data0 / 2 ->
  (forall i, i < length data0 -> nth_error data i =
     if (i <? l) || (length data0 - l <=? i) then nth_error data0 (length data0 - 1 - i) else nth_error data0 i) ->
  swap_loop data (length data0) l n = Some (rev data0).
Proof.
  set (s := length data0). assert (Hhalf : 2 * (s / 2) <= s) by (pose proof (Nat.div_mod s 2 ltac:(lia)); lia).
  assert (Hh2 : s <= 2 * (s / 2) + 1) by (pose proof (Nat.div_mod s 2 ltac:(lia)); pose proof (Nat.mod_upper_bound s 2 ltac:(lia)); lia).
  set (hf := s / 2) in *. clearbody hf.
  induction n as [|n IH]; intros l data Ld Hl H; cbn [swap_loop].
  - f_equal. apply list_ext_nth_error. intros i. destruct (Nat.lt_ge_cases i s).
    + rewrite H, nth_error_rev by auto. fold s. destruct (Nat.ltb_spec i l), (Nat.leb_spec (s - l) i); cbn [orb]; try reflexivity.
      f_equal. lia.
    + transitivity (@None N); [|symmetry]; apply nth_error_None; rewrite ?rev_length; fold s; lia.
  - destruct (nth_error data l) as [t|] eqn:Et; [|apply nth_error_None in Et; lia].
    destruct (nth_error data (s - l - 1)) as [u|] eqn:Eu; [|apply nth_error_None in Eu; lia].
    rewrite store_ok by lia. rewrite store_ok by (rewrite upd_length; lia).
    apply IH; [now rewrite !upd_length|lia|]. intros i Hi.
    destruct (Nat.eq_dec i (s - l - 1)) as [->|N1].
    + rewrite nth_error_upd_eq by (rewrite upd_length; lia).
      rewrite H in Et by lia. destruct (Nat.ltb_spec l l); [lia|]. destruct (Nat.leb_spec (s - l) l); [lia|]. cbn [orb] in Et.
      destruct (Nat.ltb_spec (s - l - 1) (S l)), (Nat.leb_spec (s - S l) (s - l - 1)); cbn [orb]; try lia; rewrite <- Et; f_equal; lia.
    + rewrite nth_error_upd_ne by auto. destruct (Nat.eq_dec i l) as [->|N2].
      * rewrite nth_error_upd_eq by lia. rewrite H in Eu by lia.
        destruct (Nat.ltb_spec (s - l - 1) l); [lia|]. destruct (Nat.leb_spec (s - l) (s - l - 1)); [lia|]. cbn [orb] in Eu.
        destruct (Nat.ltb_spec l (S l)); [|lia]. cbn [orb]. rewrite <- Eu. f_equal. lia.
      * rewrite nth_error_upd_ne by auto. rewrite H by auto.
        destruct (Nat.ltb_spec i l), (Nat.ltb_spec i (S l)), (Nat.leb_spec (s - l) i), (Nat.leb_spec (s - S l) i); cbn [orb]; reflexivity || lia.
Qed.

Lemma swap_spec data : swap data (length data) = Some (rev data).
Proof.
  apply swap_loop_spec; auto. intros i Hi. destruct (Nat.ltb_spec i 0); [lia|]. destruct (Nat.leb_spec (length data - 0) i); [lia|]. reflexivity.
Qed.

(** * Memory backed by a CCData *)
Lemma read_loop_ext ix m1 m2 size o1 o2 n : forall l buf,
  (forall k, l <= k < l + n -> nth_error m1 (at_ size o1 k) = nth_error m2 (at_ size o2 k)) ->
  read_loop ix m1 size o1 l n buf = read_loop ix m2 size o2 l n buf.
Proof.
  induction n as [|n IH]; intros l buf H; cbn [read_loop]; auto. rewrite H by lia.
  destruct (nth_error m2 _); auto. destruct (store buf _ _); auto. apply IH. intros k Hk. apply H. lia.
Qed.

Lemma skipn_upd (l : list N) p b v : b <= p -> skipn b (upd l p v) = upd (skipn b l) (p - b) v.
Proof.
  revert p b. induction l as [|x l IH]; intros p b H.
  - destruct p, b; cbn; try reflexivity; destruct (p - b); reflexivity.
  - destruct b; [now rewrite Nat.sub_0_r|]. destruct p; [lia|]. cbn. apply IH. lia.
Qed.
Lemma firstn_upd (l : list N) p b v : b <= p -> firstn b (upd l p v) = firstn b l.
Proof.
  revert p b. induction l as [|x l IH]; intros p b H.
  - destruct p; reflexivity.
  - destruct b; [reflexivity|]. destruct p; [lia|]. cbn. f_equal. apply IH. lia.
Qed.

Lemma write_loop_shift ix buf size o1 o2 b n : forall l mem,
  (forall k, l <= k < l + n -> b <= at_ size o1 k /\ at_ size o2 k = at_ size o1 k - b) -> b <= length mem ->
  (write_loop ix (skipn b mem) size o2 l n buf = option_map (skipn b) (write_loop ix mem size o1 l n buf)) /\
  (forall m, write_loop ix mem size o1 l n buf = Some m -> firstn b m = firstn b mem /\ length m = length mem).
Proof.
  induction n as [|n IH]; intros l mem H Hb; cbn [write_loop].
  - split; [reflexivity|]. intros m [= <-]. auto.
  - destruct (nth_error buf (ix l)) as [v|]; [|split; [reflexivity|discriminate]].
    destruct (H l ltac:(lia)) as [H1 H2]. unfold store. rewrite skipn_length, H2.
    replace (at_ size o1 l - b <? length mem - b) with (at_ size o1 l <? length mem)
      by (destruct (Nat.ltb_spec (at_ size o1 l) (length mem)), (Nat.ltb_spec (at_ size o1 l - b) (length mem - b)); lia).
    destruct (at_ size o1 l <? length mem); [|split; [reflexivity|discriminate]].
    rewrite <- skipn_upd by auto. destruct (IH (S l) (upd mem (at_ size o1 l) v)) as [E F].
    { intros k Hk. apply H. lia. } { now rewrite upd_length. }
    split; [exact E|]. intros m Hm. destruct (F m Hm) as [F1 F2]. rewrite firstn_upd in F1 by auto. rewrite upd_length in F2. auto.
Qed.

(** Without wrap-around, the place of byte k is straight after the base. *)
Lemma place_low size off k : size <> 0 -> N.to_nat (off mod N.of_nat size) + k < size -> place size off k = N.to_nat (off mod N.of_nat size) + k.
Proof.
  intros Hs H. unfold place. rewrite <- N.add_mod_idemp_l by lia. rewrite N.mod_small by lia. lia.
Qed.
Lemma sub_base size off : size <> 0 -> ((off - off mod N.of_nat size) mod N.of_nat size = 0)%N.
Proof.
  intros Hs. pose proof (N.div_mod off (N.of_nat size) ltac:(lia)) as D.
  assert (E : (off - off mod N.of_nat size = (off / N.of_nat size) * N.of_nat size)%N).
  { set (q := (off / N.of_nat size)%N) in *. set (r := (off mod N.of_nat size)%N) in *. clearbody q r. lia. }
  rewrite E. apply N.mod_mul. lia.
Qed.

Lemma data_read_eq h o vs mem rest off count buf : mem <> [] -> (off + N.of_nat count < 2 ^ 64)%N ->
  data_read h o vs (mem ++ rest) (length mem) off count buf = read h o vs mem (length mem) off count buf.
Proof.
  intros Hm Ho. assert (Hs : length mem <> 0) by (destruct mem; [congruence|discriminate]).
  unfold data_read, read. destruct (Nat.eqb_spec (length mem) 0); [lia|]. cbn [andb]. unfold mapped.
  set (b := N.to_nat (off mod N.of_nat (length mem))). assert (Hb : b < length mem) by (pose proof (N.mod_lt off (N.of_nat (length mem)) ltac:(lia)); lia).
  destruct (Nat.leb_spec (length mem) (b + count)).
  - rewrite N.sub_0_r. unfold slice. cbn [skipn]. now rewrite firstn_app_exact.
  - unfold slice. rewrite skipn_app, firstn_app, skipn_length. replace (b - length mem) with 0 by lia. cbn [skipn].
    replace (length mem - b - (length mem - b)) with 0 by lia. cbn [firstn]. rewrite app_nil_r.
    rewrite firstn_all2 by (rewrite skipn_length; lia). apply read_loop_ext. intros k Hk.
    rewrite !(at_place _ _ k count) by (auto; lia). rewrite nth_error_skipn. f_equal.
    rewrite (place_low _ off) by (auto; fold b; lia). fold b. f_equal. unfold b. rewrite N2Nat.id.
    rewrite place_low by (auto; rewrite ?sub_base by auto; cbn; lia); rewrite sub_base by auto; cbn; lia.
Qed.

Lemma data_write_eq h o vs mem rest off count buf : mem <> [] -> (off + N.of_nat count < 2 ^ 64)%N ->
  data_write h o vs (mem ++ rest) (length mem) off count buf = option_map (fun m => m ++ rest) (write h o vs mem (length mem) off count buf).
Proof.
  intros Hm Ho. assert (Hs : length mem <> 0) by (destruct mem; [congruence|discriminate]).
  unfold data_write, write. destruct (Nat.eqb_spec (length mem) 0); [lia|]. cbn [andb]. unfold mapped.
  set (b := N.to_nat (off mod N.of_nat (length mem))). assert (Hb : b < length mem) by (pose proof (N.mod_lt off (N.of_nat (length mem)) ltac:(lia)); lia).
  destruct (Nat.leb_spec (length mem) (b + count)).
  - rewrite N.sub_0_r. unfold slice. cbn [skipn firstn app Nat.add]. rewrite firstn_app_exact, skipn_app_exact.
    destruct (write_loop _ mem _ _ _ _ _); reflexivity.
  - unfold slice. rewrite skipn_app, firstn_app, skipn_length. replace (b - length mem) with 0 by lia. cbn [skipn].
    replace (length mem - b - (length mem - b)) with 0 by lia. cbn [firstn]. rewrite app_nil_r.
    rewrite (firstn_all2 (skipn b mem)) by (rewrite skipn_length; lia).
    destruct (write_loop_shift (index_of h o vs) buf (length mem) off (off - N.of_nat b)%N b count 0 mem) as [E F].
    { intros k Hk. rewrite !(at_place _ _ k count) by (auto; lia). rewrite (place_low _ off) by (auto; fold b; lia). fold b. split; [lia|].
      unfold b at 1. rewrite N2Nat.id. rewrite place_low by (auto; rewrite ?sub_base by auto; cbn; lia); rewrite sub_base by auto; cbn; lia. }
    { lia. }
    rewrite E. destruct (write_loop _ mem _ _ _ _ _) as [m|] eqn:Em; [|reflexivity]. cbn [option_map]. f_equal.
    destruct (F m eq_refl) as [F1 F2]. rewrite firstn_app. replace (b - length mem) with 0 by lia. cbn [firstn]. rewrite app_nil_r, <- F1.
    replace (b + (length mem - b)) with (length mem) by lia. rewrite skipn_app_exact, app_assoc, firstn_skipn. reflexivity.
Qed.
