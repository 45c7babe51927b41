(** Proofs for the enumerables of memory zones. *)
From Verif Require Import Base EnumerableModel EnumerableSpec EnumerableProofs ZoneModel ZoneEnumModel ZoneEnumSpec.
Local Open Scope nat_scope.

(** ** Runs of items *)
Definition flat (stride : N) (l : list (N * nat)) : list N := flat_map (fun s => addresses (fst s) stride (snd s)) l.
Definition before (l : list (N * nat)) (j : nat) : nat := fold_right (fun s n => snd s + n) 0 (firstn j l).

Lemma flat_length stride l : length (flat stride l) = fold_right (fun s n => snd s + n) 0 l.
Proof. induction l as [|s t IH]; cbn [flat flat_map fold_right]; [reflexivity|]. rewrite app_length, addresses_length. f_equal. exact IH. Qed.

Lemma before_S : forall l j p n, nth_error l j = Some (p, n) -> before l (S j) = before l j + n.
Proof.
  unfold before. induction l as [|s t IH]; intros j p n E; [destruct j; discriminate|].
  destruct j as [|j]; cbn [nth_error] in E.
  - injection E as ->. cbn [firstn fold_right snd]. lia.
  - rewrite firstn_cons. cbn [fold_right]. rewrite (IH j p n E). rewrite firstn_cons. cbn [fold_right]. lia.
Qed.

Lemma before_all l stride : before l (length l) = length (flat stride l).
Proof. unfold before. rewrite firstn_all. now rewrite flat_length. Qed.

Lemma before_le l stride j : before l j <= length (flat stride l).
Proof.
  rewrite flat_length. unfold before. rewrite <- (firstn_skipn j l) at 2. generalize (firstn j l) (skipn j l). intros a b.
  induction a as [|s t IH]; cbn [app fold_right]; lia.
Qed.

Lemma flat_nth stride : forall l j p n i, nth_error l j = Some (p, n) -> i < n ->
  nth_error (flat stride l) (before l j + i) = Some (p + N.of_nat i * stride)%N.
Proof.
  unfold before. induction l as [|s t IH]; intros j p n i E Hi; [destruct j; discriminate|].
  unfold flat. cbn [flat_map]. fold (flat stride t). destruct j as [|j]; cbn [nth_error] in E.
  - injection E as ->. cbn [firstn fold_right fst snd]. rewrite nth_error_app1 by (rewrite addresses_length; lia). now apply addresses_nth.
  - rewrite firstn_cons. cbn [fold_right]. rewrite nth_error_app2 by (rewrite addresses_length; lia). rewrite addresses_length.
    replace (snd s + fold_right (fun s n => snd s + n) 0 (firstn j t) + i - snd s)
      with (fold_right (fun s n => snd s + n) 0 (firstn j t) + i) by lia. exact (IH j p n i E Hi).
Qed.

(** ** Finding the first block *)
Lemma get_pointer_at pre : forall k rest i off, (off < offset k)%N ->
  get_pointer (pre ++ k :: rest) i (used pre + off)%N = Some (i + length pre, (base k + off)%N, (offset k - off)%N).
Proof.
  induction pre as [|a t IH]; intros k rest i off H; cbn [app get_pointer used fold_right length].
  - destruct (N.ltb_spec (0 + off) (offset k)); [|lia]. rewrite N.add_0_l, Nat.add_0_r. reflexivity.
  - fold (used t). destruct (N.ltb_spec (offset a + used t + off) (offset a)); [lia|].
    replace (offset a + used t + off - offset a)%N with (used t + off)%N by lia. rewrite IH by exact H.
    now replace (S i + length t) with (i + S (length t)) by lia.
Qed.

Section Zone.
Context (lead : list block) (k : block) (off stride : N) (rest : list block) (limit : nat).
Hypothesis T : onward k off stride rest limit.
Let bs := lead ++ k :: rest.
Let m := length lead.
Let segs : list (N * nat) :=
  ((base k + off)%N, fits (offset k - off) stride) :: map (fun b => (base b, fits (offset b) stride)) rest.
Let xs := firstn limit (items k off stride rest).

Lemma items_flat : items k off stride rest = flat stride segs.
Proof.
  unfold items, flat, segs, items_at. cbn [flat_map fst snd]. f_equal. clear.
  induction rest as [|b t IH]; cbn [flat_map map]; [reflexivity|]. cbn [fst snd]. now rewrite IH.
Qed.

Lemma fits_pos size : (stride <= size)%N -> 1 <= fits size stride.
Proof.
  intros H. unfold fits. pose proof (t_stride _ _ _ _ _ T) as P.
  assert (1 <= size / stride)%N by (apply N.div_le_lower_bound; lia). lia.
Qed.

Lemma seg_pos j p n : nth_error segs j = Some (p, n) -> 1 <= n.
Proof.
  destruct j as [|j]; unfold segs; cbn [nth_error].
  - intros E. injection E as <- <-. apply fits_pos. pose proof (t_start _ _ _ _ _ T). lia.
  - rewrite nth_error_map. destruct (nth_error rest j) as [b|] eqn:E; [|discriminate]. intros H. injection H as <- <-.
    apply fits_pos. pose proof (t_rest _ _ _ _ _ T) as F. rewrite Forall_forall in F. apply F. now apply nth_error_In in E.
Qed.

Lemma segs_length : length segs = S (length rest).
Proof. unfold segs. cbn [length]. now rewrite map_length. Qed.

Lemma block_at j : nth_error bs (m + j) = nth_error (k :: rest) j.
Proof. unfold bs, m. rewrite nth_error_app2 by lia. f_equal. lia. Qed.

Lemma seg_block j p n : nth_error segs (S j) = Some (p, n) -> exists b, nth_error rest j = Some b /\ p = base b /\ n = fits (offset b) stride.
Proof.
  unfold segs. cbn [nth_error]. rewrite nth_error_map. destruct (nth_error rest j) as [b|]; [|discriminate].
  intros E. injection E as <- <-. eauto.
Qed.

(** Where the enumerator is: batch [j]. *)
Definition at_batch (e : zenum) (j : nat) : Prop :=
  exists p n, nth_error segs j = Some (p, n) /\ z_ref e = Some (m + j) /\ z_ptr e = p /\ z_stride e = stride /\
    z_before e = before segs j /\ z_limit e = limit /\ before segs j < limit /\ z_count e = Nat.min n (limit - before segs j) /\
    z_index e < z_count e.

Lemma xs_length : length xs = Nat.min limit (length (flat stride segs)).
Proof. unfold xs. now rewrite firstn_length, items_flat. Qed.

Lemma nth_firstn {A} : forall n (l : list A) i, i < n -> nth_error (firstn n l) i = nth_error l i.
Proof. induction n as [|n IH]; intros l i H; [lia|]. destruct l, i; cbn; try reflexivity. apply IH. lia. Qed.

Lemma at_value_ e j i : at_batch e j -> i < z_count e ->
  nth_error xs (before segs j + i) = Some (z_ptr e + N.of_nat i * z_stride e)%N.
Proof.
  intros (p & n & E & _ & -> & -> & _ & _ & L & C & _) Hi. unfold xs. rewrite nth_firstn by lia. rewrite items_flat.
  apply (flat_nth stride segs j p n); [exact E|lia].
Qed.

Lemma at_index e j i : at_batch e j -> i < z_count e -> at_batch (zindex e i) j.
Proof. intros (p & n & E & A & B & C & D & F & G & H & _) Hi. exists p, n. cbn. repeat split; auto. Qed.

Lemma at_result e j : at_batch e j -> zresult e = nth_error xs (before segs j + z_index e).
Proof.
  intros H. rewrite (at_value_ e j _ H); [|destruct H as (p & n & H); tauto]. unfold zresult.
  destruct H as (p & n & _ & _ & _ & _ & _ & _ & _ & _ & H). now destruct (Nat.leb_spec (z_count e) (z_index e)); [lia|].
Qed.

Lemma at_pos e j : at_batch e j -> before segs j + z_index e < length xs.
Proof.
  intros H. apply nth_error_Some. rewrite (at_value_ e j _ H); [discriminate|]. destruct H as (p & n & H); tauto.
Qed.

(** On to the next batch, or to the end. *)
Lemma znext_at e j : at_batch e j ->
  (exists e', znext bs e = Some (e', nth_error xs (before segs (S j))) /\ at_batch e' (S j) /\ z_index e' = 0 /\
     before segs (S j) = before segs j + z_count e)
  \/ (znext bs e = Some (e, None) /\ before segs j + z_count e = length xs).
Proof.
  intros H. pose proof H as (p & n & E & R & P & St & B & L & Lt & C & Ix). unfold znext. rewrite B, L.
  assert (Hn := seg_pos _ _ _ E). pose proof (before_S _ _ _ _ E) as BS.
  pose proof (before_le segs stride (S j)) as LE. pose proof xs_length as XL.
  destruct (Nat.eqb_spec (before segs j + z_count e) limit) as [Q|Q].
  - right. split; [reflexivity|]. lia.
  - assert (z_count e = n) as Cn by lia. rewrite R. cbv beta match. assert (Lj : j < S (length rest)).
    { rewrite <- segs_length. apply nth_error_Some. congruence. }
    rewrite (block_at j). replace (S (m + j)) with (m + S j) by lia. rewrite (block_at (S j)). cbn [nth_error].
    destruct (nth_error (k :: rest) j) as [cur|] eqn:Ec; [|apply nth_error_None in Ec; cbn [length] in Ec; lia].
    destruct (nth_error rest j) as [b|] eqn:Eb.
    + left. rewrite Cn, St. rewrite <- BS.
      assert (E' : nth_error segs (S j) = Some (base b, fits (offset b) stride)).
      { unfold segs. cbn [nth_error]. rewrite nth_error_map, Eb. reflexivity. }
      pose proof (seg_pos _ _ _ E') as Pos.
      match goal with |- exists e', Some (?v, _) = _ /\ _ => set (e1 := v) end.
      assert (A : at_batch e1 (S j)).
      { exists (base b), (fits (offset b) stride). unfold e1. cbn [z_ref z_ptr z_count z_stride z_index z_before z_limit].
        repeat split; auto; try lia. }
      exists e1. rewrite (at_result _ _ A). unfold e1 at 2. cbn [z_index]. rewrite Nat.add_0_r. auto.
    + right. assert (j = length rest) as Jl by (apply nth_error_None in Eb; lia).
      assert (Last : before segs (S j) = length (flat stride segs)).
      { rewrite <- (before_all segs stride), segs_length. now rewrite Jl. }
      assert (Full : fits (offset cur) (z_stride e) = z_count e).
      { rewrite St, Cn. destruct j as [|j].
        - cbn [nth_error] in Ec, E. injection Ec as <-. injection E as <- <-.
          pose proof (t_end _ _ _ _ _ T) as [Z|[Z|Z]].
          + now rewrite Z, N.sub_0_r.
          + symmetry in Jl; apply length_zero_iff_nil in Jl; congruence.
          + exfalso. unfold before in Q. cbn [firstn fold_right] in Q. unfold fits in *. unfold before in Lt, C. cbn [firstn fold_right] in Lt, C. lia.
        - cbn [nth_error] in Ec. destruct (seg_block _ _ _ E) as (b & Eb' & _ & ->). congruence. }
      rewrite Full, Nat.eqb_refl. split; [reflexivity|]. lia.
Qed.

(** Back to the last item of the batch before. *)
Lemma zprev_at (W : (off mod stride = 0)%N) e j : at_batch e j ->
  match j with
  | 0 => zprev bs e = Some (e, None)
  | S i => exists e', zprev bs e = Some (e', nth_error xs (before segs j - 1)) /\ at_batch e' i /\ before segs i + z_index e' = before segs j - 1
  end.
Proof.
  intros H. pose proof H as (p & n & E & R & P & St & B & L & Lt & C & Ix). unfold zprev. rewrite B. destruct j as [|i].
  - reflexivity.
  - assert (Li : i < length segs) by (assert (S i < length segs) by (apply nth_error_Some; congruence); lia).
    apply nth_error_Some in Li. destruct (nth_error segs i) as [[p' n']|] eqn:E'; [|congruence]. clear Li.
    pose proof (seg_pos _ _ _ E') as Pos. pose proof (before_S _ _ _ _ E') as BS.
    destruct (Nat.eqb_spec (before segs (S i)) 0); [lia|]. rewrite R. cbv beta match. replace (m + S i) with (S (m + i)) by lia.
    rewrite (block_at i).
    assert (exists b, nth_error (k :: rest) i = Some b /\
      (if before segs (S i) <? fits (offset b) (z_stride e)
       then ((base b + N.of_nat (fits (offset b) (z_stride e) - before segs (S i)) * z_stride e)%N, before segs (S i))
       else (base b, fits (offset b) (z_stride e))) = (p', n')) as (b & Eb & Q).
    { rewrite St. destruct i as [|i].
      - exists k. split; [reflexivity|]. rewrite BS. cbn [nth_error] in E'. injection E' as <- <-. unfold before. cbn [firstn fold_right].
        rewrite Nat.add_0_l. pose proof (t_stride _ _ _ _ _ T) as SP.  pose proof (t_start _ _ _ _ _ T) as ST.
        assert (Off : off = (stride * (off / stride))%N) by (pose proof (N.div_mod off stride ltac:(lia)); lia).
        assert (Fi : fits (offset k) stride = (fits (offset k - off) stride + N.to_nat (off / stride))%nat).
        { unfold fits. replace (offset k) with (offset k - off + (off / stride) * stride)%N at 1 by lia. rewrite N.div_add by lia. lia. }
        destruct (Nat.ltb_spec (fits (offset k - off) stride) (fits (offset k) stride)) as [Q|Q].
        + f_equal. rewrite Fi. replace (fits (offset k - off) stride + N.to_nat (off / stride) - fits (offset k - off) stride) with (N.to_nat (off / stride)) by lia.
          rewrite N2Nat.id. lia.
        + assert (off / stride = 0)%N as Z by lia. rewrite Z in Off. f_equal; lia.
      - destruct (seg_block _ _ _ E') as (b & Eb & -> & ->). exists b. split; [exact Eb|].
        destruct (Nat.ltb_spec (before segs (S (S i))) (fits (offset b) stride)); [lia|reflexivity]. }
    rewrite Eb. cbv beta match. rewrite Q.
    match goal with |- exists e', Some (?v, _) = _ /\ _ => set (e1 := v) end.
    assert (A : at_batch e1 i).
    { exists p', n'. unfold e1. cbn [z_ref z_ptr z_count z_stride z_index z_before z_limit]. repeat split; auto; lia. }
    exists e1. rewrite (at_result _ _ A). assert (I' : before segs i + z_index e1 = before segs (S i) - 1) by (unfold e1; cbn [z_index]; lia).
    rewrite I'. auto.
Qed.

Lemma while_prev (W : (off mod stride = 0)%N) : forall j e fuel, at_batch e j -> j < fuel ->
  exists e', zwhile fuel (zprev bs) e = Some e' /\ at_batch e' 0.
Proof.
  induction j as [|j IH]; intros e fuel H F; (destruct fuel as [|fuel]; [lia|]); cbn [zwhile]; pose proof (zprev_at W _ _ H) as Z.
  - rewrite Z. cbv beta match. eauto.
  - destruct Z as (e' & Z & H' & I). rewrite Z. cbv beta match.
    destruct (nth_error xs (before segs (S j) - 1)) as [x|] eqn:V.
    + apply IH; [exact H'|lia].
    + pose proof (at_pos _ _ H'). apply nth_error_None in V. lia.
Qed.

Lemma while_next : forall d j e fuel, at_batch e j -> j + d = S (length rest) -> d < fuel ->
  exists e' j', zwhile fuel (znext bs) e = Some e' /\ at_batch e' j' /\ before segs j' + z_count e' = length xs.
Proof.
  induction d as [|d IH]; intros j e fuel H D F; (destruct fuel as [|fuel]; [lia|]); cbn [zwhile].
  - exfalso. destruct H as (p & n & E & _). assert (j < length segs) by (apply nth_error_Some; congruence). rewrite segs_length in *. lia.
  - destruct (znext_at _ _ H) as [(e' & Z & H' & I & B)|[Z Q]]; rewrite Z; cbv beta match.
    + pose proof (at_pos _ _ H') as P. rewrite I, Nat.add_0_r in P. destruct (nth_error xs (before segs (S j))) as [x|] eqn:V.
      * apply (IH (S j)); [exact H'|lia|lia].
      * apply nth_error_None in V. lia.
    + eauto.
Qed.

Definition zrel (e : zenum) (c : cursor) : Prop :=
  exists j, at_batch e j /\ match c with Some i => i = before segs j + z_index e | None => True end.

Lemma zsim (WH : (off mod stride = 0)%N) e c a : zrel e c -> client_ok xs c a -> exists e', zstep bs e a = Some (e', value xs (move xs c a)) /\ zrel e' (move xs c a).
Proof.
  intros (j & H & HC) OK. pose proof (at_pos _ _ H) as Pos. pose proof H as (p & n & E & R & P & St & B & L & Lt & C & Ix).
  assert (J : j < S (length rest)) by (rewrite <- segs_length; apply nth_error_Some; congruence).
  assert (BL : length bs = m + S (length rest)) by (unfold bs, m; rewrite app_length; reflexivity).
  assert (XL : length xs =? 0 = false) by (apply Nat.eqb_neq; lia).
  unfold zstep. destruct a.
  - (* current *) destruct c as [i|].
    + cbn [move value]. destruct (Nat.eqb_spec (z_count e) 0); [lia|]. subst i. rewrite (at_value_ _ _ _ H Ix). eexists. split; [reflexivity|]. exists j. auto.
    + cbn [client_ok] in OK. rewrite OK in Pos. cbn in Pos. lia.
  - (* head *) cbn [zhandler move]. unfold first. rewrite XL. destruct (while_prev WH j e (2 + length bs) H ltac:(lia)) as (e' & W & H').
    rewrite W. cbv beta match. assert (0 < z_count e') as Q by (destruct H' as (? & ? & H'); lia).
    pose proof (at_index _ _ _ H' Q) as A. rewrite (at_result _ _ A). cbn [zindex z_index]. cbn [value].
    eexists. split; [reflexivity|]. exists 0. split; [exact A|reflexivity].
  - (* tail *) cbn [zhandler move]. rewrite XL. destruct (while_next (S (length rest) - j) j e (2 + length bs) H ltac:(lia) ltac:(lia)) as (e' & j' & W & H' & Q).
    rewrite W. cbv beta match. assert (0 < z_count e') as Q' by (destruct H' as (? & ? & H'); lia).
    pose proof (at_index _ _ (z_count e' - 1) H' ltac:(lia)) as A. rewrite (at_result _ _ A). cbn [zindex z_index]. cbn [value].
    replace (before segs j' + (z_count e' - 1)) with (length xs - 1) by lia.
    eexists. split; [reflexivity|]. exists j'. split; [exact A|]. cbn [z_index zindex]. lia.
  - (* next *) destruct c as [i|]; [|destruct OK]. cbn [move]. destruct (Nat.eqb_spec (z_count e) 0); [lia|].
    destruct (Nat.ltb_spec (z_index e + 1) (z_count e)) as [Q|Q].
    + pose proof (at_value_ _ _ _ H Q) as V. assert (before segs j + (z_index e + 1) < length xs) by (apply nth_error_Some; congruence).
      destruct (Nat.ltb_spec (S i) (length xs)); [|lia]. cbn [value]. subst i.
      replace (S (before segs j + z_index e)) with (before segs j + (z_index e + 1)) by lia. rewrite V.
      eexists. split; [reflexivity|]. exists j. split; [exact (at_index _ _ _ H Q)|reflexivity].
    + cbn [zhandler]. destruct (znext_at _ _ H) as [(e' & Z & H' & I & B')|[Z Q']].
      * pose proof (at_pos _ _ H') as P'. rewrite I, Nat.add_0_r in P'. destruct (Nat.ltb_spec (S i) (length xs)); [|lia].
        exists e'. cbn [value]. replace (S i) with (before segs (S j)) by lia. split; [exact Z|]. exists (S j). split; [exact H'|lia].
      * destruct (Nat.ltb_spec (S i) (length xs)); [lia|]. exists e. split; [exact Z|]. exists j. auto.
  - (* previous *) destruct c as [i|]; [|destruct OK]. destruct (Nat.eqb_spec (z_count e) 0); [lia|].
    destruct (Nat.ltb_spec 0 (z_index e)) as [Q|Q].
    + destruct i as [|i]; [lia|]. cbn [move value]. replace i with (before segs j + (z_index e - 1)) by lia.
      rewrite (at_value_ _ _ (z_index e - 1) H ltac:(lia)). eexists. split; [reflexivity|]. exists j.
      split; [exact (at_index _ _ (z_index e - 1) H ltac:(lia))|reflexivity].
    + cbn [zhandler]. pose proof (zprev_at WH _ _ H) as Z. destruct j as [|j].
      * unfold before in HC. cbn [firstn fold_right] in HC. destruct i; [|lia]. cbn [move value]. exists e. split; [exact Z|]. exists 0. auto.
      * destruct Z as (e' & Z & H' & I'). pose proof (at_pos _ _ H') as P'. destruct H' as (p' & n' & E' & H'').
        pose proof (before_S _ _ _ _ E') as BS. pose proof (seg_pos _ _ _ E').
        destruct i as [|i]; [lia|]. cbn [move value]. exists e'. replace i with (before segs (S j) - 1) by lia. split; [exact Z|].
        exists j. split; [exists p', n'; auto|]. lia.
Qed.

(** Going on does not need the offset to be a number of strides. *)
Lemma znext_sim e i : zrel e (Some i) -> exists e', zstep bs e Next = Some (e', value xs (move xs (Some i) Next)) /\ zrel e' (move xs (Some i) Next).
Proof.
  intros (j & H & HC). pose proof (at_pos _ _ H) as Pos. pose proof H as (p & n & E & R & P & St & B & L & Lt & C & Ix).
  unfold zstep. cbn [move]. destruct (Nat.eqb_spec (z_count e) 0); [lia|].
  destruct (Nat.ltb_spec (z_index e + 1) (z_count e)) as [Q|Q].
  - pose proof (at_value_ _ _ _ H Q) as V. assert (before segs j + (z_index e + 1) < length xs) by (apply nth_error_Some; congruence).
    destruct (Nat.ltb_spec (S i) (length xs)); [|lia]. cbn [value]. subst i.
    replace (S (before segs j + z_index e)) with (before segs j + (z_index e + 1)) by lia. rewrite V.
    eexists. split; [reflexivity|]. exists j. split; [exact (at_index _ _ _ H Q)|reflexivity].
  - cbn [zhandler]. destruct (znext_at _ _ H) as [(e' & Z & H' & I & B')|[Z Q']].
    + pose proof (at_pos _ _ H') as P'. rewrite I, Nat.add_0_r in P'. destruct (Nat.ltb_spec (S i) (length xs)); [|lia].
      exists e'. cbn [value]. replace (S i) with (before segs (S j)) by lia. split; [exact Z|]. exists (S j). split; [exact H'|lia].
    + destruct (Nat.ltb_spec (S i) (length xs)); [lia|]. exists e. split; [exact Z|]. exists j. auto.
Qed.

Lemma zvisit : forall d i e fuel, zrel e (Some i) -> i + d = length xs -> d <= fuel ->
  visit (zstep bs) fuel e Next (nth_error xs i) = Some (skipn i xs).
Proof.
  induction d as [|d IH]; intros i e fuel R D F; (assert (Pos : i < length xs) by (destruct R as (j & A & ->); exact (at_pos _ _ A))); [lia|].
  destruct fuel as [|fuel]; [lia|]. destruct (nth_error xs i) as [x|] eqn:X; [|apply nth_error_None in X; lia]. cbn [visit].
  destruct (znext_sim e i R) as (e' & E & R'). rewrite E. cbv beta match. cbn [move value] in *.
  assert (SK : forall (l : list N) n y, nth_error l n = Some y -> skipn n l = y :: skipn (S n) l).
  { clear. induction l as [|a t IH]; intros n y E; destruct n; try discriminate; [injection E as ->; reflexivity|]. exact (IH n y E). }
  rewrite (SK _ _ _ X). destruct (Nat.ltb_spec (S i) (length xs)) as [Q|Q].
  - cbn [value]. rewrite (IH (S i) e' fuel R') by lia. reflexivity.
  - rewrite (skipn_all2 xs) by lia. destruct fuel; reflexivity.
Qed.

End Zone.

(** ** An enumerable of no items *)
Definition none_rel (e : zenum) (c : cursor) : Prop := z_count e = 0 /\ z_before e = 0 /\ z_limit e = 0 /\ c = None.

Lemma none_sim bs e c a : none_rel e c -> client_ok [] c a ->
  exists e', zstep bs e a = Some (e', value [] (move [] c a)) /\ none_rel e' (move [] c a).
Proof.
  intros (C & B & L & ->) OK. unfold zstep, zhandler. rewrite C. cbn [Nat.eqb]. destruct a; cbn [move value first length Nat.eqb client_ok] in *; try tauto.
  - exists e. unfold none_rel. auto.
  - cbn [Nat.add zwhile]. unfold zprev. rewrite B. cbn [Nat.eqb]. unfold zresult. cbn [zindex z_count z_index]. rewrite C. cbn [Nat.leb].
    eexists. split; [reflexivity|]. unfold none_rel. cbn. auto.
  - cbn [Nat.add zwhile]. unfold znext. rewrite B, C, L. cbn [Nat.add Nat.eqb]. unfold zresult. cbn [zindex z_count z_index]. rewrite C. cbn [Nat.leb].
    eexists. split; [reflexivity|]. unfold none_rel. cbn. auto.
Qed.

(** ** Making one *)
Lemma zcreate_at lead pre k off stride rest count : (0 < stride)%N -> (off < offset k)%N ->
  zcreate (lead ++ pre ++ k :: rest) (length lead) (used pre + off) stride count
  = Some (mkZenum (Some (length lead + length pre)) (base k + off) (Nat.min (fits (offset k - off) stride) count) stride 0 0 count).
Proof.
  intros P H. unfold zcreate. destruct (N.eqb_spec stride 0); [lia|]. rewrite skipn_app, skipn_all, Nat.sub_diag. cbn [skipn app].
  now rewrite get_pointer_at.
Qed.

Lemma zone_create lead pre k off stride rest count : onward k off stride rest count -> 0 < count ->
  exists e, zcreate (lead ++ pre ++ k :: rest) (length lead) (used pre + off) stride count = Some e /\
    zrel (lead ++ pre) k off stride rest count e (Some 0).
Proof.
  intros T C. pose proof (t_stride _ _ _ _ _ T) as P. pose proof (t_start _ _ _ _ _ T) as ST. rewrite zcreate_at by lia.
  eexists. split; [reflexivity|]. pose proof (fits_pos lead k off stride rest count T (offset k - off) ltac:(lia)) as F. exists 0. split.
  - exists (base k + off)%N, (fits (offset k - off) stride). cbn [nth_error z_ref z_ptr z_count z_stride z_index z_before z_limit].
    unfold before. cbn [firstn fold_right]. rewrite app_length. repeat split; auto; try lia.
  - reflexivity.
Qed.

Lemma zone_enumerates lead pre k off stride rest count : tidy k off stride rest count ->
  exists e, zcreate (lead ++ pre ++ k :: rest) (length lead) (used pre + off) stride count = Some e /\
    enumerates (zstep (lead ++ pre ++ k :: rest)) (firstn count (items k off stride rest)) e.
Proof.
  intros [T W]. pose proof (t_stride _ _ _ _ _ T) as P. pose proof (t_start _ _ _ _ _ T) as ST. destruct count as [|c].
  - rewrite zcreate_at by lia. eexists. split; [reflexivity|]. cbn [firstn].
    apply (sim_enumerates _ _ none_rel (none_sim _)). unfold none_rel, first. cbn. rewrite Nat.min_0_r. auto.
  - destruct (zone_create lead pre k off stride rest (S c) T ltac:(lia)) as (e & E & R). exists e. split; [exact E|].
    rewrite app_assoc. apply (sim_enumerates _ _ (zrel (lead ++ pre) k off stride rest (S c))).
    + intros. now apply zsim.
    + unfold first. destruct (Nat.eqb_spec (length (firstn (S c) (items k off stride rest))) 0) as [Z|Z]; [|exact R].
      destruct R as (j & A & _). pose proof (at_pos _ _ _ _ _ _ _ _ A). lia.
Qed.

Lemma zone_onward lead pre k off stride rest count fuel : onward k off stride rest count ->
  length (firstn count (items k off stride rest)) <= fuel ->
  exists e, zcreate (lead ++ pre ++ k :: rest) (length lead) (used pre + off) stride count = Some e /\
    loop (zstep (lead ++ pre ++ k :: rest)) fuel e Current Next = Some (firstn count (items k off stride rest)).
Proof.
  intros T F. pose proof (t_stride _ _ _ _ _ T) as P. pose proof (t_start _ _ _ _ _ T) as ST. destruct count as [|c].
  - rewrite zcreate_at by lia. eexists. split; [reflexivity|]. unfold loop. cbn [zstep z_count firstn]. rewrite Nat.min_0_r. cbn [Nat.eqb].
    destruct fuel; reflexivity.
  - destruct (zone_create lead pre k off stride rest (S c) T ltac:(lia)) as (e & E & R). exists e. split; [exact E|].
    pose proof R as (j & A & I). pose proof (at_pos _ _ _ _ _ _ _ _ A) as Pos. pose proof A as (p & n & _ & _ & _ & _ & _ & _ & _ & _ & Ix).
    unfold loop. cbn [zstep]. destruct (Nat.eqb_spec (z_count e) 0); [lia|]. cbv beta match.
    rewrite <- (at_value_ _ _ _ _ _ _ _ _ _ A Ix). rewrite <- I. rewrite app_assoc.
    rewrite (zvisit (lead ++ pre) k off stride rest (S c) T (length (firstn (S c) (items k off stride rest))) 0 e fuel R) by lia.
    reflexivity.
Qed.

(** ** Growing *)
Definition segments (k : block) (off stride : N) (rest : list block) : list (N * nat) :=
  ((base k + off)%N, fits (offset k - off) stride) :: map (fun b => (base b, fits (offset b) stride)) rest.

Lemma before_app a b : before (a ++ b) (length a) = fold_right (fun s n => snd s + n) 0 a.
Proof. unfold before. rewrite firstn_app, firstn_all, Nat.sub_diag. cbn [firstn]. now rewrite app_nil_r. Qed.

Lemma sum_from : forall (l : list (N * nat)) n, fold_right (fun s m => snd s + m) n l = fold_right (fun s m => snd s + m) 0 l + n.
Proof. induction l as [|s t IH]; intros n; cbn [fold_right]; [lia|]. rewrite (IH n). lia. Qed.

(** At the end of the last block. *)
Lemma at_end lead k off stride rest limit e : onward k off stride rest limit ->
  length (items k off stride rest) < limit ->
  zrel lead k off stride rest limit e (Some (length (firstn limit (items k off stride rest)) - 1)) ->
  zstep (lead ++ k :: rest) e Next = Some (e, None) /\
  at_batch lead k off stride rest limit e (length rest) /\ z_index e + 1 = z_count e /\
  before (segments k off stride rest) (length rest) + z_count e = length (items k off stride rest).
Proof.
  intros T L (j & A & I). fold (segments k off stride rest) in I.
  pose proof (at_pos _ _ _ _ _ _ _ _ A) as P. fold (segments k off stride rest) in P.
  assert (XL : length (firstn limit (items k off stride rest)) = length (items k off stride rest)) by (rewrite firstn_length; lia).
  rewrite XL in *. rewrite (items_flat k off stride rest) in *. fold (segments k off stride rest) in *.
  destruct (znext_at lead k off stride rest limit T e j A) as [(e' & Z & A' & I' & B')|[Z Q]].
  - exfalso. fold (segments k off stride rest) in *. pose proof (at_pos _ _ _ _ _ _ _ _ A') as P'. fold (segments k off stride rest) in P'.
    destruct A as (p & n & E & _ & _ & _ & _ & _ & _ & C & Ix). rewrite items_flat in P'. fold (segments k off stride rest) in P'.
    assert (length (firstn limit (flat stride (segments k off stride rest))) = length (flat stride (segments k off stride rest))) by (rewrite firstn_length; lia).
    lia.
  - fold (segments k off stride rest) in *. rewrite items_flat in Q. fold (segments k off stride rest) in Q.
    assert (F : length (firstn limit (flat stride (segments k off stride rest))) = length (flat stride (segments k off stride rest))) by (rewrite firstn_length; lia).
    rewrite F in Q. pose proof A as (p & n & E & _ & _ & _ & _ & _ & Lt & C & Ix). fold (segments k off stride rest) in *.
    assert (J : j < length (segments k off stride rest)) by (apply nth_error_Some; congruence).
    assert (SL : length (segments k off stride rest) = S (length rest)) by (unfold segments; cbn [length]; now rewrite map_length).
    assert (j = length rest) as ->.
    { destruct (Nat.eq_dec j (length rest)) as [|Nq]; [assumption|exfalso].
      assert (J' : S j < length (segments k off stride rest)) by lia. apply nth_error_Some in J'.
      destruct (nth_error (segments k off stride rest) (S j)) as [[p' n']|] eqn:E'; [|congruence].
      pose proof (seg_pos lead k off stride rest limit T _ _ _ E'). pose proof (before_S _ _ _ _ E') as B1. pose proof (before_S _ _ _ _ E) as B2.
      pose proof (before_le (segments k off stride rest) stride (S (S j))). lia. }
    repeat split; auto; try lia.
    unfold zstep. destruct (Nat.eqb_spec (z_count e) 0); [lia|]. destruct (Nat.ltb_spec (z_index e + 1) (z_count e)); [lia|]. exact Z.
Qed.

(** The last of the blocks, the one the enumerable is in, has grown. *)
Lemma grow_step lead k off stride rest k' rest' limit e pre p n n' cur :
  onward k' off stride rest' limit ->
  segments k off stride rest = pre ++ [(p, n)] -> segments k' off stride rest' = pre ++ [(p, n')] -> n < n' ->
  length rest = length pre -> length rest' = length pre ->
  nth_error (k' :: rest') (length pre) = Some cur -> fits (offset cur) stride = n' ->
  length (items k' off stride rest') <= limit ->
  at_batch lead k off stride rest limit e (length rest) -> z_index e + 1 = z_count e -> z_count e = n ->
  exists e', zstep (lead ++ k' :: rest') e Next = Some (e', nth_error (firstn limit (items k' off stride rest')) (length (items k off stride rest))) /\
    zrel lead k' off stride rest' limit e' (Some (length (items k off stride rest))).
Proof.
  intros T S1 S2 Hn L1 L2 Ec Ef Lim A Ix Cn.
  destruct A as (p0 & n0 & E & R & P & St & B & L & Lt & C & Ix'). fold (segments k off stride rest) in *. rewrite L1 in *. rewrite S1 in *.
  assert (p0 = p /\ n0 = n) as [-> ->].
  { rewrite nth_error_app2, Nat.sub_diag in E by lia. cbn [nth_error] in E. injection E as <- <-. auto. }
  set (q := fold_right (fun s m => snd s + m) 0 pre) in *. rewrite before_app in *. fold q in B, Lt, C.
  assert (It : length (items k off stride rest) = q + n).
  { rewrite items_flat. fold (segments k off stride rest). rewrite S1, flat_length, fold_right_app. cbn [fold_right snd].
    unfold q. clear. induction pre as [|s t IH]; cbn [fold_right]; lia. }
  assert (It' : length (items k' off stride rest') = q + n').
  { rewrite items_flat. fold (segments k' off stride rest'). rewrite S2, flat_length, fold_right_app. cbn [fold_right snd].
    unfold q. clear. induction pre as [|s t IH]; cbn [fold_right]; lia. }
  unfold zstep, zhandler. destruct (Nat.eqb_spec (z_count e) 0); [lia|]. destruct (Nat.ltb_spec (z_index e + 1) (z_count e)); [lia|].
  unfold znext. rewrite B, L, R, St, P. destruct (Nat.eqb_spec (q + z_count e) limit); [lia|].
  rewrite (block_at lead k' rest' (length pre)), Ec.
  replace (S (length lead + length pre)) with (length lead + S (length pre)) by lia. rewrite (block_at lead k' rest' (S (length pre))).
  cbn [nth_error]. destruct (nth_error rest' (length pre)) as [x|] eqn:X; [exfalso; assert (length pre < length rest') by (apply nth_error_Some; congruence); lia|].
  rewrite Ef. destruct (Nat.eqb_spec n' (z_count e)); [lia|].
  match goal with |- exists e', Some (?v, _) = _ /\ _ => set (e1 := v) end.
  assert (A1 : at_batch lead k' off stride rest' limit e1 (length pre)).
  { exists p, n'. fold (segments k' off stride rest'). rewrite S2, before_app. fold q. unfold e1.
    cbn [z_ref z_ptr z_count z_stride z_index z_before z_limit]. rewrite nth_error_app2, Nat.sub_diag by lia. repeat split; auto; lia. }
  assert (I1 : before (segments k' off stride rest') (length pre) + z_index e1 = q + n).
  { rewrite S2, before_app. fold q. unfold e1. cbn [z_index]. lia. }
  exists e1. rewrite (at_result _ _ _ _ _ _ _ _ A1). fold (segments k' off stride rest'). rewrite I1, It. split; [reflexivity|].
  exists (length pre). split; [exact A1|]. fold (segments k' off stride rest'). lia.
Qed.

Lemma skipn_nth {A} : forall (l : list A) i x, nth_error l i = Some x -> skipn i l = x :: skipn (S i) l.
Proof.
  induction l as [|a t IH]; intros i x E; destruct i as [|i]; try discriminate.
  - injection E as ->. reflexivity.
  - cbn [nth_error] in E. change (skipn (S i) (a :: t)) with (skipn i t). rewrite (IH i x E). reflexivity.
Qed.

Lemma nexts_to lead k off stride rest limit : onward k off stride rest limit -> forall d i e,
  let xs := firstn limit (items k off stride rest) in
  zrel lead k off stride rest limit e (Some i) -> i + d = length xs - 1 -> i < length xs ->
  exists e', nexts (lead ++ k :: rest) d e = Some (e', map Some (skipn (S i) xs)) /\ zrel lead k off stride rest limit e' (Some (length xs - 1)).
Proof.
  intros T. induction d as [|d IH]; intros i e xs R D L; cbn [nexts].
  - exists e. rewrite skipn_all2 by lia. split; [reflexivity|]. now replace (length xs - 1) with i by lia.
  - destruct (znext_sim lead k off stride rest limit T e i R) as (e1 & E1 & R1). fold xs in E1, R1. cbn [move] in *.
    destruct (Nat.ltb_spec (S i) (length xs)); [|lia]. rewrite E1.
    destruct (IH (S i) e1 R1 ltac:(fold xs; lia) ltac:(fold xs; lia)) as (e2 & E2 & R2). fold xs in E2, R2. rewrite E2.
    exists e2. split; [|exact R2]. cbn [value]. do 2 f_equal. destruct (nth_error xs (S i)) as [x|] eqn:X; [|apply nth_error_None in X; lia].
    rewrite (skipn_nth _ _ _ X). reflexivity.
Qed.
