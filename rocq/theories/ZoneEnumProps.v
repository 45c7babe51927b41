(** C100: enumerating the memory of a zone. *)
From Verif Require Import Base EnumerableModel EnumerableSpec EnumerableProofs ZoneModel ZoneEnumModel ZoneEnumSpec ZoneEnumProofs.
Local Open Scope N_scope.

(** Asked for [count] items from some byte after a block of the zone ([lead] are the blocks before that one, [skipped] the
    blocks the offset passes over, [k] the block it falls in), the enumerable visits the first [count] items of that block
    and of those after it, in order, however the client moves about. *)
Theorem c100_enumerates_partial : forall lead skipped k off stride rest count, tidy k off stride rest count ->
  exists e, zcreate (lead ++ skipped ++ k :: rest) (length lead) (used skipped + off) stride count = Some e /\
    enumerates (zstep (lead ++ skipped ++ k :: rest)) (firstn count (items k off stride rest)) e.
Proof. exact zone_enumerates. Qed.
Print Assumptions c100_enumerates_partial.

(** So the loops users write visit them all, forwards and backwards. *)
Theorem c100_loops_partial : forall lead skipped k off stride rest count fuel, tidy k off stride rest count ->
  let bs := lead ++ skipped ++ k :: rest in
  let wanted := firstn count (items k off stride rest) in
  (length wanted <= fuel)%nat ->
  exists e, zcreate bs (length lead) (used skipped + off) stride count = Some e /\
    loop (zstep bs) fuel e Current Next = Some wanted /\
    loop (zstep bs) fuel e Head Next = Some wanted /\
    loop (zstep bs) fuel e Tail Previous = Some (rev wanted).
Proof.
  intros lead skipped k off stride rest count fuel T bs wanted F. destruct (zone_enumerates lead skipped k off stride rest count T) as (e & E & H).
  exists e. split; [exact E|]. now apply enumerates_loops.
Qed.
Print Assumptions c100_loops_partial.

(** Going on alone visits them from an offset that is not a number of strides as well. *)
Theorem c100_onward_partial : forall lead skipped k off stride rest count fuel, onward k off stride rest count ->
  let bs := lead ++ skipped ++ k :: rest in
  let wanted := firstn count (items k off stride rest) in
  (length wanted <= fuel)%nat ->
  exists e, zcreate bs (length lead) (used skipped + off) stride count = Some e /\ loop (zstep bs) fuel e Current Next = Some wanted.
Proof. exact zone_onward. Qed.
Print Assumptions c100_onward_partial.

(** Every item visited lies in the memory in use of one of the blocks. *)
Theorem c100_inside : forall k off stride rest count x, 0 < stride -> off <= offset k -> In x (firstn count (items k off stride rest)) ->
  exists b, In b (k :: rest) /\ base b <= x /\ x + stride <= base b + offset b.
Proof.
  intros k off stride rest count x P O H. assert (H' : In x (items k off stride rest)).
  { rewrite <- (firstn_skipn count). apply in_or_app. now left. }
  assert (G : forall p size, In x (items_at p size stride) -> p <= x /\ x + stride <= p + size).
  { intros p size I. unfold items_at, addresses in I. apply in_map_iff in I. destruct I as (i & <- & I). apply in_seq in I.
    split; [lia|]. assert (N.of_nat i + 1 <= size / stride) by lia.
    assert ((N.of_nat i + 1) * stride <= size / stride * stride) by (apply N.mul_le_mono_r; lia).
    pose proof (N.mul_div_le size stride ltac:(lia)). lia. }
  unfold items in H'. apply in_app_or in H'. destruct H' as [I|I].
  - apply G in I. exists k. split; [now left|]. lia.
  - apply in_flat_map in I. destruct I as (b & Ib & I). apply G in I. exists b. split; [now right|]. lia.
Qed.
Print Assumptions c100_inside.

(** Beginning in the middle of the last block and asking for more than there is, the enumeration runs on past the end of
    the memory in use. *)
Theorem c100_past_end_refuted : exists z o e,
  run (create 16 1000) [Alloc 8 None] = Some (z, o) /\ rev (blocks z) = [mkBlock 1000 8] /\
  zcreate (rev (blocks z)) 0 4 4 5 = Some e /\
  firstn 5 (items (mkBlock 1000 8) 4 4 []) = [1004] /\
  loop (zstep (rev (blocks z))) 9 e Current Next = Some [1004; 1008].
Proof. do 3 eexists. repeat split; vm_compute; reflexivity. Qed.
Print Assumptions c100_past_end_refuted.

(** A block too small for an item ends the enumeration, whatever the blocks after it hold. *)
Theorem c100_short_refuted : exists z o e,
  run (create 16 1000) [Alloc 16 None; Alloc 2 (Some 2000); Alloc 16 (Some 3000)] = Some (z, o) /\
  rev (blocks z) = [mkBlock 1000 16; mkBlock 2000 2; mkBlock 3000 16] /\
  zcreate (rev (blocks z)) 0 0 8 4 = Some e /\
  firstn 4 (items (mkBlock 1000 16) 0 8 [mkBlock 2000 2; mkBlock 3000 16]) = [1000; 1008; 3000; 3008] /\
  loop (zstep (rev (blocks z))) 9 e Current Next = Some [1000; 1008].
Proof. do 3 eexists. repeat split; vm_compute; reflexivity. Qed.
Print Assumptions c100_short_refuted.

(** From an offset that is not a whole number of strides, coming back gives other pointers than going forth. *)
Theorem c100_back_refuted : exists z o e,
  run (create 16 1000) [Alloc 9 None; Alloc 8 (Some 2000)] = Some (z, o) /\
  rev (blocks z) = [mkBlock 1000 9; mkBlock 2000 8] /\
  zcreate (rev (blocks z)) 0 1 4 4 = Some e /\
  loop (zstep (rev (blocks z))) 9 e Current Next = Some [1001; 1005; 2000; 2004] /\
  loop (zstep (rev (blocks z))) 9 e Tail Previous = Some [2004; 2000; 1004; 1000].
Proof. do 3 eexists. repeat split; vm_compute; reflexivity. Qed.
Print Assumptions c100_back_refuted.

(** From an offset past the end of the zone there is nothing to visit, but asking for the last item dereferences NULL. *)
Theorem c100_nothing : forall bs k off stride count, 0 < stride -> used (skipn k bs) <= off ->
  exists e, zcreate bs k off stride count = Some e /\
    zstep bs e Current = Some (e, None) /\ zstep bs e Next = Some (e, None) /\ zstep bs e Previous = Some (e, None) /\
    zstep bs e Head = Some (e, None) /\ zstep bs e Tail = (if Nat.eqb count 0 then Some (e, None) else None).
Proof.
  intros bs k off stride count P H. unfold zcreate. destruct (N.eqb_spec stride 0); [lia|].
  assert (G : forall l i o, used l <= o -> get_pointer l i o = None).
  { induction l as [|b t IH]; intros i o L; [reflexivity|]. cbn [get_pointer used fold_right] in *. fold (used t) in L.
    destruct (N.ltb_spec o (offset b)); [lia|]. apply IH. lia. }
  rewrite (G _ k off H). unfold fits. rewrite N.div_0_l by lia. cbn [N.to_nat Nat.min]. eexists. split; [reflexivity|].
  repeat split; try reflexivity. destruct count; reflexivity.
Qed.
Print Assumptions c100_nothing.

(** When the last block grows by at least an item and no more is asked for than there then is, the enumeration that had
    come to the end goes on with the items added. *)
Theorem c100_grow_partial : forall lead skipped k off stride rest b more count,
  let b' := mkBlock (base b) (offset b + more) in
  let bs := lead ++ skipped ++ k :: rest ++ [b] in
  let bs' := lead ++ skipped ++ k :: rest ++ [b'] in
  let old := items k off stride (rest ++ [b]) in
  let new := items k off stride (rest ++ [b']) in
  tidy k off stride (rest ++ [b]) count -> offset b / stride < (offset b + more) / stride -> (length new <= count)%nat ->
  exists e0 e1 e2,
    zcreate bs (length lead) (used skipped + off) stride count = Some e0 /\
    nexts bs (length old - 1) e0 = Some (e1, map Some (tl old)) /\
    zstep bs e1 Next = Some (e1, None) /\
    zstep bs' e1 Next = Some (e2, nth_error new (length old)) /\
    forall acts, history_ok (zstep bs') new e2 (Some (length old)) acts.
Proof.
  intros lead skipped k off stride rest b more count b' bs bs' old new [T W] G L.
  assert (SB : segments k off stride (rest ++ [b]) = segments k off stride rest ++ [(base b, fits (offset b) stride)])
    by (unfold segments; rewrite map_app; reflexivity).
  assert (SB' : segments k off stride (rest ++ [b']) = segments k off stride rest ++ [(base b, fits (offset b + more) stride)])
    by (unfold segments; rewrite map_app; reflexivity).
  assert (SL : length (segments k off stride rest) = S (length rest)) by (unfold segments; cbn [length]; now rewrite map_length).
  assert (Fg : (fits (offset b) stride < fits (offset b + more) stride)%nat) by (unfold fits; lia).
  assert (LL : (length old < length new)%nat).
  { unfold old, new. rewrite !items_flat. fold (segments k off stride (rest ++ [b])). fold (segments k off stride (rest ++ [b'])).
    rewrite SB, SB'. unfold flat. rewrite !flat_map_app, !app_length. cbn [flat_map fst snd]. rewrite !app_nil_r, !addresses_length. lia. }
  assert (Fo : firstn count old = old) by (apply firstn_all2; lia).
  assert (Fn : firstn count new = new) by (apply firstn_all2; lia).
  assert (T' : onward k off stride (rest ++ [b']) count).
  { destruct T as [t1 t2 t4 t5]. constructor; auto.
    - apply Forall_app in t4. destruct t4 as [t4 t6]. apply Forall_app. split; [exact t4|]. inversion t6; subst. constructor; [|constructor].
      unfold b'. cbn [offset]. lia.
    - right. left. destruct rest; discriminate. }
  destruct (zone_create lead skipped k off stride (rest ++ [b]) count T ltac:(lia)) as (e0 & E0 & R0).
  assert (Lo : (0 < length old)%nat).
  { destruct R0 as (j & A & _). pose proof (at_pos _ _ _ _ _ _ _ _ A) as P0. fold old in P0. rewrite Fo in P0. lia. }
  destruct (nexts_to (lead ++ skipped) k off stride (rest ++ [b]) count T (length old - 1) 0 e0 R0) as (e1 & E1 & R1);
    fold old; rewrite ?Fo; try lia. fold old in E1, R1. rewrite Fo in E1, R1.
  destruct (at_end (lead ++ skipped) k off stride (rest ++ [b]) count e1 T) as (Z & A & Ix & Q).
  { fold old. lia. } { fold old. rewrite Fo. exact R1. }
  rewrite <- app_assoc in E1, Z. fold bs in E1, Z.
  assert (Len : length (rest ++ [b]) = length (segments k off stride rest)) by (rewrite SL, app_length; cbn [length]; lia).
  assert (Cn : z_count e1 = fits (offset b) stride).
  { fold old in Q. rewrite SB, Len, before_app in Q. unfold old in Q. rewrite items_flat in Q. fold (segments k off stride (rest ++ [b])) in Q.
    rewrite SB in Q. rewrite flat_length, fold_right_app in Q. cbn [fold_right snd] in Q. clear - Q.
    rewrite (sum_from _ (fits (offset b) stride + 0)%nat) in Q. lia. }
  destruct (grow_step (lead ++ skipped) k off stride (rest ++ [b]) k (rest ++ [b']) count e1 (segments k off stride rest) (base b)
    (fits (offset b) stride) (fits (offset b + more) stride) b' T' SB SB' Fg) as (e2 & E2 & R2); auto.
  { rewrite SL, app_length. cbn [length]. lia. }
  { rewrite SL. cbn [nth_error]. rewrite nth_error_app2, Nat.sub_diag by lia. reflexivity. }
  fold old new in E2, R2. rewrite Fn in E2. rewrite <- app_assoc in E2. fold bs' in E2.
  exists e0, e1, e2. split; [exact E0|]. split; [|split; [exact Z|split; [exact E2|]]].
  - rewrite E1. destruct old; reflexivity.
  - intros acts. rewrite <- Fn. unfold bs'. rewrite app_assoc.
    apply (sim_history _ _ (zrel (lead ++ skipped) k off stride (rest ++ [b']) count)); [|exact R2].
    intros. now apply zsim.
Qed.
Print Assumptions c100_grow_partial.

(** The same when the first block is the last one and is visited from its beginning. *)
Theorem c100_grow_one_partial : forall lead skipped b stride more count,
  let b' := mkBlock (base b) (offset b + more) in
  let bs := lead ++ skipped ++ [b] in
  let bs' := lead ++ skipped ++ [b'] in
  let old := items b 0 stride [] in
  let new := items b' 0 stride [] in
  0 < stride <= offset b -> offset b / stride < (offset b + more) / stride -> (length new <= count)%nat ->
  exists e0 e1 e2,
    zcreate bs (length lead) (used skipped) stride count = Some e0 /\
    nexts bs (length old - 1) e0 = Some (e1, map Some (tl old)) /\
    zstep bs e1 Next = Some (e1, None) /\
    zstep bs' e1 Next = Some (e2, nth_error new (length old)) /\
    forall acts, history_ok (zstep bs') new e2 (Some (length old)) acts.
Proof.
  intros lead skipped b stride more count b' bs bs' old new P G L.
  assert (T : onward b 0 stride [] count) by (constructor; auto; lia).
  assert (T' : onward b' 0 stride [] count) by (constructor; unfold b'; cbn [offset]; auto; lia).
  assert (SB : segments b 0 stride [] = [] ++ [(base b + 0, fits (offset b) stride)]) by (unfold segments; now rewrite N.sub_0_r).
  assert (SB' : segments b' 0 stride [] = [] ++ [(base b + 0, fits (offset b + more) stride)])
    by (unfold segments, b'; cbn [offset base]; now rewrite N.sub_0_r).
  assert (Fg : (fits (offset b) stride < fits (offset b + more) stride)%nat) by (unfold fits; lia).
  assert (Lo : length old = fits (offset b) stride).
  { unfold old, items, items_at. cbn [flat_map]. rewrite app_nil_r, addresses_length, N.sub_0_r. reflexivity. }
  assert (Ln : length new = fits (offset b + more) stride).
  { unfold new, items, items_at, b'. cbn [flat_map offset]. rewrite app_nil_r, addresses_length, N.sub_0_r. reflexivity. }
  assert (Fo : firstn count old = old) by (apply firstn_all2; lia).
  assert (Fn : firstn count new = new) by (apply firstn_all2; lia).
  destruct (zone_create lead skipped b 0 stride [] count T ltac:(lia)) as (e0 & E0 & R0). rewrite N.add_0_r in E0.
  assert (Po : (0 < length old)%nat).
  { destruct R0 as (j & A & _). pose proof (at_pos _ _ _ _ _ _ _ _ A) as P0. fold old in P0. rewrite Fo in P0. lia. }
  destruct (nexts_to (lead ++ skipped) b 0 stride [] count T (length old - 1) 0 e0 R0) as (e1 & E1 & R1);
    fold old; rewrite ?Fo; try lia. fold old in E1, R1. rewrite Fo in E1, R1.
  destruct (at_end (lead ++ skipped) b 0 stride [] count e1 T) as (Z & A & Ix & Q).
  { fold old. lia. } { fold old. rewrite Fo. exact R1. }
  rewrite <- app_assoc in E1, Z. fold bs in E1, Z.
  assert (Cn : z_count e1 = fits (offset b) stride).
  { fold old in Q. unfold before in Q. cbn [length firstn fold_right] in Q. lia. }
  destruct (grow_step (lead ++ skipped) b 0 stride [] b' [] count e1 [] (base b + 0)
    (fits (offset b) stride) (fits (offset b + more) stride) b' T' SB SB' Fg) as (e2 & E2 & R2); auto.
  fold old new in E2, R2. rewrite Fn in E2. rewrite <- app_assoc in E2. fold bs' in E2.
  exists e0, e1, e2. split; [exact E0|]. split; [|split; [exact Z|split; [exact E2|]]].
  - rewrite E1. destruct old; reflexivity.
  - intros acts. rewrite <- Fn. unfold bs'. rewrite app_assoc.
    apply (sim_history _ _ (zrel (lead ++ skipped) b' 0 stride [] count)); [|exact R2].
    intros. now apply zsim.
Qed.
Print Assumptions c100_grow_one_partial.

Example c100_grow_one_ex : 0 < 4 <= offset (mkBlock 1000 8) /\ 8 / 4 < (8 + 8) / 4 /\ items (mkBlock 1000 (8 + 8)) 0 4 [] = [1000; 1004; 1008; 1012].
Proof. cbn; repeat split; lia. Qed.

(** The zone may grow meanwhile, but what is added to the block being visited is passed over once there is another
    block, and more items than were asked for are visited when the last block grows. *)
Theorem c100_grow_refuted : exists z1 z2 z3 o1 o2 o3 e e1 e2 e3 e4,
  run (create 16 1000) [Alloc 8 None] = Some (z1, o1) /\
  run z1 [Alloc 8 None] = Some (z2, o2) /\ run z2 [Alloc 4 (Some 2000)] = Some (z3, o3) /\
  zcreate (rev (blocks z1)) 0 0 4 10 = Some e /\
  nexts (rev (blocks z1)) 2 e = Some (e1, [Some 1004; None]) /\
  zstep (rev (blocks z3)) e1 Next = Some (e2, Some 2000) /\
  firstn 10 (items (mkBlock 1000 16) 0 4 [mkBlock 2000 4]) = [1000; 1004; 1008; 1012; 2000] /\
  zcreate (rev (blocks z1)) 0 0 4 3 = Some e3 /\
  loop (zstep (rev (blocks z1))) 9 e3 Current Next = Some [1000; 1004] /\
  (let? (e, _) := nexts (rev (blocks z1)) 2 e3 in nexts (rev (blocks z2)) 3 e) = Some (e4, [Some 1008; Some 1012; None]).
Proof. do 11 eexists. repeat split; vm_compute; reflexivity. Qed.
Print Assumptions c100_grow_refuted.

(** The hypotheses hold of the zone of CommonCTests/MemoryZoneTests.m testEnumerable: 11 items of 4 bytes in blocks of
    16, from the third on; the offset also counts from an earlier block. *)
Example c100_ex : tidy (mkBlock 1000 16) 8 4 [mkBlock 2000 16; mkBlock 3000 12] 11 /\
  firstn 11 (items (mkBlock 1000 16) 8 4 [mkBlock 2000 16; mkBlock 3000 12])
    = [1008; 1012; 2000; 2004; 2008; 2012; 3000; 3004; 3008] /\
  tidy (mkBlock 2000 16) 8 4 [mkBlock 3000 12] 2 /\ used [mkBlock 1000 16] + 8 = 24 /\
  firstn 2 (items (mkBlock 2000 16) 8 4 [mkBlock 3000 12]) = [2008; 2012].
Proof.
  repeat split; try reflexivity; try (repeat (apply Forall_cons; [cbn; lia|]); apply Forall_nil); try (cbn; lia); right; left; discriminate.
Qed.

Example c100_ex_run : exists z o e,
  run (create 16 1000) [Alloc 16 None; Alloc 16 (Some 2000); Alloc 12 (Some 3000)] = Some (z, o) /\
  zcreate (rev (blocks z)) 0 24 4 4 = Some e /\
  loop (zstep (rev (blocks z))) 9 e Current Next = Some [2008; 2012; 3000; 3004] /\
  loop (zstep (rev (blocks z))) 9 e Tail Previous = Some [3004; 3000; 2012; 2008].
Proof. do 3 eexists. repeat split; vm_compute; reflexivity. Qed.

Example c100_nothing_ex : used (skipn 1 [mkBlock 1000 16; mkBlock 2000 8]) <= 8.
Proof. vm_compute. discriminate. Qed.

Example c100_grow_ex : tidy (mkBlock 1000 16) 8 4 [mkBlock 2000 16; mkBlock 3000 4] 50 /\ 4 / 4 < (4 + 8) / 4 /\
  items (mkBlock 1000 16) 8 4 [mkBlock 2000 16; mkBlock 3000 12] = [1008; 1012; 2000; 2004; 2008; 2012; 3000; 3004; 3008].
Proof.
  repeat split; try reflexivity; try (repeat (apply Forall_cons; [cbn; lia|]); apply Forall_nil); try (cbn; lia); right; left; discriminate.
Qed.

Example c100_onward_ex : onward (mkBlock 1000 9) 1 4 [mkBlock 2000 8] 4 /\
  firstn 4 (items (mkBlock 1000 9) 1 4 [mkBlock 2000 8]) = [1001; 1005; 2000; 2004].
Proof. repeat split; try (cbn; lia); try (repeat (apply Forall_cons; [cbn; lia|]); apply Forall_nil). right. left. discriminate. Qed.
