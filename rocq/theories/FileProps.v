(** C64: file handles. C65: regular and virtual files. C66: copying a file. *)
From Verif Require Import Base FileModel FileSpec FileProofs.
Local Open Scope N_scope.

(** ** C64 *)

Theorem c64_read : forall t n o f, t <> HWrite -> pos f < 2 ^ 63 -> len (bytes f) < 2 ^ 63 ->
  let data := part (bytes f) (pos f) n in
  read t n o f = (true, data, mkFile (bytes f) (moved o (pos f) (len data))).
Proof. intros t n o f. cbv zeta. apply read_ok. Qed.
Print Assumptions c64_read.

Theorem c64_overwrite : forall t data o f, t <> HRead -> pos f + len data < 2 ^ 63 ->
  write t data o f = (true, mkFile (overwritten (bytes f) (pos f) data) (moved o (pos f) (len data))).
Proof. exact write_ok. Qed.
Print Assumptions c64_overwrite.

(** What was written is what is read. *)
Theorem c64_read_back : forall data o f, pos f + len data < 2 ^ 63 -> len (bytes f) < 2 ^ 63 ->
  exists f', write HUpdate data Preserve f = (true, f') /\
  read HUpdate (len data) o f' = (true, data, mkFile (bytes f') (moved o (pos f) (len data))).
Proof.
  intros data o [b p] H Hl. cbn [bytes pos] in *. rewrite write_ok; [|discriminate|exact H]. eexists. split; [reflexivity|]. cbn [bytes pos moved].
  assert (Ep : part (overwritten b p data) p (len data) = data).
  { unfold part, overwritten. destruct data as [|d data]; [reflexivity|]. set (D := d :: data). assert (Lb : len (before b p) = p) by (unfold before; rewrite len_app, len_take, len_zeros; lia).
    rewrite drop_app by (symmetry; exact Lb). apply take_app. reflexivity. }
  rewrite read_ok; cbn [bytes pos]; [rewrite Ep; reflexivity|discriminate|lia|]. unfold overwritten. destruct data as [|d data]; [exact Hl|]. rewrite !len_app, len_drop. unfold before. rewrite len_app, len_take, len_zeros. lia.
Qed.
Print Assumptions c64_read_back.

(** Inserting in a regular file, exactly. [B] is the size of the chunks the rest of the file is moved in. *)
Theorem c64_insert_exactly : forall fuel block data o f,
  0 < block -> pos f <= len (bytes f) -> (N.to_nat (len (bytes f)) < fuel)%nat -> 9 * (len (bytes f) + block + len data) < 2 ^ 62 ->
  let B := N.max block (len data) in let R := drop (pos f) (bytes f) in
  exists k, insert fuel block HUpdate data o f =
    Some (true, mkFile (take (pos f) (bytes f) ++ data ++ (if len R <=? B then R else take B R ++ take (k * B) (drop (len data) R))) (moved o (pos f) (len data))) /\
    len R <= B + k * B /\ (k = 0 \/ k * B < len R).
Proof.
  intros fuel block data o [b p] Hb Lp F Bd. cbn [bytes pos] in *. cbv zeta.
  assert (L1 : len (take p b) = p) by (rewrite len_take; lia). pose proof (len_drop p b) as L2.
  destruct (insert_ok fuel block data o (take p b) (drop p b) Hb ltac:(lia) ltac:(lia)) as (k & E & H). exists k. rewrite take_drop, L1 in E. split; [exact E|exact H].
Qed.
Print Assumptions c64_insert_exactly.

(** It is right if the rest fits in a block, or what is inserted fills one. *)
Theorem c64_insert_partial : forall fuel block data o f,
  0 < block -> pos f <= len (bytes f) -> (N.to_nat (len (bytes f)) < fuel)%nat -> 9 * (len (bytes f) + block + len data) < 2 ^ 62 ->
  len (bytes f) - pos f <= block \/ block <= len data ->
  insert fuel block HUpdate data o f = Some (true, mkFile (inserted (bytes f) (pos f) data) (moved o (pos f) (len data))).
Proof.
  intros fuel block data o f Hb Lp F Bd H. destruct (c64_insert_exactly fuel block data o f Hb Lp F Bd) as (k & E & K1 & K2). rewrite E. f_equal. f_equal. f_equal. clear E. rewrite len_drop in *.
  assert (Ei : inserted (bytes f) (pos f) data = take (pos f) (bytes f) ++ data ++ drop (pos f) (bytes f)).
  { unfold inserted, before. replace (pos f - len (bytes f)) with 0 by lia. rewrite zeros_0, app_nil_r. destruct data; [cbn [app]; rewrite take_drop|]; reflexivity. }
  rewrite Ei. f_equal. f_equal. destruct (N.leb_spec (len (bytes f) - pos f) (N.max block (len data))) as [L|L]; [reflexivity|].
  destruct H as [H|H]; [lia|]. replace (N.max block (len data)) with (len data) in * by lia. rewrite (take_all (k * len data)); [apply take_drop|]. rewrite !len_drop. lia.
Qed.
Print Assumptions c64_insert_partial.

(** Otherwise bytes are repeated and the file gets too long; and past the end of the file, inserting never ends. *)
Theorem c64_insert_refuted :
  insert 20 4 HUpdate [100] Preserve (mkFile [1; 2; 3; 4; 5; 6; 7; 8; 9; 10] 1) = Some (true, mkFile [1; 100; 2; 3; 4; 5; 3; 4; 5; 6; 7; 8; 9; 10] 1) /\
  inserted [1; 2; 3; 4; 5; 6; 7; 8; 9; 10] 1 [100] = [1; 100; 2; 3; 4; 5; 6; 7; 8; 9; 10] /\
  forall block data o f, len (bytes f) < pos f -> pos f + len data < 2 ^ 63 -> forall fuel, insert fuel block HUpdate data o f = None.
Proof. split; [vm_compute; reflexivity|]. split; [vm_compute; reflexivity|]. intros block data o f L B fuel. apply insert_forever; assumption. Qed.
Print Assumptions c64_insert_refuted.

(** Removing *)
Theorem c64_remove_partial : forall fuel block count f,
  0 < block -> pos f <= len (bytes f) -> (N.to_nat (len (bytes f)) <= fuel)%nat -> 3 * len (bytes f) + block < 2 ^ 62 ->
  remove fuel block HUpdate count Preserve f = Some (true, mkFile (removed (bytes f) (pos f) count) (pos f)).
Proof.
  intros fuel block count [b p] Hb Lp F Bd. cbn [bytes pos] in *. change (2 ^ 62) with 4611686018427387904 in Bd.
  assert (L1 : len (take p b) = p) by (rewrite len_take; lia). pose proof (len_drop p b) as L2.
  destruct (remove_ok fuel block count Preserve (take p b) (drop p b) Hb ltac:(change (2 ^ 62) with 4611686018427387904; lia) ltac:(lia)) as (q & E). rewrite take_drop, L1 in E. rewrite E.
  unfold finish. rewrite set_offset_ok by (change (2 ^ 63) with 9223372036854775808; lia). cbn [bytes]. unfold removed. rewrite drop_drop. reflexivity.
Qed.
Print Assumptions c64_remove_partial.

(** With FSBehaviourUpdateOffset the offset skips as many bytes as were removed, and removing everything (SIZE_MAX) from the
    start of the file removes it but reports a failure. *)
Theorem c64_remove_refuted :
  remove 20 4 HUpdate 2 Update (mkFile [1; 2; 3; 4; 5; 6] 1) = Some (true, mkFile [1; 4; 5; 6] 3) /\
  remove 20 4 HUpdate (2 ^ 64 - 1) Update (mkFile [1; 2; 3] 0) = Some (false, mkFile [] 0) /\
  remove 20 4 HUpdate (2 ^ 64 - 1) Update (mkFile [1; 2; 3] 2) = Some (true, mkFile [1; 2] 1).
Proof. repeat split; vm_compute; reflexivity. Qed.
Print Assumptions c64_remove_refuted.

(** A handle that is not for reading, writing, or updating refuses to, and the file is left alone. *)
Theorem c64_refused : forall fuel block n data o f,
  read HWrite n o f = (false, [], f) /\ write HRead data o f = (false, f) /\
  (forall t, t <> HUpdate -> insert fuel block t data o f = Some (false, f) /\ remove fuel block t n o f = Some (false, f)).
Proof. intros fuel block n data o f. split; [reflexivity|]. split; [reflexivity|]. intros [| |] H; try congruence; split; reflexivity. Qed.
Print Assumptions c64_refused.

(** The operations at a given offset are those at the current one; with FSBehaviourPreserveOffset the offset stays. *)
Theorem c64_from_offset_partial : forall t n data offset o f, pos f < 2 ^ 63 -> offset + len data < 2 ^ 63 -> len (bytes f) < 2 ^ 63 ->
  let stays := match o with Preserve => fun _ => pos f | Update => fun k => offset + k end in
  (t <> HWrite -> read_from t offset n o f = (true, part (bytes f) offset n, mkFile (bytes f) (stays (len (part (bytes f) offset n))))) /\
  (t <> HRead -> write_from t offset data o f = (true, mkFile (overwritten (bytes f) offset data) (stays (len data)))).
Proof.
  intros t n data offset o f Hp Ho Hl. cbv zeta. split; intros Ht.
  - unfold read_from. rewrite set_offset_ok by lia. rewrite read_ok; [|exact Ht|cbn [pos]; lia|exact Hl]. cbn [bytes pos go_back]. destruct o; cbn [moved]; [rewrite set_offset_ok by lia|]; reflexivity.
  - unfold write_from. rewrite set_offset_ok by lia. rewrite write_ok; [|exact Ht|cbn [pos]; lia]. cbn [bytes pos go_back]. destruct o; cbn [moved]; [rewrite set_offset_ok by lia|]; reflexivity.
Qed.
Print Assumptions c64_from_offset_partial.

(** With FSBehaviourUpdateOffset, the offset goes on by the count all the same. *)
Theorem c64_remove_update_partial : forall fuel block count f,
  0 < block -> pos f <= len (bytes f) -> (N.to_nat (len (bytes f)) <= fuel)%nat -> 3 * len (bytes f) + block < 2 ^ 62 -> pos f + count < 2 ^ 63 ->
  remove fuel block HUpdate count Update f = Some (true, mkFile (removed (bytes f) (pos f) count) (pos f + count)).
Proof.
  intros fuel block count [b p] Hb Lp F Bd Hc. cbn [bytes pos] in *. change (2 ^ 62) with 4611686018427387904 in Bd. change (2 ^ 63) with 9223372036854775808 in Hc.
  assert (L1 : len (take p b) = p) by (rewrite len_take; lia). pose proof (len_drop p b) as L2.
  destruct (remove_ok fuel block count Update (take p b) (drop p b) Hb ltac:(change (2 ^ 62) with 4611686018427387904; lia) ltac:(lia)) as (q & E). rewrite take_drop, L1 in E. rewrite E.
  unfold finish, word. rewrite N.mod_small by (change (2 ^ 64) with 18446744073709551616; lia).
  rewrite set_offset_ok by (change (2 ^ 63) with 9223372036854775808; lia). cbn [bytes]. unfold removed. rewrite drop_drop. reflexivity.
Qed.
Print Assumptions c64_remove_update_partial.

(** Inserting and removing at a given offset. *)
Theorem c64_change_from_offset_partial : forall fuel block data count offset o f,
  0 < block -> offset <= len (bytes f) -> (N.to_nat (len (bytes f)) < fuel)%nat -> 9 * (len (bytes f) + block + len data) < 2 ^ 62 -> pos f < 2 ^ 63 ->
  (len (bytes f) - offset <= block \/ block <= len data ->
   insert_from fuel block HUpdate offset data o f =
     Some (true, mkFile (inserted (bytes f) offset data) (match o with Preserve => pos f | Update => offset + len data end))) /\
  (o = Preserve \/ offset + count < 2 ^ 63 ->
   remove_from fuel block HUpdate offset count o f =
     Some (true, mkFile (removed (bytes f) offset count) (match o with Preserve => pos f | Update => offset + count end))).
Proof.
  intros fuel block data count offset o [b p] Hb Lp F Bd Hp. cbn [bytes pos] in *. assert (Ho : offset < 2 ^ 63) by (change (2 ^ 62) with 4611686018427387904 in Bd; change (2 ^ 63) with 9223372036854775808; lia).
  assert (Bd' : 3 * len b + block < 2 ^ 62) by (change (2 ^ 62) with 4611686018427387904 in *; lia).
  unfold insert_from, remove_from. rewrite set_offset_ok by exact Ho. cbn [bytes pos]. split; intros H.
  - rewrite c64_insert_partial by assumption. cbn [bytes pos]. destruct o; cbn [go_back moved]; [rewrite set_offset_ok by exact Hp|]; reflexivity.
  - destruct o.
    + rewrite c64_remove_partial by (cbn [bytes pos]; first [assumption|lia]). cbn [bytes pos go_back]. rewrite set_offset_ok by exact Hp. reflexivity.
    + destruct H as [H|H]; [discriminate|]. rewrite c64_remove_update_partial by (cbn [bytes pos]; first [assumption|lia]). reflexivity.
Qed.
Print Assumptions c64_change_from_offset_partial.

(** An operation at a given offset that is refused moves the offset all the same. *)
Theorem c64_from_offset_refuted : forall n data offset f, offset < 2 ^ 63 ->
  read_from HWrite offset n Preserve f = (false, [], mkFile (bytes f) offset) /\ write_from HRead offset data Preserve f = (false, mkFile (bytes f) offset).
Proof. intros n data offset f H. unfold read_from, write_from. rewrite set_offset_ok by exact H. split; reflexivity. Qed.
Print Assumptions c64_from_offset_refuted.

Example handles_apply : let f := mkFile [1; 2; 3; 4; 5; 6; 7; 8; 9; 10] 3 in
  read HRead 4 Update f = (true, [4; 5; 6; 7], mkFile (bytes f) 7) /\ write HWrite [0; 0] Preserve f = (true, mkFile [1; 2; 3; 0; 0; 6; 7; 8; 9; 10] 3) /\
  write HUpdate [9] Update (mkFile [1; 2] 4) = (true, mkFile [1; 2; 0; 0; 9] 5) /\
  insert 20 8 HUpdate [0; 0] Update f = Some (true, mkFile [1; 2; 3; 0; 0; 4; 5; 6; 7; 8; 9; 10] 5) /\
  insert 20 2 HUpdate [0; 0] Update f = Some (true, mkFile [1; 2; 3; 0; 0; 4; 5; 6; 7; 8; 9; 10] 5) /\
  remove 20 2 HUpdate 3 Preserve f = Some (true, mkFile [1; 2; 3; 7; 8; 9; 10] 3) /\
  remove 20 2 HUpdate 3 Update f = Some (true, mkFile [1; 2; 3; 7; 8; 9; 10] 6) /\
  insert_from 20 2 HUpdate 1 [0; 0] Preserve f = Some (true, mkFile [1; 0; 0; 2; 3; 4; 5; 6; 7; 8; 9; 10] 3) /\
  remove_from 20 2 HUpdate 1 8 Update f = Some (true, mkFile [1; 10] 9).
Proof. repeat split; vm_compute; reflexivity. Qed.

(** ** C65 *)

Theorem c65_read_and_write : forall junk t n data o f, (forall n, len (junk n) = n) -> pos f + len data < 2 ^ 63 -> len (bytes f) < 2 ^ 63 ->
  v_read t n o f = read t n o f /\ v_write junk t data o f = write t data o f.
Proof.
  intros junk t n data o f J Hp Hl. split.
  - destruct t; [| reflexivity |]; rewrite v_read_ok, read_ok; try discriminate; try lia; reflexivity.
  - destruct t; [reflexivity| |]; rewrite v_write_ok, write_ok; try discriminate; try lia; try exact J; reflexivity.
Qed.
Print Assumptions c65_read_and_write.

Theorem c65_insert_partial : forall junk fuel block data o f,
  0 < block -> pos f < len (bytes f) -> (N.to_nat (len (bytes f)) < fuel)%nat -> 9 * (len (bytes f) + block + len data) < 2 ^ 62 ->
  v_insert junk HUpdate data o f = (true, mkFile (inserted (bytes f) (pos f) data) (moved o (pos f) (len data))) /\
  (len (bytes f) - pos f <= block \/ block <= len data -> insert fuel block HUpdate data o f = Some (v_insert junk HUpdate data o f)).
Proof.
  intros junk fuel block data o f Hb Lp F Bd. assert (E : v_insert junk HUpdate data o f = (true, mkFile (inserted (bytes f) (pos f) data) (moved o (pos f) (len data)))).
  { apply v_insert_ok; [exact Lp|]. change (2 ^ 62) with 4611686018427387904 in Bd. change (2 ^ 63) with 9223372036854775808. lia. }
  split; [exact E|]. intros H. rewrite E. apply c64_insert_partial; try assumption; lia.
Qed.
Print Assumptions c65_insert_partial.

(** Inserting at the end of a virtual file, or past it, writes the data twice, with as many bytes in between that were never set. *)
Theorem c65_insert_refuted : forall junk data o f, len (bytes f) <= pos f -> data <> [] -> (forall n, len (junk n) = n) -> pos f + len data < 2 ^ 63 ->
  v_insert junk HUpdate data o f = (true, mkFile (before (bytes f) (pos f) ++ data ++ junk (len data) ++ data) (moved o (pos f) (len data))).
Proof. exact v_insert_end. Qed.
Print Assumptions c65_insert_refuted.

Theorem c65_remove_partial : forall fuel block count o f,
  0 < block -> pos f <= len (bytes f) -> (N.to_nat (len (bytes f)) <= fuel)%nat -> 3 * len (bytes f) + block < 2 ^ 62 -> o = Preserve \/ word (pos f + count) < 2 ^ 63 ->
  remove fuel block HUpdate count o f = Some (v_remove HUpdate count o f) /\ bytes (snd (v_remove HUpdate count o f)) = removed (bytes f) (pos f) count.
Proof.
  intros fuel block count o [b p] Hb Lp F Bd Ho. cbn [bytes pos] in *. change (2 ^ 62) with 4611686018427387904 in Bd. rewrite v_remove_ok. split; [|reflexivity]. cbn [bytes pos].
  assert (L1 : len (take p b) = p) by (rewrite len_take; lia). pose proof (len_drop p b) as L2.
  destruct (remove_ok fuel block count o (take p b) (drop p b) Hb ltac:(change (2 ^ 62) with 4611686018427387904; lia) ltac:(lia)) as (q & E). rewrite take_drop, L1 in E. rewrite E.
  unfold finish. rewrite set_offset_ok by (destruct o; [change (2 ^ 63) with 9223372036854775808; lia|destruct Ho; [discriminate|assumption]]). cbn [bytes]. unfold removed. rewrite drop_drop. destruct o; reflexivity.
Qed.
Print Assumptions c65_remove_partial.

Example virtual_applies : let junk := fun n => repeat 99 (N.to_nat n) in
  v_write junk HUpdate [7] Update (mkFile [1; 2] 4) = (true, mkFile [1; 2; 0; 0; 7] 5) /\
  v_insert junk HUpdate [7] Update (mkFile [1; 2] 1) = (true, mkFile [1; 7; 2] 2) /\
  v_insert junk HUpdate [7] Update (mkFile [1; 2] 2) = (true, mkFile [1; 2; 7; 99; 7] 3) /\
  v_remove HUpdate 5 Preserve (mkFile [1; 2; 3] 1) = (true, mkFile [1] 1).
Proof. repeat split; vm_compute; reflexivity. Qed.

(** ** C66 *)

(** The copy is the source, with what the destination had beyond its length. *)
Theorem c66_copy_exactly : forall fuel block source dest, 0 < block -> 2 * len source + block < 2 ^ 62 -> (N.to_nat (len source) < fuel)%nat ->
  copy_file fuel block source dest = Some (true, source ++ drop (len source) (match dest with Some d => d | None => [] end)).
Proof. exact copy_file_ok. Qed.
Print Assumptions c66_copy_exactly.

Theorem c66_copy_partial : forall fuel block source dest, 0 < block -> 2 * len source + block < 2 ^ 62 -> (N.to_nat (len source) < fuel)%nat ->
  (copy_file fuel block source dest = Some (true, source) <-> match dest with Some d => len d <= len source | None => True end).
Proof.
  intros fuel block source dest Hb Bd F. rewrite copy_file_ok by assumption. split.
  - intros E. injection E as E. assert (L : len (drop (len source) match dest with Some d => d | None => [] end) = 0) by (assert (len (source ++ drop (len source) match dest with Some d => d | None => [] end) = len source) by (rewrite E; reflexivity); rewrite len_app in *; lia).
    rewrite len_drop in L. destruct dest; [lia|exact I].
  - intros H. rewrite drop_all; [rewrite app_nil_r; reflexivity|]. destruct dest; [exact H|rewrite len_nil; lia].
Qed.
Print Assumptions c66_copy_partial.

Theorem c66_copy_refuted : copy_file 10 2 [1; 2; 3] (Some [4; 5; 6; 7; 8]) = Some (true, [1; 2; 3; 7; 8]).
Proof. vm_compute. reflexivity. Qed.
Print Assumptions c66_copy_refuted.

Example copy_applies : copy_file 10 2 [1; 2; 3; 4; 5] (Some [9; 9]) = Some (true, [1; 2; 3; 4; 5]) /\ copy_file 10 2 [1; 2; 3] None = Some (true, [1; 2; 3]).
Proof. split; vm_compute; reflexivity. Qed.
