From Verif Require Import Base Word AlignedModel AlignedProofs PoolAllocModel PoolAllocSpec PoolAllocProofs.
Local Open Scope N_scope.

(** Every pool, every history: no live block is handed out again, allocation fails exactly when the request
    does not fit or every block is live, freed blocks can be had again, and no step touches freed or foreign
    memory, even after the user has let go of the pool while blocks are still live. *)
Theorem c33_blocks_handed_out_once :
  forall size a m P junk ops,
  let p := create size a m P junk in ok (blockSize p) m p start ops.
Proof. intros. apply run_ok, create_inv. Qed.
Print Assumptions c33_blocks_handed_out_once.

(** The blocks live after any history are as many as handed out, distinct, their bytes (with the bookkeeping in
    front) do not overlap, and their addresses are multiples of the alignment. *)
Theorem c33_live_blocks_disjoint_and_aligned :
  forall size k m P junk ops p' v',
  k < 64 -> size + 32 + 2 ^ k < 2 ^ 64 -> P + 80 + 8 * N.of_nat m + 2 ^ k < 2 ^ 64 ->
  reach (create size (2 ^ k) m P junk) start ops p' v' ->
  NoDup (live v') /\ (length (live v') <= m)%nat /\ size + 32 <= blockSize p' /\
  (forall i, In i (live v') -> (i < m)%nat /\ pointer p' i mod 2 ^ k = 0) /\
  (forall i j, In i (live v') -> In j (live v') -> i <> j ->
     pointer p' i + blockSize p' <= pointer p' j \/ pointer p' j + blockSize p' <= pointer p' i).
Proof.
  intros size k m P junk ops p' v' Hk Hs HP R.
  pose proof (create_inv size (2 ^ k) m P junk) as I0. pose proof (reach_inv _ _ _ _ _ _ _ I0 R) as Hi.
  destruct (reach_base _ _ _ _ _ R) as [Eb Ebs]. pose proof (inv_len _ _ _ _ Hi) as HL. rewrite app_length in HL. destruct Hi.
  cbn [create blockSize base] in Eb, Ebs.
  pose proof (pow2_pos k). rewrite wadd_id in Ebs by lia. rewrite wadd_id in Eb by lia.
  destruct (align_facts (size + 32) k Hk ltac:(lia)) as (A1 & A2 & A3).
  destruct (align_facts (P + (48 + 8 * N.of_nat m + 32)) k Hk ltac:(lia)) as (B1 & B2 & B3).
  rewrite wsub_id in Eb by lia.
  split; [now apply NoDup_app_l with (available p')|]. split; [lia|]. split; [lia|]. split.
  - intros i Hin. assert (i < count p')%nat by (apply i_in; rewrite in_app_iff; auto). split; [lia|].
    unfold pointer. rewrite Eb.
    replace (align (P + (48 + 8 * N.of_nat m + 32)) (2 ^ k) - 32 + blockSize p' * N.of_nat i + 32)
      with (align (P + (48 + 8 * N.of_nat m + 32)) (2 ^ k) + blockSize p' * N.of_nat i) by lia.
    rewrite Ebs, N.add_mod, N.mul_mod, A3, B3 by lia. reflexivity.
  - intros i j _ _ Hne. unfold pointer. generalize (blockSize p') (base p'). intros b c.
    destruct (Nat.lt_ge_cases i j); [left|right]; nia.
Qed.
Print Assumptions c33_live_blocks_disjoint_and_aligned.

(** Partial: when the first block's address needs no rounding up, every block is inside the memory created for
    the pool. Missing: the other addresses, for which it is false, see below. *)
Theorem c33_blocks_inside_pool_partial :
  forall size k m P junk ops p' v' i,
  k < 64 -> size + 32 + 2 ^ k < 2 ^ 64 -> P + 80 + 8 * N.of_nat m + 2 ^ k < 2 ^ 64 ->
  (P + 80 + 8 * N.of_nat m) mod 2 ^ k = 0 ->
  reach (create size (2 ^ k) m P junk) start ops p' v' -> In i (live v') ->
  P + 48 + 8 * N.of_nat m <= pointer p' i - 32 /\ pointer p' i + size <= P + created_bytes size (2 ^ k) m.
Proof.
  intros size k m P junk ops p' v' i Hk Hs HP H0 R Hin.
  pose proof (create_inv size (2 ^ k) m P junk) as I0. pose proof (reach_inv _ _ _ _ _ _ _ I0 R) as Hi.
  destruct (reach_base _ _ _ _ _ R) as [Eb Ebs]. pose proof (inv_len _ _ _ _ Hi) as HL. rewrite app_length in HL. destruct Hi.
  cbn [create blockSize base] in Eb, Ebs. unfold created_bytes.
  pose proof (pow2_pos k). rewrite wadd_id in Ebs by lia. rewrite wadd_id in Eb by lia. rewrite wadd_id by lia. rewrite <- Ebs.
  destruct (align_facts (size + 32) k Hk ltac:(lia)) as (A1 & A2 & A3).
  assert (E : align (P + (48 + 8 * N.of_nat m + 32)) (2 ^ k) = P + (48 + 8 * N.of_nat m + 32)).
  { rewrite align_spec by lia. replace (P + 80 + 8 * N.of_nat m) with (P + (48 + 8 * N.of_nat m + 32)) in H0 by lia.
    apply N.div_exact in H0; [|lia]. set (x := P + (48 + 8 * N.of_nat m + 32)) in *. rewrite H0 at 1.
    replace (2 ^ k * (x / 2 ^ k) + 2 ^ k - 1) with ((2 ^ k - 1) + (x / 2 ^ k) * 2 ^ k) by lia.
    rewrite N.div_add by lia. rewrite (N.div_small (2 ^ k - 1)) by lia. lia. }
  rewrite E in Eb. rewrite wsub_id in Eb by lia.
  assert (i < count p')%nat by (apply i_in; rewrite in_app_iff; auto).
  unfold pointer. rewrite Eb. generalize dependent (blockSize p'). intros b. intros. split; [lia|]. nia.
Qed.
Print Assumptions c33_blocks_inside_pool_partial.

(** One block of 32 bytes aligned to 64, the pool's memory at an address 16 beyond a multiple of 64 (as malloc and
    the 16-byte header give): the block's end is past the end of that memory. *)
Theorem c33_block_outside_pool_refuted :
  exists size k m P ops p' v' i,
    reach (create size (2 ^ k) m P (fun _ => 0%nat)) start ops p' v' /\ In i (live v') /\ P mod 16 = 0 /\
    P + created_bytes size (2 ^ k) m < pointer p' i + size.
Proof.
  exists 32, 6, 1%nat, 4112, [Alloc 32]. eexists _, _, 0%nat. split; [|split; [|split]].
  - eapply reach_cons; [cbn; lia|reflexivity|apply reach_nil].
  - now left.
  - reflexivity.
  - vm_compute. reflexivity.
Qed.
Print Assumptions c33_block_outside_pool_refuted.

(** A size close to 2^64 is not refused. *)
Theorem c33_huge_request_granted_refuted :
  exists size p', size < 2 ^ 64 /\ step (create 32 8 1 4096 (fun _ => 0%nat)) (Alloc size) = Some (p', Ptr 0) /\ blockSize p' < size.
Proof. exists 18446744073709551596. eexists. split; [reflexivity|]. split; [vm_compute; reflexivity|reflexivity]. Qed.
Print Assumptions c33_huge_request_granted_refuted.

(** A pool of two blocks: exhausted, a block freed and had again, blocks outliving the user's reference. *)
Definition hist : list op :=
  [Alloc 10; Alloc 32; Alloc 1; Free 0; Alloc 33; Realloc 1 32; Realloc 1 33; Alloc 5; Release; Free 1; Free 0].
Example c33_hist_runs :
  option_map snd (run (create 32 16 2 4096 (fun _ => 9%nat)) hist)
    = Some [Ptr 0; Ptr 1; Null; Done; Null; Ptr 1; Null; Ptr 0; Done; Done; Done].
Proof. vm_compute. reflexivity. Qed.
Example c33_hist_reaches : exists p v, reach (create 32 (2 ^ 4) 2 4096 (fun _ => 9%nat)) start hist p v /\ live v = [].
Proof.
  eexists _, _. split.
  - unfold hist. repeat (eapply reach_cons; [cbn; repeat split; try lia; auto|vm_compute; reflexivity|]). apply reach_nil.
  - reflexivity.
Qed.
