(** C72: the bounds checking allocator. *)
From Verif Require Import Base Word AlignedModel BoundsModel BoundsSpec BoundsProofs.
Local Open Scope N_scope.

(** A program that keeps to its allocation never sets off the alarm, finds its bytes as it wrote them, and gives its memory back. *)
Theorem c72_no_false_alarm : forall m n b m' p ops, given b n -> allocate m n (Some b) = Some (m', p) -> keeps_to_it (unwritten n) ops ->
  exists s, run (mkState m' p n) ops = (s, Fine) /\ sees s (fold_left next ops (unwritten n)) /\ deallocate (memory s) (ptr s) = (true, Fine).
Proof.
  intros m n b m' p ops G E K. destruct (run_inv ops _ _ (alloc_inv _ _ _ _ _ G E) K) as (s & R & I). exists s. split; [exact R|].
  destruct (checked_iff s _ (memory s) I ltac:(auto)) as (a & P & H4 & H5 & Ck). split; [now destruct I as (_ & _ & _ & _ & S1)|].
  rewrite (deallocate_is _ _ a P H4 H5). now rewrite (proj2 Ck ltac:(auto)).
Qed.
Print Assumptions c72_no_false_alarm.

(** After such a program, let any bytes anywhere be overwritten, except those the allocator needs for itself. Then the next resize
    and the deallocation set off the alarm exactly if one of the guarded bytes has changed. *)
Theorem c72_changes_noticed_partial : forall m n b m' p ops ws, given b n -> allocate m n (Some b) = Some (m', p) -> keeps_to_it (unwritten n) ops ->
  exists s s', run (mkState m' p n) ops = (s, Fine) /\ run s (writes ws) = (s', Fine) /\
    ((forall x, reserved s x -> memory s' x = memory s x) ->
     ((exists x, guarded s x /\ memory s' x <> memory s x) <-> deallocate (memory s') (ptr s') = (false, Alarm)) /\
     ((forall x, guarded s x -> memory s' x = memory s x) <-> deallocate (memory s') (ptr s') = (true, Fine)) /\
     forall k got g, k + 40 < 2 ^ 64 ->
       ((exists x, guarded s x /\ memory s' x <> memory s x) <-> snd (step s' (Resize k got g)) = Alarm) /\
       ((forall x, guarded s x -> memory s' x = memory s x) <-> snd (step s' (Resize k got g)) = Fine)).
Proof.
  intros m n b m' p ops ws G E K. destruct (run_inv ops _ _ (alloc_inv _ _ _ _ _ G E) K) as (s & R & I). destruct (run_writes ws s) as (mw & Rw).
  exists s, (mkState mw (ptr s) (size s)). split; [exact R|]. split; [exact Rw|]. cbn [memory ptr size]. intros Res.
  destruct (checked_iff s _ mw I Res) as (a & P & H4 & H5 & Ck).
  assert (No : (exists x, guarded s x /\ mw x <> memory s x) <-> checked mw a = false).
  { split.
    - intros (x & Gx & Nx). destruct (checked mw a); [|reflexivity]. exfalso. apply Nx. now apply Ck.
    - intros F. assert (D : (exists x, guarded s x /\ mw x <> memory s x) \/ forall x, guarded s x -> mw x = memory s x).
      { unfold guarded. assert (D1 : forall lo k, (exists x, lo <= x < lo + N.of_nat k /\ mw x <> memory s x) \/ forall x, lo <= x < lo + N.of_nat k -> mw x = memory s x).
        { clear. intros lo k. induction k as [|k IH]; [right; lia|]. destruct IH as [(x & Hx & Nx)|IH]; [left; exists x; split; [lia|exact Nx]|].
          destruct (N.eq_dec (mw (lo + N.of_nat k)) (memory s (lo + N.of_nat k))) as [Q|Q]; [|left; exists (lo + N.of_nat k); split; [lia|exact Q]].
          right. intros x Hx. destruct (N.eq_dec x (lo + N.of_nat k)) as [->|]; [exact Q|]. apply IH. lia. }
        destruct (D1 (ptr s - 24) 8%nat) as [(x & Hx & Nx)|A]; [left; exists x; split; [left; lia|exact Nx]|].
        destruct (D1 (ptr s + size s) 8%nat) as [(x & Hx & Nx)|B]; [left; exists x; split; [right; lia|exact Nx]|].
        right. intros x [Hx|Hx]; [apply A; lia|apply B; lia]. }
      destruct D as [D|D]; [exact D|]. apply Ck in D. congruence. }
  rewrite No, <- Ck, (deallocate_is _ _ a P H4 H5). split; [destruct (checked mw a); intuition discriminate|]. split; [destruct (checked mw a); intuition discriminate|].
  intros k got g Hk. cbn [step memory ptr size]. rewrite (reallocate_is _ _ _ a _ _ _ P H4 Hk). destruct (checked mw a); [destruct got|]; cbn [snd]; intuition discriminate.
Qed.
Print Assumptions c72_changes_noticed_partial.

(** An allocation of 24 bytes at 4096, in memory that is all zeros *)
Definition zeros : mem := fun _ => 0.
Definition small_state : state := match allocate zeros 24 (Some 4096) with Some (m, p) => mkState m p 24 | None => mkState zeros 0 0 end.

(** Writes up to 16 bytes before an allocation hit its header instead of the guard: at each of these distances but two some change
    goes unnoticed. The memory is never given back, or a function is called that was never meant. *)
Theorem c72_before_refuted : forall k, (1 <= k <= 16)%Z -> k <> 14%Z -> k <> 15%Z -> exists v s, v < 256 /\ run small_state [Write (- k) v] = (s, Fine) /\
  memory s (Z.to_N (Z.of_N (ptr small_state) - k)) <> memory small_state (Z.to_N (Z.of_N (ptr small_state) - k)) /\
  snd (deallocate (memory s) (ptr s)) <> Alarm /\ fst (deallocate (memory s) (ptr s)) = false.
Proof.
  assert (H : forall v k, v < 256 ->
    (let s := fst (run small_state [Write (- k) v]) in
     negb (memory s (Z.to_N (Z.of_N (ptr small_state) - k)) =? memory small_state (Z.to_N (Z.of_N (ptr small_state) - k))) &&
     match deallocate (memory s) (ptr s) with (false, Fine) | (false, Astray) => true | _ => false end) = true ->
    exists v s, v < 256 /\ run small_state [Write (- k) v] = (s, Fine) /\
      memory s (Z.to_N (Z.of_N (ptr small_state) - k)) <> memory small_state (Z.to_N (Z.of_N (ptr small_state) - k)) /\
      snd (deallocate (memory s) (ptr s)) <> Alarm /\ fst (deallocate (memory s) (ptr s)) = false).
  { intros v k Hv H. exists v, (fst (run small_state [Write (- k) v])). split; [exact Hv|]. split; [reflexivity|]. cbv zeta in H. apply andb_true_iff in H. destruct H as [H1 H2].
    split; [intros Q; rewrite Q, N.eqb_refl in H1; discriminate|]. destruct (deallocate _ _) as [[|] [| |]]; try discriminate; split; (discriminate || reflexivity). }
  intros k Hk K14 K15.
  assert (E : (1 <= k <= 12 \/ k = 13 \/ k = 16)%Z) by lia. destruct E as [E|[->| ->]]; [|apply (H 128); [lia|vm_compute; reflexivity]|apply (H 1); [lia|vm_compute; reflexivity]].
  assert (E' : (k = 1 \/ k = 2 \/ k = 3 \/ k = 4 \/ k = 5 \/ k = 6 \/ k = 7 \/ k = 8 \/ k = 9 \/ k = 10 \/ k = 11 \/ k = 12)%Z) by lia.
  destruct E' as [->|[->|[->|[->|[->|[->|[->|[->|[->|[->|[->| ->]]]]]]]]]]]; (apply (H 127); [lia|vm_compute; reflexivity]).
Qed.
Print Assumptions c72_before_refuted.

(** Overwriting the lowest byte of the size the allocator keeps, 32 bytes before the allocation, hides what happens after it: here
    the program keeps 0 to 7 in its memory and the check looks for the guard there. *)
Definition hiding : list op := writes [(0%Z, 0); (1%Z, 1); (2%Z, 2); (3%Z, 3); (4%Z, 4); (5%Z, 5); (6%Z, 6); (7%Z, 7); ((-32)%Z, 16); (24%Z, 99)].
Theorem c72_size_refuted : exists s, run small_state hiding = (s, Fine) /\ memory s (ptr s + 24) = 99 /\ memory small_state (ptr small_state + 24) = 0 /\
  deallocate (memory s) (ptr s) = (true, Fine).
Proof.
  exists (fst (run small_state hiding)). split; [reflexivity|]. split; [vm_compute; reflexivity|]. split; [vm_compute; reflexivity|]. vm_compute. reflexivity.
Qed.
Print Assumptions c72_size_refuted.

(** A size in the last 40 bytes below the overflow the library tests for: malloc is asked for less than the 24 bytes that lie
    around the allocation, yet the allocation is made. *)
Theorem c72_overflow_refuted : forall m b, exists n m' p, n < 2 ^ 64 /\ allocate m n (Some b) = Some (m', p) /\ asked n < 24 /\ 24 <= n.
Proof. intros m b. exists (2 ^ 64 - 17). eexists _, _. split; [reflexivity|]. split; [reflexivity|]. split; [reflexivity|discriminate]. Qed.
Print Assumptions c72_overflow_refuted.

(** Non-vacuity: an allocation that is written, moved and grown; then one byte too many is written. *)
Definition c72_program : list op := [Write 0 10; Write 23 11; Resize 32 (Some 9000) zeros; Write 31 12; Resize 8 (Some 9000) zeros; Resize 16 None zeros].
Example c72_kept : given 4096 24 /\ allocate zeros 24 (Some 4096) <> None /\ keeps_to_it (unwritten 24) c72_program.
Proof.
  assert (Z0 : forall x, zeros x < 256) by (intros x; reflexivity).
  split; [split; reflexivity|]. split; [discriminate|]. cbn [c72_program keeps_to_it next unwritten vsize].
  repeat split; try lia; try exact Z0; try (match goal with H : Some _ = Some _ |- _ => injection H as <- end; lia); try discriminate.
Qed.

Example c72_case : exists s s', run small_state c72_program = (s, Fine) /\ ptr s = 9032 /\ size s = 8 /\ memory s 9032 = 10 /\
  run s (writes [(8%Z, 1)]) = (s', Fine) /\ deallocate (memory s) (ptr s) = (true, Fine) /\ deallocate (memory s') (ptr s') = (false, Alarm).
Proof.
  exists (fst (run small_state c72_program)), (fst (run (fst (run small_state c72_program)) (writes [(8%Z, 1)]))).
  split; [reflexivity|]. split; [vm_compute; reflexivity|]. split; [vm_compute; reflexivity|]. split; [vm_compute; reflexivity|]. split; [reflexivity|]. split; vm_compute; reflexivity.
Qed.
