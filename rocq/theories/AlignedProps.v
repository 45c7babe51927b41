From Verif Require Import Base Word AlignedModel AlignedSpec AlignedProofs.
Local Open Scope N_scope.

(** Partial: sizes for which size + alignment + 32 does not exceed the address space; beyond that it is false,
    see below. For every power of two alignment, every address malloc and realloc return, every history of
    writes and resizes, successful or not: no call fails that the system did not fail, the user's pointer is
    aligned, both headers and the user's bytes are inside the system's block, every byte written and not cut off by a
    shrink since reads back, and the allocator's own 16 bytes in front are preserved. *)
Theorem c31_aligned_in_bounds_preserved_partial :
  forall k m n head hdr ops,
  k < 64 -> n + 2 ^ k + 32 < 2 ^ 64 -> fits head (n + 2 ^ k + 32) ->
  env_ok (2 ^ k) (mkView n (fun _ => None)) ops ->
  exists m' b s', allocate m (2 ^ k) n (Some head) hdr = Some (m', b) /\ run (mkState m' b n) ops = Some s' /\
    let v := fold_left next ops (mkView n (fun _ => None)) in
    let u := user (blk s') in
    size s' = vsize v /\
    u mod 2 ^ k = 0 /\
    head_ (blk s') + 32 <= u /\ u + size s' <= head_ (blk s') + total (blk s') /\
    (forall i b, contents v i = Some b -> i < size s' /\ memory s' (u + i) = b) /\
    (forall j, j < 16 -> memory s' (u - 16 + j) = hdr j).
Proof.
  intros k m n head hdr ops Hk Hn Hf He.
  destruct (allocate m (2 ^ k) n (Some head) hdr) as [[m' b]|] eqn:E.
  2: { exfalso. revert E. unfold allocate. rewrite wadd_id by lia. destruct (N.ltb_spec n (n + 16)); [|lia]. discriminate. }
  pose proof (allocate_inv k m n head hdr m' b Hk Hn Hf E) as Hi.
  destruct (run_inv k hdr ops _ _ Hi He) as (s' & R & [L ? Hs ? ? Hh Hd]).
  exists m', b, s'. split; [reflexivity|]. split; [exact R|]. cbv zeta. destruct L as [_ [F0 F1] ? ? ? ?].
  pose proof (pow2_pos k). unfold user. rewrite wadd_id by lia.
  split; [auto|]. split; [auto|]. split; [lia|]. split; [lia|]. split; [exact Hd|].
  intros j Hj. replace (ptr (blk s') + 16 - 16 + j) with (ptr (blk s') + j) by lia. auto.
Qed.
Print Assumptions c31_aligned_in_bounds_preserved_partial.

(** A size close to 2^64 passes CCMemoryAllocate's overflow check, but size + alignment + 16 wraps to a few
    bytes: the allocation succeeds with the user's pointer outside the system's block. *)
Theorem c31_size_wraps_refuted :
  exists m n head hdr m' b, fits head (total b) /\ n < 2 ^ 64 /\
    allocate m 16 n (Some head) hdr = Some (m', b) /\ total b = 8 /\
    head_ b + total b < user b.
Proof.
  exists (fun _ => 0), 18446744073709551576, 4096, (fun _ => 0).
  unfold allocate, alloc_aligned.
  replace (18446744073709551576 <? wadd 64 18446744073709551576 16) with true by (vm_compute; reflexivity).
  replace (place 4096 16) with 4112 by (vm_compute; reflexivity).
  replace (wadd 64 (wadd 64 (wadd 64 18446744073709551576 16) 16) 16) with 8 by (vm_compute; reflexivity).
  eexists _, _. split; [|split; [|split; [reflexivity|]]]; [split; reflexivity|reflexivity|]. split; reflexivity.
Qed.
Print Assumptions c31_size_wraps_refuted.

(** The hypotheses are met: an odd base, writes, a growth that moves the block to another residue, a failed
    resize, a shrink in place. *)
Definition hist : list op :=
  [Write 0 7; Write 9 200; Resize 100 (Some 70001) (fun _ => 13); Write 99 1; Resize 50 None (fun _ => 1); Resize 5 (Some 70001) (fun _ => 4)].
Example c31_hist_ok : env_ok (2 ^ 6) (mkView 10 (fun _ => None)) hist.
Proof. cbn. unfold fits. repeat split; intros; try discriminate; try (injection H as <-); lia. Qed.
Example c31_hist_runs : 4097 + (10 + 2 ^ 6 + 32) < 2 ^ 64 /\
  option_map (fun '(m, b) => option_map (fun s => (user (blk s), size s, memory s (user (blk s))))
               (run (mkState m b 10) hist)) (allocate (fun _ => 0) (2 ^ 6) 10 (Some 4097) (fun j => j)) = Some (Some (70080, 5, 7)).
Proof. vm_compute. split; reflexivity. Qed.
