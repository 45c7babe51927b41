(** C34: memory zones. *)
From Verif Require Import Base ZoneModel ZoneSpec ZoneProofs.
Local Open Scope N_scope.

(** Every call whose arguments keep the rules succeeds with a correct result, and after it all live memory is
    pairwise disjoint and inside the zone's blocks, for every history from a new zone. *)
Theorem c34_live_memory_disjoint_and_owned (bs addr : N) (ops : list op) :
  addr + N.max bs 16 < 2 ^ 63 -> ok (create bs addr) [] ops.
Proof. intros. apply ok_inv, create_inv. auto. Qed.
Print Assumptions c34_live_memory_disjoint_and_owned.

(** After a save, any allocations and nested saves and restores, and the matching restore, exactly the allocations
    that were live at the save are live, undisturbed. *)
Theorem c34_restore_exact (bs addr : N) (before inside : list op) g (z z' : zone) (st st' : list entry) :
  addr + N.max bs 16 < 2 ^ 63 ->
  reach (create bs addr) [] before z st ->
  balanced 0 inside ->
  reach z st (Save g :: inside ++ [Restore]) z' st' ->
  st' = st /\ memory_ok z' st.
Proof.
  intros Ha Hr Hb H. assert (Hi : inv z st) by (eapply reach_inv; eauto using create_inv).
  pose proof (restore_exact _ _ _ _ _ _ Hi Hb H) as ->. split; auto. apply inv_memory. eapply reach_inv; eauto.
Qed.
Print Assumptions c34_restore_exact.

(** The hypotheses are met: blocks of 64 bytes, an allocation that needs a second block, nested saves, an aligned
    allocation, restores and a deallocation across a block boundary. *)
Definition c34_before : list op := [Alloc 40 None; AlignedAlloc 8 16 None].
Definition c34_inside : list op := [Alloc 30 (Some 8192); Save (Some 12000); AlignedAlloc 5 8 (Some 16384); Restore; Alloc 64 (Some 20480)].

Example c34_hist_runs : option_map (fun r => (map (fun b => (base b, offset b)) (blocks (fst r)), snd r))
    (run (create 64 4096) (c34_before ++ [Save (Some 6000)] ++ c34_inside)) =
  Some ([(20480, 64); (6000, 46); (4096, 56)],
        [Ptr 4096 40; Ptr 4144 16; Ptr 6000 16; Ptr 6016 30; Ptr 6046 16; Ptr 16384 13; Done; Ptr 20480 64]).
Proof. vm_compute. reflexivity. Qed.

Ltac rules := repeat match goal with
  | |- exists k, k < 64 /\ ?a = 2 ^ k => exists (N.log2 a); split; vm_compute; reflexivity
  | |- _ /\ _ => split
  | |- fresh _ _ => let a := fresh "a" in let E := fresh "E" in intros a E; try discriminate E; injection E as <-
  | |- forall k, In k _ -> _ => let k := fresh "k" in let H := fresh "H" in
      intros k H; cbn [In blocks] in H; repeat (destruct H as [<-|H]); [..|contradiction]; cbn [base blockSize]; lia
  | |- _ <> _ => discriminate
  | |- True => exact I
  | _ => cbn [blockSize create N.ltb N.compare Pos.compare Pos.compare_cont]; lia
  end.
Ltac reach_step := eapply reach_cons; [cbn [client_ok]; rules|vm_compute; reflexivity|cbn [next before_mark]].

Example c34_history_satisfies_rules : exists z st z' st',
  reach (create 64 4096) [] c34_before z st /\ balanced 0 c34_inside /\
  reach z st (Save (Some 6000) :: c34_inside ++ [Restore]) z' st' /\
  st = [Live 4144 8 16; Live 4096 40 40].
Proof.
  eexists _, _, _, _. split; [|split; [|split]].
  - unfold c34_before. repeat reach_step. apply reach_nil.
  - exact I || reflexivity.
  - unfold c34_inside. cbn [app]. repeat reach_step. apply reach_nil.
  - reflexivity.
Qed.
