(** C86, C87: the custom and the callback allocator. *)
From Verif Require Import Base FnAllocModel FnAllocSpec FnAllocProofs.

(** C86: whatever a program does with blocks of custom allocators, in any order and whether or not the functions it
    passed can give it memory: each block is resized and given back with the functions it was allocated with, which get
    what they themselves returned and a size with the header, and the words of the user are theirs alone. *)
Theorem c86_custom : forall os s rs,
  run custom_spec [] os = Some (s, rs) ->
  run custom_step [] os = Some (layout custom_header s, rs).
Proof. intros os s rs. exact (run_ok custom_header custom_spec custom_step custom_step_ok os [] s rs). Qed.
Print Assumptions c86_custom.

(** C86: the memory a program gets is not aligned for every type, although what the function returned is. *)
Theorem c86_alignment_refuted : forall s d n ok m l p base,
  custom_step (layout custom_header s) (Alloc d n ok) = Some (m, l, Returned (Some p)) -> aligned base -> ~ aligned (user_address base p).
Proof.
  intros s [[[a|] r f]|] n ok m l p base E B; try discriminate E. destruct ok; [|discriminate E].
  cbn [custom_step] in E. rewrite custom_alloc_ok in E. injection E as _ _ <-. apply misaligned; [exact B|]. now left.
Qed.
Print Assumptions c86_alignment_refuted.

(** C87: the same for the callback allocator: the callback a block was allocated with, and no other, is told before and
    after each allocation and change of size and before the release, and what it stores in the size is the block's. *)
Theorem c87_callback : forall os s rs,
  run callback_spec [] os = Some (s, rs) ->
  run callback_step [] os = Some (layout callback_header s, rs).
Proof. intros os s rs. exact (run_ok callback_header callback_spec callback_step callback_step_ok os [] s rs). Qed.
Print Assumptions c87_callback.

(** C87: so a block need not have the size that was asked for. *)
Theorem c87_size_refuted :
  exists f n n' m l p,
    callback_step [] (CAlloc (Some f) n n' true) = Some (m, l, Returned (Some p)) /\
    exists i, i < n /\ callback_step m (CAccess (Write p i 0)) = None.
Proof. exists 7, 4, 2. do 3 eexists. split; [reflexivity|]. exists 2. split; [lia|reflexivity]. Qed.
Print Assumptions c87_size_refuted.

(** C87: it has when the callback leaves the size alone. *)
Theorem c87_size_partial : forall os s rs f n ok s' l p,
  run callback_spec [] os = Some (s, rs) ->
  callback_step (layout callback_header s) (CAlloc f n n ok) = Some (s', l, Returned (Some p)) ->
  forall i, i < n -> forall v, exists m, callback_step s' (CAccess (Write p i v)) = Some (m, [], Seen None).
Proof.
  intros os s rs f n ok s' l p _ E i L v.
  assert (OK : ok = true) by (destruct ok; [reflexivity|]; cbn [callback_step] in E; unfold callback_alloc, malloc in E; discriminate E).
  subst ok. cbn [callback_step] in E. rewrite callback_alloc_ok in E. injection E as <- _ <-.
  replace (changed f n n) with n by (destruct f; reflexivity).
  set (s1 := s ++ [Some (mkAblock f (repeat Unset n))]).
  exists (layout callback_header (upd s1 (length s) (Some (mkAblock f (upd (repeat Unset n) i (Value v)))))).
  cbn [callback_step]. erewrite (touch_ok callback_header 1 callback_header_length s1 (Write (length s, 1) i v)); [reflexivity|].
  cbn [user_access]. unfold user_block. cbn [fst snd Nat.eqb]. unfold find, s1 at 1.
  rewrite nth_error_app2, Nat.sub_diag by lia. cbn [nth_error words owner].
  rewrite repeat_length. destruct (Nat.ltb_spec i n); [reflexivity|lia].
Qed.
Print Assumptions c87_size_partial.

(** C87: and it is not aligned for every type either. *)
Theorem c87_alignment_refuted : forall s f n n' ok m l p base,
  callback_step (layout callback_header s) (CAlloc f n n' ok) = Some (m, l, Returned (Some p)) -> aligned base -> ~ aligned (user_address base p).
Proof.
  intros s f n n' ok m l p base E B. destruct ok; [|discriminate E].
  cbn [callback_step] in E. rewrite callback_alloc_ok in E. injection E as _ _ <-. apply misaligned; [exact B|]. now right.
Qed.
Print Assumptions c87_alignment_refuted.

(** Two custom allocators, blocks of both, one moved, one resized with the other's data, one written and read back *)
Example custom_applies :
  exists s, run custom_spec []
    [ Alloc (Some (mkFunctions (Some 1) (Some 2) (Some 3))) 2 true; Alloc (Some (mkFunctions (Some 4) (Some 5) (Some 6))) 1 true;
      Access (Write (0, 3) 1 9); Realloc (Some (mkFunctions (Some 4) (Some 5) (Some 6))) (0, 3) 4 Move; Access (Read (2, 3) 1);
      Dealloc (1, 3); Dealloc (2, 3); Alloc None 1 true ]
  = Some (s, [ ([CallAlloc 1 5], Returned (Some (0, 3))); ([CallAlloc 4 4], Returned (Some (1, 3))); ([], Seen None);
               ([CallRealloc 2 (0, 0) 7], Returned (Some (2, 3))); ([], Seen (Some (Value 9))); ([CallFree 6 (1, 0)], Freed);
               ([CallFree 3 (2, 0)], Freed); ([], Returned None) ]).
Proof. eexists. reflexivity. Qed.

Example callback_applies :
  exists s, run callback_spec []
    [ CAlloc (Some 1) 2 3 true; CRealloc (Some 5) (0, 1) 4 4 Fail; CRealloc None (0, 1) 4 6 Stay; CAccess (Write (0, 1) 5 8); CDealloc (0, 1) ]
  = Some (s, [ ([mkTold 1 AllocatePre None (Some 2); mkTold 1 AllocatePost (Some (0, 1)) (Some 3)], Returned (Some (0, 1)));
               ([mkTold 1 ReallocatePre (Some (0, 1)) (Some 4); mkTold 1 ReallocatePost None (Some 4)], Returned None);
               ([mkTold 1 ReallocatePre (Some (0, 1)) (Some 4); mkTold 1 ReallocatePost (Some (0, 1)) (Some 6)], Returned (Some (0, 1)));
               ([], Seen None); ([mkTold 1 DeallocatePre (Some (0, 1)) None], Freed) ]).
Proof. eexists. reflexivity. Qed.
