(** C74: the debug allocator. *)
From Coq Require Import Permutation.
From Verif Require Import Base DebugModel DebugSpec DebugProofs.
Local Open Scope N_scope.

(** Any number of threads that allocate, resize and free, in any interleaving in which no address is given out again while a resize
    from it is still in progress: no pointer is tracked twice, all allocations the program has are tracked with where
    they were made, and when no call is in progress nothing else is. *)
Theorem c74_tracks_exactly_partial : forall n ls s, run (initial n) ls s ->
  NoDup (map fst (tracked s)) /\ incl (user s) (tracked s) /\ (quiet s -> Permutation (tracked s) (user s)).
Proof.
  intros n ls s R. assert (I := run_inv _ _ _ R (initial_inv n)). split; [now apply tracked_nodup|]. split; [now apply user_tracked|]. now apply quiet_tracked.
Qed.
Print Assumptions c74_tracks_exactly_partial.

(** CCDebugAllocatorIsTracking of an allocation that is not freed or resized meanwhile answers yes, whatever else happens. *)
Theorem c74_asked_partial : forall n ls s t p i s1 ls' s2 s3 b, run (initial n) ls s -> In (p, i) (user s) ->
  step s t (Ask p) = To s1 None -> run s1 ls' s2 -> Forall (leaves p t) ls' -> step s2 t Read = To s3 (Some b) -> b = true.
Proof.
  intros n ls s t p i s1 ls' s2 s3 b R Hu Ea R' F Er. assert (I := run_inv _ _ _ R (initial_inv n)).
  assert (I1 := step_inv s t (Ask p) s1 None I Ea Logic.I). unfold step in Ea. destruct (nth_error (threads s) t) as [[| | |j0 ? ?|]|] eqn:Et; try discriminate; try (destruct j0; discriminate). destruct (p =? 0); [discriminate|]. injection Ea as <-.
  assert (A : asking (set_pc s t (Seeking ToAsk p 0)) t p i).
  { split; [exact Hu|]. right. apply (i_user _ I) in Hu. apply In_nth_error in Hu. destruct Hu as (m & Hm). exists 0%nat, m, i. split; [|split; [lia|exact Hm]]. cbn [set_pc threads]. apply nth_error_upd_eq. apply nth_error_Some. congruence. }
  destruct (asking_run _ _ _ t p i R' I1 A F) as ((Hu2 & A2) & I2). unfold step in Er. destruct A2 as [A2|(k & m & j & A2 & L & Hm)]; rewrite A2 in Er; [discriminate|].
  destruct (nth_error (entries s2) k) as [e|] eqn:Ek; [|apply nth_error_None in Ek; assert (m < length (entries s2))%nat by (apply nth_error_Some; congruence); lia].
  destruct (fst e =? p); injection Er; congruence.
Qed.
Print Assumptions c74_asked_partial.

(** Asked while nothing else happens, it answers exactly whether the program has that allocation. *)
Theorem c74_asked_alone_partial : forall n ls s t p s1 k s2 s3 b, run (initial n) ls s -> quiet s ->
  step s t (Ask p) = To s1 None -> run s1 (repeat (t, Read) k) s2 -> step s2 t Read = To s3 (Some b) -> (b = true <-> In p (map fst (user s))).
Proof.
  intros n ls s t p s1 k s2 s3 b R Q Ea R' Er. assert (I := run_inv _ _ _ R (initial_inv n)). assert (Pt := quiet_tracked s I Q).
  split.
  - intros ->. apply (Permutation_in p (Permutation_map fst Pt)).
    assert (Nz : p <> 0) by (unfold step in Ea; destruct (nth_error (threads s) t) as [[| | |j0 ? ?|]|]; try discriminate; try (destruct j0; discriminate); destruct (N.eqb_spec p 0); [discriminate|assumption]).
    assert (G : forall ls s1 s2, run s1 ls s2 -> (forall x, In x ls -> x = (t, Read)) -> (nth_error (threads s1) t = Some Idle \/ exists k, nth_error (threads s1) t = Some (Seeking ToAsk p k)) ->
                entries s2 = entries s1 /\ (nth_error (threads s2) t = Some Idle \/ exists k, nth_error (threads s2) t = Some (Seeking ToAsk p k))).
    { clear. intros ls s1 s2 H. induction H as [|s x l s1 a ls s' E Nr R IH]; [auto|]. intros F A. assert (X := F _ (or_introl eq_refl)). injection X as -> ->.
      assert (B : entries s1 = entries s /\ (nth_error (threads s1) t = Some Idle \/ exists k, nth_error (threads s1) t = Some (Seeking ToAsk p k))).
      { unfold step in E. destruct A as [A|(k & A)]; rewrite A in E; [discriminate|]. assert (Lt : (t < length (threads s))%nat) by (apply nth_error_Some; congruence).
        destruct (nth_error (entries s) k) as [e|]; [destruct (fst e =? p)|]; injection E as <- <-; cbn [set_pc entries threads]; (split; [reflexivity|]); rewrite nth_error_upd_eq by exact Lt; eauto. }
      destruct B as (B1 & B2). rewrite <- B1. apply IH; [intros y Hy; apply F; now right|exact B2]. }
    assert (Es : entries s1 = entries s /\ nth_error (threads s1) t = Some (Seeking ToAsk p 0)).
    { unfold step in Ea. destruct (nth_error (threads s) t) as [[| | |j0 ? ?|]|] eqn:Et; try discriminate; try (destruct j0; discriminate). destruct (p =? 0); [discriminate|]. injection Ea as <-. split; [reflexivity|]. cbn [set_pc threads]. apply nth_error_upd_eq. apply nth_error_Some. congruence. }
    destruct Es as (E1 & E2). destruct (G _ _ _ R' ltac:(intros x Hx; now apply repeat_spec in Hx) ltac:(eauto)) as (E3 & E4).
    unfold step in Er. destruct E4 as [E4|(k' & E4)]; rewrite E4 in Er; [discriminate|]. destruct (nth_error (entries s2) k') as [e|] eqn:Ek; [|discriminate]. destruct (N.eqb_spec (fst e) p) as [Ep|]; [|discriminate].
    apply nth_error_In in Ek. rewrite E3, E1 in Ek. apply in_map_iff. exists e. split; [exact Ep|]. apply in_tracked. split; [exact Ek|congruence].
  - intros Hp. apply in_map_iff in Hp. destruct Hp as ([p' i] & E & Hu). cbn [fst] in E. subst p'.
    apply (c74_asked_partial n ls s t p i s1 (repeat (t, Read) k) s2 s3 b R Hu Ea R'); [|exact Er]. apply Forall_forall. intros x Hx. apply repeat_spec in Hx. subst x. unfold leaves. cbn [fst snd]. now rewrite Nat.eqb_refl.
Qed.
Print Assumptions c74_asked_alone_partial.

(** Without that condition: a thread resizes an allocation, which moves it from 100 to 200; before that is noted another thread is
    given 100, and frees it at the same time. In the end the allocation at 200 is not tracked, and 100, which is
    free, is. *)
Definition race : list (nat * label) :=
  [(0%nat, Malloc 100 (1, 1)); (0%nat, Append); (0%nat, Realloc 100 (Some (1, 2)) (Some 200)); (1%nat, Malloc 100 (1, 3)); (1%nat, Append);
   (1%nat, Free 100); (1%nat, Read); (0%nat, Read); (0%nat, Write); (1%nat, Write); (1%nat, Release)].
Theorem c74_race_refuted : exists s, follow (initial 2) race = Some s /\ quiet s /\ user s = [(200, (1, 2))] /\ heap s = [200] /\ tracked s = [(100, (1, 3))].
Proof.
  exists (match follow (initial 2) race with Some s => s | None => initial 0 end). split; [vm_compute; reflexivity|]. split; [|split; [|split]; vm_compute; reflexivity].
  intros c Hc. vm_compute in Hc. destruct Hc as [<-|[<-|[]]]; reflexivity.
Qed.
Print Assumptions c74_race_refuted.

(** A resize with another type of allocator than CC_DEBUG_ALLOCATOR, and a resize that fails, are undefined whenever they
    are made. *)
Theorem c74_other_type_refuted : forall s t p q, nth_error (threads s) t = Some Idle -> In p (map fst (user s)) -> q <> 0 -> ~ In q (heap s) ->
  step s t (Realloc p None (Some q)) = Bad.
Proof.
  intros s t p q Et Hp Nz Hq. unfold step. rewrite Et. apply mem_in in Hp. rewrite Hp. apply mem_out in Hq. rewrite Hq. destruct (N.eqb_spec q 0); [congruence|reflexivity].
Qed.
Print Assumptions c74_other_type_refuted.
Theorem c74_failed_resize_refuted : forall s t p i, nth_error (threads s) t = Some Idle -> In p (map fst (user s)) -> step s t (Realloc p (Some i) None) = Bad.
Proof. intros s t p i Et Hp. unfold step. rewrite Et. apply mem_in in Hp. now rewrite Hp. Qed.
Print Assumptions c74_failed_resize_refuted.

(** Non-vacuity: two threads interleaved; one resizes its allocation while the other frees one and makes another. *)
Definition c74_labels : list (nat * label) :=
  [(0%nat, Malloc 100 (1, 1)); (1%nat, Malloc 300 (1, 2)); (1%nat, Append); (0%nat, Append); (0%nat, Realloc 100 (Some (1, 3)) (Some 200)); (1%nat, Free 300);
   (0%nat, Read); (1%nat, Read); (0%nat, Read); (1%nat, Write); (0%nat, Write); (1%nat, Release); (1%nat, Malloc 300 (1, 4)); (1%nat, Append)].
Definition c74_end : state := match follow (initial 2) c74_labels with Some s => s | None => initial 0 end.
Example c74_case : run (initial 2) c74_labels c74_end /\ quiet c74_end /\ tracked c74_end = [(200, (1, 3)); (300, (1, 4))].
Proof.
  split; [|split; [intros c Hc; vm_compute in Hc; destruct Hc as [<-|[<-|[]]]; reflexivity|vm_compute; reflexivity]].
  unfold c74_labels. repeat (eapply run_cons; [vm_compute; reflexivity| |]); [..|constructor]; try exact Logic.I.
  all: intros (q & i & k & H); vm_compute in H; intuition congruence.
Qed.
Example c74_ask_case : exists s1 s2 s3, step c74_end 0 (Ask 300) = To s1 None /\ run s1 [(0%nat, Read); (1%nat, Free 200); (0%nat, Read)] s2 /\ step s2 0 Read = To s3 (Some true).
Proof.
  eexists _, _, _. split; [vm_compute; reflexivity|]. split; [repeat (eapply run_cons; [vm_compute; reflexivity|exact Logic.I|]); constructor|].
  vm_compute. reflexivity.
Qed.
