(** C75: the choice of an allocator. *)
From Verif Require Import Base DispatchModel DispatchSpec DispatchProofs.
Local Open Scope N_scope.

(** After CC_ALLOCATORS of any nesting, in any program whose other allocations do not use groups: allocation number [k] with it asks the
    allocator that is number [k] in the list, with its data and room for the header; the last is asked for all further allocations.
    Resizes of memory, also with this group, use none up. *)
Theorem c75_groups_in_order : forall s t gs ty ops k s1 log size got s2 calls r,
  proper t -> build (groups s) t = (gs, ty) -> run (mkState gs (slots s) (mems s)) ops s1 log -> used ty ops k -> size < 2 ^ 64 ->
  step s1 (Alloc ty size got) = To s2 calls r ->
  let a := pick t k in
  match get_slot s1 (index a) with
  | Some sl => if has_alloc sl && (size + 16 <? 2 ^ 64) then calls = [CallAlloc (index a) (data a) (size + 16) got] /\ r = got else calls = [] /\ r = 0
  | None => index a = (-1)%Z /\ calls = [] /\ r = 0
  end.
Proof.
  intros s t gs ty ops k s1 log size got s2 calls r P B R U Sz St. cbv zeta.
  destruct (proj1 (build_rep (tsize t)) t (groups s) gs ty (le_n _) P B) as (Rp & _).
  destruct (used_run ty ops k U _ _ _ _ _ _ _ R Rp (le_n _)) as (Rp1 & L1). cbn [Nat.add] in Rp1.
  destruct (resolve_rep (length (groups s1) + 1) _ _ _ _ _ _ Rp1 ltac:(lia)) as (gs' & E & _ & _). cbn [step] in St. unfold allocate in St. rewrite E in St.
  assert (Pk : (-1 <= index (pick t k))%Z).
  { clear - P. assert (H : forall n t k, (tsize t <= n)%nat -> proper t -> (-1 <= index (pick t k))%Z); [|now apply (H (tsize t))]. clear t k P.
    induction n as [|n IH]; intros [ty|ts] k L P; try (cbn [tsize] in L; lia); [exact P|]. destruct P as (Ne & P). change (propers ts) in P. cbn [tsize] in L. change (S (tsizes ts) <= S n)%nat in L.
    clear Ne. revert k P L. induction ts as [|t ts IHt]; intros k P L; [cbn [pick index]; lia|]. destruct P as (P1 & P2). cbn [tsizes] in L. destruct ts as [|t' ts]; [exact (IH t k ltac:(lia) P1)|].
    destruct k as [|k]; [exact (IH t 0%nat ltac:(lia) P1)|]. exact (IHt k P2 ltac:(lia)). }
  unfold answer in St. destruct (Z.ltb_spec (index (pick t k)) 0) as [Hn|Hn].
  - injection St as <- <- <-. unfold get_slot. destruct (Z.ltb_spec (index (pick t k)) 0); [|lia]. split; [lia|auto].
  - destruct (get_slot s1 (index (pick t k))) as [sl|]; [|discriminate]. destruct (has_alloc sl); cbn [andb]; [|injection St as <- <- <-; auto].
    unfold header_size, limit in St. change (2 ^ 64) with 18446744073709551616 in *. destruct (N.ltb_spec (size + 16) 18446744073709551616) as [H|H].
    + rewrite N.mod_small in St by lia. destruct (N.ltb_spec size (size + 16)); [|lia]. destruct (N.eqb_spec got 0) as [->|]; [injection St as <- <- <-; auto|]. destruct (find_mem got (mems s1)); [discriminate|injection St as <- <- <-; auto].
    + assert (Em : (size + 16) mod 18446744073709551616 = size + 16 - 18446744073709551616) by (symmetry; apply N.mod_unique with 1; lia). rewrite Em in St.
      destruct (N.ltb_spec size (size + 16 - 18446744073709551616)); [lia|]. injection St as <- <- <-. auto.
Qed.
Print Assumptions c75_groups_in_order.

(** In every program, memory is only resized and freed by the allocator that made it, whatever allocator the resize is given, and is not
    touched by one after it has been freed. *)
Theorem c75_same_allocator : forall ops s log, run initial ops s log -> forall before c rest, log = before ++ c :: rest -> own before c.
Proof.
  intros ops s log R before c rest E. apply (proj2 (run_held _ _ _ _ R [] ltac:(intros p h H; discriminate)) before c rest E).
Qed.
Print Assumptions c75_same_allocator.

(** What a resize of memory asks for: at most its own allocator once, with the given data only if that is for this allocator, and with room for
    the header. When that fails the memory stays as it is. *)
Theorem c75_resize : forall ops s log ty p size got s' calls r, run initial ops s log -> p <> 0 -> size < 2 ^ 64 -> step s (Realloc ty p size got) = To s' calls r ->
  exists i, holder log p = Some i /\ groups s' = groups s /\ (r = 0 -> mems s' = mems s) /\
  match get_slot s i with
  | Some sl => if has_realloc sl && (size + 16 <? 2 ^ 64) then calls = [CallRealloc i (if (index ty =? i)%Z then data ty else 0) p (size + 16) got] /\ r = got else calls = [] /\ r = 0
  | None => False
  end.
Proof.
  intros ops s log ty p size got s' calls r R Hp Sz St. destruct (run_held _ _ _ _ R [] ltac:(intros q h H; discriminate)) as (H & _). cbn [app] in H. cbn [step] in St. unfold reallocate in St. destruct (N.eqb_spec p 0); [contradiction|].
  destruct (find_mem p (mems s)) as [h|] eqn:Ef; [|discriminate]. exists (allocator h). split; [now apply H|]. destruct (get_slot s (allocator h)) as [sl|]; [|discriminate].
  unfold header_size, limit in St. change (2 ^ 64) with 18446744073709551616 in *. destruct (N.ltb_spec (size + 16) 18446744073709551616) as [Hs|Hs].
  - rewrite N.mod_small in St by lia. destruct (N.ltb_spec size (size + 16)); [|lia]. destruct (has_realloc sl); cbn [andb]; [|injection St as <- <- <-; auto].
    destruct (N.eqb_spec got 0) as [->|Hg]; [injection St as <- <- <-; auto|]. destruct (find_mem got (drop_mem p (mems s))); [discriminate|]. injection St as <- <- <-. cbn [groups mems]. split; [reflexivity|]. split; [contradiction|auto].
  - assert (Em : (size + 16) mod 18446744073709551616 = size + 16 - 18446744073709551616) by (symmetry; apply N.mod_unique with 1; lia). rewrite Em in St.
    destruct (N.ltb_spec size (size + 16 - 18446744073709551616)); [lia|]. injection St as <- <- <-. rewrite andb_false_r. auto.
Qed.
Print Assumptions c75_resize.

(** Memory of CC_STATIC_ALLOC of a type of alignment at most 8 can be resized up to the size of the type, no further, and that of
    CC_STATIC_ALLOC_BSS not at all. *)
Theorem c75_static_partial : forall size alignment pad n, In alignment [1; 2; 4; 8] -> size + 16 < 2 ^ 64 -> n < 2 ^ 64 ->
  static_resize (stored_size size) alignment pad n = Some (n <=? size) /\ static_resize stored_bss alignment pad n = Some false.
Proof.
  intros size alignment pad n Ha Hs Hn. assert (Ep : ptr_offset alignment = 24) by (destruct Ha as [<-|[<-|[<-|[<-|[]]]]]; vm_compute; reflexivity).
  unfold static_resize, stored_size, stored_bss, header_size, limit. rewrite Ep. change (24 - 16) with 8. change (24 - 24) with 0. unfold words. change (8 =? 0) with false. change (8 <? 24) with true. change (0 =? 0) with true. cbv iota. change (0 mod 2 ^ 32 =? 0) with true. cbv iota.
  change (2 ^ 64) with 18446744073709551616 in *. destruct (N.lt_ge_cases (n + 16) 18446744073709551616) as [H|H].
  - rewrite N.mod_small by lia. split; f_equal; [destruct (N.leb_spec n size)|]; destruct (N.ltb_spec n (n + 16)); cbn [andb]; lia.
  - assert (Em : (n + 16) mod 18446744073709551616 = n + 16 - 18446744073709551616) by (symmetry; apply N.mod_unique with 1; lia). rewrite Em.
    split; f_equal; [destruct (N.leb_spec n size)|]; destruct (N.ltb_spec n (n + 16 - 18446744073709551616)); cbn [andb]; lia.
Qed.
Print Assumptions c75_static_partial.

(** Of a type of alignment 16 it can not be resized at all, not even to a smaller size: padding comes between the header and the type. *)
Theorem c75_static_aligned_refuted : forall size pad n, n < 2 ^ 64 -> static_resize (stored_size size) 16 pad n = Some false.
Proof.
  intros size pad n Hn. unfold static_resize. change (ptr_offset 16) with 32. change (32 - 16) with 16. change (32 - 24) with 8. unfold words. change (16 =? 0) with false. change (16 <? 24) with true. change (8 =? 0) with false. change (8 <? 24) with true. cbv iota.
  change (0 mod 2 ^ 32 =? 0) with true. cbv iota. f_equal. destruct (N.ltb_spec n ((n + header_size) mod limit)); cbn [andb]; [|reflexivity]. apply N.leb_gt. lia.
Qed.
Print Assumptions c75_static_aligned_refuted.

(** Static memory starts without references: CCFree of it is a failed assertion, unless it has been retained. *)
Theorem c75_static_free_refuted : forall s p sl, find_mem p (mems s) = Some static_header -> get_slot s 0 = Some sl -> step s (Free p) = Bad /\ exists s1 s2 calls, step s (Retain p) = To s1 [] p /\ step s1 (Free p) = To s2 calls 0.
Proof.
  intros s p sl Hf Hs. cbn [step]. rewrite Hf. cbn [allocator refs static_header]. rewrite Hs. split; [reflexivity|]. eexists _, _, _. split; [reflexivity|]. cbn [mems find_mem]. rewrite N.eqb_refl. cbn [allocator refs].
  unfold get_slot in *. cbn [slots] in *. rewrite Hs. cbn. reflexivity.
Qed.
Print Assumptions c75_static_free_refuted.

(** Non-vacuity: a list with a list in it; a resize with another allocator's type; what is asked. *)
Definition std : atype := mkType 1 0.
Definition pool : atype := mkType 9 77.
Definition zone : atype := mkType 7 55.
Definition c75_tree : tree := Many [One std; Many [One pool; One zone]; Many [One zone; One pool]].
Definition c75_ty : atype := mkType (-2) 2.
Definition c75_ops : list op :=
  [Group [pool; zone]; Group [zone; pool]; Group [std; mkType (-2) 0; mkType (-2) 1];
   Alloc c75_ty 8 1000; Alloc c75_ty 8 2000; Realloc std 2000 16 3000; Realloc c75_ty 0 8 2000; Retain 3000; Alloc c75_ty 8 5000; Free 3000; Free 3000; Alloc c75_ty 8 3000].
Example c75_case :
  build [] c75_tree = ([mkGroup 0 [pool; zone]; mkGroup 0 [zone; pool]; mkGroup 0 [std; mkType (-2) 0; mkType (-2) 1]], c75_ty) /\ proper c75_tree /\
  map (pick c75_tree) [0; 1; 2; 3; 4]%nat = [std; pool; zone; pool; pool] /\
  exists s log, run initial c75_ops s log /\
    log = [CallAlloc 1 0 24 1000; CallAlloc 9 77 24 2000; CallRealloc 9 0 2000 32 3000; CallAlloc 7 55 24 2000; CallAlloc 9 77 24 5000; CallFree 9 3000; CallAlloc 9 77 24 3000].
Proof.
  split; [vm_compute; reflexivity|]. split; [cbn; repeat split; try discriminate; lia|]. split; [vm_compute; reflexivity|]. eexists _, _. split.
  - repeat (eapply run_cons; [vm_compute; reflexivity|]). constructor.
  - vm_compute. reflexivity.
Qed.
Example c75_static_case : static_resize (stored_size 40) 8 (fun _ => 9) 40 = Some true /\ static_resize (stored_size 48) 16 (fun _ => 9) 40 = Some false.
Proof. split; vm_compute; reflexivity. Qed.
