(** C63: a copy of a reflected value. *)
From Verif Require Import Base ReflectTypeModel ReflectCopyModel ReflectCopySpec ReflectCopyProofs.
Local Open Scope N_scope.

(** CCReflectAssignmentTransfer: the pointers are handed over as they are, and no object is touched. *)
Theorem c63_transfer_partial : forall env depth t v heap x,
  tree_of env (fun _ => false) depth t v heap = Some x -> shallow x ->
  copy env ATransfer false depth t v heap = Some (v, heap).
Proof. exact transfer_ok. Qed.
Print Assumptions c63_transfer_partial.

(** Sharing or copying: the copy has the same contents; the pointers it follows lead to new objects, each with one owner (the
    copy) and one reference; the objects there were have the same contents, and one more reference for every retained pointer
    the copy shares with the source. *)
Theorem c63_copy_partial : forall env how weak_too depth t v heap x,
  how <> ATransfer \/ weak_too = true ->
  tree_of env (gets_copy how weak_too) depth t v heap = Some x -> shallow x ->
  exists v' heap' x', copy env how weak_too depth t v heap = Some (v', heap') /\
    tree_of env (gets_copy how weak_too) depth t v' heap' = Some x' /\ contents_of x' = contents_of x /\
    references_added (retained x) heap heap' /\ owns_new x' heap heap'.
Proof.
  intros env how weak_too depth t v heap x N E Sh. destruct (copy_ok env how weak_too N depth t v heap x E Sh) as (v' & heap' & x' & H). exists v', heap', x'. tauto.
Qed.
Print Assumptions c63_copy_partial.

(** CCReflectAssignmentCopy, without void pointers: the source and all objects stay as they were, reference counts included. *)
Theorem c63_source_untouched_partial : forall env weak_too depth t v heap x,
  tree_of env (gets_copy ACopy weak_too) depth t v heap = Some x -> shallow x -> has_void x = false ->
  exists v' heap', copy env ACopy weak_too depth t v heap = Some (v', heap') /\
    firstn (length heap) heap' = heap /\ tree_of env (gets_copy ACopy weak_too) depth t v heap' = Some x.
Proof.
  intros env weak_too depth t v heap x E Sh V. assert (N : ACopy <> ATransfer \/ weak_too = true) by (left; discriminate). destruct (copy_ok env ACopy weak_too N depth t v heap x E Sh) as (v' & heap' & x' & Ec & T & K & R & O & _).
  exists v', heap'. split; [exact Ec|]. split; [|eapply tree_stable; [exact E|eapply references_keeps; exact R]].
  rewrite (copy_retains_none env weak_too depth t v heap x E V) in R. apply list_ext_nth_error. intros a. rewrite nth_error_firstn.
  destruct (Nat.lt_ge_cases a (length heap)) as [L|L].
  - replace (a <? length heap)%nat with true by (symmetry; apply Nat.ltb_lt; exact L). destruct (nth_error_lt_Some heap a L) as (o & Eo). rewrite Eo. apply (references_none _ _ R a o Eo).
  - replace (a <? length heap)%nat with false by (symmetry; apply Nat.ltb_ge; exact L). symmetry. apply nth_error_None. exact L.
Qed.
Print Assumptions c63_source_untouched_partial.

(** Whatever then happens to the objects of the copy, the source is the same value; and whatever happens to the objects there
    were, if those it shares are kept, the copy is. *)
Theorem c63_independent_partial : forall env how weak_too depth t v heap x,
  how <> ATransfer \/ weak_too = true ->
  tree_of env (gets_copy how weak_too) depth t v heap = Some x -> shallow x ->
  exists v' heap' x', copy env how weak_too depth t v heap = Some (v', heap') /\ contents_of x' = contents_of x /\
    (forall heap'', (forall a, (a < length heap)%nat -> nth_error heap'' a = nth_error heap' a) -> tree_of env (gets_copy how weak_too) depth t v heap'' = Some x) /\
    (forall heap'', (forall a, (length heap <= a)%nat \/ In a (retained x) -> nth_error heap'' a = nth_error heap' a) -> tree_of env (gets_copy how weak_too) depth t v' heap'' = Some x').
Proof.
  intros env how weak_too depth t v heap x N E Sh. destruct (copy_ok env how weak_too N depth t v heap x E Sh) as (v' & heap' & x' & Ec & T & K & R & O & _).
  exists v', heap', x'. split; [exact Ec|]. split; [exact K|]. split.
  - intros heap'' Q. eapply tree_stable; [exact E|]. intros a o _ Ea. rewrite (Q a (nth_error_Some_lt _ _ _ Ea)), (R a o Ea). eexists. split; reflexivity.
  - intros heap'' Q. eapply tree_stable; [exact T|]. intros a o Ia Ea. exists o. split; [|reflexivity]. rewrite Q; [exact Ea|].
    apply in_app_iff in Ia. destruct Ia as [Ia|Ia]; [left; apply (proj1 (proj2 O)) in Ia; lia|right; rewrite (retained_same _ _ K) in Ia; exact Ia].
Qed.
Print Assumptions c63_independent_partial.

(** 0: a number; 1: a person, with a name it owns, a friend it knows and a group it holds a reference to; 2: an enumerable of
    persons *)
Definition shape : type_id -> layout := fun t =>
  match t with 0 => Plain 2 | 1 => Fields [3; 4; 5; 0] | 2 => Enumeration 1 | 3 => PointerTo (Some 0) Transfer | 4 => PointerTo (Some 1) Weak | 5 => PointerTo (Some 0) Retain | 6 => PointerTo None Transfer | _ => Enumeration 2 end%nat.
Definition store : list object :=
  [mkObject 1 (Raw [1; 2]); mkObject 3 (Raw [3; 4]); mkObject 1 (Group [Ptr (Some 0%nat); Ptr (Some 2%nat); Ptr (Some 1%nat); Raw [5; 6]])].
Definition persons : datum := Enumerated [Group [Ptr (Some 0%nat); Ptr (Some 2%nat); Ptr (Some 1%nat); Raw [7; 8]]; Group [Ptr None; Ptr None; Ptr (Some 1%nat); Raw [9; 9]]].

Example transfer_applies : exists x, tree_of shape (fun _ => false) 6 2%nat persons store = Some x /\ shallow x.
Proof. eexists. split; [vm_compute; reflexivity|]. cbn. tauto. Qed.

Example share_applies : exists x, tree_of shape (gets_copy AShare false) 6 2%nat persons store = Some x /\ shallow x /\ retained x = [1; 1]%nat /\ objects x = [0]%nat /\
  copy shape AShare false 6 2%nat persons store =
    Some (Enumerated [Group [Ptr (Some 3%nat); Ptr (Some 2%nat); Ptr (Some 1%nat); Raw [7; 8]]; Group [Ptr None; Ptr None; Ptr (Some 1%nat); Raw [9; 9]]],
      [mkObject 1 (Raw [1; 2]); mkObject 5 (Raw [3; 4]); mkObject 1 (Group [Ptr (Some 0%nat); Ptr (Some 2%nat); Ptr (Some 1%nat); Raw [5; 6]]); mkObject 1 (Raw [1; 2])]).
Proof. eexists. split; [vm_compute; reflexivity|]. split; [cbn; tauto|]. vm_compute. repeat split. Qed.

Example copy_applies : exists x, tree_of shape (gets_copy ACopy false) 6 2%nat persons store = Some x /\ shallow x /\ has_void x = false /\ objects x = [0; 1; 1]%nat.
Proof. eexists. split; [vm_compute; reflexivity|]. split; [cbn; tauto|]. vm_compute. repeat split. Qed.

(** A void pointer that owns its object is copied as it is: the source and the copy then both own the object, which has the
    references it had. *)
Theorem c63_void_refuted : forall env how weak_too depth t a heap, env t = PointerTo None Transfer ->
  copy env how weak_too (S depth) t (Ptr (Some a)) heap = Some (Ptr (Some a), heap).
Proof. intros env how weak_too depth t a heap E. cbn [copy]. rewrite E. destruct how, weak_too; reflexivity. Qed.
Print Assumptions c63_void_refuted.

(** An enumerable whose elements have enumerables with elements: the copy's are gone. *)
Theorem c63_nested_refuted : exists x v' heap', tree_of shape (gets_copy ACopy false) 7 7%nat (Enumerated [persons]) store = Some x /\
  copy shape ACopy false 7 7%nat (Enumerated [persons]) store = Some (v', heap') /\ v' = Enumerated [Enumerated [Gone; Gone]] /\ tree_of shape (gets_copy ACopy false) 7 7%nat v' heap' = None.
Proof. eexists. eexists. eexists. split; [vm_compute; reflexivity|]. split; [vm_compute; reflexivity|]. split; vm_compute; reflexivity. Qed.
Print Assumptions c63_nested_refuted.
