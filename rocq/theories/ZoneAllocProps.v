(** C73: the zone and autorelease allocators. *)
From Verif Require Import Base AlignedModel ZoneModel ZoneSpec ZoneAllocModel ZoneAllocSpec ZoneAllocProofs.
Local Open Scope N_scope.

(** In a zone of any block size: as long as the users keep to the rules, every allocation, resize and deallocation works, every
    allocation is aligned and has memory of its own, and keeps its bytes. *)
Theorem c73_zone_allocator_partial : forall bs addr m ops, addr + N.max bs 16 < 2 ^ 63 -> ok (start bs addr m) [] ops.
Proof. intros bs addr m ops H. apply ok_all. now apply start_inv. Qed.
Print Assumptions c73_zone_allocator_partial.

(** The rule for resizing is exact: it works only for sizes that are no larger, for the newest allocation as far as its block
    reaches, and where that many bytes can be copied from the old address. *)
Theorem c73_resize_exact_partial : forall bs addr m ops s vs i h size got, addr + N.max bs 16 < 2 ^ 63 -> reach (start bs addr m) [] ops s vs ->
  handle_of s i = Some h -> fitting (zn s) size -> got <> None -> fresh (zn s) got ->
  step s (Resize i size got) <> None <-> size <= hsize h \/ room_behind (zn s) h size \/ copies (zn s) h size.
Proof.
  intros bs addr m ops s vs i h size got H R Eh Fi Hg Fr. destruct (reach_inv _ _ _ _ _ R (start_inv _ _ m H)) as (Zi & (Gs & Go & Gd) & Hz).
  assert (El : nth_error (live s) i = Some (Some h)) by (unfold handle_of in Eh; destruct (nth_error (live s) i) as [[x|]|]; congruence). assert (Ih := nth_error_In _ _ El).
  fold (resizable (zn s) h size). cbn [step]. rewrite Eh. split.
  - intros Ns. destruct (N.le_gt_cases size (hsize h)) as [Le|Gt]; [now left|].
    assert (D : resizable (zn s) h size \/ ~ resizable (zn s) h size).
    { destruct (owned_block (zn s) h Zi (Go h Ih) (Hz h Ih)) as (k & Hk & Ek & A & B & C). destruct (in_place (zn s) h k size) eqn:Q.
      - left. right. left. now apply (in_place_iff (zn s) h k size Zi Hk A B (Hz h Ih)).
      - destruct (copies_dec (zn s) h k size Zi Hk A B (Hz h Ih)) as [Y|Y]; [left; right; now right|]. right. intros [X|[X|X]]; [lia| |now apply Y].
        apply (in_place_iff (zn s) h k size Zi Hk A B (Hz h Ih)) in X. congruence. }
    destruct D as [D|D]; [exact D|]. now rewrite (zrealloc_none (zn s) (memory s) h size got Zi (Go h Ih) (Hz h Ih) Fi Fr Hg D) in Ns.
  - intros Rz. destruct (zrealloc_some (zn s) (memory s) h size got Zi (Go h Ih) (Hz h Ih) Fi Fr Hg Rz) as (z' & m' & h' & -> & _). discriminate.
Qed.
Print Assumptions c73_resize_exact_partial.

(** The newest allocation can not be grown past the end of its block: that always reads behind the block, whatever new memory there
    is. *)
Theorem c73_newest_refuted : forall bs addr m ops s vs i h size got b rest, addr + N.max bs 16 < 2 ^ 63 -> reach (start bs addr m) [] ops s vs ->
  handle_of s i = Some h -> fitting (zn s) size -> got <> None -> fresh (zn s) got ->
  blocks (zn s) = b :: rest -> base b <= at_ h -> at_ h + hsize h = base b + offset b -> base b + blockSize (zn s) < at_ h + size ->
  step s (Resize i size got) = None.
Proof.
  intros bs addr m ops s vs i h size got b rest H R Eh Fi Hg Fr Eb A B C.
  pose proof (proj1 (c73_resize_exact_partial _ _ _ _ _ _ _ _ _ _ H R Eh Fi Hg Fr)) as X. destruct (step s (Resize i size got)) eqn:E; [|reflexivity]. exfalso.
  destruct (reach_inv _ _ _ _ _ R (start_inv _ _ m H)) as (Zi & (Gs & Go & Gd) & Hz).
  assert (El : nth_error (live s) i = Some (Some h)) by (unfold handle_of in Eh; destruct (nth_error (live s) i) as [[x|]|]; congruence). assert (Ih := nth_error_In _ _ El). pose proof (Hz h Ih) as H16.
  pose proof (z_fit _ Zi b ltac:(rewrite Eb; now left)) as [F1 F2].
  destruct (X ltac:(discriminate)) as [Y|[(b' & r' & E' & _ & _ & Y)|(k & Hk & K1 & K2 & K3 & _)]]; [lia|rewrite Eb in E'; injection E' as <- <-; lia|].
  pose proof (z_fit _ Zi k Hk) as [G1 G2]. destruct (apart_in _ _ (z_apart _ Zi) k b Hk ltac:(rewrite Eb; now left)); lia.
Qed.
Print Assumptions c73_newest_refuted.

(** An allocation with others behind it can not be grown beyond where the new memory begins: the old and the new bytes of
    the copy overlap. *)
Theorem c73_overlap_refuted : forall bs addr m ops s vs i h size got b rest, addr + N.max bs 16 < 2 ^ 63 -> reach (start bs addr m) [] ops s vs ->
  handle_of s i = Some h -> fitting (zn s) size -> got <> None -> fresh (zn s) got ->
  blocks (zn s) = b :: rest -> base b <= at_ h -> at_ h + hsize h < base b + offset b -> fits_block (zn s) b size -> next_at b < at_ h + size ->
  step s (Resize i size got) = None.
Proof.
  intros bs addr m ops s vs i h size got b rest H R Eh Fi Hg Fr Eb A B Fb C.
  pose proof (proj1 (c73_resize_exact_partial _ _ _ _ _ _ _ _ _ _ H R Eh Fi Hg Fr)) as X. destruct (step s (Resize i size got)) eqn:E; [|reflexivity]. exfalso.
  destruct (reach_inv _ _ _ _ _ R (start_inv _ _ m H)) as (Zi & (Gs & Go & Gd) & Hz).
  pose proof (z_fit _ Zi b ltac:(rewrite Eb; now left)) as [F1 F2].
  assert (Nx : base b + offset b <= next_at b) by (unfold next_at; pose proof (N.div_mod (base b + offset b + 15) 16 ltac:(lia)); pose proof (N.mod_lt (base b + offset b + 15) 16 ltac:(lia)); lia).
  destruct (X ltac:(discriminate)) as [Y|[(b' & r' & E' & _ & Z & Y)|(k & Hk & K1 & K2 & K3 & K4)]]; [lia|rewrite Eb in E'; injection E' as <- <-; lia|].
  pose proof (z_fit _ Zi k Hk) as [G1 G2].
  assert (base b = base k) as Q by (destruct (apart_in _ _ (z_apart _ Zi) k b Hk ltac:(rewrite Eb; now left)); lia).
  specialize (K4 b rest Eb Q Fb). lia.
Qed.
Print Assumptions c73_overlap_refuted.

(** Sizes within 32 bytes of the block size pass the allocator's test and can still fail in the zone: the second of two such
    allocations does, whatever memory there is. *)
Definition zeros : mem := fun _ => 0.
Theorem c73_large_refuted : 40 + 16 < blockSize (zn (start 64 4096 zeros)) /\
  exists s, step (start 64 4096 zeros) (New 40 None) = Some s /\ forall got, step s (New 40 got) = None.
Proof. split; [reflexivity|]. eexists. split; [reflexivity|]. intros got. vm_compute. reflexivity. Qed.
Print Assumptions c73_large_refuted.

(** Non-vacuity: the second allocation grows in place, the first moves within the block, the second moves to a new block and the
    third shrinks, and all along the rules are kept. *)
Definition c73_program : list op :=
  [New 32 (Some 8192); Put 0 31 7; New 48 (Some 8192); Put 1 20 9; Resize 1 64 (Some 8192); Other 5 (Some 8192); Resize 0 48 (Some 8192);
   New 100 (Some 8192); Resize 1 180 (Some 8192); Resize 2 40 (Some 12288)].
Definition c73_end : state := match fold_left (fun s o => match s with Some s => step s o | None => None end) c73_program (Some (start 512 4096 zeros)) with Some s => s | None => start 512 4096 zeros end.
Example c73_end_is : map (option_map (fun h => (at_ h, hsize h))) (live c73_end) = [Some (4256, 48); Some (8208, 180); Some (4320, 100)] /\
  memory c73_end (4256 + 31) = 7 /\ memory c73_end (8208 + 20) = 9.
Proof. vm_compute. repeat split; reflexivity. Qed.

Example c73_case : reach (start 512 4096 zeros) [] c73_program c73_end (fold_left next c73_program []).
Proof. apply keeps_rules_ok. vm_compute. reflexivity. Qed.

(** Two allocations; growing the second past the end of the block, and the first over where new memory begins *)
Definition two : list op := [New 32 (Some 8192); New 32 (Some 8192)].
Definition two_end : state := match fold_left (fun s o => match s with Some s => step s o | None => None end) two (Some (start 4096 4096 zeros)) with Some s => s | None => start 4096 4096 zeros end.
Example c73_newest_case : step two_end (Resize 1 4064 (Some 12288)) = None.
Proof.
  apply (c73_newest_refuted 4096 4096 zeros two two_end (fold_left next two []) 1 (mkHandle 4160 32) 4064 (Some 12288) (mkBlock 4096 96) []);
    [reflexivity|apply keeps_rules_ok; vm_compute; reflexivity|vm_compute; reflexivity|split; vm_compute; discriminate|discriminate| |vm_compute; reflexivity|vm_compute; discriminate|vm_compute; reflexivity|vm_compute; reflexivity].
  intros a [= <-]. vm_compute. split; [reflexivity|]. intros k [<-|[]]; right; discriminate.
Qed.
Example c73_overlap_case : step two_end (Resize 0 200 (Some 12288)) = None.
Proof.
  apply (c73_overlap_refuted 4096 4096 zeros two two_end (fold_left next two []) 0 (mkHandle 4112 32) 200 (Some 12288) (mkBlock 4096 96) []);
    [reflexivity|apply keeps_rules_ok; vm_compute; reflexivity|vm_compute; reflexivity|split; vm_compute; discriminate|discriminate| |vm_compute; reflexivity|vm_compute; discriminate|vm_compute; reflexivity|vm_compute; discriminate|vm_compute; reflexivity].
  intros a [= <-]. vm_compute. split; [reflexivity|]. intros k [<-|[]]; right; discriminate.
Qed.
