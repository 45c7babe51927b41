(** C96: renaming a file or directory keeps it in the directory it is in, under
    the name that was given; but names whose text is lost in parsing give
    another name, and paths that do not end in a name go elsewhere. *)
From Verif Require Import Base PathModel PathSpec PathParseProofs PathRoundProofs PathProps RenameModel RenameProofs.
From Coq Require Import String.
Open Scope list_scope.

(** A file [fs] in the directory [ds]: the new path is the given name, with
    all its parts, in the same directory, and so is its text.  The name is one
    that can be read back. *)
Theorem c96_file_partial rel ds fs l r : ordinary rel ds fs l -> fs <> [] -> readable Anywhere r ->
  exists l' parent, renamed l (print r) = Some l' /\ l = parent ++ fs /\ l' = parent ++ r /\
    Forall (fun c => ~ file_kind c) parent /\ print l = print parent ++ print fs /\ print l' = print parent ++ print r.
Proof.
  intros (-> & D & F) N R. set (parent := (if rel then [(RelativeRoot, None)] else []) ++ ds).
  assert (P : Forall (fun c => ~ file_kind c) parent).
  { apply Forall_app. split.
    - destruct rel; [|constructor]. constructor; [|constructor]. unfold file_kind. cbn. intros [H|H]; discriminate H.
    - eapply Forall_impl; [|exact D]. intros c [H|[H|[H|H]]] [K|K]; congruence. }
  exists (parent ++ r), parent. rewrite app_assoc. fold parent.
  split; [|repeat split; auto; apply print_app].
  apply renamed_file; [exact F|exact N|exact P|].
  assert (Z : c_string (print r)) by (destruct (readable_kinds _ _ R) as (_ & _ & _ & _ & _ & _ & _ & Z); exact Z).
  rewrite (convert_ok _ false Z). rewrite aparse_print by exact R. reflexivity.
Qed.
Print Assumptions c96_file_partial.

(** A name without dots and slashes, and one with an extension. *)
Theorem c96_plain_partial rel ds fs l n es : ordinary rel ds fs l -> fs <> [] -> plain n -> Forall plain es ->
  exists parent, l = parent ++ fs /\
  renamed l (n ++ List.concat (map (fun e => [46%N] ++ e) es)) =
    Some (parent ++ (File, Some n) :: map (fun e => (Extension, Some e)) es).
Proof.
  intros O N P E. set (r := (File, Some n) :: map (fun e => (Extension, Some e)) es : list component).
  assert (R : readable Anywhere r).
  { apply r_end; [|discriminate]. apply a_file; [exact P|]. apply Forall_map. eapply Forall_impl; [|exact E].
    intros e H. exists e. split; [exact H|reflexivity]. }
  destruct (c96_file_partial rel ds fs l r O N R) as (l' & parent & A & B & C & _). exists parent. split; [exact B|].
  replace (n ++ List.concat (map (fun e => [46%N] ++ e) es)) with (print r); [rewrite A, C; reflexivity|].
  unfold print, r. cbn [map List.concat]. rewrite map_map. reflexivity.
Qed.
Print Assumptions c96_plain_partial.

(** Other names: a dot at the end is dropped and two dots cut the name off; a
    name that begins with two dots is no name, and the path is that of the
    directory. *)
Theorem c96_file_refuted ds fs l : ordinary false ds fs l -> fs <> [] ->
  renamed l (chars "a.") = renamed l (chars "a") /\ renamed l (chars "a..b") = renamed l (chars "a") /\
  renamed l (chars "..a") = Some ds.
Proof.
  intros (-> & D & F) N. cbn [app].
  assert (P : Forall (fun c => ~ file_kind c) ds).
  { eapply Forall_impl; [|exact D]. intros c [H|[H|[H|H]]] [K|K]; congruence. }
  assert (R : forall n r, convert n false = Some r -> renamed (ds ++ fs) n = Some (ds ++ r)).
  { intros n r C. apply renamed_file; auto. }
  split; [|split].
  - rewrite (R _ [(File, Some (chars "a"))]), (R _ [(File, Some (chars "a"))]) by (vm_compute; reflexivity). reflexivity.
  - rewrite (R _ [(File, Some (chars "a"))]), (R _ [(File, Some (chars "a"))]) by (vm_compute; reflexivity). reflexivity.
  - rewrite (R _ []) by (vm_compute; reflexivity). rewrite app_nil_r. reflexivity.
Qed.
Print Assumptions c96_file_refuted.

(** A directory is renamed in its parent, to any name. *)
Theorem c96_directory_partial parent d name :
  renamed (parent ++ [(Directory, Some d)]) name = Some (parent ++ [(Directory, Some name)]) /\
  print (parent ++ [(Directory, Some d)]) = print parent ++ d ++ [47%N] /\
  print (parent ++ [(Directory, Some name)]) = print parent ++ name ++ [47%N].
Proof.
  split; [apply renamed_directory; cbn; reflexivity|].
  split; rewrite print_app; unfold print at 2; cbn [map List.concat text]; rewrite app_nil_r; reflexivity.
Qed.
Print Assumptions c96_directory_partial.

(** A path that ends in "..": the new name is in the directory that the ".."
    leaves.  The root becomes a relative path.  A path of nothing is undefined. *)
Theorem c96_directory_refuted parent name :
  renamed (parent ++ [(Directory, Some (chars "d")); (Parent, None)]) name
    = Some (parent ++ [(Directory, Some (chars "d")); (Directory, Some name)]) /\
  renamed [(Root, None)] name = Some [(Directory, Some name)] /\ renamed [] name = None.
Proof.
  split; [|split; reflexivity].
  change (parent ++ [(Directory, Some (chars "d")); (Parent, None)]) with (parent ++ [(Directory, Some (chars "d"))] ++ [(Parent, None)]).
  rewrite app_assoc, renamed_directory by reflexivity. rewrite <- app_assoc. reflexivity.
Qed.
Print Assumptions c96_directory_refuted.

(** "/d.x/f.tar.gz" renamed to "g.zip", and "/a/b/" to "c". *)
Example c96_ex :
  let d := [(Root, None); (Directory, Some (chars "d.x"))] in
  let l := d ++ [(File, Some (chars "f")); (Extension, Some (chars "tar")); (Extension, Some (chars "gz"))] in
  ordinary false d [(File, Some (chars "f")); (Extension, Some (chars "tar")); (Extension, Some (chars "gz"))] l /\
  create (chars "/d.x/f.tar.gz") = Some (from_components l) /\
  renamed l (chars "g.zip") = Some (d ++ [(File, Some (chars "g")); (Extension, Some (chars "zip"))]) /\
  renamed [(Root, None); (Directory, Some (chars "a")); (Directory, Some (chars "b"))] (chars "c")
    = Some [(Root, None); (Directory, Some (chars "a")); (Directory, Some (chars "c"))].
Proof.
  cbv zeta. split; [|repeat split; vm_compute; reflexivity]. split; [reflexivity|].
  unfold dir_kind, file_kind. split; repeat (apply Forall_cons; [cbn; tauto|]); apply Forall_nil.
Qed.
