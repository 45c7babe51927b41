From Verif Require Import Base VolumeModel VolumeSpec VolumeProofs.
From Verif Require PathModel.

(** ** C68: the virtual volume is a tree of directories and files *)

(** A path of directories exists when there is a directory, whatever the current path is. *)
Theorem c68_exists_directory : forall cur v ds t, volume t -> length ds <= 125 ->
  exists b, exists_ cur (dir_path v ds) t = Some b /\ (b = true <-> view t ds = Some Dir).
Proof. exact exists_dir_ok. Qed.
Print Assumptions c68_exists_directory.

(** The path of a file exists when there is something with that name. *)
Theorem c68_exists_file_partial : forall cur v ds f es t, volume t -> length ds + 1 + length es <= 125 ->
  exists b, exists_ cur (file_path v ds f es) t = Some b /\ (b = true <-> view t (ds ++ [joined f es]) <> None).
Proof. exact exists_file_ok. Qed.
Print Assumptions c68_exists_file_partial.

(** A directory is created unless a file is in the way or, without intermediate directories, there is nothing to create it in.
    Then it is there, and nothing else changes but the directories that lead to it; otherwise nothing changes. *)
Theorem c68_create_directory : forall cur inter v ds t, volume t -> length ds <= 125 ->
  exists t' b, create cur inter (dir_path v ds) t = Some (t', b) /\ volume t' /\
  (b = true <-> clear t ds /\ (inter = true \/ view t (removelast ds) = Some Dir)) /\
  (b = true -> with_directories t t' ds) /\ (b = false -> t' = t).
Proof. exact create_dir_ok. Qed.
Print Assumptions c68_create_directory.

(** So is a file, in the directory [ds]; when there is something with its name already, nothing changes. *)
Theorem c68_create_file_partial : forall cur inter v ds f es t, volume t -> length ds + 1 + length es <= 125 ->
  exists t1 t' b, create cur inter (file_path v ds f es) t = Some (t', b) /\ volume t' /\
  (b = true <-> clear t ds /\ (inter = true \/ view t ds = Some Dir)) /\
  (b = true -> with_directories t t1 ds /\
    (view t (ds ++ [joined f es]) = None -> with_entry t1 t' (ds ++ [joined f es]) (File [])) /\
    (view t (ds ++ [joined f es]) <> None -> same t t')) /\
  (b = false -> t' = t).
Proof. exact create_file_ok. Qed.
Print Assumptions c68_create_file_partial.

(** Removing a directory removes what is in it and nothing else; removing what is not there succeeds and changes nothing. *)
Theorem c68_remove_directory_partial : forall cur v ds t, volume t -> length ds <= 125 -> ds <> [] ->
  exists t', remove cur (dir_path v ds) t = Some (t', true) /\
  (view t ds = Some Dir -> without t t' ds) /\ (view t ds <> Some Dir -> t' = t).
Proof. exact remove_dir_ok. Qed.
Print Assumptions c68_remove_directory_partial.

Theorem c68_remove_file_partial : forall cur v ds f es t, volume t -> length ds + 1 + length es <= 125 ->
  exists t', remove cur (file_path v ds f es) t = Some (t', true) /\ without t t' (ds ++ [joined f es]).
Proof. exact remove_file_ok. Qed.
Print Assumptions c68_remove_file_partial.

(** ".." leads to the parent, also from directories that do not exist, and from the root to the root. *)
Theorem c68_parents_partial : forall cur v xs t, volume t -> length xs <= 125 ->
  (forall ys zs c, xs = ys ++ zs -> view t (destination [] ys) <> Some (File c)) ->
  exists b, exists_ cur (turn_path v xs) t = Some b /\ (b = true <-> view t (destination [] xs) = Some Dir).
Proof. exact exists_turns_ok. Qed.
Print Assumptions c68_parents_partial.

(** A relative path leads on from the current path. *)
Theorem c68_relative_partial : forall v cs ds t, volume t -> length cs + length ds <= 124 ->
  exists b, exists_ (dir_path v cs) ((PathModel.RelativeRoot, None) :: map (fun d => (PathModel.Directory, Some d)) ds) t = Some b /\ (b = true <-> view t (cs ++ ds) = Some Dir).
Proof. exact relative_ok. Qed.
Print Assumptions c68_relative_partial.

(** //v/a/b/, //v/a/f.t and //v/c/ *)
Definition tree0 : node := NDir [([97%N], NDir [([98%N], NDir []); ([102; 46; 116]%N, NFile [1; 2]%N)]); ([99%N], NDir [])].

(** The path of a file finds a directory of that name: it "exists", creating it "succeeds" and leaves no file there, and removing
    it removes the directory with what is in it. *)
Theorem c68_kind_refuted :
  exists_ [] (file_path None [] [97%N] []) tree0 = Some true /\ view tree0 [[97%N]] = Some Dir /\
  create [] false (file_path None [] [97%N] []) tree0 = Some (tree0, true) /\
  remove [] (file_path None [] [97%N] []) tree0 = Some (NDir [([99%N], NDir [])], true).
Proof. repeat split; vm_compute; reflexivity. Qed.
Print Assumptions c68_kind_refuted.

(** Removing the root is undefined. *)
Theorem c68_root_refuted : remove [] (dir_path None []) tree0 = None.
Proof. vm_compute. reflexivity. Qed.
Print Assumptions c68_root_refuted.

(** So is following a path of 126 directories or more, existing or not: asking whether it exists, creating and removing it. *)
Theorem c68_deep_refuted : exists_ [] (dir_path None (repeat [97%N] 126)) tree0 = None /\ create [] true (dir_path None (repeat [97%N] 126)) (NDir []) = None.
Proof. split; vm_compute; reflexivity. Qed.
Print Assumptions c68_deep_refuted.

(** In a relative path the first ".." does nothing: with //v/a/ as the current path, "../b/" is found, which is //v/a/b/, and
    "../c/" is not, which is //v/c/. *)
Theorem c68_relative_parent_refuted :
  let cur := dir_path None [[97%N]] in
  exists_ cur [(PathModel.RelativeRoot, None); (PathModel.Parent, None); (PathModel.Directory, Some [98%N])] tree0 = Some true /\
  exists_ cur [(PathModel.RelativeRoot, None); (PathModel.Parent, None); (PathModel.Directory, Some [99%N])] tree0 = Some false.
Proof. split; vm_compute; reflexivity. Qed.
Print Assumptions c68_relative_parent_refuted.

(** The files ".x" and "x" are the same: after "//v/.x" is created, "//v/x" exists. *)
Theorem c68_hidden_refuted : exists p p' t,
  PathModel.convert [47; 47; 118; 47; 46; 120]%N true = Some p /\ PathModel.convert [47; 47; 118; 47; 120]%N true = Some p' /\
  create [] false p (NDir []) = Some (t, true) /\ exists_ [] p' t = Some true /\ exists_ [] p' (NDir []) = Some false.
Proof. eexists. eexists. eexists. split; [vm_compute; reflexivity|]. split; [vm_compute; reflexivity|]. split; [vm_compute; reflexivity|]. split; vm_compute; reflexivity. Qed.
Print Assumptions c68_hidden_refuted.

Example volume_applies : volume tree0 /\
  exists_ [] (dir_path None [[97%N]; [98%N]]) tree0 = Some true /\ exists_ [] (dir_path None [[97%N]; [99%N]]) tree0 = Some false /\
  exists_ [] (file_path None [[97%N]] [102%N] [[116%N]]) tree0 = Some true /\
  create [] false (dir_path None [[99%N]; [100%N]]) tree0 = Some (NDir [([97%N], NDir [([98%N], NDir []); ([102; 46; 116]%N, NFile [1; 2]%N)]); ([99%N], NDir [([100%N], NDir [])])], true) /\
  create [] false (dir_path None [[99%N]; [100%N]; [101%N]]) tree0 = Some (tree0, false) /\
  create [] true (file_path None [[99%N]; [100%N]] [101%N] []) tree0 = Some (NDir [([97%N], NDir [([98%N], NDir []); ([102; 46; 116]%N, NFile [1; 2]%N)]); ([99%N], NDir [([100%N], NDir [([101%N], NFile [])])])], true) /\
  remove [] (dir_path None [[97%N]]) tree0 = Some (NDir [([99%N], NDir [])], true) /\
  remove [] (dir_path None [[98%N]]) tree0 = Some (tree0, true).
Proof. repeat split; vm_compute; reflexivity. Qed.

Example parents_apply :
  let xs := [Down [97%N]; Down [98%N]; Up; Up; Up; Down [120%N]; Up; Down [99%N]] in
  destination [] xs = [[99%N]] /\ (forall ys zs c, xs = ys ++ zs -> view tree0 (destination [] ys) <> Some (File c)) /\
  exists_ [] (turn_path None xs) tree0 = Some true.
Proof.
  intros xs. split; [vm_compute; reflexivity|]. split; [|vm_compute; reflexivity]. intros ys zs c E.
  assert (P : exists n, ys = firstn n xs /\ n <= length xs). { exists (length ys). rewrite E, firstn_app_exact. split; [reflexivity|]. rewrite app_length. lia. }
  destruct P as (n & -> & L). clear E. do 9 (destruct n as [|n]; [vm_compute; discriminate|]). cbn [xs length] in L. lia.
Qed.
