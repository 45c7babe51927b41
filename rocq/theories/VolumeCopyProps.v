From Verif Require Import Base VolumeModel VolumeSpec VolumeProofs VolumeListProofs VolumeCopyProofs.
From Verif Require PathModel PathSpec FileModel.

(** ** C69: listings of directories *)

(** Every volume that creating, removing and writing lead to has directories with one entry for each name, and files with names
    that are names of files. *)
Theorem c69_reached : forall t, reached t -> volume t /\ unique t /\ named_files t.
Proof. exact reached_ok. Qed.
Print Assumptions c69_reached.

(** A listing of a directory has the path of every entry that is wanted exactly once, and no others, and is NULL when there are
    none. [fuel] bounds the depth of the directories below; a blacklist has to name something. *)
Theorem c69_listing_partial : forall cur o naming v t ds fuel, reached t -> length ds + fuel <= 126 -> 0 < fuel ->
  (recursively o = true -> forall r, fuel <= length r -> view t (ds ++ r) = None) ->
  (blacklist o = true -> exists m l, naming = Some (m :: l)) ->
  exists l, get_contents fuel cur o naming (dir_path v ds) t = Some (match l with [] => None | _ => Some l end) /\ NoDup l /\
  forall q, In q l <-> exists r e, below o r /\ view t (ds ++ r) = Some e /\ path_of v (ds ++ r) e q /\ wanted o naming q e.
Proof. exact listing_ok. Qed.
Print Assumptions c69_listing_partial.

(** With a blacklist and no names nothing is listed. *)
Theorem c69_blacklist_refuted : forall skipf skipd m, exists t k, reached t /\ view t [k] = Some Dir /\
  get_contents 1 [] (mkListing skipf skipd false true m) None (dir_path None []) t = Some None.
Proof.
  intros skipf skipd m. exists (NDir [([65%N], NDir [])]), [65%N].
  split; [apply (MadeDirectory [] false None [[65%N]] (NDir []) _ true NothingYet); [cbn; lia|vm_compute; reflexivity]|].
  split; [reflexivity|]. destruct skipf, skipd; vm_compute; reflexivity.
Qed.
Print Assumptions c69_blacklist_refuted.

(** The volume with the files /A/B.C and /A/D/E *)
Definition ab : node := NDir [([65%N], NDir [([66; 46; 67]%N, NFile [1; 2; 3]%N); ([68%N], NDir [([69%N], NFile [])])])].

Example ab_reached : reached ab.
Proof.
  assert (R1 : reached (NDir [([65%N], NDir [])])).
  { apply (MadeDirectory [] false None [[65%N]] (NDir []) _ true NothingYet); [cbn; lia|vm_compute; reflexivity]. }
  assert (R2 : reached (NDir [([65%N], NDir [([66; 46; 67]%N, NFile [])])])).
  { apply (MadeFile [] false None [[65%N]] [66%N] [[67%N]] _ _ true R1); [cbn; lia| |vm_compute; reflexivity]. split; [constructor; [|constructor]|left]; (split; [discriminate|]); (constructor; [|constructor]); repeat split; discriminate. }
  assert (R3 : reached (NDir [([65%N], NDir [([66; 46; 67]%N, NFile [1; 2; 3]%N)])])).
  { exact (Written _ [[65%N]; [66; 46; 67]%N] [] [1; 2; 3]%N R2 eq_refl). }
  apply (MadeFile [] true None [[65%N]; [68%N]] [69%N] [] _ _ true R3); [cbn; lia| |vm_compute; reflexivity]. split; [constructor|left]. split; [discriminate|]. constructor; [|constructor]. repeat split; discriminate.
Qed.

(** All of it is listed, and the directories alone *)
Example c69_case : get_contents 4 [] (mkListing false false true false (PathModel.mkOptions false false false 0)) None (dir_path None []) ab =
  Some (Some [dir_path None [[65%N]]; file_path None [[65%N]] [66%N] [[67%N]]; dir_path None [[65%N]; [68%N]]; file_path None [[65%N]; [68%N]] [69%N] []]) /\
  get_contents 4 [] (mkListing true false true false (PathModel.mkOptions false false false 0)) None (dir_path None []) ab = Some (Some [dir_path None [[65%N]]; dir_path None [[65%N]; [68%N]]]).
Proof. vm_compute. auto. Qed.

Example c69_met : forall r, 4 <= length r -> view ab ([] ++ r) = None.
Proof.
  intros r L. destruct r as [|a [|b [|c [|d r]]]]; cbn [length] in L; try lia. unfold view. cbn [app get find ab]. destruct (name_eqb [65%N] a); [|reflexivity]. cbn [get find].
  destruct (name_eqb [66; 46; 67]%N b); [reflexivity|]. destruct (name_eqb [68%N] b); [|reflexivity]. cbn [get find]. destruct (name_eqb [69%N] c); reflexivity.
Qed.

(** ** C70: copies and moves on the virtual volume *)

(** Copying a file to a path with nothing makes a file with the same contents there and changes nothing else. With a file there,
    its contents are overwritten but what was beyond them stays; with a directory there, the copy fails and changes nothing. *)
Theorem c70_copy_file_partial : forall junk cur v ds f es ds' f' es' t c, (forall n, FileModel.len (junk n) = n) -> volume t ->
  length ds + 1 + length es <= 125 -> length ds' + 1 + length es' <= 125 -> (N.of_nat (length c) < 2 ^ 63)%N ->
  view t (ds ++ [joined f es]) = Some (File c) -> view t ds' = Some Dir ->
  exists t' b, copy 1 junk cur (file_path v ds f es) (file_path v ds' f' es') t = Some (t', b) /\
  match view t (ds' ++ [joined f' es']) with
  | None => b = true /\ with_entry t t' (ds' ++ [joined f' es']) (File c)
  | Some (File d) => b = true /\ with_entry t t' (ds' ++ [joined f' es']) (File (c ++ skipn (length c) d))
  | Some Dir => b = false /\ same t t'
  end.
Proof.
  intros junk cur v ds f es ds' f' es' t c J H L L' Lc V Vd. destruct (copy_file_ok junk cur v ds f es ds' f' es' t c J H L L' Lc V Vd) as (t' & b & E & _ & M). exists t', b. split; [|exact M].
  rewrite copy_file_fuel by (assumption || congruence). exact E.
Qed.
Print Assumptions c70_copy_file_partial.

(** Copying a directory to a path with nothing copies everything in it and changes nothing else. [fuel] bounds the depth of the
    directory, and no directory in it is empty. *)
Theorem c70_copy_directory_partial : forall junk cur v n fuel t ds ds', (forall n, FileModel.len (junk n) = n) -> volume t -> unique t -> named_files t ->
  length ds + fuel + n <= 124 -> length ds' + fuel + n <= 124 ->
  (forall r, fuel <= length r -> view t (ds ++ r) = None) -> few_extensions t ds n -> small_files t ds -> no_empty_directories t ds ->
  view t ds = Some Dir -> view t ds' = None -> view t (removelast ds') = Some Dir -> ~ prefix ds ds' ->
  exists t', copy fuel junk cur (dir_path v ds) (dir_path v ds') t = Some (t', true) /\ with_copy t t' ds ds' /\ unique t' /\ volume t' /\ named_files t'.
Proof. intros junk cur v n fuel t ds ds' J. apply copy_dir_ok, J. Qed.
Print Assumptions c70_copy_directory_partial.

(** A move leaves nothing at the source. *)
Theorem c70_move_file_partial : forall junk cur v ds f es ds' f' es' t c, (forall n, FileModel.len (junk n) = n) -> volume t ->
  length ds + 1 + length es <= 125 -> length ds' + 1 + length es' <= 125 -> (N.of_nat (length c) < 2 ^ 63)%N ->
  view t (ds ++ [joined f es]) = Some (File c) -> view t ds' = Some Dir -> view t (ds' ++ [joined f' es']) = None ->
  exists t', move 1 junk cur (file_path v ds f es) (file_path v ds' f' es') t = Some (t', true) /\ moved_file t t' (ds ++ [joined f es]) (ds' ++ [joined f' es']) c.
Proof. intros. apply move_file_ok; assumption. Qed.
Print Assumptions c70_move_file_partial.

Theorem c70_move_directory_partial : forall junk cur v n fuel t ds ds', (forall n, FileModel.len (junk n) = n) -> volume t -> unique t -> named_files t ->
  length ds + fuel + n <= 124 -> length ds' + fuel + n <= 124 ->
  (forall r, fuel <= length r -> view t (ds ++ r) = None) -> few_extensions t ds n -> small_files t ds -> no_empty_directories t ds ->
  view t ds = Some Dir -> view t ds' = None -> view t (removelast ds') = Some Dir -> ~ prefix ds ds' ->
  exists t', move fuel junk cur (dir_path v ds) (dir_path v ds') t = Some (t', true) /\ moved t t' ds ds' /\ unique t' /\ volume t' /\ named_files t'.
Proof. intros junk cur v n fuel t ds ds' J. apply move_dir_ok, J. Qed.
Print Assumptions c70_move_directory_partial.

Definition zeroed (n : N) : list N := FileModel.zeros n.

(** The directory /A/ of [ab] to /F/ *)
Example c70_case : exists t', copy 3 zeroed [] (dir_path None [[65%N]]) (dir_path None [[70%N]]) ab = Some (t', true) /\ view t' [[70%N]; [66; 46; 67]%N] = Some (File [1; 2; 3]%N) /\ view t' [[70%N]; [68%N]; [69%N]] = Some (File []) /\ view t' [[65%N]; [68%N]; [69%N]] = Some (File []).
Proof. eexists. split; [vm_compute; reflexivity|]. repeat split. Qed.

Example c70_met : volume ab /\ unique ab /\ named_files ab /\ (forall r, 3 <= length r -> view ab ([[65%N]] ++ r) = None) /\ few_extensions ab [[65%N]] 100 /\ small_files ab [[65%N]] /\ no_empty_directories ab [[65%N]] /\
  view ab [[65%N]] = Some Dir /\ view ab [[70%N]] = None /\ view ab (removelast [[70%N]]) = Some Dir /\ ~ prefix [[65%N]] [[70%N]].
Proof.
  destruct (reached_ok ab ab_reached) as (H & U & N). do 3 (split; [assumption|]).
  assert (Cases : forall r e, view ab ([[65%N]] ++ r) = Some e -> (r = [] \/ r = [[68%N]]) /\ e = Dir \/ r = [[66; 46; 67]%N] /\ e = File [1; 2; 3]%N \/ r = [[68%N]; [69%N]] /\ e = File []).
  { intros r e. unfold view. destruct r as [|a r]; [intros E; injection E as <-; auto|]. cbn [app get find ab]. rewrite name_eqb_refl.
    cbn [get find]. destruct (name_eqb_spec [66; 46; 67]%N a) as [<-|Da]; [destruct r; [intros E; injection E as <-; auto|discriminate]|].
    destruct (name_eqb_spec [68]%N a) as [<-|Db]; [|discriminate]. destruct r as [|b r]; [intros E; injection E as <-; auto|]. cbn [get find]. destruct (name_eqb_spec [69]%N b) as [<-|Dc]; [|discriminate]. destruct r; [intros E; injection E as <-; auto|discriminate]. }
  split.
  { intros r L. destruct (view ab ([[65%N]] ++ r)) as [e|] eqn:E; [|reflexivity]. apply Cases in E. destruct E as [[[-> | ->] _]|[[-> _]|[-> _]]]; cbn in L; lia. }
  split.
  { intros r f es c E P. assert (Q : view ab ([[65%N]] ++ (r ++ [joined f es])) = Some (File c)) by exact E. apply Cases in Q.
    assert (Lj : length es <= length (joined f es)). { unfold joined. rewrite app_length. clear. induction es as [|e es IH]; cbn [map concat length]; [lia|]. rewrite app_length. cbn [length]. lia. }
    enough (length (joined f es) <= 3) by lia.
    destruct Q as [[_ Q]|[[Q _]|[Q _]]]; [discriminate| |].
    - change [[66; 46; 67]%N] with ([] ++ [[66; 46; 67]%N]) in Q. apply app_inj_tail in Q. destruct Q as [_ ->]. cbn. lia.
    - change [[68%N]; [69%N]] with ([[68%N]] ++ [[69%N]]) in Q. apply app_inj_tail in Q. destruct Q as [_ ->]. cbn. lia. }
  split.
  { intros r c E. apply Cases in E. destruct E as [[_ E]|[[_ E]|[_ E]]]; [discriminate| |]; injection E as ->; reflexivity. }
  split.
  { intros r E. apply Cases in E. destruct E as [[[-> | ->] _]|[[_ E]|[_ E]]]; try discriminate; [exists [68%N]|exists [69%N]]; discriminate. }
  repeat split; try reflexivity. intros [r E]. discriminate.
Qed.

(** Copying a directory that is empty, or has an empty one in it, is undefined. *)
Theorem c70_empty_directory_refuted : forall fuel junk cur v, exists t d d', reached t /\ view t [d] = Some Dir /\ view t [d'] = None /\
  copy fuel junk cur (dir_path v [d]) (dir_path v [d']) t = None.
Proof.
  intros fuel junk cur v. exists (NDir [([65%N], NDir [])]), [65%N], [66%N].
  split; [apply (MadeDirectory [] false None [[65%N]] (NDir []) _ true NothingYet); [cbn; lia|vm_compute; reflexivity]|]. repeat split. destruct fuel; reflexivity.
Qed.
Print Assumptions c70_empty_directory_refuted.

(** A copy onto a longer file succeeds but leaves the end of that file. *)
Theorem c70_overwrite_refuted : forall junk, (forall n, FileModel.len (junk n) = n) -> exists t t', volume t /\
  view t [[65%N]] = Some (File [1]%N) /\ view t [[66%N]] = Some (File [2; 3]%N) /\
  copy 1 junk [] (file_path None [] [65%N] []) (file_path None [] [66%N] []) t = Some (t', true) /\ view t' [[66%N]] = Some (File [1; 3]%N).
Proof.
  intros junk J. set (t := NDir [([65%N], NFile [1]%N); ([66%N], NFile [2; 3]%N)]).
  destruct (c70_copy_file_partial junk [] None [] [65%N] [] [] [66%N] [] t [1]%N J eq_refl) as (t' & b & E & M); try (cbn; lia); try reflexivity.
  change (view t ([] ++ [joined [66%N] []])) with (Some (File [2; 3]%N)) in M. cbv iota in M. destruct M as [-> M]. exists t, t'. repeat split; [exact E|]. apply (M [[66%N]]). reflexivity.
Qed.
Print Assumptions c70_overwrite_refuted.

(** Moving a file to where it is already succeeds and removes it. *)
Theorem c70_move_onto_itself_refuted : forall junk, (forall n, FileModel.len (junk n) = n) -> exists t t', volume t /\ view t [[65%N]] = Some (File [1]%N) /\
  move 1 junk [] (file_path None [] [65%N] []) (file_path None [] [65%N] []) t = Some (t', true) /\ view t' [[65%N]] = None.
Proof.
  intros junk J. set (t := NDir [([65%N], NFile [1]%N)]).
  destruct (c70_copy_file_partial junk [] None [] [65%N] [] [] [65%N] [] t [1]%N J eq_refl) as (t1 & b & E & M); try (cbn; lia); try reflexivity.
  change (view t ([] ++ [joined [65%N] []])) with (Some (File [1]%N)) in M. cbv iota in M. destruct M as [-> M].
  assert (H1 : volume t1) by (apply (volume_entry t t1 [[65%N]] (File [1]%N)); [reflexivity|discriminate|exact M]).
  destruct (remove_file_ok [] None [] [65%N] [] t1 H1) as (t2 & R & W); [cbn; lia|]. exists t, t2. repeat split; [|apply (W [[65%N]]); exists []; reflexivity]. unfold move. rewrite E. exact R.
Qed.
Print Assumptions c70_move_onto_itself_refuted.

(** When a file in a directory cannot be copied, the copy of the directory succeeds all the same, so that a move loses the file. *)
Theorem c70_move_loses_refuted : forall junk, exists t t', volume t /\ view t [[65%N]; [70%N]] = Some (File []) /\ view t [[66%N]; [70%N]] = Some Dir /\
  move 2 junk [] (dir_path None [[65%N]]) (dir_path None [[66%N]]) t = Some (t', true) /\ forall q c, view t' q <> Some (File c).
Proof.
  intros junk. exists (NDir [([65%N], NDir [([70%N], NFile [])]); ([66%N], NDir [([70%N], NDir [])])]), (NDir [([66%N], NDir [([70%N], NDir [])])]). do 3 (split; [reflexivity|]). split; [vm_compute; reflexivity|].
  intros q c. unfold view. destruct q as [|a q]; [discriminate|]. cbn [get find]. destruct (name_eqb [66%N] a); [|discriminate]. destruct q as [|b q]; [discriminate|]. cbn [get find]. destruct (name_eqb [70%N] b); [|discriminate]. destruct q; discriminate.
Qed.
Print Assumptions c70_move_loses_refuted.

(** Copying a directory into itself does not end before the nodes of a path exceed their buffer. *)
Theorem c70_into_itself_refuted : forall fuel junk, exists t, volume t /\ view t [[65%N]] = Some Dir /\ view t [[65%N]; [66%N]] = None /\
  copy fuel junk [] (dir_path None [[65%N]]) (dir_path None [[65%N]; [66%N]]) t = None.
Proof.
  intros fuel junk. exists (NDir [([65%N], NDir [])]). do 3 (split; [reflexivity|]). apply (copy_never junk [] fuel 130). intros k. vm_compute. reflexivity.
Qed.
Print Assumptions c70_into_itself_refuted.
