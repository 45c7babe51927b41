(** C29, C30, C52 and C53. *)
From Verif Require Import Base PathModel PathSpec PathParseProofs PathRoundProofs PathLossProofs PathStringProofs PathMatchProofs.
From Coq Require Import String Ascii.

Definition chars (s : string) : list N := map N_of_ascii (list_ascii_of_string s).

Lemma print_completed l : print (completed l) = print l.
Proof. destruct l as [|[[] n] l]; reflexivity. Qed.

Lemma create_ok s : c_string s -> create s = Some (from_components (completed (aparse s))).
Proof. intros H. unfold create. now rewrite (convert_ok s true H). Qed.

Lemma file_part_kinds f : file_part f -> Forall file_kind f /\ Forall named f /\ Forall (fun c => text c <> []) f /\ c_string (print f).
Proof.
  assert (Pl : forall n, plain n -> c_string n) by (intros n [_ H]; eapply Forall_impl; [|exact H]; now intros ? (? & _)).
  assert (E : forall es, Forall extension es -> Forall file_kind es /\ Forall named es /\ Forall (fun c => text c <> []) es /\ c_string (print es)).
  { induction 1 as [|e es (n & P & ->) _ (A & B & C & D)]; [repeat split; constructor|]. split; [|split; [|split]].
    - constructor; [now right|assumption].
    - constructor; [reflexivity|assumption].
    - constructor; [discriminate|assumption].
    - change (c_string (46%N :: n ++ print es)). constructor; [discriminate|]. apply c_string_app. split; [now apply Pl|exact D]. }
  destruct 1 as [|n es P H|n e es P H|e H].
  - repeat split; constructor.
  - destruct (E es H) as (A & B & C & D). split; [|split; [|split]].
    + constructor; [now left|assumption].
    + constructor; [reflexivity|assumption].
    + constructor; [apply P|assumption].
    + unfold print. cbn [map concat text]. apply c_string_app. split; [now apply Pl|exact D].
  - destruct (E _ H) as (A & B & C & D). split; [|split; [|split]].
    + constructor; [now left|assumption].
    + constructor; [reflexivity|assumption].
    + constructor; [discriminate|assumption].
    + change (c_string ((46%N :: n) ++ print (e :: es))). apply c_string_app. split; [|exact D]. constructor; [discriminate|now apply Pl].
  - apply E. now constructor.
Qed.

Lemma readable_kinds p l : readable p l -> exists ds fs, l = ds ++ fs /\ Forall dir_kind ds /\ Forall file_kind fs /\ Forall named l /\ Forall (fun c => text c <> []) l /\ c_string (print l).
Proof.
  assert (Pl : forall n, plain n -> c_string n) by (intros n [_ H]; eapply Forall_impl; [|exact H]; now intros ? (? & _)).
  assert (Step : forall c l, dir_kind c -> named c -> text c <> [] -> c_string (text c) ->
    (exists ds fs, l = ds ++ fs /\ Forall dir_kind ds /\ Forall file_kind fs /\ Forall named l /\ Forall (fun c => text c <> []) l /\ c_string (print l)) ->
    exists ds fs, c :: l = ds ++ fs /\ Forall dir_kind ds /\ Forall file_kind fs /\ Forall named (c :: l) /\ Forall (fun c => text c <> []) (c :: l) /\ c_string (print (c :: l))).
  { intros c l0 H1 H2 H3 H4 (ds & fs & E & A & B & C & D & F). exists (c :: ds), fs. split; [now rewrite E|]. split; [now constructor|]. split; [exact B|]. split; [now constructor|]. split; [now constructor|].
    unfold print. cbn [map concat]. apply c_string_app. now split. }
  induction 1 as [p f Hf _|p n l P _ _ IH|p l _ _ IH|p n l [P _] _ _ IH|p l _ _ IH].
  - destruct (file_part_kinds f Hf) as (A & B & C & D). exists [], f. repeat (split; [first [assumption|constructor]|]). assumption.
  - apply Step; [now left|reflexivity|discriminate| |exact IH]. change (c_string ([47; 47]%N ++ n)). apply c_string_app. split; [repeat (constructor; [discriminate|]); constructor|now apply Pl].
  - apply Step; [right; now left|reflexivity|discriminate| |exact IH]. constructor; [discriminate|constructor].
  - apply Step; [right; right; now left|reflexivity|now destruct n| |exact IH]. change (c_string (n ++ [47%N])). apply c_string_app. split; [eapply Forall_impl; [|exact P]; now intros ? (? & _)|]. constructor; [discriminate|constructor].
  - apply Step; [right; right; now right|reflexivity|discriminate| |exact IH]. repeat (constructor; [discriminate|]). constructor.
Qed.

Lemma completed_ordinary ds fs : Forall dir_kind ds -> Forall file_kind fs -> exists rel, ordinary rel ds fs (completed (ds ++ fs)).
Proof.
  intros Hd Hf. destruct (ds ++ fs) as [|[k n] l] eqn:E; [exists false; split; [now rewrite E|now split]|].
  assert (C : completed ((k, n) :: l) = (k, n) :: l \/ completed ((k, n) :: l) = (RelativeRoot, None) :: (k, n) :: l) by (destruct k; auto).
  destruct C as [C|C]; [exists false|exists true]; (split; [|now split]); [exact (eq_trans C (eq_sym E))|exact (eq_trans C (f_equal (cons (RelativeRoot, None)) (eq_sym E)))].
Qed.

(** ** C29 *)

(** Components that have a text of their own are what is read from it. *)
Theorem c29_round_trip_partial : forall l, readable Anywhere l -> create (print l) = Some (from_components (completed l)).
Proof.
  intros l H. destruct (readable_kinds _ _ H) as (_ & _ & _ & _ & _ & _ & _ & Z). rewrite (create_ok _ Z). now rewrite (aparse_print l H).
Qed.

(** And the path gives that text back. *)
Theorem c29_print_partial : forall v cur n l, anchored v cur -> readable Anywhere l ->
  exists p w' p', create (print l) = Some p /\ call (mkWorld (from_components cur) n) p (Ask Tail) = Some (w', p', or_null l (print l)).
Proof.
  intros v cur n l A H. destruct (readable_kinds _ _ H) as (ds & fs & E & Hd & Hf & Hn & Ht & Z). exists (from_components (completed l)).
  assert (Hc : Forall named (completed l)) by (destruct l as [|[[] m] l]; cbn [completed]; first [exact Hn|constructor; [reflexivity|exact Hn]]).
  destruct (call_ok v cur A (mkWorld (from_components cur) n) (completed l) (from_components (completed l)) (Ask Tail)) as (w' & p' & r & Ec & Hr & _ & _); [now apply start_world with v|now apply ok_nothing|exact Logic.I|].
  exists w', p'. split; [now apply c29_round_trip_partial|]. rewrite Ec. f_equal. f_equal. destruct (completed_ordinary ds fs Hd Hf) as (rel & O). rewrite <- E in O.
  destruct l as [|c l].
  - (* nothing at all *) cbn in Ec. now injection Ec as _ _ <-.
  - cbn [answer_ok] in Hr. rewrite (Hr rel ds fs O); [now rewrite <- E|]. intros B. inversion Ht as [|? ? Hx _]; subst.
    assert (Bc : c = (File, Some [])) by (destruct c as [[] m]; cbn [completed] in B; inversion B as [|? ? Hb Hb']; subst; try discriminate; now inversion Hb'). subst c. now apply Hx.
Qed.

(** Every other text loses something, and every text can be parsed. *)
Theorem c29_lossless_partial : forall s, c_string s ->
  exists l, create s = Some (from_components l) /\ (print l = s <-> exists r, readable Anywhere r /\ s = print r).
Proof.
  intros s Z. exists (completed (aparse s)). split; [now apply create_ok|]. rewrite print_completed. split.
  - intros E. exists (aparse s). split; [now apply aparse_lossless|now symmetry].
  - intros (r & R & ->). now rewrite (aparse_print r R).
Qed.

(** What is lost is at the end, unless a name is ".". *)
Theorem c29_prefix_partial : forall s, c_string s -> no_dot_names s -> exists l r, create s = Some (from_components l) /\ s = print l ++ r.
Proof.
  intros s Z D. destruct (aparse_prefix s Z D) as (r & E). exists (completed (aparse s)), r. split; [now apply create_ok|]. now rewrite print_completed.
Qed.

(** Names that begin with a dot, names of volumes with a dot, a last "..", a dot at the end and two dots in a row lose
    text; a "." can become "..". *)
Theorem c29_refuted :
  create (chars ".git/config") = Some (from_components []) /\
  create (chars "./x/y") = Some (from_components []) /\
  create (chars "//vol.x/a") = Some (from_components []) /\
  create (chars "a/..") = create (chars "a/") /\
  create (chars "a.") = create (chars "a") /\
  create (chars "a..b") = create (chars "a") /\
  create (chars "./.git") = create (chars "../git").
Proof. repeat split; vm_compute; reflexivity. Qed.

(** A volume, a root, a directory with a dot in its name, a parent and a file with two extensions. *)
Definition sample : list component :=
  [(Volume, Some (chars "vol")); (Root, None); (Directory, Some (chars "dir.x")); (Parent, None); (Directory, Some (chars ".a.b"));
   (File, Some (chars "file")); (Extension, Some (chars "tar")); (Extension, Some (chars "gz"))].
Lemma plain_of n : n <> [] -> forallb (fun c => negb (c =? 0) && negb (c =? 47) && negb (c =? 46))%N n = true -> plain n.
Proof. intros H F. split; [exact H|]. apply Forall_forall. intros c I. rewrite forallb_forall in F. specialize (F c I). lia. Qed.
Lemma dir_name_of n : forallb (fun c => negb (c =? 0) && negb (c =? 47))%N n = true -> (exists c r, c <> 46%N /\ (n = c :: r \/ n = 46%N :: c :: r /\ In 46%N r)) -> dir_name n.
Proof. intros F H. split; [|exact H]. apply Forall_forall. intros c I. rewrite forallb_forall in F. specialize (F c I). lia. Qed.
Example sample_readable : readable Anywhere sample.
Proof.
  unfold sample. apply r_volume; [apply plain_of; [discriminate|reflexivity]|discriminate|]. apply r_root; [discriminate|].
  apply r_directory; [apply dir_name_of; [reflexivity|]; eexists _, _; split; [|left; reflexivity]; discriminate|discriminate|]. apply r_parent; [discriminate|].
  apply r_directory; [apply dir_name_of; [reflexivity|]; eexists _, _; split; [|right; split; [reflexivity|]; vm_compute; tauto]; discriminate|discriminate|].
  apply r_end; [|discriminate]. apply a_file; [apply plain_of; [discriminate|reflexivity]|]. constructor; [eexists; split; [|reflexivity]; apply plain_of; [discriminate|reflexivity]|].
  constructor; [eexists; split; [|reflexivity]; apply plain_of; [discriminate|reflexivity]|constructor].
Qed.
Example sample_text : print sample = chars "//vol/dir.x/../.a.b/file.tar.gz".
Proof. reflexivity. Qed.
Example sample_no_dots : no_dot_names (chars "a/.b/c..d").
Proof.
  split; [discriminate|]. intros a r H. change (chars "a/.b/c..d") with [97; 47; 46; 98; 47; 99; 46; 46; 100]%N in H. do 9 (destruct a as [|? a]; cbn in H; [discriminate|injection H as _ H]). destruct a; discriminate.
Qed.

(** ** C30 *)

Theorem c30_match : forall o l r, path_match o l r = true <-> tail_matches o (comps l) (comps r).
Proof. exact path_match_ok. Qed.

Example sample_match : path_match (mkOptions false false false 0) (from_components sample)
  (from_components [(RelativeRoot, None); (Directory, Some (chars "*")); (File, Some (chars "FILE")); (Extension, Some (chars "Tar")); (Extension, Some (chars "gz"))]) = true.
Proof. reflexivity. Qed.
Example sample_mismatch : path_match (mkOptions true false false 0) (from_components sample)
  (from_components [(File, Some (chars "FILE")); (Extension, Some (chars "tar")); (Extension, Some (chars "gz"))]) = false.
Proof. reflexivity. Qed.

(** ** C52 *)

(** Whatever is done with a path, the strings it gives are those of its components at that time, while the current path
    begins with a volume and stays the same. *)
Theorem c52_strings_partial : forall v cur n l ops, anchored v cur -> Forall named l ->
  history_ok v cur (mkWorld (from_components cur) n) (from_components l) l ops.
Proof. intros v cur n l ops A H. apply history_all; [exact A|now apply start_world with v|now apply ok_nothing]. Qed.

(** With another current path a string that was made before is still given; with a relative current path none is made. *)
Definition set_current (w : world) (cur : list component) : world := mkWorld (from_components cur) (next w).
Theorem c52_refuted :
  (exists v1 v2 c1 c2 l w1 p1 s w2 p2, anchored v1 c1 /\ anchored v2 c2 /\ Forall named l /\
    call (mkWorld (from_components c1) 0) (from_components l) (Ask Full) = Some (w1, p1, Some s) /\
    call (set_current w1 c2) p1 (Ask Full) = Some (w2, p2, Some s) /\ ~ full_text v2 c2 l s) /\
  (exists l, Forall named l /\ call (mkWorld (from_components [(RelativeRoot, None); (Directory, Some (chars "x"))]) 0) (from_components l) (Ask Full) = None) /\
  (exists l, Forall named l /\ call (mkWorld (from_components [(Root, None)]) 0) (from_components l) (Ask Full) = None).
Proof.
  split; [|split].
  - exists (chars "a"), (chars "b"), [(Volume, Some (chars "a")); (Root, None)], [(Volume, Some (chars "b")); (Root, None)], [(RelativeRoot, None); (File, Some (chars "f"))]. eexists _, _, _, _, _.
    split; [|split; [|split; [|split; [|split]]]].
    + split; [eexists; reflexivity|]. split; repeat (constructor; [first [reflexivity|discriminate]|]); constructor.
    + split; [eexists; reflexivity|]. split; repeat (constructor; [first [reflexivity|discriminate]|]); constructor.
    + repeat (constructor; [reflexivity|]). constructor.
    + vm_compute. reflexivity.
    + vm_compute. reflexivity.
    + intros H. inversion H.
  - exists [(RelativeRoot, None)]. split; [repeat constructor|]. vm_compute. reflexivity.
  - exists [(Root, None); (File, Some (chars "f"))]. split; [repeat constructor|]. vm_compute. reflexivity.
Qed.

Example sample_history : exists w1 p1 w2 p2 w3 p3,
  call (mkWorld (from_components [(Volume, Some (chars "a")); (Root, None)]) 0) (from_components [(RelativeRoot, None); (Directory, Some (chars "d"))]) (Change (Append (File, Some (chars "f")))) = Some (w1, p1, None) /\
  call w1 p1 (Ask Full) = Some (w2, p2, Some (chars "//a/d/f")) /\ call w2 p2 (Ask Filename) = Some (w3, p3, Some (chars "f")).
Proof. eexists _, _, _, _, _, _. split; [reflexivity|]. split; reflexivity. Qed.

(** ** C53 *)

(** A string stays as it is while only such strings are asked for as the path has. *)
Theorem c53_valid_partial : forall v cur n l before q more w1 p1 w2 p2 r s w3 p3,
  anchored v cur -> Forall named l -> edits_ok l before ->
  calls (mkWorld (from_components cur) n) (from_components l) before = Some (w1, p1) ->
  ask w1 p1 q = Some (w2, p2, Some r) -> read p2 r = Some s ->
  only_asks (has_part (edited l before)) more -> calls w2 p2 more = Some (w3, p3) ->
  read p3 r = Some s.
Proof.
  intros v cur n l before q more w1 p1 w2 p2 r s w3 p3 A Hl E C1 Q R M C2.
  destruct (calls_ok v cur A before _ l _ w1 p1 (start_world v cur n A) (ok_nothing v cur l Hl) (fun b s (H : None = Some (b, s)) => ltac:(discriminate H)) E C1) as (W1 & P1 & F1).
  destruct (fresh_ask v cur A q _ _ _ _ _ _ W1 P1 F1 Q) as (W2 & P2 & F2). destruct (ask_cached v cur A q _ _ _ _ _ _ W1 P1 Q) as (t & C & _).
  destruct (asks_same v cur more w2 _ p2 _ _ w3 p3 W2 P2 C M C2) as [-> ->]. exact R.
Qed.

(** Asking for a filename or path the path does not have frees the strings that were given before. *)
Theorem c53_freed : forall v cur n l before q q' w1 p1 w2 p2 r w3 p3 x,
  anchored v cur -> Forall named l -> edits_ok l before ->
  calls (mkWorld (from_components cur) n) (from_components l) before = Some (w1, p1) ->
  ask w1 p1 q = Some (w2, p2, Some r) ->
  ~ has_part (edited l before) q' -> ask w2 p2 q' = Some (w3, p3, x) ->
  read p3 r = None.
Proof.
  intros v cur n l before q q' w1 p1 w2 p2 r w3 p3 x A Hl E C1 Q N Q'.
  destruct (calls_ok v cur A before _ l _ w1 p1 (start_world v cur n A) (ok_nothing v cur l Hl) (fun b s (H : None = Some (b, s)) => ltac:(discriminate H)) E C1) as (W1 & P1 & F1).
  destruct (fresh_ask v cur A q _ _ _ _ _ _ W1 P1 F1 Q) as (W2 & P2 & F2). destruct (ask_cached v cur A q _ _ _ _ _ _ W1 P1 Q) as (t & C & _).
  destruct (ask_new v cur A q' _ _ _ _ _ _ _ _ W2 P2 F2 C N Q') as (b & u & Eb & Nb). unfold read. rewrite Eb. destruct (Nat.eqb_spec b (fst r)); [contradiction|reflexivity].
Qed.

Theorem c53_refuted : exists v cur l w2 p2 r s w3 p3 x,
  anchored v cur /\ Forall named l /\ ask (mkWorld (from_components cur) 0) (from_components l) Full = Some (w2, p2, Some r) /\ read p2 r = Some s /\
  ask w2 p2 Filename = Some (w3, p3, x) /\ read p3 r = None.
Proof.
  exists (chars "a"), [(Volume, Some (chars "a")); (Root, None)], [(Root, None); (Directory, Some (chars "d"))]. eexists _, _, _, _, _, _, _.
  split; [split; [eexists; reflexivity|split; repeat (constructor; [first [reflexivity|discriminate]|]); constructor]|]. split; [repeat constructor|]. split; [vm_compute; reflexivity|]. split; [vm_compute; reflexivity|].
  split; vm_compute; reflexivity.
Qed.

Print Assumptions c29_round_trip_partial.
Print Assumptions c29_print_partial.
Print Assumptions c29_lossless_partial.
Print Assumptions c29_prefix_partial.
Print Assumptions c29_refuted.
Print Assumptions c30_match.
Print Assumptions c52_strings_partial.
Print Assumptions c52_refuted.
Print Assumptions c53_valid_partial.
Print Assumptions c53_freed.
Print Assumptions c53_refuted.
