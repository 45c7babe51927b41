(** C78: the input filter for file names. *)
From Coq Require Import Ascii List NArith Bool Lia.
From Verif Require Import InputModel InputSpec InputProofs.
Import ListNotations.
Open Scope char_scope.

(** Whatever paths were added and however often the filter is registered, a call with a file name gives
    exactly one message, and its file name is the call's without the paths at its front; a call that is
    switched off gives none.  Partial: no empty path was added. *)
Theorem c78_once_partial : forall paths all f,
  (forall p, In p paths -> p <> []) -> In FileFilter all ->
  exists fuel g, shortened paths f g /\ (forall g', shortened paths f g' -> g' = g) /\
    forall n, (fuel <= n)%nat ->
      run n paths all true (Some f) = Done [Some g] /\ run n paths all false (Some f) = Done [].
Proof.
  intros paths all f Ne Ha. exists (S (length f)).
  destruct (run_ok paths all Ne Ha (S (length f)) f (le_n _)) as (_ & g & Hg & _). exists g.
  split; [exact Hg|]. split; [intros g' H; exact (shortened_unique paths f g' Ne H g Hg)|].
  intros n Hn. destruct (run_ok paths all Ne Ha n f Hn) as (R0 & g1 & Hg1 & R1).
  rewrite (shortened_unique paths f g Ne Hg g1 Hg1). split; assumption.
Qed.
Print Assumptions c78_once_partial.

(** Without paths nothing changes, with or without a file name. *)
Theorem c78_no_paths : forall all on file n,
  run (S n) [] all on file = Done (if on then [file] else []).
Proof. exact (fun all on file n => no_paths n all on file). Qed.
Print Assumptions c78_no_paths.

(** "/src/" and "lib/", the filter registered twice: "/src/lib/a.c" is logged once, as "a.c" *)
Example c78_once_case :
  exists fuel, forall n, (fuel <= n)%nat ->
    run n (add_path ["l"; "/"] (add_path ["/"; "s"; "/"] [])) [FileFilter; Looks; FileFilter] true
      (Some ["/"; "s"; "/"; "l"; "/"; "a"; "."; "c"]) = Done [Some ["a"; "."; "c"]].
Proof.
  set (paths := add_path _ _).
  assert (forall p, In p paths -> p <> []) as Ne by (intros p [<-|[<-|[]]]; discriminate).
  destruct (c78_once_partial paths [FileFilter; Looks; FileFilter] ["/"; "s"; "/"; "l"; "/"; "a"; "."; "c"] Ne (or_introl eq_refl))
    as (fuel & g & _ & U & H).
  exists fuel. intros n Hn. rewrite (proj1 (H n Hn)). do 2 f_equal. f_equal. symmetry. apply U.
  apply (s_step paths ["/"; "s"; "/"] ["l"; "/"; "a"; "."; "c"]).
  - exists [["l"; "/"]], []. split; [reflexivity|]. split; [eexists; reflexivity|]. intros q r [<-|[]]; discriminate.
  - apply (s_step paths ["l"; "/"] ["a"; "."; "c"]).
    + exists [], [["/"; "s"; "/"]]. split; [reflexivity|]. split; [eexists; reflexivity|intros q r []].
    + apply s_stop. intros p r [<-|[<-|[]]]; discriminate.
Qed.

(** Once the empty path was added, no call with a file name ends. *)
Theorem c78_empty_path_refuted : forall paths all f on n,
  In [] paths -> In FileFilter all -> run n paths all on (Some f) = Deep.
Proof. exact (fun paths all f on n He Ha => empty_path paths all He Ha n f on). Qed.
Print Assumptions c78_empty_path_refuted.

(** Once a path was added, a call without a file name is undefined behaviour. *)
Theorem c78_no_file_refuted : forall paths all on n,
  paths <> [] -> In FileFilter all -> run (S n) paths all on None = Bad.
Proof. exact (fun paths all on n => no_file paths all n on). Qed.
Print Assumptions c78_no_file_refuted.
