(** Model of FSManagerRename (CommonC/FileSystem.c 60-102): the path it moves
    to.  Paths are lists of components as in PathModel; the move itself
    (FSManagerMove) is one call to the system and is not modelled. *)
From Verif Require Import Base PathModel.

(** FileSystem.c 70-80: the components of the file name are taken off the end.
    [n] is Loop. *)
Fixpoint take_off (n : nat) (l : list component) : option (list component) :=
  match n with
  | O => Some l
  | S index =>
      let? c := nth_error l index in
      if in_filename (fst c) then let? l := changed l (RemoveAt index) in take_off index l
      else Some l
  end.

(** FileSystem.c 85-88: the components of the name are put at the end *)
Fixpoint append_all (l cs : list component) : option (list component) :=
  match cs with
  | [] => Some l
  | c :: cs => let? l := changed l (Append c) in append_all l cs
  end.

(** FileSystem.c 60-102, up to the move. [None]: replacing the last of no
    components. *)
Definition renamed (l : list component) (name : list N) : option (list component) :=
  if is_file (from_components l) then
    let? l := take_off (length l) l in
    let? cs := convert name false in
    append_all l cs
  else
    match length l with
    | O => None
    | S last => changed l (SetAt last (Directory, Some name))
    end.
