(** Model of the input filter for file names: CommonC/CustomInputFilters.c 32-68 and the input filters of
    CommonC/Logging.c 418-448. *)
From Coq Require Import Ascii List NArith Bool.
Import ListNotations.

(** 32-51: the paths, the one added last first (57: the filter looks at them in that order).  Memory is
    available. *)
Definition add_path (p : list ascii) (paths : list (list ascii)) : list (list ascii) := p :: paths.

(** 59: strncmp over the length of the path *)
Fixpoint starts_with (p f : list ascii) : bool :=
  match p, f with
  | [], _ => true
  | _ :: _, [] => false
  | x :: p, y :: f => Ascii.eqb x y && starts_with p f
  end.
(** 55-58 *)
Fixpoint match_path (paths : list (list ascii)) (f : list ascii) : option (list ascii) :=
  match paths with
  | [] => None
  | p :: r => if starts_with p f then Some p else match_path r f
  end.

(** What an input filter is: CCFileFilterInput or one that only looks *)
Inductive input : Type := FileFilter | Looks.

(** What comes of a call: the file names of the messages that are made, in order.  [Bad]: undefined
    behaviour (strncmp of NULL).  [Deep]: more calls inside each other than [fuel]. *)
Inductive result : Type := Done (logged : list (option (list ascii))) | Bad | Deep.

(** Logging.c 418-448: the input filters in turn, then a message unless the option is CCLogOptionNone
    ([on] is whether it is not).  CCFileFilterInput calls CCLogv with the rest of the file name and sets the
    option to CCLogOptionNone (61-62).  [all]: the registered filters, [fs]: those still to come. *)
Fixpoint run (fuel : nat) (paths : list (list ascii)) (all : list input) (on : bool) (file : option (list ascii))
  {struct fuel} : result :=
  match fuel with
  | O => Deep
  | S fuel =>
      (fix filters (fs : list input) (on : bool) (logged : list (option (list ascii))) : result :=
         match fs with
         | [] => Done (if on then logged ++ [file] else logged)
         | Looks :: fs => filters fs on logged
         | FileFilter :: fs =>
             match paths, file with
             | [], _ => filters fs on logged
             | _ :: _, None => Bad
             | _ :: _, Some f =>
                 match match_path paths f with
                 | None => filters fs on logged
                 | Some p =>
                     match run fuel paths all on (Some (skipn (length p) f)) with
                     | Done l => filters fs false (logged ++ l)
                     | r => r
                     end
                 end
             end
         end) all on []
  end.
