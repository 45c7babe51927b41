(** A volume as a mapping from lists of names to directories and files. *)
From Verif Require Import Base VolumeModel.
From Verif Require PathModel.

Inductive entry := Dir | File (contents : list N).

(** What is at a place in the volume *)
Definition view (t : node) (q : list name) : option entry :=
  match get t q with Some (NDir _) => Some Dir | Some (NFile c) => Some (File c) | None => None end.

(** A volume: the root is a directory *)
Definition volume (t : node) : Prop := view t [] = Some Dir.

(** The path //volume/d1/d2/…/ and the path of the file "f.e1.e2…" in it. The volume's name does not matter here. *)
Definition dir_path (v : option name) (ds : list name) : list PathModel.component :=
  (PathModel.Volume, v) :: (PathModel.Root, None) :: map (fun d => (PathModel.Directory, Some d)) ds.
Definition file_comps (f : name) (es : list name) : list PathModel.component :=
  (PathModel.File, Some f) :: map (fun e => (PathModel.Extension, Some e)) es.
Definition file_path (v : option name) (ds : list name) (f : name) (es : list name) : list PathModel.component := dir_path v ds ++ file_comps f es.
Definition joined (f : name) (es : list name) : name := f ++ concat (map (fun e => 46%N :: e) es).

Definition prefix (p q : list name) : Prop := exists r, q = p ++ r.

(** Two volumes with the same contents *)
Definition same (t t' : node) : Prop := forall q, view t' q = view t q.

(** [t'] has a directory at [p] and at every prefix of it, and is otherwise as [t] *)
Definition with_directories (t t' : node) (p : list name) : Prop :=
  forall q, (prefix q p -> view t' q = Some Dir) /\ (~ prefix q p -> view t' q = view t q).

(** [t'] is as [t] without [p] and what is in it *)
Definition without (t t' : node) (p : list name) : Prop :=
  forall q, (prefix p q -> view t' q = None) /\ (~ prefix p q -> view t' q = view t q).

(** [t'] is as [t] with [e] at [p] *)
Definition with_entry (t t' : node) (p : list name) (e : entry) : Prop :=
  forall q, (q = p -> view t' q = Some e) /\ (q <> p -> view t' q = view t q).

(** [t'] is as [t], with what [t] has at and below [p] at and below [p'] as well *)
Definition with_copy (t t' : node) (p p' : list name) : Prop :=
  forall q, (forall r, q = p' ++ r -> view t' q = view t (p ++ r)) /\ (~ prefix p' q -> view t' q = view t q).

(** Directories and ".." components, and where they lead from a place *)
Inductive turn := Down (d : name) | Up.
Definition turn_comp (x : turn) : PathModel.component := match x with Down d => (PathModel.Directory, Some d) | Up => (PathModel.Parent, None) end.
Definition follow (p : list name) (x : turn) : list name := match x with Down d => p ++ [d] | Up => removelast p end.
Definition destination (p : list name) (xs : list turn) : list name := fold_left follow xs p.
Definition turn_path (v : option name) (xs : list turn) : list PathModel.component := dir_path v [] ++ map turn_comp xs.

(** No file is in the way to [p], or at it *)
Definition clear (t : node) (p : list name) : Prop := forall q c, prefix q p -> view t q <> Some (File c).

(** ** Names and listings *)
From Verif Require PathSpec.

(** The names of files as paths give them: a name without dots and extensions, or one that begins with a dot and has an
    extension. *)
Definition parts (f : name) (es : list name) : Prop :=
  Forall PathSpec.plain es /\ (PathSpec.plain f \/ exists n, PathSpec.plain n /\ f = 46%N :: n /\ es <> []).
Definition file_named (k : name) : Prop := exists f es, k = joined f es /\ parts f es.
Definition named_files (t : node) : Prop := forall q k c, view t (q ++ [k]) = Some (File c) -> file_named k.

(** No directory has two entries with the same name *)
Definition unique (t : node) : Prop := forall q l, get t q = Some (NDir l) -> NoDup (map fst l).

(** [q] is the path of the entry [e] at [p] *)
Definition path_of (v : option name) (p : list name) (e : entry) (q : list PathModel.component) : Prop :=
  match e with
  | Dir => q = dir_path v p
  | File _ => exists ds f es, p = ds ++ [joined f es] /\ parts f es /\ q = file_path v ds f es
  end.

(** The places below a directory that a listing is about: those in it, and with the recursive option those further down *)
Definition below (o : listing) (r : list name) : Prop := r <> [] /\ (recursively o = false -> length r = 1).

(** What the options ask for: names are those that match one of the paths, or all when there are none *)
Definition asked_for (o : listing) (naming : option (list (list PathModel.component))) (q : list PathModel.component) (e : entry) : Prop :=
  let named := match naming with None | Some [] => True | Some l => exists m, In m l /\ PathSpec.tail_matches (matching o) q m end in
  (if blacklist o then ~ named else named) /\
  match e with Dir => skip_directories o = false | File _ => skip_files o = false end.

(** ** Copies *)

(** Every directory at or below [p] has something in it *)
Definition no_empty_directories (t : node) (p : list name) : Prop :=
  forall r, view t (p ++ r) = Some Dir -> exists k, view t (p ++ r ++ [k]) <> None.

(** The files below [p] have names with at most [n] extensions *)
Definition few_extensions (t : node) (p : list name) (n : nat) : Prop :=
  forall r f es c, view t (p ++ r ++ [joined f es]) = Some (File c) -> parts f es -> length es <= n.

(** The files below [p] are smaller than 2^63 bytes *)
Definition small_files (t : node) (p : list name) : Prop := forall r c, view t (p ++ r) = Some (File c) -> (N.of_nat (length c) < 2 ^ 63)%N.

(** [t'] is as [t], with what [t] has at and below [p] at and below [p'] instead *)
Definition moved (t t' : node) (p p' : list name) : Prop :=
  forall q, (forall r, q = p' ++ r -> view t' q = view t (p ++ r)) /\ (prefix p q -> view t' q = None) /\
            (~ prefix p' q -> ~ prefix p q -> view t' q = view t q).

(** The same for a single file *)
Definition moved_file (t t' : node) (p p' : list name) (c : list N) : Prop :=
  forall q, (q = p' -> view t' q = Some (File c)) /\ (prefix p q -> view t' q = None) /\ (q <> p' -> ~ prefix p q -> view t' q = view t q).

(** ** What the caller of a listing wants: all names when none are given, otherwise those that match a name, or with the
    blacklist option those that match none *)
Definition wanted (o : listing) (naming : option (list (list PathModel.component))) (q : list PathModel.component) (e : entry) : Prop :=
  match naming with
  | None | Some [] => True
  | Some l => if blacklist o then forall m, In m l -> ~ PathSpec.tail_matches (matching o) q m else exists m, In m l /\ PathSpec.tail_matches (matching o) q m
  end /\
  match e with Dir => skip_directories o = false | File _ => skip_files o = false end.

(** The volumes that come from the empty one by creating and removing directories and files and writing to files *)
Inductive reached : node -> Prop :=
| NothingYet : reached (NDir [])
| MadeDirectory cur inter v ds t t' b : reached t -> length ds <= 125 -> create cur inter (dir_path v ds) t = Some (t', b) -> reached t'
| MadeFile cur inter v ds f es t t' b : reached t -> length ds + 1 + length es <= 125 -> parts f es -> create cur inter (file_path v ds f es) t = Some (t', b) -> reached t'
| RemovedDirectory cur v ds t t' b : reached t -> length ds <= 125 -> ds <> [] -> remove cur (dir_path v ds) t = Some (t', b) -> reached t'
| RemovedFile cur v ds f es t t' b : reached t -> length ds + 1 + length es <= 125 -> remove cur (file_path v ds f es) t = Some (t', b) -> reached t'
| Written t p c b : reached t -> view t p = Some (File c) -> reached (alter t p (fun _ => NFile b)).
