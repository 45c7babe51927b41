(** What C29, C30, C52 and C53 mean. *)
From Verif Require Import Base PathModel.

(** ** The text of components (Path.h 78-94) *)

Definition text (c : component) : list N :=
  match c with
  | (Volume, Some n) => [47; 47]%N ++ n
  | (Root, _) => [47]%N
  | (Directory, Some n) => n ++ [47]%N
  | (Parent, _) => [46; 46; 47]%N
  | (File, Some n) => n
  | (Extension, Some n) => [46]%N ++ n
  | _ => []
  end.
Definition print (cs : list component) : list N := concat (map text cs).

(** A C string. *)
Definition c_string (s : list N) : Prop := Forall (fun c => c <> 0%N) s.

(** A name without separators. *)
Definition plain (n : list N) : Prop := n <> [] /\ Forall (fun c => c <> 0 /\ c <> 47 /\ c <> 46)%N n.

(** The names of directories that can be read back: a dot may be anywhere but at the beginning; after a dot at the
    beginning comes something else and then there is another dot. *)
Definition dir_name (n : list N) : Prop :=
  Forall (fun c => c <> 0 /\ c <> 47)%N n /\
  exists c r, c <> 46%N /\ (n = c :: r \/ n = 46%N :: c :: r /\ In 46%N r).

(** Extensions, and what may stand at the end of a path: nothing, a file with extensions, a file whose name begins with
    a dot and that has an extension, or an extension alone. *)
Definition extension (c : component) : Prop := exists n, plain n /\ c = (Extension, Some n).
Inductive file_part : list component -> Prop :=
| no_file : file_part []
| a_file n es : plain n -> Forall extension es -> file_part ((File, Some n) :: es)
| hidden_file n e es : plain n -> Forall extension (e :: es) -> file_part ((File, Some (46%N :: n)) :: e :: es)
| lone_extension e : extension e -> file_part [e].

(** The lists of components that have a text of their own. A volume is followed by a root or volume, a root by neither. *)
Inductive place := Anywhere | After_volume | After_root.
Inductive readable : place -> list component -> Prop :=
| r_end p f : file_part f -> (p = After_volume -> f = []) -> readable p f
| r_volume p n l : plain n -> p <> After_root -> readable After_volume l -> readable p ((Volume, Some n) :: l)
| r_root p l : p <> After_root -> readable After_root l -> readable p ((Root, None) :: l)
| r_directory p n l : dir_name n -> p <> After_volume -> readable Anywhere l -> readable p ((Directory, Some n) :: l)
| r_parent p l : p <> After_volume -> readable Anywhere l -> readable p ((Parent, None) :: l).

(** A path that does not begin with a volume or root is relative. *)
Definition completed (cs : list component) : list component :=
  match cs with
  | [] | (Volume, _) :: _ | (Root, _) :: _ => cs
  | _ => (RelativeRoot, None) :: cs
  end.

(** No name in the path is ".". *)
Definition no_dot_names (s : list N) : Prop :=
  (forall r, s <> [46; 47]%N ++ r) /\ (forall a r, s <> a ++ [47; 46; 47]%N ++ r).

(** ** Matching *)

Definition lower (c : N) : N := if ((65 <=? c) && (c <=? 90))%N then (c + 32)%N else c.
(** The character that stands for any name when it is the first of a name; '*' unless another is given. *)
Definition any_name (o : options) (n : list N) : Prop :=
  literal o = false /\ exists r, n = (if (wildcard o =? 0)%N then 42%N else wildcard o) :: r.
Definition names_match (o : options) (a b : list N) : Prop :=
  any_name o a \/ any_name o b \/ (if case_sensitive o then a = b else map lower a = map lower b).
Definition components_match (o : options) (a b : component) : Prop :=
  (fst a = fst b /\ forall x y, snd a = Some x -> snd b = Some y -> names_match o x y) \/
  (fst a <> fst b /\ require_root o = false /\ (fst a = RelativeRoot \/ fst b = RelativeRoot)).
(** One list matches the end of the other. *)
Definition tail_matches (o : options) (l r : list component) : Prop :=
  (exists a b, r = a ++ b /\ Forall2 (components_match o) l b) \/ (exists a b, l = a ++ b /\ Forall2 (components_match o) b r).
(** Names are given exactly for the components that have one. *)
Definition has_name (k : kind) : bool := match k with Volume | Directory | File | Extension => true | _ => false end.
Definition named (c : component) : Prop := match snd c with Some _ => has_name (fst c) = true | None => has_name (fst c) = false end.

(** ** The strings of a path *)

(** A list as a user writes one: a relative root or not, then directories, then a file. *)
Definition dir_kind (c : component) : Prop := fst c = Volume \/ fst c = Root \/ fst c = Directory \/ fst c = Parent.
Definition file_kind (c : component) : Prop := fst c = File \/ fst c = Extension.
Definition ordinary (rel : bool) (ds fs l : list component) : Prop :=
  l = (if rel then [(RelativeRoot, None)] else []) ++ ds ++ fs /\ Forall dir_kind ds /\ Forall file_kind fs.

Definition or_null (l : list component) (s : list N) : option (list N) := match l with [] => None | _ => Some s end.

(** The strings while [cur] is the current path, whose volume is [v]: the path as such, from the current path for a
    relative path, and with the current volume when the path has none. *)
Definition has_volume (l : list component) : Prop := exists n, In (Volume, n) l.
Inductive full_text (v : list N) (cur l : list component) : list N -> Prop :=
| full_relative : In (RelativeRoot, None) l -> full_text v cur l (concat (map (fun c => match fst c with RelativeRoot => print cur | _ => text c end) l))
| full_volume : ~ In (RelativeRoot, None) l -> has_volume l -> full_text v cur l (print l)
| full_other : ~ In (RelativeRoot, None) l -> ~ has_volume l -> full_text v cur l ([47; 47]%N ++ v ++ print l).

Inductive query := Full | Tail | Filename.
Inductive op := Change (c : change) | Ask (q : query).

(** What a change does to a list. *)
Definition edit (l : list component) (o : change) : list component :=
  match o with
  | SetAt i c => firstn i l ++ [c] ++ skipn (i + 1) l
  | InsertAt i c => firstn i l ++ [c] ++ skipn i l
  | Append c => l ++ [c]
  | Prepend c => [c] ++ l
  | RemoveAt i => firstn i l ++ skipn (i + 1) l
  | RemoveLast => firstn (length l - 1) l
  end.
Definition edit_ok (l : list component) (o : change) : Prop :=
  match o with
  | SetAt i c => i < length l /\ named c
  | InsertAt i c => i <= length l /\ named c
  | Append c | Prepend c => named c
  | RemoveAt i => i < length l
  | RemoveLast => l <> []
  end.

(** A call on a path, and the string that is returned as it reads then. *)
Definition call (w : world) (p : path) (o : op) : option (world * path * option (list N)) :=
  match o with
  | Change c => let? p := mutate p c in Some (w, p, None)
  | Ask q =>
    let? (w, p, r) := match q with Full => full_string w p | Tail => path_string w p | Filename => filename_string w p end in
    match r with None => Some (w, p, None) | Some r => let? s := read p r in Some (w, p, Some s) end
  end.

(** What an answer should be. The full string of a path that has no text at all (no components, or files with empty
    names) is NULL. *)
Definition blank (l : list component) : Prop := Forall (fun c => c = (File, Some [])) l.
Definition answer_ok (v : list N) (cur l : list component) (o : op) (r : option (list N)) : Prop :=
  match o with
  | Change _ => r = None
  | Ask Full => match r with None => blank l | Some s => ~ blank l /\ full_text v cur l s end
  | Ask Tail => forall rel ds fs, ordinary rel ds fs l -> ~ blank l -> r = or_null (ds ++ fs) (print (ds ++ fs))
  | Ask Filename => forall rel ds fs, ordinary rel ds fs l -> ~ blank l -> r = or_null fs (print fs)
  end.

(** Every call of a history succeeds and answers as it should. *)
Fixpoint history_ok (v : list N) (cur : list component) (w : world) (p : path) (l : list component) (ops : list op) : Prop :=
  match ops with
  | [] => True
  | o :: ops =>
    match o with Change c => edit_ok l c | _ => True end ->
    exists w' p' r, call w p o = Some (w', p', r) /\ answer_ok v cur l o r /\
      history_ok v cur w' p' (match o with Change c => edit l c | _ => l end) ops
  end.

(** A current path that begins with a volume and has no relative root; nothing has been asked of it yet. *)
Definition anchored (v : list N) (cur : list component) : Prop :=
  (exists l, cur = (Volume, Some v) :: l) /\ Forall named cur /\ Forall (fun c => fst c <> RelativeRoot) cur.

(** ** How long a string stays valid *)

Definition ask (w : world) (p : path) (q : query) : option (world * path * option pointer) :=
  match q with Full => full_string w p | Tail => path_string w p | Filename => filename_string w p end.
Fixpoint calls (w : world) (p : path) (ops : list op) : option (world * path) :=
  match ops with [] => Some (w, p) | o :: ops => let? (w, p, _) := call w p o in calls w p ops end.
(** The calls are within bounds, and the components after them. *)
Fixpoint edits_ok (l : list component) (ops : list op) : Prop :=
  match ops with
  | [] => True
  | Change c :: ops => edit_ok l c /\ edits_ok (edit l c) ops
  | Ask _ :: ops => edits_ok l ops
  end.
Definition edited (l : list component) (ops : list op) : list component :=
  fold_left (fun l o => match o with Change c => edit l c | Ask _ => l end) ops l.
(** The path has something of the kind that is asked for. *)
Definition has_part (l : list component) (q : query) : Prop :=
  match q with
  | Full => True
  | Tail => Exists (fun c => fst c <> RelativeRoot) l
  | Filename => Exists file_kind l
  end.
Definition only_asks (P : query -> Prop) (ops : list op) : Prop := Forall (fun o => match o with Ask q => P q | Change _ => False end) ops.
