(** Model of CommonC/Path.c and PathComponent.c. A C string is the list of its bytes without the terminating 0. The
    components of a path are a list (C05: an ordered collection behaves as one). Allocation succeeds. [None]: undefined
    behaviour, which includes unbounded recursion. Counts of characters are unbounded (the code has [int]s). *)
From Verif Require Import Base.

(** PathComponent.h 33-43: FSPathComponentType. FSPathComponentTypeInvalid is what a failed allocation gives, and is
    left out. *)
Inductive kind := Volume | Root | RelativeRoot | Directory | Parent | File | Extension.
Definition kind_eqb (a b : kind) : bool :=
  match a, b with
  | Volume, Volume | Root, Root | RelativeRoot, RelativeRoot | Directory, Directory | Parent, Parent | File, File | Extension, Extension => true
  | _, _ => false
  end.

(** PathComponent.h 45, 86-94: the kind is in the low bits of the pointer to the name. [None]: NULL *)
Definition component : Type := kind * option (list N).

Definition slash : N := 47.
Definition dot : N := 46.

(** Lines 42-90: FSPathFoundComponentTypeFromInputs *)
Definition found (current first : N) (slashes dots chars : nat) : option kind :=
  if (first =? slash)%N then
    if ((current =? 0)%N || (current =? slash)%N) && (slashes =? 2) && (dots =? 0) && negb (chars =? 0) then Some Volume
    else if ((current =? 0)%N || negb (current =? slash)%N) && (slashes =? 1) && (dots =? 0) && (chars =? 0) then Some Root
    else None
  else if (first =? dot)%N then
    if negb (slashes =? 0) && (dots =? 2) && (chars =? 0) then Some Parent
    else if ((current =? 0)%N || (current =? dot)%N) && (slashes =? 0) && (dots =? 1) && negb (chars =? 0) then Some Extension
    else None
  else
    if negb (slashes =? 0) && (dots =? 0) && negb (chars =? 0) then Some Directory
    else if ((current =? 0)%N || (current =? dot)%N) && (slashes =? 0) && (dots =? 0) && negb (chars =? 0) then Some File
    else None.

(** Lines 92-104: FSPathCopyString of the [len] bytes at [at_]; [None]: they are not all in the string *)
Definition copy_string (path : list N) (at_ len : Z) : option (list N) :=
  if ((0 <=? at_) && (0 <=? len) && (at_ + len <=? Z.of_nat (length path)))%Z then Some (slice path (Z.to_nat at_) (Z.to_nat len)) else None.

(** Lines 106-135: FSPathCreateComponent, [len] bytes at [at_] in the path *)
Definition create_component (path : list N) (k : kind) (at_ len : Z) : option component :=
  match k with
  | Volume => let? n := copy_string path (at_ + 2) (len - 2) in Some (k, Some n)
  | Directory => let? n := copy_string path at_ (len - 1) in Some (k, Some n)
  | File => let? n := copy_string path at_ len in Some (k, Some n)
  | Extension => let? n := copy_string path (at_ + 1) (len - 1) in Some (k, Some n)
  | _ => Some (k, None)
  end.

(** Lines 139-144: the locals. [done] are the components, the last one first; [start] is the offset of Start in the path. *)
Record parser := mkParser { done : list component; start : Z; slashes : nat; dots : nat; chars : nat; has_file : bool }.

(** Lines 171-174: the components taken off the end, and where Start goes. The code forms a pointer in front of the
    string when the directory is the first component; that is taken to work. *)
Fixpoint unfile (done : list component) (start : Z) : option (list component * Z) :=
  match done with
  | ((File | Extension), n) :: rest => let? n := n in unfile rest (start - (Z.of_nat (length n) + 1))
  | _ => Some (done, start)
  end.

(** Lines 188-201 *)
Definition counted (c : N) (p : parser) : parser :=
  if (c =? slash)%N then mkParser (done p) (start p) (slashes p + 1) (dots p) (chars p) (has_file p)
  else if (c =? dot)%N then mkParser (done p) (start p) (slashes p) (dots p + 1) (chars p) (has_file p)
  else mkParser (done p) (start p) (slashes p) (dots p) (chars p + 1) (has_file p).

(** [*Start]: 0 at the end of the string *)
Definition first_char (path : list N) (at_ : Z) : N := nth (Z.to_nat at_) path 0%N.

(** Lines 145-202, one character [c] at offset [i] *)
Definition parse_char (path : list N) (i : Z) (c : N) (p : parser) : option parser :=
  match found c (first_char path (start p)) (slashes p) (dots p) (chars p) with
  | Some k =>
    let '(k, h) := if has_file p then (k, true) else match k with File => (File, true) | Extension => (File, true) | _ => (k, false) end in
    let? comp := create_component path k (start p) (i - start p) in
    Some (counted c (mkParser (comp :: done p) i 0 0 0 h))
  | None =>
    if has_file p && (c =? slash)%N then
      let? (d, s) := unfile (done p) (start p) in
      let? comp := create_component path Directory (s + 1) (i - s) in
      Some (mkParser (comp :: d) (i + 1) 0 0 0 false)
    else Some (counted c p)
  end.

Fixpoint parse_loop (path : list N) (i : Z) (rest : list N) (p : parser) : option parser :=
  match rest with
  | [] => Some p
  | c :: rest => let? p := parse_char path i c p in parse_loop path (i + 1) rest p
  end.

(** Lines 137-220: FSPathConvertPathToComponents *)
Definition convert (path : list N) (complete : bool) : option (list component) :=
  let? p := parse_loop path 0 path (mkParser [] 0 0 0 0 false) in
  let? d := match found 0 (first_char path (start p)) (slashes p) (dots p) (chars p) with
            | Some k => let? comp := create_component path k (start p) (Z.of_nat (length path) - start p) in Some (comp :: done p)
            | None => Some (done p)
            end in
  let l := rev d in
  Some (match l with
        | (k, _) :: _ => if complete && negb (kind_eqb k Volume) && negb (kind_eqb k Root) then (RelativeRoot, None) :: l else l
        | [] => l
        end).

(** ** Path objects *)

(** Path.h 33-37: FSPathInfo. [complete] is completeRep: the block of memory it is in, and the string; [filename] and
    [tail] (pathRep) are pointers into it, as offsets. *)
Record path := mkPath { comps : list component; complete : option (nat * list N); filename : option nat; tail : option nat }.

(** The current path of the thread (lines 222-238), and the number of the next block that is allocated *)
Record world := mkWorld { current : path; next : nat }.

(** Lines 262-289: FSPathCreateFromComponents, FSPathCreate *)
Definition from_components (l : list component) : path := mkPath l None None None.
Definition create (s : list N) : option path := let? l := convert s true in Some (from_components l).

(** Lines 298-310: FSPathCopy *)
Definition copy (p : path) : path := from_components (comps p).

(** Lines 527-543: FSPathGetVolume, and the string of the component. The second case of the code (the path is not the
    current path) looks at the current path; the string of FSPathComponentTypeInvalid is NULL. [None]: there is no
    first component. *)
Definition volume_of (w : world) (p : path) : option (option (list N)) :=
  match comps p with
  | [] => None
  | (Volume, n) :: _ => Some n
  | _ => match comps (current w) with [] => None | (Volume, n) :: _ => Some n | _ => Some None end
  end.

(** Lines 401-430: what a component adds to the length, besides the full path for RelativeRoot *)
Definition name_length (c : component) : nat := match snd c with Some n => length n | None => 0 end.
Definition extra_length (k : kind) : nat :=
  match k with Volume | Root => 2 | Directory | Extension => 1 | Parent => 3 | RelativeRoot | File => 0 end.

(** Lines 453-493: what is written for a component. [full] is FSPathGetFullPathString(FSPathCurrent()). "%s" of NULL
    is undefined. *)
Definition written (full : option (list N)) (c : component) : option (list N) :=
  match c with
  | (Volume, n) => let? n := n in Some (slash :: slash :: n)
  | (Root, _) => Some [slash]
  | (RelativeRoot, _) => full
  | (Directory, n) => let? n := n in Some (n ++ [slash])
  | (Parent, _) => Some [dot; dot; slash]
  | (File, n) => n
  | (Extension, n) => let? n := n in Some (dot :: n)
  end.

Definition is_relative_root (c : component) : bool := kind_eqb (fst c) RelativeRoot.
Definition in_filename (k : kind) : bool := match k with File | Extension => true | _ => false end.
Definition in_tail (k : kind) : bool := match k with Volume | Root | Directory | Parent => true | _ => false end.

(** Lines 453-496: the string, and the offsets of filenameRep and pathRep. [at_] is Current - completeRep. *)
Fixpoint render (full : option (list N)) (l : list component) (at_ : nat) (file path : option nat) : option (list N * option nat * option nat) :=
  match l with
  | [] => Some ([], file, match path with None => file | _ => path end)
  | c :: l =>
    let path := match path with None => if in_tail (fst c) then Some at_ else None | _ => path end in
    let file := match file with None => if in_filename (fst c) then Some at_ else None | _ => file end in
    let? t := written full c in
    let? (r, file, path) := render full l (at_ + length t) file path in
    Some (t ++ r, file, path)
  end.

(** Lines 395-498: FSPathCreatePathStringCache of a path, given what FSPathGetFullPathString(FSPathCurrent()) returns
    ([full], [None] when it is NULL). The buffer must be large enough for what is written and a 0. *)
Definition fill_cache (w : world) (full : option (list N)) (p : path) : option (world * path) :=
  let relative := existsb is_relative_root (comps p) in
  let? full_length := if relative then let? f := full in Some (length f) else Some 0 in
  let len := list_sum (map (fun c => name_length c + extra_length (fst c) + (if is_relative_root c then full_length else 0)) (comps p)) in
  if len =? 0 then Some (w, mkPath (comps p) None None None)
  else
    let? (prefix, len) :=
      if relative || existsb (fun c => kind_eqb (fst c) Volume) (comps p) then Some ([], len)
      else let? v := volume_of w p in let? v := v in Some (slash :: slash :: v, len + 2 + length v) in
    let? (t, file, path) := render full (comps p) (length prefix) None None in
    if length (prefix ++ t) <=? len then Some (mkWorld (current w) (next w + 1), mkPath (comps p) (Some (next w, prefix ++ t)) file path)
    else None.

(** FSPathGetFullPathString(FSPathCurrent()), lines 500-507: when the current path has no string yet one is made for
    it; with a relative root in it this does not end. [Some (w, None)]: NULL *)
Definition current_full (w : world) : option (world * option (list N)) :=
  match complete (current w) with
  | Some (_, s) => Some (w, Some s)
  | None =>
    if existsb is_relative_root (comps (current w)) then None
    else
      let? (w', c) := fill_cache w None (current w) in
      Some (mkWorld c (next w'), match complete c with Some (_, s) => Some s | None => None end)
  end.

(** Lines 395-498 again: the current path's string is only asked for when there is a relative root. The path is not the
    current path itself. *)
Definition make_cache (w : world) (p : path) : option (world * path) :=
  if existsb is_relative_root (comps p) then let? (w, full) := current_full w in fill_cache w full p else fill_cache w None p.

(** A string that was returned: its block and the offset in it *)
Definition pointer : Type := nat * nat.

(** Lines 500-525: FSPathGetFullPathString, FSPathGetPathString, FSPathGetFilenameString *)
Definition full_string (w : world) (p : path) : option (world * path * option pointer) :=
  let? (w, p) := match complete p with None => make_cache w p | _ => Some (w, p) end in
  Some (w, p, match complete p with Some (b, _) => Some (b, 0) | None => None end).
Definition in_block (p : path) (o : option nat) : option pointer :=
  match complete p, o with Some (b, _), Some o => Some (b, o) | _, _ => None end.
Definition path_string (w : world) (p : path) : option (world * path * option pointer) :=
  let? (w, p) := match tail p with None => make_cache w p | _ => Some (w, p) end in Some (w, p, in_block p (tail p)).
Definition filename_string (w : world) (p : path) : option (world * path * option pointer) :=
  let? (w, p) := match filename p with None => make_cache w p | _ => Some (w, p) end in Some (w, p, in_block p (filename p)).

(** What a string reads as; [None]: its block has been freed *)
Definition read (p : path) (q : pointer) : option (list N) :=
  match complete p with Some (b, s) => if b =? fst q then Some (skipn (snd q) s) else None | None => None end.

(** Lines 319-386: the functions that change the components; the strings are freed. A path that is not the current or
    the default path. *)
Inductive change := SetAt (i : nat) (c : component) | InsertAt (i : nat) (c : component) | Append (c : component) | Prepend (c : component) | RemoveAt (i : nat) | RemoveLast.
Definition changed (l : list component) (o : change) : option (list component) :=
  match o with
  | SetAt i c => if i <? length l then Some (upd l i c) else None
  | InsertAt i c => if i <=? length l then Some (insert_at l i [c]) else None
  | Append c => Some (l ++ [c])
  | Prepend c => Some (c :: l)
  | RemoveAt i => if i <? length l then Some (remove_at l i 1) else None
  | RemoveLast => match l with [] => None | _ => Some (removelast l) end
  end.
Definition mutate (p : path) (o : change) : option path := let? l := changed (comps p) o in Some (mkPath l None None None).

(** Lines 545-565: FSPathIsFile, FSPathIsDirectory, FSPathIsRelativePath *)
Definition is_file (p : path) : bool := match rev (comps p) with [] => false | c :: _ => in_filename (fst c) end.
Definition is_directory (p : path) : bool := negb (is_file p).
Definition is_relative (p : path) : bool := match comps p with [] => false | c :: _ => is_relative_root c end.

(** ** Matching *)

(** Path.h 45-73: the options that FSPathMatch looks at; [wildcard] is 0 for the default *)
Record options := mkOptions { case_sensitive : bool; literal : bool; require_root : bool; wildcard : N }.

(** Line 576 *)
Definition wildcard_of (o : options) : option N := if literal o then None else Some (if (wildcard o =? 0)%N then 42%N else wildcard o).

(** tolower in the "C" locale; bytes from 128 on are negative characters and taken to stay as they are *)
Definition tolower (c : N) : N := if ((65 <=? c) && (c <=? 90))%N then (c + 32)%N else c.

(** Lines 596-597 *)
Fixpoint same_lower (a b : list N) : bool :=
  match a, b with
  | x :: a, y :: b => if (tolower x =? tolower y)%N then same_lower a b else (x =? y)%N
  | [], [] => true
  | _, _ => false
  end.
Fixpoint strcmp_eq (a b : list N) : bool :=
  match a, b with x :: a, y :: b => (x =? y)%N && strcmp_eq a b | [], [] => true | _, _ => false end.

Definition starts_with (w : N) (s : option (list N)) : bool := match s with Some (c :: _) => (c =? w)%N | _ => false end.

(** Lines 579-605: one pair of components; FALSE ends the loop *)
Definition match_component (o : options) (a b : component) : bool :=
  if kind_eqb (fst a) (fst b) then
    if match wildcard_of o with Some w => starts_with w (snd a) || starts_with w (snd b) | None => false end then true
    else match snd a, snd b with
         | Some x, Some y => if case_sensitive o then strcmp_eq x y else same_lower x y
         | _, _ => true
         end
  else negb (require_root o || negb (is_relative_root a) && negb (is_relative_root b)).

(** Lines 577-608: both from the end, until one has no more *)
Fixpoint match_loop (o : options) (l r : list component) : bool :=
  match l, r with
  | a :: l, b :: r => if match_component o a b then match_loop o l r else false
  | _, _ => true
  end.
Definition path_match (o : options) (l r : path) : bool := match_loop o (rev (comps l)) (rev (comps r)).
