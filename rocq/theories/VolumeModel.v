(** Model of the virtual volume: CommonC/FileSystem.c 484-932, and FSHandleVirtualOpen (FileHandle.c 367-415) as far as copying
    uses it. One call at a time (the volume's lock is modelled in LockModel.v); paths are lists of components (PathModel.v) and
    all of them lead to the virtual volume (FSPathIsVirtual); memory is always available.

    Simplifications. A directory's dictionary is the list of its entries in the order of enumeration, and strings are equal when
    their bytes are (C26, C57). Nodes do not move during a call, so a pointer to a node is the list of the names that lead to it
    from the root. Every node is deletable (570, 672). [None]: undefined behaviour or a failed assertion, and for the functions
    that take fuel also that they have not come to an end. *)
From Verif Require Import Base.
From Verif Require PathModel FileModel.

Notation name := (list N).
Definition name_eqb (a b : name) : bool := if list_eq_dec N.eq_dec a b then true else false.

(** FSVirtualNode, FileSystem_Private.h 56-65 *)
Inductive node := NFile (contents : list N) | NDir (nodes : list (name * node)).

(** CCDictionaryGetValue, CCDictionarySetValue of a new key, CCDictionaryRemoveValue *)
Fixpoint find (k : name) (l : list (name * node)) : option node :=
  match l with [] => None | (n, x) :: l => if name_eqb n k then Some x else find k l end.
Definition add (k : name) (x : node) (l : list (name * node)) : list (name * node) := l ++ [(k, x)].
Definition unset (k : name) (l : list (name * node)) : list (name * node) := filter (fun e => negb (name_eqb (fst e) k)) l.

(** Following a pointer, and changing the node it points to *)
Fixpoint get (t : node) (p : list name) : option node :=
  match p with
  | [] => Some t
  | n :: p => match t with NDir l => let? x := find n l in get x p | NFile _ => None end
  end.
Fixpoint update (n : name) (f : node -> node) (l : list (name * node)) : list (name * node) :=
  match l with [] => [] | (m, x) :: l => if name_eqb m n then (m, f x) :: l else (m, x) :: update n f l end.
Fixpoint alter (t : node) (p : list name) (f : node -> node) : node :=
  match p with
  | [] => f t
  | n :: p => match t with NDir l => NDir (update n (fun x => alter x p f) l) | NFile _ => t end
  end.
Definition in_dir (f : list (name * node) -> list (name * node)) (t : node) : node := match t with NDir l => NDir (f l) | NFile _ => t end.

(** A pointer to a node of the volume, or to the FakeNode of 527. NULL is [None]. *)
Inductive ptr := Fake | At (p : list name).

Definition is_dir (t : node) (p : ptr) : bool :=
  match p with Fake => true | At p => match get t p with Some (NDir _) => true | _ => false end end.

(** FSVirtualNodeOperation, FileSystem_Private.h 72-76 *)
Inductive operation := OpNone | OpCreate | OpRemove.
Definition is_create (o : operation) : bool := match o with OpCreate => true | _ => false end.

(** The locals of FSManagerVirtualNodeOp. [dirs] is Dirs up to Level: what is above is written before it is read. *)
Record walker := mkWalker { tree : node; dirs : list ptr; at_node : option ptr; file_name : option name }.

(** 534-628: a component. [rel] is what the call of 545 does; [last] is Index == Count (563). *)
Definition component_step (rel : node -> list ptr -> option (node * list ptr * option ptr)) (op : operation) (intermediate last : bool)
    (c : PathModel.component) (w : walker) : option walker :=
  match fst c with
  | PathModel.Volume => Some (mkWalker (tree w) (dirs w) (match file_name w with Some _ => None | None => Some (At []) end) (file_name w))
  | PathModel.Root =>
      Some (match at_node w with
            | Some _ => w
            | None => mkWalker (tree w) (dirs w) (match file_name w with Some _ => None | None => Some (At []) end) (file_name w)
            end)
  | PathModel.RelativeRoot =>
      match file_name w with
      | Some _ => Some (mkWalker (tree w) (dirs w) None (file_name w))
      | None => let? (t, ds, n) := rel (tree w) (dirs w) in Some (mkWalker t ds n None)
      end
  | PathModel.Directory =>
      match at_node w with
      | Some Fake => Some w
      | Some (At p) =>
          match get (tree w) p with
          | Some (NDir l) =>
              let? key := snd c in
              match find key l with
              | Some (NDir _) => Some (mkWalker (tree w) (dirs w) (Some (At (p ++ [key]))) (file_name w))
              | Some (NFile _) => Some (mkWalker (tree w) (dirs w) None (file_name w))
              | None =>
                  if is_create op && (last || intermediate)
                  then Some (mkWalker (alter (tree w) p (in_dir (add key (NDir [])))) (dirs w) (Some (At (p ++ [key]))) (file_name w))
                  else Some (mkWalker (tree w) (dirs w) (Some Fake) (file_name w))
              end
          | _ => Some (mkWalker (tree w) (dirs w) None (file_name w))
          end
      | None => Some w
      end
  | PathModel.Parent =>
      let level := if 2 <? length (dirs w) then length (dirs w) - 2 else 0 in
      let? n := nth_error (dirs w) level in
      Some (mkWalker (tree w) (firstn level (dirs w)) (Some n) (file_name w))
  | PathModel.File =>
      match at_node w, file_name w with
      | Some (At p), None => if is_dir (tree w) (At p) then let? n := snd c in Some (mkWalker (tree w) (dirs w) (at_node w) (Some n)) else Some (mkWalker (tree w) (dirs w) None None)
      | _, f => Some (mkWalker (tree w) (dirs w) None f)
      end
  | PathModel.Extension =>
      match at_node w with
      | Some (At p) =>
          if is_dir (tree w) (At p) then
            let? e := snd c in
            Some (mkWalker (tree w) (dirs w) (at_node w) (Some (match file_name w with Some f => f ++ [46%N] ++ e | None => e end)))
          else Some (mkWalker (tree w) (dirs w) None (file_name w))
      | _ => Some (mkWalker (tree w) (dirs w) None (file_name w))
      end
  end.

(** 630-634. Dirs has 128 places. *)
Definition push (w : walker) : option walker :=
  match at_node w with
  | None => Some w
  | Some n =>
      if is_dir (tree w) n then
        if length (dirs w) <? 128 then Some (mkWalker (tree w) (dirs w ++ [n]) (at_node w) (file_name w)) else None
      else Some w
  end.

(** 532-635 *)
Fixpoint walk (rel : node -> list ptr -> option (node * list ptr * option ptr)) (op : operation) (intermediate : bool)
    (l : list PathModel.component) (w : walker) : option walker :=
  match l with
  | [] => Some w
  | c :: l =>
      let? w := component_step rel op intermediate (match l with [] => true | _ => false end) c w in
      match at_node w with
      | None => Some w
      | Some _ => let? w := push w in walk rel op intermediate l w
      end
  end.

(** 637-695: the tree and the node that is returned *)
Definition conclude (op : operation) (w : walker) : option (node * option ptr) :=
  let n := match at_node w with Some Fake => None | n => n end in
  match file_name w, n with
  | Some f, Some (At p) =>
      match op with
      | OpRemove => Some (alter (tree w) p (in_dir (unset f)), None)
      | _ =>
          match get (tree w) p with
          | Some (NDir l) =>
              match find f l with
              | Some _ => Some (tree w, Some (At (p ++ [f])))
              | None =>
                  match op with
                  | OpCreate => Some (alter (tree w) p (in_dir (add f (NFile []))), Some (At (p ++ [f])))
                  | _ => Some (tree w, None)
                  end
              end
          | _ => None
          end
      end
  | None, Some (At p) =>
      match op with
      | OpRemove =>
          (* 690: the root has no parent *)
          match rev p with
          | [] => None
          | k :: r => Some (alter (tree w) (rev r) (in_dir (unset k)), None)
          end
      | _ => Some (tree w, n)
      end
  | _, _ => Some (tree w, None)
  end.

(** FSManagerVirtualNodeOp, 523-696; the assertion of 525 *)
Definition node_op_in (rel : node -> list ptr -> option (node * list ptr * option ptr)) (op : operation) (intermediate : bool)
    (l : list PathModel.component) (t : node) (ds : list ptr) : option (node * list ptr * option ptr) :=
  if length ds <? 128 then
    let? w := walk rel op intermediate l (mkWalker t ds None None) in
    let? (t', n) := conclude op w in Some (t', dirs w, n)
  else None.

(** The call of 545: the current path [cur] is followed for the same purpose, but nothing is removed. When it is itself relative
    the recursion does not end. *)
Definition node_op (cur : list PathModel.component) (op : operation) (intermediate : bool) (l : list PathModel.component) (t : node) : option (node * option ptr) :=
  let rel := node_op_in (fun _ _ => None) (match op with OpCreate => OpCreate | _ => OpNone end) intermediate cur in
  let? (t', _, n) := node_op_in rel op intermediate l t [At []] in Some (t', n).

(** FSManagerVirtualNode, 698-701: the node itself *)
Definition node_at (cur l : list PathModel.component) (t : node) : option (option node) :=
  let? (t, n) := node_op cur OpNone false l t in
  match n with
  | None => Some None
  | Some Fake => None
  | Some (At p) => Some (get t p)
  end.

(** FSManagerVirtualExists, 703-710 *)
Definition exists_ (cur l : list PathModel.component) (t : node) : option bool :=
  let? (_, n) := node_op cur OpNone false l t in Some (match n with Some _ => true | None => false end).

(** FSManagerVirtualGetSize, 722-742 *)
Definition get_size (cur l : list PathModel.component) (t : node) : option N :=
  let? n := node_at cur l t in
  Some (match n with Some (NFile c) => N.of_nat (length c) | _ => 0%N end).

(** FSManagerVirtualCreate, 831-838 *)
Definition create (cur : list PathModel.component) (intermediate : bool) (l : list PathModel.component) (t : node) : option (node * bool) :=
  let? (t, n) := node_op cur OpCreate intermediate l t in Some (t, match n with Some _ => true | None => false end).

(** FSManagerVirtualRemove, 840-847 *)
Definition remove (cur l : list PathModel.component) (t : node) : option (node * bool) :=
  let? (t, n) := node_op cur OpRemove false l t in Some (t, match n with Some _ => false | None => true end).

(** ** Contents *)

(** The options of FSMatch (Path.h 45-73) that FSManagerVirtualAddContentsInPath looks at *)
Record listing := mkListing { skip_files : bool; skip_directories : bool; recursively : bool; blacklist : bool; matching : PathModel.options }.

(** 764-783: the path of an entry *)
Definition entry_path (at_ : list PathModel.component) (k : name) (x : node) : option (list PathModel.component) :=
  match x with
  | NDir _ => Some (at_ ++ [(PathModel.Directory, Some k)])
  | NFile _ => let? l := PathModel.convert k true in Some (at_ ++ skipn 1 l)
  end.

(** 785-793 *)
Fixpoint matches (o : PathModel.options) (p : list PathModel.component) (l : list (list PathModel.component)) (was : bool) : bool :=
  match l with
  | [] => was
  | m :: l => if PathModel.path_match o (PathModel.from_components p) (PathModel.from_components m) then true else matches o p l false
  end.
Definition selected (o : listing) (naming : option (list (list PathModel.component))) (p : list PathModel.component) (x : node) : bool :=
  let m := match naming with None => true | Some l => matches (matching o) p l true end in
  let dir := match x with NDir _ => true | NFile _ => false end in
  (if blacklist o then negb m else m) && negb (dir && skip_directories o) && negb (negb dir && skip_files o).

(** FSManagerVirtualAddContentsInPath, 749-818: what it appends to the list *)
Fixpoint add_contents (fuel : nat) (cur : list PathModel.component) (o : listing) (naming : option (list (list PathModel.component)))
    (at_ : list PathModel.component) (t : node) : option (list (list PathModel.component)) :=
  match fuel with
  | O => None
  | S fuel =>
      let? n := node_at cur at_ t in
      match n with
      | Some (NDir l) =>
          (fix entries (l : list (name * node)) : option (list (list PathModel.component)) :=
             match l with
             | [] => Some []
             | (k, x) :: l =>
                 let? p := entry_path at_ k x in
                 let? inner := match x with NDir _ => if recursively o then add_contents fuel cur o naming p t else Some [] | NFile _ => Some [] end in
                 let? rest := entries l in
                 Some ((if selected o naming p x then [p] else []) ++ inner ++ rest)
             end) l
      | _ => Some []
      end
  end.

(** FSManagerVirtualGetContentsAtPath, 820-829. [Some None]: NULL *)
Definition get_contents (fuel : nat) (cur : list PathModel.component) (o : listing) (naming : option (list (list PathModel.component)))
    (at_ : list PathModel.component) (t : node) : option (option (list (list PathModel.component))) :=
  let? l := add_contents fuel cur o naming at_ t in Some (match l with [] => None | _ => Some l end).

(** ** Copying and moving *)

Definition no_options : listing := mkListing false false false false (PathModel.mkOptions false false false 0).

(** 876-889: the components taken from the end of the child's path *)
Fixpoint taken (r : list PathModel.component) : list PathModel.component :=
  match r with
  | [] => []
  | c :: r => (match fst c with PathModel.Extension => taken r | _ => [] end) ++ [c]
  end.
Definition child_destination (dest child : list PathModel.component) : list PathModel.component := dest ++ taken (rev child).

(** FSVirtualFile's contents for a handle that has just been opened (FileHandle.c 367-415); a directory cannot be opened *)
Definition open_ (cur l : list PathModel.component) (t : node) : option (option (list N)) :=
  let? n := node_at cur l t in Some (match n with Some (NFile c) => Some c | _ => None end).

(** 899-928: a file. FSBehaviourDefault preserves the offset and overwrites; [junk] is what the array holds before it is
    written. *)
Definition copy_file (junk : N -> list N) (cur l dest : list PathModel.component) (t : node) : option (node * bool) :=
  let? size := get_size cur l t in
  let? source := open_ cur l t in
  match source with
  | None => Some (t, false)
  | Some c =>
      let '(ok, data, _) := FileModel.v_read FileModel.HRead size FileModel.Preserve (FileModel.mkFile c 0) in
      if ok then
        let? (t, ok) := create cur false dest t in
        if ok then
          let? (_, n) := node_op cur OpNone false dest t in
          match n with
          | Some (At p) =>
              match get t p with
              | Some (NFile d) =>
                  let (ok, f) := FileModel.v_write junk FileModel.HWrite data FileModel.Preserve (FileModel.mkFile d 0) in
                  Some (alter t p (fun _ => NFile (FileModel.bytes f)), ok)
              | _ => Some (t, false)
              end
          | _ => Some (t, false)
          end
        else Some (t, false)
      else Some (t, false)
  end.

(** FSManagerVirtualCopy, 861-932. An empty list of contents is NULL (802, 871), which cannot be enumerated or destroyed
    (CCCollectionGetEnumerator and CCCollectionDestroy, Collection.c 181, 413). *)
Fixpoint copy (fuel : nat) (junk : N -> list N) (cur l dest : list PathModel.component) (t : node) : option (node * bool) :=
  match fuel with
  | O => None
  | S fuel =>
      let? there := exists_ cur l t in
      if there then
        if PathModel.is_directory (PathModel.from_components l) then
          let? (t, ok) := create cur false dest t in
          if ok then
            let? children := get_contents 1 cur no_options None l t in
            let? children := children in
            let? t := (fix each (cs : list (list PathModel.component)) (t : node) : option node :=
                         match cs with
                         | [] => Some t
                         | c :: cs => let? (t, _) := copy fuel junk cur c (child_destination dest c) t in each cs t
                         end) children t in
            Some (t, true)
          else Some (t, false)
        else copy_file junk cur l dest t
      else Some (t, false)
  end.

(** FSManagerVirtualMove, 849-859 *)
Definition move (fuel : nat) (junk : N -> list N) (cur l dest : list PathModel.component) (t : node) : option (node * bool) :=
  let? (t, ok) := copy fuel junk cur l dest t in
  if ok then remove cur l t else Some (t, false).
