(** Model of file handles: CommonC/FileHandle.c (regular files of Unix, 119-342, and virtual files, 441-581).

    Simplifications. A regular file is the list of its bytes and the position of the stdio stream; stdio buffers are not
    visible (FSHandleSetOffset is called before every other use of the file, and fseek writes what is buffered), and reading
    and writing do not fail. Files are opened for one handle at a time, the preferred block size of the file is a parameter, and
    memory is always available. The locks of virtual files are modelled in LockModel.v. *)
From Verif Require Import Base.
Local Open Scope N_scope.

Definition len {A} (l : list A) : N := N.of_nat (length l).
Definition take {A} (n : N) (l : list A) : list A := firstn (N.to_nat n) l.
Definition drop {A} (n : N) (l : list A) : list A := skipn (N.to_nat n) l.
Definition zeros (n : N) : list N := repeat 0 (N.to_nat n).

Definition word (n : N) : N := n mod 2 ^ 64.

Record file := mkFile { bytes : list N; pos : N }.

(** FileHandle.h 33-37 *)
Inductive handle_type := HRead | HWrite | HUpdate.
(** FileHandle.h 45-48: what happens to the offset *)
Inductive offsetting := Preserve | Update.

(** stdio and POSIX *)
Definition fread (n : N) (f : file) : list N * file :=
  let data := take n (drop (pos f) (bytes f)) in (data, mkFile (bytes f) (pos f + len data)).
Definition fwrite (data : list N) (f : file) : file :=
  match data with
  | [] => f
  | _ => mkFile (take (pos f) (bytes f ++ zeros (pos f - len (bytes f))) ++ data ++ drop (pos f + len data) (bytes f)) (pos f + len data)
  end.
Definition ftruncate (n : N) (f : file) : file := mkFile (take n (bytes f ++ zeros (n - len (bytes f)))) (pos f).

(** FSHandleSetOffset, 334-342: fseek takes a long, and a negative one is an error *)
Definition set_offset (n : N) (f : file) : bool * file := if n <? 2 ^ 63 then (true, mkFile (bytes f) n) else (false, f).

(** 135-138, 226-229, 300-303: the end of the functions *)
Definition finish (o : offsetting) (before after : N) (f : file) : bool * file :=
  set_offset (match o with Preserve => before | Update => word after end) f.

(** FSHandleRead, 119-139: whether it succeeded, what was read, the file *)
Definition read (t : handle_type) (n : N) (o : offsetting) (f : file) : bool * list N * file :=
  match t with
  | HWrite => (false, [], f)
  | _ =>
      let offset := pos f in
      let (data, f) := fread n f in
      let (ok, f) := finish o offset (offset + len data) f in (ok, data, f)
  end.

(** FSHandleWrite, 163-230, overwriting (172-175) *)
Definition write (t : handle_type) (data : list N) (o : offsetting) (f : file) : bool * file :=
  match t with
  | HRead => (false, f)
  | _ => let offset := pos f in finish o offset (offset + len data) (fwrite data f)
  end.

(** FSHandleWrite, the loop of inserting (200-220); [None]: it goes on after [fuel] rounds *)
Fixpoint insert_loop (fuel : nat) (offset count chunk_size size shifted : N) (chunk : list N) (f : file) : option file :=
  if shifted <? size then
    match fuel with
    | O => None
    | S fuel =>
        let (_, f) := set_offset (word (offset + shifted + count)) f in
        let '(_, next, f) := if word (shifted + len chunk) <? size then read HUpdate chunk_size Preserve f else (true, [], f) in
        let f := fwrite chunk f in
        insert_loop fuel offset count chunk_size size (word (shifted + len chunk)) next f
    end
  else Some f.

(** FSHandleWrite, inserting (177-224) *)
Definition insert (fuel : nat) (block : N) (t : handle_type) (data : list N) (o : offsetting) (f : file) : option (bool * file) :=
  match t with
  | HUpdate =>
      let offset := pos f in
      let count := len data in
      let chunk_size := if block <? count then count else block in
      let size := word (len (bytes f) + 2 ^ 64 - offset) in
      let '(_, chunk, f) := read HUpdate chunk_size Preserve f in
      let f := fwrite data f in
      let? f := insert_loop fuel offset count chunk_size size 0 chunk f in
      Some (finish o offset (offset + count) f)
  | _ => Some (false, f)
  end.

(** FSHandleRemove, the loop (279-289) *)
Fixpoint remove_loop (fuel : nat) (offset count chunk_size size shifted : N) (f : file) : option file :=
  if shifted <? size - count then
    match fuel with
    | O => None
    | S fuel =>
        let (_, f) := set_offset (word (offset + shifted + count)) f in
        let '(_, chunk, f) := read HUpdate chunk_size Preserve f in
        let (_, f) := set_offset (word (offset + shifted)) f in
        let (_, f) := write HUpdate chunk Preserve f in
        remove_loop fuel offset count chunk_size size (word (shifted + len chunk)) f
    end
  else Some f.

(** FSHandleRemove, 249-304 *)
Definition remove (fuel : nat) (block : N) (t : handle_type) (count : N) (o : offsetting) (f : file) : option (bool * file) :=
  match t with
  | HUpdate =>
      let offset := pos f in
      let size := len (bytes f) in
      if size <? offset then Some (true, f)
      else
        let size := size - offset in
        let? f := if size <=? count then Some (ftruncate offset f)
                  else let? f := remove_loop fuel offset count block size 0 f in Some (ftruncate (offset + size - count) f) in
        Some (finish o offset (offset + count) f)
  | _ => Some (false, f)
  end.

(** FSHandleReadFromOffset (141-161), FSHandleWriteFromOffset (232-247), FSHandleRemoveFromOffset (306-320): what follows the
    operation [result] that was carried out at the given offset *)
Definition go_back (o : offsetting) (old : N) (result : bool * file) : bool * file :=
  match result, o with
  | (true, f), Preserve => set_offset old f
  | _, _ => result
  end.

Definition read_from (t : handle_type) (offset n : N) (o : offsetting) (f : file) : bool * list N * file :=
  let (_, f') := set_offset offset f in
  let '(ok, data, f') := read t n o f' in
  let (ok, f') := go_back o (pos f) (ok, f') in (ok, data, f').
Definition write_from (t : handle_type) (offset : N) (data : list N) (o : offsetting) (f : file) : bool * file :=
  let (_, f') := set_offset offset f in go_back o (pos f) (write t data o f').
Definition insert_from (fuel : nat) (block : N) (t : handle_type) (offset : N) (data : list N) (o : offsetting) (f : file) : option (bool * file) :=
  let (_, f') := set_offset offset f in let? r := insert fuel block t data o f' in Some (go_back o (pos f) r).
Definition remove_from (fuel : nat) (block : N) (t : handle_type) (offset count : N) (o : offsetting) (f : file) : option (bool * file) :=
  let (_, f') := set_offset offset f in let? r := remove fuel block t count o f' in Some (go_back o (pos f) r).

(** ** Virtual files *)

(** FSHandleVirtualSetOffset, 574-581, at the end of the functions *)
Definition v_finish (o : offsetting) (before after : N) (contents : list N) : bool * file :=
  (true, mkFile contents (match o with Preserve => before | Update => word after end)).

(** FSHandleVirtualRead, 441-475 *)
Definition v_read (t : handle_type) (n : N) (o : offsetting) (f : file) : bool * list N * file :=
  match t with
  | HWrite => (false, [], f)
  | _ =>
      if n =? 0 then (true, [], f)
      else
        let offset := pos f in
        let size := len (bytes f) in
        let data := if offset <? size then take (N.min (size - offset) n) (drop offset (bytes f)) else [] in
        let (ok, f) := v_finish o offset (offset + len data) (bytes f) in (ok, data, f)
  end.

(** CCArrayReplaceElementsAtIndex, CCArrayInsertElementsAtIndex and CCArrayRemoveElementsAtIndex (see ArrayModel.v) *)
Definition array_replace (at_ : N) (data contents : list N) : list N := take at_ contents ++ data ++ drop (at_ + len data) contents.
Definition array_insert (at_ : N) (data contents : list N) : list N := take at_ contents ++ data ++ drop at_ contents.
Definition array_remove (at_ n : N) (contents : list N) : list N := take at_ contents ++ drop (at_ + n) contents.

(** FSHandleVirtualWrite, 477-536, overwriting (485-507). [junk n]: [n] bytes that were appended but not set. *)
Definition v_write (junk : N -> list N) (t : handle_type) (data : list N) (o : offsetting) (f : file) : bool * file :=
  match t with
  | HRead => (false, f)
  | _ =>
      if len data =? 0 then (true, f)
      else
        let offset := pos f in
        let size := len (bytes f) in
        let contents :=
          if size <=? offset then bytes f ++ zeros (offset - size) ++ junk (len data)
          else if size <=? offset + len data then bytes f ++ junk (offset + len data - size)
          else bytes f in
        v_finish o offset (offset + len data) (array_replace offset data contents)
  end.

(** FSHandleVirtualWrite, inserting (509-530) *)
Definition v_insert (junk : N -> list N) (t : handle_type) (data : list N) (o : offsetting) (f : file) : bool * file :=
  match t with
  | HRead => (false, f)
  | _ =>
      if len data =? 0 then (true, f)
      else
        match t with
        | HUpdate =>
            let offset := pos f in
            let size := len (bytes f) in
            let contents := if size <=? offset then (bytes f ++ zeros (offset - size) ++ junk (len data)) ++ data else bytes f in
            v_finish o offset (offset + len data) (array_insert offset data contents)
        | _ => (false, f)
        end
  end.

(** FSHandleVirtualRemove, 538-562 *)
Definition v_remove (t : handle_type) (count : N) (o : offsetting) (f : file) : bool * file :=
  match t with
  | HUpdate =>
      let offset := pos f in
      let size := len (bytes f) in
      let contents := if offset <? size then array_remove offset (N.min (size - offset) count) (bytes f) else bytes f in
      v_finish o offset (offset + count) contents
  | _ => (false, f)
  end.

(** ** Copying a file *)

(** FSManagerCopyItem, the loop (FileSystem.c 394-412): the reader's file and the writer's *)
Fixpoint copy_loop (fuel : nat) (block : N) (source dest : file) : option (bool * file) :=
  match fuel with
  | O => None
  | S fuel =>
      let '(ok, chunk, source) := read HRead block Update source in
      if ok then
        let (ok, dest) := write HWrite chunk Update dest in
        if ok then (if len chunk =? 0 then Some (true, dest) else copy_loop fuel block source dest) else Some (false, dest)
      else Some (false, dest)
  end.

(** FSManagerCopyItem for files (FileSystem.c 369-423): FSManagerCreate (296-321) makes an empty file, or leaves the file there
    is; FSHandleOpen (FileHandle.c 67-69) opens with "r+", which keeps what is in it. *)
Definition copy_file (fuel : nat) (block : N) (source : list N) (dest : option (list N)) : option (bool * list N) :=
  let? (ok, f) := copy_loop fuel block (mkFile source 0) (mkFile (match dest with Some d => d | None => [] end) 0) in Some (ok, bytes f).
