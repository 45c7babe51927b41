(** Model of CommonC/List.c and the inline functions of CommonC/List.h: a paged list.

    The pages are [ArrayModel] arrays. The linked list of pages is a Coq list and a node is its position in
    it (C02 proves the linked list operations used here correct on that abstraction). Simplifications: list
    headers, nodes and array headers are always allocated; arithmetic on counts is unbounded. Whether the
    element storage of a page can be allocated is chosen per call: [fst env] for the storage CCArrayCreate
    allocates, [snd env] for storage that is grown. *)
From Verif Require Import Base.
From Verif Require ArrayModel.

Section Model.
Context {A : Type}.

Local Notation array := (ArrayModel.array A).

(** List.h 44-50: CCListInfo *)
Record plist := mkList { pageSize : nat; pages : list array; last : option nat; count : nat }.

Definition env := (bool * bool)%type.

Definition with_pages (l : plist) (ps : list array) : plist := mkList (pageSize l) ps (last l) (count l).
Definition with_last (l : plist) (p : nat) : plist := mkList (pageSize l) (pages l) (Some p) (count l).
Definition with_count (l : plist) (c : nat) : plist := mkList (pageSize l) (pages l) (last l) c.

(** List.c 40-65: CCListCreate. [None]: assertions. *)
Definition create (chunk page : nat) (e : env) : option plist :=
  if (1 <=? chunk) && (1 <=? page) then
    let diff := page mod chunk in
    Some (mkList (if diff =? 0 then page else page + (chunk - diff)) [ArrayModel.create chunk (fst e)] (Some 0) 0)
  else None.

(** One CCArray call on the page at position [p]. *)
Definition on_page (l : plist) (p : nat) (o : ArrayModel.op A) (ok : bool) : option (plist * ArrayModel.ret A) :=
  let? a := nth_error (pages l) p in
  let? (a, r) := ArrayModel.step a o ok in
  Some (with_pages l (upd (pages l) p a), r).

Definition page_count (l : plist) (p : nat) : option nat := option_map ArrayModel.count (nth_error (pages l) p).

(** List.c 85-86, 110-111, 184-187: a new empty page behind the list that node [p] is in, made the last one.
    CCLinkedListAppend goes to the tail of that list (LinkedList.c 145-160). *)
Definition new_page (l : plist) (p : nat) (e : env) : option plist :=
  let? a := nth_error (pages l) p in
  Some (with_last (with_pages l (pages l ++ [ArrayModel.create (ArrayModel.chunkSize a) (fst e)])) (length (pages l))).

(** List.c 78, 99, 173: [if (!List->last) List->last = CCLinkedListGetTail(List->list)] *)
Definition find_last (l : plist) : option (plist * nat) :=
  match last l with
  | Some p => Some (l, p)
  | None => match length (pages l) with 0 => None | S n => Some (with_last l n, n) end
  end.

(** CCLinkedListEnumerateNext and CCLinkedListEnumeratePrevious [n] times; [None]: ran off the list, and the
    next use of the node is undefined. *)
Fixpoint walk_next (l : plist) (p n : nat) : option nat :=
  match n with 0 => Some p | S n => if S p <? length (pages l) then walk_next l (S p) n else None end.
Fixpoint walk_prev (p n : nat) {struct n} : option nat :=
  match n with 0 => Some p | S n => match p with 0 => None | S p => walk_prev p n end end.

(** List.h 288-313: CCListGetPage *)
Definition get_page (l : plist) (pi : nat) : option nat :=
  let m := (count l - 1) / pageSize l in
  match last l with
  | Some t => if m - pi <? pi then walk_prev t (m - pi) else walk_next l 0 pi
  | None => walk_next l 0 pi
  end.

Inductive op :=
| Append (e : option A)
| AppendMany (es : option (list A)) (n : nat)
| Replace (i : nat) (e : option A)
| Insert (i : nat) (e : option A)
| Remove (i : nat)
| RemoveAll
| Get (i : nat).

Inductive ret := RIndex (i : nat) | RFail | RElem (c : option A) | RVoid.

(** List.c 74-93: CCListAppendElement *)
Definition append (l : plist) (x : option A) (e : env) : option (plist * ret) :=
  let? (l, node) := find_last l in
  let? n := page_count l node in
  let? (l, node) := if n =? pageSize l then let? l' := new_page l node e in Some (l', length (pages l)) else Some (l, node) in
  let? (l, r) := on_page l node (ArrayModel.Append x) (snd e) in
  match r with
  | ArrayModel.RIndex _ => Some (with_count l (count l + 1), RIndex (count l))
  | _ => Some (l, RFail)
  end.

(** List.c 124-143: what a failed CCListAppendElements undoes; [loop] elements were already appended. *)
Definition rollback (l : plist) (loop : nat) (e : env) : option (plist * ret) :=
  if loop =? 0 then Some (l, RFail) else
  let pi := count l / pageSize l in
  let? page := walk_next l 0 pi in
  let l := with_pages l (firstn (S page) (pages l)) in
  let ei := count l - pi * pageSize l in
  let? (l, _) := on_page l page (ArrayModel.RemoveMany ei (pageSize l - ei)) (snd e) in
  Some (with_last l page, RFail).

(** List.c 122: [Elements + (Loop * size)]. NULL plus a non-zero offset is not NULL and reading it is undefined. *)
Definition elements_from (es : option (list A)) (loop : nat) : option (option (list A)) :=
  match es with
  | Some xs => Some (Some (skipn loop xs))
  | None => if loop =? 0 then Some None else None
  end.

(** List.c 103-147: the loop of CCListAppendElements. *)
Fixpoint append_loop (fuel : nat) (l : plist) (node loop : nat) (es : option (list A)) (n : nat) (e : env)
  : option (plist * ret) :=
  if loop <? n then
    match fuel with
    | 0 => None
    | S f =>
        let? c := page_count l node in
        let avail := pageSize l - c in
        let want := n - loop in
        let? (l, node, target, want) :=
          if avail <? want then
            let? l' := new_page l node e in
            let nd := length (pages l) in
            Some (if avail =? 0 then (l', nd, nd, pageSize l) else (l', nd, node, avail))
          else Some (l, node, node, want) in
        let? xs := elements_from es loop in
        let? (l, r) := on_page l target (ArrayModel.AppendMany xs want) (snd e) in
        match r with
        | ArrayModel.RIndex _ => append_loop f l node (loop + want) es n e
        | _ => rollback l loop e
        end
    end
  else Some (with_count l (count l + n), RIndex (count l)).

(** List.c 95-153: CCListAppendElements *)
Definition append_many (l : plist) (es : option (list A)) (n : nat) (e : env) : option (plist * ret) :=
  let? (l, node) := find_last l in append_loop n l node 0 es n e.

(** CCArrayGetElementAtIndex, read by the caller. *)
Definition read_page (l : plist) (p i : nat) : option (option A) :=
  let? (_, r) := on_page l p (ArrayModel.Get i) true in
  match r with ArrayModel.RElem c => Some c | _ => None end.

(** List.c 196-205: the last element of each page moves to the front of the following one, from the page at
    [p + k] back to the page at [p]. The results of the array calls are ignored. *)
Fixpoint shift_up (l : plist) (p k : nat) (e : env) : option plist :=
  match k with
  | 0 => Some l
  | S k =>
      let src := p + k in let dst := p + S k in
      let? x := read_page l src (pageSize l - 1) in
      let? n := page_count l dst in
      let? (l, _) := on_page l dst (if n =? 0 then ArrayModel.Append x else ArrayModel.Insert 0 x) (snd e) in
      let? (l, _) := on_page l src (ArrayModel.RemoveMany (pageSize l - 1) 1) (snd e) in
      shift_up l p k e
  end.

(** List.c 168-222: CCListInsertElementAtIndex. [None] also stands for the assertion of line 215. *)
Definition insert (l : plist) (i : nat) (x : option A) (e : env) : option (plist * ret) :=
  if i <? count l then
    let? (l, node) := find_last l in
    let pi := i / pageSize l in
    let ei := i - pi * pageSize l in
    let? page := get_page l pi in
    let? n := page_count l node in
    let? (l, tail) := if n =? pageSize l then let? l' := new_page l node e in Some (l', length (pages l)) else Some (l, node) in
    if tail <? page then None else
    let? l := shift_up l page (tail - page) e in
    let? n := page_count l page in
    let? (l, r) := on_page l page (if ei =? n then ArrayModel.Append x else ArrayModel.Insert ei x) (snd e) in
    match r with
    | ArrayModel.RIndex _ => Some (with_count l (count l + 1), RIndex i)
    | _ => None
    end
  else None.

(** List.c 236-242: the first element of each following page moves to the end of the one before. [k] pages
    follow the page at [p]. *)
Fixpoint shift_down (l : plist) (p k : nat) (e : env) : option plist :=
  match k with
  | 0 => Some l
  | S k =>
      let? x := read_page l (S p) 0 in
      let? (l, _) := on_page l p (ArrayModel.Append x) (snd e) in
      let? (l, _) := on_page l (S p) (ArrayModel.RemoveMany 0 1) (snd e) in
      shift_down l (S p) k e
  end.

(** List.c 224-251: CCListRemoveElementAtIndex. Destroying the only page would leave List->list dangling
    ([None]). *)
Definition remove (l : plist) (i : nat) (e : env) : option (plist * ret) :=
  if i <? count l then
    let pi := i / pageSize l in
    let ei := i - pi * pageSize l in
    let? page := get_page l pi in
    let? (l, _) := on_page l page (ArrayModel.RemoveMany ei 1) (snd e) in
    let tail := length (pages l) - 1 in
    let? l := shift_down l page (tail - page) e in
    let l := with_count l (count l - 1) in
    let? n := page_count l tail in
    if negb (count l =? 0) && (n =? 0) then
      match tail with
      | 0 => None
      | S t => Some (with_last (with_pages l (firstn tail (pages l))) t, RVoid)
      end
    else Some (l, RVoid)
  else None.

(** List.c 253-269: CCListRemoveAllElements *)
Definition remove_all (l : plist) (e : env) : option (plist * ret) :=
  let l := with_pages l (firstn 1 (pages l)) in
  let? (l, _) := on_page l 0 ArrayModel.RemoveAll (snd e) in
  Some (with_last (with_count l 0) 0, RVoid).

Definition step (l : plist) (o : op) (e : env) : option (plist * ret) :=
  match o with
  | Append x => append l x e
  | AppendMany es n => append_many l es n e
  | Replace i x => (* List.c 155-166 *)
      if i <? count l then
        let pi := i / pageSize l in
        let? page := get_page l pi in
        let? (l, _) := on_page l page (ArrayModel.Replace (i - pi * pageSize l) x) (snd e) in
        Some (l, RVoid)
      else None
  | Insert i x => insert l i x e
  | Remove i => remove l i e
  | RemoveAll => remove_all l e
  | Get i => (* List.h 315-326: CCListGetElementAtIndex, read by the caller *)
      if i <? count l then
        let pi := i / pageSize l in
        let? page := get_page l pi in
        let? c := read_page l page (i - pi * pageSize l) in
        Some (l, RElem c)
      else None
  end.

Fixpoint run (l : plist) (ops : list (op * env)) : option (plist * list ret) :=
  match ops with
  | [] => Some (l, [])
  | (o, e) :: t =>
      let? (l, r) := step l o e in
      let? (l, rs) := run l t in
      Some (l, r :: rs)
  end.

End Model.
Arguments plist : clear implicits.
Arguments ret : clear implicits.
Arguments op : clear implicits.
