(** Model of CommonC/LinkedList.c and the inline functions of CommonC/LinkedList.h.

    Memory is a map from addresses to nodes; [None] is memory that is not a live node.
    Reading or writing a dead node is undefined behaviour and makes the whole call [None].
    Node payloads are not modelled (the functions never touch them). *)
From Verif Require Import Base.

Definition addr := nat.

(** LinkedList.h 45-47 *)
Record node := mkNode { next : option addr; prev : option addr }.

Definition heap := addr -> option node.

Definition hset (h : heap) (a : addr) (n : option node) : heap :=
  fun b => if b =? a then n else h b.

Definition set_next (h : heap) (a : addr) (n : option addr) : option heap :=
  match h a with Some nd => Some (hset h a (Some (mkNode n (prev nd)))) | None => None end.

Definition set_prev (h : heap) (a : addr) (p : option addr) : option heap :=
  match h a with Some nd => Some (hset h a (Some (mkNode (next nd) p))) | None => None end.

Definition get_next (h : heap) (a : addr) : option (option addr) := option_map next (h a).
Definition get_prev (h : heap) (a : addr) : option (option addr) := option_map prev (h a).

(** LinkedList.h 331-337: CCLinkedListGetHead. [fuel] bounds the loop; running out of
    fuel (an endless loop on a cyclic list) is [None]. *)
Fixpoint get_head (fuel : nat) (h : heap) (a : addr) : option addr :=
  match fuel with
  | 0 => None
  | S f => let? p := get_prev h a in
           match p with None => Some a | Some b => get_head f h b end
  end.

(** LinkedList.h 339-345: CCLinkedListGetTail *)
Fixpoint get_tail (fuel : nat) (h : heap) (a : addr) : option addr :=
  match fuel with
  | 0 => None
  | S f => let? p := get_next h a in
           match p with None => Some a | Some b => get_tail f h b end
  end.

(** LinkedList.c 93-117: CCLinkedListInsertAfter *)
Definition insert_after (fuel : nat) (h : heap) (list nd : addr) : option (heap * addr) :=
  let? ln := get_next h list in
  match ln with
  | None =>
      let? hd := get_head fuel h nd in
      let? h := set_next h list (Some hd) in
      let? h := set_prev h hd (Some list) in
      Some (h, list)
  | Some nx =>
      let? hd := get_head fuel h nd in
      let? tl := get_tail fuel h nd in
      let? h := set_next h list (Some hd) in
      let? h := set_prev h nx (Some tl) in
      let? h := set_prev h hd (Some list) in
      let? h := set_next h tl (Some nx) in
      Some (h, list)
  end.

(** LinkedList.c 119-143: CCLinkedListInsertBefore *)
Definition insert_before (fuel : nat) (h : heap) (list nd : addr) : option (heap * addr) :=
  let? lp := get_prev h list in
  match lp with
  | None =>
      let? tl := get_tail fuel h nd in
      let? h := set_prev h list (Some tl) in
      let? h := set_next h tl (Some list) in
      Some (h, nd)
  | Some pv =>
      let? hd := get_head fuel h nd in
      let? tl := get_tail fuel h nd in
      let? h := set_prev h list (Some tl) in
      let? h := set_next h pv (Some hd) in
      let? h := set_prev h hd (Some pv) in
      let? h := set_next h tl (Some list) in
      Some (h, nd)
  end.

(** LinkedList.c 67-91: CCLinkedListInsert *)
Definition insert (fuel : nat) (h : heap) (list nd : addr) : option (heap * addr) :=
  let? lp := get_prev h list in
  let? ln := get_next h list in
  let? np := get_prev h nd in
  let? nn := get_next h nd in
  match lp, nn with
  | None, None =>
      let? h := set_prev h list (Some nd) in
      let? h := set_next h nd (Some list) in
      Some (h, nd)
  | _, _ =>
      match ln, np with
      | None, None =>
          let? h := set_next h list (Some nd) in
          let? h := set_prev h nd (Some list) in
          Some (h, list)
      | _, _ =>
          match lp with
          | None => insert_before fuel h list nd
          | Some _ => insert_after fuel h list nd
          end
      end
  end.

(** LinkedList.c 145-160 and 162-177: CCLinkedListAppend and CCLinkedListPrepend call each
    other; [depth] bounds that recursion. [append true] is Append, [append false] Prepend. *)
Fixpoint append (is_append : bool) (depth fuel : nat) (h : heap) (list nd : addr) : option (heap * addr) :=
  match depth with
  | 0 => None
  | S d =>
      if is_append then
        let? last := get_tail fuel h list in
        let? np := get_prev h nd in
        match np with
        | None =>
            let? h := set_next h last (Some nd) in
            let? h := set_prev h nd (Some last) in
            Some (h, nd)
        | Some _ =>
            let? (h, _) := append false d fuel h nd last in
            Some (h, nd)
        end
      else
        let? head := get_head fuel h list in
        let? nn := get_next h nd in
        match nn with
        | None =>
            let? h := set_prev h head (Some nd) in
            let? h := set_next h nd (Some head) in
            Some (h, nd)
        | Some _ =>
            let? (h, _) := append true d fuel h nd head in
            Some (h, nd)
        end
  end.

(** LinkedList.c 179-188: CCLinkedListRemoveNode *)
Definition remove_node (h : heap) (nd : addr) : option heap :=
  let? n := h nd in
  let? h := match prev n with Some p => set_next h p (next n) | None => Some h end in
  let? n := h nd in
  let? h := match next n with Some q => set_prev h q (prev n) | None => Some h end in
  let? h := set_prev h nd None in
  set_next h nd None.

(** LinkedList.c 190-199: CCLinkedListRemove *)
Definition remove_range (h : heap) (start en : addr) : option heap :=
  let? s := h start in
  let? e := h en in
  let? h := match prev s with Some p => set_next h p (next e) | None => Some h end in
  let? s := h start in
  let? e := h en in
  let? h := match next e with Some q => set_prev h q (prev s) | None => Some h end in
  let? h := set_prev h start None in
  set_next h en None.

(** CCFree of a node: the address is no longer a live node. *)
Definition free_node (h : heap) (nd : addr) : option heap :=
  match h nd with Some _ => Some (hset h nd None) | None => None end.

(** LinkedList.c 47-53: CCLinkedListDestroyNode *)
Definition destroy_node (h : heap) (nd : addr) : option heap :=
  let? h := remove_node h nd in free_node h nd.

(** LinkedList.c 55-65: CCLinkedListDestroy; also returns the nodes freed, in order. *)
Fixpoint destroy (fuel : nat) (h : heap) (lst : option addr) : option (heap * list addr) :=
  match lst with
  | None => Some (h, [])
  | Some n =>
      match fuel with
      | 0 => None
      | S f =>
          let? nx := get_next h n in
          let? h := destroy_node h n in
          let? (h, freed) := destroy f h nx in
          Some (h, n :: freed)
      end
  end.
