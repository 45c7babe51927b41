(** What a value consists of. *)
From Verif Require Import Base ReflectTypeModel ReflectCopyModel.
Local Open Scope N_scope.

(** A value with the objects behind its pointers *)
Inductive tree :=
| Leaf (bs : list N)
| Node (ts : list tree)
| Null
| Void (o : ownership) (a : addr)
| Reference (o : ownership) (a : addr)
| Owned (a : addr) (t : tree)
| Sequence (ts : list tree).

(** The objects a copy gets copies of: those that are owned, the retained ones unless they are shared, and the weakly referenced ones
    if that is asked for. *)
Definition gets_copy (how : assignment) (weak_too : bool) (o : ownership) : bool :=
  match how, o with
  | _, Transfer => true
  | AShare, Retain => false
  | ACopy, Retain | ATransfer, Retain => true
  | _, Weak => weak_too
  end.

Section Trees.
Variables (env : type_id -> layout) (followed : ownership -> bool).

Fixpoint tree_list (f : type_id -> datum -> option tree) (ts : list type_id) (vs : list datum) : option (list tree) :=
  match ts, vs with
  | [], [] => Some []
  | t :: ts, v :: vs => let? x := f t v in let? xs := tree_list f ts vs in Some (x :: xs)
  | _, _ => None
  end.

(** The value [v] of type [t] with the objects behind the pointers that are followed; [None] if it is not of the type, or if a
    pointer that is followed or that holds a reference leads nowhere. *)
Fixpoint tree_of (depth : nat) (t : type_id) (v : datum) (heap : list object) : option tree :=
  match depth with
  | O => None
  | S depth =>
      match env t, v with
      | Plain size, Raw bs => if (length bs =? size)%nat then Some (Leaf bs) else None
      | Fields ts, Group vs => let? xs := tree_list (fun t v => tree_of depth t v heap) ts vs in Some (Node xs)
      | Several t count, Group vs => let? xs := tree_list (fun t v => tree_of depth t v heap) (repeat t count) vs in Some (Node xs)
      | PointerTo _ _, Ptr None => Some Null
      | PointerTo None o, Ptr (Some a) => match o with Retain => let? _ := nth_error heap a in Some (Void o a) | _ => Some (Void o a) end
      | PointerTo (Some t) o, Ptr (Some a) =>
          if followed o then let? object := nth_error heap a in let? x := tree_of depth t (content object) heap in Some (Owned a x)
          else match o with Retain => let? _ := nth_error heap a in Some (Reference o a) | _ => Some (Reference o a) end
      | Enumeration t, Enumerated vs => let? xs := tree_list (fun t v => tree_of depth t v heap) (map (fun _ => t) vs) vs in Some (Sequence xs)
      | _, _ => None
      end
  end.
End Trees.

(** The contents, without the addresses of the objects of its own *)
Inductive contents :=
| CLeaf (bs : list N)
| CNode (ts : list contents)
| CNull
| CVoid (o : ownership) (a : addr)
| CReference (o : ownership) (a : addr)
| COwned (t : contents)
| CSequence (ts : list contents).

Fixpoint contents_of (x : tree) : contents :=
  match x with
  | Leaf bs => CLeaf bs
  | Node xs => CNode (map contents_of xs)
  | Null => CNull
  | Void o a => CVoid o a
  | Reference o a => CReference o a
  | Owned _ x => COwned (contents_of x)
  | Sequence xs => CSequence (map contents_of xs)
  end.

(** The objects of its own, and the objects it holds a reference to *)
Fixpoint objects (x : tree) : list addr :=
  match x with
  | Leaf _ | Null | Void _ _ | Reference _ _ => []
  | Node xs | Sequence xs => flat_map objects xs
  | Owned a x => a :: objects x
  end.

Fixpoint retained (x : tree) : list addr :=
  match x with
  | Void Retain a | Reference Retain a => [a]
  | Leaf _ | Null | Void _ _ | Reference _ _ => []
  | Node xs | Sequence xs => flat_map retained xs
  | Owned _ x => retained x
  end.

(** No enumerable has elements; no element of an enumerable has an enumerable with elements in it *)
Fixpoint bare (x : tree) : Prop :=
  match x with
  | Leaf _ | Null | Void _ _ | Reference _ _ => True
  | Node xs => fold_right (fun x P => bare x /\ P) True xs
  | Owned _ x => bare x
  | Sequence xs => xs = []
  end.
Fixpoint shallow (x : tree) : Prop :=
  match x with
  | Leaf _ | Null | Void _ _ | Reference _ _ => True
  | Node xs => fold_right (fun x P => shallow x /\ P) True xs
  | Owned _ x => shallow x
  | Sequence xs => fold_right (fun x P => bare x /\ P) True xs
  end.

(** The objects there were have the same contents, and one more reference for every occurrence in [l]. *)
Definition references_added (l : list addr) (heap heap' : list object) : Prop :=
  forall a o, nth_error heap a = Some o -> nth_error heap' a = Some (mkObject (refs o + N.of_nat (count_occ Nat.eq_dec l a)) (content o)).

(** The objects that are new have one owner each, within the value, and one reference. *)
Definition owns_new (x : tree) (heap heap' : list object) : Prop :=
  NoDup (objects x) /\ (forall a, In a (objects x) <-> (length heap <= a < length heap')%nat) /\
  forall a o, (length heap <= a)%nat -> nth_error heap' a = Some o -> refs o = 1.

(** Pointers to void in a value *)
Fixpoint has_void (x : tree) : bool :=
  match x with
  | Leaf _ | Null | Reference _ _ => false
  | Void _ _ => true
  | Node xs | Sequence xs => existsb has_void xs
  | Owned _ x => has_void x
  end.
