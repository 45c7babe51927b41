(** What is meant by: groups of allocators are used in order, and every allocation stays with the allocator that made it. *)
From Verif Require Import Base DispatchModel.
Local Open Scope N_scope.

(** An allocator, or a list of them *)
Inductive tree := One (ty : atype) | Many (ts : list tree).

(** The allocator for allocation number [k], counted from 0: the first [n - 1] of a list of [n] are for one allocation each, the last is
    for all others. *)
Fixpoint pick (t : tree) (k : nat) : atype :=
  match t with
  | One ty => ty
  | Many ts =>
      (fix go ts k :=
         match ts with
         | [] => mkType (-1) 0
         | [t'] => pick t' k
         | t' :: ts' => match k with O => pick t' 0%nat | S k' => go ts' k' end
         end) ts k
  end.

(** Lists are not empty, and the allocators in them are CC_NULL_ALLOCATOR or have an index *)
Fixpoint proper (t : tree) : Prop :=
  match t with
  | One ty => (-1 <= index ty)%Z
  | Many ts => ts <> [] /\ (fix all ts := match ts with [] => True | t' :: ts' => proper t' /\ all ts' end) ts
  end.

(** CC_ALLOCATORS for each list in the tree, the inner ones first *)
Fixpoint build (gs : list group) (t : tree) : list group * atype :=
  match t with
  | One ty => (gs, ty)
  | Many ts =>
      let '(gs', tys) :=
        (fix go gs ts :=
           match ts with
           | [] => (gs, [])
           | t' :: ts' => let '(gs1, ty) := build gs t' in let '(gs2, tys) := go gs1 ts' in (gs2, ty :: tys)
           end) gs ts in
      (gs' ++ [mkGroup 0 tys], mkType (-2) (N.of_nat (length gs')))
  end.

(** Programs *)
Inductive run : state -> list op -> state -> list call -> Prop :=
| run_nil s : run s [] s []
| run_cons s o s1 calls r ops s' log : step s o = To s1 calls r -> run s1 ops s' log -> run s (o :: ops) s' (calls ++ log).

(** The allocator that answers for address [p] after the calls in [log], oldest first: the one whose function gave it last *)
Definition after (h : N -> option Z) (c : call) : N -> option Z :=
  fun p =>
    match c with
    | CallAlloc i _ _ got => if negb (got =? 0) && (p =? got) then Some i else h p
    | CallRealloc i _ q _ got => if got =? 0 then h p else if p =? got then Some i else if p =? q then None else h p
    | CallFree _ q => if p =? q then None else h p
    end.
Definition holder (log : list call) : N -> option Z := fold_left after log (fun _ => None).

(** A call for memory that the allocator has *)
Definition own (log : list call) (c : call) : Prop :=
  match c with
  | CallAlloc _ _ _ _ => True
  | CallRealloc i _ p _ _ => holder log p = Some i
  | CallFree i p => holder log p = Some i
  end.

(** Operations that make an allocation with [ty], and those that do not use any other group *)
Definition uses (ty : atype) (o : op) : Prop :=
  match o with Alloc ty' _ _ => ty' = ty | Realloc ty' p _ _ => p = 0 /\ ty' = ty | _ => False end.
Definition apart (ty : atype) (o : op) : Prop :=
  match o with Alloc ty' _ _ => index ty' <> (-2)%Z | Realloc ty' p _ _ => p = 0 -> index ty' <> (-2)%Z | _ => True end.
(** [used ty ops k]: [k] of the operations make an allocation with [ty] *)
Inductive used (ty : atype) : list op -> nat -> Prop :=
| used_nil : used ty [] 0
| used_one o ops k : uses ty o -> used ty ops k -> used ty (o :: ops) (S k)
| used_other o ops k : apart ty o -> used ty ops k -> used ty (o :: ops) k.
