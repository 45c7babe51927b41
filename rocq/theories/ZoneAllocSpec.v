(** What C73 means. *)
From Verif Require Import Base AlignedModel ZoneModel ZoneSpec ZoneAllocModel.
Local Open Scope N_scope.

(** An allocation as its user sees it: a size, and the bytes written so far. [None]: freed *)
Record view := mkView { vsize : N; contents : N -> option N }.

Definition next (vs : list (option view)) (o : op) : list (option view) :=
  match o with
  | New size _ => vs ++ [Some (mkView size (fun _ => None))]
  | Put i j v =>
      match nth_error vs i with
      | Some (Some w) => upd vs i (Some (mkView (vsize w) (fun k => if k =? j then Some v else contents w k)))
      | _ => vs
      end
  | Resize i size _ =>
      match nth_error vs i with
      | Some (Some w) => upd vs i (Some (mkView size (fun k => if (k <? vsize w) && (k <? size) then contents w k else None)))
      | _ => vs
      end
  | Free i => upd vs i None
  | Other _ _ => vs
  end.

(** Every allocation has its bytes; it is aligned, and its memory is in a block of the zone and apart from all others. *)
Definition sees (m : mem) (h : option handle) (v : option view) : Prop :=
  match h, v with
  | Some h, Some v => vsize v <= hsize h /\ forall j x, j < vsize v -> contents v j = Some x -> m (at_ h + j) = x
  | None, None => True
  | _, _ => False
  end.
Definition owned (z : zone) (h : handle) : Prop :=
  at_ h mod 16 = 0 /\ exists k, In k (blocks z) /\ base k + 16 <= at_ h /\ at_ h + hsize h <= base k + offset k /\ offset k <= blockSize z.
Definition disjoint (h g : handle) : Prop := at_ h + hsize h <= at_ g \/ at_ g + hsize g <= at_ h.

Definition good (s : state) (vs : list (option view)) : Prop :=
  Forall2 (sees (memory s)) (live s) vs /\
  (forall h, In (Some h) (live s) -> owned (zn s) h) /\
  (forall i j h g, i <> j -> nth_error (live s) i = Some (Some h) -> nth_error (live s) j = Some (Some g) -> disjoint h g).

(** A size with the 16 bytes of CCAllocatorHeader, that is not too near to the size of the zone's blocks: with the other
    header and the alignment it fits. *)
Definition fitting (z : zone) (size : N) : Prop := 16 <= size /\ size + 32 <= blockSize z.

(** The newest allocation of the zone, with room behind it for [size] bytes *)
Definition room_behind (z : zone) (h : handle) (size : N) : Prop :=
  exists b rest, blocks z = b :: rest /\ base b <= at_ h /\ at_ h + hsize h = base b + offset b /\ at_ h + size <= base b + blockSize z.

(** Where the zone's next allocation with a header begins, if it fits the last block *)
Definition next_at (b : block) : N := (base b + offset b + 15) / 16 * 16 + 16.
Definition fits_block (z : zone) (b : block) (size : N) : Prop := next_at b + size <= base b + blockSize z.

(** [size] bytes can be copied from the allocation: they are in its block, and end before the new memory if that follows in
    the same block. *)
Definition copies (z : zone) (h : handle) (size : N) : Prop :=
  exists k, In k (blocks z) /\ base k <= at_ h /\ at_ h < base k + offset k /\ at_ h + size <= base k + blockSize z /\
    forall b rest, blocks z = b :: rest -> base b = base k -> fits_block z b size -> at_ h + size <= next_at b.

(** The rules for the users of the zone *)
Definition client_ok (s : state) (vs : list (option view)) (o : op) : Prop :=
  match o with
  | New size got => fitting (zn s) size /\ got <> None /\ fresh (zn s) got
  | Put i j v => exists w, nth_error vs i = Some (Some w) /\ j < vsize w
  | Resize i size got =>
      (exists w, nth_error vs i = Some (Some w)) /\ fitting (zn s) size /\ got <> None /\ fresh (zn s) got /\
      forall h, handle_of s i = Some h -> size <= hsize h \/ room_behind (zn s) h size \/ copies (zn s) h size
  | Free i => exists w, nth_error vs i = Some (Some w)
  | Other n got => 0 < n <= blockSize (zn s) /\ fresh (zn s) got
  end.

Fixpoint ok (s : state) (vs : list (option view)) (ops : list op) : Prop :=
  match ops with
  | [] => True
  | o :: t => client_ok s vs o -> exists s', step s o = Some s' /\ good s' (next vs o) /\ ok s' (next vs o) t
  end.

(** [ops] leads from [s] to [s'], with the rules kept. *)
Inductive reach : state -> list (option view) -> list op -> state -> list (option view) -> Prop :=
| reach_nil s vs : reach s vs [] s vs
| reach_cons s vs o t s1 s' vs' : client_ok s vs o -> step s o = Some s1 -> reach s1 (next vs o) t s' vs' -> reach s vs (o :: t) s' vs'.

Definition start (bs addr : N) (m : mem) : state := mkState (create bs addr) m [].
