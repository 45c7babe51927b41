(** IDs as a user sees them: which are outstanding, and which a thread has had the chance to
    see outstanding since it started its current attempt. *)
From Verif Require Import Base IDGeneratorModel.

Record view := mkView { out : nat -> bool; seen : nat -> nat -> bool }.

Definition set (f : nat -> bool) (i : nat) (b : bool) : nat -> bool :=
  fun j => if j =? i then b else f j.

(** After every event each thread may see what is outstanding now. *)
Definition note (v : view) : view := mkView (out v) (fun t i => seen v t i || out v i).

Definition forget (v : view) (t : nat) : view :=
  mkView (out v) (fun u i => if u =? t then false else seen v u i).

Inductive allowed (size : nat) : view -> event -> view -> Prop :=
| AllowStart v t : allowed size v (EStart t) (note (forget v t))
(* an ID is issued only when it is within range and nobody holds it *)
| AllowGot v t i : i < size -> out v i = false ->
    allowed size v (EGot t i) (note (mkView (set (out v) i true) (seen v)))
(* an attempt fails only when every ID was outstanding at some moment of the attempt *)
| AllowFail v t : (forall i, i < size -> seen v t i = true) -> allowed size v (EFail t) (note v)
| AllowRecycled v i : allowed size v (ERecycled i) (note (mkView (set (out v) i false) (seen v)))
| AllowTau v : allowed size v ETau (note v).

Inductive allowed_all (size : nat) : view -> list event -> view -> Prop :=
| AllNil s : allowed_all size s [] s
| AllCons s e s' es s'' :
    allowed size s e s' -> allowed_all size s' es s'' -> allowed_all size s (e :: es) s''.

Definition start : view := mkView (fun _ => false) (fun _ _ => false).

(** IDs issued and not recycled after a history of events, oldest first. *)
Definition holding (es : list event) : list nat :=
  fold_left (fun l e => match e with
                        | EGot _ i => l ++ [i]
                        | ERecycled i => filter (fun j => negb (j =? i)) l
                        | _ => l end) es [].

(** Every recycle is of an outstanding ID. *)
Fixpoint recycles_held (o : nat -> bool) (es : list event) : Prop :=
  match es with
  | [] => True
  | EGot _ i :: t => recycles_held (set o i true) t
  | ERecycled i :: t => o i = true /\ recycles_held (set o i false) t
  | _ :: t => recycles_held o t
  end.
