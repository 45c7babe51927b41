(** Who owns each index, computed from the observable events. *)
From Verif Require Import Base IndexBufferModel.

Inductive owner := Free | Held | Staged | Returning.

Definition owners := nat -> owner.

Definition give (o : owners) (i : nat) (w : owner) : owners := fun j => if j =? i then w else o j.

(** How an event moves ownership. Staging an index displaces the one staged before it. *)
Definition next (o : owners) (e : event) : owners :=
  match e with
  | EAcquired _ i => give o i Held
  | EStaged i => give (fun j => match o j with Staged => Returning | w => w end) i Staged
  | EReturned i => give o i Free
  | ERead (Some i) => give o i Held
  | ERead None => o
  | EDiscarded i => give o i Free
  | ETau => o
  end.

(** The users' side: only indexes obtained from the buffer are staged or discarded. *)
Definition client_ok (o : owners) (e : event) : Prop :=
  match e with EStaged i => o i = Held | EDiscarded i => o i = Held | _ => True end.

(** The buffer's side, for [n] indexes. *)
Definition buffer_ok (n : nat) (o : owners) (e : event) : Prop :=
  match e with
  | EAcquired _ i => i < n /\ o i = Free              (* a writer gets an index nobody owns *)
  | ERead (Some i) => o i = Staged                    (* a reader gets the staged index *)
  | ERead None => forall i, o i <> Staged             (* or learns that nothing is staged *)
  | EReturned i => o i = Returning                    (* only displaced indexes are taken back *)
  | _ => True
  end.

Fixpoint all (P : owners -> event -> Prop) (o : owners) (es : list event) : Prop :=
  match es with [] => True | e :: t => P o e /\ all P (next o e) t end.

Definition owners_after (o : owners) (es : list event) : owners := fold_left next es o.

Definition nobody : owners := fun _ => Free.
