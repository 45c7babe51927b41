(** A shared resource as its users see it. *)
From Verif Require Import Base SharedResourceModel.

Inductive life := Unborn | Live | Dead.

(** [cur]: the datum current now. [gets]: gets begun since it was published. [seen t]: the data
    that were current at some moment of t's get. [took t]: the datum t shared.
    [lives]: whether a datum has been handed over, and whether it was destroyed. *)
Record view := mkView
  { cur : option nat; gets : nat; seen : nat -> list (option nat); took : nat -> option nat; lives : nat -> life }.

Definition start : view := mkView None 0 (fun _ => []) (fun _ => None) (fun _ => Unborn).

Definition next (v : view) (e : event) : view :=
  match e with
  | ESetStart _ d => mkView (cur v) (gets v) (seen v) (took v) (tset (lives v) d Live)
  | EPublished d => mkView (Some d) 0 (fun u => Some d :: seen v u) (took v) (lives v)
  | EDestroyed (Some d) => mkView (cur v) (gets v) (seen v) (took v) (tset (lives v) d Dead)
  | EGetStart t => mkView (cur v) (S (gets v)) (tset (seen v) t [cur v]) (took v) (lives v)
  | EShared t o => mkView (cur v) (gets v) (seen v) (tset (took v) t o) (lives v)
  | _ => v
  end.

(** The users' side: each set passes a datum of its own, and fewer than 2^16 gets begin between
    two publications. *)
Definition client_ok (v : view) (e : event) : Prop :=
  match e with
  | ESetStart _ d => lives v d = Unborn
  | EGetStart _ => (N.of_nat (gets v) + 1 < 2 ^ 16)%N
  | _ => True
  end.

(** The resource's side: a get shares a datum that was current at some moment of the get and has
    not been destroyed, and returns it; a datum is destroyed at most once, and only when it is
    no longer current. *)
Definition resource_ok (v : view) (e : event) : Prop :=
  match e with
  | EShared t o => In o (seen v t) /\ (forall d, o = Some d -> lives v d = Live)
  | EGot t o => took v t = o
  | EPublished d => lives v d = Live
  | EDestroyed (Some d) => lives v d = Live /\ cur v <> Some d
  | _ => True
  end.

Fixpoint all (P : view -> event -> Prop) (v : view) (es : list event) : Prop :=
  match es with [] => True | e :: t => P v e /\ all P (next v e) t end.
