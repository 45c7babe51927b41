(** A swap buffer as a user sees it: the producer drafts a value and publishes it, a read
    picks up the latest published value, and looking shows the value last picked up. *)
From Verif Require Import Base SwapBufferModel.

Section Spec.
Context {A : Type}.

Record view := mkView { draft : option A; latest : A; held : A }.

(** The events allowed, with the only value a look may show. *)
Inductive allowed : view -> event A -> view -> Prop :=
| AllowPut d l h v : allowed (mkView d l h) (EPut v) (mkView (Some v) l h)
| AllowApply v l h : allowed (mkView (Some v) l h) EApplied (mkView None v h)
| AllowRead d l h : allowed (mkView d l h) EReadDone (mkView d l l)
| AllowLook d l h : allowed (mkView d l h) (ELook h) (mkView d l h)
| AllowTau s : allowed s ETau s.

Inductive allowed_all : view -> list (event A) -> view -> Prop :=
| AllNil s : allowed_all s [] s
| AllCons s e s' es s'' : allowed s e s' -> allowed_all s' es s'' -> allowed_all s (e :: es) s''.

(** The producer's side of the contract: a value is put before each apply. [p] tells
    whether something has been put since the last apply. *)
Fixpoint puts_first (p : bool) (es : list (event A)) : Prop :=
  match es with
  | [] => True
  | EPut _ :: t => puts_first true t
  | EApplied :: t => p = true /\ puts_first false t
  | _ :: t => puts_first p t
  end.

End Spec.
Arguments view : clear implicits.
