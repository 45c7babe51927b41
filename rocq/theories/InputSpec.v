(** Specification of the input filter for file names (C78). *)
From Coq Require Import Ascii List NArith Bool.
From Verif Require Import InputModel.
Import ListNotations.

(** [p] is one of the paths that begin [f], and the last added of them *)
Definition newest (paths : list (list ascii)) (p f : list ascii) : Prop :=
  exists before after, paths = before ++ p :: after /\ (exists r, f = p ++ r) /\
    forall q r, In q before -> f <> q ++ r.

(** [g] is [f] with paths removed from its front until none is there *)
Inductive shortened (paths : list (list ascii)) : list ascii -> list ascii -> Prop :=
| s_stop f : (forall p r, In p paths -> f <> p ++ r) -> shortened paths f f
| s_step p f g : newest paths p (p ++ f) -> shortened paths f g -> shortened paths (p ++ f) g.
