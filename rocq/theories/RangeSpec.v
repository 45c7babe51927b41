(** A range is the closed interval of the numbers from start to start + length. *)
From Verif Require Import Base RangeModel.
Local Open Scope Z_scope.

Definition mem (z : Z) (r : range) : Prop := start r <= z <= start r + len r.
(** Read as a run of elements: the [len] of them from start. *)
Definition elem (z : Z) (r : range) : Prop := start r <= z < start r + len r.

(** The fields are of the type, and so is the end. *)
Definition valid (t : ty) (r : range) : Prop := fits t (start r) = true /\ fits t (len r) = true /\ 0 <= len r.
Definition ends (t : ty) (r : range) : Prop := fits t (start r + len r) = true.
Definition is_type (t : ty) : Prop := In (bits t) [8; 16; 32; 64].
