(** What the size of a reflected type has to be *)
From Verif Require Import Base TypeSizeModel.
Local Open Scope N_scope.

(** [laid pointer enumerable t cells]: a value of the type [t] is, in order, objects of the sizes [cells] *)
Inductive laid (pointer enumerable : N) : type -> list N -> Prop :=
| laid_pointer : laid pointer enumerable Pointer [pointer]
| laid_integer s : laid pointer enumerable (Integer s) [s]
| laid_float s : laid pointer enumerable (Float s) [s]
| laid_struct s : laid pointer enumerable (Struct s) [s]
| laid_opaque s : laid pointer enumerable (Opaque s) [s]
| laid_enumerable : laid pointer enumerable Enumerable [enumerable]
| laid_validator t cells : laid pointer enumerable t cells -> laid pointer enumerable (Validator t) cells
| laid_array t cells count :
    laid pointer enumerable t cells -> laid pointer enumerable (Array t (N.of_nat count)) (concat (repeat cells count)).

(** The bytes the objects take *)
Fixpoint bytes (cells : list N) : N := match cells with [] => 0 | c :: cells => c + bytes cells end.

(** The sizes a type holds are values of size_t *)
Fixpoint fits (t : type) : Prop :=
  match t with
  | Integer s | Float s | Struct s | Opaque s => s < 2 ^ 64
  | Array t count => fits t /\ count < 2 ^ 64
  | Validator t => fits t
  | _ => True
  end.
