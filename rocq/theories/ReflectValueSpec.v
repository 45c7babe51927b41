(** When a value is of a type. *)
From Verif Require Import Base ReflectStreamModel ReflectIntegerModel ReflectIntegerSpec ReflectValueModel.
Local Open Scope N_scope.

Section Typed.
Variables (env : tid -> descriptor) (prefer : nat).

(** [v] is a value of type [t] whose parts are nested less than [depth] deep. Integers with a variable length are those that
    C60 says are kept, the values of a validated type those that the validation leaves as they are, and an enumerable of known
    count has that many elements. *)
Fixpoint has_type (depth : nat) (t : tid) (v : value) : Prop :=
  match depth with
  | O => False
  | S depth =>
      match env t, v with
      | DInteger size e signed fixed, Bytes bs =>
          bytes bs /\ length bs = size /\ (1 <= size <= 64)%nat /\ (fixed = true /\ (size < prefer)%nat \/ kept signed (number signed e bs))
      | DFloat size e, Bytes bs => bytes bs /\ length bs = size /\ (size <= 64)%nat
      | DStruct ts, Parts vs => Forall2 (has_type depth) ts vs
      | DArray t count, Parts vs => length vs = count /\ Forall (has_type depth t) vs
      | DPointer t, Pointer None => True
      | DPointer t, Pointer (Some v) => has_type depth t v
      | DValidator t validate, v => has_type depth t v /\ validate v = v
      | DEnumerable t count, Elements vs => (count = size_max \/ count = N.of_nat (length vs) /\ count < 2 ^ 48) /\ Forall (has_type depth t) vs
      | _, _ => False
      end
  end.

End Typed.

(** No enumerable in the value has elements *)
Fixpoint no_elements (v : value) : Prop :=
  match v with
  | Bytes _ | Released => True
  | Parts vs => fold_right (fun v P => no_elements v /\ P) True vs
  | Pointer None => True
  | Pointer (Some v) => no_elements v
  | Elements vs => vs = []
  end.

(** No element of an enumerable has an enumerable with elements in it *)
Fixpoint not_nested (v : value) : Prop :=
  match v with
  | Bytes _ | Released => True
  | Parts vs => fold_right (fun v P => not_nested v /\ P) True vs
  | Pointer None => True
  | Pointer (Some v) => not_nested v
  | Elements vs => fold_right (fun v P => no_elements v /\ P) True vs
  end.
