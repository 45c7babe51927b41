(** The number a piece of memory holds. *)
From Verif Require Import Base ReflectStreamModel ReflectIntegerModel.
Local Open Scope Z_scope.

Definition bytes (bs : list N) : Prop := Forall (fun b => (b < 256)%N) bs.

(** The number in the lowest-first bytes [bs] *)
Fixpoint magnitude (bs : list N) : Z := match bs with [] => 0 | b :: t => Z.of_N b + 256 * magnitude t end.

(** Read as unsigned or two's complement number in the given byte order *)
Definition number (signed : bool) (e : endian) (bs : list N) : Z :=
  let m := magnitude (match e with Big => rev bs | _ => bs end) in
  if signed && (2 ^ (8 * Z.of_nat (length bs) - 1) <=? m) then m - 2 ^ (8 * Z.of_nat (length bs)) else m.

(** The numbers [n] bytes can hold *)
Definition fits (signed : bool) (n : nat) (v : Z) : Prop :=
  if signed then - 2 ^ (8 * Z.of_nat n - 1) <= v < 2 ^ (8 * Z.of_nat n - 1) else 0 <= v < 2 ^ (8 * Z.of_nat n).

(** The numbers the variable-length coding keeps whatever the sizes *)
Definition kept (signed : bool) (v : Z) : Prop := if signed then - 2 ^ 48 <= v < 2 ^ 48 else 0 <= v < 2 ^ 56.

(** The number of a type that is nearest to [v] *)
Definition nearest (signed : bool) (n : nat) (v : Z) : Z :=
  if signed then Z.max (- 2 ^ (8 * Z.of_nat n - 1)) (Z.min v (2 ^ (8 * Z.of_nat n - 1) - 1)) else Z.max 0 (Z.min v (2 ^ (8 * Z.of_nat n) - 1)).
