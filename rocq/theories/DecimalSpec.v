(** value * coefficient * 10^exponent, rounded down. *)
From Verif Require Import Base.
Local Open Scope N_scope.

Definition product (value coef : N) (exp : Z) : N :=
  if (0 <=? exp)%Z then value * coef * 10 ^ Z.to_N exp else value * coef / 10 ^ Z.to_N (- exp).
