(** What a version and a name are. *)
From Verif Require Import Base.
Local Open Scope N_scope.

(** A decimal number, as its characters. *)
Definition is_digits (s : list N) : Prop := Forall (fun c => 48 <= c <= 57) s.
Definition number (s : list N) : N := fold_left (fun n c => n * 10 + (c - 48)) s 0.

(** The parts of a version with points between them. *)
Fixpoint pointed (parts : list (list N)) : list N :=
  match parts with
  | [] => []
  | [p] => p
  | p :: t => p ++ 46 :: pointed t
  end.

(** One version is earlier than another. *)
Definition earlier (v w : N * N) : Prop := fst v < fst w \/ (fst v = fst w /\ snd v < snd w).

Definition is_letter_or_digit (c : N) : Prop := 48 <= c <= 57 \/ 65 <= c <= 90 \/ 97 <= c <= 122.

(** [t] is what is left of [s] when all but the letters and digits are taken out. *)
Inductive stripped_of : list N -> list N -> Prop :=
| S_nil : stripped_of [] []
| S_keep c s t : is_letter_or_digit c -> stripped_of s t -> stripped_of (c :: s) (c :: t)
| S_drop c s t : ~ is_letter_or_digit c -> stripped_of s t -> stripped_of (c :: s) t.
