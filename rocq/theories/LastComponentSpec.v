(** The last component of a text: what is between its last separators, with
    separators at the end not counted. *)
From Verif Require Import Base.
Local Open Scope N_scope.

Definition is_last (sep : N) (s pre comp post : list N) : Prop :=
  s = pre ++ comp ++ post /\ comp <> [] /\ ~ In sep comp /\ Forall (eq sep) post /\
  (pre = [] \/ exists p, pre = p ++ [sep]).

(** A C string *)
Definition text (s : list N) : Prop := Forall (fun c => c <> 0) s.

(** What an answer (offset, length) stands for: with a length of 0, all up to
    the end of the text. *)
Definition denotes (s : list N) (answer : Z * Z) (comp : list N) : Prop :=
  let '(off, len) := answer in
  (0 <= off)%Z /\ (0 <= len)%Z /\
  comp = if (len =? 0)%Z then skipn (Z.to_nat off) s else firstn (Z.to_nat len) (skipn (Z.to_nat off) s).
