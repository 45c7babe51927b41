(** What it means for the hash map implementations to be interchangeable. *)
From Verif Require Import Base HashMapModel HashMapSplitModel.
From Verif Require EnumerableModel.

Section Spec.
Context {K V : Type} (hash : K -> N) (eqk : K -> K -> bool).

(** What a program sees of a new map with [bc] buckets: the result of each call, or that one of them is an error. *)
Definition seen_interleaved (bc : nat) (ops : list (op K V)) : option (list (ret K V)) :=
  let? m := create bc in option_map snd (run hash eqk m ops).
Definition seen_hash (bc : nat) (ops : list (op K V)) : option (list (ret K V)) :=
  let? m := h_create bc in option_map snd (h_run hash eqk m ops).
Definition seen_all (bc : nat) (ops : list (op K V)) : option (list (ret K V)) :=
  let? m := a_create bc in option_map snd (a_run hash eqk m ops).

(** The same for moving an enumerator that stands at entry [e] after those calls. *)
Definition enum_interleaved (bc : nat) (ops : list (op K V)) (e : N) (a : EnumerableModel.action) : option (N * option N) :=
  let? m := create bc in let? (m, _) := run hash eqk m ops in enum_step m e a.
Definition enum_hash (bc : nat) (ops : list (op K V)) (e : N) (a : EnumerableModel.action) : option (N * option N) :=
  let? m := h_create bc in let? (m, _) := h_run hash eqk m ops in henum (hbc m) (hhashes m) e a.
Definition enum_all (bc : nat) (ops : list (op K V)) (e : N) (a : EnumerableModel.action) : option (N * option N) :=
  let? m := a_create bc in let? (m, _) := a_run hash eqk m ops in henum (abc m) (ahashes m) e a.

End Spec.
