(** What C71 means. *)
From Verif Require Import Base BigIntModel BigIntSpec BigIntFastModel BigIntFastSpec StringModel StringSpec HashMapModel HashMapSpec DictionaryModel DictionarySpec KeysModel.

(** The answer of a hasher, and whether a comparator says equal. A hasher or comparator that fails answers 0 or no. *)
Definition hashed (h : option N) : N := match h with Some h => h | None => 0 end.
Definition says_equal (c : option comparison) : bool := match c with Some Eq => true | _ => false end.
Definition says_yes (c : option bool) : bool := match c with Some true => true | _ => false end.

(** Fast big integers as keys: those of which [P] holds *)
Definition int_key (P : fast -> Prop) := { f : fast | P f }.
Definition int_of {P} (k : int_key P) : fast := proj1_sig k.
Definition int_equal {P} (a b : int_key P) : bool := says_equal (fast_comparator (int_of a) (int_of b)).
Definition same_integer {P} (a b : int_key P) : bool := (fvalue (int_of a) =? fvalue (int_of b))%Z.

(** Big integers as keys *)
Definition big_key (P : bigint -> Prop) := { b : bigint | P b }.
Definition big_of {P} (k : big_key P) : bigint := proj1_sig k.
Definition big_equal {P} (a b : big_key P) : bool := says_equal (Some (big_comparator (big_of a) (big_of b))).
Definition same_big {P} (a b : big_key P) : bool := (value (big_of a) =? value (big_of b))%Z.

(** Strings as keys, with the characters they stand for. [same]: whether two of them are the same object *)
Definition string_key (M : env) := { x : str * list N | represents M (fst x) (snd x) /\ snd x <> [] }.
Definition string_of {M} (k : string_key M) : str := fst (proj1_sig k).
Definition characters {M} (k : string_key M) : list N := snd (proj1_sig k).
Definition string_equal {M} (same : str -> str -> bool) (a b : string_key M) : bool :=
  says_yes (equal M (same (string_of a) (string_of b)) (string_of a) (string_of b)).
Definition characters_equal {M} (a b : string_key M) : bool := if list_eq_dec N.eq_dec (characters a) (characters b) then true else false.
