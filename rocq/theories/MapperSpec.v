(** What C79, C80 and C81 mean. The integer and the characters that a value stands for are those of [BigIntSpec],
    [BigIntFastSpec] and [StringSpec]. *)
From Verif Require Import Base BigIntModel BigIntSpec BigIntFastModel BigIntFastSpec StringModel StringSpec MapperModel.
Local Open Scope N_scope.

(** A value, mapped with an intent and unmapped. *)
Definition big_round (i : intent) (b : bigint) : option bigint := unmap_big (map_big i b).
Definition fast_round (i : intent) (f : fast) : option fast := let? m := map_fast i f in unmap_fast m.
Definition str_round (M : StringModel.env) (i : intent) (before : option N) (rest : list N) (s : str) : option str :=
  let? m := map_str M i s in unmap_str M before rest m.

(** The intents with which a string is handed on as bytes. *)
Definition as_bytes (i : intent) : Prop := i = Serialize \/ i = Display \/ i = Inspect.

(** The characters of the tables for tagged strings are ASCII, as those of the default tables are. *)
Definition ascii_maps (M : StringModel.env) : Prop := forall set c, (1 <= set <= 3)%N -> In c (chars_of M set) -> c < 128.
Definition ascii (cs : list N) : Prop := Forall (fun c => c < 128) cs.
