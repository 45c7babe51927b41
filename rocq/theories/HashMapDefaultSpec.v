(** What an implementation of hash maps has to provide, and what the functions
    built from it have to do. *)
From Verif Require Import Base HashMapModel HashMapSpec HashMapDefaultModel.
From Verif Require EnumerableModel EnumerableSpec.
Local Open Scope N_scope.

Section Spec.
Context {K V St : Type} (eqk : K -> K -> bool) (call : St -> op K V -> option (St * ret K V)).
Context (enum : St -> N -> EnumerableModel.action -> option (N * option N)).
Context (content : St -> N -> option (K * option V)).

(** The functions every implementation has (HashMapInterface.h) that are used
    here *)
Definition required (o : op K V) : Prop :=
  match o with FindKey _ | GetEntry _ | SetEntry _ _ | RemoveEntry _ => True | _ => False end.

(** [good n m st]: [m] holds [st] and takes at least [n] more calls.  The
    required functions do what they do to a finite map and the enumerator visits
    its entries. *)
Definition implements (good : nat -> St -> state K V -> Prop) : Prop :=
  (forall n m st o, good (S n) m st -> required o -> client_ok 0 st o ->
    exists m' r st', call m o = Some (m', r) /\ spec_call eqk st o r st' /\ good n m' st') /\
  (forall n m st, good n m st -> unique eqk st /\ st 0 = None /\
    (forall e k c, st e = Some (k, c) -> exists x, content m e = Some (k, x) /\ reads c x) /\
    exists es, domain st es /\
      forall s, exists e0 r, enum m s EnumerableModel.Head = Some (e0, r) /\ EnumerableSpec.enumerates (enum m) es e0).

End Spec.

(** What the hash map of HashMapModel stores behind the pointers of an entry *)
Definition stored {K V} (m : hashmap K V) (e : N) : option (K * option V) :=
  let? x := entry_item m e in let? (_, _, it) := x in Some (ikey it, ival it).

(** Bytes *)
Definition bytes (l : list N) : Prop := Forall (fun b => b < 256) l.
