(** What an enumerable over the sequence [xs] must do. *)
From Verif Require Import Base EnumerableModel.

Section Spec.
Context {St : Type} (step : St -> action -> option (St * result)) (xs : list N).

(** The position the enumerable is at; [None]: it has just returned NULL. *)
Definition cursor := option nat.

Definition first : cursor := if length xs =? 0 then None else Some 0.

Definition move (c : cursor) (a : action) : cursor :=
  match a, c with
  | Head, _ => first
  | Tail, _ => if length xs =? 0 then None else Some (length xs - 1)
  | Current, _ => c
  | Next, Some i => if S i <? length xs then Some (S i) else None
  | Previous, Some (S i) => Some i
  | Previous, Some 0 => None
  | _, None => None
  end.

Definition value (c : cursor) : result := match c with Some i => nth_error xs i | None => None end.

(** Enumerable.h 99-100: once the end has been reached the position must be set again. *)
Definition client_ok (c : cursor) (a : action) : Prop :=
  match c, a with
  | None, (Next | Previous) => False
  | None, Current => xs = []
  | _, _ => True
  end.

Fixpoint history_ok (s : St) (c : cursor) (acts : list action) : Prop :=
  match acts with
  | [] => True
  | a :: t => client_ok c a -> exists s', step s a = Some (s', value (move c a)) /\ history_ok s' (move c a) t
  end.

(** [s] enumerates [xs]: whatever the sequence of moves, each returns the element at the position moved to. *)
Definition enumerates (s : St) : Prop := forall acts, history_ok s first acts.

(** The loop every user writes: from [start], move by [dir] until NULL. *)
Fixpoint visit (fuel : nat) (s : St) (dir : action) (r : result) : option (list N) :=
  match r with
  | None => Some []
  | Some x =>
      match fuel with
      | 0 => None
      | S f => let? (s, r) := step s dir in let? l := visit f s dir r in Some (x :: l)
      end
  end.

Definition loop (fuel : nat) (s : St) (start dir : action) : option (list N) :=
  let? (s, r) := step s start in visit fuel s dir r.

End Spec.

(** The addresses of [n] values of size [size] from [base]. *)
Definition addresses (base size : N) (n : nat) : list N := map (fun i => (base + N.of_nat i * size)%N) (seq 0 n).

(** [count] values from position [start] of a buffer of [max] values, wrapping at its end. *)
Definition slots (base size : N) (count start max : nat) : list N :=
  map (fun k => (base + N.of_nat ((start + k) mod max)%nat * size)%N) (seq 0 count).

(** [n] values spread over pages of [ps] values, page [p] from [storage p]. *)
Definition element_addresses (storage : nat -> N) (size : N) (n ps : nat) : list N :=
  map (fun k => (storage (k / ps)%nat + N.of_nat (k mod ps)%nat * size)%N) (seq 0 n).
