(** A plain sequence, and what it means for calls by several threads to act on it one at a time. *)
From Verif Require Import Base IndexMapModel.

(** The calls on a plain sequence: the sequence afterwards and what the call returns. *)
Definition plain (l : list Z) (o : op) : list Z * res :=
  match o with
  | Append c => (l ++ [val c], RIndex (length l))
  | Insert i c => if i <? length l then (insert_at l i [val c], RFlag true) else (l, RFlag false)
  | Remove i => (remove_at l i 1, RVal (nth_error l i))
  | Replace i c => (upd l i (val c), RVal (nth_error l i))
  | Exact i c m =>
      match nth_error l i with
      | Some x => if Z.eqb x m then (upd l i (val c), RFlag true) else (l, RFlag false)
      | None => (l, RFlag false)
      end
  | Get i => (l, RVal (nth_error l i))
  | Count => (l, RCount (length l))
  end.

(** [contents]: the sequence. [calls t]: the call thread t is in, if any. [result t]: what it must return, if it
    has changed the sequence. [adding]: how many appends have added their element and not returned. [moments t]: the
    sequence, and [adding], at each moment since the start of t's call. *)
Record view := mkView
  { contents : list Z; calls : nat -> option op; result : nat -> option res; adding : nat;
    moments : nat -> list (list Z * nat) }.
Definition start : view := mkView [] (fun _ => None) (fun _ => None) 0 (fun _ => []).

Definition is_append (o : option op) : bool := match o with Some (Append _) => true | _ => false end.

Definition next (v : view) (e : event) : view :=
  match e with
  | ECall t o =>
      mkView (contents v) (tset (calls v) t (Some o)) (tset (result v) t None) (adding v)
        (tset (moments v) t [(contents v, adding v)])
  | EEffect t =>
      match calls v t with
      | None => v
      | Some o =>
          let '(l, r) := plain (contents v) o in
          let n := adding v + if is_append (Some o) then 1 else 0 in
          mkView l (calls v) (tset (result v) t (Some r)) n (fun u => (l, n) :: moments v u)
      end
  | ERet t r =>
      let n := adding v - if is_append (calls v t) then 1 else 0 in
      mkView (contents v) (tset (calls v) t None) (result v) n (fun u => (contents v, n) :: moments v u)
  | ETau => v
  end.

Definition succeeds (r : res) : bool :=
  match r with RIndex _ => true | RFlag b => b | RVal None => false | RVal (Some _) => true | RCount _ => true end.

(** A call changes the sequence at most once, while it is in progress, and only if it then succeeds. *)
Definition effect_ok (v : view) (e : event) : Prop :=
  match e with
  | EEffect t =>
      result v t = None /\ exists o, calls v t = Some o /\ succeeds (snd (plain (contents v) o)) = true
  | _ => True
  end.

(** A call returns what it must: the result of its change or, if it changed nothing, a result that is right, and
    changes nothing, at some moment of the call. But counts and refusals to remove or insert may leave out elements whose
    append has not returned. *)
Definition return_nearly_ok (v : view) (e : event) : Prop :=
  match e with
  | ERet t r =>
      exists o, calls v t = Some o /\
      match result v t with
      | Some x => r = x
      | None =>
          exists l n, In (l, n) (moments v t) /\
          (plain l o = (l, r) \/
           match o, r with
           | Count, RCount k => k <= length l <= k + n
           | Remove i, RVal None => length l <= i + n
           | Insert i _, RFlag false => length l <= i + n
           | _, _ => False
           end)
      end
  | _ => True
  end.

Fixpoint all (P : view -> event -> Prop) (v : view) (es : list event) : Prop :=
  match es with [] => True | e :: t => P v e /\ all P (next v e) t end.

Fixpoint after (v : view) (es : list event) : view :=
  match es with [] => v | e :: t => after (next v e) t end.

(** Running one call of thread t to its end with no other thread running. *)
Inductive alone (chunk : nat) (ext : bool) (s : state) (t : nat) (o : op) : res -> state -> Prop :=
| alone_intro : forall k s' es r,
    run chunk ext s (Call t o :: repeat (Step t) k) = Some (s', es ++ [ERet t r]) -> alone chunk ext s t o r s'.

(** Calls one after the other, by any threads. *)
Inductive in_turn (chunk : nat) (ext : bool) : state -> list (nat * op) -> list res -> state -> Prop :=
| in_turn_nil : forall s, in_turn chunk ext s [] [] s
| in_turn_cons : forall s t o r s' cs rs s'',
    alone chunk ext s t o r s' -> in_turn chunk ext s' cs rs s'' -> in_turn chunk ext s ((t, o) :: cs) (r :: rs) s''.

Fixpoint plain_results (l : list Z) (os : list op) : list res :=
  match os with [] => [] | o :: t => snd (plain l o) :: plain_results (fst (plain l o)) t end.
