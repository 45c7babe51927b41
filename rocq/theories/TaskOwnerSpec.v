(** Who holds references to tasks, and when their inputs and outputs go. *)
From Verif Require Import Base.
From Verif Require Import TaskOwnerModel.

(** A queue, as its users see it: the tasks that wait, oldest first, and, when it is serial, the task handed out last. *)
Record waiters := mkWaiters { serial : bool; waiting : list nat; last : option nat }.

(** [made]: for every task made so far, whether it has an input and an output. [held]: the references the program has. *)
Record world := mkWorld { made : list (bool * bool); finished : nat -> bool; held : nat -> nat; lines : list (option waiters) }.

Definition start : world := mkWorld [] (fun _ => false) (fun _ => 0) [].

Definition is (x : option nat) (t : nat) : nat := match x with Some u => if u =? t then 1 else 0 | None => 0 end.

(** The references there are to [t]: those the program has, those of the queues it waits in, and those of the queues that
    handed it out last. *)
Definition in_line (q : option waiters) (t : nat) : nat :=
  match q with Some q => count_occ Nat.eq_dec (waiting q) t + is (last q) t | None => 0 end.
Definition references (w : world) (t : nat) : nat := held w t + list_sum (map (fun q => in_line q t) (lines w)).

Definition has (w : world) (t : nat) (d : side) : bool :=
  match nth_error (made w) t with Some (i, o) => match d with Input => i | Output => o end | None => false end.

Definition hold (w : world) (t n : nat) : world := mkWorld (made w) (finished w) (fun u => if u =? t then n else held w u) (lines w).
Definition line_up (w : world) (i : nat) (q : option waiters) : world :=
  mkWorld (made w) (finished w) (held w) (firstn i (lines w) ++ q :: skipn (S i) (lines w)).
Definition line_at (w : world) (i : nat) : option waiters := match nth_error (lines w) i with Some (Some q) => Some q | _ => None end.

(** What a call does to the references. [None]: the program may not make this call. It may use tasks and queues it has a
    reference to, it gives a reference away when it pushes or destroys, and there is enough memory once there is some for
    the task itself. *)
Definition move (w : world) (o : op) : option (world * ret) :=
  match o with
  | Create i u ok ok_i ok_u =>
      if negb ok then Some (w, RTask None) else
      if (implb i ok_i && implb u ok_u)%bool then
        let t := length (made w) in
        Some (mkWorld (made w ++ [(i, u)]) (finished w) (fun v => if v =? t then 1 else held w v) (lines w), RTask (Some t))
      else None
  | Retain t => if 0 <? held w t then Some (hold w t (S (held w t)), RUnit) else None
  | Destroy t => if 0 <? held w t then Some (hold w t (held w t - 1), RUnit) else None
  | Run t => if 0 <? held w t then Some (mkWorld (made w) (fun u => if u =? t then true else finished w u) (held w) (lines w), RUnit) else None
  | IsFinished t => if 0 <? held w t then Some (w, RBool (finished w t)) else None
  | CreateQueue s => Some (mkWorld (made w) (finished w) (held w) (lines w ++ [Some (mkWaiters s [] None)]), RQueue (length (lines w)))
  | DestroyQueue i _ => let? _ := line_at w i in Some (line_up w i None, RUnit)
  | Push i t ok =>
      let? q := line_at w i in
      if ((0 <? held w t) && ok)%bool then Some (line_up (hold w t (held w t - 1)) i (Some (mkWaiters (serial q) (waiting q ++ [t]) (last q))), RUnit) else None
  | Pop i _ =>
      let? q := line_at w i in
      if match last q with Some t => negb (finished w t) | None => false end then Some (w, RTask None) else
      match waiting q with
      | [] => Some (line_up w i (Some (mkWaiters (serial q) [] None)), RTask None)
      | t :: l => Some (line_up (hold w t (S (held w t))) i (Some (mkWaiters (serial q) l (if serial q then Some t else None))), RTask (Some t))
      end
  end.

Fixpoint moves (w : world) (ops : list op) : option world :=
  match ops with [] => Some w | o :: t => let? (w, _) := move w o in moves w t end.

Definition times (e : event) (ev : list event) : nat := length (filter (fun x => (fst x =? fst e) && side_eqb (snd x) (snd e))%bool ev).

(** The destructors that ran are those of the inputs and the outputs of the tasks whose last reference went. *)
Definition accounted (w w' : world) (ev : list event) : Prop :=
  forall t d, times (t, d) ev = if ((0 <? references w t) && (references w' t =? 0) && has w' t d)%bool then 1 else 0.

(** Every call returned what it should, and ran the destructors it should. *)
Fixpoint follows (w : world) (ops : list op) (outs : list (ret * list event)) : Prop :=
  match ops, outs with
  | [], [] => True
  | o :: ops, (r, ev) :: outs => exists w', move w o = Some (w', r) /\ accounted w w' ev /\ follows w' ops outs
  | _, _ => False
  end.

Fixpoint all_events (outs : list (ret * list event)) : list event := match outs with [] => [] | (_, ev) :: t => ev ++ all_events t end.
