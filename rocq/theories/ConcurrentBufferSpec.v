(** Accounting for data passed through a concurrent buffer, computed from events only. *)
From Verif Require Import Base ConcurrentBufferModel.

Definition is (d : nat) (o : option nat) : nat :=
  match o with Some x => if x =? d then 1 else 0 | None => 0 end.

(** How often datum [d] was put into the buffer / handed back / destroyed / dropped. *)
Definition put1 (d : nat) (e : event) : nat :=
  match e with EWrite o => is d o | ESwap o _ => is d o | _ => 0 end.
Definition back1 (d : nat) (e : event) : nat :=
  match e with ERead o => is d o | ESwap _ o => is d o | _ => 0 end.
Definition destroyed1 (d : nat) (e : event) : nat :=
  match e with EDestroyed o => is d o | _ => 0 end.
Definition dropped1 (d : nat) (e : event) : nat :=
  match e with EDropped x => is d (Some x) | _ => 0 end.

Definition total (f : event -> nat) (es : list event) : nat := list_sum (map f es).

(** What the buffer holds after a history: the last datum put in, unless taken since. *)
Definition holds (es : list event) : option nat :=
  fold_left (fun c e => match e with
                        | EWrite d => d
                        | ESwap d _ => d
                        | ERead _ => None
                        | EGone => None
                        | _ => c end) es None.

(** Number of threads among the first [n] about to destroy [d]. *)
Definition doomed (s : state) (d n : nat) : nat :=
  list_sum (map (fun t => match pcs s t with TDestroy p => is d (Some p) | TIdle => 0 end) (seq 0 n)).

(** The thread taking a step. *)
Definition thread (l : label) : nat :=
  match l with Write t _ => t | Finish t => t | WriteSwap t _ => t | Read t => t | Destroy => 0 end.
