(** A bounded FIFO between a producer and a consumer, as a user sees it. [cap] is the
    capacity. *)
From Verif Require Import Base CircularBufferModel.

Section Spec.
Context {A : Type}.
Variable cap : nat.

(** [queue]: items added and not yet released, oldest first. [pending]: the items accepted by
    the add call in progress. [window]: the items the consumer holds, when it holds some. *)
Record fifo := mkFifo { queue : list A; pending : option (list A); window : option (list A); mark : option nat }.

Inductive allowed : fifo -> event A -> fifo -> Prop :=
(* A call takes as many of its items as fit beside the unreleased ones. *)
| AllowAddStart q w m xs :
    allowed (mkFifo q None w m) (EAddStart xs) (mkFifo q (Some (firstn (cap - length q) xs)) w m)
(* When it returns, they are in the queue, and the number returned is how many they are. *)
| AllowAdded q p w m :
    allowed (mkFifo q (Some p) w m) (EAdded (length p)) (mkFifo (q ++ p) None w m)
(* The enumerable holds the whole queue. *)
| AllowEnum q p w m :
    allowed (mkFifo q p w m) (EEnum (length q)) (mkFifo q p (Some q) None)
(* Looking shows the items in order. *)
| AllowLook q p w m k v :
    nth_error w k = Some v ->
    allowed (mkFifo q p (Some w) m) (ELook k (Some v)) (mkFifo q p (Some w) m)
(* Releasing removes exactly the items held. *)
| AllowRelease q p w m :
    allowed (mkFifo (w ++ q) p (Some w) m) ERelease (mkFifo q p None None)
(* GetLastIndex marks the current end; SetStartIndex releases everything before the mark. *)
| AllowLast q p w m :
    allowed (mkFifo q p w m) ELastSeen (mkFifo q p w (Some (length q)))
| AllowSkip q p w n :
    n <= length q ->
    allowed (mkFifo q p w (Some n)) ESkip (mkFifo (skipn n q) p w None)
| AllowTau s : allowed s ETau s.

Inductive allowed_all : fifo -> list (event A) -> fifo -> Prop :=
| AllNil s : allowed_all s [] s
| AllCons s e s' es s'' : allowed s e s' -> allowed_all s' es s'' -> allowed_all s (e :: es) s''.

End Spec.
Arguments fifo : clear implicits.
