(** What copying a container through reflection must give. *)
From Verif Require Import Base LinkedListModel LinkedListSpec QueueModel QueueSpec ContainerModel.
From Verif Require ArrayModel ArraySpec ListModel ListSpec MapperModel.

(** The contents of a container are passed on for these intents, the container itself for the others. *)
Definition by_contents (i : MapperModel.intent) : Prop := i <> MapperModel.Transfer /\ i <> MapperModel.Share.

(** An array or a list that has had this history holds exactly the values [vs]. *)
Definition array_of {A} (chunk : nat) (created : bool) (ops : list (ArrayModel.op A * bool)) (a : ArrayModel.array A) (vs : list A) : Prop :=
  1 <= chunk /\ ArraySpec.valid_run (ArrayModel.create chunk created) ops /\
  (exists rs, ArrayModel.run (ArrayModel.create chunk created) ops = Some (a, rs)) /\ ArraySpec.holds a (map Some vs).

Definition list_of {A} (chunk page : nat) (e : ListModel.env) (ops : list (ListModel.op A * ListModel.env)) (l : ListModel.plist A) (vs : list A) : Prop :=
  exists l0, ListModel.create chunk page e = Some l0 /\ ListSpec.safe_run l0 ops /\
  (exists rs, ListModel.run l0 ops = Some (l, rs)) /\ ListSpec.holds l (map Some vs).

(** The elements of page [p] are in memory from [storage p] on, [size] apart. *)
Definition in_memory {A} (mem : N -> A) (storage : nat -> N) (size : N) (l : ListModel.plist A) : Prop :=
  forall p a i x, nth_error (ListModel.pages l) p = Some a -> ArrayModel.step a (ArrayModel.Get i) true = Some (a, ArrayModel.RElem (Some x)) ->
  mem (storage p + N.of_nat i * size)%N = x.

(** The allocator's next addresses are different from each other. *)
Definition enough {A} (s : nodes A) (n : nat) : Prop := NoDup (n_next s) /\ n <= length (n_next s).

(** The queue holds the nodes [l]: that is what walking it gives, it has the right count, and from now on it is the
    first-in first-out queue with these nodes in it. *)
Definition queue_holds (fuel : nat) (h : heap) (q : queue) (l : list addr) : Prop :=
  qcount q = length l /\ qwalk (length l) h (qtail q) = Some l /\
  forall ops, fifo_valid l ops -> exists s, qrun fuel (h, q) ops = Some (s, snd (fifo_run l ops)).
