(** The choice of a collection implementation (Collection.c, CollectionTypes.h and the ratings of CollectionArray.c,
    CollectionFastArray.c and CollectionList.c).

    Hints are 32-bit words in [N]. The registry's linked list is the list of its implementations from head to tail (the
    linked list itself is modelled in LinkedListModel). *)
From Verif Require Import Base.
From Verif Require BitTricksModel.
Local Open Scope N_scope.

(** CollectionTypes.h 39-80: the hints. *)
Definition HeavyEnumerating : N := N.shiftl 1 0.
Definition HeavyFinding : N := N.shiftl 1 1.
Definition HeavyInserting : N := N.shiftl 1 2.
Definition HeavyDeleting : N := N.shiftl 1 3.
Definition ConstantLength : N := N.shiftl 1 4.
Definition ConstantElements : N := N.shiftl 1 5.
Definition Ordered : N := N.shiftl 1 6.
Definition SizeMask : N := 0xc0000000.
Definition SizeSmall : N := N.shiftl 1 30.
Definition SizeMedium : N := 0.
Definition SizeLarge : N := N.shiftl 2 30.
Definition HeavyReplacing : N := N.lor (N.shiftl 1 8) Ordered.
Definition HeavyAppending : N := N.lor (N.shiftl 1 9) Ordered.
Definition HeavyPrepending : N := N.lor (N.shiftl 1 10) Ordered.
Definition HeavySorting : N := N.lor (N.shiftl 1 11) Ordered.
Definition OrderedHeavyInserting : N := N.lor (N.lor (N.shiftl 1 12) HeavyInserting) Ordered.

Definition union (hs : list N) : N := fold_right N.lor 0 hs.

(** Collection.c 52: CCCollectionHintWeightMax. *)
Definition weight_max : Z := 30000.

(** Collection.c 56: the size factors, indexed by the two size bits. *)
Definition size_factors : list Z := [10; 1; 100; 0]%Z.

(** Collection.c 54-64: CCCollectionHintWeightCreate. [None] is signed overflow of [int] in any of the products and sums. *)
Definition int (z : Z) : option Z := if ((- 2 ^ 31 <=? z) && (z <? 2 ^ 31))%Z then Some z else None.
Definition int_mul (a b : Z) : option Z := int (a * b)%Z.
Definition int_add (a b : Z) : option Z := int (a + b)%Z.
Definition hint_weight (hint fast moderate slow : N) : option Z :=
  let? size := nth_error size_factors (N.to_nat (N.shiftr (N.land hint SizeMask) 30)) in
  let hint := N.ldiff hint SizeMask in
  let fast := N.land fast hint in
  let moderate := N.land moderate hint in
  let slow := N.land slow hint in
  let? a := int_mul (Z.of_N (BitTricksModel.count_set fast)) 10 in
  let? a := int_mul a size in
  let? b := int_mul (Z.of_N (BitTricksModel.count_set moderate)) (-1) in
  let? b := int_mul b size in
  let? c := int_mul (Z.of_N (BitTricksModel.count_set slow)) (-100) in
  let? c := int_mul c size in
  let? ab := int_add a b in
  int_add ab c.

(** CollectionInterface.h 290-312: an implementation. Its address is [addr]; [ordered] says whether it has an ordered
    interface; the other callbacks are not involved in the choice. *)
Record implementation := mkImplementation { addr : nat; ordered : bool; rating : N -> option Z }.

(** CollectionArray.c 159-178, CollectionFastArray.c 95-110, CollectionList.c 86-101: the ratings. *)
Definition array_rating (hint : N) : option Z :=
  hint_weight hint
    (union [HeavyEnumerating; HeavyInserting; ConstantLength; ConstantElements; Ordered; HeavyReplacing; HeavyAppending])
    0
    (union [HeavyFinding; HeavyDeleting; HeavyPrepending; HeavySorting; OrderedHeavyInserting]).
Definition fast_array_rating (hint : N) : option Z :=
  hint_weight hint
    (union [HeavyEnumerating; HeavyInserting; ConstantLength; ConstantElements; Ordered; HeavyReplacing; HeavyAppending])
    HeavyDeleting
    (union [HeavyFinding; HeavyPrepending; HeavySorting; OrderedHeavyInserting]).
Definition list_rating (hint : N) : option Z :=
  hint_weight hint
    (union [HeavyInserting; ConstantLength; ConstantElements; HeavyReplacing; HeavyAppending; HeavyPrepending])
    (union [HeavyEnumerating; HeavyDeleting; OrderedHeavyInserting])
    (union [Ordered; HeavyFinding; HeavySorting]).

Definition array_implementation : implementation := mkImplementation 1 true array_rating.
Definition list_implementation : implementation := mkImplementation 2 true list_rating.
Definition fast_array_implementation : implementation := mkImplementation 3 true fast_array_rating.

(** Collection.c 66-71: the registry at start. *)
Definition registry : Type := list implementation.
Definition initial : registry := [array_implementation; list_implementation].

(** Collection.c 72-91: CCCollectionRegisterInterface; [node_ok] says whether the node could be allocated. *)
Definition register (r : registry) (i : implementation) (node_ok : bool) : registry :=
  if node_ok then i :: r else r.

(** Collection.c 93-108: CCCollectionDeregisterInterface: the first node with that address goes. *)
Fixpoint deregister (r : registry) (a : nat) : registry :=
  match r with
  | [] => []
  | i :: t => if (addr i =? a)%nat then t else i :: deregister t a
  end.

(** Collection.c 110-124: the search in CCCollectionCreate, INT_MIN being the weight to beat at first. [None] is undefined
    behaviour in a rating. *)
Definition INT_MIN : Z := (- 2 ^ 31)%Z.
Fixpoint search (r : registry) (hint : N) (needs_order : bool) (weight : Z) (best : option implementation) : option (option implementation) :=
  match r with
  | [] => Some best
  | i :: t =>
      let? w := rating i hint in
      if ((weight <? w)%Z && (negb needs_order || ordered i))%bool
      then search t hint needs_order w (Some i)
      else search t hint needs_order weight best
  end.

(** Collection.c 110-127, 145-148: CCCollectionCreate and the assertions of CCCollectionCreateWithImplementation: the
    implementation used. [None] is a failed assertion. *)
Definition needs_order (hint : N) : bool := negb (N.land hint Ordered =? 0).
Definition create (r : registry) (hint : N) : option implementation :=
  let? best := search r hint (needs_order hint) INT_MIN None in
  let? i := best in
  if (negb (needs_order hint) || ordered i)%bool then Some i else None.

(** Collection.c 72-127: calls. *)
Inductive call :=
| Register (i : implementation) (node_ok : bool)
| Deregister (a : nat).

Fixpoint calls (r : registry) (cs : list call) : registry :=
  match cs with
  | [] => r
  | Register i ok :: t => calls (register r i ok) t
  | Deregister a :: t => calls (deregister r a) t
  end.
