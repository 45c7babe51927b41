(** Model of the mapper of terminated arrays (CommonC/ReflectedTypes.c 458-466;
    the unmapper, 468-471, hands on what it is given).  Memory is the list of the
    bytes that can be read from Data on. *)
From Verif Require Import Base.
Local Open Scope N_scope.

(** memcmp(Data + at, terminator, ElementSize) == 0; [None]: reads outside *)
Definition compare_at (mem : list N) (at_ : nat) (term : list N) : option bool :=
  if (at_ + length term <=? length mem)%nat
  then Some (if list_eq_dec N.eq_dec (slice mem at_ (length term)) term then true else false)
  else None.

(** ReflectedTypes.c 462-463: Count after the loop. [fuel] bounds the rounds;
    one more than the bytes of the memory is enough. *)
Fixpoint count_elements (fuel : nat) (mem : list N) (es : nat) (term : list N) (count : nat) : option nat :=
  match fuel with
  | O => None
  | S fuel =>
      let? same := compare_at mem (count * es) term in
      let count := S count in
      if same then Some count else count_elements fuel mem es term count
  end.

(** ReflectedTypes.c 458-466: the elements of the array that is handed on: [n]
    elements of [es] bytes from Data on (CC_REFLECT_ARRAY). *)
Definition elements (mem : list N) (es n : nat) : list (list N) := map (fun i => slice mem (i * es) es) (seq 0 n).

Definition map_terminated (mem : list N) (es : nat) (term : list N) : option (list (list N)) :=
  let? n := count_elements (S (length mem)) mem es term 0 in
  Some (elements mem es n).
