(** Specification of CCArray as a plain sequence.

    An abstract element is [Some x] (the value x) or [None] (never initialised:
    nothing is promised about what reading it returns). *)
From Verif Require Import Base ArrayModel.

Section Spec.
Context {A : Type}.

Definition elems (es : option (list A)) (n : nat) : list (option A) :=
  match es with Some xs => map Some xs | None => repeat None n end.

(** What the caller must respect: indices in range, buffers of the stated length. *)
Definition valid (len : nat) (o : op A) : Prop :=
  let buf es n := match es with Some xs => @length A xs = n | None => True end in
  match o with
  | Append _ | RemoveAll => True
  | AppendMany es n => 0 < n /\ buf es n
  | Replace i _ | Get i => i < len
  | ReplaceMany i es n => 0 < n /\ i + n <= len /\ buf es n
  | CopyMany i dst n => 0 < n /\ i + n <= len /\ dst + n <= len
  | Insert i _ => i < len
  | InsertMany i es n => 0 < n /\ i < len /\ buf es n
  | RemoveMany i n => 0 < n /\ i + n <= len
  end.

Definition may_allocate (o : op A) : bool :=
  match o with Append _ | AppendMany _ _ | Insert _ _ | InsertMany _ _ _ => true | _ => false end.

(** [spec l o r l']: on contents [l], call [o] may return [r] leaving contents [l']. *)
Definition spec (l : list (option A)) (o : op A) (r : ret A) (l' : list (option A)) : Prop :=
  match o with
  | Append e => r = RIndex (length l) /\ l' = l ++ [e]
  | AppendMany es n => r = RIndex (length l) /\ l' = l ++ elems es n
  | Replace i e => r = RVoid /\ l' = match e with Some x => upd l i (Some x) | None => l end
  | ReplaceMany i es n =>
      r = RVoid /\ l' = match es with Some xs => overwrite l i (map Some xs) | None => l end
  | CopyMany i dst n => r = RVoid /\ l' = overwrite l dst (slice l i n)
  | Insert i e => r = RIndex i /\ l' = insert_at l i [e]
  | InsertMany i es n => r = RIndex i /\ l' = insert_at l i (elems es n)
  | RemoveMany i n => r = RVoid /\ l' = remove_at l i n
  | RemoveAll => r = RVoid /\ l' = []
  | Get i => l' = l /\ exists c, r = RElem c /\ forall x, nth_error l i = Some (Some x) -> c = Some x
  end.

(** A call either behaves as above or, only if an allocation failed, reports
    failure and changes nothing. *)
Definition spec_call (ok : bool) (l : list (option A)) (o : op A) (r : ret A) (l' : list (option A)) : Prop :=
  spec l o r l' \/ (ok = false /\ may_allocate o = true /\ r = RFail /\ l' = l).

(** A whole history. *)
Inductive spec_run : list (option A) -> list (op A * bool) -> list (ret A) -> list (option A) -> Prop :=
| spec_nil l : spec_run l [] [] l
| spec_cons l o ok r l1 t rs l2 :
    spec_call ok l o r l1 -> spec_run l1 t rs l2 -> spec_run l ((o, ok) :: t) (r :: rs) l2.

(** The caller respects [valid] with respect to the count it can observe before each call. *)
Fixpoint valid_run (a : array A) (ops : list (op A * bool)) : Prop :=
  match ops with
  | [] => True
  | (o, ok) :: t =>
      valid (count a) o /\
      match step a o ok with Some (a', _) => valid_run a' t | None => True end
  end.

(** The array holds contents [l]: same length, and every initialised element is readable. *)
Definition holds (a : array A) (l : list (option A)) : Prop :=
  count a = length l /\
  forall i x, nth_error l i = Some (Some x) -> step a (Get i) true = Some (a, RElem (Some x)).

End Spec.
