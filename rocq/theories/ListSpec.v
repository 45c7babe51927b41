(** Specification of CCList as a plain sequence. An abstract element is [Some x] (the value x) or [None] (never
    initialised: nothing is promised about what reading it returns). *)
From Verif Require Import Base ListModel.

Section Spec.
Context {A : Type}.

Definition elems (es : option (list A)) (n : nat) : list (option A) :=
  match es with Some xs => map Some xs | None => repeat None n end.

(** What any caller must respect: indices in range, buffers of the stated length. *)
Definition valid (len : nat) (o : op A) : Prop :=
  match o with
  | Append _ | RemoveAll => True
  | AppendMany es n => 0 < n /\ match es with Some xs => length xs = n | None => True end
  | Replace i _ | Insert i _ | Remove i | Get i => i < len
  end.

(** The further conditions under which CCListAppendElements is right: no NULL elements across a page boundary,
    and when the last page is full the elements fill whole pages. *)
Definition append_many_safe (page len : nat) (o : op A) : Prop :=
  match o with
  | AppendMany es n =>
      (es = None -> len mod page + n <= page /\ (len mod page <> 0 \/ len = 0)) /\
      (len = 0 \/ len mod page <> 0 \/ n mod page = 0)
  | _ => True
  end.

(** Allocations: growing storage may only fail while appending one element to a page that is not new. *)
Definition env_safe (o : op A) (e : env) : Prop :=
  match o with
  | Append _ => fst e = true \/ snd e = true
  | _ => snd e = true
  end.

(** [spec l o r l']: on contents [l], call [o] may return [r] leaving contents [l']. *)
Definition spec (l : list (option A)) (o : op A) (r : ret A) (l' : list (option A)) : Prop :=
  match o with
  | Append e => r = RIndex (length l) /\ l' = l ++ [e]
  | AppendMany es n => r = RIndex (length l) /\ l' = l ++ elems es n
  | Replace i e => r = RVoid /\ l' = match e with Some x => upd l i (Some x) | None => l end
  | Insert i e => r = RIndex i /\ l' = insert_at l i [e]
  | Remove i => r = RVoid /\ l' = remove_at l i 1
  | RemoveAll => r = RVoid /\ l' = []
  | Get i => l' = l /\ exists c, r = RElem c /\ forall x, nth_error l i = Some (Some x) -> c = Some x
  end.

(** A call behaves as above or, only for an append whose allocation failed, reports failure and changes nothing. *)
Definition spec_call (e : env) (l : list (option A)) (o : op A) (r : ret A) (l' : list (option A)) : Prop :=
  spec l o r l' \/ (snd e = false /\ (exists x, o = Append x) /\ r = RFail /\ l' = l).

Inductive spec_run : list (option A) -> list (op A * env) -> list (ret A) -> list (option A) -> Prop :=
| spec_nil l : spec_run l [] [] l
| spec_cons l o e r l1 t rs l2 :
    spec_call e l o r l1 -> spec_run l1 t rs l2 -> spec_run l ((o, e) :: t) (r :: rs) l2.

(** Each call of the history meets the conditions, given the count observed before it. *)
Fixpoint safe_run (l : plist A) (ops : list (op A * env)) : Prop :=
  match ops with
  | [] => True
  | (o, e) :: t =>
      (valid (count l) o /\ append_many_safe (pageSize l) (count l) o /\ env_safe o e) /\
      match step l o e with Some (l', _) => safe_run l' t | None => True end
  end.

(** Only what the documentation asks for. *)
Fixpoint valid_run (l : plist A) (ops : list (op A * env)) : Prop :=
  match ops with
  | [] => True
  | (o, e) :: t =>
      valid (count l) o /\ match step l o e with Some (l', _) => valid_run l' t | None => True end
  end.

(** The list holds contents [xs]: same count, and every initialised element is readable. *)
Definition holds (l : plist A) (xs : list (option A)) : Prop :=
  count l = length xs /\
  forall i x, nth_error xs i = Some (Some x) -> step l (Get i) (true, true) = Some (l, RElem (Some x)).

End Spec.
