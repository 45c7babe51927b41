(** When a type read is the type written. *)
From Verif Require Import Base ReflectStreamModel ReflectIntegerModel ReflectValueModel ReflectTypeModel.
Local Open Scope N_scope.

(** The types a type refers to *)
Definition refers (d : type) : list tid :=
  match d with
  | TPointer t _ _ | TArray t _ | TValidator t _ | TEnumerable t _ => [t]
  | TInteger _ _ _ _ | TFloat _ _ => []
  | TStruct _ fields => map field_type fields
  end.

(** The types [a] and [b] are the same but for the names of fields, and refer to types related by [R]. *)
Definition same (R : tid -> tid -> Prop) (a b : type) : Prop :=
  match a, b with
  | TPointer t o d, TPointer t' o' d' => R t t' /\ o = o' /\ d = d'
  | TInteger size e signed fixed, TInteger size' e' signed' fixed' => size = size' /\ e = e' /\ signed = signed' /\ fixed = fixed'
  | TFloat size e, TFloat size' e' => size = size' /\ e = e'
  | TStruct size fields, TStruct size' fields' => size = size' /\ Forall2 (fun f f' => offset f = offset f' /\ R (field_type f) (field_type f')) fields fields'
  | TArray t count, TArray t' count' => R t t' /\ count = count'
  | TEnumerable t count, TEnumerable t' count' => R t t' /\ count = count'
  | _, _ => False
  end.

(** [R] matches the types read to the types written, one to one. Those the program looks up are the program's own, the others
    are new types with the same contents. *)
Record copies (types types' : tid -> type) (base : nat) (looked_up : tid -> Prop) (R : tid -> tid -> Prop) : Prop := {
  one_type : forall a t t', R a t -> R a t' -> t = t';
  one_copy : forall a a' t, R a t -> R a' t -> a = a';
  own : forall a t, R a t -> looked_up t -> a = t;
  new : forall a t, R a t -> ~ looked_up t -> (base <= a)%nat /\ same R (types' a) (types t)
}.

(** Types that can be written: sizes that C60 says are kept, no validators *)
Definition writable (d : type) : Prop :=
  match d with
  | TPointer _ _ _ => True
  | TInteger size _ _ _ | TFloat size _ => size < 2 ^ 56
  | TStruct size fields => size < 2 ^ 56 /\ N.of_nat (length fields) < 2 ^ 56 /\ Forall (fun f => offset f < 2 ^ 56) fields
  | TArray _ count => count < 2 ^ 56
  | TValidator _ _ => False
  | TEnumerable _ count => count = size_max \/ count < 2 ^ 48
  end.

(** The types [all] have among them those they refer to, the types that are looked up aside. *)
Definition closed (types : tid -> type) (looked_up : tid -> Prop) (all : list tid) : Prop :=
  forall t, In t all -> looked_up t \/ writable (types t) /\ incl (refers (types t)) all.

(** The lookup functions of the writer and the reader agree: an ID up to 154 stands for the type it was given for. *)
Definition agree (lookup : option (tid -> N)) (find : option (N -> option tid)) : Prop :=
  match lookup, find with
  | Some lookup, Some find => forall t, lookup t <= 154 -> find (lookup t) = Some t
  | Some lookup, None => forall t, 154 < lookup t
  | None, _ => True
  end.
Definition looks_up (lookup : option (tid -> N)) (t : tid) : Prop := exists f, lookup = Some f /\ f t <= 154.
