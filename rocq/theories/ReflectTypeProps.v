(** C62: descriptions of types. *)
From Verif Require Import Base ReflectStreamModel ReflectIntegerModel ReflectIntegerSpec ReflectValueModel ReflectValueSpec ReflectValueProofs ReflectTypeModel ReflectTypeSpec ReflectTypeProofs.
Local Open Scope N_scope.

(** Full statement (C62): a description of a type is read back as a type with the same contents, sharing and recursion
    included (only the names of fields are not kept), and the reader takes exactly the bytes written; types that the program
    looks up are read back as themselves. Proved for all types made of integers, floats, structures, arrays, dynamic pointers
    and enumerables (and any type the program looks up), with sizes below 2^56 and counts of enumerables below 2^48. Missing:
    static pointers and opaque types that are not looked up. [all] are the types the type is made of; writing and reading end
    although types may be recursive, nested no deeper than there are types. *)
Theorem c62_types_partial : forall types lookup put_destructor base find get_destructor all fuel t,
  (forall d rest, get_destructor (put_destructor d ++ rest) = Some (d, rest)) -> agree lookup find ->
  closed types (looks_up lookup) all -> (forall t, In t all -> (t < base)%nat) -> N.of_nat (length all) < 2 ^ 56 ->
  In t all -> (length all <= fuel)%nat ->
  exists out, write_type types lookup put_destructor fuel t = Some out /\
  forall rest, exists a types', read_type base find get_destructor types fuel (out ++ rest) = Some (a, types', rest) /\
    (forall t, (t < base)%nat -> types' t = types t) /\ exists R, copies types types' base (looks_up lookup) R /\ R a t.
Proof.
  intros types lookup put_destructor base find get_destructor all fuel t D A C B L I F.
  destruct (whole types lookup put_destructor base find get_destructor all D A C L B fuel t I F) as (out & E & Q). exists out. split; [exact E|]. intros rest. destruct (Q rest) as (a & types' & Er & O & R & Cp & Ra & _). eauto 8.
Qed.
Print Assumptions c62_types_partial.

(** 0: a node, with a number and a pointer to the next node; 3: an array of ten nodes; 4: an enumerable of them *)
Definition sample : tid -> type := fun t =>
  match t with
  | 0%nat => TStruct 16 [mkField 7 0 1%nat; mkField 8 8 2%nat; mkField 9 4 1%nat]
  | 1%nat => TInteger 4 Big true false
  | 2%nat => TPointer 0%nat Retain 5
  | 3%nat => TArray 0%nat 10
  | _ => TEnumerable 3%nat size_max
  end.
(** Destructors are written by their registered name, here a number *)
Definition put_name (d : N) : list N := repeat 1 (N.to_nat d) ++ [0].
Fixpoint get_name (s : list N) : option (N * list N) :=
  match s with [] => None | x :: s => if x =? 0 then Some (0, s) else let? (d, s) := get_name s in Some (d + 1, s) end.

Lemma names d rest : get_name (put_name d ++ rest) = Some (d, rest).
Proof.
  unfold put_name. rewrite <- (N2Nat.id d) at 2. induction (N.to_nat d) as [|n IH]; [reflexivity|]. cbn [repeat app get_name]. change (1 =? 0) with false. cbv iota. rewrite IH. do 2 f_equal. lia.
Qed.

Definition integers (t : tid) : N := if (t =? 1)%nat then 150 else 255.
Definition find_integers (id : N) : option tid := if id =? 150 then Some 1%nat else None.

Example types_apply :
  agree (Some integers) (Some find_integers) /\ closed sample (looks_up (Some integers)) [4; 3; 0; 1; 2]%nat /\
  write_type sample (Some integers) put_name 5 4%nat = Some [112; 64; 1; 80; 10; 2; 48; 16; 3; 0; 3; 19; 8; 4; 6; 2; 1; 1; 1; 1; 1; 0; 4; 3] /\
  (exists a types', read_type 5 (Some find_integers) get_name sample 5 [112; 64; 1; 80; 10; 2; 48; 16; 3; 0; 3; 19; 8; 4; 6; 2; 1; 1; 1; 1; 1; 0; 4; 3; 99] = Some (a, types', [99]) /\
    types' a = TEnumerable 6%nat size_max /\ types' 6%nat = TArray 7%nat 10 /\ types' 7%nat = TStruct 16 [mkField 0 0 1%nat; mkField 0 8 8%nat; mkField 0 4 1%nat] /\ types' 8%nat = TPointer 7%nat Retain 5).
Proof.
  split; [intros t H; unfold integers, find_integers in *; destruct (Nat.eqb_spec t 1); subst; [reflexivity|lia]|]. split.
  - intros t H. assert (NK : forall x, In x [4; 3; 0; 1; 2]%nat -> In x [4; 3; 0; 1; 2]%nat) by auto. destruct H as [<-|[<-|[<-|[<-|[<-|[]]]]]]; [right|right|right|left|right]; cbn; try (exists integers; split; [reflexivity|cbn; lia]); repeat split; try lia; auto; try (intros x Hx; cbn in *; intuition congruence). repeat constructor; cbn; lia.
  - split; [vm_compute; reflexivity|]. eexists _, _. split; [vm_compute; reflexivity|]. repeat split; reflexivity.
Qed.

(** A value written together with its type, as values of opaque types are (CCReflectSerializeBinaryHandler), is read back as
    the same value with the type read. *)
Theorem c62_value_with_type_partial : forall types lookup put_destructor base find get_destructor all fuel t wire prefer depth v,
  (forall d rest, get_destructor (put_destructor d ++ rest) = Some (d, rest)) -> agree lookup find ->
  closed types (looks_up lookup) all -> (forall t t', (t < base)%nat -> In t' (refers (types t)) -> (t' < base)%nat) ->
  (forall t, In t all -> (t < base)%nat) -> N.of_nat (length all) < 2 ^ 56 -> In t all -> (length all <= fuel)%nat ->
  has_type (fun t => described (types t)) prefer depth t v -> not_nested v ->
  exists out out', write_type types lookup put_destructor fuel t = Some out /\ serialize (fun t => described (types t)) wire prefer depth t v = Some out' /\
  forall rest, exists a types', read_type base find get_destructor types fuel (out ++ out' ++ rest) = Some (a, types', out' ++ rest) /\
    deserialize (fun t => described (types' t)) wire prefer depth a (out' ++ rest) = Some (v, rest).
Proof.
  intros types lookup put_destructor base find get_destructor all fuel t wire prefer depth v D A C Rf B L I F T NN.
  destruct (whole types lookup put_destructor base find get_destructor all D A C L B fuel t I F) as (out & E & Q). destruct (trip (fun t => described (types t)) wire prefer depth t v T NN) as (out' & E' & Q'). exists out, out'. split; [exact E|]. split; [exact E'|].
  intros rest. destruct (Q (out' ++ rest)) as (a & types' & Er & O & R & Cp & Ra & Rb). exists a, types'. split; [exact Er|]. rewrite (copy_same types types' base lookup R wire prefer O Rf Cp (fun a t H => B t (Rb a t H)) depth a t _ Ra). apply Q'.
Qed.
Print Assumptions c62_value_with_type_partial.

Example value_with_type_applies :
  (forall t t', (t < 5)%nat -> In t' (refers (sample t)) -> (t' < 5)%nat) /\
  exists v out out' a types', v = Parts [Bytes [0; 0; 1; 0]; Pointer (Some (Parts [Bytes [255; 255; 255; 255]; Pointer None; Bytes [0; 0; 0; 3]])); Bytes [0; 0; 0; 2]] /\
    not_nested v /\ write_type sample (Some integers) put_name 5 0%nat = Some out /\ serialize (fun t => described (sample t)) Little 8 5 0%nat v = Some out' /\
    read_type 5 (Some find_integers) get_name sample 5 (out ++ out') = Some (a, types', out') /\ deserialize (fun t => described (types' t)) Little 8 5 a out' = Some (v, []).
Proof.
  split; [intros [|[|[|[|[|t]]]]] t' H; cbn; intuition lia|]. eexists. eexists. eexists. eexists. eexists. split; [reflexivity|]. split; [cbn; tauto|]. split; [vm_compute; reflexivity|]. split; [vm_compute; reflexivity|]. split; [vm_compute; reflexivity|]. vm_compute. reflexivity.
Qed.
