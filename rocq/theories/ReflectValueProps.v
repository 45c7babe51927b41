(** C61: values of reflected types. *)
From Verif Require Import Base ReflectStreamModel ReflectIntegerModel ReflectIntegerSpec ReflectValueModel ReflectValueSpec ReflectValueProofs.
Local Open Scope N_scope.

(** Full statement (C61): a value of a reflected type that is serialised is read back as the same value, whatever its type and
    whatever follows it in the stream. It is false of an enumerable whose elements have enumerables with elements in them. *)
Theorem c61_round_trip_partial : forall env wire prefer depth t v,
  has_type env prefer depth t v -> not_nested v ->
  forall fuel, (depth <= fuel)%nat ->
  exists out, serialize env wire prefer fuel t v = Some out /\
  forall rest, deserialize env wire prefer fuel t (out ++ rest) = Some (v, rest).
Proof. intros env wire prefer depth t v T F fuel L. exact (trip env wire prefer fuel t v (has_type_most env prefer depth fuel t v L T) F). Qed.
Print Assumptions c61_round_trip_partial.

(** A list of nodes, a node being an integer and a pointer to the next one; 4: an array of two floats; 5: integers up to 9;
    6 to 8: enumerables *)
Definition sample : tid -> descriptor := fun t =>
  match t with
  | 0%nat => DStruct [1%nat; 2%nat; 4%nat; 6%nat]
  | 1%nat => DInteger 4 Big true false
  | 2%nat => DPointer 0%nat
  | 3%nat => DFloat 4 Native
  | 4%nat => DArray 3%nat 2
  | 5%nat => DValidator 9%nat (fun v => match v with Bytes [b] => Bytes [N.min b 9] | v => v end)
  | 6%nat => DEnumerable 5%nat size_max
  | 7%nat => DEnumerable 9%nat 2
  | 8%nat => DEnumerable 7%nat 1
  | _ => DInteger 1 Native false true
  end.

Definition node (n : N) (next : option value) : value := Parts [Bytes [0; 0; n; 0]; Pointer next; Parts [Bytes [1; 2; 3; 4]; Bytes [5; 6; 7; 8]]; Elements [Bytes [3]; Bytes [9]]].

Ltac typed :=
  repeat match goal with
  | |- Forall2 _ _ _ => constructor
  | |- Forall _ _ => constructor
  | |- bytes _ => repeat constructor
  | |- has_type _ _ _ _ (Pointer None) => eapply build_null; reflexivity
  | |- has_type _ _ _ _ (Pointer _) => eapply build_pointer; [reflexivity|]
  | |- has_type _ _ _ _ (Elements _) => eapply build_elements; [reflexivity| |]
  | |- has_type _ _ _ _ (Parts _) => (eapply build_struct; [reflexivity|]) || (eapply build_array; [reflexivity|])
  | |- has_type _ _ _ _ _ => (eapply build_integer; [reflexivity| | | |]) || (eapply build_float; [reflexivity| | |]) || (eapply build_valid; [reflexivity| |])
  | |- has_type _ _ _ _ _ => unfold node
  | |- _ \/ kept _ _ => (left; split; [reflexivity|lia]) || (right; cbn; lia)
  | |- _ \/ _ = _ /\ _ => (left; reflexivity) || (right; split; [reflexivity|vm_compute; reflexivity])
  | |- _ = _ => reflexivity
  | |- _ => lia
  end.

Example round_trip_applies :
  has_type sample 8 6 0%nat (node 1 (Some (node 2 None))) /\ not_nested (node 1 (Some (node 2 None))) /\
  exists out, serialize sample Little 8 6 0%nat (node 1 (Some (node 2 None))) = Some out /\ length out = 34%nat /\ deserialize sample Little 8 6 0%nat (out ++ [42]) = Some (node 1 (Some (node 2 None)), [42]).
Proof.
  split; [unfold node; typed|].
  split; [cbn; repeat split; reflexivity|]. eexists. split; [vm_compute; reflexivity|]. split; vm_compute; reflexivity. Qed.

(** An enumerable of one enumerable of two bytes *)
Theorem c61_refuted :
  exists env v out v', has_type env 8 3 8%nat v /\ serialize env Native 8 3 8%nat v = Some out /\ deserialize env Native 8 3 8%nat out = Some (v', []) /\ v' <> v /\
    v = Elements [Elements [Bytes [1]; Bytes [2]]] /\ v' = Elements [Elements [Released; Released]].
Proof.
  exists sample, (Elements [Elements [Bytes [1]; Bytes [2]]]). eexists _, _. split; [typed|]. split; [vm_compute; reflexivity|]. split; [vm_compute; reflexivity|]. split; [discriminate|]. split; reflexivity.
Qed.
Print Assumptions c61_refuted.

(** No stream at all is read as such a value. *)
Theorem c61_nested_never_read : forall env wire prefer fuel t s v rest depth t',
  (forall t t' f, env t <> DValidator t' f) ->
  deserialize env wire prefer fuel t s = Some (v, rest) -> has_type env prefer depth t' v -> not_nested v.
Proof. intros env wire prefer fuel t s v rest depth t' NV D T. exact (settled_flat env prefer v (read_settled env wire prefer NV fuel t s v rest D) (ex_intro _ depth (ex_intro _ t' T))). Qed.
Print Assumptions c61_nested_never_read.

Definition plain_sample : tid -> descriptor := fun t => match t with 0%nat => DEnumerable 1%nat size_max | _ => DInteger 1 Native false true end.

Example nested_never_read_applies :
  (forall t t' f, plain_sample t <> DValidator t' f) /\ deserialize plain_sample Native 8 2 0%nat [64; 1; 7; 1; 8; 0; 5] = Some (Elements [Bytes [7]; Bytes [8]], [5]) /\ has_type plain_sample 8 2 0%nat (Elements [Bytes [7]; Bytes [8]]).
Proof. split; [intros [|t] t' f; discriminate|]. split; [vm_compute; reflexivity|]. typed. Qed.
