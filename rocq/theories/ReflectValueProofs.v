(** Proofs for the binary serialisation of values. *)
From Verif Require Import Base ReflectStreamModel ReflectIntegerModel ReflectIntegerSpec ReflectValueModel ReflectValueSpec ReflectStreamProofs ReflectIntegerProofs.
Local Open Scope N_scope.

Section ValueInd.
Variable P : value -> Prop.
Hypothesis HB : forall bs, P (Bytes bs).
Hypothesis HP : forall vs, Forall P vs -> P (Parts vs).
Hypothesis HN : P (Pointer None).
Hypothesis HS : forall v, P v -> P (Pointer (Some v)).
Hypothesis HE : forall vs, Forall P vs -> P (Elements vs).
Hypothesis HR : P Released.
Fixpoint value_induction (v : value) : P v :=
  match v with
  | Bytes bs => HB bs
  | Parts vs => HP vs ((fix go (vs : list value) : Forall P vs := match vs with [] => Forall_nil P | v :: vs => Forall_cons v (value_induction v) (go vs) end) vs)
  | Pointer None => HN
  | Pointer (Some v) => HS v (value_induction v)
  | Elements vs => HE vs ((fix go (vs : list value) : Forall P vs := match vs with [] => Forall_nil P | v :: vs => Forall_cons v (value_induction v) (go vs) end) vs)
  | Released => HR
  end.
End ValueInd.

Lemma all_in (Q : value -> Prop) vs : fold_right (fun v P => Q v /\ P) True vs <-> Forall Q vs.
Proof. induction vs as [|v vs IH]; cbn [fold_right]; [split; auto|]. rewrite IH. split; [intros [A B]; now constructor|intros H; split; [exact (Forall_inv H)|exact (Forall_inv_tail H)]]. Qed.

Lemma release_id v : no_elements v -> release v = v.
Proof.
  induction v as [bs|vs IH| |v IH|vs IH|] using value_induction; cbn [no_elements release]; intros H; auto.
  - f_equal. rewrite all_in in H. induction IH as [|v vs Hv _ IHl]; [reflexivity|]. cbn [map]. rewrite Hv by exact (Forall_inv H). now rewrite IHl by exact (Forall_inv_tail H).
  - now rewrite IH.
  - now subst vs.
Qed.

Lemma no_elements_flat v : no_elements v -> not_nested v.
Proof.
  induction v as [bs|vs IH| |v IH|vs IH|] using value_induction; cbn [no_elements not_nested]; intros H; auto.
  - rewrite all_in in *. rewrite Forall_forall in *. auto.
  - now subst vs.
Qed.

Lemma to_bytes_bytes n : forall v, bytes (to_bytes n v).
Proof. induction n as [|n IH]; intros v; cbn [to_bytes]; constructor; [apply N.mod_lt; lia|apply IH]. Qed.

Lemma magnitude_of bs : magnitude bs = Z.of_N (of_bytes bs).
Proof. induction bs as [|b bs IH]; cbn [magnitude of_bytes]; [reflexivity|]. rewrite IH. lia. Qed.

Lemma number_inj signed e a b : bytes a -> bytes b -> length a = length b -> (1 <= length a)%nat -> number signed e a = number signed e b -> a = b.
Proof.
  intros Ba Bb L L1 H. rewrite !number_is, L in H. cbn zeta in H. assert (M : magnitude (lowest_first e a) = magnitude (lowest_first e b)).
  { pose proof (magnitude_bounds _ (lowest_first_bytes e a Ba)) as Ma. pose proof (magnitude_bounds _ (lowest_first_bytes e b Bb)) as Mb. rewrite lowest_first_length, pow256 in *. rewrite L in *. pose proof (pow_half (length b) ltac:(lia)) as PH.
    destruct signed; cbn [andb] in H; [|exact H]. destruct (Z.leb_spec (2 ^ (8 * Z.of_nat (length b) - 1)) (magnitude (lowest_first e a))), (Z.leb_spec (2 ^ (8 * Z.of_nat (length b) - 1)) (magnitude (lowest_first e b))); lia. }
  assert (Q : lowest_first e a = lowest_first e b) by (apply magnitude_inj; [now apply lowest_first_bytes|now apply lowest_first_bytes|now rewrite !lowest_first_length|exact M]).
  rewrite <- (lowest_first_twice e a), Q. apply lowest_first_twice.
Qed.

(** The count of an enumerable *)
Lemma count_trips count : count = size_max \/ count < 2 ^ 48 -> exists header, serialize_variable true Native (to_bytes 8 count) = Some header /\ forall rest, exists bs, deserialize_variable true Native 8 (header ++ rest) = Some (bs, rest) /\ of_bytes bs = count.
Proof.
  intros H. pose proof (to_bytes_length 8 count) as L. pose proof (to_bytes_bytes 8 count) as B. pose proof (of_to_bytes 8 count) as O. assert (C : count < 2 ^ 64) by (unfold size_max in H; lia). change (8 * N.of_nat 8) with 64 in O. rewrite N.mod_small in O by exact C.
  assert (Nv : number true Native (to_bytes 8 count) = if count =? size_max then (-1)%Z else Z.of_N count).
  { rewrite number_is, L. unfold lowest_first, is_big. cbn [andb]. cbn zeta. rewrite magnitude_of, O. change (2 ^ (8 * Z.of_nat 8 - 1))%Z with (2 ^ 63)%Z. change (2 ^ (8 * Z.of_nat 8))%Z with (2 ^ 64)%Z. unfold size_max in *. destruct (N.eqb_spec count (2 ^ 64 - 1)); destruct (Z.leb_spec (2 ^ 63) (Z.of_N count)); lia. }
  destruct (signed_trip Native Native (to_bytes 8 count) 8 B ltac:(lia) ltac:(lia)) as (out & E & Q).
  - rewrite Nv. cbn [fits]. change (2 ^ (8 * Z.of_nat 8 - 1))%Z with (2 ^ 63)%Z. destruct (N.eqb_spec count size_max); [lia|]. unfold size_max in *. lia.
  - rewrite Nv. cbn [kept]. destruct (N.eqb_spec count size_max); lia.
  - exists out. split; [exact E|]. intros rest. destruct (Q rest) as (bs2 & E2 & B2 & L2 & N2). exists bs2. split; [exact E2|]. rewrite (number_inj true Native bs2 (to_bytes 8 count)); auto; lia.
Qed.

Section Trip.
Variables (env : tid -> descriptor) (wire : endian) (prefer : nat).

(** What one value needs *)
Definition trips (w : value -> option (list N)) (r : reader) (v : value) : Prop :=
  exists out, w v = Some out /\ forall rest, r (out ++ rest) = Some (v, rest).

Lemma each_trips w r vs : Forall (trips w r) vs -> exists out, write_each w vs = Some out /\ forall rest, read_each r (length vs) (out ++ rest) = Some (vs, rest).
Proof.
  induction 1 as [|v vs (o & W & R) _ (out & E & Q)]; cbn [write_each read_each length]; [exists []; auto|]. rewrite W, E. exists (o ++ out). split; [reflexivity|]. intros rest. rewrite <- app_assoc, R, Q. reflexivity.
Qed.

Lemma fields_trip w r ts vs : Forall2 (fun t v => trips (w t) (r t) v) ts vs -> exists out, write_fields w ts vs = Some out /\ forall rest, read_fields r ts (out ++ rest) = Some (vs, rest).
Proof.
  induction 1 as [|t v ts vs (o & W & R) _ (out & E & Q)]; cbn [write_fields read_fields]; [exists []; auto|]. rewrite W, E. exists (o ++ out). split; [reflexivity|]. intros rest. rewrite <- app_assoc, R, Q. reflexivity.
Qed.

Lemma while_trips w r vs : Forall (trips w r) vs -> exists out, write_each (fun v => let? o := w v in Some (1 :: o)) vs = Some out /\ (length vs <= length out)%nat /\
  forall fuel rest, (length vs < fuel)%nat -> read_while r fuel (out ++ 0 :: rest) = Some (vs, rest).
Proof.
  induction 1 as [|v vs (o & W & R) _ (out & E & L & Q)]; cbn [write_each length].
  - exists []. split; [reflexivity|]. split; [cbn; lia|]. intros [|fuel] rest H; [lia|]. reflexivity.
  - rewrite W, E. exists ((1 :: o) ++ out). split; [reflexivity|]. split; [rewrite app_length; cbn [length]; lia|]. intros [|fuel] rest H; [lia|]. cbn [app read_while]. cbn [N.eqb]. change (1 =? 0) with false. cbv iota. rewrite <- app_assoc, R, Q by lia. reflexivity.
Qed.

Lemma integer_trips size e signed fixed bs : bytes bs -> length bs = size -> (1 <= size <= 64)%nat -> (fixed = true /\ (size < prefer)%nat \/ kept signed (number signed e bs)) ->
  exists out, serialize_integer e bs signed fixed prefer wire = Some out /\ forall rest, deserialize_integer e size signed fixed prefer wire (out ++ rest) = Some (bs, rest).
Proof.
  intros B <- L K. unfold serialize_integer, deserialize_integer. destruct ((prefer <=? length bs)%nat || negb fixed) eqn:V.
  - assert (K' : kept signed (number signed e bs)) by (destruct K as [[-> K]|K]; [cbn [negb] in V; rewrite orb_false_r in V; lia|exact K]).
    assert (F : fits signed (length bs) (number signed e bs)).
    { pose proof (magnitude_bounds _ (lowest_first_bytes e bs B)) as M. rewrite lowest_first_length, pow256 in M. pose proof (pow_half (length bs) ltac:(lia)) as PH. rewrite number_is. cbn zeta. destruct signed; cbn [andb fits]; [|lia].
      destruct (Z.leb_spec (2 ^ (8 * Z.of_nat (length bs) - 1)) (magnitude (lowest_first e bs))); lia. }
    assert (T : exists out, serialize_variable signed e bs = Some out /\ forall rest, exists bs2, deserialize_variable signed e (length bs) (out ++ rest) = Some (bs2, rest) /\ bytes bs2 /\ length bs2 = length bs /\ number signed e bs2 = number signed e bs)
      by (destruct signed; [apply signed_trip|apply unsigned_trip]; auto; lia).
    destruct T as (out & E & Q). exists out. split; [exact E|]. intros rest. destruct (Q rest) as (bs2 & E2 & B2 & L2 & N2). rewrite E2. do 2 f_equal. apply (number_inj signed e); auto. lia.
  - destruct (fixed_trip e e wire bs B ltac:(lia)) as (out & E & Q). exists out. split; [exact E|]. intros rest. destruct (Q rest) as (bs2 & E2 & _ & _ & F). rewrite E2. do 2 f_equal. rewrite <- (lowest_first_twice e bs2), F. apply lowest_first_twice.
Qed.

Lemma trip : forall depth t v, has_type env prefer depth t v -> not_nested v -> trips (serialize env wire prefer depth t) (deserialize env wire prefer depth t) v.
Proof.
  induction depth as [|depth IH]; intros t v T F; [contradiction|]. unfold trips. cbn [serialize deserialize has_type] in *. destruct (env t) as [size e signed fixed|size e|ts|t' count|t'|t' validate|t' count].
  - destruct v as [bs| | | |]; try contradiction. destruct T as (B & L & S64 & K). replace (length bs =? size)%nat with true by lia. destruct (integer_trips size e signed fixed bs B L S64 K) as (out & E & Q). exists out. split; [exact E|]. intros rest. now rewrite Q.
  - destruct v as [bs| | | |]; try contradiction. destruct T as (B & L & S64). replace (length bs =? size)%nat with true by lia. destruct (fixed_trip e e wire bs B ltac:(lia)) as (out & E & Q). exists out. split; [exact E|]. intros rest. destruct (Q rest) as (bs2 & E2 & _ & _ & F2).
    rewrite <- L, E2. do 3 f_equal. rewrite <- (lowest_first_twice e bs2), F2. apply lowest_first_twice.
  - destruct v as [|vs| | |]; try contradiction. cbn [not_nested] in F. rewrite all_in in F.
    destruct (fields_trip (serialize env wire prefer depth) (deserialize env wire prefer depth) ts vs) as (out & E & Q); [|exists out; split; [exact E|]; intros rest; now rewrite Q].
    revert F. induction T as [|t0 v0 ts vs T0 _ IHf]; intros F; constructor; [apply IH; [exact T0|exact (Forall_inv F)]|apply IHf; exact (Forall_inv_tail F)].
  - destruct v as [|vs| | |]; try contradiction. destruct T as [L T]. cbn [not_nested] in F. rewrite all_in in F. replace (length vs =? count)%nat with true by lia.
    destruct (each_trips (serialize env wire prefer depth t') (deserialize env wire prefer depth t') vs) as (out & E & Q); [|exists out; split; [exact E|]; intros rest; now rewrite <- L, Q].
    rewrite Forall_forall in *. intros v Hv. apply IH; auto.
  - destruct v as [| |[v|]| |]; try contradiction.
    + destruct (IH t' v T F) as (o & W & R). rewrite W. exists (1 :: o). split; [reflexivity|]. intros rest. cbn [app]. change (1 =? 0) with false. cbv iota. now rewrite R.
    + exists [0]. split; reflexivity.
  - assert (T' : has_type env prefer depth t' v /\ validate v = v) by (destruct v; exact T). destruct T' as [T1 T2]. destruct (IH t' v T1 F) as (o & W & R). exists o. split; [destruct v; exact W|]. intros rest. now rewrite R, T2.
  - destruct v as [| | |vs|]; try contradiction. destruct T as [C T]. cbn [not_nested] in F. rewrite all_in in F.
    assert (Tr : Forall (trips (serialize env wire prefer depth t') (read_element (deserialize env wire prefer depth t'))) vs).
    { rewrite Forall_forall in *. intros v Hv. destruct (IH t' v (T v Hv) (no_elements_flat v (F v Hv))) as (o & W & R). exists o. split; [exact W|]. intros rest. unfold read_element. rewrite R. now rewrite (release_id v) by auto. }
    destruct (count_trips count) as (header & EH & QH); [destruct C as [C|[C C']]; auto|]. rewrite EH. destruct (N.eqb_spec count size_max) as [Cm|Cm].
    + destruct (while_trips _ _ vs Tr) as (out & E & Lo & Q). rewrite E. exists (header ++ out ++ [0]). split; [reflexivity|]. intros rest. rewrite <- !app_assoc. destruct (QH (out ++ [0] ++ rest)) as (bs & -> & ->). destruct (N.eqb_spec count size_max) as [_|]; [|contradiction].
      change ([0] ++ rest) with (0 :: rest). rewrite Q; [reflexivity|]. rewrite app_length. cbn [length]. lia.
    + destruct C as [|[C C']]; [contradiction|]. destruct (each_trips _ _ vs Tr) as (out & E & Q). rewrite E. exists (header ++ out). split; [reflexivity|]. intros rest. rewrite <- !app_assoc. destruct (QH (out ++ rest)) as (bs & -> & ->). destruct (N.eqb_spec count size_max) as [|_]; [contradiction|].
      rewrite C, Nat2N.id, Q. reflexivity.
Qed.

(** The depth can be any that is large enough *)
Lemma has_type_more : forall depth t v, has_type env prefer depth t v -> has_type env prefer (S depth) t v.
Proof.
  induction depth as [|depth IH]; intros t v T; [contradiction|]. remember (S depth) as d eqn:Ed. cbn [has_type]. rewrite Ed in T. cbn [has_type] in T. destruct (env t) as [size e signed fixed|size e|ts|t' count|t'|t' validate|t' count]; destruct v as [bs|vs|[v|]|vs|]; try contradiction; try exact T; subst d; auto.
  - clear - T IH. induction T; constructor; auto.
  - destruct T as [L T]. split; [exact L|]. rewrite Forall_forall in *. auto.
  - destruct T. split; auto.
  - destruct T. split; auto.
  - destruct T. split; auto.
  - destruct T. split; auto.
  - destruct T. split; auto.
  - destruct T. split; auto.
  - destruct T as [L T]. split; [exact L|]. rewrite Forall_forall in *. auto.
Qed.

Lemma has_type_most depth fuel t v : (depth <= fuel)%nat -> has_type env prefer depth t v -> has_type env prefer fuel t v.
Proof. induction 1 as [|fuel _ IH]; intros T; [exact T|]. now apply has_type_more, IH. Qed.

End Trip.

(** ** What is read has lost the elements of nested enumerables *)
Fixpoint settled (v : value) : Prop :=
  match v with
  | Bytes _ | Released => True
  | Parts vs => fold_right (fun v P => settled v /\ P) True vs
  | Pointer None => True
  | Pointer (Some v) => settled v
  | Elements vs => Forall (fun u => release u = u) vs
  end.

Lemma release_twice v : release (release v) = release v.
Proof.
  induction v as [bs|vs IH| |v IH|vs IH|] using value_induction; cbn [release]; auto.
  - f_equal. rewrite map_map. induction IH as [|v vs Hv _ IHl]; [reflexivity|]. cbn [map]. now rewrite Hv, IHl.
  - now rewrite IH.
  - now rewrite map_map.
Qed.

Lemma each_settled (f : reader) (Q : value -> Prop) : (forall s v r, f s = Some (v, r) -> Q v) -> forall n s vs r, read_each f n s = Some (vs, r) -> Forall Q vs.
Proof.
  intros H. induction n as [|n IH]; intros s vs r E; cbn [read_each] in E; [injection E as <- <-; constructor|]. destruct (f s) as [[v s1]|] eqn:Ef; [|discriminate]. destruct (read_each f n s1) as [[vs1 s2]|] eqn:E1; [|discriminate]. injection E as <- <-. constructor; eauto.
Qed.

Lemma while_settled (f : reader) (Q : value -> Prop) : (forall s v r, f s = Some (v, r) -> Q v) -> forall n s vs r, read_while f n s = Some (vs, r) -> Forall Q vs.
Proof.
  intros H. induction n as [|n IH]; intros s vs r E; cbn [read_while] in E; [discriminate|]. destruct s as [|x s]; [discriminate|]. destruct (x =? 0); [injection E as <- <-; constructor|].
  destruct (f s) as [[v s1]|] eqn:Ef; [|discriminate]. destruct (read_while f n s1) as [[vs1 s2]|] eqn:E1; [|discriminate]. injection E as <- <-. constructor; eauto.
Qed.

Lemma fields_settled (f : tid -> reader) (Q : value -> Prop) : (forall t s v r, f t s = Some (v, r) -> Q v) -> forall ts s vs r, read_fields f ts s = Some (vs, r) -> Forall Q vs.
Proof.
  intros H. induction ts as [|t ts IH]; intros s vs r E; cbn [read_fields] in E; [injection E as <- <-; constructor|]. destruct (f t s) as [[v s1]|] eqn:Ef; [|discriminate]. destruct (read_fields f ts s1) as [[vs1 s2]|] eqn:E1; [|discriminate]. injection E as <- <-. constructor; eauto.
Qed.

Lemma read_settled env wire prefer : (forall t t' f, env t <> DValidator t' f) -> forall fuel t s v r, deserialize env wire prefer fuel t s = Some (v, r) -> settled v.
Proof.
  intros NV. induction fuel as [|fuel IH]; intros t s v r E; [discriminate|]. cbn [deserialize] in E. destruct (env t) as [size e signed fixed|size e|ts|t' count|t'|t' validate|t' count] eqn:Et.
  - destruct (deserialize_integer e size signed fixed prefer wire s) as [[bs s1]|]; [|discriminate]. injection E as <- <-. exact I.
  - destruct (deserialize_endian e size wire s) as [[bs s1]|]; [|discriminate]. injection E as <- <-. exact I.
  - destruct (read_fields (deserialize env wire prefer fuel) ts s) as [[vs s1]|] eqn:Ef; [|discriminate]. injection E as <- <-. cbn [settled]. apply all_in. exact (fields_settled _ settled IH _ _ _ _ Ef).
  - destruct (read_each (deserialize env wire prefer fuel t') count s) as [[vs s1]|] eqn:Ef; [|discriminate]. injection E as <- <-. cbn [settled]. apply all_in. exact (each_settled _ settled (IH t') _ _ _ _ Ef).
  - destruct s as [|x s]; [discriminate|]. destruct (x =? 0); [injection E as <- <-; exact I|]. destruct (deserialize env wire prefer fuel t' s) as [[v1 s1]|] eqn:Ef; [|discriminate]. injection E as <- <-. cbn [settled]. eauto.
  - exfalso. exact (NV _ _ _ Et).
  - destruct (deserialize_variable true Native 8 s) as [[bs s1]|]; [|discriminate].
    assert (Re : forall s v r, read_element (deserialize env wire prefer fuel t') s = Some (v, r) -> release v = v) by (intros s0 v0 r0 H; unfold read_element in H; destruct (deserialize env wire prefer fuel t' s0) as [[v1 s2]|]; [|discriminate]; injection H as <- <-; apply release_twice).
    destruct (of_bytes bs =? size_max).
    + destruct (read_while (read_element (deserialize env wire prefer fuel t')) (S (length s1)) s1) as [[vs s2]|] eqn:Ef; [|discriminate]. injection E as <- <-. cbn [settled]. exact (while_settled _ _ Re _ _ _ _ Ef).
    + destruct (read_each (read_element (deserialize env wire prefer fuel t')) (N.to_nat (of_bytes bs)) s1) as [[vs s2]|] eqn:Ef; [|discriminate]. injection E as <- <-. cbn [settled]. exact (each_settled _ _ Re _ _ _ _ Ef).
Qed.

Lemma typed_not_released env prefer : forall depth t, ~ has_type env prefer depth t Released.
Proof. induction depth as [|depth IH]; intros t T; cbn [has_type] in T; [exact T|]. destruct (env t); try exact T. destruct T as [T _]. exact (IH _ T). Qed.

(** The types of the parts, whatever validators are around *)
Lemma typed_inv env prefer : forall depth t v, has_type env prefer depth t v ->
  match v with
  | Parts vs | Elements vs => Forall (fun u => exists d t, has_type env prefer d t u) vs
  | Pointer (Some u) => exists d t, has_type env prefer d t u
  | _ => True
  end.
Proof.
  induction depth as [|depth IH]; intros t v T; [contradiction|]. cbn [has_type] in T. destruct (env t) as [size e signed fixed|size e|ts|t' count|t'|t' validate|t' count]; destruct v as [bs|vs|[v|]|vs|]; try contradiction; try exact I; eauto.
  - clear - T. induction T; constructor; eauto.
  - destruct T as [_ T]. rewrite Forall_forall in *. eauto.
  - destruct T as [T _]. exact (IH _ _ T).
  - destruct T as [T _]. exact (IH _ _ T).
  - destruct T as [T _]. exact (IH _ _ T).
  - destruct T as [_ T]. rewrite Forall_forall in *. eauto.
Qed.

Lemma typed_released_form env prefer v : release v = v -> (exists d t, has_type env prefer d t v) -> no_elements v.
Proof.
  induction v as [bs|vs IH| |v IH|vs IH|] using value_induction; cbn [no_elements release]; intros H (d & t & T); auto.
  - apply all_in. injection H as H. pose proof (typed_inv _ _ _ _ _ T) as Q. cbn beta in Q. clear T. induction IH as [|v vs Hv _ IHl]; [constructor|]. cbn [map] in H. injection H as H1 H2. constructor; [apply Hv; [exact H1|exact (Forall_inv Q)]|apply IHl; [exact H2|exact (Forall_inv_tail Q)]].
  - injection H as H. pose proof (typed_inv _ _ _ _ _ T) as Q. cbn beta in Q. auto.
  - destruct vs as [|v vs]; [reflexivity|]. exfalso. cbn [map] in H. injection H as H _. pose proof (typed_inv _ _ _ _ _ T) as Q. cbn beta in Q. destruct (Forall_inv Q) as (d' & t' & T'). subst v. exact (typed_not_released _ _ _ _ T').
Qed.

Lemma settled_flat env prefer v : settled v -> (exists d t, has_type env prefer d t v) -> not_nested v.
Proof.
  induction v as [bs|vs IH| |v IH|vs IH|] using value_induction; cbn [settled not_nested]; intros H (d & t & T); auto; pose proof (typed_inv _ _ _ _ _ T) as Q; cbn beta in Q.
  - rewrite all_in in *. rewrite Forall_forall in *. intros v Hv. apply IH; auto.
  - auto.
  - rewrite all_in in *. rewrite Forall_forall in *. intros v Hv. apply (typed_released_form env prefer); auto.
Qed.

(** ** To build typed values *)
Section Build.
Variables (env : tid -> descriptor) (prefer : nat).
Lemma build_integer d t size e signed fixed bs : env t = DInteger size e signed fixed -> bytes bs -> length bs = size -> (1 <= size <= 64)%nat -> (fixed = true /\ (size < prefer)%nat \/ kept signed (number signed e bs)) -> has_type env prefer (S d) t (Bytes bs).
Proof. intros E. cbn [has_type]. rewrite E. auto. Qed.
Lemma build_float d t size e bs : env t = DFloat size e -> bytes bs -> length bs = size -> (size <= 64)%nat -> has_type env prefer (S d) t (Bytes bs).
Proof. intros E. cbn [has_type]. rewrite E. auto. Qed.
Lemma build_struct d t ts vs : env t = DStruct ts -> Forall2 (has_type env prefer d) ts vs -> has_type env prefer (S d) t (Parts vs).
Proof. intros E. cbn [has_type]. rewrite E. auto. Qed.
Lemma build_array d t t' vs : env t = DArray t' (length vs) -> Forall (has_type env prefer d t') vs -> has_type env prefer (S d) t (Parts vs).
Proof. intros E. cbn [has_type]. rewrite E. auto. Qed.
Lemma build_null d t t' : env t = DPointer t' -> has_type env prefer (S d) t (Pointer None).
Proof. intros E. cbn [has_type]. rewrite E. auto. Qed.
Lemma build_pointer d t t' v : env t = DPointer t' -> has_type env prefer d t' v -> has_type env prefer (S d) t (Pointer (Some v)).
Proof. intros E. cbn [has_type]. rewrite E. auto. Qed.
Lemma build_valid d t t' f v : env t = DValidator t' f -> has_type env prefer d t' v -> f v = v -> has_type env prefer (S d) t v.
Proof. intros E. cbn [has_type]. rewrite E. destruct v as [| |[|]| |]; auto. Qed.
Lemma build_elements d t t' count vs : env t = DEnumerable t' count -> (count = size_max \/ count = N.of_nat (length vs) /\ count < 2 ^ 48) -> Forall (has_type env prefer d t') vs -> has_type env prefer (S d) t (Elements vs).
Proof. intros E. cbn [has_type]. rewrite E. auto. Qed.
End Build.
