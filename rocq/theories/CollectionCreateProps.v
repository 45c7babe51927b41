(** C55. *)
From Verif Require Import Base CollectionCreateModel CollectionCreateSpec CollectionCreateProofs.
Local Open Scope N_scope.

(** The rating, for every hint and every three sets of hints: no overflow, and never above CCCollectionHintWeightMax, which
    is reached. *)
Theorem c55_weight : forall hint fast moderate slow, hint < 2 ^ 32 ->
  exists w, hint_weight hint fast moderate slow = Some w /\ (-303000 <= w <= weight_max)%Z /\
    w = (factor hint * (10 * shared fast hint - shared moderate hint - 100 * shared slow hint))%Z.
Proof.
  intros hint fast moderate slow H. pose proof (weight_value hint fast moderate slow H) as E. eexists. split; [exact E|].
  split; [exact (weight_bounds _ _ _ _ _ H E)|reflexivity].
Qed.
Print Assumptions c55_weight.

Example c55_weight_max_reached : hint_weight (N.lor (N.ones 30) SizeLarge) (N.ones 32) 0 0 = Some weight_max.
Proof. vm_compute. reflexivity. Qed.

Example c55_weight_ex : array_rating (N.lor HeavyAppending HeavyFinding) = Some (10 * (20 - 200))%Z.
Proof. vm_compute. reflexivity. Qed.

(** CCCollectionCreate uses the first best rated eligible implementation of the registry; it fails its assertion only when
    none is eligible. *)
Theorem c55_create_best : forall r hint, rated r hint ->
  match create r hint with
  | Some i => first_best r hint i
  | None => forall j, In j r -> ~ eligible hint j
  end.
Proof. exact create_ok. Qed.
Print Assumptions c55_create_best.

(** The registry after any history: each address is in it as often as the history says, a registered implementation is
    its first. *)
Theorem c55_registry : forall cs a,
  countb (fun i => (addr i =? a)%nat) (calls initial cs) = times (if ((a =? 1) || (a =? 2))%nat then 1 else 0) a cs.
Proof.
  intros cs a. rewrite times_ok. f_equal. unfold countb. cbn [initial filter addr array_implementation list_implementation].
  destruct a as [|[|[|a]]]; reflexivity.
Qed.
Print Assumptions c55_registry.

Theorem c55_most_recent_first : forall r cs i, calls r (cs ++ [Register i true]) = i :: calls r cs.
Proof. intros r cs. revert r. induction cs as [|c t IH]; intros r i; [reflexivity|]. destruct c; cbn [app calls]; apply IH. Qed.
Print Assumptions c55_most_recent_first.

Theorem c55_order_kept : forall r a, exists before after,
  r = before ++ after /\ (forall i, In i before -> addr i <> a) /\
  match after with
  | [] => deregister r a = r
  | i :: t => addr i = a /\ deregister r a = before ++ t
  end.
Proof.
  induction r as [|i t IH]; intros a; [exists [], []; repeat split; intros i []|]. destruct (Nat.eq_dec (addr i) a) as [E|N].
  - exists [], (i :: t). split; auto. split; [intros j []|]. split; auto. cbn [deregister]. apply Nat.eqb_eq in E. now rewrite E.
  - destruct (IH a) as (b & f & -> & Hb & Hf). exists (i :: b), f. split; [reflexivity|].
    split; [intros j [<-|Hj]; auto|]. cbn [deregister]. apply Nat.eqb_neq in N. rewrite N. destruct f as [|k f]; [now rewrite Hf|].
    destruct Hf as [Ha Hf]. split; auto. now rewrite Hf.
Qed.
Print Assumptions c55_order_kept.

(** The built-in implementations can be created with every hint, unless they were deregistered. *)
Theorem c55_built_in : forall hint, hint < 2 ^ 32 ->
  rated initial hint /\ exists i, create initial hint = Some i /\ first_best initial hint i.
Proof.
  intros hint H. assert (R : rated initial hint).
  { intros i [<-|[<-|[]]]; cbn [rating array_implementation list_implementation]; unfold array_rating, list_rating;
      match goal with |- context [hint_weight ?a ?b ?c ?d] => destruct (c55_weight a b c d H) as (w & E & B & _) end;
      exists w; (split; [exact E|]); unfold weight_max, INT_MIN in *; lia. }
  split; [exact R|]. pose proof (create_ok initial hint R) as C. destruct (create initial hint) as [i|]; [eauto|].
  exfalso. apply (C array_implementation); [now left|]. intros _. reflexivity.
Qed.
Print Assumptions c55_built_in.

(** An implementation that rates itself above CCCollectionHintWeightMax and has been registered is chosen over those that
    rate themselves with CCCollectionHintWeightCreate. *)
Theorem c55_above_max : forall r hint i w, hint < 2 ^ 32 -> rated r hint -> In i r -> eligible hint i ->
  rating i hint = Some w -> (weight_max < w)%Z ->
  exists j v, create r hint = Some j /\ rating j hint = Some v /\ (w <= v)%Z /\
    forall fast moderate slow, rating j hint <> hint_weight hint fast moderate slow.
Proof.
  intros r hint i w H R Hi El Ew Hw. pose proof (create_ok r hint R) as C. destruct (create r hint) as [j|]; [|destruct (C i Hi El)].
  destruct C as (v & b & a & Ev & -> & Ej & Hb & Ha). exists j, v. split; auto. split; auto.
  assert (w <= v)%Z.
  { apply in_app_iff in Hi as [Hi|[->|Hi]]; [specialize (Hb i w Hi El Ew); lia| |exact (Ha i w Hi El Ew)].
    rewrite Ew in Ev. injection Ev as ->. lia. }
  split; auto. intros f m s Q. rewrite Ev in Q. symmetry in Q. pose proof (weight_bounds _ _ _ _ _ H Q). lia.
Qed.
Print Assumptions c55_above_max.

(** An implementation that rates itself INT_MIN is never used, even alone. *)
Theorem c55_int_min : forall a o hint, create [mkImplementation a o (fun _ => Some INT_MIN)] hint = None.
Proof. intros a o hint. reflexivity. Qed.
Print Assumptions c55_int_min.

(** Histories and hints that meet the hypotheses above. *)
Definition best : implementation := mkImplementation 7 false (fun _ => Some 30001%Z).
Example c55_history_ex :
  option_map addr (create (calls initial [Register fast_array_implementation true; Register best true; Register best false; Deregister 1]) (N.lor HeavyDeleting SizeSmall)) = Some 7%nat /\
  option_map addr (create (calls initial [Register fast_array_implementation true; Register best true; Register best false; Deregister 1]) HeavyAppending) = Some 3%nat /\
  option_map addr (create (calls initial [Register best true; Deregister 7]) HeavyDeleting) = Some 2%nat /\
  option_map addr (create (calls initial [Deregister 1; Deregister 2]) 0) = None.
Proof. vm_compute. repeat split. Qed.
