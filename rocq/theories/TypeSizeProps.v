(** C103: the size of a reflected type is the number of bytes a value of it takes *)
From Verif Require Import Base TypeSizeModel TypeSizeSpec.
Local Open Scope N_scope.

Lemma bytes_app : forall a b, bytes (a ++ b) = bytes a + bytes b.
Proof. induction a as [| x a IH]; intros b; cbn [bytes app]; [ | rewrite IH]; lia. Qed.

Lemma bytes_repeat : forall cells n, bytes (concat (repeat cells n)) = bytes cells * N.of_nat n.
Proof.
  intros cells n; induction n as [| n IH]; [cbn; lia | ].
  cbn [repeat concat]. rewrite bytes_app, IH. lia.
Qed.

Lemma one : forall s, bytes [s] = s.
Proof. intros s; cbn [bytes]; lia. Qed.

(** Every supported type has a size, and it is the bytes of what a value of the type is laid out as, modulo 2^64 *)
Theorem c103_size_modulo : forall pointer enumerable t cells,
  pointer < 2 ^ 64 -> enumerable < 2 ^ 64 -> fits t -> laid pointer enumerable t cells ->
  type_size pointer enumerable t = Some (bytes cells mod 2 ^ 64).
Proof.
  intros pointer enumerable t cells P E F L; induction L; cbn [type_size fits] in *;
    try (rewrite one, N.mod_small by assumption; reflexivity).
  - exact (IHL F).
  - destruct F as [F C]. rewrite (IHL F), bytes_repeat. unfold times. rewrite N.mul_mod_idemp_l by discriminate. reflexivity.
Qed.
Print Assumptions c103_size_modulo.

(** Where the bytes are a value of size_t, the size is the bytes *)
Theorem c103_size_partial : forall pointer enumerable t cells,
  pointer < 2 ^ 64 -> enumerable < 2 ^ 64 -> fits t -> laid pointer enumerable t cells -> bytes cells < 2 ^ 64 ->
  type_size pointer enumerable t = Some (bytes cells).
Proof.
  intros pointer enumerable t cells P E F L B. rewrite (c103_size_modulo _ _ _ _ P E F L), N.mod_small by exact B. reflexivity.
Qed.
Print Assumptions c103_size_partial.

(** Elements of an array, each at its index times the size of an element, are inside the size of the array *)
Theorem c103_elements_partial : forall pointer enumerable t count cells s,
  pointer < 2 ^ 64 -> enumerable < 2 ^ 64 -> fits (Array t count) ->
  laid pointer enumerable (Array t count) cells -> bytes cells < 2 ^ 64 -> type_size pointer enumerable t = Some s -> 0 < count ->
  exists all, type_size pointer enumerable (Array t count) = Some all /\ all = s * count /\
  forall i, i < count -> i * s + s <= all.
Proof.
  intros pointer enumerable t count cells s P E F L B S C.
  pose proof (c103_size_partial _ _ _ _ P E F L B) as A.
  inversion L as [ | | | | | | | t' one_cells n L1 E1 E2]; subst.
  rewrite bytes_repeat in A, B.
  assert (B1 : bytes one_cells < 2 ^ 64) by nia.
  destruct F as [F _]. pose proof (c103_size_partial _ _ _ _ P E F L1 B1) as S1. rewrite S in S1. injection S1 as ->.
  eexists. split; [exact A | ]. split; [reflexivity | ]. intros i I. nia.
Qed.
Print Assumptions c103_elements_partial.

(** A type without a size is one whose innermost type is not supported *)
Theorem c103_unsupported : forall pointer enumerable t,
  type_size pointer enumerable t = None <-> ~ exists cells, laid pointer enumerable t cells.
Proof.
  intros pointer enumerable t. induction t as [| s | s | s | s | t IH count | t IH | |]; cbn [type_size];
    try (split; [discriminate | intros H; exfalso; apply H; eexists; constructor]).
  - assert (R : (exists cells, laid pointer enumerable t cells) <-> exists cells, laid pointer enumerable (Array t count) cells).
    { split.
      - intros [cells L]. exists (concat (repeat cells (N.to_nat count))). rewrite <- (N2Nat.id count) at 1. constructor; exact L.
      - intros [cells L]. inversion L; subst. eexists; eassumption. }
    rewrite <- R, <- IH. destruct (type_size pointer enumerable t); split; congruence.
  - assert (R : (exists cells, laid pointer enumerable t cells) <-> exists cells, laid pointer enumerable (Validator t) cells).
    { split; intros [cells L]; [exists cells; constructor; exact L | inversion L; subst; eexists; eassumption]. }
    rewrite <- R. exact IH.
  - split; [ | reflexivity]. intros _ [cells L]. inversion L.
Qed.
Print Assumptions c103_unsupported.

(** An array of arrays that does not fit in memory has the size 0 *)
Theorem c103_overflow_refuted : exists t cells,
  fits t /\ laid 8 64 t cells /\ 2 ^ 64 <= bytes cells /\ type_size 8 64 t = Some 0.
Proof.
  assert (W : exists n, N.of_nat n = 2 ^ 32) by (exists (N.to_nat (2 ^ 32)); apply N2Nat.id). destruct W as [n W].
  exists (Array (Array (Integer 1) (2 ^ 32)) (2 ^ 32)), (concat (repeat (concat (repeat [1] n)) n)).
  split; [cbn [fits]; lia | ]. split; [rewrite <- W; repeat constructor | ].
  split; [rewrite !bytes_repeat, W, one; vm_compute; discriminate | vm_compute; reflexivity].
Qed.
Print Assumptions c103_overflow_refuted.

Example c103_ex : laid 8 64 (Array (Validator (Array (Integer 4) 3)) 2) [4; 4; 4; 4; 4; 4]
  /\ type_size 8 64 (Array (Validator (Array (Integer 4) 3)) 2) = Some 24
  /\ fits (Array (Validator (Array (Integer 4) 3)) 2) /\ type_size 8 64 (Validator Unsupported) = None.
Proof.
  split; [ | split; [reflexivity | split; [cbn; lia | reflexivity]]].
  apply (laid_array 8 64 (Validator (Array (Integer 4) 3)) [4; 4; 4] 2). constructor.
  apply (laid_array 8 64 (Integer 4) [4] 3). constructor.
Qed.
