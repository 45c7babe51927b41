(** C99: arrays that end with a terminator. *)
From Verif Require Import Base TerminatedModel TerminatedProofs.

(** The elements up to and including the first that equals the terminator are
    handed on, wherever else its bytes occur and whatever follows. *)
Theorem c99_elements : forall es term els rest, 1 <= es -> length term = es -> Forall (fun x => length x = es /\ x <> term) els ->
  map_terminated (concat els ++ term ++ rest) es term = Some (els ++ [term]).
Proof. exact map_is. Qed.
Print Assumptions c99_elements.

(** Nothing else is handed on. *)
Theorem c99_only : forall es term mem l, 1 <= es -> length term = es -> map_terminated mem es term = Some l ->
  exists els rest, l = els ++ [term] /\ Forall (fun x => length x = es /\ x <> term) els /\ mem = concat l ++ rest.
Proof.
  intros es term mem l He Lt E. destruct (split_memory es term He Lt _ mem (le_n _)) as (els & F & tail & -> & D). destruct D as [Sh|(rest & ->)].
  - unfold map_terminated in E. pose proof (count_none es term els tail He Lt F Sh (S (length (concat els ++ tail))) [] ltac:(constructor)) as C. cbn [concat app length] in C. rewrite C in E. discriminate.
  - rewrite map_is in E by assumption. injection E as <-. exists els, rest. split; [reflexivity|]. split; [exact F|]. rewrite concat_app. cbn [concat]. now rewrite app_nil_r, <- app_assoc.
Qed.
Print Assumptions c99_only.

(** What was handed on, stored anywhere, is mapped to the same elements. *)
Theorem c99_again : forall es term mem l rest, 1 <= es -> length term = es -> map_terminated mem es term = Some l ->
  map_terminated (concat l ++ rest) es term = Some l.
Proof.
  intros es term mem l rest He Lt E. destruct (c99_only es term mem l He Lt E) as (els & r & -> & F & _). rewrite concat_app. cbn [concat]. rewrite app_nil_r, <- app_assoc. now apply map_is.
Qed.
Print Assumptions c99_again.

(** The size of the array is not looked at: any array that is full, so that no
    element of it is the terminator, is read past its end. *)
Theorem c99_full_refuted : forall es term els, 1 <= es -> length term = es -> Forall (fun x => length x = es /\ x <> term) els ->
  map_terminated (concat els) es term = None.
Proof.
  intros es term els He Lt F. unfold map_terminated. pose proof (count_none es term els [] He Lt F ltac:(cbn [length]; lia) (S (length (concat els))) [] ltac:(constructor)) as C. cbn [concat app length] in C. rewrite app_nil_r in C. now rewrite C.
Qed.
Print Assumptions c99_full_refuted.

(** Non-vacuity: a text, elements of two bytes with the terminator across two of
    them, and a full array of eight characters. *)
Example c99_ex : map_terminated [104; 105; 0; 7]%N 1 [0]%N = Some [[104]; [105]; [0]]%N /\
  map_terminated [1; 0; 0; 2; 0; 0; 9; 9]%N 2 [0; 0]%N = Some [[1; 0]; [0; 2]; [0; 0]]%N /\
  map_terminated [1; 2; 3; 4; 5; 6; 7; 8]%N 1 [0]%N = None.
Proof. repeat split. Qed.
