From Verif Require Import Base IndexMapModel IndexMapSpec IndexMapProofs IndexMapRunProofs.

(** Calls made one after the other, by any threads, whatever the chunk size and however elements are stored: each
    call ends when it is left to run, and returns exactly what it would on a plain sequence. *)
Theorem c45_one_at_a_time :
  forall chunk ext cs, 1 <= chunk ->
  (exists s, in_turn chunk ext (init chunk) cs (plain_results [] (map snd cs)) s) /\
  (forall rs s, in_turn chunk ext (init chunk) cs rs s -> rs = plain_results [] (map snd cs)).
Proof. intros chunk ext cs Ch. exact (in_turn_ok chunk ext cs (init chunk) start Ch (init_inv chunk Ch) (fun _ => eq_refl)). Qed.
Print Assumptions c45_one_at_a_time.

(** Any number of threads, any interleaving: each call changes the sequence at one moment within it, as on a plain
    sequence, and only if it succeeds. *)
Theorem c45_changes_are_atomic :
  forall chunk ext ls s es, 1 <= chunk -> run chunk ext (init chunk) ls = Some (s, es) -> all effect_ok start es.
Proof. intros chunk ext ls s es Ch R. exact (proj1 (proj2 (run_inv chunk ext ls _ _ _ _ Ch (init_inv chunk Ch) R))). Qed.
Print Assumptions c45_changes_are_atomic.

(** Partial: and each call returns the result of that change or, if it made none, the result on the sequence at some
    moment of the call; but a count, and a refusal to remove or insert, may be that of the sequence without some of the
    elements whose append has not returned. Missing from the property: that they are not. That is refuted below. *)
Theorem c45_results_partial :
  forall chunk ext ls s es, 1 <= chunk -> run chunk ext (init chunk) ls = Some (s, es) -> all return_nearly_ok start es.
Proof. intros chunk ext ls s es Ch R. exact (proj2 (proj2 (run_inv chunk ext ls _ _ _ _ Ch (init_inv chunk Ch) R))). Qed.
Print Assumptions c45_results_partial.

(** Whatever the interleaving, a thread inside a call can take its next step: nothing outside of a buffer is accessed
    and no NULL element followed. *)
Theorem c45_no_bad_access :
  forall chunk ext ls s es t, 1 <= chunk -> run chunk ext (init chunk) ls = Some (s, es) -> pcs s t <> Idle ->
  step chunk ext s (Step t) <> None.
Proof.
  intros chunk ext ls s es t Ch R. destruct (run_inv chunk ext ls _ _ _ _ Ch (init_inv chunk Ch) R) as (I & _).
  exact (inv_progress chunk ext s _ t Ch I).
Qed.
Print Assumptions c45_no_bad_access.

(** If two replace-exactly calls for the same value of the same element both change it, then the element got that value
    again in between. *)
Theorem c45_replace_exactly_once :
  forall chunk ext ls s a t1 b t2 c i x1 x2 m, 1 <= chunk ->
  run chunk ext (init chunk) ls = Some (s, a ++ EEffect t1 :: b ++ EEffect t2 :: c) ->
  calls (after start a) t1 = Some (Exact i x1 m) -> val x1 <> m ->
  calls (after start (a ++ EEffect t1 :: b)) t2 = Some (Exact i x2 m) ->
  exists b1 e b2, b = b1 ++ e :: b2 /\
    nth_error (contents (after start (a ++ EEffect t1 :: b1))) i <> Some m /\
    nth_error (contents (after start (a ++ EEffect t1 :: b1 ++ [e]))) i = Some m.
Proof.
  intros chunk ext ls s a t1 b t2 c i x1 x2 m Ch R C1 V1 C2.
  pose proof (c45_changes_are_atomic _ _ _ _ _ Ch R) as E. rewrite all_app in E. destruct E as (_ & E). cbn [all] in E.
  destruct E as (E1 & E). rewrite all_app in E. destruct E as (_ & E2 & _). cbn [effect_ok] in E1, E2.
  destruct E1 as (_ & o1 & O1 & S1). destruct E2 as (_ & o2 & O2 & S2).
  assert (o1 = Exact i x1 m) as -> by congruence.
  rewrite after_app in C2. cbn [after] in C2. assert (o2 = Exact i x2 m) as -> by congruence.
  set (v1 := next (after start a) (EEffect t1)) in *.
  assert (B : nth_error (contents v1) i <> Some m).
  { unfold v1. cbn [next]. rewrite C1. cbn [plain] in S1 |- *. destruct (nth_error (contents (after start a)) i) as [y|] eqn:N; [|discriminate].
    destruct (Z.eqb y m); [|discriminate]. cbn [contents]. rewrite nth_error_upd_eq; [congruence|]. apply nth_error_Some. congruence. }
  assert (F : nth_error (contents (after v1 b)) i = Some m).
  { cbn [plain] in S2. destruct (nth_error (contents (after v1 b)) i) as [y|] eqn:N; [|discriminate].
    destruct (Z.eqb_spec y m); [congruence|discriminate]. }
  destruct (value_returns i m b v1 B F) as (b1 & e & b2 & -> & X & Y).
  exists b1, e, b2. split; [reflexivity|]. rewrite !after_app. cbn [after]. fold v1. rewrite after_app. cbn [after]. auto.
Qed.
Print Assumptions c45_replace_exactly_once.

(** And a replace-exactly call that returns true, for a value other than the one it puts there, has changed it. *)
Theorem c45_replace_exactly_returns :
  forall chunk ext ls s a t b i x m, 1 <= chunk ->
  run chunk ext (init chunk) ls = Some (s, a ++ ERet t (RFlag true) :: b) ->
  calls (after start a) t = Some (Exact i x m) -> val x <> m -> result (after start a) t = Some (RFlag true).
Proof.
  intros chunk ext ls s a t b i x m Ch R C V.
  pose proof (c45_results_partial _ _ _ _ _ Ch R) as E. rewrite all_app in E. destruct E as (_ & E & _). cbn [return_nearly_ok] in E.
  destruct E as (o & O & E). assert (o = Exact i x m) as -> by congruence.
  destruct (result (after start a) t); [congruence|]. exfalso. destruct E as (l & n & _ & [E|E]); [|exact E].
  cbn [plain] in E. destruct (nth_error l i) as [y|] eqn:N; [|discriminate].
  destruct (Z.eqb_spec y m) as [->|]; [|discriminate]. injection E as E. apply V.
  assert (L : i < length l) by (apply nth_error_Some; congruence).
  pose proof (nth_error_upd_eq l i (val x) L) as Q. rewrite E in Q. congruence.
Qed.
Print Assumptions c45_replace_exactly_returns.

(** Thread 0 has added element 10 and is about to count it. Thread 1 appends 20, which returns index 1; then its removal
    of index 1 is refused, and the count it gets is 1. *)
Definition ten : cell := mkCell 1 10.
Definition twenty : cell := mkCell 2 20.
Definition steps (t n : nat) : list label := repeat (Step t) n.
Definition refuting : list label :=
  Call 0 (Append ten) :: steps 0 4 ++ Call 1 (Append twenty) :: steps 1 8.
Definition appended : list event :=
  [ECall 0 (Append ten); ETau; ETau; ETau; EEffect 0; ECall 1 (Append twenty); ETau; ETau; ETau; ETau; EEffect 1; ETau; ETau;
   ERet 1 (RIndex 1)].
Lemma refuting_runs o n es : option_map snd (run 2 false (init 2) (refuting ++ Call 1 o :: steps 1 n)) = Some (appended ++ es) ->
  exists s, run 2 false (init 2) (refuting ++ Call 1 o :: steps 1 n) = Some (s, appended ++ es).
Proof. destruct (run 2 false (init 2) _) as [[s es']|]; cbn; [|discriminate]. intros H. injection H as ->. now exists s. Qed.

Theorem c45_remove_refuted :
  exists ls s a t i, run 2 false (init 2) ls = Some (s, a ++ [ERet t (RVal None)]) /\
  calls (after start a) t = Some (Remove i) /\ result (after start a) t = None /\
  forall l n, In (l, n) (moments (after start a) t) -> i < length l.
Proof.
  destruct (refuting_runs (Remove 1) 2 [ECall 1 (Remove 1); ETau; ERet 1 (RVal None)]) as (s & R); [vm_compute; reflexivity|].
  exists (refuting ++ Call 1 (Remove 1) :: steps 1 2), s, (appended ++ [ECall 1 (Remove 1); ETau]), 1, 1.
  split; [rewrite <- app_assoc; exact R|]. split; [reflexivity|]. split; [reflexivity|].
  intros l n [L|[]]. injection L as <- <-. cbn. lia.
Qed.
Print Assumptions c45_remove_refuted.

Theorem c45_count_refuted :
  exists ls s a t k, run 2 false (init 2) ls = Some (s, a ++ [ERet t (RCount k)]) /\
  calls (after start a) t = Some Count /\
  forall l n, In (l, n) (moments (after start a) t) -> k <> length l.
Proof.
  destruct (refuting_runs Count 2 [ECall 1 Count; ETau; ERet 1 (RCount 1)]) as (s & R); [vm_compute; reflexivity|].
  exists (refuting ++ Call 1 Count :: steps 1 2), s, (appended ++ [ECall 1 Count; ETau]), 1, 1.
  split; [rewrite <- app_assoc; exact R|]. split; [reflexivity|].
  intros l n [L|[]]. injection L as <- <-. cbn. lia.
Qed.
Print Assumptions c45_count_refuted.

(** A history with a resize up, one down, an insertion, and refusals. *)
Definition history : list (nat * op) :=
  [(0, Get 0); (0, Append ten); (1, Append twenty); (0, Append (mkCell 3 30)); (2, Insert 1 (mkCell 4 40)); (0, Insert 4 ten);
   (1, Remove 0); (0, Exact 0 ten 40); (0, Exact 0 ten 40); (2, Replace 2 twenty); (2, Replace 3 twenty); (0, Get 2); (0, Get 3);
   (0, Count)].
Example c45_history_results :
  plain_results [] (map snd history) =
  [RVal None; RIndex 0; RIndex 1; RIndex 2; RFlag true; RFlag false; RVal (Some 10%Z); RFlag true; RFlag false; RVal (Some 30%Z);
   RVal None; RVal (Some 20%Z); RVal None; RCount 3].
Proof. vm_compute. reflexivity. Qed.

(** Elements kept outside of the buffer: two threads replace the 10 at index 0 exactly, the second one has read it before
    the first one replaces it; meanwhile the first resize of a third thread's removal is thrown away. *)
Definition race : list label :=
  Call 0 (Append ten) :: steps 0 7 ++ Call 0 (Exact 0 twenty 10) :: steps 0 4 ++ Call 1 (Exact 0 (mkCell 3 30) 10) :: steps 1 4 ++
  Call 2 (Remove 0) :: steps 2 2 ++ steps 0 1 ++ steps 1 2 ++ steps 0 2 ++ steps 1 1 ++ steps 2 2 ++ steps 2 5.
Example c45_race_events :
  option_map snd (run 1 true (init 1) race) =
  Some ([ECall 0 (Append ten); ETau; ETau; ETau; EEffect 0; ETau; ETau; ERet 0 (RIndex 0);
         ECall 0 (Exact 0 twenty 10); ETau; ETau; ETau; ETau; ECall 1 (Exact 0 (mkCell 3 30) 10); ETau; ETau; ETau; ETau;
         ECall 2 (Remove 0); ETau; ETau; EEffect 0; ETau; ETau; ETau; ERet 0 (RFlag true); ERet 1 (RFlag false);
         ETau; ETau; ETau; ETau; ETau; EEffect 2; ERet 2 (RVal (Some 20%Z))]).
Proof. vm_compute. reflexivity. Qed.

(** One replace-exactly after another for the same value, with the value put back in between. *)
Definition twice : list label :=
  Call 0 (Append ten) :: steps 0 7 ++ Call 0 (Exact 0 twenty 10) :: steps 0 6 ++ Call 1 (Replace 0 ten) :: steps 1 7 ++
  Call 2 (Exact 0 twenty 10) :: steps 2 6.
Example c45_twice_events :
  option_map snd (run 1 false (init 1) twice) =
  Some (([ECall 0 (Append ten); ETau; ETau; ETau; EEffect 0; ETau; ETau; ERet 0 (RIndex 0);
          ECall 0 (Exact 0 twenty 10); ETau; ETau; ETau]) ++ EEffect 0 ::
        ([ETau; ERet 0 (RFlag true); ECall 1 (Replace 0 ten); ETau; ETau; ETau; ETau; EEffect 1; ETau; ERet 1 (RVal (Some 20%Z));
          ECall 2 (Exact 0 twenty 10); ETau; ETau; ETau]) ++ EEffect 2 :: [ETau; ERet 2 (RFlag true)]).
Proof. vm_compute. reflexivity. Qed.
