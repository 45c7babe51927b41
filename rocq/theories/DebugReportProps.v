(** C74, the report: it lists the allocations the program has, each once, under its file and with its line. *)
From Coq Require Import Permutation.
From Verif Require Import Base DebugModel DebugSpec DebugProofs DebugReportModel DebugReportSpec.
Local Open Scope N_scope.

Definition line_items (ls : lines) : list (N * N) := flat_map (fun l => map (fun p => (fst l, p)) (snd l)) ls.
Definition file_items (fs : files) : list entry :=
  flat_map (fun f => map (fun i => (snd i, (fst f, fst i))) (line_items (snd f))) fs.

Lemma add_line_items ls line p : Permutation (line_items (add_line ls line p)) ((line, p) :: line_items ls).
Proof.
  induction ls as [|[l ps] t IH]; cbn [add_line]; [reflexivity|]. destruct (N.eqb_spec l line) as [->|].
  - unfold line_items. cbn [flat_map fst snd]. rewrite map_app. cbn [map]. rewrite <- app_assoc. cbn [app]. symmetry. apply Permutation_middle.
  - unfold line_items in *. cbn [flat_map fst snd]. rewrite IH. symmetry. apply Permutation_middle.
Qed.

Lemma add_file_items fs file line p : Permutation (file_items (add_file fs file line p)) ((p, (file, line)) :: file_items fs).
Proof.
  induction fs as [|[f ls] t IH]; cbn [add_file]; [reflexivity|]. destruct (N.eqb_spec f file) as [->|].
  - unfold file_items. cbn [flat_map fst snd]. rewrite (Permutation_map _ (add_line_items ls line p)). reflexivity.
  - unfold file_items in *. cbn [flat_map fst snd]. rewrite IH. symmetry. apply Permutation_middle.
Qed.

Lemma add_file_keys fs file line p f : In f (map fst (add_file fs file line p)) <-> f = file \/ In f (map fst fs).
Proof.
  induction fs as [|[g ls] t IH]; cbn [add_file map fst In]; [intuition congruence|]. destruct (N.eqb_spec g file) as [->|]; cbn [map fst In]; [intuition congruence|].
  rewrite IH. intuition congruence.
Qed.

Lemma add_file_nodup fs file line p : NoDup (map fst fs) -> NoDup (map fst (add_file fs file line p)).
Proof.
  induction fs as [|[g ls] t IH]; intros H; cbn [add_file map fst]; [constructor; [easy|constructor]|]. inversion H; subst.
  destruct (N.eqb_spec g file) as [->|]; cbn [map fst]; constructor; auto. rewrite add_file_keys. intros [?|?]; congruence.
Qed.

Lemma dump_items es : forall fs, Permutation (file_items (dump es fs)) (filter (fun e => negb (fst e =? 0)) es ++ file_items fs).
Proof.
  induction es as [|[p [f l]] t IH]; intros fs; cbn [dump filter fst]; [reflexivity|]. rewrite IH. destruct (p =? 0); cbn [negb]; [reflexivity|].
  rewrite add_file_items. cbn [app]. symmetry. apply Permutation_middle.
Qed.

Lemma dump_nodup es : forall fs, NoDup (map fst fs) -> NoDup (map fst (dump es fs)).
Proof.
  induction es as [|[p [f l]] t IH]; intros fs H; cbn [dump]; [exact H|]. apply IH. destruct (p =? 0); [exact H|]. now apply add_file_nodup.
Qed.

(** When no thread is in the middle of a call the report lists what the program has, each allocation once, with one
    heading for each file. *)
Theorem c74_report_partial : forall n ls s, run (initial n) ls s -> quiet s ->
  Permutation (listed (report (entries s))) (user s) /\ NoDup (map fst (report (entries s))).
Proof.
  intros n ls s R Q. assert (I := run_inv _ _ _ R (initial_inv n)). split.
  - rewrite <- (quiet_tracked s I Q). unfold tracked, listed, report. rewrite flat_map_concat_map, map_map, <- flat_map_concat_map. cbn [fst snd].
    etransitivity; [|etransitivity; [exact (dump_items (entries s) [])|]].
    + reflexivity.
    + cbn [file_items flat_map]. rewrite app_nil_r. reflexivity.
  - unfold report. rewrite map_map. cbn [fst]. apply (dump_nodup (entries s) []). constructor.
Qed.
Print Assumptions c74_report_partial.

Example c74_report_ex : report [(100, (1, 3)); (0, (0, 0)); (200, (2, 5)); (300, (1, 3)); (400, (1, 9))]
  = [(1, [(3, 100); (3, 300); (9, 400)]); (2, [(5, 200)])].
Proof. reflexivity. Qed.
