(** C04: CCList (paged list) behaves as a sequence. *)
From Verif Require Import Base ListModel ListSpec ListProofs.

(** For every chunk size, page size and history of in-range calls, whatever the layout over pages: no undefined
    behaviour, the results and contents of a plain sequence. Missing from the full property: the calls excluded by
    [append_many_safe] and [env_safe], for which the refutations below show it is false. *)
Theorem c04_list_is_sequence_partial :
  forall (A : Type) (chunk page : nat) (e : env) (ops : list (op A * env)) (l0 : plist A),
    create chunk page e = Some l0 -> safe_run l0 ops ->
    exists l rs xs, run l0 ops = Some (l, rs) /\ spec_run [] ops rs xs /\ holds l xs.
Proof.
  intros A chunk page e ops l0 C S. assert (1 <= chunk /\ 1 <= page) as [H1 H2].
  { unfold create in C. destruct (Nat.leb_spec 1 chunk), (Nat.leb_spec 1 page); try discriminate. lia. }
  destruct (create_sim (A := A) chunk page e H1 H2) as (l & E & I). rewrite C in E. injection E as <-.
  destruct (run_sim ops l0 [] I S) as (l & rs & xs & R & Sp & I'). exists l, rs, xs. repeat split; auto; now apply inv_holds.
Qed.
Print Assumptions c04_list_is_sequence_partial.

Theorem c04_create : forall (A : Type) (chunk page : nat) (e : env), 1 <= chunk -> 1 <= page ->
  exists l : plist A, create chunk page e = Some l /\ count l = 0 /\ page <= pageSize l < page + chunk /\ (exists k, pageSize l = k * chunk).
Proof.
  intros A chunk page e H1 H2. unfold create. destruct (Nat.leb_spec 1 chunk), (Nat.leb_spec 1 page); try lia. cbn [andb].
  eexists. split; [reflexivity|]. cbn [count pageSize]. split; [reflexivity|].
  pose proof (Nat.mod_upper_bound page chunk ltac:(lia)). pose proof (Nat.div_mod page chunk ltac:(lia)).
  destruct (Nat.eqb_spec (page mod chunk) 0); (split; [lia|]).
  - exists (page / chunk). lia.
  - exists (page / chunk + 1). lia.
Qed.
Print Assumptions c04_create.

Local Notation yes := (true, true).

(** Appending several elements when the last page is full reads past the caller's elements (List.c 113-119). *)
Theorem c04_append_many_refuted :
  exists (l0 : plist nat) ops, create 2 2 yes = Some l0 /\ valid_run l0 ops /\ Forall (fun oe => snd oe = yes) ops /\ run l0 ops = None.
Proof.
  eexists _, [(AppendMany (Some [1; 2]) 2, yes); (AppendMany (Some [3]) 1, yes)].
  split; [reflexivity|]. split; [vm_compute; repeat split; repeat constructor|]. split; [repeat constructor|reflexivity].
Qed.
Print Assumptions c04_append_many_refuted.

(** Appending several uninitialised elements (NULL) across a page boundary reads through an invalid pointer. *)
Theorem c04_append_null_refuted :
  exists (l0 : plist nat) ops, create 2 2 yes = Some l0 /\ valid_run l0 ops /\ Forall (fun oe => snd oe = yes) ops /\ run l0 ops = None.
Proof.
  eexists _, [(AppendMany None 3, yes)].
  split; [reflexivity|]. split; [vm_compute; repeat split; repeat constructor|]. split; [repeat constructor|reflexivity].
Qed.
Print Assumptions c04_append_null_refuted.

(** When storage cannot be grown, removing an element loses another one: afterwards an index below the count
    cannot be read. *)
Theorem c04_remove_allocation_failure_refuted :
  exists (l0 l : plist nat) ops rs, create 1 2 yes = Some l0 /\ valid_run l0 ops /\ run l0 ops = Some (l, rs) /\
    1 < count l /\ step l (Get 1) yes = None.
Proof.
  eexists _, _, [(Append (Some 1), yes); (Append (Some 2), yes); (Append (Some 3), yes); (Remove 0, (true, false))], _.
  split; [reflexivity|]. split; [vm_compute; repeat split; repeat constructor|]. split; [vm_compute; reflexivity|]. cbn [count]. split; [lia|vm_compute; reflexivity].
Qed.
Print Assumptions c04_remove_allocation_failure_refuted.

(** A failed append leaves an empty page behind, and the next removal goes wrong. *)
Theorem c04_append_allocation_failure_refuted :
  exists (l0 : plist nat) ops, create 1 2 yes = Some l0 /\ valid_run l0 ops /\ run l0 ops = None.
Proof.
  eexists _, [(Append (Some 1), yes); (AppendMany (Some [2; 3]) 2, (true, false)); (Remove 0, yes)].
  split; [reflexivity|]. split; [vm_compute; repeat split; repeat constructor|vm_compute; reflexivity].
Qed.
Print Assumptions c04_append_allocation_failure_refuted.

(** Non-vacuity: a history over several pages with every call, growth failures and uninitialised elements. *)
Definition c04_history : list (op nat * env) :=
  [(Append (Some 1), yes); (AppendMany (Some [2; 3; 4; 5; 6; 7]) 6, yes); (Insert 0 (Some 10), yes); (Insert 3 None, (false, true));
   (Append (Some 9), yes); (Append (Some 8), (true, false)); (Remove 1, yes); (AppendMany (Some [20; 21; 22; 23; 24; 25; 26; 27]) 8, yes);
   (Replace 4 (Some 30), yes); (Get 4, yes); (Get 0, yes); (Get 8, yes); (Remove 0, yes); (Remove 7, yes); (Get 13, yes); (RemoveAll, yes);
   (AppendMany None 4, yes); (Append (Some 5), yes); (Get 4, yes)].

Example c04_history_safe : exists l0, create 2 3 yes = Some l0 /\ pageSize l0 = 4 /\ safe_run l0 c04_history.
Proof. eexists. split; [reflexivity|]. split; [reflexivity|]. vm_compute. intuition (try discriminate; lia). Qed.

Example c04_history_result : exists l0, create 2 3 yes = Some l0 /\ option_map snd (run l0 c04_history) =
  Some [RIndex 0; RIndex 1; RIndex 0; RIndex 3; RIndex 9; RFail; RVoid; RIndex 9; RVoid; RElem (Some 30); RElem (Some 10); RElem (Some 9);
        RVoid; RVoid; RElem (Some 26); RVoid; RIndex 0; RIndex 4; RElem (Some 5)].
Proof. eexists. split; [reflexivity|]. vm_compute. reflexivity. Qed.
