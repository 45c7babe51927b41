(** C01: CCArray behaves as a sequence and never leaves its buffer. *)
From Verif Require Import Base ArrayModel ArraySpec ArrayProofs.

(** Every history of in-range calls, with any pattern of allocation failures, runs to the
    end without undefined behaviour ([run ... = Some]), returns what the sequence
    specification allows, and leaves the specified contents readable. *)
Theorem c01_array_is_sequence :
  forall (A : Type) (chunk : nat) (created : bool) (ops : list (op A * bool)),
    1 <= chunk -> valid_run (create chunk created) ops ->
    exists a rs l, run (create chunk created) ops = Some (a, rs) /\
                   spec_run [] ops rs l /\ holds a l.
Proof. exact @array_refines. Qed.
Print Assumptions c01_array_is_sequence.

(** The assertions of CCArrayReplaceElementsAtIndex (Array.c 121-123) do not bound the
    range: a call they accept can write past the allocated block. *)
Theorem c01_replace_many_assertions_insufficient_refuted :
  exists (a : array nat) (i n : nat) (es : list nat),
    run (create 2 true) [(Append (Some 7), true)] = Some (a, [RIndex 0]) /\
    i < count a /\ n <> 0 /\ length es = n /\
    step a (ReplaceMany i (Some es) n) true = None.
Proof.
  exists (mkArray 2 1 (Some [Some 7; None])), 0, 3, [1; 2; 3]. repeat split; auto.
Qed.
Print Assumptions c01_replace_many_assertions_insufficient_refuted.

(** Non-vacuity: a history with growth, shrinking, an allocation failure and a NULL element. *)
Definition c01_history : list (op nat * bool) :=
  [(Append (Some 1), true); (Append (Some 2), true); (Append (Some 3), false);
   (Append (Some 3), true); (AppendMany (Some [4; 5; 6; 7]) 4, true);
   (Insert 1 (Some 9), true); (InsertMany 0 (Some [10; 11; 12]) 3, true);
   (Append None, true); (RemoveMany 2 3, true); (CopyMany 0 1 3, true);
   (Replace 0 (Some 20), true); (ReplaceMany 3 (Some [30; 31]) 2, true);
   (Get 3, true); (Get 8, true); (RemoveAll, true); (Append (Some 5), true); (Get 0, true)].

Example c01_history_valid : valid_run (create 2 false) c01_history.
Proof. vm_compute. repeat split; repeat constructor. Qed.

Example c01_history_result :
  option_map snd (run (create 2 false) c01_history) =
  Some [RIndex 0; RIndex 1; RFail; RIndex 2; RIndex 3; RIndex 1; RIndex 0; RIndex 11;
        RVoid; RVoid; RVoid; RVoid; RElem (Some 30); RElem None; RVoid; RIndex 0; RElem (Some 5)].
Proof. reflexivity. Qed.
