(** What C74 means. *)
From Verif Require Import Base DebugModel.
Local Open Scope N_scope.

(** The pointers tracked, and where each was allocated *)
Definition tracked (s : state) : list entry := filter (fun e => negb (fst e =? 0)) (entries s).

(** No call is in progress. *)
Definition quiet (s : state) : Prop := forall c, In c (threads s) -> c = Idle.

(** The old address of a resize in progress: realloc may have freed it already. *)
Definition being_replaced (s : state) (p : N) : Prop :=
  exists q i k, In (Seeking (ToReplace q i) p k) (threads s) \/ In (Found (ToReplace q i) p k) (threads s).

(** What the theorems ask of a step: malloc and realloc do not give out an address that is still to be replaced in the list. *)
Definition not_reused (s : state) (l : label) : Prop :=
  match l with
  | Malloc p _ => ~ being_replaced s p
  | Realloc _ _ (Some q) => ~ being_replaced s q
  | _ => True
  end.

(** Any interleaving of the threads *)
Inductive run : state -> list (nat * label) -> state -> Prop :=
| run_nil s : run s [] s
| run_cons s t l s1 a ls s' : step s t l = To s1 a -> not_reused s l -> run s1 ls s' -> run s ((t, l) :: ls) s'.

(** What the other threads do to the allocation [p] while [t] asks for it: not free it, nor resize it *)
Definition leaves (p : N) (t : nat) (x : nat * label) : Prop :=
  if Nat.eqb (fst x) t then snd x = Read else match snd x with Free q => q <> p | Realloc q _ _ => q <> p | _ => True end.

(** Steps without the condition above *)
Fixpoint follow (s : state) (ls : list (nat * label)) : option state :=
  match ls with
  | [] => Some s
  | (t, l) :: r => match step s t l with To s' _ => follow s' r | _ => None end
  end.
