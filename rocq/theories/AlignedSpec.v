(** A resizable block as its user sees it: a size, and the bytes written so far. *)
From Verif Require Import Base AlignedModel.
Local Open Scope N_scope.

Record view := mkView { vsize : N; contents : N -> option N }.

Definition next (v : view) (o : op) : view :=
  match o with
  | Write i b => mkView (vsize v) (fun j => if j =? i then Some b else contents v j)
  | Resize n (Some _) _ => mkView n (fun j => if (j <? vsize v) && (j <? n) then contents v j else None)
  | Resize _ None _ => v
  end.

(** malloc and realloc return blocks that fit in the address space. *)
Definition fits (head total : N) : Prop := 0 < head /\ head + total < 2 ^ 64.

(** Writes are inside the block, values are bytes; the system's blocks fit, and so do the sizes asked
    for, with the two headers and the alignment. *)
Fixpoint env_ok (a : N) (v : view) (ops : list op) : Prop :=
  match ops with
  | [] => True
  | o :: t =>
      match o with
      | Write i b => i < vsize v /\ b < 256
      | Resize n got g => n + a + 32 < 2 ^ 64 /\ (forall head, got = Some head -> fits head (n + a + 32)) /\ (forall x, g x < 256)
      end /\ env_ok a (next v o) t
  end.
