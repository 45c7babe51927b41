(** The number a byte string stands for. *)
From Verif Require Import Base ValidateModel.
Local Open Scope Z_scope.

Definition bytes_ok (d : list Z) : Prop := Forall (fun b => 0 <= b < 256) d.

(** Least significant byte first *)
Fixpoint unsigned (d : list Z) : Z := match d with [] => 0 | b :: t => b + 256 * unsigned t end.
(** Two's complement *)
Definition signed (d : list Z) : Z :=
  let n := 8 * Z.of_nat (length d) in if unsigned d <? 2 ^ (n - 1) then unsigned d else unsigned d - 2 ^ n.

Definition little_first (h : hardware) (e : endian) (d : list Z) : list Z :=
  match e, h with Little, _ | Native, LittleHw => d | Big, _ | Native, BigHw => rev d end.
Definition value (h : hardware) (t : itype) (d : list Z) : Z :=
  let l := little_first h (order t) d in if sign t then signed l else unsigned l.

(** Data of a type: at least one byte, and as many as the type says *)
Definition typed (t : itype) (d : list Z) : Prop := (0 < size t)%nat /\ length d = size t /\ bytes_ok d.
