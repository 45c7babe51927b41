(** What a run-length encoding stream is for. *)
From Verif Require Import Base ReflectStreamModel.

(** The bytes a program writes, and for each byte whether it is written by WriteContinue *)
Definition data_of (o : wop) : list N := match o with Write d | WriteContinue d => d | WriteFlush => [] end.
Definition written (p : list wop) : list N := flat_map data_of p.
Definition write_modes (p : list wop) : list bool := flat_map (fun o => repeat (match o with WriteContinue _ => true | _ => false end) (length (data_of o))) p.
Definition read_modes (p : list rop) : list bool := flat_map (fun o => match o with Read n => repeat false n | ReadContinue n => repeat true n end) p.

(** The stream as configured and not yet used *)
Definition start : run := mkRun 0 0.

(** No WriteContinue brings the current run to its greatest length and then has the same byte again. *)
Fixpoint no_spill (max : N) (r : run) (data : list N) : Prop :=
  match data with
  | [] => True
  | b :: t => b = value r -> if (count r + 1 =? max)%N then hd_error t <> Some b else no_spill max (mkRun (value r) (count r + 1)) t
  end.

Fixpoint no_spills (mask : N -> bool) (size : nat) (r : run) (p : list wop) : Prop :=
  match p with
  | [] => True
  | o :: t =>
      match o with WriteContinue d => count r <> 0%N -> no_spill (2 ^ (8 * N.of_nat size)) r d | _ => True end /\
      match writes mask size r [o] with Some (r, _) => no_spills mask size r t | None => True end
  end.
