(** The two published hash functions, on a whole byte string. Words are numbers modulo 2^32. *)
From Verif Require Import Base.
Local Open Scope N_scope.

Definition W : N := 2 ^ 32.

(** Bob Jenkins's one-at-a-time hash. *)
Fixpoint one_at_a_time_body (bytes : list N) (h : N) : N :=
  match bytes with
  | [] => h
  | b :: t =>
      let h := (h + b) mod W in
      let h := (h + h * 2 ^ 10) mod W in
      one_at_a_time_body t (N.lxor h (h / 2 ^ 6))
  end.
Definition one_at_a_time (bytes : list N) : N :=
  let h := one_at_a_time_body bytes 0 in
  let h := (h + h * 2 ^ 3) mod W in
  let h := N.lxor h (h / 2 ^ 11) in
  (h + h * 2 ^ 15) mod W.

(** Austin Appleby's MurmurHash3_x86_32. *)
Definition rotl (x r : N) : N := (x * 2 ^ r) mod W + x / 2 ^ (32 - r).
Definition premix (k : N) : N := rotl (k * 3432918353 mod W) 15 * 461845907 mod W.

Fixpoint murmur3_body (bytes : list N) (h : N) : N :=
  match bytes with
  | b0 :: b1 :: b2 :: b3 :: t =>
      let k := b0 + 256 * b1 + 65536 * b2 + 16777216 * b3 in
      murmur3_body t ((rotl (N.lxor h (premix k)) 13 * 5 + 3864292196) mod W)
  | [b0; b1; b2] => N.lxor h (premix (b0 + 256 * b1 + 65536 * b2))
  | [b0; b1] => N.lxor h (premix (b0 + 256 * b1))
  | [b0] => N.lxor h (premix b0)
  | [] => h
  end.
Definition murmur3_32 (bytes : list N) (seed : N) : N :=
  let h := N.lxor (murmur3_body bytes seed) (N.of_nat (length bytes) mod W) in
  let h := N.lxor h (h / 2 ^ 16) in
  let h := (h * 2246822507) mod W in
  let h := N.lxor h (h / 2 ^ 13) in
  let h := (h * 3266489909) mod W in
  N.lxor h (h / 2 ^ 16).

Definition bytes_ok (l : list N) : Prop := Forall (fun b => b < 256) l.
