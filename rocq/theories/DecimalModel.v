(** Model of CommonC/Decimal.h. uint64_t and unsigned _BitInt(128) arithmetic wraps. *)
From Verif Require Import Base Word.
Local Open Scope N_scope.

Definition UINT64_MAX : N := 2 ^ 64 - 1.

(** Lines 65-72: [n] rounds *)
Fixpoint scale_up32 (n : nat) (lo hi : N) : N * N :=
  match n with
  | O => (lo, hi)
  | S m =>
      let lo := wmul 64 lo 10 in
      let hi := wmul 64 hi 10 in
      let hi := wadd 64 hi (N.shiftr lo 32) in
      let lo := lo mod 2 ^ 32 in
      scale_up32 m lo hi
  end.

(** Lines 87-97 and 139-149: [n] rounds; [rem] and [carry] are uint64_t, [lo] and [hi] only shrink *)
Fixpoint scale_down (n : nat) (lo hi rem carry : N) : N * N * N * N :=
  match n with
  | O => (lo, hi, rem, carry)
  | S m =>
      let rem := wadd 64 rem ((hi mod 10) * 2 ^ 32) in
      let carry := if 10 <=? rem mod 10 + lo mod 10 + carry then 1 else 0 in
      scale_down m (lo / 10) (hi / 10) (rem / 10) carry
  end.

(** CCDecimal32MultiplyU64, lines 51-104 *)
Definition mul32 (value coef : N) (exp : Z) : N :=
  let lo := wmul 64 (value mod 2 ^ 32) coef in
  let hi := wmul 64 (N.shiftr value 32) coef in
  if (20 <=? exp)%Z && negb (coef =? 0) then UINT64_MAX
  else if (0 <=? exp)%Z then
    let '(lo, hi) := scale_up32 (Z.to_nat exp) lo hi in
    if 2 ^ 32 - 1 <? hi then UINT64_MAX else wadd 64 lo (wshl 64 hi 32)
  else if (exp <=? -29)%Z && negb (coef =? 0) then 0
  else
    let '(lo, hi, rem, carry) := scale_down (Z.to_nat (- exp)) lo hi 0 0 in
    if 2 ^ 32 - 1 <? hi then UINT64_MAX else wadd 64 (wadd 64 (wadd 64 lo rem) (wshl 64 hi 32)) carry.

(** Lines 120-124 *)
Fixpoint scale_up64 (n : nat) (lo hi : N) : N * N :=
  match n with
  | O => (lo, hi)
  | S m => scale_up64 m (wmul 128 lo 10) (wmul 128 hi 10)
  end.

(** CCDecimal64MultiplyU64, lines 106-156 *)
Definition mul64 (value coef : N) (exp : Z) : N :=
  let lo := wmul 128 (value mod 2 ^ 32) coef in
  let hi := wmul 128 (N.shiftr value 32) coef in
  if (20 <=? exp)%Z && negb (coef =? 0) then UINT64_MAX
  else if (0 <=? exp)%Z then
    let '(lo, hi) := scale_up64 (Z.to_nat exp) lo hi in
    if (2 ^ 32 - 1 <? hi) || (UINT64_MAX <? lo) then UINT64_MAX else wadd 128 lo (wshl 128 hi 32) mod 2 ^ 64
  else if (exp <=? -39)%Z && negb (coef =? 0) then 0
  else
    let '(lo, hi, rem, carry) := scale_down (Z.to_nat (- exp)) lo hi 0 0 in
    if (2 ^ 32 - 1 <? hi) || (UINT64_MAX <? lo) then UINT64_MAX
    else wadd 128 (wadd 128 (wadd 128 lo rem) (wshl 128 hi 32)) carry mod 2 ^ 64.
