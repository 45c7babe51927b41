From Verif Require Import Base Word AlignedProofs DecimalModel DecimalSpec.
Local Open Scope N_scope.

Lemma wmul_id w x y : x * y < 2 ^ w -> wmul w x y = x * y.
Proof. intros H. unfold wmul. apply N.mod_small, H. Qed.
Lemma wadd_small w x y : x + y < 2 ^ w -> wadd w x y = x + y.
Proof. intros H. unfold wadd. apply N.mod_small, H. Qed.
Lemma wshl_small w x y : x * 2 ^ y < 2 ^ w -> wshl w x y = x * 2 ^ y.
Proof. intros H. unfold wshl. apply N.mod_small, H. Qed.
Lemma pow10_S n : 10 ^ N.of_nat (S n) = 10 * 10 ^ N.of_nat n.
Proof. rewrite Nat2N.inj_succ, N.pow_succ_r by lia. reflexivity. Qed.
Lemma pow10_pos n : 1 <= 10 ^ n.
Proof. apply N.lt_pred_le. apply N.neq_0_lt_0. apply N.pow_nonzero. discriminate. Qed.

Lemma divmod32 x : x = x mod 2 ^ 32 + x / 2 ^ 32 * 2 ^ 32 /\ x mod 2 ^ 32 < 2 ^ 32.
Proof. split; [rewrite (N.div_mod x (2 ^ 32)) at 1 by discriminate; lia|apply N.mod_lt; discriminate]. Qed.

(** ** Up *)
Lemma scale_up32_ok n : forall lo hi, lo * 10 < 2 ^ 64 \/ n = O -> (lo + hi * 2 ^ 32) * 10 ^ N.of_nat n < 2 ^ 96 ->
  exists lo' hi', scale_up32 n lo hi = (lo', hi') /\ lo' + hi' * 2 ^ 32 = (lo + hi * 2 ^ 32) * 10 ^ N.of_nat n /\ (n <> O -> lo' < 2 ^ 32).
Proof.
  induction n as [|n IH]; intros lo hi H H96; cbn [scale_up32].
  - exists lo, hi. split; [reflexivity|]. split; [change (10 ^ N.of_nat 0) with 1; lia|]. intros C. now elim C.
  - rewrite pow10_S in *. pose proof (pow10_pos (N.of_nat n)) as P. set (p := 10 ^ N.of_nat n) in *. destruct H as [H|]; [|discriminate].
    assert (Hh : hi * 10 * 2 ^ 32 + lo * 10 < 2 ^ 96) by nia.
    rewrite (wmul_id 64 lo 10), (wmul_id 64 hi 10) by (auto; lia). rewrite N.shiftr_div_pow2.
    destruct (divmod32 (lo * 10)) as [E1 E2]. set (l1 := (lo * 10) mod 2 ^ 32) in *. set (h1 := lo * 10 / 2 ^ 32) in *. clearbody l1 h1.
    rewrite wadd_small by lia.
    destruct (IH l1 (hi * 10 + h1)) as (l' & h' & F1 & F2 & F3).
    { left. lia. } { replace (l1 + (hi * 10 + h1) * 2 ^ 32) with (10 * (lo + hi * 2 ^ 32)) by lia. nia. }
    exists l', h'. split; [exact F1|]. split; [rewrite F2; replace (l1 + (hi * 10 + h1) * 2 ^ 32) with (10 * (lo + hi * 2 ^ 32)) by lia; nia|].
    intros _. destruct n; [|apply F3; discriminate]. cbn in F1. injection F1 as <- <-. exact E2.
Qed.

Lemma scale_up64_ok n : forall lo hi, lo * 10 ^ N.of_nat n < 2 ^ 128 -> hi * 10 ^ N.of_nat n < 2 ^ 128 ->
  scale_up64 n lo hi = (lo * 10 ^ N.of_nat n, hi * 10 ^ N.of_nat n).
Proof.
  induction n as [|n IH]; intros lo hi H1 H2; cbn [scale_up64].
  - change (10 ^ N.of_nat 0) with 1. now rewrite !N.mul_1_r.
  - rewrite pow10_S in *. pose proof (pow10_pos (N.of_nat n)) as P. set (p := 10 ^ N.of_nat n) in *.
    rewrite (wmul_id 128 lo 10), (wmul_id 128 hi 10) by nia. rewrite IH by (fold p; nia). fold p. f_equal; nia.
Qed.

(** ** Down: the four parts always add up to the floor *)
Lemma scale_down_ok n : forall lo hi rem carry, rem < 2 ^ 36 -> carry <= 1 ->
  exists lo' hi' rem' carry', scale_down n lo hi rem carry = (lo', hi', rem', carry') /\
    lo' + rem' + carry' + hi' * 2 ^ 32 = (lo + rem + carry + hi * 2 ^ 32) / 10 ^ N.of_nat n.
Proof.
  induction n as [|n IH]; intros lo hi rem carry Hr Hc; cbn [scale_down].
  - exists lo, hi, rem, carry. split; [reflexivity|]. change (10 ^ N.of_nat 0) with 1. now rewrite N.div_1_r.
  - pose proof (N.mod_lt hi 10 ltac:(discriminate)) as Hh. pose proof (N.div_mod hi 10 ltac:(discriminate)) as Dh.
    set (hr := hi mod 10) in *. set (hq := hi / 10) in *. rewrite wadd_small by lia.
    set (r := rem + hr * 2 ^ 32). pose proof (N.mod_lt r 10 ltac:(discriminate)) as Hr2. pose proof (N.div_mod r 10 ltac:(discriminate)) as Dr.
    pose proof (N.mod_lt lo 10 ltac:(discriminate)) as Hl. pose proof (N.div_mod lo 10 ltac:(discriminate)) as Dl.
    set (rr := r mod 10) in *. set (rq := r / 10) in *. set (lr := lo mod 10) in *. set (lq := lo / 10) in *.
    set (c := if 10 <=? rr + lr + carry then 1 else 0).
    assert (Hc2 : c <= 1 /\ c * 10 <= rr + lr + carry < c * 10 + 10) by (unfold c; destruct (N.leb_spec 10 (rr + lr + carry)); lia).
    destruct (IH lq hq rq c) as (l' & h' & r' & c' & E1 & E2).
    { unfold r in Dr. lia. } { lia. }
    exists l', h', r', c'. split; [exact E1|]. rewrite E2, pow10_S, <- N.div_div by (try apply N.pow_nonzero; discriminate). f_equal.
    apply N.div_unique with (r := rr + lr + carry - c * 10); [lia|]. unfold r in Dr. clearbody c rr rq lr lq hr hq. lia.
Qed.

(** ** The functions *)
Section both.
Context (v c : N).
Hypothesis Hv : v < 2 ^ 64.

Lemma halves : v * c = (v mod 2 ^ 32) * c + (v / 2 ^ 32) * c * 2 ^ 32 /\ v mod 2 ^ 32 < 2 ^ 32 /\ v / 2 ^ 32 < 2 ^ 32.
Proof.
  destruct (divmod32 v) as [E1 E2]. split; [rewrite E1 at 1; lia|]. split; [auto|]. apply N.div_lt_upper_bound; [discriminate|]. exact Hv.
Qed.

Lemma big_power k e : k <= e -> 10 ^ k <= 10 ^ e.
Proof. intros H. apply N.pow_le_mono_r; [discriminate|auto]. Qed.

Lemma mul32_down e : (e < 0)%Z -> c < 2 ^ 32 -> product v c e < 2 ^ 64 -> mul32 v c e = product v c e.
Proof.
  intros He Hc. destruct halves as (E & B1 & B2). unfold mul32, product. rewrite N.shiftr_div_pow2.
  destruct (Z.leb_spec 20 e); [lia|]. destruct (Z.leb_spec 0 e); [lia|]. cbn [andb].
  rewrite (wmul_id 64 (v mod 2 ^ 32) c), (wmul_id 64 (v / 2 ^ 32) c) by nia. rewrite E. set (lo := v mod 2 ^ 32 * c) in *. set (hi := v / 2 ^ 32 * c) in *.
  intros Hp. destruct ((e <=? -29)%Z && negb (c =? 0)) eqn:Es.
  - apply andb_true_iff in Es. destruct Es as [Es _]. apply Z.leb_le in Es. symmetry. apply N.div_small.
    apply N.lt_le_trans with (10 ^ 29); [|apply big_power; lia]. rewrite <- E. assert (v * c < 2 ^ 64 * 2 ^ 32) by nia. change (10 ^ 29) with 100000000000000000000000000000. lia.
  - destruct (scale_down_ok (Z.to_nat (- e)) lo hi 0 0) as (l' & h' & r' & c' & F1 & F2); [lia|lia|]. rewrite F1.
    replace (N.of_nat (Z.to_nat (- e))) with (Z.to_N (- e)) in F2 by lia. rewrite !N.add_0_r in F2.
    rewrite <- F2 in *. destruct (N.ltb_spec (2 ^ 32 - 1) h'); [lia|]. rewrite (wshl_small 64 h' 32) by lia. rewrite (wadd_small 64 l' r') by lia. rewrite (wadd_small 64 (l' + r')) by lia. rewrite wadd_small by lia. lia.
Qed.

Lemma mul32_up e : (0 <= e)%Z -> c < 2 ^ 32 -> (e < 20)%Z \/ c = 0 \/ v <> 0 -> product v c e < 2 ^ 64 -> mul32 v c e = product v c e.
Proof.
  intros He Hc Hz. destruct halves as (E & B1 & B2). unfold mul32, product. rewrite N.shiftr_div_pow2.
  destruct (Z.leb_spec 0 e); [|lia]. rewrite (wmul_id 64 (v mod 2 ^ 32) c), (wmul_id 64 (v / 2 ^ 32) c) by nia.
  set (lo := v mod 2 ^ 32 * c) in *. set (hi := v / 2 ^ 32 * c) in *. intros Hp.
  destruct ((20 <=? e)%Z && negb (c =? 0)) eqn:Es.
  - exfalso. apply andb_true_iff in Es. destruct Es as [Es1 Es2]. apply Z.leb_le in Es1. apply negb_true_iff, N.eqb_neq in Es2.
    assert (v <> 0) by (destruct Hz as [Hz|[Hz|Hz]]; [lia|lia|auto]). pose proof (big_power 20 (Z.to_N e) ltac:(lia)) as B. change (10 ^ 20) with 100000000000000000000 in B.
    assert (1 <= v * c) by nia. nia.
  - replace (Z.to_N e) with (N.of_nat (Z.to_nat e)) in * by lia. set (n := Z.to_nat e) in *.
    destruct (scale_up32_ok n lo hi) as (l' & h' & F1 & F2 & F3).
    { destruct n as [|n]; [auto|]. left. rewrite pow10_S in Hp. pose proof (pow10_pos (N.of_nat n)). assert (lo <= v * c) by lia. nia. }
    { rewrite <- E. change (2 ^ 96) with (2 ^ 64 * 2 ^ 32). lia. }
    rewrite F1. rewrite <- E in F2. rewrite <- F2 in *. destruct (N.ltb_spec (2 ^ 32 - 1) h'); [lia|]. rewrite wshl_small, wadd_small by lia. reflexivity.
Qed.

Lemma mul32_saturates e : (1 <= e)%Z -> c * 10 < 2 ^ 32 -> (e < 20)%Z -> product v c e < 2 ^ 96 -> 2 ^ 64 <= product v c e -> mul32 v c e = UINT64_MAX.
Proof.
  intros He Hc Hz. destruct halves as (E & B1 & B2). unfold mul32, product. rewrite N.shiftr_div_pow2.
  destruct (Z.leb_spec 0 e); [|lia]. rewrite (wmul_id 64 (v mod 2 ^ 32) c), (wmul_id 64 (v / 2 ^ 32) c) by nia.
  set (lo := v mod 2 ^ 32 * c) in *. set (hi := v / 2 ^ 32 * c) in *. intros Hp H64. destruct (Z.leb_spec 20 e); [lia|]. cbn [andb].
  replace (Z.to_N e) with (N.of_nat (Z.to_nat e)) in * by lia. set (n := Z.to_nat e) in *.
  destruct (scale_up32_ok n lo hi) as (l' & h' & F1 & F2 & F3). { left. unfold lo. nia. } { rewrite <- E. auto. }
  rewrite F1. rewrite <- E in F2. rewrite <- F2 in *. specialize (F3 ltac:(lia)). destruct (N.ltb_spec (2 ^ 32 - 1) h'); [reflexivity|lia].
Qed.

Lemma mul64_down e : (e < 0)%Z -> c < 2 ^ 64 -> product v c e < 2 ^ 64 -> mul64 v c e = product v c e.
Proof.
  intros He Hc. destruct halves as (E & B1 & B2). unfold mul64, product. rewrite N.shiftr_div_pow2.
  destruct (Z.leb_spec 20 e); [lia|]. destruct (Z.leb_spec 0 e); [lia|]. cbn [andb].
  rewrite (wmul_id 128 (v mod 2 ^ 32) c), (wmul_id 128 (v / 2 ^ 32) c) by nia. rewrite E. set (lo := v mod 2 ^ 32 * c) in *. set (hi := v / 2 ^ 32 * c) in *.
  intros Hp. destruct ((e <=? -39)%Z && negb (c =? 0)) eqn:Es.
  - apply andb_true_iff in Es. destruct Es as [Es _]. apply Z.leb_le in Es. symmetry. apply N.div_small.
    apply N.lt_le_trans with (10 ^ 39); [|apply big_power; lia]. rewrite <- E. assert (Hvc : v * c < 2 ^ 64 * 2 ^ 64) by nia. apply (N.lt_trans _ _ _ Hvc). reflexivity.
  - destruct (scale_down_ok (Z.to_nat (- e)) lo hi 0 0) as (l' & h' & r' & c' & F1 & F2); [lia|lia|]. rewrite F1.
    replace (N.of_nat (Z.to_nat (- e))) with (Z.to_N (- e)) in F2 by lia. rewrite !N.add_0_r in F2.
    rewrite <- F2 in *. unfold UINT64_MAX. destruct (N.ltb_spec (2 ^ 32 - 1) h'); [lia|]. destruct (N.ltb_spec (2 ^ 64 - 1) l'); [lia|]. cbn [orb].
    rewrite (wshl_small 128 h' 32) by lia. rewrite (wadd_small 128 l' r') by lia. rewrite (wadd_small 128 (l' + r')) by lia. rewrite wadd_small by lia. rewrite N.mod_small by lia. lia.
Qed.

Lemma mul64_up e : (0 <= e)%Z -> c < 2 ^ 64 -> (e < 20)%Z \/ c = 0 \/ v <> 0 -> product v c e < 2 ^ 64 -> mul64 v c e = product v c e.
Proof.
  intros He Hc Hz. destruct halves as (E & B1 & B2). unfold mul64, product. rewrite N.shiftr_div_pow2.
  destruct (Z.leb_spec 0 e); [|lia]. rewrite (wmul_id 128 (v mod 2 ^ 32) c), (wmul_id 128 (v / 2 ^ 32) c) by nia.
  set (lo := v mod 2 ^ 32 * c) in *. set (hi := v / 2 ^ 32 * c) in *. intros Hp.
  destruct ((20 <=? e)%Z && negb (c =? 0)) eqn:Es.
  - exfalso. apply andb_true_iff in Es. destruct Es as [Es1 Es2]. apply Z.leb_le in Es1. apply negb_true_iff, N.eqb_neq in Es2.
    assert (v <> 0) by (destruct Hz as [Hz|[Hz|Hz]]; [lia|lia|auto]). pose proof (big_power 20 (Z.to_N e) ltac:(lia)) as B. change (10 ^ 20) with 100000000000000000000 in B.
    assert (1 <= v * c) by nia. nia.
  - replace (Z.to_N e) with (N.of_nat (Z.to_nat e)) in * by lia. set (n := Z.to_nat e) in *. set (p := 10 ^ N.of_nat n) in *.
    rewrite E in *. assert (Hl : lo * p < 2 ^ 64) by nia. assert (Hh : hi * p * 2 ^ 32 < 2 ^ 64) by nia.
    rewrite scale_up64_ok by (fold p; lia). fold p. unfold UINT64_MAX.
    destruct (N.ltb_spec (2 ^ 32 - 1) (hi * p)); [lia|]. destruct (N.ltb_spec (2 ^ 64 - 1) (lo * p)); [lia|]. cbn [orb].
    rewrite wshl_small by lia. rewrite wadd_small by lia. rewrite N.mod_small by lia. lia.
Qed.

Lemma mul64_saturates e : (0 <= e < 20)%Z -> c * 10 ^ Z.to_N e < 2 ^ 96 ->
  2 ^ 32 <= v / 2 ^ 32 * c * 10 ^ Z.to_N e \/ 2 ^ 64 <= v mod 2 ^ 32 * c * 10 ^ Z.to_N e -> mul64 v c e = UINT64_MAX.
Proof.
  intros He Hc Hb. destruct halves as (E & B1 & B2). unfold mul64. rewrite N.shiftr_div_pow2.
  destruct (Z.leb_spec 20 e); [lia|]. destruct (Z.leb_spec 0 e); [|lia]. cbn [andb].
  replace (Z.to_N e) with (N.of_nat (Z.to_nat e)) in * by lia. set (n := Z.to_nat e) in *. set (p := 10 ^ N.of_nat n) in *.
  assert (1 <= p) by apply pow10_pos. assert (c < 2 ^ 96) by nia.
  rewrite (wmul_id 128 (v mod 2 ^ 32) c), (wmul_id 128 (v / 2 ^ 32) c) by nia. rewrite scale_up64_ok by (fold p; nia). fold p. unfold UINT64_MAX in *.
  destruct (N.ltb_spec (2 ^ 32 - 1) (v / 2 ^ 32 * c * p)); [reflexivity|]. destruct (N.ltb_spec (2 ^ 64 - 1) (v mod 2 ^ 32 * c * p)); [reflexivity|]. lia.
Qed.
End both.
