From Verif Require Import Base LockModel LockSpec.
Local Open Scope N_scope.

Lemma flag_below r : r < 2 ^ 31 -> has_flag r = false.
Proof.
  intros H. unfold has_flag. destruct (N.testbit r 31) eqn:E; [|reflexivity]. apply N.testbit_true in E. rewrite N.div_small in E by exact H. discriminate.
Qed.

Lemma flag_above r : r < 2 ^ 31 -> has_flag (r + 2 ^ 31) = true.
Proof.
  intros H. unfold has_flag. apply N.testbit_true. replace (r + 2 ^ 31) with (r + 1 * 2 ^ 31) by lia. rewrite N.div_add by discriminate. rewrite N.div_small by exact H. reflexivity.
Qed.

Lemma unflag r : r < 2 ^ 31 -> N.lxor (r + 2 ^ 31) write_flag = r.
Proof.
  intros H. unfold write_flag. assert (L : N.land r (2 ^ 31) = 0).
  { apply N.bits_inj. intros n. rewrite N.land_spec, N.pow2_bits_eqb, N.bits_0. destruct (N.eqb_spec 31 n) as [<-|]; [|apply andb_false_r]. pose proof (flag_below r H) as F. unfold has_flag in F. rewrite F. reflexivity. }
  rewrite (N.add_nocarry_lxor _ _ L), N.lxor_assoc, N.lxor_nilpotent, N.lxor_0_r. reflexivity.
Qed.

Definition is_reader (p : pc) : bool := match p with WaitRead | Reading => true | _ => false end.
Definition is_reading (p : pc) : bool := match p with Reading => true | _ => false end.
Definition is_writing (p : pc) : bool := match p with Writing => true | _ => false end.

Definition bit (b : bool) : nat := if b then 1%nat else 0%nat.

Lemma count_upd (f : pc -> bool) : forall l i p q, nth_error l i = Some p -> (countb f (upd l i q) + bit (f p) = countb f l + bit (f q))%nat.
Proof.
  unfold countb, bit. induction l as [|x l IH]; intros [|i] p q E; cbn in E; try discriminate.
  - injection E as ->. cbn [upd filter]. destruct (f q), (f p); cbn [length]; lia.
  - cbn [upd filter]. specialize (IH i p q E). destruct (f x); cbn [length]; lia.
Qed.

Lemma count_repeat (f : pc -> bool) n : f Outside = false -> countb f (repeat Outside n) = O.
Proof. intros H. unfold countb. induction n as [|n IH]; [reflexivity|]. cbn [repeat filter]. rewrite H. exact IH. Qed.

Lemma count_at (f : pc -> bool) : forall l i p, nth_error l i = Some p -> f p = true -> (1 <= countb f l)%nat.
Proof.
  unfold countb. induction l as [|x l IH]; intros [|i] p E F; cbn in E; try discriminate; cbn [filter].
  - injection E as ->. rewrite F. cbn [length]. lia.
  - specialize (IH i p E F). destruct (f x); cbn [length]; lia.
Qed.

Lemma count_two (f : pc -> bool) : forall l i j p q, nth_error l i = Some p -> nth_error l j = Some q -> f p = true -> f q = true -> i <> j -> (2 <= countb f l)%nat.
Proof.
  unfold countb. induction l as [|x l IH]; intros [|i] [|j] p q E1 E2 F1 F2 D; cbn in E1, E2; try discriminate; try congruence; cbn [filter].
  - injection E1 as ->. rewrite F1. cbn [length]. pose proof (count_at f l j q E2 F2) as H. unfold countb in H. lia.
  - injection E2 as ->. rewrite F2. cbn [length]. pose proof (count_at f l i p E1 F1) as H. unfold countb in H. lia.
  - assert (D' : i <> j) by congruence. specialize (IH i j p q E1 E2 F1 F2 D'). destruct (f x); cbn [length]; lia.
Qed.

Lemma count_length (f : pc -> bool) l : (countb f l <= length l)%nat.
Proof. unfold countb. induction l as [|x l IH]; cbn [filter]; [lia|]. destruct (f x); cbn [length]; lia. Qed.

Lemma count_none (f : pc -> bool) : forall l, (forall i p, nth_error l i = Some p -> f p = false) -> countb f l = O.
Proof.
  unfold countb. induction l as [|x l IH]; intros H; [reflexivity|]. cbn [filter]. rewrite (H O x eq_refl). apply IH. intros i p E. apply (H (S i) p E).
Qed.

Section Lock.
Variable A : Type.

Record invariant (n : nat) (s : state A) : Prop := mkInv {
  inv_length : length (threads s) = n;
  inv_lock : lock s = N.of_nat (countb is_reader (threads s)) + N.of_nat (countb is_writing (threads s)) * 2 ^ 31;
  inv_one : (countb is_writing (threads s) <= 1)%nat;
  inv_excl : countb is_writing (threads s) = O \/ countb is_reading (threads s) = O;
  inv_ok : assertion_failed s = false }.

Lemma flag_is n s : N.of_nat n < 2 ^ 31 -> invariant n s -> has_flag (lock s) = (0 <? countb is_writing (threads s))%nat.
Proof.
  intros H [L K O1 E F]. assert (R : N.of_nat (countb is_reader (threads s)) < 2 ^ 31) by (pose proof (count_length is_reader (threads s)); lia).
  rewrite K. destruct (countb is_writing (threads s)) as [|[|k]]; [|..|lia].
  - rewrite N.mul_0_l, N.add_0_r. apply flag_below, R.
  - change (N.of_nat 1) with 1. rewrite N.mul_1_l. apply flag_above, R.
Qed.

Lemma invariant_step n s i l s' : N.of_nat n < 2 ^ 31 -> invariant n s -> step s i l = Some s' -> invariant n s'.
Proof.
  intros H I E. pose proof (flag_is n s H I) as Fl. destruct I as [L K O1 X F]. unfold step in E. destruct (nth_error (threads s) i) as [p|] eqn:Ei; [|discriminate].
  pose proof (count_length is_reader (threads s)) as Cr.
  pose proof (fun q => count_upd is_reader (threads s) i p q Ei) as U1. pose proof (fun q => count_upd is_writing (threads s) i p q Ei) as U2. pose proof (fun q => count_upd is_reading (threads s) i p q Ei) as U3.
  destruct l, p; try discriminate.
  - (* ReadLock *) injection E as <-. assert (Cn : (countb is_reader (threads s) < n)%nat).
    { specialize (U1 Reading). cbn [is_reader bit] in U1. pose proof (count_length is_reader (upd (threads s) i Reading)). rewrite upd_length in *. lia. }
    rewrite Fl. specialize (U1 (if (0 <? countb is_writing (threads s))%nat then WaitRead else Reading)). specialize (U2 (if (0 <? countb is_writing (threads s))%nat then WaitRead else Reading)). specialize (U3 (if (0 <? countb is_writing (threads s))%nat then WaitRead else Reading)).
    destruct (Nat.ltb_spec 0 (countb is_writing (threads s))) as [W|W]; cbn [is_reader is_writing is_reading bit] in *; constructor; cbn [lock threads assertion_failed data]; rewrite ?upd_length; try assumption; try lia.
    + unfold word32. rewrite N.mod_small; [lia|]. rewrite K. change (2 ^ 32) with 4294967296. change (2 ^ 31) with 2147483648 in *. lia.
    + unfold word32. rewrite N.mod_small; [lia|]. rewrite K. change (2 ^ 32) with 4294967296. change (2 ^ 31) with 2147483648 in *. lia.
  - (* ReadSpin *) injection E as <-. rewrite Fl. specialize (U1 (if (0 <? countb is_writing (threads s))%nat then WaitRead else Reading)). specialize (U2 (if (0 <? countb is_writing (threads s))%nat then WaitRead else Reading)). specialize (U3 (if (0 <? countb is_writing (threads s))%nat then WaitRead else Reading)).
    destruct (Nat.ltb_spec 0 (countb is_writing (threads s))) as [W|W]; cbn [is_reader is_writing is_reading bit] in *; constructor; cbn [lock threads assertion_failed data]; rewrite ?upd_length; try assumption; try lia.
  - (* ReadUnlock *) injection E as <-. pose proof (count_at is_reading _ _ _ Ei eq_refl) as C1. pose proof (count_at is_reader _ _ _ Ei eq_refl) as C2.
    assert (W0 : countb is_writing (threads s) = O) by (destruct X; [assumption|lia]).
    specialize (U1 Outside). specialize (U2 Outside). specialize (U3 Outside). cbn [is_reader is_writing is_reading bit] in *. constructor; cbn [lock threads assertion_failed data]; rewrite ?upd_length; try assumption; try lia.
    + unfold word32. rewrite K, W0. change (N.pos (2 ^ 32)) with 4294967296. change (2 ^ 32) with 4294967296. change (2 ^ 31) with 2147483648 in *.
      replace (N.of_nat (countb is_reader (threads s)) + N.of_nat 0 * 2147483648 + 4294967296 - 1) with (N.of_nat (countb is_reader (threads s)) - 1 + 1 * 4294967296) by lia. 
      rewrite N.mod_add by lia. rewrite N.mod_small by lia. lia.
  - (* WriteLock *) injection E as <-. specialize (U1 WaitWrite). specialize (U2 WaitWrite). specialize (U3 WaitWrite). cbn [is_reader is_writing is_reading bit] in *. constructor; cbn [lock threads assertion_failed data]; rewrite ?upd_length; try assumption; try lia.
  - (* WriteTry *) destruct (N.eqb_spec (lock s) 0) as [Z|NZ]; cbn [andb] in E; [|injection E as <-; constructor; assumption]. destruct spurious; cbn [negb] in E; injection E as <-; [constructor; assumption|].
    assert (W0 : countb is_writing (threads s) = O) by (change (2 ^ 31) with 2147483648 in K; lia). assert (R0 : countb is_reader (threads s) = O) by lia.
    assert (R1 : countb is_reading (threads s) = O).
    { destruct (countb is_reading (threads s)) eqn:Q; [reflexivity|]. exfalso. assert ((countb is_reading (threads s) <= countb is_reader (threads s))%nat); [|lia]. clear. unfold countb. induction (threads s) as [|x l IH]; [cbn; lia|]. cbn [filter]. destruct x; cbn [is_reading is_reader length] in *; lia. }
    specialize (U1 Writing). specialize (U2 Writing). specialize (U3 Writing). cbn [is_reader is_writing is_reading bit] in *. constructor; cbn [lock threads assertion_failed data]; rewrite ?upd_length; try assumption; try lia.
    replace (countb is_reader (upd (threads s) i Writing)) with O by lia. replace (countb is_writing (upd (threads s) i Writing)) with 1%nat by lia. reflexivity.
  - (* Change *) injection E as <-. constructor; assumption.
  - (* WriteUnlock *) injection E as <-. pose proof (count_at is_writing _ _ _ Ei eq_refl) as C1. assert (W1 : countb is_writing (threads s) = 1%nat) by lia.
    specialize (U1 Outside). specialize (U2 Outside). specialize (U3 Outside). cbn [is_reader is_writing is_reading bit] in *. constructor; cbn [lock threads assertion_failed data]; rewrite ?upd_length; try assumption; try lia.
    + rewrite K, W1. change (N.of_nat 1) with 1. rewrite N.mul_1_l. rewrite unflag by (change (2 ^ 31) with 2147483648 in *; lia). change (2 ^ 31) with 2147483648. lia.

Qed.

Lemma invariant_reachable n a s : N.of_nat n < 2 ^ 31 -> reachable n a s -> invariant n s.
Proof.
  intros H R. induction R as [|s i l s' R IH E].
  - constructor; cbn [initial lock threads assertion_failed]; try reflexivity; rewrite ?repeat_length, ?count_repeat by reflexivity; try reflexivity; auto.
  - apply (invariant_step n s i l s' H IH E).
Qed.

Lemma invariant_exclusive n s : invariant n s -> exclusive (threads s).
Proof.
  intros [L K O1 X F] i j Ei [Ej|Ej].
  - destruct (Nat.eq_dec i j) as [|D]; [assumption|]. pose proof (count_two is_writing _ _ _ _ _ Ei Ej eq_refl eq_refl D). lia.
  - pose proof (count_at is_writing _ _ _ Ei eq_refl). pose proof (count_at is_reading _ _ _ Ej eq_refl). destruct X; lia.
Qed.

End Lock.
