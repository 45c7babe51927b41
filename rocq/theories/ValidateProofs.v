From Verif Require Import Base ValidateModel ValidateSpec MemoryProofs.
Local Open Scope Z_scope.

Lemma pow8 n : 2 ^ (8 * Z.of_nat (S n)) = 256 * 2 ^ (8 * Z.of_nat n).
Proof. rewrite Nat2Z.inj_succ. replace (8 * Z.succ (Z.of_nat n)) with (8 + 8 * Z.of_nat n) by lia. rewrite Z.pow_add_r by lia. reflexivity. Qed.
Lemma pow8_pos n : 0 < 2 ^ (8 * Z.of_nat n).
Proof. apply Z.pow_pos_nonneg; lia. Qed.

Lemma unsigned_range d : bytes_ok d -> 0 <= unsigned d < 2 ^ (8 * Z.of_nat (length d)).
Proof.
  induction 1 as [|b t Hb Ht IH]; cbn [unsigned length]; [cbn; lia|]. rewrite pow8. lia.
Qed.
Lemma unsigned_app a b : unsigned (a ++ b) = unsigned a + 2 ^ (8 * Z.of_nat (length a)) * unsigned b.
Proof.
  induction a as [|x t IH]; [cbn [app unsigned length]; change (2 ^ (8 * Z.of_nat 0)) with 1; lia|]. cbn [app unsigned length]. rewrite IH, pow8. ring.
Qed.

(** ** Lists *)
Lemma firstn_succ {A} (l : list A) k x : nth_error l k = Some x -> firstn (S k) l = firstn k l ++ [x].
Proof. revert l. induction k as [|k IH]; intros [|y t] H; cbn in *; try discriminate; [congruence|]. f_equal. apply IH, H. Qed.
Lemma bytes_firstn n d : bytes_ok d -> bytes_ok (firstn n d).
Proof. intros H. unfold bytes_ok in *. rewrite <- (firstn_skipn n d) in H. apply Forall_app in H. tauto. Qed.
Lemma bytes_nth d k : bytes_ok d -> (k < length d)%nat -> exists x, nth_error d k = Some x /\ 0 <= x < 256.
Proof.
  intros H L. destruct (nth_error_lt_Some d k L) as [x E]. exists x. split; [auto|]. unfold bytes_ok in H. rewrite Forall_forall in H. apply H. eapply nth_error_In; eauto.
Qed.
Lemma firstn_unsigned_succ d k x : nth_error d k = Some x -> unsigned (firstn (S k) d) = unsigned (firstn k d) + 2 ^ (8 * Z.of_nat k) * x.
Proof.
  intros E. rewrite (firstn_succ d k x E), unsigned_app. cbn [unsigned]. rewrite firstn_length. assert ((k < length d)%nat) by (apply nth_error_Some; congruence).
  rewrite Nat.min_l by lia. f_equal. f_equal. lia.
Qed.
Lemma firstn_range d k : bytes_ok d -> (k <= length d)%nat -> 0 <= unsigned (firstn k d) < 2 ^ (8 * Z.of_nat k).
Proof. intros H L. pose proof (unsigned_range _ (bytes_firstn k d H)) as R. rewrite firstn_length, Nat.min_l in R by auto. exact R. Qed.

(** ** The loops *)
Section loops.
Context (A B : list Z) (ga gb : nat -> option Z).
Hypothesis (HA : bytes_ok A) (HB : bytes_ok B) (Ga : forall k, (k < length A)%nat -> ga k = nth_error A k) (Gb : forall k, (k < length B)%nat -> gb k = nth_error B k).

Lemma compare_down_ok n : (n <= length A)%nat -> (n <= length B)%nat -> compare_down ga gb n = Some (unsigned (firstn n A) ?= unsigned (firstn n B)).
Proof.
  induction n as [|n IH]; intros LA LB; [reflexivity|]. cbn [compare_down].
  destruct (bytes_nth A n HA) as (x & Ex & Rx); [lia|]. destruct (bytes_nth B n HB) as (y & Ey & Ry); [lia|].
  rewrite Ga, Gb, Ex, Ey by lia. rewrite (firstn_unsigned_succ A n x Ex), (firstn_unsigned_succ B n y Ey).
  pose proof (firstn_range A n HA ltac:(lia)). pose proof (firstn_range B n HB ltac:(lia)). set (p := 2 ^ (8 * Z.of_nat n)) in *. rewrite IH by lia.
  set (u := unsigned (firstn n A)) in *. set (v := unsigned (firstn n B)) in *. clearbody p u v. f_equal.
  destruct (Z.ltb_spec x y) as [C|C]; [|destruct (Z.ltb_spec y x) as [D|D]].
  - f_equal. symmetry. apply Z.compare_lt_iff. nia.
  - f_equal. symmetry. apply Z.compare_gt_iff. nia.
  - assert (x = y) by lia. subst y. f_equal. destruct (Z.compare_spec u v); symmetry; [apply Z.compare_eq_iff|apply Z.compare_lt_iff|apply Z.compare_gt_iff]; nia.
Qed.
End loops.

Section diff.
Context (A : list Z) (ga : nat -> option Z).
Hypothesis (HA : bytes_ok A) (Ga : forall k, (k < length A)%nat -> ga k = nth_error A k).

(** The bytes from [lo] to [lo + n] are all zero, or the number is large *)
Lemma differs_0 n lo : (lo + n <= length A)%nat -> exists x, differs ga 0 (lo + n) n = Some x /\
  if x then 2 ^ (8 * Z.of_nat lo) <= unsigned (firstn (lo + n) A) else unsigned (firstn (lo + n) A) = unsigned (firstn lo A).
Proof.
  induction n as [|n IH]; intros L; cbn [differs].
  - exists false. rewrite Nat.add_0_r. auto.
  - replace (lo + S n - 1)%nat with (lo + n)%nat by lia. destruct (bytes_nth A (lo + n) HA) as (x & Ex & Rx); [lia|]. rewrite Ga, Ex by lia.
    replace (lo + S n)%nat with (S (lo + n)) by lia. rewrite (firstn_unsigned_succ A (lo + n) x Ex). pose proof (firstn_range A (lo + n) HA ltac:(lia)) as R.
    destruct (Z.eqb_spec x 0) as [->|Hx].
    + destruct (IH ltac:(lia)) as (y & E & S). exists y. split; [exact E|]. rewrite Z.mul_0_r, Z.add_0_r. exact S.
    + exists true. split; [reflexivity|]. assert (2 ^ (8 * Z.of_nat lo) <= 2 ^ (8 * Z.of_nat (lo + n))) by (apply Z.pow_le_mono_r; lia). nia.
Qed.
(** They are all 255, or the number is small *)
Lemma differs_255 n lo : (lo + n <= length A)%nat -> exists x, differs ga 255 (lo + n) n = Some x /\
  if x then unsigned (firstn (lo + n) A) < 2 ^ (8 * Z.of_nat (lo + n)) - 2 ^ (8 * Z.of_nat lo)
  else unsigned (firstn (lo + n) A) = unsigned (firstn lo A) + 2 ^ (8 * Z.of_nat (lo + n)) - 2 ^ (8 * Z.of_nat lo).
Proof.
  induction n as [|n IH]; intros L; cbn [differs].
  - exists false. rewrite Nat.add_0_r. split; [auto|lia].
  - replace (lo + S n - 1)%nat with (lo + n)%nat by lia. destruct (bytes_nth A (lo + n) HA) as (x & Ex & Rx); [lia|]. rewrite Ga, Ex by lia.
    replace (lo + S n)%nat with (S (lo + n)) by lia. rewrite (firstn_unsigned_succ A (lo + n) x Ex), pow8. pose proof (firstn_range A (lo + n) HA ltac:(lia)) as R.
    assert (2 ^ (8 * Z.of_nat lo) <= 2 ^ (8 * Z.of_nat (lo + n))) by (apply Z.pow_le_mono_r; lia).
    destruct (Z.eqb_spec x 255) as [->|Hx].
    + destruct (IH ltac:(lia)) as (y & E & S). exists y. split; [exact E|]. destruct y; lia.
    + exists true. split; [reflexivity|]. nia.
Qed.
End diff.

(** ** The sign *)
Lemma top_bit d x : bytes_ok d -> (0 < length d)%nat -> nth_error d (length d - 1) = Some x ->
  Z.testbit x 7 = negb (unsigned d <? 2 ^ (8 * Z.of_nat (length d) - 1)).
Proof.
  intros H L E. assert (Ed : d = firstn (S (length d - 1)) d) by (rewrite firstn_all2; auto; lia).
  assert (Eu : unsigned d = unsigned (firstn (length d - 1) d) + 2 ^ (8 * Z.of_nat (length d - 1)) * x). { rewrite Ed at 1. apply firstn_unsigned_succ, E. }
  pose proof (firstn_range d (length d - 1) H ltac:(lia)) as R. destruct (bytes_nth d (length d - 1) H ltac:(lia)) as (y & Ey & Ry). rewrite E in Ey. injection Ey as <-.
  replace (8 * Z.of_nat (length d) - 1) with (7 + 8 * Z.of_nat (length d - 1)) by lia. rewrite Z.pow_add_r by lia. change (2 ^ 7) with 128.
  rewrite Eu. set (p := 2 ^ (8 * Z.of_nat (length d - 1))) in *. set (u := unsigned (firstn (length d - 1) d)) in *. clearbody p u.
  rewrite Z.testbit_odd, Z.shiftr_div_pow2 by lia. change (2 ^ 7) with 128.
  destruct (Z.ltb_spec (u + p * x) (128 * p)); cbn [negb].
  - assert (x < 128) by nia. rewrite Z.div_small by lia. reflexivity.
  - assert (128 <= x) by nia. replace (x / 128) with 1; [reflexivity|]. apply Z.div_unique with (r := x - 128); lia.
Qed.

Definition le (t : itype) (d : list Z) : list Z := little_first LittleHw (order t) d.
Lemma le_length t d : length (le t d) = length d.
Proof. unfold le, little_first. destruct (order t); auto using rev_length. Qed.
Lemma le_ok t d : bytes_ok d -> bytes_ok (le t d).
Proof. intros H. unfold le, little_first. destruct (order t); auto. unfold bytes_ok in *. apply Forall_rev. exact H. Qed.
Lemma byte_le t d k : length d = size t -> (k < length (le t d))%nat -> byte LittleHw t d k = nth_error (le t d) k.
Proof.
  rewrite le_length. intros L K. unfold byte, le, little_first, swapped. destruct (order t); auto.
  destruct (Nat.ltb_spec k (size t)); [|lia]. rewrite nth_error_rev by lia. f_equal. lia.
Qed.

Lemma neg_ok t d : typed t d -> neg LittleHw t d = Some (value LittleHw t d <? 0) /\
  value LittleHw t d = unsigned (le t d) - (if value LittleHw t d <? 0 then 2 ^ (8 * Z.of_nat (size t)) else 0).
Proof.
  intros (H0 & H1 & H2). unfold neg. destruct (Nat.eqb_spec (size t) 0); [lia|]. pose proof (le_length t d) as Ll. pose proof (le_ok t d H2) as Lo.
  rewrite byte_le by (rewrite ?Ll; lia). destruct (bytes_nth (le t d) (size t - 1) Lo ltac:(lia)) as (x & Ex & _). rewrite Ex.
  assert (Hx : nth_error (le t d) (length (le t d) - 1) = Some x) by (rewrite Ll, H1; exact Ex).
  rewrite (top_bit (le t d) x Lo ltac:(lia) Hx). pose proof (unsigned_range (le t d) Lo) as R. unfold value. fold (le t d). cbv zeta.
  destruct (sign t).
  - unfold signed. cbv zeta. rewrite Ll, H1 in *. assert (P : 2 ^ (8 * Z.of_nat (size t)) = 2 * 2 ^ (8 * Z.of_nat (size t) - 1)) by (rewrite <- Z.pow_succ_r by lia; f_equal; lia).
    assert (0 < 2 ^ (8 * Z.of_nat (size t) - 1)) by (apply Z.pow_pos_nonneg; lia).
    destruct (Z.ltb_spec (unsigned (le t d)) (2 ^ (8 * Z.of_nat (size t) - 1))); cbn [negb andb].
    + destruct (Z.ltb_spec (unsigned (le t d)) 0); [lia|]. split; [reflexivity|lia].
    + destruct (Z.ltb_spec (unsigned (le t d) - 2 ^ (8 * Z.of_nat (size t))) 0); [|lia]. split; [reflexivity|lia].
  - rewrite andb_false_r. destruct (Z.ltb_spec (unsigned (le t d)) 0); [lia|]. split; [reflexivity|lia].
Qed.

Lemma order_ok ta a tb b : typed ta a -> typed tb b -> order_of LittleHw ta a tb b = Some (value LittleHw ta a ?= value LittleHw tb b).
Proof.
  intros Ta Tb. unfold order_of. destruct (neg_ok ta a Ta) as [Na Va]. destruct (neg_ok tb b Tb) as [Nb Vb]. rewrite Na, Nb.
  destruct Ta as (A0 & A1 & A2). destruct Tb as (B0 & B1 & B2).
  pose proof (le_length ta a) as La. pose proof (le_length tb b) as Lb. pose proof (le_ok ta a A2) as Oa. pose proof (le_ok tb b B2) as Ob.
  pose proof (fun k => byte_le ta a k A1) as Ga. pose proof (fun k => byte_le tb b k B1) as Gb.
  set (A := le ta a) in *. set (B := le tb b) in *. set (va := value LittleHw ta a) in *. set (vb := value LittleHw tb b) in *.
  set (ga := byte LittleHw ta a) in *. set (gb := byte LittleHw tb b) in *. set (sa := size ta) in *. set (sb := size tb) in *.
  pose proof (unsigned_range A Oa) as Ra. pose proof (unsigned_range B Ob) as Rb. rewrite La, A1 in Ra. rewrite Lb, B1 in Rb. fold sa in Ra. fold sb in Rb.
  assert (FA : firstn sa A = A) by (apply firstn_all2; lia). assert (FB : firstn sb B = B) by (apply firstn_all2; lia).
  destruct (Z.ltb_spec va 0) as [Sa|Sa]; destruct (Z.ltb_spec vb 0) as [Sb|Sb].
  - destruct (Nat.ltb_spec sb sa) as [Ls|Ls].
    + destruct (differs_255 A ga Oa Ga (sa - sb) sb ltac:(lia)) as (x & E1 & E2). replace (sb + (sa - sb))%nat with sa in * by lia. rewrite E1. rewrite FA in E2. destruct x.
      * f_equal. symmetry. apply Z.compare_lt_iff. lia.
      * rewrite (compare_down_ok A B ga gb Oa Ob Ga Gb) by lia. rewrite FB. f_equal. clear - Va Vb E2. destruct (Z.compare_spec va vb); [apply Z.compare_eq_iff|apply Z.compare_lt_iff|apply Z.compare_gt_iff]; lia.
    + destruct (differs_255 B gb Ob Gb (sb - sa) sa ltac:(lia)) as (x & E1 & E2). replace (sa + (sb - sa))%nat with sb in * by lia. rewrite E1. rewrite FB in E2. destruct x.
      * f_equal. symmetry. apply Z.compare_gt_iff. lia.
      * rewrite (compare_down_ok A B ga gb Oa Ob Ga Gb) by lia. rewrite FA. f_equal. clear - Va Vb E2. destruct (Z.compare_spec va vb); [apply Z.compare_eq_iff|apply Z.compare_lt_iff|apply Z.compare_gt_iff]; lia.
  - f_equal. symmetry. apply Z.compare_lt_iff. lia.
  - f_equal. symmetry. apply Z.compare_gt_iff. lia.
  - destruct (Nat.ltb_spec sb sa) as [Ls|Ls].
    + destruct (differs_0 A ga Oa Ga (sa - sb) sb ltac:(lia)) as (x & E1 & E2). replace (sb + (sa - sb))%nat with sa in * by lia. rewrite E1. rewrite FA in E2. destruct x.
      * f_equal. symmetry. apply Z.compare_gt_iff. lia.
      * rewrite (compare_down_ok A B ga gb Oa Ob Ga Gb) by lia. rewrite FB. f_equal. clear - Va Vb E2. destruct (Z.compare_spec va vb); [apply Z.compare_eq_iff|apply Z.compare_lt_iff|apply Z.compare_gt_iff]; lia.
    + destruct (differs_0 B gb Ob Gb (sb - sa) sa ltac:(lia)) as (x & E1 & E2). replace (sa + (sb - sa))%nat with sb in * by lia. rewrite E1. rewrite FB in E2. destruct x.
      * f_equal. symmetry. apply Z.compare_lt_iff. lia.
      * rewrite (compare_down_ok A B ga gb Oa Ob Ga Gb) by lia. rewrite FA. f_equal. clear - Va Vb E2. destruct (Z.compare_spec va vb); [apply Z.compare_eq_iff|apply Z.compare_lt_iff|apply Z.compare_gt_iff]; lia.
Qed.
