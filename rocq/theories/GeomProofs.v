(** Proofs about the vectors and matrices. *)

From Coq Require Import Reals Lra Psatz Bool.
From Verif Require Import GeomModel GeomSpec.
Local Open Scope R_scope.

Ltac un3 := repeat match goal with v : v3 |- _ =>
  let p := fresh "p" in let q := fresh "q" in let r := fresh "r" in destruct v as [p q r] end.
Ltac un4 := repeat match goal with v : v4 |- _ =>
  let p := fresh "p" in let q := fresh "q" in let r := fresh "r" in let s := fresh "s" in
  destruct v as [p q r s] end.
Ltac unm := repeat match goal with m : m4 |- _ =>
  let p := fresh "c" in let q := fresh "c" in let r := fresh "c" in let s := fresh "c" in
  destruct m as [p q r s] end; un4.

Ltac red3 := cbv beta iota zeta delta [x3 y3 z3 x4 y4 z4 w4 cx cy cz cw add3 sub3 dot3 cross3 mul_scalar3 div_scalar3
  lerp3 project3 reject3 perp3 perpr3 inner comb volume across zero3 distance_square3
  mmake midentity mtranslation mrotation_x mrotation_y mrotation_z mscale mortho mfrustum
  mperspective mmul mul_scalar4 mapply mposition mdirection mproject mtranslate mscaled
  entry coord sum4] in *.

(** ** Vectors *)

Lemma dot_inner : forall a b, dot3 a b = inner a b.
Proof. reflexivity. Qed.

Lemma length_len : forall a, length3 a = len a.
Proof. reflexivity. Qed.

Lemma inner_sq : forall a, 0 <= inner a a.
Proof. intros a; unfold inner; nra. Qed.

Lemma sq_zero : forall r, r * r <= 0 -> r = 0.
Proof. intros r H. nra. Qed.

Lemma inner_zero : forall a, inner a a = 0 <-> a = zero3.
Proof.
  intros a; split.
  - intros H. destruct a as [p q r]. unfold inner in H. cbn [x3 y3 z3] in H.
    assert (p = 0) by nra. assert (q = 0) by nra. assert (r = 0) by nra.
    subst. reflexivity.
  - intros ->. unfold inner. cbn. ring.
Qed.

Lemma len_sq : forall a, len a * len a = inner a a.
Proof. intros a. apply sqrt_sqrt, inner_sq. Qed.

Lemma len_nonneg : forall a, 0 <= len a.
Proof. intros a; apply sqrt_pos. Qed.

Lemma len_zero : forall a, len a = 0 <-> a = zero3.
Proof.
  intros a. rewrite <- inner_zero. rewrite <- len_sq. split; intros H.
  - rewrite H; ring.
  - pose proof (len_nonneg a). nra.
Qed.

Lemma len_pos : forall a, a <> zero3 -> 0 < len a.
Proof.
  intros a H. pose proof (len_nonneg a).
  assert (len a <> 0) by (rewrite len_zero; assumption). lra.
Qed.

Lemma inner_pos : forall a, a <> zero3 -> 0 < inner a a.
Proof. intros a H. rewrite <- len_sq. pose proof (len_pos a H). nra. Qed.

Lemma cauchy : forall a b, inner a b * inner a b <= inner a a * inner b b.
Proof.
  intros a b. destruct a as [x5 y5 z5], b as [x6 y6 z6]. unfold inner; cbn [x3 y3 z3].
  pose proof (Rle_0_sqr (x5 * y6 - y5 * x6)) as H1.
  pose proof (Rle_0_sqr (x5 * z6 - z5 * x6)) as H2.
  pose proof (Rle_0_sqr (y5 * z6 - z5 * y6)) as H3.
  unfold Rsqr in *. lra.
Qed.

Lemma cauchy_len : forall a b, - (len a * len b) <= inner a b <= len a * len b.
Proof.
  intros a b. pose proof (cauchy a b) as C.
  pose proof (len_nonneg a) as A. pose proof (len_nonneg b) as B.
  rewrite <- (len_sq a), <- (len_sq b) in C.
  assert (0 <= len a * len b) by (apply Rmult_le_pos; assumption).
  set (p := len a * len b) in *.
  replace (len a * len a * (len b * len b)) with (p * p) in C by (unfold p; ring).
  clearbody p. nra.
Qed.

Lemma angle_product : forall a b, a <> zero3 -> b <> zero3 ->
  len a * len b * angle3 a b = inner a b.
Proof.
  intros a b Ha Hb. change (angle3 a b) with (inner a b / (len a * len b)).
  pose proof (len_pos a Ha). pose proof (len_pos b Hb). field. split; lra.
Qed.

Lemma angle_range : forall a b, a <> zero3 -> b <> zero3 -> -1 <= angle3 a b <= 1.
Proof.
  intros a b Ha Hb. pose proof (angle_product a b Ha Hb) as P.
  pose proof (cauchy_len a b) as C.
  pose proof (Rmult_lt_0_compat _ _ (len_pos a Ha) (len_pos b Hb)) as L.
  rewrite <- P in C. set (l := len a * len b) in *. clearbody l. clear P. nra.
Qed.

Lemma normalize_some : forall a, a <> zero3 ->
  normalize3 a = Some (div_scalar3 a (len a)).
Proof.
  intros a Ha. unfold normalize3. change (length3 a) with (len a). cbv zeta.
  destruct (Req_EM_T (len a) 0) as [E | E]; [ | reflexivity ].
  exfalso. apply Ha, len_zero, E.
Qed.

Lemma normalize_none : forall a, normalize3 a = None <-> a = zero3.
Proof.
  intros a. rewrite <- len_zero. unfold normalize3. change (length3 a) with (len a). cbv zeta.
  destruct (Req_EM_T (len a) 0); split; intros; congruence.
Qed.

Lemma inner_div : forall a b d, d <> 0 ->
  inner (div_scalar3 a d) b = inner a b / d.
Proof. intros a b d H. un3. red3. field. assumption. Qed.

Lemma inner_sym : forall a b, inner a b = inner b a.
Proof. intros a b. un3. red3. ring. Qed.

Lemma inner_comb : forall s a t b c,
  inner (comb s a t b) c = s * inner a c + t * inner b c.
Proof. intros. un3. red3. ring. Qed.

Lemma unit_len : forall a, a <> zero3 ->
  inner (div_scalar3 a (len a)) (div_scalar3 a (len a)) = 1.
Proof.
  intros a Ha. pose proof (len_pos a Ha) as P.
  rewrite inner_div by lra. rewrite inner_sym, inner_div by lra.
  rewrite <- (len_sq a). field. lra.
Qed.

Lemma normalize_spec : forall a n, normalize3 a = Some n ->
  len n = 1 /\ a = comb (len a) n 0 zero3.
Proof.
  intros a n H.
  assert (Ha : a <> zero3).
  { intros ->. rewrite (proj2 (normalize_none zero3) eq_refl) in H. discriminate. }
  rewrite normalize_some in H by assumption. injection H as <-. split.
  - unfold len at 1. rewrite unit_len by assumption. apply sqrt_1.
  - pose proof (len_pos a Ha). destruct a as [p q r]. unfold comb, div_scalar3, zero3.
    cbn [x3 y3 z3]. f_equal; field; lra.
Qed.

Lemma lesser_spec : forall a b, (a < b /\ lesser a b = a) \/ (b <= a /\ lesser a b = b).
Proof. intros a b. unfold lesser. destruct (Rlt_dec a b); [ left | right ]; split; lra. Qed.

Lemma greater_spec : forall a b, (b < a /\ greater a b = a) \/ (a <= b /\ greater a b = b).
Proof. intros a b. unfold greater. destruct (Rgt_dec a b); [ left | right ]; split; lra. Qed.

Lemma clamp_nearest : forall a lo hi, lo <= hi ->
  nearest lo hi a (lesser (greater a lo) hi).
Proof.
  intros a lo hi H. unfold nearest.
  destruct (greater_spec a lo) as [ [? ->] | [? ->] ];
  [ destruct (lesser_spec a hi) as [ [? ->] | [? ->] ]
  | destruct (lesser_spec lo hi) as [ [? ->] | [? ->] ] ];
  (split; [ lra | intros q Hq; unfold Rabs; repeat destruct (Rcase_abs _); lra ]).
Qed.

Lemma len_scaled : forall a t, len (mul_scalar3 a t) = Rabs t * len a.
Proof.
  intros a t. unfold len.
  replace (inner (mul_scalar3 a t) (mul_scalar3 a t)) with (Rsqr t * inner a a)
    by (un3; unfold Rsqr; red3; ring).
  rewrite sqrt_mult; [ | apply Rle_0_sqr | apply inner_sq ].
  rewrite sqrt_Rsqr_abs. reflexivity.
Qed.

Lemma triangle : forall a b, len (add3 a b) <= len a + len b.
Proof.
  intros a b. pose proof (cauchy_len a b) as C.
  pose proof (len_nonneg a). pose proof (len_nonneg b). pose proof (len_nonneg (add3 a b)).
  apply Rsqr_incr_0_var; [ unfold Rsqr | lra ].
  rewrite len_sq.
  replace (inner (add3 a b) (add3 a b)) with (inner a a + 2 * inner a b + inner b b)
    by (un3; red3; ring).
  rewrite <- (len_sq a), <- (len_sq b). lra.
Qed.

Lemma sub_zero : forall a b, sub3 a b = zero3 <-> a = b.
Proof.
  intros a b. split.
  - destruct a as [p q r], b as [s t u]. unfold sub3, zero3. cbn [x3 y3 z3].
    intros H. injection H as H1 H2 H3. f_equal; lra.
  - intros ->. un3. unfold sub3, zero3. cbn [x3 y3 z3]. f_equal; ring.
Qed.

Lemma near_zero_iff : forall e, near_zero e = true <-> Rabs e < / 1000000.
Proof.
  intros e. unfold near_zero. destruct (Rlt_dec (Rabs e) (/ 1000000)); split; intros;
    solve [ assumption | reflexivity | discriminate | contradiction ].
Qed.
