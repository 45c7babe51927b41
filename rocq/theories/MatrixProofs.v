(** Proofs about the 4 by 4 matrices. *)

From Coq Require Import Reals Lra Psatz Nsatz.
From Verif Require Import GeomModel GeomSpec GeomProofs.
Local Open Scope R_scope.

(** What the rotation by an angle about a unit vector does to a vector. *)
Definition rodrigues (c s : R) (n u : v3) : v3 :=
  V3 (c * x3 u + (1 - c) * inner n u * x3 n + s * (y3 n * z3 u - z3 n * y3 u))
     (c * y3 u + (1 - c) * inner n u * y3 n + s * (z3 n * x3 u - x3 n * z3 u))
     (c * z3 u + (1 - c) * inner n u * z3 n + s * (x3 n * y3 u - y3 n * x3 u)).

Lemma rotation_is : forall t a n m, normalize3 a = Some n -> mrotation t a = Some m ->
  forall u, mdirection m u = rodrigues (cos t) (sin t) n u
    /\ mposition m u = rodrigues (cos t) (sin t) n u.
Proof.
  intros t a n m Hn Hm u. unfold mrotation in Hm. rewrite Hn in Hm. injection Hm as <-.
  destruct n as [p q r], u as [x y z].
  split; unfold rodrigues; red3; f_equal; ring.
Qed.

Lemma rotation_some : forall t a n, normalize3 a = Some n -> exists m, mrotation t a = Some m.
Proof. intros t a n H. unfold mrotation. rewrite H. eexists; reflexivity. Qed.

Lemma rotation_none : forall t a, mrotation t a = None <-> a = zero3.
Proof.
  intros t a. rewrite <- normalize_none. unfold mrotation.
  destruct (normalize3 a); split; intros; congruence.
Qed.

Lemma cs1 : forall t, cos t * cos t + sin t * sin t = 1.
Proof. intros t. pose proof (sin2_cos2 t) as H. unfold Rsqr in H. lra. Qed.

Lemma rod_inner : forall c s n u v, c * c + s * s = 1 -> inner n n = 1 ->
  inner (rodrigues c s n u) (rodrigues c s n v) = inner u v.
Proof.
  intros c s n u v H N. destruct n as [p q r], u as [a b d], v as [e f g].
  unfold rodrigues in *. red3. nsatz.
Qed.

Lemma rod_height : forall c s n u, inner n n = 1 ->
  inner (rodrigues c s n u) n = inner u n.
Proof.
  intros c s n u N. destruct n as [p q r], u as [a b d].
  unfold rodrigues in *. red3. nsatz.
Qed.

Lemma rod_cross : forall c s n u v, c * c + s * s = 1 -> inner n n = 1 ->
  cross3 (rodrigues c s n u) (rodrigues c s n v) = rodrigues c s n (cross3 u v).
Proof.
  intros c s n u v H N. destruct n as [p q r], u as [a b d], v as [e f g].
  unfold rodrigues in *. red3. f_equal; nsatz.
Qed.

Lemma volume_cross : forall u v w, volume u v w = inner u (cross3 v w).
Proof. intros. un3. red3. ring. Qed.

Lemma rod_volume : forall c s n u v w, c * c + s * s = 1 -> inner n n = 1 ->
  volume (rodrigues c s n u) (rodrigues c s n v) (rodrigues c s n w) = volume u v w.
Proof.
  intros c s n u v w H N. rewrite !volume_cross, rod_cross, rod_inner by assumption.
  reflexivity.
Qed.

Lemma across_unit : forall n l v, l <> 0 -> inner n n = 1 ->
  across (comb l n 0 zero3) v = comb 1 v (- inner v n) n.
Proof.
  intros n l v L N. unfold across.
  replace (inner (comb l n 0 zero3) (comb l n 0 zero3)) with (l * l * inner n n)
    by (un3; red3; ring).
  rewrite N.
  replace (inner v (comb l n 0 zero3)) with (l * inner v n) by (un3; red3; ring).
  un3. red3. f_equal; field; assumption.
Qed.

Lemma rod_turned : forall t n l u, 0 < l -> inner n n = 1 ->
  turned (comb l n 0 zero3) t u (rodrigues (cos t) (sin t) n u).
Proof.
  intros t n l u L N. pose proof (cs1 t) as H.
  assert (Ln : len (comb l n 0 zero3) = l).
  { unfold len. replace (inner (comb l n 0 zero3) (comb l n 0 zero3)) with (Rsqr l * inner n n)
      by (un3; unfold Rsqr; red3; ring).
    rewrite N, Rmult_1_r, sqrt_Rsqr by lra. reflexivity. }
  pose proof (rod_height (cos t) (sin t) n u N) as Hh.
  unfold turned. rewrite Ln, !across_unit by (assumption || lra). rewrite Hh.
  split; [ | split; [ | split ] ].
  - transitivity (l * inner (rodrigues (cos t) (sin t) n u) n).
    + un3. red3. ring.
    + rewrite Hh. un3. red3. ring.
  - clear Ln L Hh. set (c := cos t) in *. set (s := sin t) in *. clearbody c s.
    destruct n as [p q r], u as [a b d]. unfold rodrigues in *. red3. nsatz.
  - clear Ln L Hh. set (c := cos t) in *. set (s := sin t) in *. clearbody c s.
    destruct n as [p q r], u as [a b d]. unfold rodrigues in *. red3. nsatz.
  - apply rod_inner; assumption.
Qed.

(** ** Products *)

Lemma mapply_mul : forall a b v, mapply (mmul a b) v = mapply a (mapply b v).
Proof. intros a b v. unm. red3. f_equal; ring. Qed.

Lemma mmul_assoc : forall a b c, mmul (mmul a b) c = mmul a (mmul b c).
Proof. intros a b c. unm. red3. f_equal; f_equal; ring. Qed.

Lemma mmul_id_l : forall a, mmul midentity a = a.
Proof. intros a. unm. red3. f_equal; f_equal; ring. Qed.

Lemma mmul_id_r : forall a, mmul a midentity = a.
Proof. intros a. unm. red3. f_equal; f_equal; ring. Qed.

Lemma mmul_entry : forall a b i j, (i < 4)%nat -> (j < 4)%nat ->
  entry (mmul a b) i j = sum4 (fun k => entry a i k * entry b k j).
Proof.
  intros a b i j Hi Hj. unm.
  do 4 (destruct i as [ | i ]; [ do 4 (destruct j as [ | j ]; [ red3; ring | ]); exfalso; lia | ]);
    exfalso; lia.
Qed.

(** ** Projections *)

Lemma between_scale : forall k lo x hi a b, 0 < k ->
  lo = a * k -> hi = b * k -> (a <= x / k <= b <-> lo <= x <= hi).
Proof.
  intros k lo x hi a b K -> ->.
  assert (E : x = x / k * k) by (field; lra).
  set (y := x / k) in *. clearbody y. subst x. split; intros [H1 H2]; split; nra.
Qed.

Lemma unit_range : forall lo hi x, lo < hi ->
  (-1 <= 2 / (hi - lo) * x - (hi + lo) / (hi - lo) <= 1 <-> lo <= x <= hi).
Proof.
  intros lo hi x H.
  replace (2 / (hi - lo) * x - (hi + lo) / (hi - lo)) with ((2 * x - (hi + lo)) / (hi - lo))
    by (field; lra).
  rewrite (between_scale (hi - lo) (- (hi - lo)) _ (hi - lo)) by lra. split; lra.
Qed.
