From Verif Require Import Base Word AlignedModel AlignedSpec.
Local Open Scope N_scope.

Lemma wadd_id x y : x + y < 2 ^ 64 -> wadd 64 x y = x + y.
Proof. intros. unfold wadd. now apply N.mod_small. Qed.
Lemma wsub_id x y : y <= x -> x < 2 ^ 64 -> wsub 64 x y = x - y.
Proof.
  intros. unfold wsub. rewrite (N.mod_small y) by lia.
  replace (x + (2 ^ 64 - y)) with (x - y + 1 * 2 ^ 64) by lia. rewrite N.mod_add by discriminate. apply N.mod_small. lia.
Qed.

(** Rounding up with a mask. *)
Lemma align_spec x k : k < 64 -> x + 2 ^ k < 2 ^ 64 ->
  align x (2 ^ k) = (x + 2 ^ k - 1) / 2 ^ k * 2 ^ k.
Proof.
  intros Hk Hx. pose proof (pow2_pos k). unfold align.
  rewrite wadd_id by lia. rewrite wsub_id by lia. rewrite wsub_id by lia.
  set (y := x + 2 ^ k - 1). assert (Hy : y < 2 ^ 64) by (unfold y; lia). clearbody y.
  replace (2 ^ k - 1) with (N.ones k) by (rewrite N.ones_equiv; lia).
  apply N.bits_inj. intros i. rewrite N.land_spec, testbit_mul_pow2, testbit_wnot, testbit_ones, <- N.shiftr_div_pow2.
  destruct (N.ltb_spec i k).
  - destruct (N.ltb_spec i 64); [|lia]. cbn. now rewrite andb_false_r.
  - rewrite N.shiftr_spec by lia. replace (i - k + k) with i by lia.
    destruct (N.ltb_spec i 64); cbn; [now rewrite andb_true_r|]. rewrite (testbit_high y 64) by lia. reflexivity.
Qed.

Lemma align_facts x k : k < 64 -> x + 2 ^ k < 2 ^ 64 ->
  x <= align x (2 ^ k) /\ align x (2 ^ k) < x + 2 ^ k /\ align x (2 ^ k) mod 2 ^ k = 0.
Proof.
  intros Hk Hx. rewrite align_spec by auto. pose proof (pow2_pos k).
  pose proof (N.div_mod (x + 2 ^ k - 1) (2 ^ k) ltac:(lia)) as D.
  pose proof (N.mod_lt (x + 2 ^ k - 1) (2 ^ k) ltac:(lia)) as L.
  rewrite N.mul_comm in D. split; [lia|]. split; [lia|]. apply N.mod_mul. lia.
Qed.

Lemma load_store m a v : v < 2 ^ 64 -> load64 (store64 m a v) a = v.
Proof.
  intros Hv. unfold load64, store64.
  repeat match goal with |- context [(a <=? ?x) && (?x <? a + 8)] =>
    replace ((a <=? x) && (x <? a + 8)) with true by (symmetry; lia) end.
  cbn [andb].
  replace (a - a) with 0 by lia. replace (a + 1 - a) with 1 by lia. replace (a + 2 - a) with 2 by lia.
  replace (a + 3 - a) with 3 by lia. replace (a + 4 - a) with 4 by lia. replace (a + 5 - a) with 5 by lia.
  replace (a + 6 - a) with 6 by lia. replace (a + 7 - a) with 7 by lia.
  assert (D : forall n, v / 256 ^ n = 256 * (v / 256 ^ (n + 1)) + (v / 256 ^ n) mod 256).
  { intros n. rewrite N.pow_add_r, N.pow_1_r, <- N.div_div by (try discriminate; apply N.pow_nonzero; discriminate).
    apply N.div_mod. discriminate. }
  pose proof (D 0) as D0. pose proof (D 1) as D1. pose proof (D 2) as D2. pose proof (D 3) as D3.
  pose proof (D 4) as D4. pose proof (D 5) as D5. pose proof (D 6) as D6. pose proof (D 7) as D7.
  cbn [N.add Pos.add Pos.succ] in *. 
  assert (E8 : v / 256 ^ 8 = 0) by (apply N.div_small; exact Hv).
  rewrite N.pow_0_r, N.div_1_r in *. clear D Hv. rewrite E8 in D7. clear E8.
  repeat match goal with |- context [?q mod 256] => let r := fresh "r" in set (r := q mod 256) in *; clearbody r end.
  repeat match goal with H : context [v / ?q] |- _ => let r := fresh "q" in set (r := v / q) in *; clearbody r end.
  lia.
Qed.

Lemma load_ext m m' a : (forall x, a <= x < a + 8 -> m' x = m x) -> load64 m' a = load64 m a.
Proof. intros H. unfold load64. rewrite !H by lia. reflexivity. Qed.

Lemma store_other m a v x : x < a \/ a + 8 <= x -> store64 m a v x = m x.
Proof. intros H. unfold store64. replace ((a <=? x) && (x <? a + 8)) with false by (symmetry; lia). reflexivity. Qed.

(** The block at [head] for the user size [n] and alignment [2^k] is laid out properly, [p] its pointer. *)
Record laid (k p head total n : N) : Prop := {
  l_k : k < 64;
  l_fit : fits head total;
  l_total : total = n + 2 ^ k + 32;
  l_lo : head + 16 <= p;
  l_hi : p <= head + 15 + 2 ^ k;
  l_al : (p + 16) mod 2 ^ k = 0
}.

Lemma place_facts k head n : k < 64 -> fits head (n + 2 ^ k + 32) ->
  laid k (place head (2 ^ k)) head (n + 2 ^ k + 32) n.
Proof.
  intros Hk [H0 Hf]. pose proof (pow2_pos k). unfold place. rewrite wadd_id by lia.
  destruct (align_facts (head + 32) k Hk ltac:(lia)) as (A & B & C).
  rewrite wsub_id by lia. constructor; auto; try lia; [split; lia|].
  replace (align (head + 32) (2 ^ k) - 16 + 16) with (align (head + 32) (2 ^ k)) by lia. exact C.
Qed.

Record inv (k : N) (hdr : N -> N) (s : state) (v : view) : Prop := {
  i_laid : laid k (ptr (blk s)) (head_ (blk s)) (total (blk s)) (size s);
  i_place : ptr (blk s) = place (head_ (blk s)) (2 ^ k) ;
  i_size : vsize v = size s;
  i_head : load64 (memory s) (ptr (blk s) - 16) = head_ (blk s);
  i_align : load64 (memory s) (ptr (blk s) - 8) = 2 ^ k;
  i_hdr : forall j, j < 16 -> memory s (ptr (blk s) + j) = hdr j;
  i_data : forall i b, contents v i = Some b -> i < size s /\ memory s (ptr (blk s) + 16 + i) = b
}.

Lemma allocate_inv k m n head hdr m' b :
  k < 64 -> n + 2 ^ k + 32 < 2 ^ 64 -> fits head (n + 2 ^ k + 32) ->
  allocate m (2 ^ k) n (Some head) hdr = Some (m', b) ->
  inv k hdr (mkState m' b n) (mkView n (fun _ => None)).
Proof.
  intros Hk Hn Hf. pose proof (pow2_pos k). pose proof (place_facts k head n Hk Hf) as L. pose proof L as [].
  destruct l_fit0 as [F0 F1]. unfold allocate. rewrite (wadd_id n 16) by lia. destruct (N.ltb_spec n (n + 16)); [|lia].
  unfold alloc_aligned. cbn [ptr]. rewrite (wadd_id (n + 16)), (wadd_id (n + 16 + 2 ^ k)) by lia.
  rewrite !wsub_id by lia. replace (n + 16 + 2 ^ k + 16) with (n + 2 ^ k + 32) by lia.
  intros [= <- <-]. set (p := place head (2 ^ k)) in *. assert (2 ^ k < 2 ^ 64) by lia.
  constructor; cbn [memory blk size ptr head_ total vsize contents]; auto; try discriminate.
  - erewrite load_ext; [|intros x Hx; cbn beta; replace ((p <=? x) && (x <? p + 16)) with false by (symmetry; lia); apply store_other; lia].
    apply load_store. lia.
  - erewrite load_ext; [|intros x Hx; cbn beta; replace ((p <=? x) && (x <? p + 16)) with false by (symmetry; lia); reflexivity].
    now apply load_store.
  - intros j Hj. replace ((p <=? p + j) && (p + j <? p + 16)) with true by (symmetry; lia). f_equal. lia.
Qed.

Lemma realloc_prefix m old ot new nt g j :
  j < ot -> j < nt -> realloc_mem m old ot new nt g (new + j) = m (old + j).
Proof.
  intros H1 H2. unfold realloc_mem. destruct (N.eqb_spec new old) as [->|Hne].
  - replace ((old + ot <=? old + j) && (old + j <? old + nt)) with false by (symmetry; lia). reflexivity.
  - replace ((new <=? new + j) && (new + j <? new + nt)) with true by (symmetry; lia).
    replace (new + j - new) with j by lia. destruct (N.ltb_spec j ot); [reflexivity|lia].
Qed.

Lemma resize_inv k hdr s v n got g :
  inv k hdr s v -> n + 2 ^ k + 32 < 2 ^ 64 -> (forall head, got = Some head -> fits head (n + 2 ^ k + 32)) ->
  exists s', step s (Resize n got g) = Some s' /\ inv k hdr s' (next v (Resize n got g)).
Proof.
  intros [[] Hp Hs Hh Ha Hhd Hd] Hn Hf. pose proof (pow2_pos k). destruct s as [m [p head tot] sz]. cbn [memory blk size ptr head_ total] in *.
  destruct l_fit0 as [F0 F1]. subst tot.
  cbn [step memory blk size]. unfold reallocate. rewrite (wadd_id n 16) by lia. destruct (N.ltb_spec n (n + 16)); [|lia].
  unfold realloc_aligned. cbn [ptr total]. rewrite !(wsub_id p) by lia. rewrite Hh, Ha.
  rewrite (wadd_id (n + 16)), (wadd_id (n + 16 + 2 ^ k)) by lia. replace (n + 16 + 2 ^ k + 16) with (n + 2 ^ k + 32) by lia.
  destruct got as [new|]; [|eexists; split; [reflexivity|]; constructor; cbn [memory blk size ptr head_ total vsize contents]; auto; constructor; auto; split; auto].
  specialize (Hf new eq_refl).
  pose proof (fun j => realloc_prefix m head (sz + 2 ^ k + 32) new (n + 2 ^ k + 32) g j) as Pre.
  set (m1 := realloc_mem m head (sz + 2 ^ k + 32) new (n + 2 ^ k + 32) g) in *. clearbody m1.
  assert (Hdata : forall i b, (if (i <? vsize v) && (i <? n) then contents v i else None) = Some b ->
            i < sz /\ i < n /\ m (p + 16 + i) = b).
  { intros i b. destruct ((i <? vsize v) && (i <? n)) eqn:E; [|discriminate]. intros H1. destruct (Hd _ _ H1). repeat split; auto; lia. }
  destruct (N.eqb_spec new head) as [->|Hne].
  - eexists. split; [reflexivity|].
    assert (Same : forall x, head <= x -> x < head + sz + 2 ^ k + 32 -> x < head + n + 2 ^ k + 32 -> m1 x = m x).
    { intros x X1 X2 X3. replace x with (head + (x - head)) by lia. apply Pre; lia. }
    constructor; cbn [memory blk size ptr head_ total vsize contents next]; auto.
    + constructor; auto.
    + transitivity (load64 m (p - 16)); [|exact Hh]. apply load_ext. intros x Hx. apply Same; lia.
    + transitivity (load64 m (p - 8)); [|exact Ha]. apply load_ext. intros x Hx. apply Same; lia.
    + intros j Hj. rewrite Same by lia. auto.
    + intros i b Hi. destruct (Hdata i b Hi) as (B1 & B2 & B3). split; [auto|]. rewrite Same by lia. exact B3.
  - eexists. split; [reflexivity|].
    pose proof (place_facts k new n l_k0 Hf) as L. destruct Hf as [G0 G1].
    destruct L as [_ _ _ Q1 Q2 Q3]. set (q := place new (2 ^ k)) in *.
    rewrite <- Hp. rewrite (wsub_id p head) by lia. rewrite (wadd_id (p - head) new) by lia. rewrite !wsub_id by lia.
    set (m2 := memmove m1 q (p - head + new) (n + 16)).
    assert (M2 : forall j, j < n + 16 -> j < sz + 16 -> m2 (q + j) = m (p + j)).
    { intros j J1 J2. unfold m2, memmove. replace ((q <=? q + j) && (q + j <? q + (n + 16))) with true by (symmetry; lia).
      replace (p - head + new + (q + j - q)) with (new + (p - head + j)) by lia. rewrite Pre by lia. f_equal. lia. }
    clearbody m2.
    assert (Out : forall x, q <= x -> store64 (store64 m2 (q - 16) new) (q - 8) (2 ^ k) x = m2 x).
    { intros x Hx. rewrite !store_other by lia. reflexivity. }
    assert (2 ^ k < 2 ^ 64) by lia.
    constructor; cbn [memory blk size ptr head_ total vsize contents next]; auto.
    + constructor; auto; split; auto.
    + erewrite load_ext; [|intros x Hx; apply store_other; lia]. apply load_store. lia.
    + now apply load_store.
    + intros j Hj. rewrite Out, M2 by lia. auto.
    + intros i b Hi. destruct (Hdata i b Hi) as (B1 & B2 & B3). split; [auto|]. rewrite Out by lia.
      replace (q + 16 + i) with (q + (16 + i)) by lia. rewrite M2 by lia. rewrite <- B3. f_equal. lia.
Qed.

Lemma write_inv k hdr s v i b : inv k hdr s v -> i < vsize v -> exists s', step s (Write i b) = Some s' /\ inv k hdr s' (next v (Write i b)).
Proof.
  intros [[] Hp Hs Hh Ha Hhd Hd] Hi. pose proof (pow2_pos k). destruct s as [m [p head tot] sz]. cbn [memory blk size ptr head_ total] in *.
  destruct l_fit0 as [F0 F1]. subst tot.
  cbn [step memory blk size]. unfold user. cbn [ptr]. rewrite wadd_id by lia. destruct (N.ltb_spec i sz); [|lia].
  eexists. split; [reflexivity|]. set (u := p + 16 + i).
  constructor; cbn [memory blk size ptr head_ total vsize contents next]; auto.
  - constructor; auto; split; auto.
  - transitivity (load64 m (p - 16)); [|exact Hh]. apply load_ext. intros x Hx. destruct (N.eqb_spec x u); [lia|reflexivity].
  - transitivity (load64 m (p - 8)); [|exact Ha]. apply load_ext. intros x Hx. destruct (N.eqb_spec x u); [lia|reflexivity].
  - intros j Hj. destruct (N.eqb_spec (p + j) u); [lia|auto].
  - intros j c. destruct (N.eqb_spec j i) as [->|Hne].
    + intros [= <-]. split; [lia|]. destruct (N.eqb_spec (p + 16 + i) u); [reflexivity|lia].
    + intros Hj. destruct (Hd _ _ Hj). split; [auto|]. destruct (N.eqb_spec (p + 16 + j) u); [lia|auto].
Qed.

Lemma run_inv k hdr ops : forall s v, inv k hdr s v -> env_ok (2 ^ k) v ops ->
  exists s', run s ops = Some s' /\ inv k hdr s' (fold_left next ops v).
Proof.
  induction ops as [|o ops IH]; intros s v Hi He; cbn [run fold_left]; [eauto|].
  destruct He as [Ho He]. destruct o as [i b|n got g].
  - destruct (write_inv k hdr s v i b Hi (proj1 Ho)) as (s1 & -> & H1). auto.
  - destruct Ho as (H1 & H2 & _). destruct (resize_inv k hdr s v n got g Hi H1 H2) as (s1 & -> & H3). auto.
Qed.
