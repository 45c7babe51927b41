From Verif Require Import Base Word RandomModel RandomSpec.
Local Open Scope N_scope.

(** * Linear maps on bit vectors *)
Definition linear (f : N -> N) : Prop := forall x y, f (N.lxor x y) = N.lxor (f x) (f y).

Lemma linear_0 f : linear f -> f 0 = 0.
Proof. intros H. specialize (H 0 0). now rewrite !N.lxor_nilpotent in H. Qed.

Fixpoint app (m : list N) (x : N) : N :=
  match m with
  | [] => 0
  | c :: t => N.lxor (if N.odd x then c else 0) (app t (N.div2 x))
  end.

Lemma lxor_swap p q r s : N.lxor (N.lxor p q) (N.lxor r s) = N.lxor (N.lxor p r) (N.lxor q s).
Proof. rewrite !N.lxor_assoc. f_equal. rewrite <- !N.lxor_assoc. f_equal. apply N.lxor_comm. Qed.

Lemma app_linear m : linear (app m).
Proof.
  induction m as [|c t IH]; intros x y; cbn [app]; [reflexivity|].
  rewrite !N.div2_spec, N.shiftr_lxor, <- !N.div2_spec, IH.
  rewrite <- !N.bit0_odd, N.lxor_spec. rewrite lxor_swap. f_equal.
  destruct (N.testbit x 0), (N.testbit y 0); cbn [xorb]; now rewrite ?N.lxor_nilpotent, ?N.lxor_0_r, ?N.lxor_0_l.
Qed.

Definition mul (m n : list N) : list N := map (app m) n.
Lemma app_mul m n x : app (mul m n) x = app m (app n x).
Proof.
  revert x. induction n as [|c t IH]; intros x; cbn [app mul map].
  - symmetry. apply linear_0, app_linear.
  - rewrite app_linear. unfold mul in IH. rewrite IH. f_equal. destruct (N.odd x); [reflexivity|]. symmetry. apply linear_0, app_linear.
Qed.

Fixpoint mpow (m : list N) (p : positive) : list N :=
  match p with
  | xH => m
  | xO q => let h := mpow m q in mul h h
  | xI q => let h := mpow m q in mul m (mul h h)
  end.
Lemma app_mpow m p : forall x, app (mpow m p) x = Pos.iter (app m) x p.
Proof. induction p as [p IH|p IH|]; intros x; cbn [mpow Pos.iter]; rewrite ?app_mul, ?IH; reflexivity. Qed.

Definition madd (m n : list N) : list N := map (fun p => N.lxor (fst p) (snd p)) (combine m n).
Lemma app_madd m : forall n x, length m = length n -> app (madd m n) x = N.lxor (app m x) (app n x).
Proof.
  unfold madd. induction m as [|c t IH]; intros [|e n] x L; try discriminate; [reflexivity|]. cbn [combine map app fst snd].
  rewrite IH by (injection L; auto). rewrite lxor_swap. f_equal. destruct (N.odd x); reflexivity.
Qed.

(** The columns of f, from bit k on. *)
Fixpoint cols (f : N -> N) (k : N) (n : nat) : list N :=
  match n with O => [] | S n => f (2 ^ k) :: cols f (k + 1) n end.

Lemma app_cols f n : linear f -> forall k x, x < 2 ^ N.of_nat n -> app (cols f k n) x = f (x * 2 ^ k).
Proof.
  intros Hf. induction n as [|n IH]; intros k x Hx; cbn [cols app].
  - cbn in Hx. replace x with 0 by lia. symmetry. apply linear_0; auto.
  - rewrite Nat2N.inj_succ, N.pow_succ_r' in Hx. rewrite IH by (rewrite N.div2_div; apply N.div_lt_upper_bound; lia).
    pose proof (N.div2_odd x) as D. set (q := N.div2 x) in *. 
    transitivity (N.lxor (f (N.b2n (N.odd x) * 2 ^ k)) (f (q * 2 ^ (k + 1)))).
    { f_equal. destruct (N.odd x); cbn [N.b2n]; [now rewrite N.mul_1_l|]. symmetry. apply linear_0; auto. }
    rewrite <- Hf. f_equal.
    transitivity (N.b2n (N.odd x) * 2 ^ k + q * 2 ^ (k + 1)); [|rewrite D at 2; rewrite N.pow_add_r; lia].
    symmetry. apply N.add_nocarry_lxor. apply N.bits_inj_0. intros i. rewrite N.land_spec.
    destruct (N.odd x); cbn [N.b2n]; [rewrite N.mul_1_l|rewrite N.mul_0_l, N.bits_0; reflexivity].
    destruct (N.lt_ge_cases i (k + 1)); [rewrite (N.mul_pow2_bits_low q) by auto; apply andb_false_r|].
    rewrite N.pow2_bits_false by lia. reflexivity.
Qed.

(** * xorshift *)
Lemma shiftr_linear k : linear (fun x => N.shiftr x k).
Proof. intros x y. apply N.shiftr_lxor. Qed.
Lemma wshl_linear w k : linear (fun x => wshl w x k).
Proof.
  intros x y. unfold wshl. rewrite <- !N.shiftl_mul_pow2. fold (wrap w (N.shiftl (N.lxor x y) k)) (wrap w (N.shiftl x k)) (wrap w (N.shiftl y k)).
  apply N.bits_inj. intros i. rewrite N.lxor_spec, !testbit_wrap, N.shiftl_lxor, N.lxor_spec.
  destruct (i <? w); reflexivity.
Qed.

Lemma xor_linear f g : linear f -> linear g -> linear (fun x => N.lxor (f x) (g x)).
Proof. intros Hf Hg x y. rewrite Hf, Hg. apply lxor_swap. Qed.
Lemma id_linear : linear (fun x => x).
Proof. intros x y. reflexivity. Qed.
Lemma comp_linear f g : linear f -> linear g -> linear (fun x => f (g x)).
Proof. intros Hf Hg x y. now rewrite Hg, Hf. Qed.

Lemma xorshift_linear : linear xorshift.
Proof.
  pose proof (xor_linear _ _ id_linear (wshl_linear 32 13)) as A.
  pose proof (xor_linear _ _ id_linear (shiftr_linear 17)) as B.
  pose proof (xor_linear _ _ id_linear (wshl_linear 32 5)) as C.
  exact (comp_linear _ _ C (comp_linear _ _ B A)).
Qed.

Lemma lxor_lt w x y : x < 2 ^ w -> y < 2 ^ w -> N.lxor x y < 2 ^ w.
Proof.
  intros Hx Hy. apply lt_pow2_bits. intros i Hi. rewrite N.lxor_spec, (testbit_high x w i), (testbit_high y w i) by auto. reflexivity.
Qed.
Lemma wshl_lt w x k : wshl w x k < 2 ^ w.
Proof. apply N.mod_lt, pow2_nz. Qed.
Lemma shiftr_lt w x k : x < 2 ^ w -> N.shiftr x k < 2 ^ w.
Proof. intros H. rewrite N.shiftr_div_pow2. apply N.le_lt_trans with x; auto. apply N.div_le_upper_bound; [apply pow2_nz|]. pose proof (pow2_pos k). nia. Qed.

Lemma xorshift_lt x : x < 2 ^ 32 -> xorshift x < 2 ^ 32.
Proof.
  intros H. unfold xorshift. apply lxor_lt; [|apply wshl_lt].
  apply lxor_lt; [|apply shiftr_lt]; (apply lxor_lt; [auto|apply wshl_lt]).
Qed.

(** The matrix of xorshift *)
Definition T : list N := Eval vm_compute in cols xorshift 0 32.
Definition I32 : list N := Eval vm_compute in cols (fun x => x) 0 32.

Lemma T_spec x : x < 2 ^ 32 -> app T x = xorshift x.
Proof. intros H. change T with (cols xorshift 0 32). rewrite app_cols by (auto using xorshift_linear). f_equal. change (2 ^ 0) with 1. lia. Qed.
Lemma I_spec x : x < 2 ^ 32 -> app I32 x = x.
Proof. intros H. change I32 with (cols (fun x => x) 0 32). rewrite app_cols by (auto using id_linear). change (2 ^ 0) with 1. lia. Qed.

Lemma iter_T p x : x < 2 ^ 32 -> Pos.iter xorshift x p < 2 ^ 32 /\ Pos.iter xorshift x p = app (mpow T p) x.
Proof.
  rewrite app_mpow. intros Hx. induction p as [|p [IH1 IH2]] using Pos.peano_ind.
  - cbn [Pos.iter]. rewrite T_spec by auto. auto using xorshift_lt.
  - rewrite !Pos.iter_succ, <- IH2, T_spec by auto. auto using xorshift_lt.
Qed.

Definition M : N := 4294967295.

Lemma T_order : mpow T 4294967295 = I32.
Proof. vm_compute. reflexivity. Qed.

Lemma iter_lt k x : x < 2 ^ 32 -> N.iter k xorshift x < 2 ^ 32.
Proof. intros H. destruct k as [|p]; cbn [N.iter]; auto. now apply iter_T. Qed.

Lemma iter_M x : x < 2 ^ 32 -> N.iter M xorshift x = x.
Proof. intros H. unfold M, N.iter. destruct (iter_T 4294967295 x H) as [_ ->]. rewrite T_order. now apply I_spec. Qed.

(** T^(M/p) + 1 is invertible for each prime p dividing M: the inverses. *)
Definition J3 : list N := [3335786257; 3906425407; 341432259; 3494094572; 1287699228; 2747661528; 2150333198; 1082698387; 2611265886; 3557500517; 3637289613; 2868896625; 410369362; 1269330915; 4088754115; 154103209; 1548993245; 1491119919; 2404261344; 3419380581; 2808848906; 551830956; 2331709170; 188466835; 3017353089; 1526152647; 441219537; 2121271239; 792014187; 2569338613; 2655281178; 105270877].
Definition J5 : list N := [3037765269; 3182012677; 1669387622; 2344659563; 370929321; 3901211764; 1380852402; 4210098316; 2969553326; 2348631362; 1854761326; 1663573681; 1840518332; 1230994099; 4206056119; 2280264177; 2761711817; 2141840559; 1783100198; 2364816481; 1110627307; 3500024705; 2915665707; 311039995; 1912523766; 1756755554; 3294084956; 326808620; 2100464665; 1580234416; 2287416289; 4045495915].
Definition J17 : list N := [2080738118; 4098161938; 4167003272; 262081113; 4280086534; 4185094329; 2355677745; 3596925114; 3587069701; 2535039379; 1691659854; 3661366594; 3081963516; 2254921635; 205510780; 2576529806; 3889960224; 3965609850; 1675181996; 1663335326; 464242227; 164803375; 1135727768; 3702832275; 733074617; 3475373130; 3364815054; 2204756806; 2769922784; 2141131413; 4189123440; 1776631044].
Definition J257 : list N := [1940479401; 668616311; 607776604; 3685168204; 1129029766; 648810898; 3303171155; 235886680; 3828553010; 2674952864; 3259775758; 1952802776; 3122666590; 807405955; 2074935119; 10541013; 2953885123; 3744595128; 1051926783; 353530678; 151549380; 394224902; 2319156462; 238374970; 180587326; 3341967654; 1264618217; 3233456239; 2630374898; 2982569044; 4209708186; 2989590033].
Definition J65537 : list N := [331728430; 2488218541; 1209385696; 682878283; 839817293; 1408035726; 4013029473; 4095696576; 1033618122; 2301755989; 769798078; 4185028050; 2663489015; 2683529367; 4136185144; 2950586883; 1578865829; 2816851372; 349201241; 3096975940; 3937016935; 2625434786; 2636012314; 211073125; 3311055944; 1920044434; 2025742764; 2060168078; 4064662879; 1177042686; 3953608156; 586778632].
Lemma J3_inverse : mul J3 (madd (mpow T 1431655765) I32) = I32.
Proof. vm_compute. reflexivity. Qed.
Lemma J5_inverse : mul J5 (madd (mpow T 858993459) I32) = I32.
Proof. vm_compute. reflexivity. Qed.
Lemma J17_inverse : mul J17 (madd (mpow T 252645135) I32) = I32.
Proof. vm_compute. reflexivity. Qed.
Lemma J257_inverse : mul J257 (madd (mpow T 16711935) I32) = I32.
Proof. vm_compute. reflexivity. Qed.
Lemma J65537_inverse : mul J65537 (madd (mpow T 65535) I32) = I32.
Proof. vm_compute. reflexivity. Qed.

Lemma no_fix J k x : mul J (madd (mpow T k) I32) = I32 -> length (mpow T k) = 32%nat -> x < 2 ^ 32 ->
  N.iter (Npos k) xorshift x = x -> x = 0.
Proof.
  intros HJ HL Hx H. cbn [N.iter] in H. destruct (iter_T k x Hx) as [_ E]. rewrite H in E.
  rewrite <- (I_spec x Hx), <- HJ, app_mul, app_madd by (rewrite HL; reflexivity).
  rewrite <- E, I_spec, N.lxor_nilpotent by auto. apply linear_0, app_linear.
Qed.

(** * The order of a non-zero state *)
Lemma iter_mul (f : N -> N) k x : N.iter k f x = x -> forall q, N.iter (q * k) f x = x.
Proof.
  intros H q. induction q as [|q IH] using N.peano_ind; [reflexivity|].
  rewrite N.mul_succ_l, N.iter_add. now rewrite H.
Qed.
Lemma iter_gcd (f : N -> N) x : forall b a, N.iter a f x = x -> N.iter b f x = x -> N.iter (N.gcd a b) f x = x.
Proof.
  induction b as [b IH] using (well_founded_induction N.lt_wf_0). intros a Ha Hb.
  destruct (N.eq_dec b 0) as [->|Hnz]; [now rewrite N.gcd_0_r|].
  rewrite N.gcd_comm, <- N.gcd_mod by auto. rewrite N.gcd_comm. apply IH; auto.
  - apply N.mod_lt; auto.
  - rewrite (N.div_mod a b) in Ha by auto. rewrite N.add_comm, N.iter_add, (N.mul_comm b), (iter_mul f b) in Ha by auto. exact Ha.
Qed.

(** No d .. d+n-1 divides p. *)
Fixpoint no_divisor (p d : N) (n : nat) : bool :=
  match n with O => true | S m => negb (p mod d =? 0) && no_divisor p (d + 1) m end.
Lemma no_divisor_spec p n : forall e d, no_divisor p e n = true -> e <= d -> d < e + N.of_nat n -> p mod d <> 0.
Proof.
  induction n as [|m IH]; intros e d; [lia|]. cbn [no_divisor]. intros H Hd Hn. apply andb_true_iff in H as [H1 H2].
  destruct (N.eq_dec d e) as [->|]; [now apply negb_true_iff, N.eqb_neq in H1|]. apply (IH (e + 1)); auto; lia.
Qed.
Lemma coprime_or_divides p q : no_divisor p 2 (N.to_nat (p - 2)) = true -> 1 < p -> N.gcd q p = 1 \/ (p | q).
Proof.
  intros Hn Hp. destruct (N.gcd_divide_r q p) as [r Hr]. set (g := N.gcd q p) in *.
  assert (g <> 0) by (intros E; rewrite E in Hr; lia).
  destruct (N.eq_dec g 1) as [|Hg]; auto. right.
  assert (Egp : g = p); [|rewrite <- Egp; apply N.gcd_divide_l].
  destruct (N.eq_dec g p) as [|Hgp]; auto. exfalso.
  assert (g <= p) by (apply N.divide_pos_le; [lia|exists r; exact Hr]).
  apply (no_divisor_spec p (N.to_nat (p - 2)) 2 g Hn); [lia|lia|]. apply N.mod_divide; auto. exists r. exact Hr.
Qed.
Lemma no_divisor_65537 : no_divisor 65537 2 (N.to_nat (65537 - 2)) = true.
Proof. vm_compute. reflexivity. Qed.

(** Every divisor of M above 1 is divisible by one of its primes. *)
Lemma divisor_prime q : (q | M) -> q <> 1 -> (3 | q) \/ (5 | q) \/ (17 | q) \/ (257 | q) \/ (65537 | q).
Proof.
  intros Hq H1. destruct (coprime_or_divides 3 q eq_refl eq_refl) as [A|A]; auto. destruct (coprime_or_divides 5 q eq_refl eq_refl) as [B|B]; auto.
  destruct (coprime_or_divides 17 q eq_refl eq_refl) as [C|C]; auto. destruct (coprime_or_divides 257 q eq_refl eq_refl) as [D|D]; auto.
  destruct (coprime_or_divides 65537 q no_divisor_65537 eq_refl) as [E|E]; auto 6.
  exfalso. apply H1. apply N.divide_1_r.
  change M with (3 * (5 * (17 * (257 * (65537 * 1))))) in Hq.
  do 5 (apply N.gauss in Hq; [|assumption]). exact Hq.
Qed.

Lemma order_M x k : 0 < x < 2 ^ 32 -> N.iter k xorshift x = x -> (M | k).
Proof.
  intros Hx Hk. pose proof (iter_gcd xorshift x M k Hk (iter_M x ltac:(lia))) as Hg.
  destruct (N.gcd_divide_r k M) as [q Hq]. set (g := N.gcd k M) in *.
  destruct (N.eq_dec q 1) as [->|Hq1]. { rewrite N.mul_1_l in Hq. rewrite Hq. apply N.gcd_divide_l. }
  exfalso. assert (Hqd : (q | M)) by (exists g; lia).
  assert (F : forall p m J, M = p * Npos m -> p <> 0 -> (p | q) -> mul J (madd (mpow T m) I32) = I32 -> length (mpow T m) = 32%nat -> False).
  { intros p m J HM Hp [r Hr] HJ HL. assert (x = 0); [|lia]. apply (no_fix J m x HJ HL); [lia|].
    assert (Npos m = r * g) as -> by nia. now apply iter_mul. }
  destruct (divisor_prime q Hqd Hq1) as [D|[D|[D|[D|D]]]].
  - apply (F 3 1431655765%positive J3); auto using J3_inverse; vm_compute; reflexivity || discriminate.
  - apply (F 5 858993459%positive J5); auto using J5_inverse; vm_compute; reflexivity || discriminate.
  - apply (F 17 252645135%positive J17); auto using J17_inverse; vm_compute; reflexivity || discriminate.
  - apply (F 257 16711935%positive J257); auto using J257_inverse; vm_compute; reflexivity || discriminate.
  - apply (F 65537 65535%positive J65537); auto using J65537_inverse; vm_compute; reflexivity || discriminate.
Qed.

Lemma xorshift_pos x : 0 < x < 2 ^ 32 -> 0 < xorshift x < 2 ^ 32.
Proof.
  intros H. pose proof (xorshift_lt x ltac:(lia)). destruct (N.eq_dec (xorshift x) 0) as [E|]; [|lia]. exfalso.
  pose proof (iter_M x ltac:(lia)) as I. change M with (4294967294 + 1) in I. rewrite N.iter_add in I.
  change (N.iter 1 xorshift x) with (xorshift x) in I. rewrite E in I.
  assert (Z0 : forall k, N.iter k xorshift 0 = 0).
  { intros k. induction k as [|k IH] using N.peano_ind; [reflexivity|]. rewrite N.iter_succ, IH. reflexivity. }
  rewrite Z0 in I. lia.
Qed.
Lemma iter_pos k x : 0 < x < 2 ^ 32 -> 0 < N.iter k xorshift x < 2 ^ 32.
Proof. intros H. induction k as [|k IH] using N.peano_ind; [exact H|]. rewrite N.iter_succ. now apply xorshift_pos. Qed.

Lemma iter_inj x i j : 0 < x < 2 ^ 32 -> i <= j -> j < M -> N.iter i xorshift x = N.iter j xorshift x -> i = j.
Proof.
  intros Hx Hij Hj E. assert (D : (M | j - i)).
  { apply (order_M (N.iter i xorshift x)); [now apply iter_pos|]. rewrite <- N.iter_add. rewrite E. f_equal. lia. }
  destruct D as [[|r] D]; [lia|nia].
Qed.

(** A map from 0..n-1 into 1..n that does not repeat takes every value. *)
Lemma pigeon (n : nat) (f : nat -> N) :
  (forall i, (i < n)%nat -> 1 <= f i <= N.of_nat n) ->
  (forall i j, (i < n)%nat -> (j < n)%nat -> f i = f j -> i = j) ->
  forall y, 1 <= y <= N.of_nat n -> exists i, (i < n)%nat /\ f i = y.
Proof.
  intros Hr Hi y Hy. set (l := map f (seq 0 n)). set (r := map (fun i => N.of_nat (S i)) (seq 0 n)).
  assert (Hin : In y l).
  { assert (NoDup l).
    { subst l. assert (forall s m, (s + m <= n)%nat -> NoDup (map f (seq s m))) as X; [|apply X; lia].
      intros s m. revert s. induction m as [|m IH]; intros s Hs; cbn [seq map]; constructor; [|apply IH; lia].
      intros C. apply in_map_iff in C as (j & E & Hj). apply in_seq in Hj. assert (j = s) by (apply Hi; auto; lia). lia. }
    apply (NoDup_length_incl (l := l) (l' := r)); auto.
    - subst l r. rewrite !map_length. lia.
    - intros z Hz. subst l r. apply in_map_iff in Hz as (i & <- & Hz). apply in_seq in Hz. destruct (Hr i ltac:(lia)).
      apply in_map_iff. exists (N.to_nat (f i) - 1)%nat. split; [lia|]. apply in_seq. lia.
    - subst r. apply in_map_iff. exists (N.to_nat y - 1)%nat. split; [lia|]. apply in_seq. lia. }
  subst l. apply in_map_iff in Hin as (i & E & Hs). apply in_seq in Hs. exists i. split; [lia|auto].
Qed.

Lemma pigeonN (n : N) (f : N -> N) :
  (forall i, i < n -> 1 <= f i <= n) -> (forall i j, i < n -> j < n -> f i = f j -> i = j) ->
  forall y, 1 <= y <= n -> exists i, i < n /\ f i = y.
Proof.
  intros Hr Hi y Hy. destruct (pigeon (N.to_nat n) (fun i => f (N.of_nat i))) with (y := y) as (i & H1 & H2).
  - intros i H. rewrite N2Nat.id. apply Hr. lia.
  - intros i j H1 H2 E. apply Hi in E; lia.
  - now rewrite N2Nat.id.
  - exists (N.of_nat i). split; [lia|auto].
Qed.

Lemma xorshift_cycle : one_cycle xorshift M.
Proof.
  intros x Hx. assert (Hx' : 0 < x < 2 ^ 32) by (change (2 ^ 32) with (M + 1); lia).
  assert (Hk : forall k, 1 <= N.iter k xorshift x <= M).
  { intros k. pose proof (iter_pos k x Hx'). change (2 ^ 32) with (M + 1) in H. lia. }
  split; [apply iter_M; lia|]. split; [exact Hk|]. intros y Hy.
  assert (Inj : forall i j, i < M -> j < M -> N.iter i xorshift x = N.iter j xorshift x -> i = j).
  { intros i j Hi Hj E. destruct (N.le_ge_cases i j); [now apply (iter_inj x)|symmetry; now apply (iter_inj x)]. }
  destruct (pigeonN M (fun k => N.iter k xorshift x) (fun i _ => Hk i) Inj y Hy) as (k & H1 & H2).
  exists k. split; [auto|]. intros k' [H1' H2']. apply Inj; auto. congruence.
Qed.

(** * xorwow *)
Definition scramble (t : N) : N := let t := N.lxor t (N.shiftr t 2) in N.lxor t (wshl 32 t 1).
Lemma scramble_linear : linear scramble.
Proof.
  pose proof (xor_linear _ _ id_linear (shiftr_linear 2)) as B.
  pose proof (xor_linear _ _ id_linear (wshl_linear 32 1)) as C.
  exact (comp_linear _ _ C B).
Qed.
Lemma shiftr_fix x k : 0 < k -> x = N.shiftr x k -> x = 0.
Proof.
  intros Hk E. rewrite N.shiftr_div_pow2 in E. destruct (N.eq_dec x 0); auto. exfalso.
  assert (2 <= 2 ^ k) by (change 2 with (2 ^ 1) at 1; apply N.pow_le_mono_r; lia).
  assert (x / 2 ^ k < x) by (apply N.div_lt; lia). lia.
Qed.
Lemma wshl_fix w k x : 0 < k -> x = wshl w x k -> x = 0.
Proof.
  intros Hk E. apply N.bits_inj_0. intros i. induction i as [i IH] using (well_founded_induction N.lt_wf_0).
  rewrite E. unfold wshl. rewrite <- N.shiftl_mul_pow2. fold (wrap w (N.shiftl x k)). rewrite testbit_wrap.
  destruct (i <? w); [cbn [andb]|reflexivity]. destruct (N.lt_ge_cases i k); [now apply N.shiftl_spec_low|].
  rewrite N.shiftl_spec_high' by auto. apply IH. lia.
Qed.
Lemma scramble_inj x y : scramble x = scramble y -> x = y.
Proof.
  intros E. apply N.lxor_eq. set (z := N.lxor x y).
  assert (H : scramble z = 0) by (unfold z; rewrite scramble_linear, E; apply N.lxor_nilpotent).
  unfold scramble in H. apply N.lxor_eq in H. apply wshl_fix in H; [|reflexivity]. apply N.lxor_eq in H. apply shiftr_fix in H; [|reflexivity]. exact H.
Qed.

Lemma wadd_inj k x y : x < 2 ^ 32 -> y < 2 ^ 32 -> wadd 32 x k = wadd 32 y k -> x = y.
Proof.
  intros Hx Hy E. unfold wadd in E. rewrite (N.add_mod x k), (N.add_mod y k) in E by discriminate.
  rewrite (N.mod_small x), (N.mod_small y) in E by auto. set (m := k mod 2 ^ 32) in *.
  assert (m < 2 ^ 32) by (apply N.mod_lt; discriminate). clearbody m.
  assert (A : forall u, u < 2 ^ 32 -> (u + m) mod 2 ^ 32 = if u + m <? 2 ^ 32 then u + m else u + m - 2 ^ 32).
  { intros u Hu. destruct (N.ltb_spec (u + m) (2 ^ 32)); [now apply N.mod_small|].
    replace (u + m) with (u + m - 2 ^ 32 + 1 * 2 ^ 32) at 1 by lia. rewrite N.mod_add by discriminate. apply N.mod_small. lia. }
  rewrite !A in E by auto. destruct (N.ltb_spec (x + m) (2 ^ 32)), (N.ltb_spec (y + m) (2 ^ 32)); lia.
Qed.

Lemma lxor_cancel x y z : N.lxor x z = N.lxor y z -> x = y.
Proof.
  intros E. apply (f_equal (fun t => N.lxor t z)) in E. rewrite !N.lxor_assoc, !N.lxor_nilpotent, !N.lxor_0_r in E. exact E.
Qed.

Lemma xorwow_inj s1 s2 : words s1 -> words s2 -> fst (xorwow s1) = fst (xorwow s2) -> s1 = s2.
Proof.
  destruct s1 as [a1 b1 c1 d1 k1], s2 as [a2 b2 c2 d2 k2]. unfold words. cbn [a b c d counter]. intros W1 W2 E.
  unfold xorwow in E. cbn [a b c d counter fst] in E. injection E as Et -> -> -> Ek.
  apply wadd_inj in Ek; [|tauto..]. subst k2. f_equal.
  apply scramble_inj. exact (lxor_cancel _ _ _ Et).
Qed.

Lemma xorwow_words s : words s -> words (fst (xorwow s)).
Proof.
  unfold words, xorwow. cbn [fst a b c d counter]. intros (A & B & C & D & K).
  split; [|repeat split; auto; apply N.mod_lt; discriminate].
  repeat (apply lxor_lt || apply shiftr_lt || apply wshl_lt || assumption).
Qed.
