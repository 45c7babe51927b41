(** Proofs for C14 and C15. *)
From Verif Require Import Base Word BigIntModel BigIntSpec.
Local Open Scope Z_scope.

Definition B : Z := 2 ^ 64.
Lemma B_val : B = 18446744073709551616. Proof. reflexivity. Qed.
Lemma B_pos : 0 < B. Proof. reflexivity. Qed.

Definition small (l : list N) : Prop := forall d, In d l -> (d < 2 ^ 64)%N.

Lemma small_hd d l : small (d :: l) -> 0 <= Z.of_N d < B.
Proof. intros H. specialize (H d (or_introl eq_refl)). rewrite B_val. change (2 ^ 64)%N with 18446744073709551616%N in H. lia. Qed.
Lemma small_tl d l : small (d :: l) -> small l.
Proof. intros H x Hx. apply H. now right. Qed.
Lemma small_cons d l : Z.of_N d < B -> small l -> small (d :: l).
Proof. rewrite B_val. intros Hd H x [<-|Hx]; [change (2 ^ 64)%N with 18446744073709551616%N; lia|now apply H]. Qed.
Lemma small_app a b : small a -> small b -> small (a ++ b).
Proof. intros Ha Hb x Hx. apply in_app_iff in Hx. destruct Hx; auto. Qed.
Lemma small_app_l a b : small (a ++ b) -> small a.
Proof. intros H x Hx. apply H. apply in_app_iff. auto. Qed.
Lemma small_app_r a b : small (a ++ b) -> small b.
Proof. intros H x Hx. apply H. apply in_app_iff. auto. Qed.
Lemma small_firstn n l : small l -> small (firstn n l).
Proof. intros H. rewrite <- (firstn_skipn n l) in H. now apply small_app_l in H. Qed.
Lemma small_skipn n l : small l -> small (skipn n l).
Proof. intros H. rewrite <- (firstn_skipn n l) in H. now apply small_app_r in H. Qed.
Lemma small_nil : small []. Proof. now intros x Hx. Qed.
Lemma small_rev l : small l -> small (rev l).
Proof. intros H x Hx. apply H. now apply in_rev. Qed.

Definition pw (n : nat) : Z := B ^ Z.of_nat n.
Lemma pw_S n : pw (S n) = B * pw n.
Proof. unfold pw. rewrite Nat2Z.inj_succ, Z.pow_succ_r by lia. reflexivity. Qed.
Lemma pw_0 : pw 0 = 1. Proof. reflexivity. Qed.
Lemma pw_pos n : 0 < pw n.
Proof. apply Z.pow_pos_nonneg; [exact B_pos|lia]. Qed.
Lemma pw_add n m : pw (n + m) = pw n * pw m.
Proof. unfold pw. rewrite Nat2Z.inj_add, Z.pow_add_r by lia. reflexivity. Qed.
Lemma pw_le n m : (n <= m)%nat -> pw n <= pw m.
Proof. intros H. apply Z.pow_le_mono_r; [exact B_pos|lia]. Qed.
Lemma pw_two n : pw n = 2 ^ (64 * Z.of_nat n).
Proof. unfold pw, B. rewrite <- Z.pow_mul_r by lia. reflexivity. Qed.

Lemma mag_cons d l : magnitude (d :: l) = Z.of_N d + B * magnitude l.
Proof. reflexivity. Qed.
Lemma mag_app a b : magnitude (a ++ b) = magnitude a + pw (length a) * magnitude b.
Proof.
  induction a as [|d a IH]; cbn [app length]; [rewrite pw_0; cbn [magnitude]; lia|].
  rewrite !mag_cons, IH, pw_S. ring.
Qed.
Lemma mag_bound l : small l -> 0 <= magnitude l < pw (length l).
Proof.
  induction l as [|d l IH]; intros H; [change (pw (length (@nil N))) with 1; cbn [magnitude]; lia|].
  pose proof (small_hd _ _ H). specialize (IH (small_tl _ _ H)). cbn [length]. rewrite mag_cons, pw_S.
  pose proof B_pos. nia.
Qed.

(** Sizes. *)
Lemma size_pos x : 1 <= size x.
Proof. unfold size. pose proof (Z.log2_nonneg x). pose proof (Z.div_pos (Z.log2 x) 64). lia. Qed.
Lemma size_le x n : (1 <= n)%nat -> 0 <= x < pw n -> size x <= Z.of_nat n.
Proof.
  intros Hn [H0 H]. unfold size. destruct (Z.eq_dec x 0) as [->|]; [change (Z.log2 0) with 0; change (0 / 64) with 0; lia|].
  rewrite pw_two in H. apply Z.log2_lt_pow2 in H; [|lia].
  pose proof (Z.div_lt_upper_bound (Z.log2 x) 64 (Z.of_nat n)). lia.
Qed.
Lemma size_ge x n : pw n <= x -> Z.of_nat n + 1 <= size x.
Proof.
  intros H. unfold size. pose proof (pw_pos n). rewrite pw_two in *. apply Z.log2_le_pow2 in H; [|lia].
  pose proof (Z.div_le_lower_bound (Z.log2 x) 64 (Z.of_nat n)). lia.
Qed.
Lemma size_eq x n : pw n <= x < pw (S n) -> size x = Z.of_nat (S n).
Proof. intros [H1 H2]. pose proof (size_ge _ _ H1). pose proof (pw_pos n). pose proof (size_le x (S n)). lia. Qed.
Lemma size_lt x n : 0 <= x -> size x < Z.of_nat n + 1 -> x < pw n.
Proof. intros H0 H. destruct (Z_lt_le_dec x (pw n)) as [|C]; [assumption|]. apply size_ge in C. lia. Qed.
Lemma size_lower x n : (1 <= n)%nat -> 0 <= x -> Z.of_nat n < size x -> pw n <= x.
Proof. intros Hn H0 H. destruct (Z_lt_le_dec x (pw n)) as [C|]; [|assumption]. pose proof (size_le x n Hn). lia. Qed.
Lemma size_mono x y : 0 <= x <= y -> size x <= size y.
Proof. intros H. unfold size. pose proof (Z.log2_le_mono x y). pose proof (Z.div_le_mono (Z.log2 x) (Z.log2 y) 64). lia. Qed.

Definition sized (l : list N) : Prop := Z.of_nat (length l) = size (magnitude l).

Lemma sized_intro l : small l -> (1 <= length l)%nat -> (length l = 1%nat \/ pw (length l - 1) <= magnitude l) -> sized l.
Proof.
  intros Hs H1 H. unfold sized. pose proof (mag_bound l Hs). pose proof (size_pos (magnitude l)).
  pose proof (size_le (magnitude l) (length l) H1 H0). destruct H as [H|H]; [lia|]. apply size_ge in H. lia.
Qed.
Lemma sized_len l : sized l -> (1 <= length l)%nat.
Proof. unfold sized. pose proof (size_pos (magnitude l)). lia. Qed.
Lemma sized_lower l : small l -> sized l -> (2 <= length l)%nat -> pw (length l - 1) <= magnitude l.
Proof. intros Hs H H2. unfold sized in H. pose proof (mag_bound l Hs). apply size_lower; lia. Qed.
Lemma sized_upper l : small l -> sized l -> magnitude l < pw (length l).
Proof. intros Hs _. now apply mag_bound. Qed.
Lemma sized_last l : small l -> sized l -> (2 <= length l)%nat -> (last l 0 <> 0)%N.
Proof.
  intros Hs H H2. pose proof (sized_lower l Hs H H2) as L. intros E.
  destruct (exists_last (l := l)) as (l' & x & ->); [destruct l; cbn in *; [lia|discriminate]|].
  rewrite last_last in E. subst x. rewrite mag_app, app_length in *. cbn [length magnitude] in *.
  replace (length l' + 1 - 1)%nat with (length l') in L by lia.
  pose proof (mag_bound l' (small_app_l _ _ Hs)). lia.
Qed.

(** Words. *)
Lemma pow64 : (2 ^ 64)%N = 18446744073709551616%N. Proof. reflexivity. Qed.
Lemma wadd_ok a b : Z.of_N a + Z.of_N b < B -> Z.of_N (wadd 64 a b) = Z.of_N a + Z.of_N b.
Proof. rewrite B_val. intros H. unfold wadd. rewrite pow64. rewrite N.mod_small by lia. lia. Qed.
Lemma wadd_over a b : B <= Z.of_N a + Z.of_N b < 2 * B -> Z.of_N (wadd 64 a b) = Z.of_N a + Z.of_N b - B.
Proof.
  rewrite B_val. intros H. unfold wadd. rewrite pow64.
  replace (a + b)%N with ((a + b - 18446744073709551616) + 1 * 18446744073709551616)%N by lia.
  rewrite N.mod_add by lia. rewrite N.mod_small by lia. lia.
Qed.
Lemma wsub_ok a b : Z.of_N b <= Z.of_N a < B -> Z.of_N (wsub 64 a b) = Z.of_N a - Z.of_N b.
Proof.
  rewrite B_val. intros H. unfold wsub. rewrite pow64. rewrite (N.mod_small b) by lia.
  replace (a + (18446744073709551616 - b))%N with ((a - b) + 1 * 18446744073709551616)%N by lia.
  rewrite N.mod_add by lia. rewrite N.mod_small by lia. lia.
Qed.
Lemma wsub_under a b : Z.of_N a < Z.of_N b < B -> Z.of_N (wsub 64 a b) = Z.of_N a - Z.of_N b + B.
Proof.
  rewrite B_val. intros H. unfold wsub. rewrite pow64. rewrite (N.mod_small b) by lia.
  rewrite N.mod_small by lia. lia.
Qed.

(** Addition. *)
Lemma add_limb c v k : Z.of_N c < B -> Z.of_N v < B -> (k <= 1)%N ->
  let result := wadd 64 (wadd 64 c v) k in
  let carry := if ((result <=? c) && negb (N.lor v k =? 0))%N then 1%N else 0%N in
  Z.of_N result < B /\ (carry <= 1)%N /\ Z.of_N result + B * Z.of_N carry = Z.of_N c + Z.of_N v + Z.of_N k.
Proof.
  intros Hc Hv Hk result carry.
  assert (HL : (N.lor v k =? 0)%N = ((v =? 0) && (k =? 0))%N).
  { apply eq_true_iff_eq. rewrite andb_true_iff, !N.eqb_eq. apply N.lor_eq_0_iff. }
  assert (HR : Z.of_N result = Z.of_N c + Z.of_N v + Z.of_N k \/ Z.of_N result = Z.of_N c + Z.of_N v + Z.of_N k - B).
  { unfold result. destruct (Z_lt_le_dec (Z.of_N c + Z.of_N v) B) as [H|H].
    - pose proof (wadd_ok c v H) as E1. destruct (Z_lt_le_dec (Z.of_N (wadd 64 c v) + Z.of_N k) B) as [H'|H'].
      + left. rewrite wadd_ok by lia. lia.
      + right. rewrite wadd_over by (rewrite B_val in *; lia). lia.
    - assert (E1 : Z.of_N (wadd 64 c v) = Z.of_N c + Z.of_N v - B) by (apply wadd_over; lia).
      right. rewrite wadd_ok by (rewrite B_val in *; lia). lia. }
  assert (HB : Z.of_N result < B).
  { unfold result, wadd at 1. rewrite B_val, pow64. match goal with |- context [(?x mod 18446744073709551616)%N] => pose proof (N.mod_lt x 18446744073709551616) end. lia. }
  split; [exact HB|]. unfold carry. rewrite HL. clearbody result. clear carry HL.
  rewrite B_val in *. destruct (N.leb_spec result c), (N.eqb_spec v 0), (N.eqb_spec k 0); cbn [andb negb]; lia.
Qed.

Lemma add_both_ok cs : forall vs k r vs' k', small cs -> small vs -> (k <= 1)%N -> add_both cs vs k = (r, vs', k') ->
  length r = length cs /\ small r /\ (k' <= 1)%N /\ vs' = skipn (length cs) vs /\
  magnitude r + pw (length cs) * (magnitude vs' + Z.of_N k') = magnitude cs + magnitude vs + Z.of_N k.
Proof.
  induction cs as [|c cs IH]; intros vs k r vs' k' Hc Hv Hk E; cbn [add_both] in E.
  - injection E as <- <- <-. cbn [length]. rewrite pw_0. repeat split; auto. cbn [magnitude]. lia.
  - destruct ((k =? 0)%N && match vs with [] => true | _ => false end) eqn:C.
    + injection E as <- <- <-. apply andb_true_iff in C. destruct C as [C1 C2]. destruct vs; [|discriminate].
      apply N.eqb_eq in C1. subst k. cbn [skipn length magnitude]. repeat split; auto. lia.
    + set (v := match vs with [] => 0%N | v :: _ => v end) in *.
      assert (Hv1 : Z.of_N v < B) by (subst v; destruct vs; [reflexivity|now apply small_hd in Hv]).
      assert (Hmv : magnitude vs = Z.of_N v + B * magnitude (tl vs)) by (subst v; destruct vs; [cbn; lia|reflexivity]).
      assert (Htl : small (tl vs)) by (destruct vs; [apply small_nil|now apply small_tl in Hv]).
      destruct (add_limb c v k) as (H1 & H2 & H3); [now apply small_hd in Hc|assumption|assumption|].
      clearbody v. cbv zeta in E, H2, H3.
      match type of E with context [add_both cs (tl vs) ?k1] => set (k1' := k1) in * end. clearbody k1'. rename k1' into k1.
      destruct (add_both cs (tl vs) k1) as [[r1 vs1] k2] eqn:E1. injection E as <- <- <-.
      destruct (IH _ _ _ _ _ (small_tl _ _ Hc) Htl H2 E1) as (L & S1 & K & V & M).
      split; [cbn [length]; congruence|]. split; [now apply small_cons|]. split; [assumption|].
      split; [rewrite V; destruct vs; cbn [tl length skipn]; [now rewrite skipn_nil|reflexivity]|].
      cbn [length]. rewrite pw_S, !mag_cons, Hmv. nia.
Qed.

Lemma add_rest_ok vs : forall k r k', small vs -> (k <= 1)%N -> add_rest vs k = (r, k') ->
  length r = length vs /\ small r /\ (k' <= 1)%N /\ magnitude r + pw (length vs) * Z.of_N k' = magnitude vs + Z.of_N k.
Proof.
  induction vs as [|v vs IH]; intros k r k' Hv Hk E; cbn [add_rest] in E.
  - injection E as <- <-. cbn [length]. rewrite pw_0. repeat split; auto. cbn [magnitude]. lia.
  - pose proof (small_hd _ _ Hv) as Hv1.
    assert (H : Z.of_N (wadd 64 v k) < B /\ ((if (wadd 64 v k <? v)%N then 1 else 0) <= 1)%N /\
                Z.of_N (wadd 64 v k) + B * Z.of_N (if (wadd 64 v k <? v)%N then 1 else 0) = Z.of_N v + Z.of_N k).
    { destruct (Z_lt_le_dec (Z.of_N v + Z.of_N k) B) as [C|C].
      - pose proof (wadd_ok v k C). destruct (N.ltb_spec (wadd 64 v k) v); lia.
      - assert (E1 : Z.of_N (wadd 64 v k) = Z.of_N v + Z.of_N k - B) by (apply wadd_over; lia).
        rewrite B_val in *. destruct (N.ltb_spec (wadd 64 v k) v); lia. }
    destruct H as (H1 & H2 & H3). cbv zeta in E. match type of E with context [add_rest vs ?k1] => set (k1' := k1) in * end. clearbody k1'. rename k1' into k1.
    destruct (add_rest vs k1) as [r1 k2] eqn:E1. injection E as <- <-.
    destruct (IH _ _ _ (small_tl _ _ Hv) H2 E1) as (L & S1 & K & M).
    split; [cbn [length]; congruence|]. split; [now apply small_cons|]. split; [assumption|].
    cbn [length]. rewrite pw_S, !mag_cons. nia.
Qed.

Lemma apply_add_ok cs vs : small cs -> small vs -> sized cs -> sized vs ->
  small (apply_add cs vs) /\ sized (apply_add cs vs) /\ magnitude (apply_add cs vs) = magnitude cs + magnitude vs.
Proof.
  intros Sc Sv Zc Zv. unfold apply_add.
  destruct (add_both cs vs 0) as [[r vs'] k] eqn:E1.
  destruct (add_both_ok cs vs 0%N r vs' k Sc Sv (N.le_0_l _) E1) as (L1 & S1 & K1 & -> & M1).
  destruct (add_rest (skipn (length cs) vs) k) as [more k2] eqn:E2.
  destruct (add_rest_ok _ _ _ _ (small_skipn (length cs) _ Sv) K1 E2) as (L2 & S2 & K2 & M2).
  set (fin := if (k2 =? 0)%N then [] else [k2]).
  assert (Hf : small fin /\ magnitude fin = Z.of_N k2 /\ length fin = (if (k2 =? 0)%N then 0 else 1)%nat).
  { subst fin. destruct (N.eqb_spec k2 0) as [->|]; [split; [apply small_nil|split; reflexivity]|].
    split; [|split; [cbn [magnitude]; lia|reflexivity]]. apply small_cons; [rewrite B_val; lia|apply small_nil]. }
  destruct Hf as (F1 & F2 & F3). clearbody fin.
  rewrite skipn_length in L2.
  assert (HS : small (r ++ more ++ fin)) by (apply small_app; [|apply small_app]; assumption).
  assert (HM : magnitude (r ++ more ++ fin) = magnitude cs + magnitude vs).
  { rewrite !mag_app, L1, F2, L2. rewrite skipn_length in M2.
    rewrite Z.add_0_r in M1. rewrite <- M1. f_equal. f_equal. lia. }
  split; [exact HS|]. split; [|exact HM].
  pose proof (sized_len _ Zc) as H1. pose proof (sized_len _ Zv) as H2.
  pose proof (mag_bound _ Sc) as B1. pose proof (mag_bound _ Sv) as B2.
  apply sized_intro; [exact HS|rewrite !app_length; lia|].
  rewrite HM, !app_length, L1, L2, F3.
  destruct (N.eqb_spec k2 0) as [Z|Z].
  - destruct (Nat.le_gt_cases (length vs) (length cs)).
    + replace (length cs + (length vs - length cs + 0))%nat with (length cs) by lia.
      destruct (Nat.eq_dec (length cs) 1); [left; assumption|right]. pose proof (sized_lower cs Sc Zc ltac:(lia)). lia.
    + replace (length cs + (length vs - length cs + 0))%nat with (length vs) by lia.
      destruct (Nat.eq_dec (length vs) 1); [left; assumption|right]. pose proof (sized_lower vs Sv Zv ltac:(lia)). lia.
  - right. rewrite <- HM, !mag_app, L1, L2, F2. pose proof (mag_bound _ S1). pose proof (mag_bound _ S2).
    replace (length cs + (length vs - length cs + 1) - 1)%nat with (length cs + (length vs - length cs))%nat by lia.
    rewrite pw_add. pose proof (pw_pos (length cs)). pose proof (pw_pos (length vs - length cs)).
    assert (1 <= Z.of_N k2) by lia. nia.
Qed.

(** Subtraction. *)
Lemma sub_limb c v k : Z.of_N c < B -> Z.of_N v < B -> (k <= 1)%N ->
  let next := ((c <? v) || (c <? wadd 64 v k) || (negb (k =? 0) && (v =? 2 ^ 64 - 1)))%N in
  let component := wsub 64 c (wadd 64 v k) in
  Z.of_N component < B /\ next = (Z.of_N c <? Z.of_N v + Z.of_N k) /\
  Z.of_N component + Z.of_N v + Z.of_N k = Z.of_N c + B * (if next then 1 else 0).
Proof.
  intros Hc Hv Hk next component. change (2 ^ 64 - 1)%N with 18446744073709551615%N in next.
  assert (HW : Z.of_N v + Z.of_N k < B /\ Z.of_N (wadd 64 v k) = Z.of_N v + Z.of_N k \/
               Z.of_N v + Z.of_N k = B /\ Z.of_N (wadd 64 v k) = 0).
  { destruct (Z_lt_le_dec (Z.of_N v + Z.of_N k) B); [left; split; [assumption|now apply wadd_ok]|right].
    split; [rewrite B_val in *; lia|]. rewrite wadd_over by (rewrite B_val in *; lia). rewrite B_val in *. lia. }
  assert (HN : next = (Z.of_N c <? Z.of_N v + Z.of_N k)).
  { unfold next. clear component next. set (w := wadd 64 v k) in *. clearbody w. rewrite B_val in *.
    destruct (N.ltb_spec c v), (N.ltb_spec c w), (N.eqb_spec k 0), (N.eqb_spec v 18446744073709551615),
      (Z.ltb_spec (Z.of_N c) (Z.of_N v + Z.of_N k)); cbn [orb andb negb]; lia. }
  split.
  { unfold component, wsub. rewrite B_val, pow64.
    match goal with |- context [(?x mod 18446744073709551616)%N] => generalize x; intros y end.
    pose proof (N.mod_lt y 18446744073709551616). lia. }
  split; [exact HN|]. rewrite HN. unfold component. clear HN next component.
  set (w := wadd 64 v k) in *. clearbody w.
  destruct (Z.ltb_spec (Z.of_N c) (Z.of_N v + Z.of_N k)).
  - destruct HW as [[H1 H2]|[H1 H2]].
    + rewrite wsub_under by lia. lia.
    + rewrite wsub_ok by lia. lia.
  - destruct HW as [[H1 H2]|[H1 H2]].
    + rewrite wsub_ok by lia. lia.
    + exfalso. lia.
Qed.

(** The last non-zero position; [i] is the position of the head, [z] the answer so far. *)
Fixpoint scan (i z : nat) (l : list N) : nat :=
  match l with [] => z | c :: l => scan (S i) (if (c =? 0)%N then z else i) l end.

Lemma sub_both_ok cs : forall vs k i z r vs' k' z', small cs -> small vs -> (k <= 1)%N -> sub_both cs vs k i z = (r, vs', k', z') ->
  length r = length cs /\ small r /\ (k' <= 1)%N /\ vs' = skipn (length cs) vs /\
  magnitude r + magnitude vs + Z.of_N k = magnitude cs + pw (length cs) * (magnitude vs' + Z.of_N k') /\
  exists n, (n <= length cs)%nat /\ skipn n r = skipn n cs /\ z' = scan i z (firstn n r) /\
    ((1 <= length vs)%nat -> (1 <= length cs)%nat -> (1 <= n)%nat) /\
    ((length vs <= length cs)%nat -> (1 <= length cs)%nat ->
     (n = length cs <-> length vs = length cs \/ magnitude (firstn (length cs - 1) cs) < magnitude vs + Z.of_N k)).
Proof.
  induction cs as [|c cs IH]; intros vs k i z r vs' k' z' Hc Hv Hk E; cbn [sub_both] in E.
  - injection E as <- <- <- <-. cbn [length]. rewrite pw_0.
    split; [reflexivity|]. split; [apply small_nil|]. split; [assumption|]. split; [reflexivity|].
    split; [cbn [skipn magnitude]; lia|]. exists 0%nat. repeat split; try reflexivity; lia.
  - destruct ((k =? 0)%N && match vs with [] => true | _ => false end) eqn:C.
    + injection E as <- <- <- <-. apply andb_true_iff in C. destruct C as [C1 C2]. destruct vs; [|discriminate].
      apply N.eqb_eq in C1. subst k. cbn [skipn length magnitude].
      split; [reflexivity|]. split; [assumption|]. split; [assumption|]. split; [reflexivity|]. split; [lia|].
      exists 0%nat. split; [lia|]. split; [reflexivity|]. split; [reflexivity|]. split; [lia|].
      intros _ _. split; [discriminate|]. intros [H|H]; [discriminate|].
      assert (0 <= magnitude (firstn (S (length cs) - 1) (c :: cs))) by (apply mag_bound; now apply small_firstn). lia.
    + set (v := match vs with [] => 0%N | v :: _ => v end) in *.
      assert (Hv1 : Z.of_N v < B) by (subst v; destruct vs; [reflexivity|now apply small_hd in Hv]).
      assert (Hmv : magnitude vs = Z.of_N v + B * magnitude (tl vs)) by (subst v; destruct vs; [cbn; lia|reflexivity]).
      assert (Htl : small (tl vs)) by (destruct vs; [apply small_nil|now apply small_tl in Hv]).
      pose proof (small_hd _ _ Hc) as Hc1.
      destruct (sub_limb c v k) as (H1 & H2 & H3); [lia|assumption|assumption|].
      clearbody v. cbv zeta in E, H1, H2, H3.
      set (nx := (_ || _)%bool) in *. clearbody nx. set (comp := wsub 64 c (wadd 64 v k)) in *. clearbody comp.
      destruct (sub_both cs (tl vs) (if nx then 1%N else 0%N) (Datatypes.S i) (if (comp =? 0)%N then z else i)) as [[[r1 vs1] k2] z2] eqn:E1.
      injection E as <- <- <- <-.
      destruct (IH _ _ _ _ _ _ _ _ (small_tl _ _ Hc) Htl (ltac:(destruct nx; lia) : ((if nx then 1 else 0) <= 1)%N) E1)
        as (L & S1 & K & V & M & n & N1 & N2 & N3 & N4 & N5).
      split; [cbn [length]; congruence|]. split; [now apply small_cons|]. split; [assumption|].
      split; [rewrite V; destruct vs; cbn [tl length skipn]; [now rewrite skipn_nil|reflexivity]|].
      split; [cbn [length]; rewrite pw_S, !mag_cons, Hmv; destruct nx; nia|].
      exists (Datatypes.S n). cbn [length skipn firstn scan]. split; [lia|]. split; [exact N2|]. split; [exact N3|]. split; [lia|].
      intros HL _. destruct cs as [|c' cs'].
      * cbn [length] in *. split; [intros _|lia]. destruct vs as [|v0 vs0]; [|left; cbn [length] in *; lia].
        right. cbn [firstn Nat.sub magnitude]. apply andb_false_iff in C. destruct C as [C|C]; [|discriminate]. apply N.eqb_neq in C. lia.
      * specialize (N5 ltac:(destruct vs; cbn [tl length] in *; lia) ltac:(cbn [length]; lia)).
        assert (X : magnitude (firstn (Datatypes.S (length (c' :: cs')) - 1) (c :: c' :: cs')) =
                    Z.of_N c + B * magnitude (firstn (length (c' :: cs') - 1) (c' :: cs'))).
        { cbn [length]. replace (Datatypes.S (Datatypes.S (length cs')) - 1)%nat with (Datatypes.S (Datatypes.S (length cs') - 1)) by lia. reflexivity. }
        rewrite X, Hmv. set (m := magnitude (firstn _ _)) in *. clearbody m.
        assert (Y : m < magnitude (tl vs) + Z.of_N (if nx then 1 else 0) <->
                    Z.of_N c + B * m < Z.of_N v + B * magnitude (tl vs) + Z.of_N k).
        { rewrite H2. rewrite B_val in *. destruct (Z.ltb_spec (Z.of_N c) (Z.of_N v + Z.of_N k)); lia. }
        rewrite <- Y. clear Y X.
        assert (W : Datatypes.S n = Datatypes.S (length (c' :: cs')) <-> n = length (c' :: cs')) by lia.
        rewrite W, N5. destruct vs as [|v0 vs0]; cbn [tl length] in *; [|lia].
        split; intros [HH|HH]; auto; lia.
Qed.

Lemma trim_ok n : forall loop l, (1 <= loop)%nat -> length l = (n + loop)%nat \/ (n < length l)%nat -> 
  trim n loop (n + loop) l = Some (firstn 1 l ++ skipn (n + 1) l).
Proof.
  induction n as [|n IH]; intros loop l Hl HL; cbn [trim].
  - f_equal. symmetry. apply (firstn_skipn 1).
  - assert (H : (Datatypes.S n < length l)%nat) by lia.
    replace (Datatypes.S n + loop - loop)%nat with (Datatypes.S n) by lia. unfold remove_one.
    destruct (Nat.ltb_spec (Datatypes.S n) (length l)); [|lia].
    replace (Datatypes.S n + loop)%nat with (n + Datatypes.S loop)%nat by lia. rewrite IH.
    2:{ lia. } 2:{ right. rewrite remove_at_length; lia. }
    f_equal. unfold remove_at.
    rewrite firstn_app, firstn_firstn, skipn_app, !firstn_length.
    replace (Nat.min 1 (Datatypes.S n)) with 1%nat by lia.
    replace (1 - Nat.min (Datatypes.S n) (length l))%nat with 0%nat by lia. rewrite firstn_O, app_nil_r.
    f_equal. rewrite skipn_all2 by (rewrite firstn_length; lia). cbn [app].
    replace (n + 1 - Nat.min (Datatypes.S n) (length l))%nat with 0%nat by lia. reflexivity.
Qed.

Lemma scan_app a : forall i z b, scan i z (a ++ b) = scan (i + length a) (scan i z a) b.
Proof.
  induction a as [|c a IH]; intros i z b; cbn [app scan length]; [now rewrite Nat.add_0_r|].
  rewrite IH. f_equal. lia.
Qed.
Lemma scan_bound l : (scan 0 0 l < Nat.max 1 (length l))%nat.
Proof.
  induction l as [|x l IH] using rev_ind; [cbn; lia|]. rewrite scan_app, app_length. cbn [scan length].
  destruct (x =? 0)%N; lia.
Qed.
(** The last non-zero position is that of the leading digit. *)
Lemma scan_size l : small l -> (1 <= length l)%nat -> Z.of_nat (scan 0 0 l) + 1 = size (magnitude l).
Proof.
  induction l as [|x l IH] using rev_ind; intros Hs HL; [cbn in HL; lia|].
  rewrite scan_app, mag_app. cbn [scan]. rewrite mag_cons. cbn [magnitude].
  pose proof (small_app_l _ _ Hs) as Hl. pose proof (mag_bound l Hl).
  destruct (N.eqb_spec x 0) as [->|Hx].
  - replace (magnitude l + pw (length l) * (Z.of_N 0 + B * 0)) with (magnitude l) by lia.
    destruct l as [|y l]; [reflexivity|]. apply IH; [assumption|cbn [length]; lia].
  - symmetry. cbn [Nat.add]. pose proof (small_hd _ _ (small_app_r _ _ Hs)) as Hx1.
    rewrite (size_eq _ (length l)); [lia|]. rewrite pw_S. pose proof (pw_pos (length l)).
    assert (1 <= Z.of_N x) by lia. rewrite B_val in *. nia.
Qed.
