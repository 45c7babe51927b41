(** Proofs for the bytes of the integers of the binary serialisation. *)
From Verif Require Import Base ReflectStreamModel ReflectIntegerModel ReflectIntegerSpec ReflectStreamProofs.
Local Open Scope N_scope.

(** ** Bytes *)
Definition range (n : nat) : list N := map N.of_nat (seq 0 n).

Lemma in_range n x : x < N.of_nat n -> In x (range n).
Proof. intros H. unfold range. apply in_map_iff. exists (N.to_nat x). split; [lia|]. apply in_seq. lia. Qed.

Definition step_check (m t u : N) : bool :=
  let c := N.shiftr (N.land t (high m)) 1 in
  let v := N.lor c (N.land u (low (m + 1))) in
  (N.land v (low (m + 1)) =? N.land u (low (m + 1))) && (N.land v (high (m + 1)) =? c) && negb (N.testbit c 7) &&
  (N.land (N.lor v 128) (low (m + 1)) =? N.land u (low (m + 1))) && (N.land (N.lor v 128) (high (m + 1)) =? N.lor c 128) && negb (N.lor c 128 =? 0) && N.testbit (N.lor c 128) 7 &&
  ((2 * c) mod 256 =? N.land t (high m)) && ((2 * N.lor c 128) mod 256 =? N.land t (high m)) && (N.lor (N.land t (low m)) (N.land t (high m)) =? t) && Bool.eqb (c =? 0) (N.land t (high m) =? 0).

Lemma all_steps : forallb (fun m => forallb (fun t => forallb (fun u => step_check m t u) (range 256)) (range 256)) (range 7) = true.
Proof. vm_cast_no_check (eq_refl true). Qed.

Lemma steps m t u : m <= 6 -> t < 256 -> u < 256 -> step_check m t u = true.
Proof.
  intros Hm Ht Hu. pose proof all_steps as A. rewrite forallb_forall in A. specialize (A m (in_range 7 m ltac:(lia))). rewrite forallb_forall in A. specialize (A t (in_range 256 t ltac:(lia))). rewrite forallb_forall in A. exact (A u (in_range 256 u ltac:(lia))).
Qed.

Record step_facts (m t u c v : N) : Prop := {
  f_low : N.land v (low (m + 1)) = N.land u (low (m + 1));
  f_high : N.land v (high (m + 1)) = c;
  f_c7 : N.testbit c 7 = false;
  f_low' : N.land (N.lor v 128) (low (m + 1)) = N.land u (low (m + 1));
  f_high' : N.land (N.lor v 128) (high (m + 1)) = N.lor c 128;
  f_nz : N.lor c 128 <> 0;
  f_b7 : N.testbit (N.lor c 128) 7 = true;
  f_2c : (2 * c) mod 256 = N.land t (high m);
  f_2c' : (2 * N.lor c 128) mod 256 = N.land t (high m);
  f_join : N.lor (N.land t (low m)) (N.land t (high m)) = t;
  f_zero : c = 0 <-> N.land t (high m) = 0 }.

Lemma step_ok m t u : m <= 6 -> t < 256 -> u < 256 -> step_facts m t u (N.shiftr (N.land t (high m)) 1) (N.lor (N.shiftr (N.land t (high m)) 1) (N.land u (low (m + 1)))).
Proof.
  intros Hm Ht Hu. pose proof (steps m t u Hm Ht Hu) as H. unfold step_check in H. set (c := N.shiftr (N.land t (high m)) 1) in *. set (v := N.lor c (N.land u (low (m + 1)))) in *.
  repeat (apply andb_true_iff in H as [H ?]). rewrite Bool.eqb_true_iff in *. rewrite !negb_true_iff in *. rewrite !N.eqb_eq in *. rewrite !N.eqb_neq in *. constructor; try assumption.
  destruct (N.eqb_spec c 0), (N.eqb_spec (N.land t (high m)) 0); intuition congruence.
Qed.

(** ** Updating a list in the middle *)
Lemma or_mid a x b v : or_at (N.of_nat (length a)) v (a ++ x :: b) = a ++ N.lor x v :: b.
Proof.
  unfold or_at. rewrite Nat2N.id. rewrite nth_middle. induction a as [|y a IH]; cbn [upd app length]; [reflexivity|]. now rewrite IH.
Qed.

Lemma or_at_is i v a x b : N.to_nat i = length a -> or_at i v (a ++ x :: b) = a ++ N.lor x v :: b.
Proof. intros H. rewrite <- or_mid. f_equal. lia. Qed.

Lemma encode_nil_not off c k b t : encode off c k (b :: t) <> [].
Proof. cbn [encode]. destruct t; [destruct (_ =? 0)|]; discriminate. Qed.

Lemma last_cons {A} (l : list A) : forall u t, last (u :: l) t = last l u.
Proof. induction l as [|x l IH]; intros u t; [reflexivity|]. change (last (u :: x :: l) t) with (last (x :: l) t). rewrite IH. symmetry. apply IH. Qed.

(** ** Decoding a prefix *)
Lemma decode_step off size done t m u z k s : k = N.of_nat (S (length done)) -> m + 1 = k + off -> m <= 6 -> t < 256 -> u < 256 -> size = (length done + 2 + z)%nat ->
  decode off size k (done ++ N.land t (low m) :: 0 :: repeat 0 z) (N.lor (N.lor (N.shiftr (N.land t (high m)) 1) (N.land u (low (m + 1)))) 128 :: s) =
  decode off size (k + 1) ((done ++ [t]) ++ N.land u (low (m + 1)) :: repeat 0 z) s.
Proof.
  intros Hk Hm M6 Ht Hu Hs. destruct (step_ok m t u M6 Ht Hu) as [FL FH FC FL' FH' FN FB F2 F2' FJ FZ]. set (c := N.shiftr (N.land t (high m)) 1) in *. cbn [decode].
  replace ((k + off) mod 8) with (m + 1) by (rewrite N.mod_small; lia). rewrite FL', FH'. replace (k <? N.of_nat size) with true by lia.
  destruct (N.eqb_spec (N.lor c 128) 0) as [|_]; [contradiction|]. cbn [negb]. replace (k =? 0) with false by lia. replace (k - 1 <? N.of_nat size) with true by lia. cbn [negb andb]. rewrite FB.
  change (done ++ N.land t (low m) :: 0 :: repeat 0 z) with (done ++ [N.land t (low m)] ++ 0 :: repeat 0 z). rewrite app_assoc. rewrite or_at_is by (rewrite app_length; cbn [length]; lia). rewrite <- app_assoc. cbn [app].
  rewrite or_at_is by lia. rewrite F2', FJ, N.lor_0_l. rewrite <- app_assoc. reflexivity.
Qed.

Lemma encode_step off c k u x l : encode off c k (u :: x :: l) = N.lor (N.lor c (N.land u (low ((k + off) mod 8)))) 128 :: encode off (N.shiftr (N.land u (high ((k + off) mod 8))) 1) (k + 1) (x :: l).
Proof. reflexivity. Qed.

Lemma decode_prefix off size us : forall done t m x l z k rest, k = N.of_nat (S (length done)) -> m + 1 = k + off -> t < 256 -> bytes us -> size = (length done + 1 + length us + z)%nat ->
  m + N.of_nat (length us) <= 7 ->
  exists t', t' = last us t /\
  decode off size k (done ++ N.land t (low m) :: repeat 0 (length us + z)) (encode off (N.shiftr (N.land t (high m)) 1) k (us ++ x :: l) ++ rest) =
  decode off size (k + N.of_nat (length us)) ((done ++ removelast (t :: us)) ++ N.land t' (low (m + N.of_nat (length us))) :: repeat 0 z)
    (encode off (N.shiftr (N.land t' (high (m + N.of_nat (length us)))) 1) (k + N.of_nat (length us)) (x :: l) ++ rest).
Proof.
  induction us as [|u us IH]; intros done t m x l z k rest Hk Hm Ht B Hs M7.
  - exists t. split; [reflexivity|]. cbn [length app removelast]. rewrite !N.add_0_r, app_nil_r. reflexivity.
  - pose proof (Forall_inv B) as Hu. pose proof (Forall_inv_tail B) as B'. cbn beta in Hu. cbn [length] in *. cbn [app]. destruct (us ++ x :: l) as [|y ys] eqn:E; [destruct us; discriminate|]. rewrite encode_step. cbn [app].
    replace ((k + off) mod 8) with (m + 1) by (rewrite N.mod_small; lia). cbn [Nat.add repeat]. rewrite decode_step by (auto; lia). rewrite <- E.
    assert (Hl : length (done ++ [t]) = S (length done)) by (rewrite app_length; cbn [length]; lia).
    destruct (IH (done ++ [t]) u (m + 1) x l z (k + 1) rest) as (t' & Et & ->); try lia; auto; try (rewrite Hl; lia).
    exists t'. split; [rewrite Et; symmetry; apply last_cons|]. replace (m + 1 + N.of_nat (length us)) with (m + N.of_nat (S (length us))) by lia. replace (k + 1 + N.of_nat (length us)) with (k + N.of_nat (S (length us))) by lia.
    change (removelast (t :: u :: us)) with ([t] ++ removelast (u :: us)). rewrite (app_assoc done [t]). reflexivity.
Qed.

(** The byte that only holds the rest of the one before *)
Lemma decode_carry off size done u m z k rest : k = N.of_nat (S (length done)) -> m + 1 = k + off -> m <= 6 -> u < 256 -> N.land u (high m) <> 0 -> size = (length done + 1 + z)%nat ->
  decode off size k (done ++ N.land u (low m) :: repeat 0 z) (N.shiftr (N.land u (high m)) 1 :: rest) = Some (done ++ u :: repeat 0 z, rest).
Proof.
  intros Hk Hm M6 Hu Z Hs. destruct (step_ok m u 0 M6 Hu ltac:(lia)) as [FL FH FC FL' FH' FN FB F2 F2' FJ FZ]. set (c := N.shiftr (N.land u (high m)) 1) in *. rewrite N.land_0_l, N.lor_0_r in *. cbn [decode].
  replace ((k + off) mod 8) with (m + 1) by (rewrite N.mod_small; lia). rewrite FL, FH. destruct (N.eqb_spec c 0) as [C|_]; [apply FZ in C; contradiction|]. cbn [negb].
  assert (E : (if k <? N.of_nat size then or_at k 0 (done ++ N.land u (low m) :: repeat 0 z) else done ++ N.land u (low m) :: repeat 0 z) = done ++ N.land u (low m) :: repeat 0 z).
  { destruct (N.ltb_spec k (N.of_nat size)); [|reflexivity]. destruct z as [|z]; [lia|]. cbn [repeat]. change (N.land u (low m) :: 0 :: repeat 0 z) with ([N.land u (low m)] ++ 0 :: repeat 0 z). rewrite app_assoc.
    rewrite or_at_is; [now rewrite N.lor_0_l|]. rewrite !app_length. cbn [length]. lia. }
  rewrite E. replace (k =? 0) with false by lia. replace (k - 1 <? N.of_nat size) with true by lia. cbn [negb andb]. rewrite FC. rewrite or_at_is by lia. now rewrite F2, FJ.
Qed.

(** The last byte, when its mask is below 7 *)
Lemma decode_last off size done t m u z k rest : k = N.of_nat (S (length done)) -> m + 1 = k + off -> m <= 5 -> t < 256 -> u < 256 -> size = (length done + 2 + z)%nat ->
  decode off size k (done ++ N.land t (low m) :: 0 :: repeat 0 z) (encode off (N.shiftr (N.land t (high m)) 1) k [u] ++ rest) = Some (done ++ t :: u :: repeat 0 z, rest).
Proof.
  intros Hk Hm M5 Ht Hu Hs. cbn [encode]. replace ((k + off) mod 8) with (m + 1) by (rewrite N.mod_small; lia). destruct (N.eqb_spec (N.land u (high (m + 1))) 0) as [Z|Z].
  - destruct (step_ok m t u ltac:(lia) Ht Hu) as [FL FH FC FL' FH' FN FB F2 F2' FJ FZ]. pose proof (f_join _ _ _ _ _ (step_ok (m + 1) u 0 ltac:(lia) Hu ltac:(lia))) as J. set (c := N.shiftr (N.land t (high m)) 1) in *. cbn [app decode].
    replace ((k + off) mod 8) with (m + 1) by (rewrite N.mod_small; lia). rewrite FL, FH. rewrite Z, N.lor_0_r in J. replace (k <? N.of_nat size) with true by lia.
    change (done ++ N.land t (low m) :: 0 :: repeat 0 z) with (done ++ [N.land t (low m)] ++ 0 :: repeat 0 z). rewrite app_assoc. rewrite or_at_is by (rewrite app_length; cbn [length]; lia). rewrite <- app_assoc. cbn [app]. rewrite N.lor_0_l, J.
    destruct (N.eqb_spec c 0) as [C|C]; cbn [negb].
    + replace (N.of_nat size <=? k) with false by lia. apply FZ in C. rewrite C, N.lor_0_r in FJ. now rewrite FJ.
    + replace (k =? 0) with false by lia. replace (k - 1 <? N.of_nat size) with true by lia. cbn [negb andb]. rewrite FC. rewrite or_at_is by lia. now rewrite F2, FJ.
  - cbn [app]. rewrite decode_step by (auto; lia). rewrite decode_carry; try rewrite app_length; cbn [length]; auto; try lia. now rewrite <- app_assoc.
Qed.

(** ** The first byte *)
Definition opening (off c0 : N) : Prop := (off = 0 /\ c0 = 0) \/ (off = 1 /\ (c0 = 0 \/ c0 = 64)).

Definition first_check (oc : N * N) (u : N) : bool :=
  let (off, c0) := oc in let v := N.lor c0 (N.land u (low off)) in
  (N.land v (low off) =? N.land u (low off)) && (N.land v (high off) =? c0) && negb (N.testbit c0 7) &&
  (N.land (N.lor v 128) (low off) =? N.land u (low off)) && (N.land (N.lor v 128) (high off) =? N.lor c0 128) && negb (N.lor c0 128 =? 0) && N.testbit (N.lor c0 128) 7 &&
  (Bool.eqb (N.testbit v 6) (c0 =? 64) || (off =? 0)) && (Bool.eqb (N.testbit (N.lor v 128) 6) (c0 =? 64) || (off =? 0)).

Lemma all_firsts : forallb (fun oc => forallb (first_check oc) (range 256)) [(0, 0); (1, 0); (1, 64)] = true.
Proof. vm_cast_no_check (eq_refl true). Qed.

Record first_facts (off c0 u v : N) : Prop := {
  g_low : N.land v (low off) = N.land u (low off);
  g_high : N.land v (high off) = c0;
  g_c7 : N.testbit c0 7 = false;
  g_low' : N.land (N.lor v 128) (low off) = N.land u (low off);
  g_high' : N.land (N.lor v 128) (high off) = N.lor c0 128;
  g_nz : N.lor c0 128 <> 0;
  g_b7 : N.testbit (N.lor c0 128) 7 = true;
  g_sign : off = 1 -> N.testbit v 6 = (c0 =? 64);
  g_sign' : off = 1 -> N.testbit (N.lor v 128) 6 = (c0 =? 64) }.

Lemma first_ok off c0 u : opening off c0 -> u < 256 -> first_facts off c0 u (N.lor c0 (N.land u (low off))).
Proof.
  intros O Hu. assert (H : first_check (off, c0) u = true).
  { pose proof all_firsts as A. rewrite forallb_forall in A. assert (I : In (off, c0) [(0, 0); (1, 0); (1, 64)]) by (destruct O as [[-> ->]|[-> [->| ->]]]; cbn [In]; auto). specialize (A _ I). rewrite forallb_forall in A. apply A, in_range. lia. }
  unfold first_check in H. set (v := N.lor c0 (N.land u (low off))) in *.
  repeat (apply andb_true_iff in H as [H ?]). rewrite !orb_true_iff in *. rewrite !Bool.eqb_true_iff in *. rewrite !negb_true_iff in *. rewrite !N.eqb_eq in *. rewrite !N.eqb_neq in *. constructor; try assumption; intros ->; intuition congruence.
Qed.

Lemma decode_first off c0 size u s : opening off c0 -> u < 256 ->
  decode off (S size) 0 (repeat 0 (S size)) (N.lor (N.lor c0 (N.land u (low off))) 128 :: s) = decode off (S size) 1 ([] ++ N.land u (low off) :: repeat 0 size) s.
Proof.
  intros O Hu. destruct (first_ok off c0 u O Hu) as [GL GH GC GL' GH' GN GB _ _]. cbn [decode]. replace ((0 + off) mod 8) with off by (destruct O as [[-> _]|[-> _]]; reflexivity). rewrite GL', GH'. destruct (N.eqb_spec (N.lor c0 128) 0); [contradiction|].
  cbn [negb N.eqb andb]. rewrite GB. replace (0 <? N.of_nat (S size)) with true by lia. cbn [repeat app]. reflexivity.
Qed.

Lemma decode_whole off c0 size tr rest : opening off c0 -> tr <> [] -> bytes tr -> N.of_nat (length tr) + off <= 7 -> (length tr <= size)%nat ->
  decode off size 0 (repeat 0 size) (encode off c0 0 tr ++ rest) = Some (tr ++ repeat 0 (size - length tr), rest).
Proof.
  intros O NE B M L. destruct tr as [|u us]; [contradiction|]. pose proof (Forall_inv B) as Hu. pose proof (Forall_inv_tail B) as B'. cbn beta in Hu. cbn [length] in *. destruct size as [|size]; [lia|]. cbn [Nat.sub].
  assert (Ho : (0 + off) mod 8 = off) by (destruct O as [[-> _]|[-> _]]; reflexivity). assert (Hoff : off <= 1) by (destruct O as [[-> _]|[-> _]]; lia).
  destruct us as [|x us].
  - cbn [length app]. replace (size - 0)%nat with size by lia. cbn [encode]. rewrite Ho. destruct (N.eqb_spec (N.land u (high off)) 0) as [Z|Z].
    + destruct (first_ok off c0 u O Hu) as [GL GH GC GL' GH' GN GB _ _]. pose proof (f_join _ _ _ _ _ (step_ok off u 0 ltac:(lia) Hu ltac:(lia))) as J. rewrite Z, N.lor_0_r in J. cbn [app decode]. rewrite Ho, GL, GH. replace (0 <? N.of_nat (S size)) with true by lia.
      cbn [N.eqb negb andb]. rewrite GC. replace (N.of_nat (S size) <=? 0) with false by lia. cbn [repeat]. unfold or_at. cbn [N.to_nat nth upd]. rewrite N.lor_0_l, J. destruct (c0 =? 0); reflexivity.
    + cbn [app]. rewrite decode_first by assumption. rewrite decode_carry; cbn [length app]; auto; lia.
  - cbn [length] in *. rewrite encode_step, Ho. cbn [app]. rewrite decode_first by assumption. destruct (@exists_last _ (x :: us) ltac:(discriminate)) as (us' & y & E). rewrite E in *. assert (El : length us' = length us) by (apply (f_equal (@length N)) in E; rewrite app_length in E; cbn [length] in E; lia).
    apply Forall_app in B' as [Bu By]. pose proof (Forall_inv By) as Hy. cbn beta in Hy. destruct size as [|size]; [lia|].
    replace (repeat 0 (S size)) with (repeat 0 (length us' + S (size - length us'))) by (f_equal; lia).
    destruct (decode_prefix off (S (S size)) us' [] u off y [] (S (size - length us')) 1 rest) as (t' & Et & E1); cbn [length]; auto; try lia. change (0 + 1) with 1. rewrite E1. clear E1. cbn [app repeat].
    assert (Rl : length (removelast (u :: us')) = length us') by (rewrite removelast_firstn_len; rewrite firstn_length; cbn [length]; lia).
    assert (Ht : t' < 256).
    { subst t'. destruct us' as [|z us'] using rev_ind; [exact Hu|]. rewrite last_last. apply Forall_app in Bu as [_ Bz]. exact (Forall_inv Bz). }
    rewrite decode_last; try rewrite Rl; auto; try lia. rewrite Et. replace (length us') with (length us) by lia. f_equal. f_equal. change (removelast (u :: us') ++ last us' u :: y :: repeat 0 (size - length us)) with (removelast (u :: us') ++ [last us' u] ++ y :: repeat 0 (size - length us)).
    rewrite app_assoc. rewrite <- (last_cons us' u u). rewrite <- app_removelast_last by discriminate. cbn [app]. f_equal. change (x :: us ++ repeat 0 (S size - S (length us))) with ((x :: us) ++ repeat 0 (S size - S (length us))). rewrite E, <- app_assoc. reflexivity.
Qed.

