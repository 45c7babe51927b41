From Verif Require Import Base Word AlignedModel AlignedProofs ZoneModel ZoneSpec.
Local Open Scope N_scope.

Fixpoint total (st : list entry) : N := match st with [] => 0 | e :: t => taken e + total t end.

Lemma total_app a b : total (a ++ b) = total a + total b.
Proof. induction a; cbn [total app]; lia. Qed.

(** The saved sizes, [acc] bytes having been counted since the newest save already passed. *)
Fixpoint sizes (acc : N) (st : list entry) : list N :=
  match st with [] => [] | Mark _ :: t => acc :: sizes 16 t | e :: t => sizes (acc + taken e) t end.

Lemma bump_sizes n st : forall acc, bump n (sizes acc st) = sizes (acc + n) st.
Proof.
  induction st as [|e t IH]; intros acc; cbn [sizes bump]; auto. destruct e; cbn [taken bump]; auto.
  - rewrite IH. f_equal. lia.
  - rewrite IH. f_equal. lia.
Qed.

Lemma drop_0 st : drop 0 st = st.
Proof. now destruct st. Qed.

Lemma dealloc_sizes st : forall acc n,
  dealloc_states n (sizes acc st) = if n <=? acc then sizes (acc - n) st else sizes 0 (drop (n - acc) st).
Proof.
  assert (NM : forall e t, (forall acc n, dealloc_states n (sizes acc t) = if n <=? acc then sizes (acc - n) t else sizes 0 (drop (n - acc) t)) ->
    (forall q, e <> Mark q) -> forall acc n,
    dealloc_states n (sizes (acc + taken e) t) = if n <=? acc then sizes (acc - n + taken e) t else sizes 0 (drop (n - acc) (e :: t))).
  { intros e t IH He acc n. rewrite IH. cbn [drop].
    destruct (N.leb_spec n acc), (N.leb_spec n (acc + taken e)); try lia.
    - f_equal. lia.
    - destruct (N.eqb_spec (n - acc) 0); [lia|]. destruct (N.leb_spec (taken e) (n - acc)).
      + replace (n - acc - taken e) with 0 by lia. rewrite drop_0. f_equal. lia.
      + cbn [sizes taken]. f_equal. lia.
    - destruct (N.eqb_spec (n - acc) 0); [lia|]. destruct (N.leb_spec (taken e) (n - acc)); [|lia]. f_equal. f_equal. lia. }
  induction st as [|e t IH]; intros acc n.
  - cbn. now destruct (n <=? acc).
  - destruct e as [p k c|p|c]; cbn [sizes]; [rewrite NM by (auto; discriminate); reflexivity| |rewrite NM by (auto; discriminate); reflexivity].
    cbn [dealloc_states]. destruct (N.leb_spec n acc); destruct (N.ltb_spec acc n); try lia; [reflexivity|].
    rewrite IH. cbn [drop taken]. destruct (N.eqb_spec (n - acc) 0); [lia|].
    destruct (N.leb_spec 16 (n - acc)), (N.leb_spec (n - acc) 16); try lia.
    + replace (n - acc - 16) with 0 by lia. rewrite drop_0. f_equal. lia.
    + reflexivity.
    + cbn [sizes taken]. f_equal.
Qed.

Lemma sizes_mark st : forall acc s r, sizes acc st = s :: r -> acc <= s /\ before_mark st = Some (drop (s - acc + 16) st).
Proof.
  induction st as [|e t IH]; intros acc s r H; cbn [sizes] in H; [discriminate|]. destruct e as [p k c|p|c]; cbn [before_mark].
  - destruct (IH _ _ _ H) as [L E]. cbn [taken] in *. split; [lia|]. rewrite E. cbn [drop taken].
    destruct (N.eqb_spec (s - acc + 16) 0); [lia|]. destruct (N.leb_spec c (s - acc + 16)); [|lia]. f_equal. f_equal. lia.
  - injection H as <- <-. split; [lia|]. cbn [drop taken]. replace (acc - acc + 16) with 16 by lia. cbn. now rewrite drop_0.
  - destruct (IH _ _ _ H) as [L E]. cbn [taken] in *. split; [lia|]. rewrite E. cbn [drop taken].
    destruct (N.eqb_spec (s - acc + 16) 0); [lia|]. destruct (N.leb_spec c (s - acc + 16)); [|lia]. f_equal. f_equal. lia.
Qed.

Lemma sizes_none st : forall acc, sizes acc st = [] -> before_mark st = None.
Proof. induction st as [|e t IH]; intros acc; cbn; auto. destruct e; eauto. discriminate. Qed.

(** An entry's bytes are in the range. *)
Definition within (e : entry) (lo hi : N) : Prop :=
  forall a b, region e = Some (a, b) -> lo <= a /\ b <= hi.

(** The entries of one block, newest first, fill it from its base to [off]. *)
Fixpoint placed (bs off : N) (seg : list entry) : Prop :=
  match seg with
  | [] => off = 0
  | e :: t => taken e <= off /\ within e (bs + (off - taken e)) (bs + off) /\ placed bs (off - taken e) t
  end.

Lemma placed_total bs seg : forall off, placed bs off seg -> total seg = off.
Proof. induction seg as [|e t IH]; cbn; intros off H; auto. destruct H as (A & _ & C). rewrite (IH _ C). lia. Qed.

Lemma placed_in bs seg : forall off e a b, placed bs off seg -> In e seg -> region e = Some (a, b) -> bs <= a /\ b <= bs + off.
Proof.
  induction seg as [|f t IH]; cbn; intros off e a b H; [contradiction|]. destruct H as (A & B & C). intros [->|Hin] R.
  - destruct (B _ _ R). lia.
  - destruct (IH _ _ _ _ C Hin R). lia.
Qed.

Lemma placed_apart bs seg : forall off, placed bs off seg -> ForallOrdPairs apart seg.
Proof.
  induction seg as [|f t IH]; intros off H; [constructor|]. destruct H as (A & B & C). constructor; eauto.
  apply Forall_forall. intros e He a b c d Ra Rc. destruct (B _ _ Ra). destruct (placed_in _ _ _ _ _ _ C He Rc). lia.
Qed.

Lemma placed_drop bs seg : forall off n, placed bs off seg -> n <= off -> placed bs (off - n) (drop n seg).
Proof.
  induction seg as [|e t IH]; cbn [drop]; intros off n H Hn; [cbn in *; lia|]. pose proof H as (A & B & C).
  destruct (N.eqb_spec n 0) as [->|]; [now rewrite N.sub_0_r|].
  destruct (N.leb_spec (taken e) n).
  - replace (off - n) with (off - taken e - (n - taken e)) by lia. apply IH; auto. lia.
  - cbn [placed taken]. split; [lia|]. split; [discriminate|]. replace (off - n - (taken e - n)) with (off - taken e) by lia. exact C.
Qed.

Lemma drop_app a b : forall n, n <= total a -> drop n (a ++ b) = drop n a ++ b.
Proof.
  induction a as [|e t IH]; cbn [total app]; intros n H.
  - replace n with 0 by lia. cbn. apply drop_0.
  - cbn [drop]. destruct (N.eqb_spec n 0); [reflexivity|]. destruct (N.leb_spec (taken e) n); [apply IH; lia|reflexivity].
Qed.
Lemma drop_app_all a b : forall n, total a < n -> drop n (a ++ b) = drop (n - total a) b.
Proof.
  induction a as [|e t IH]; cbn [total app]; intros n H.
  - now rewrite N.sub_0_r.
  - cbn [drop]. destruct (N.eqb_spec n 0); [lia|]. destruct (N.leb_spec (taken e) n); [|lia]. rewrite IH by lia. f_equal. lia.
Qed.

(** The blocks and the entries in each. *)
Inductive match_blocks (size : N) : list block -> list entry -> Prop :=
| mb_one b seg : placed (base b) (offset b) seg -> offset b <= size -> match_blocks size [b] seg
| mb_cons b seg bs st : placed (base b) (offset b) seg -> offset b <= size -> match_blocks size bs st ->
    match_blocks size (b :: bs) (seg ++ st).

Fixpoint blocks_apart (size : N) (bs : list block) : Prop :=
  match bs with
  | [] => True
  | b :: t => (forall k, In k t -> base b + size <= base k \/ base k + size <= base b) /\ blocks_apart size t
  end.

Lemma FOP_app a b : ForallOrdPairs apart a -> ForallOrdPairs apart b -> (forall x y, In x a -> In y b -> apart x y) ->
  ForallOrdPairs apart (a ++ b).
Proof.
  induction a as [|x a IH]; cbn; intros Ha Hb H; auto. inversion Ha; subst. constructor; auto.
  apply Forall_app. split; auto. apply Forall_forall. auto.
Qed.

Lemma mb_in size bs st : match_blocks size bs st -> forall e a b, In e st -> region e = Some (a, b) ->
  exists k, In k bs /\ base k <= a /\ b <= base k + offset k /\ offset k <= size.
Proof.
  induction 1 as [b seg P L|b seg bs st P L M IH]; intros e x y Hin R.
  - destruct (placed_in _ _ _ _ _ _ P Hin R). exists b. repeat split; auto. now left.
  - apply in_app_iff in Hin as [Hin|Hin].
    + destruct (placed_in _ _ _ _ _ _ P Hin R). exists b. repeat split; auto. now left.
    + destruct (IH _ _ _ Hin R) as (k & K & ?). exists k. split; [now right|auto].
Qed.

Lemma mb_apart size bs st : match_blocks size bs st -> blocks_apart size bs -> ForallOrdPairs apart st.
Proof.
  induction 1 as [b seg P L|b seg bs st P L M IH]; intros B.
  - eapply placed_apart; eauto.
  - destruct B as [B1 B2]. apply FOP_app; [eapply placed_apart; eauto|auto|].
    intros x y Hx Hy p q r s R1 R2. destruct (placed_in _ _ _ _ _ _ P Hx R1).
    destruct (mb_in _ _ _ M _ _ _ Hy R2) as (k & K & ? & ? & ?). destruct (B1 k K); lia.
Qed.

Lemma mb_dealloc size bs st : match_blocks size bs st -> forall n, match_blocks size (dealloc_blocks n bs) (drop n st).
Proof.
  induction 1 as [b seg P L|b seg bs st P L M IH]; intros n; cbn [dealloc_blocks].
  - pose proof (placed_total _ _ _ P). destruct (N.ltb_spec (offset b) n).
    + replace (drop n seg) with (@nil entry). { constructor; cbn; auto; lia. }
      rewrite <- (app_nil_r seg), drop_app_all by lia. reflexivity.
    + constructor; cbn [base offset]; [apply placed_drop; auto|lia].
  - pose proof (placed_total _ _ _ P). destruct (N.ltb_spec (offset b) n).
    + rewrite drop_app_all by lia. destruct bs as [|b2 bs]; [inversion M|]. rewrite H. apply IH.
    + rewrite drop_app by lia. constructor; cbn [base offset]; [apply placed_drop; auto|lia|auto].
Qed.

Lemma dealloc_in n bs : forall k, In k (dealloc_blocks n bs) -> exists k', In k' bs /\ base k' = base k.
Proof.
  revert n. induction bs as [|b bs IH]; intros n k; cbn [dealloc_blocks]; [contradiction|].
  destruct (offset b <? n).
  - destruct bs as [|b2 bs]; [intros [<-|[]]; exists b; cbn; auto|]. intros H. destruct (IH _ _ H) as (k' & K & E). exists k'. split; [now right|auto].
  - intros [<-|H]; [exists b; cbn; auto|exists k; split; [now right|auto]].
Qed.

Lemma apart_dealloc size bs : forall n, blocks_apart size bs -> blocks_apart size (dealloc_blocks n bs).
Proof.
  induction bs as [|b bs IH]; intros n H; cbn [dealloc_blocks]; auto. destruct H as [H1 H2]. destruct (offset b <? n).
  - destruct bs as [|b2 bs]; [cbn; auto|]. apply IH. auto.
  - cbn [blocks_apart base]. auto.
Qed.

Record inv (z : zone) (st : list entry) : Prop := {
  i_mb : match_blocks (blockSize z) (blocks z) st;
  i_apart : blocks_apart (blockSize z) (blocks z);
  i_fit : forall k, In k (blocks z) -> base k + blockSize z < 2 ^ 63;
  i_states : states z = sizes 0 st;
  i_min : 16 <= blockSize z
}.

Lemma inv_memory z st : inv z st -> memory_ok z st.
Proof. intros []. split; [eapply mb_apart; eauto|eapply mb_in; eauto]. Qed.

Lemma create_inv bs addr : addr + N.max bs 16 < 2 ^ 63 -> inv (create bs addr) [].
Proof.
  intros H. unfold create. set (b := if bs <? 16 then 16 else bs).
  assert (Hb : b = N.max bs 16) by (subst b; destruct (N.ltb_spec bs 16); lia). clearbody b.
  constructor; cbn [blockSize blocks states sizes]; auto; try lia.
  - apply mb_one; cbn [placed base offset]; [reflexivity|lia].
  - cbn [blocks_apart]. split; [intros k []|exact I].
  - intros k [<-|[]]. cbn [base]. lia.
Qed.

Lemma dealloc_inv z st n : inv z st -> inv (deallocate z n) (drop n st).
Proof.
  intros []. constructor; cbn [deallocate blockSize blocks states]; auto.
  - now apply mb_dealloc.
  - now apply apart_dealloc.
  - intros k H. destruct (dealloc_in _ _ _ H) as (k' & K & <-). auto.
  - rewrite i_states0, dealloc_sizes. destruct (N.leb_spec n 0); [replace n with 0 by lia; now rewrite drop_0|now rewrite N.sub_0_r].
Qed.

(** The zone grows by c bytes at q; any entry that takes c bytes and stays within can be put there. *)
Lemma allocate_inv z st c got : inv z st -> 0 < c <= blockSize z -> fresh z got ->
  exists z' r, allocate z c got = Some (z', r) /\ blockSize z' = blockSize z /\
    ((r = None /\ got = None /\ z' = z /\ exists b t, blocks z = b :: t /\ blockSize z < offset b + c) \/
     exists q, r = Some q /\ q + c < 2 ^ 63 /\ states z' = bump c (states z) /\
       (match blocks z with b :: _ => if blockSize z <? offset b + c then got = Some q else q = base b + offset b | [] => False end) /\
       forall e, taken e = c -> within e q (q + c) ->
         match_blocks (blockSize z) (blocks z') (e :: st) /\ blocks_apart (blockSize z) (blocks z') /\
         (forall k, In k (blocks z') -> base k + blockSize z < 2 ^ 63)).
Proof.
  intros [] Hc Hf. unfold allocate. destruct (N.eqb_spec c 0); [lia|]. destruct (N.ltb_spec (blockSize z) c); [lia|]. cbn [orb].
  destruct (blocks z) as [|b rest] eqn:Eb; [inversion i_mb0|].
  destruct (N.ltb_spec (blockSize z) (offset b + c)).
  - destruct got as [a|].
    + eexists _, _. split; [reflexivity|]. split; [reflexivity|]. right. destruct (Hf a eq_refl) as [F1 F2].
      exists a. split; [reflexivity|]. split; [lia|]. split; [reflexivity|]. split; [reflexivity|].
      intros e He Hw. cbn [blocks]. split; [|split].
      * change (e :: st) with ([e] ++ st). apply mb_cons; cbn [base offset placed]; [|lia|exact i_mb0].
        rewrite He. replace (c - c) with 0 by lia. rewrite N.add_0_r. split; [lia|]. split; [exact Hw|reflexivity].
      * rewrite Eb in F2. split; auto.
      * intros k [<-|Hk]; cbn; auto.
    + eexists _, _. split; [reflexivity|]. split; [reflexivity|]. left. repeat split; auto. exists b, rest. auto.
  - eexists _, _. split; [reflexivity|]. split; [reflexivity|]. right. exists (base b + offset b).
    assert (base b + blockSize z < 2 ^ 63) by (apply i_fit0; now left).
    split; [reflexivity|]. split; [lia|]. split; [reflexivity|]. split; [reflexivity|].
    intros e He Hw. cbn [blocks]. split; [|split].
    + inversion i_mb0 as [b0 seg P L|b0 seg bs0 st0 P L M]; subst.
      * constructor; cbn [base offset]; [|lia]. cbn [placed]. replace (offset b + taken e - taken e) with (offset b) by lia.
        split; [lia|]. split; [|auto]. intros p q R. destruct (Hw p q R). lia.
      * change (e :: seg ++ st0) with ((e :: seg) ++ st0). constructor; cbn [base offset]; [|lia|auto].
        cbn [placed]. replace (offset b + taken e - taken e) with (offset b) by lia.
        split; [lia|]. split; [|auto]. intros p q R. destruct (Hw p q R). lia.
    + destruct i_apart0 as [A1 A2]. split; auto.
    + intros k [<-|Hk]; cbn; auto. apply i_fit0. now right.
Qed.

Lemma step_inv z st o : inv z st -> client_ok z o ->
  exists z' x, step z o = Some (z', x) /\ result_ok o x /\ inv z' (next st o x).
Proof.
  intros Hi Hc. pose proof Hi as []. destruct o as [n got|n a got|n|got|]; cbn [client_ok] in Hc; cbn [step].
  - destruct Hc as [Hn Hf]. destruct (allocate_inv z st n got Hi Hn Hf) as (z' & r & -> & Ez & [(-> & -> & -> & _)|(q & -> & Hq & Es & _ & H)]).
    + eexists _, _. split; [reflexivity|]. split; [right; auto|]. exact Hi.
    + eexists _, _. split; [reflexivity|]. split; [left; eauto|]. cbn [next].
      destruct (H (Live q n n) eq_refl) as (A & B & C); [intros x y [= <- <-]; lia|].
      constructor; rewrite ?Ez; auto. rewrite Es, i_states0. apply bump_sizes.
  - destruct Hc as (Hn & Hna & (k & Hk & ->) & Hf). pose proof (pow2_pos k).
    unfold aligned_allocate. destruct (N.eqb_spec n 0); [lia|]. unfold padding.
    destruct (blocks z) as [|b rest] eqn:Eb; [inversion i_mb0|].
    assert (Hb : base b + blockSize z < 2 ^ 63) by (apply i_fit0; now left).
    assert (Ho : offset b <= blockSize z) by (inversion i_mb0; subst; auto).
    assert (Ha : base b + offset b + 2 ^ k < 2 ^ 64) by (change (2 ^ 64) with (2 ^ 63 + 2 ^ 63); lia).
    set (o := base b + offset b) in *. set (pad0 := wsub 64 (align o (2 ^ k)) o).
    set (pad := if blockSize z - offset b <? n + pad0 then 2 ^ k else pad0).
    destruct (align_facts o k Hk Ha) as (A & B & C).
    assert (Hpad0 : align o (2 ^ k) = o + pad0) by (unfold pad0; rewrite wsub_id; lia).
    assert (Hpad : pad <= 2 ^ k) by (unfold pad; destruct (_ <? _); lia).
    destruct (allocate_inv z st (n + pad) got Hi ltac:(lia) Hf) as (z' & r & -> & Ez & [(-> & -> & -> & _)|(q & -> & Hq & Es & Hw & H0)]).
    + eexists _, _. split; [reflexivity|]. split; [right; auto|]. exact Hi.
    + eexists _, _. split; [reflexivity|]. rewrite Eb in Hw. fold o in Hw.
      assert (Hal : q <= align q (2 ^ k) /\ align q (2 ^ k) + n <= q + (n + pad) /\ align q (2 ^ k) mod 2 ^ k = 0).
      { destruct (N.ltb_spec (blockSize z) (offset b + (n + pad))).
        - subst got. destruct (Hf q eq_refl) as [F1 _].
          destruct (align_facts q k Hk ltac:(change (2 ^ 64) with (2 ^ 63 + 2 ^ 63); lia)) as (A' & B' & C').
          assert (pad = 2 ^ k) by (unfold pad in *; destruct (N.ltb_spec (blockSize z - offset b) (n + pad0)); [reflexivity|lia]).
          repeat split; auto. lia.
        - subst q. repeat split; auto. unfold pad in *.
          destruct (N.ltb_spec (blockSize z - offset b) (n + pad0)); lia. }
      destruct Hal as (A1 & A2 & A3). split; [left; eexists _, _; repeat split; eauto; lia|]. cbn [next].
      destruct (H0 (Live (align q (2 ^ k)) n (n + pad)) eq_refl) as (D & E & F); [intros x y [= <- <-]; lia|].
      constructor; rewrite ?Ez; auto. rewrite Es, i_states0. apply bump_sizes.
  - eexists _, _. split; [reflexivity|]. split; [reflexivity|]. cbn [next]. now apply dealloc_inv.
  - destruct Hc as [Hg Hf]. destruct (allocate_inv z st 16 got Hi ltac:(lia) Hf) as (z' & r & -> & Ez & [(-> & -> & _)|(q & -> & Hq & Es & _ & H)]); [congruence|].
    eexists _, _. split; [reflexivity|]. split; [eexists; reflexivity|]. cbn [next].
    destruct (H (Mark q) eq_refl) as (A & B & C); [intros x y [= <- <-]; lia|].
    constructor; cbn [blockSize blocks states]; rewrite ?Ez; auto. cbn [sizes]. f_equal. rewrite Es, i_states0. apply bump_sizes.
  - eexists _, _. split; [reflexivity|]. split; [reflexivity|]. cbn [next].
    destruct (states z) as [|s r] eqn:E.
    + rewrite (sizes_none st 0) by auto. exact Hi.
    + symmetry in i_states0. destruct (sizes_mark _ _ _ _ i_states0) as [_ ->]. rewrite N.sub_0_r. now apply dealloc_inv.
Qed.

Lemma ok_inv ops : forall z st, inv z st -> ok z st ops.
Proof.
  induction ops as [|o t IH]; intros z st Hi; cbn [ok]; auto. intros Hc.
  destruct (step_inv z st o Hi Hc) as (z' & x & E & R & Hi'). exists z', x. auto using inv_memory.
Qed.

Lemma reach_app z st a b z' st' : reach z st (a ++ b) z' st' -> exists z1 st1, reach z st a z1 st1 /\ reach z1 st1 b z' st'.
Proof.
  revert z st. induction a as [|o a IH]; intros z st H.
  - exists z, st. split; [constructor|exact H].
  - inversion H as [|? ? ? ? z0 x0 ? ? C0 S0 R0]; subst. destruct (IH _ _ R0) as (z2 & st2 & A & B). exists z2, st2. split; [econstructor; eauto|auto].
Qed.

Lemma reach_inv z st ops z' st' : reach z st ops z' st' -> inv z st -> inv z' st'.
Proof.
  induction 1; intros Hi; auto. apply IHreach. destruct (step_inv z st o Hi H) as (z2 & x2 & E & _ & Hi').
  rewrite H0 in E. injection E as <- <-. exact Hi'.
Qed.

Fixpoint marks (st : list entry) : nat := match st with [] => 0 | Mark _ :: t => S (marks t) | _ :: t => marks t end.

(** With d marks above the mark, the rest is untouched. *)
Lemma balanced_keeps z st ops z' st' : reach z st ops z' st' -> inv z st ->
  forall d top q bot, balanced d ops -> st = top ++ Mark q :: bot -> marks top = d ->
  exists top', st' = top' ++ Mark q :: bot /\ marks top' = 0%nat.
Proof.
  induction 1; intros Hi d top q bot Hb Hs Hm.
  - exists top. cbn in Hb. subst d. auto.
  - destruct (step_inv z st o Hi H) as (z2 & x2 & E & Hr & Hi'). rewrite H0 in E. injection E as <- <-.
    destruct o as [n got|n a got|n|got|]; cbn [balanced] in Hb; try contradiction; cbn [result_ok] in Hr.
    + destruct Hr as [[p ->]|[-> _]]; cbn [next] in *.
      * apply (IHreach Hi' d (Live p n n :: top) q bot); auto. now rewrite Hs.
      * apply (IHreach Hi' d top q bot); auto.
    + destruct Hr as [(p & c & -> & _)|[-> _]]; cbn [next] in *.
      * apply (IHreach Hi' d (Live p n c :: top) q bot); auto. now rewrite Hs.
      * apply (IHreach Hi' d top q bot); auto.
    + destruct Hr as [p ->]. cbn [next] in *. apply (IHreach Hi' (S d) (Mark p :: top) q bot); auto. now rewrite Hs. cbn. now rewrite Hm.
    + subst x. cbn [next] in *. destruct d as [|d]; [contradiction|].
      assert (exists top1, before_mark st = Some (top1 ++ Mark q :: bot) /\ marks top1 = d) as (top1 & B1 & B2).
      { clear - Hs Hm. subst st. induction top as [|e top IH]; [discriminate|]. destruct e; cbn in *; [auto| |auto]. exists top. auto. }
      rewrite B1 in *. apply (IHreach Hi' d top1 q bot); auto.
Qed.

Lemma before_top top q bot : marks top = 0%nat -> before_mark (top ++ Mark q :: bot) = Some bot.
Proof. induction top as [|e top IH]; cbn; auto. destruct e; auto. discriminate. Qed.

Lemma restore_exact z st g ops z' st' : inv z st -> balanced 0 ops ->
  reach z st (Save g :: ops ++ [Restore]) z' st' -> st' = st.
Proof.
  intros Hi Hb H. inversion H as [|? ? ? ? z0 x0 ? ? C0 S0 R0]; subst. destruct (step_inv z st (Save g) Hi C0) as (z2 & x2 & E & [p ->] & Hi').
  rewrite S0 in E. injection E as <- ->. cbn [next] in *.
  destruct (reach_app _ _ _ _ _ _ R0) as (z3 & st3 & R1 & R2).
  destruct (balanced_keeps _ _ _ _ _ R1 Hi' 0%nat [] p st Hb eq_refl eq_refl) as (top' & -> & Hm).
  inversion R2 as [|? ? ? ? z4 x4 ? ? C4 S4 R4]; subst. inversion R4; subst. cbn [next]. rewrite before_top; auto.
Qed.
