(** Proofs for C73. *)
From Verif Require Import Base Word AlignedModel AlignedProofs ZoneModel ZoneSpec ZoneProofs ZoneAllocModel ZoneAllocSpec.
Local Open Scope N_scope.

Record zi (z : zone) : Prop :=
  { z_blocks : blocks z <> [];
    z_apart : blocks_apart (blockSize z) (blocks z);
    z_fit : forall k, In k (blocks z) -> base k + blockSize z < 2 ^ 63 /\ offset k <= blockSize z;
    z_min : 16 <= blockSize z }.

Lemma create_zi bs addr : addr + N.max bs 16 < 2 ^ 63 -> zi (create bs addr).
Proof.
  intros H. assert (E : blockSize (create bs addr) = N.max bs 16) by (unfold create; cbn [blockSize]; destruct (N.ltb_spec bs 16); lia).
  split; rewrite ?E; cbn [create blocks]; [discriminate|split; [intros k []|exact I]| |lia]. intros k [<-|[]]. cbn [base offset]. lia.
Qed.

Lemma apart_in size bs : blocks_apart size bs -> forall k l, In k bs -> In l bs -> base k = base l \/ base k + size <= base l \/ base l + size <= base k.
Proof.
  induction bs as [|b bs IH]; [intros _ k l []|]. intros [A B] k l [<-|Hk] [<-|Hl].
  - now left.
  - right. destruct (A l Hl); auto.
  - right. destruct (A k Hk); auto.
  - now apply IH.
Qed.

Lemma apart_same size bs : 0 < size -> blocks_apart size bs -> forall k l, In k bs -> In l bs -> base k = base l -> k = l.
Proof.
  intros Hs. induction bs as [|b bs IH]; [intros _ k l []|]. intros [A B] k l [<-|Hk] [<-|Hl] E.
  - reflexivity.
  - destruct (A l Hl); lia.
  - destruct (A k Hk); lia.
  - now apply IH.
Qed.

(** Everything used stays used. *)
Definition grows (z z' : zone) : Prop :=
  blockSize z' = blockSize z /\ forall k, In k (blocks z) -> exists k', In k' (blocks z') /\ base k' = base k /\ offset k <= offset k'.

Lemma grows_refl z : grows z z.
Proof. split; [reflexivity|]. intros k H. exists k. split; [exact H|]. split; [reflexivity|lia]. Qed.

Lemma allocate_is z c got : zi z -> 0 < c <= blockSize z -> fresh z got ->
  exists z' r, allocate z c got = Some (z', r) /\ zi z' /\ grows z z' /\
    match r with
    | None => got = None /\ forall b rest, blocks z = b :: rest -> blockSize z < offset b + c
    | Some q => (exists k', In k' (blocks z') /\ base k' <= q /\ q + c <= base k' + offset k' /\ q + c <= base k' + blockSize z) /\
                (forall k, In k (blocks z) -> q + c <= base k \/ base k + offset k <= q) /\
                forall b rest, blocks z = b :: rest -> if offset b + c <=? blockSize z then q = base b + offset b else got = Some q
    end.
Proof.
  intros [Z1 Z2 Z3 Z4] Hc Hf. unfold allocate. destruct (N.eqb_spec c 0); [lia|]. destruct (N.ltb_spec (blockSize z) c); [lia|]. cbn [orb].
  destruct (blocks z) as [|b rest] eqn:Eb; [congruence|]. assert (Fb := Z3 b (or_introl eq_refl)).
  destruct (N.ltb_spec (blockSize z) (offset b + c)).
  - destruct got as [a|].
    + eexists _, _. split; [reflexivity|]. destruct (Hf a eq_refl) as [F1 F2]. rewrite Eb in F2.
      split; [split; cbn [blocks blockSize]; [discriminate|split; assumption| |exact Z4]|].
      { intros k [<-|Hk]; [cbn [base offset]; lia|now apply Z3]. }
      split; [split; [reflexivity|]; cbn [blocks]; intros k Hk; exists k; rewrite Eb in Hk; split; [now right|split; [reflexivity|lia]]|].
      split; [exists (mkBlock a c); cbn [blocks base offset]; split; [now left|lia]|]. split.
      * intros k Hk. specialize (F2 k Hk). destruct (Z3 k Hk). lia.
      * intros b0 r0 [= <- <-]. destruct (N.leb_spec (offset b + c) (blockSize z)); [lia|reflexivity].
    + eexists _, _. split; [reflexivity|]. split; [split; rewrite ?Eb; auto|]. split; [apply grows_refl|]. split; [reflexivity|]. intros b0 r0 [= <- <-]. exact H0.
  - eexists _, _. split; [reflexivity|]. cbn [blocks_apart] in Z2. destruct Z2 as [A1 A2].
    split; [split; cbn [blocks blockSize]; [discriminate|split; assumption| |exact Z4]|].
    { intros k [<-|Hk]; [cbn [base offset]; lia|apply Z3; now right]. }
    split.
    { split; [reflexivity|]. cbn [blocks]. rewrite Eb. intros k [<-|Hk]; [eexists; split; [now left|]; cbn [base offset]; lia|exists k; split; [now right|split; [reflexivity|lia]]]. }
    split; [exists (mkBlock (base b) (offset b + c)); cbn [blocks base offset]; split; [now left|lia]|]. split.
    + intros k [<-|Hk]; [right; lia|]. destruct (A1 k Hk); [left|right]; destruct (Z3 k (or_intror Hk)); lia.
    + intros b0 r0 [= <- <-]. destruct (N.leb_spec (offset b + c) (blockSize z)); [reflexivity|lia].
Qed.

Lemma round16 x : x + 16 < 2 ^ 64 -> align x 16 = (x + 15) / 16 * 16 /\ x <= align x 16 < x + 16 /\ align x 16 mod 16 = 0.
Proof.
  intros H. pose proof (align_spec x 4 ltac:(lia) H) as E. pose proof (align_facts x 4 ltac:(lia) H) as F. change (2 ^ 4) with 16 in *.
  split; [rewrite E; f_equal; f_equal; lia|]. lia.
Qed.

Lemma aligned_is z n got b rest : zi z -> blocks z = b :: rest -> 0 < n -> n + 16 <= blockSize z -> fresh z got -> got <> None ->
  exists z' q c p, aligned_allocate z n 16 got = Some (z', Some p) /\ zi z' /\ grows z z' /\ q <= p /\ p + n <= q + c /\ p mod 16 = 0 /\ p + 16 < 2 ^ 64 /\
    (exists k', In k' (blocks z') /\ base k' <= q /\ q + c <= base k' + offset k' /\ q + c <= base k' + blockSize z) /\
    (forall k, In k (blocks z) -> q + c <= base k \/ base k + offset k <= q) /\
    if (base b + offset b + 15) / 16 * 16 + n <=? base b + blockSize z then p = (base b + offset b + 15) / 16 * 16
    else forall k, In k (blocks z) -> q + c <= base k \/ base k + blockSize z <= q.
Proof.
  intros Zi Eb Hn Hn16 Hf Hg. destruct got as [a|]; [|congruence]. pose proof (z_fit _ Zi b ltac:(rewrite Eb; now left)) as [Fb Ob].
  unfold aligned_allocate. destruct (N.eqb_spec n 0); [lia|]. 
  assert (Pd : padding z n 16 = let o := base b + offset b in let pad := wsub 64 (align o 16) o in Some (if blockSize z - offset b <? n + pad then 16 else pad)) by (unfold padding; now rewrite Eb).
  cbv zeta in Pd. rewrite Pd. clear Pd.
  set (o := base b + offset b). assert (Ho : o + 16 < 2 ^ 64) by (unfold o; change (2 ^ 64) with (2 ^ 63 + 2 ^ 63); pose proof (z_min _ Zi); lia).
  destruct (round16 o Ho) as (Ra & Rb & Rc). set (r := align o 16) in *.
  assert (W : wsub 64 r o = r - o) by (apply wsub_id; lia). rewrite W.
  set (pad := if blockSize z - offset b <? n + (r - o) then 16 else r - o).
  assert (Pp : pad <= 16) by (unfold pad; clear - Rb; destruct (blockSize z - offset b <? n + (r - o)); clearbody r o; lia).
  destruct (allocate_is z (n + pad) (Some a) Zi ltac:(lia) Hf) as (z' & rr & -> & Zi' & Gr & Hr). destruct rr as [q|]; [|destruct Hr; discriminate].
  destruct Hr as (R1 & R2 & R3). specialize (R3 b rest Eb). exists z', q, (n + pad), (align q 16). split; [reflexivity|]. split; [exact Zi'|]. split; [exact Gr|].
  rewrite <- Ra. destruct (N.leb_spec (offset b + (n + pad)) (blockSize z)) as [L|L].
  - subst q. fold o. fold r. assert (Q : pad = r - o) by (unfold pad in *; destruct (N.ltb_spec (blockSize z - offset b) (n + (r - o))); [lia|reflexivity]).
    split; [lia|]. split; [lia|]. split; [exact Rc|]. split; [change (2 ^ 64) with (2 ^ 63 + 2 ^ 63) in *; change (2 ^ 63) with 9223372036854775808 in *; unfold o in *; lia|]. split; [exact R1|]. split; [exact R2|].
    destruct (N.leb_spec (r + n) (base b + blockSize z)); [reflexivity|unfold o in *; lia].
  - injection R3 as <-. destruct (Hf a eq_refl) as [F1 F2].
    assert (Q : pad = 16). { unfold pad in *. destruct (N.ltb_spec (blockSize z - offset b) (n + (r - o))); [reflexivity|unfold o in *; lia]. }
    destruct (round16 a ltac:(change (2 ^ 64) with (2 ^ 63 + 2 ^ 63); lia)) as (_ & Ab & Ac).
    split; [lia|]. split; [lia|]. split; [exact Ac|]. split; [change (2 ^ 64) with (2 ^ 63 + 2 ^ 63) in *; change (2 ^ 63) with 9223372036854775808 in *; lia|]. split; [exact R1|]. split; [exact R2|].
    assert (F : forall k, In k (blocks z) -> a + (n + pad) <= base k \/ base k + blockSize z <= a) by (intros k Hk; specialize (F2 k Hk); lia).
    destruct (N.leb_spec (r + n) (base b + blockSize z)); [|exact F].
    exfalso. unfold pad in Q. destruct (N.ltb_spec (blockSize z - offset b) (n + (r - o))); unfold o in *; lia.
Qed.

(** Lists, position by position *)
Lemma f2_nth {A B} (R : A -> B -> Prop) a b : Forall2 R a b <-> length a = length b /\ forall i x y, nth_error a i = Some x -> nth_error b i = Some y -> R x y.
Proof.
  split.
  - intros H. induction H as [|x y a b Hx H (L & IH)]; [split; [reflexivity|intros [|i]; discriminate]|]. split; [simpl; congruence|].
    intros [|i]; simpl; [intros ? ? [= <-] [= <-]; exact Hx|apply IH].
  - revert b. induction a as [|x a IH]; intros [|y b] (L & H); try discriminate; constructor; [now apply (H 0%nat)|]. apply IH. split; [now injection L|].
    intros i. apply (H (Datatypes.S i)).
Qed.

Lemma nth_upd {A} (l : list A) i j x y : nth_error (upd l i x) j = Some y -> i = j /\ y = x \/ i <> j /\ nth_error l j = Some y.
Proof.
  intros H. destruct (Nat.eq_dec i j) as [<-|Ne].
  - left. assert (L : (i < length l)%nat) by (rewrite <- (upd_length l i x); apply nth_error_Some; congruence). rewrite (nth_error_upd_eq _ _ _ L) in H. split; congruence.
  - right. rewrite (nth_error_upd_ne _ _ _ _ Ne) in H. auto.
Qed.

Lemma f2_upd {A B} (R R' : A -> B -> Prop) a b i x y : Forall2 R a b -> R' x y ->
  (forall j u v, i <> j -> nth_error a j = Some u -> nth_error b j = Some v -> R u v -> R' u v) -> Forall2 R' (upd a i x) (upd b i y).
Proof.
  rewrite !f2_nth, !upd_length. intros (L & H) Hx Ho. split; [exact L|]. intros j u v Hu Hv.
  apply nth_upd in Hu, Hv. destruct Hu as [(<- & ->)|(N1 & Hu)]; destruct Hv as [(E & ->)|(N2 & Hv)]; try congruence. eauto.
Qed.

Definition inv (s : state) (vs : list (option view)) : Prop :=
  zi (zn s) /\ good s vs /\ forall h, In (Some h) (live s) -> 16 <= hsize h.

Lemma owned_grows z z' h : zi z' -> grows z z' -> owned z h -> owned z' h.
Proof.
  intros Zi [Gs G] (M & k & Hk & A & B & C). split; [exact M|]. destruct (G k Hk) as (k' & Hk' & E1 & E2). exists k'. split; [exact Hk'|].
  pose proof (z_fit _ Zi k' Hk') as [_ F]. rewrite E1. lia.
Qed.

(** New memory is apart from all there was. *)
Lemma owned_apart z h q c : owned z h -> (forall k, In k (blocks z) -> q + c <= base k \/ base k + offset k <= q) -> q + c <= at_ h \/ at_ h + hsize h <= q.
Proof. intros (_ & k & Hk & A & B & C) H. specialize (H k Hk). lia. Qed.

Lemma sees_frame m m' h v : sees m (Some h) v -> (forall j, j < hsize h -> m' (at_ h + j) = m (at_ h + j)) -> sees m' (Some h) v.
Proof. destruct v as [v|]; [|auto]. intros (A & B) H. split; [exact A|]. intros j x Hj Hx. rewrite H by lia. now apply B. Qed.

Lemma handle_view s vs i w : good s vs -> nth_error vs i = Some (Some w) -> exists h, handle_of s i = Some h /\ nth_error (live s) i = Some (Some h) /\ sees (memory s) (Some h) (Some w).
Proof.
  intros (F & _) E. apply f2_nth in F. destruct F as (L & F). assert (Li : (i < length (live s))%nat) by (rewrite L; apply nth_error_Some; congruence).
  apply nth_error_Some in Li. destruct (nth_error (live s) i) as [h|] eqn:Eh; [|congruence]. specialize (F _ _ _ Eh E). unfold handle_of. rewrite Eh. destruct h as [h|]; [|destruct F]. eauto.
Qed.

Lemma block_found z h k : zi z -> In k (blocks z) -> base k <= at_ h -> at_ h < base k + offset k -> block_for z (at_ h) = Some k.
Proof.
  intros Zi Hk A B. unfold block_for. destruct (find _ _) as [k'|] eqn:E.
  - apply find_some in E. destruct E as (H1 & H2). cbv beta in H2. apply in_rev in H1. f_equal.
    pose proof (z_fit _ Zi k Hk). pose proof (z_fit _ Zi k' H1). pose proof (z_min _ Zi).
    apply (apart_same (blockSize z) _ ltac:(lia) (z_apart _ Zi)); auto. destruct (apart_in _ _ (z_apart _ Zi) k' k H1 Hk); lia.
  - exfalso. apply in_rev in Hk. pose proof (find_none _ _ E k Hk) as Hn. cbv beta in Hn. lia.
Qed.

(** The cases of a reallocation to more memory *)
Lemma owned_block z h : zi z -> owned z h -> 16 <= hsize h -> exists k, In k (blocks z) /\ block_for z (at_ h) = Some k /\ base k + 16 <= at_ h /\ at_ h + hsize h <= base k + offset k /\ offset k <= blockSize z.
Proof.
  intros Zi (_ & k & Hk & A & B & C) Hs. exists k. split; [exact Hk|]. split; [apply block_found; auto; lia|auto].
Qed.

Definition in_place (z : zone) (h : handle) (k : block) (size : N) : bool :=
  is_last z k && (wsub 64 (offset k) (hsize h) =? at_ h - base k) && (at_ h - base k + size <=? blockSize z).

Lemma in_place_iff z h k size : zi z -> In k (blocks z) -> base k + 16 <= at_ h -> at_ h + hsize h <= base k + offset k -> 16 <= hsize h ->
  in_place z h k size = true <-> room_behind z h size.
Proof.
  intros Zi Hk A B Hs. pose proof (z_fit _ Zi k Hk) as [F1 F2]. unfold in_place, is_last, room_behind.
  rewrite wsub_id; [|change (2 ^ 64) with (2 ^ 63 + 2 ^ 63); lia|lia]. destruct (blocks z) as [|b rest] eqn:Eb; [destruct Hk|]. split.
  - intros H. apply andb_true_iff in H. destruct H as [H H3]. apply andb_true_iff in H. destruct H as [H1 H2]. apply N.eqb_eq in H1, H2. apply N.leb_le in H3.
    assert (E : b = k). { apply (apart_same (blockSize z) _ ltac:(pose proof (z_min _ Zi); lia) (z_apart _ Zi)); rewrite ?Eb; auto. now left. } subst b. exists k, rest. split; [reflexivity|]. lia.
  - intros (b' & r' & [= <- <-] & C & D & E).
    assert (Q : b = k).
    { pose proof (z_min _ Zi). pose proof (z_fit _ Zi b ltac:(rewrite Eb; now left)). apply (apart_same (blockSize z) _ ltac:(lia) (z_apart _ Zi)); rewrite ?Eb; auto; [now left|].
      assert (Ap := z_apart _ Zi). rewrite Eb in Ap. destruct (apart_in _ _ Ap b k (or_introl eq_refl) Hk); lia. }
    subst b. rewrite N.eqb_refl. cbn [andb]. lia.
Qed.

Lemma grow_in_place z m h size got : zi z -> owned z h -> 16 <= hsize h < size -> fitting z size -> fresh z got -> room_behind z h size ->
  exists z', zrealloc z m h size got = Some (z', m, mkHandle (at_ h) size) /\ zi z' /\ grows z z' /\ owned z' (mkHandle (at_ h) size) /\
    forall k, In k (blocks z) -> at_ h + size <= base k \/ base k + offset k <= at_ h + hsize h.
Proof.
  intros Zi Ow Hs Fi Fr Rb. destruct (owned_block z h Zi Ow ltac:(lia)) as (k & Hk & Ek & A & B & C). destruct Fi as [Fi1 Fi2].
  unfold zrealloc. destruct (N.ltb_spec (size + 16) (blockSize z)); [|lia]. destruct (N.leb_spec size (hsize h)); [lia|]. rewrite Ek.
  fold (in_place z h k size). pose proof (proj2 (in_place_iff z h k size Zi Hk A B ltac:(lia)) Rb) as ->. destruct Rb as (b & rest & Eb & R1 & R2 & R3).
  destruct (allocate_is z (size - hsize h) got Zi ltac:(lia) Fr) as (z' & r & -> & Zi' & Gr & Hr). exists z'. split; [reflexivity|]. split; [exact Zi'|]. split; [exact Gr|].
  pose proof (z_fit _ Zi b ltac:(rewrite Eb; now left)) as [F1 F2].
  assert (Q : exists q, r = Some q /\ q = base b + offset b).
  { destruct r as [q|]; [destruct Hr as (_ & _ & Hr); specialize (Hr _ _ Eb); destruct (N.leb_spec (offset b + (size - hsize h)) (blockSize z)); [eauto|lia]|].
    destruct Hr as (_ & Hr). specialize (Hr _ _ Eb). lia. }
  destruct Q as (q & -> & ->). destruct Hr as ((k' & Hk' & H1 & H2 & H3) & H4 & _). split.
  - destruct Ow as (M & _). split; [exact M|]. cbn [at_ hsize]. exists k'. split; [exact Hk'|]. pose proof (z_fit _ Zi' k' Hk') as [_ F']. destruct Gr as [Gs Gr].
    destruct (Gr b ltac:(rewrite Eb; now left)) as (b' & Hb' & E1 & E2). pose proof (z_fit _ Zi' b' Hb') as [_ Fb']. pose proof (z_min _ Zi').
    assert (Q : k' = b'). { apply (apart_same (blockSize z') _ ltac:(lia) (z_apart _ Zi')); auto. rewrite Gs in *. destruct (apart_in _ _ (z_apart _ Zi') k' b' Hk' Hb'); rewrite ?Gs in *; lia. }
    assert (Qk : base k = base b). { destruct (apart_in _ _ (z_apart _ Zi) k b Hk ltac:(rewrite Eb; now left)); lia. }
    subst k'. lia.
  - intros l Hl. specialize (H4 l Hl). lia.
Qed.

Lemma move_cases z m h k size got : zi z -> In k (blocks z) -> base k + 16 <= at_ h -> at_ h + hsize h <= base k + offset k -> 16 <= hsize h < size -> fitting z size ->
  fresh z got -> got <> None ->
  (copies z h size ->
   exists z' h', zmove z m h k size got = Some (z', memmove m (at_ h') (at_ h) size, h') /\ hsize h' = size /\ zi z' /\ grows z z' /\ owned z' h' /\
     forall l, In l (blocks z) -> at_ h' + size <= base l \/ base l + offset l <= at_ h') /\
  (~ copies z h size -> zmove z m h k size got = None).
Proof.
  intros Zi Hk A B Hs [Fi1 Fi2] Fr Hg. destruct (blocks z) as [|b rest] eqn:Eb; [destruct Hk|]. pose proof (z_fit _ Zi k ltac:(now rewrite Eb)) as [F1 F2]. rewrite <- Eb in *.
  assert (Hb : In b (blocks z)) by (rewrite Eb; now left). pose proof (z_fit _ Zi b Hb) as [G1 G2].
  destruct (aligned_is z (size + 16) got b rest Zi Eb ltac:(lia) ltac:(lia) Fr Hg) as (z' & q & c & p & E & Zi' & Gr & P1 & P2 & P3 & P4 & (k' & Hk' & K1 & K2 & K3) & P5 & P6).
  unfold zmove. rewrite E. unfold memcpy.
  assert (Kb : k = b \/ base k + blockSize z <= base b \/ base b + blockSize z <= base k).
  { pose proof (z_min _ Zi). destruct (apart_in _ _ (z_apart _ Zi) k b Hk Hb) as [Q|Q]; [left; now apply (apart_same (blockSize z) _ ltac:(lia) (z_apart _ Zi))|now right]. }
  assert (Uniq : forall k1, In k1 (blocks z) -> base k1 <= at_ h -> at_ h < base k1 + offset k1 -> k1 = k).
  { intros k1 H1 H2 H3. pose proof (z_min _ Zi). pose proof (z_fit _ Zi k1 H1). apply (apart_same (blockSize z) _ ltac:(lia) (z_apart _ Zi)); auto. destruct (apart_in _ _ (z_apart _ Zi) k1 k H1 Hk); lia. }
  assert (Nx : forall l, In l (blocks z) -> offset l <= blockSize z) by (intros l Hl; now apply z_fit).
  assert (Dis : copies z h size <-> at_ h + size <= base k + blockSize z /\ (p + 16 + size <= at_ h \/ at_ h + size <= p + 16)).
  { split.
    - intros (k1 & H1 & H2 & H3 & H4 & H5). pose proof (Uniq k1 H1 H2 H3) as ->. split; [exact H4|]. specialize (H5 b rest Eb). unfold fits_block, next_at in H5.
      destruct (N.leb_spec ((base b + offset b + 15) / 16 * 16 + (size + 16)) (base b + blockSize z)) as [L|L].
      + destruct Kb as [->|Kb]; [right; rewrite P6; apply H5; [reflexivity|lia]|]. assert (base b + offset b <= (base b + offset b + 15) / 16 * 16) by (pose proof (N.div_mod (base b + offset b + 15) 16 ltac:(lia)); pose proof (N.mod_lt (base b + offset b + 15) 16 ltac:(lia)); lia).
        rewrite <- P6 in *. lia.
      + specialize (P6 k Hk). lia.
    - intros (H4 & H5). exists k. split; [exact Hk|]. split; [lia|]. split; [lia|]. split; [exact H4|]. intros b0 r0 Eb0 Eq Fb. rewrite Eb in Eb0. injection Eb0 as <- <-. unfold fits_block, next_at in *.
      assert (Q : base b + offset b <= (base b + offset b + 15) / 16 * 16) by (pose proof (N.div_mod (base b + offset b + 15) 16 ltac:(lia)); pose proof (N.mod_lt (base b + offset b + 15) 16 ltac:(lia)); lia).
      destruct (N.leb_spec ((base b + offset b + 15) / 16 * 16 + (size + 16)) (base b + blockSize z)) as [L|L]; [|lia].
      assert (k = b) as -> by (destruct Kb as [|Kb]; [assumption|pose proof (z_min _ Zi); lia]).
      rewrite <- P6 in *. lia. }
  split.
  - intros C. apply Dis in C. destruct C as (C1 & C2). replace ((base k <=? at_ h) && (at_ h + size <=? base k + blockSize z) && ((p + 16 + size <=? at_ h) || (at_ h + size <=? p + 16))) with true by lia.
    exists z', (mkHandle (p + 16) size). split; [reflexivity|]. split; [reflexivity|]. split; [exact Zi'|]. split; [exact Gr|]. cbn [at_]. split.
    + split; [cbn [at_]; rewrite N.add_mod, P3 by lia; reflexivity|]. cbn [at_ hsize]. exists k'. split; [exact Hk'|]. destruct (z_fit _ Zi' k' Hk'). lia.
    + intros l Hl. specialize (P5 l Hl). lia.
  - intros C. destruct (_ && _) eqn:Q; [|reflexivity]. exfalso. apply C, Dis. lia.
Qed.

Lemma copies_dec z h k size : zi z -> In k (blocks z) -> base k + 16 <= at_ h -> at_ h + hsize h <= base k + offset k -> 16 <= hsize h -> copies z h size \/ ~ copies z h size.
Proof.
  intros Zi Hk A B Hs.
  assert (Uniq : forall k1, In k1 (blocks z) -> base k1 <= at_ h -> at_ h < base k1 + offset k1 -> k1 = k).
  { intros k1 H1 H2 H3. pose proof (z_min _ Zi). pose proof (z_fit _ Zi k1 H1). pose proof (z_fit _ Zi k Hk). apply (apart_same (blockSize z) _ ltac:(lia) (z_apart _ Zi)); auto. destruct (apart_in _ _ (z_apart _ Zi) k1 k H1 Hk); lia. }
  destruct (blocks z) as [|b rest] eqn:Eb; [destruct Hk|]. rewrite <- Eb in *.
  destruct (N.le_gt_cases (at_ h + size) (base k + blockSize z)) as [L|L].
  2:{ right. intros (k1 & H1 & H2 & H3 & H4 & _). rewrite (Uniq k1 H1 H2 H3) in H4. lia. }
  destruct (N.le_gt_cases (at_ h + size) (next_at b)) as [L1|L1].
  { left. exists k. split; [exact Hk|]. split; [lia|]. split; [lia|]. split; [exact L|]. intros b0 r0 E _ _. rewrite Eb in E. injection E as <- <-. exact L1. }
  destruct (N.eq_dec (base b) (base k)) as [Q|Q].
  2:{ left. exists k. split; [exact Hk|]. split; [lia|]. split; [lia|]. split; [exact L|]. intros b0 r0 E Q' _. rewrite Eb in E. injection E as <- <-. congruence. }
  destruct (N.le_gt_cases (next_at b + size) (base b + blockSize z)) as [L2|L2].
  - right. intros (k1 & H1 & H2 & H3 & _ & H5). rewrite (Uniq k1 H1 H2 H3) in H5. specialize (H5 b rest Eb Q L2). lia.
  - left. exists k. split; [exact Hk|]. split; [lia|]. split; [lia|]. split; [exact L|]. intros b0 r0 E _ F. rewrite Eb in E. injection E as <- <-. unfold fits_block in F. lia.
Qed.

(** Resizing works exactly in these cases. *)
Definition resizable (z : zone) (h : handle) (size : N) : Prop := size <= hsize h \/ room_behind z h size \/ copies z h size.

Lemma zrealloc_none z m h size got : zi z -> owned z h -> 16 <= hsize h -> fitting z size -> fresh z got -> got <> None -> ~ resizable z h size -> zrealloc z m h size got = None.
Proof.
  intros Zi Ow Hs Fi Fr Hg N. destruct (owned_block z h Zi Ow Hs) as (k & Hk & Ek & A & B & C). unfold zrealloc.
  destruct (size + 16 <? blockSize z); [|reflexivity]. destruct (N.leb_spec size (hsize h)); [exfalso; apply N; now left|]. rewrite Ek. fold (in_place z h k size).
  destruct (in_place z h k size) eqn:Q; [exfalso; apply N; right; left; now apply (in_place_iff z h k size Zi Hk A B Hs)|].
  apply (move_cases z m h k size got Zi Hk A B ltac:(lia) Fi Fr Hg). intros Cp. apply N. right. now right.
Qed.

Lemma zrealloc_some z m h size got : zi z -> owned z h -> 16 <= hsize h -> fitting z size -> fresh z got -> got <> None -> resizable z h size ->
  exists z' m' h', zrealloc z m h size got = Some (z', m', h') /\ zi z' /\ grows z z' /\ owned z' h' /\ size <= hsize h' /\ 16 <= hsize h' /\
    (forall j, j < hsize h -> j < size -> m' (at_ h' + j) = m (at_ h + j)) /\
    forall g, owned z g -> 16 <= hsize g -> disjoint h g -> disjoint h' g /\ forall j, j < hsize g -> m' (at_ g + j) = m (at_ g + j).
Proof.
  intros Zi Ow Hs Fi Fr Hg R. assert (Fi' := Fi). destruct Fi' as [Fi1 Fi2].
  destruct (N.le_gt_cases size (hsize h)) as [Le|Gt].
  { exists z, m, h. unfold zrealloc. destruct (N.ltb_spec (size + 16) (blockSize z)); [|lia]. destruct (N.leb_spec size (hsize h)); [|lia].
    split; [reflexivity|]. split; [exact Zi|]. split; [apply grows_refl|]. split; [exact Ow|]. split; [lia|]. split; [lia|]. auto. }
  destruct (owned_block z h Zi Ow Hs) as (k & Hk & Ek & A & B & C).
  destruct (in_place z h k size) eqn:Q.
  - apply (in_place_iff z h k size Zi Hk A B Hs) in Q. destruct (grow_in_place z m h size got Zi Ow ltac:(lia) Fi Fr Q) as (z' & E & Zi' & Gr & Ow' & Ap).
    exists z', m, (mkHandle (at_ h) size). split; [exact E|]. split; [exact Zi'|]. split; [exact Gr|]. split; [exact Ow'|]. cbn [hsize at_]. split; [lia|]. split; [lia|]. split; [auto|].
    intros g Og Sg Dg. split; [|auto]. destruct Og as (_ & l & Hl & G1 & G2 & G3). specialize (Ap l Hl). unfold disjoint in *. cbn [at_ hsize]. lia.
  - assert (Cp : copies z h size). { destruct R as [R|[R|R]]; [lia| |exact R]. apply (in_place_iff z h k size Zi Hk A B Hs) in R. congruence. }
    destruct (proj1 (move_cases z m h k size got Zi Hk A B ltac:(lia) Fi Fr Hg) Cp) as (z' & h' & E & Es & Zi' & Gr & Ow' & Ap).
    exists z', (memmove m (at_ h') (at_ h) size), h'. split.
    { unfold zrealloc. destruct (N.ltb_spec (size + 16) (blockSize z)); [|lia]. destruct (N.leb_spec size (hsize h)); [lia|]. rewrite Ek. fold (in_place z h k size). now rewrite Q, E. }
    split; [exact Zi'|]. split; [exact Gr|]. split; [exact Ow'|]. split; [lia|]. split; [lia|]. split.
    + intros j Hj1 Hj2. unfold memmove. replace ((at_ h' <=? at_ h' + j) && (at_ h' + j <? at_ h' + size)) with true by lia. f_equal. lia.
    + intros g (_ & l & Hl & G1 & G2 & G3) Sg Dg. specialize (Ap l Hl). split; [unfold disjoint; lia|]. intros j Hj. unfold memmove.
      destruct (_ && _) eqn:Q2; [lia|reflexivity].
Qed.

Lemma step_ok s vs o : inv s vs -> client_ok s vs o -> exists s', step s o = Some s' /\ inv s' (next vs o).
Proof.
  intros (Zi & G & Hz) C. destruct G as (Gs & Go & Gd). destruct o as [size got|i j v|i size got|i|n got]; cbn [client_ok] in C; cbn [step next].
  - destruct C as ((Fi1 & Fi2) & Hg & Fr). destruct (blocks (zn s)) as [|b rest] eqn:Eb; [now destruct (z_blocks _ Zi)|].
    destruct (aligned_is (zn s) (size + 16) got b rest Zi Eb ltac:(lia) ltac:(lia) Fr Hg) as (z' & q & c & p & E & Zi' & Gr & P1 & P2 & P3 & P4 & (k' & Hk' & K1 & K2 & K3) & P5 & _).
    unfold zalloc. destruct (N.ltb_spec (size + 16) (blockSize (zn s))); [|lia]. rewrite E. eexists. split; [reflexivity|].
    split; [exact Zi'|]. split; [split; [|split]|]; cbn [memory live zn].
    + apply Forall2_app; [exact Gs|]. constructor; [|constructor]. split; [cbn [vsize hsize]; lia|discriminate].
    + intros h Hh. apply in_app_iff in Hh. destruct Hh as [Hh|[[= <-]|[]]]; [apply (owned_grows (zn s)); auto|]. split; [cbn [at_]; rewrite N.add_mod, P3 by lia; reflexivity|].
      exists k'. cbn [at_ hsize]. split; [exact Hk'|]. destruct (z_fit _ Zi' k' Hk'). lia.
    + assert (Ap : forall i g, nth_error (live s) i = Some (Some g) -> disjoint (mkHandle (p + 16) size) g).
      { intros i g Hi. apply nth_error_In in Hi. destruct (owned_apart (zn s) g q c (Go g Hi) P5); [left|right]; cbn [at_ hsize]; lia. }
      assert (At : forall i g, nth_error (live s ++ [Some (mkHandle (p + 16) size)]) i = Some (Some g) -> nth_error (live s) i = Some (Some g) \/ i = length (live s) /\ g = mkHandle (p + 16) size).
      { intros i g Hi. destruct (Nat.lt_ge_cases i (length (live s))); [rewrite nth_error_app1 in Hi by lia; now left|]. rewrite nth_error_app2 in Hi by lia.
        destruct (i - length (live s))%nat as [|d] eqn:D; [|destruct d; discriminate Hi]. right. split; [lia|]. now injection Hi as <-. }
      intros i j h g Ne Hi Hj. apply At in Hi, Hj. destruct Hi as [Hi|(-> & ->)], Hj as [Hj|(-> & ->)]; [now apply (Gd i j)| | |lia].
      * destruct (Ap i h Hi); [now right|now left].
      * now apply (Ap j).
    + intros h Hh. apply in_app_iff in Hh. destruct Hh as [Hh|[[= <-]|[]]]; [auto|exact Fi1].
  - destruct C as (w & Ew & Hj). destruct (handle_view s vs i w (conj Gs (conj Go Gd)) Ew) as (h & Eh & El & Sw). rewrite Eh, Ew. eexists. split; [reflexivity|].
    split; [exact Zi|]. split; [split; [|split]|]; cbn [memory live zn]; [|exact Go|exact Gd|exact Hz].
    apply f2_nth in Gs. destruct Gs as (L & Gs). apply f2_nth. rewrite upd_length. split; [exact L|]. intros i' h' v' H1 H2. apply nth_upd in H2. destruct H2 as [(<- & ->)|(Ne & H2)].
    + rewrite El in H1. injection H1 as <-. destruct Sw as (S1 & S2). split; [exact S1|]. cbn [vsize contents]. intros j' x Hj' Hx.
      destruct (N.eqb_spec j' j) as [->|Nj]; [rewrite N.eqb_refl; congruence|]. destruct (N.eqb_spec (at_ h + j') (at_ h + j)); [lia|]. now apply S2.
    + specialize (Gs _ _ _ H1 H2). destruct h' as [h'|]; [|exact Gs]. apply (sees_frame (memory s)); [exact Gs|]. intros j' Hj'.
      destruct (Gd i i' h h' Ne El H1) as [D|D]; destruct Sw as (S1 & _); (destruct (N.eqb_spec (at_ h' + j') (at_ h + j)); [lia|reflexivity]).
  - destruct C as ((w & Ew) & Fi & Hg & Fr & Rz). destruct (handle_view s vs i w (conj Gs (conj Go Gd)) Ew) as (h & Eh & El & Sw). rewrite Eh, Ew.
    assert (Ih := nth_error_In _ _ El).
    destruct (zrealloc_some (zn s) (memory s) h size got Zi (Go h Ih) (Hz h Ih) Fi Fr Hg (Rz h Eh)) as (z' & m' & h' & E & Zi' & Gr & Ow' & Sz & Sz16 & Cp & Ap). rewrite E.
    eexists. split; [reflexivity|]. split; [exact Zi'|]. split; [split; [|split]|]; cbn [memory live zn].
    + apply (f2_upd (sees (memory s))); [exact Gs| |].
      * destruct Sw as (S1 & S2). split; [exact Sz|]. cbn [vsize contents]. intros j x Hj Hx. destruct (N.ltb_spec j (vsize w)); [|discriminate]. destruct (N.ltb_spec j size); [|discriminate]. cbn [andb] in Hx.
        rewrite Cp by lia. now apply S2.
      * intros j u v Ne Hu Hv Suv. destruct u as [u|]; [|exact Suv]. apply (sees_frame (memory s)); [exact Suv|]. apply Ap; [apply Go; now apply nth_error_In in Hu|apply Hz; now apply nth_error_In in Hu|now apply (Gd i j)].
    + intros g Hgi. apply In_nth_error in Hgi. destruct Hgi as (j & Hj). apply nth_upd in Hj. destruct Hj as [(_ & [= ->])|(_ & Hj)]; [exact Ow'|]. apply (owned_grows (zn s)); auto. apply Go. now apply nth_error_In in Hj.
    + intros a b ha hb Ne Ha Hb. apply nth_upd in Ha, Hb. destruct Ha as [(<- & [= ->])|(Na & Ha)], Hb as [(<- & [= ->])|(Nb & Hb)].
      * congruence.
      * apply Ap; [apply Go; now apply nth_error_In in Hb|apply Hz; now apply nth_error_In in Hb|now apply (Gd i b)].
      * destruct (Ap ha) as ([D|D] & _); [apply Go; now apply nth_error_In in Ha|apply Hz; now apply nth_error_In in Ha|now apply (Gd i a)|now right|now left].
      * now apply (Gd a b).
    + intros g Hgi. apply In_nth_error in Hgi. destruct Hgi as (j & Hj). apply nth_upd in Hj. destruct Hj as [(_ & [= ->])|(_ & Hj)]; [exact Sz16|]. apply Hz. now apply nth_error_In in Hj.
  - destruct C as (w & Ew). destruct (handle_view s vs i w (conj Gs (conj Go Gd)) Ew) as (h & Eh & El & Sw). rewrite Eh. eexists. split; [reflexivity|].
    split; [exact Zi|]. split; [split; [|split]|]; cbn [memory live zn].
    + apply (f2_upd (sees (memory s))); [exact Gs|exact I|auto].
    + intros g Hgi. apply In_nth_error in Hgi. destruct Hgi as (j & Hj). apply nth_upd in Hj. destruct Hj as [(_ & Hj)|(_ & Hj)]; [discriminate|]. apply Go. now apply nth_error_In in Hj.
    + intros a b ha hb Ne Ha Hb. apply nth_upd in Ha, Hb. destruct Ha as [(_ & Ha)|(Na & Ha)]; [discriminate|]. destruct Hb as [(_ & Hb)|(Nb & Hb)]; [discriminate|]. now apply (Gd a b).
    + intros g Hgi. apply In_nth_error in Hgi. destruct Hgi as (j & Hj). apply nth_upd in Hj. destruct Hj as [(_ & Hj)|(_ & Hj)]; [discriminate|]. apply Hz. now apply nth_error_In in Hj.
  - destruct C as (Hn & Fr). destruct (allocate_is (zn s) n got Zi Hn Fr) as (z' & r & E & Zi' & Gr & _). rewrite E. eexists. split; [reflexivity|].
    split; [exact Zi'|]. split; [split; [exact Gs|split; [|exact Gd]]|exact Hz]. cbn [live zn]. intros h Hh. apply (owned_grows (zn s)); auto.
Qed.

Lemma start_inv bs addr m : addr + N.max bs 16 < 2 ^ 63 -> inv (start bs addr m) [].
Proof.
  intros H. split; [now apply create_zi|]. split; [split; [constructor|split; [intros h []|]]|intros h []]. intros [|i] j h g _ Hi; discriminate Hi.
Qed.

Lemma ok_all ops : forall s vs, inv s vs -> ok s vs ops.
Proof.
  induction ops as [|o t IH]; intros s vs I; [exact Logic.I|]. intros C. destruct (step_ok s vs o I C) as (s' & E & I'). exists s'. split; [exact E|]. split; [apply I'|now apply IH].
Qed.

Lemma reach_inv s vs ops s' vs' : reach s vs ops s' vs' -> inv s vs -> inv s' vs'.
Proof.
  intros H. induction H as [|s vs o t s1 s' vs' C E R IH]; [auto|]. intros I. apply IH. destruct (step_ok s vs o I C) as (s2 & E2 & I2). congruence.
Qed.

(** Checking the rules by computation, for the examples *)
Definition freshb (z : zone) (a : N) : bool :=
  (a + blockSize z <? 2 ^ 63) && forallb (fun k => (a + blockSize z <=? base k) || (base k + blockSize z <=? a)) (blocks z).
Definition fittingb (z : zone) (size : N) : bool := (16 <=? size) && (size + 32 <=? blockSize z).
Definition resizableb (z : zone) (h : handle) (size : N) : bool :=
  (size <=? hsize h) ||
  match blocks z with
  | [] => false
  | b :: _ =>
      (base b <=? at_ h) && (at_ h + hsize h =? base b + offset b) && (at_ h + size <=? base b + blockSize z) ||
      existsb (fun k => (base k <=? at_ h) && (at_ h <? base k + offset k) && (at_ h + size <=? base k + blockSize z) &&
        (negb (base b =? base k) || negb (next_at b + size <=? base b + blockSize z) || (at_ h + size <=? next_at b))) (blocks z)
  end.
Definition client_okb (s : state) (vs : list (option view)) (o : op) : bool :=
  let is_live i := match nth_error vs i with Some (Some _) => true | _ => false end in
  match o with
  | New size (Some a) => fittingb (zn s) size && freshb (zn s) a
  | Put i j v => match nth_error vs i with Some (Some w) => j <? vsize w | _ => false end
  | Resize i size (Some a) => is_live i && fittingb (zn s) size && freshb (zn s) a && match handle_of s i with Some h => resizableb (zn s) h size | None => true end
  | Free i => is_live i
  | Other n (Some a) => (0 <? n) && (n <=? blockSize (zn s)) && freshb (zn s) a
  | _ => false
  end.
Fixpoint keeps_rules (s : state) (vs : list (option view)) (ops : list op) : bool :=
  match ops with [] => true | o :: t => client_okb s vs o && match step s o with Some s' => keeps_rules s' (next vs o) t | None => false end end.

Lemma freshb_ok z a : freshb z a = true -> fresh z (Some a).
Proof.
  unfold freshb. intros H. apply andb_true_iff in H. destruct H as [H1 H2]. rewrite forallb_forall in H2. intros a' [= <-]. split; [lia|]. intros k Hk. specialize (H2 k Hk). lia.
Qed.
Lemma resizableb_ok z h size : resizableb z h size = true -> resizable z h size.
Proof.
  unfold resizableb. intros H. apply orb_true_iff in H. destruct H as [H|H]; [left; lia|]. right. destruct (blocks z) as [|b rest] eqn:Eb; [discriminate|].
  apply orb_true_iff in H. destruct H as [H|H]; [left; exists b, rest; split; [exact Eb|lia]|]. right. apply existsb_exists in H. destruct H as (k & Hk & H). exists k.
  rewrite Eb. split; [exact Hk|]. unfold fits_block. assert (X : base k <= at_ h /\ at_ h < base k + offset k /\ at_ h + size <= base k + blockSize z) by lia. split; [lia|]. split; [lia|]. split; [lia|].
  intros b0 r0 [= <- <-] E F. lia.
Qed.
Lemma client_okb_ok s vs o : client_okb s vs o = true -> client_ok s vs o.
Proof.
  unfold client_okb. destruct o as [size [a|]|i j v|i size [a|]|i|n [a|]]; cbn [client_ok]; intros H; try discriminate H.
  - apply andb_true_iff in H. destruct H as [H1 H2]. unfold fittingb in H1. split; [split; lia|]. split; [discriminate|now apply freshb_ok].
  - destruct (nth_error vs i) as [[w|]|]; try discriminate H. exists w. split; [reflexivity|lia].
  - apply andb_true_iff in H. destruct H as [H H4]. apply andb_true_iff in H. destruct H as [H H3]. apply andb_true_iff in H. destruct H as [H1 H2].
    split; [destruct (nth_error vs i) as [[w|]|]; try discriminate H1; eauto|]. unfold fittingb in H2. split; [split; lia|]. split; [discriminate|]. split; [now apply freshb_ok|].
    intros h Eh. rewrite Eh in H4. now apply resizableb_ok.
  - destruct (nth_error vs i) as [[w|]|]; try discriminate H. eauto.
  - apply andb_true_iff in H. destruct H as [H1 H2]. split; [lia|now apply freshb_ok].
Qed.
Lemma keeps_rules_ok ops : forall s vs, keeps_rules s vs ops = true ->
  reach s vs ops (match fold_left (fun s o => match s with Some s => step s o | None => None end) ops (Some s) with Some s' => s' | None => s end) (fold_left next ops vs).
Proof.
  assert (G : forall ops s vs, keeps_rules s vs ops = true -> exists s', fold_left (fun s o => match s with Some s => step s o | None => None end) ops (Some s) = Some s' /\ reach s vs ops s' (fold_left next ops vs)).
  { clear. induction ops as [|o t IH]; intros s vs H; [exists s; split; [reflexivity|constructor]|]. cbn [keeps_rules] in H. apply andb_true_iff in H. destruct H as [H1 H2].
    destruct (step s o) as [s1|] eqn:E; [|discriminate]. destruct (IH s1 (next vs o) H2) as (s' & F & R). exists s'. cbn [fold_left]. rewrite E. split; [exact F|].
    econstructor; [now apply client_okb_ok|exact E|exact R]. }
  intros s vs H. destruct (G ops s vs H) as (s' & E & R). now rewrite E.
Qed.
