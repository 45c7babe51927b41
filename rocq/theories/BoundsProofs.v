(** Proofs for C72. *)
From Verif Require Import Base Word AlignedModel AlignedProofs BoundsModel BoundsSpec.
Local Open Scope N_scope.

Lemma mark_is m b size x : mark m b size x =
  if (b + 8 <=? x) && (x <? b + 16) then x - (b + 8) else if (b + 16 + size <=? x) && (x <? b + 24 + size) then x - (b + 16 + size) else m x.
Proof.
  unfold mark. cbn [fold_left]. unfold store8.
  destruct (N.leb_spec (b + 8) x), (N.ltb_spec x (b + 16)), (N.leb_spec (b + 16 + size) x), (N.ltb_spec x (b + 24 + size)); cbn [andb]; try lia;
  repeat match goal with |- context [x =? ?a] => destruct (N.eqb_spec x a); try lia end; reflexivity.
Qed.

(** The header and guards of the block at b, for a user's size n *)
Record whole (m : mem) (b n : N) : Prop :=
  { w_size : load64 m b = n + 16;
    w_before : forall i, i < 8 -> m (b + 8 + i) = i;
    w_after : forall i, i < 8 -> m (b + 32 + n + i) = i;
    w_head : load64 m (b + 16) = 5 + 2 ^ 32;
    w_destructor : load64 m (b + 24) = 0 }.

Definition inv (s : state) (v : view) : Prop :=
  exists b, ptr s = b + 32 /\ given b (size s) /\ whole (memory s) b (size s) /\ sees s v.

Lemma whole_ext m m' b n : whole m b n -> (forall x, b <= x < b + 32 \/ b + 32 + n <= x < b + 40 + n -> m' x = m x) -> whole m' b n.
Proof.
  intros [H1 H2 H3 H4 H5] E. split.
  - rewrite <- H1. apply load_ext. intros. apply E. lia.
  - intros i Hi. rewrite E by lia. auto.
  - intros i Hi. rewrite E by lia. auto.
  - rewrite <- H4. apply load_ext. intros. apply E. lia.
  - rewrite <- H5. apply load_ext. intros. apply E. lia.
Qed.

Lemma alloc_inv m n b m' p : given b n -> allocate m n (Some b) = Some (m', p) -> inv (mkState m' p n) (unwritten n).
Proof.
  intros [G1 G2]. unfold allocate. rewrite wadd_id by lia. destruct (N.ltb_spec n (n + 16)); [|lia]. cbn [option_map]. injection 1 as <- <-.
  exists b. cbn [ptr size memory]. split; [reflexivity|]. split; [split; assumption|]. split; [|split; [reflexivity|discriminate]].
  split.
  - erewrite load_ext; [apply load_store; lia|]. intros x Hx. rewrite !store_other by lia. reflexivity.
  - intros i Hi. rewrite !store_other by lia. rewrite mark_is. destruct (N.leb_spec (b + 8) (b + 8 + i)), (N.ltb_spec (b + 8 + i) (b + 16)); cbn [andb]; lia.
  - intros i Hi. rewrite !store_other by lia. rewrite mark_is.
    destruct (N.leb_spec (b + 8) (b + 32 + n + i)), (N.ltb_spec (b + 32 + n + i) (b + 16)), (N.leb_spec (b + 16 + (n + 16)) (b + 32 + n + i)), (N.ltb_spec (b + 32 + n + i) (b + 24 + (n + 16))); cbn [andb]; lia.
  - erewrite load_ext; [apply load_store; reflexivity|]. intros x Hx. rewrite store_other by lia. reflexivity.
  - apply load_store. reflexivity.
Qed.

Lemma write_inv s v d b : inv s v -> (0 <= d < Z.of_N (vsize v))%Z -> exists s', step s (Write d b) = (s', Fine) /\ inv s' (next v (Write d b)).
Proof.
  intros (a & P & G & W & Sz & C) Hd. eexists. split; [reflexivity|]. exists a. cbn [ptr size memory next vsize contents]. split; [exact P|]. split; [exact G|].
  split.
  - eapply whole_ext; [exact W|]. intros x Hx. unfold store8. destruct (N.eqb_spec x (Z.to_N (Z.of_N (ptr s) + d))); [lia|reflexivity].
  - split; [exact Sz|]. intros j x Hj. cbn [memory ptr vsize contents] in *. unfold store8. destruct (Z.eqb_spec (Z.of_N j) d) as [<-|Q].
    + intros [= <-]. destruct (N.eqb_spec (ptr s + j) (Z.to_N (Z.of_N (ptr s) + Z.of_N j))); [reflexivity|lia].
    + intros Cj. destruct (N.eqb_spec (ptr s + j) (Z.to_N (Z.of_N (ptr s) + d))); [lia|]. now apply C.
Qed.

Lemma eight i : In i [0; 1; 2; 3; 4; 5; 6; 7] <-> i < 8.
Proof. cbn [In]. lia. Qed.

Lemma checked_true m b n : load64 m b = n + 16 ->
  (checked m b = true <-> (forall i, i < 8 -> m (b + 8 + i) = i) /\ (forall i, i < 8 -> m (b + 32 + n + i) = i)).
Proof.
  intros E. unfold checked. rewrite E. rewrite forallb_forall. split.
  - intros F. split; intros i Hi; specialize (F i (proj2 (eight i) Hi)); apply andb_true_iff in F; destruct F as [F1 F2]; [now apply N.eqb_eq|].
    apply N.eqb_eq in F2. replace (b + 32 + n + i) with (b + 8 + (8 + (n + 16) + i)) by lia. exact F2.
  - intros [A B] i Hi. apply eight in Hi. apply andb_true_iff. split; apply N.eqb_eq; [now apply A|].
    replace (b + 8 + (8 + (n + 16) + i)) with (b + 32 + n + i) by lia. now apply B.
Qed.

Lemma index_is m p b : p = b + 32 -> load64 m (b + 16) = 5 + 2 ^ 32 -> index m p = 5 /\ ref_count m p = 1.
Proof. intros -> E. unfold index, ref_count. replace (b + 32 - 16) with (b + 16) by lia. rewrite E. split; reflexivity. Qed.

Lemma asked_is n : n + 40 < 2 ^ 64 -> asked n = n + 40.
Proof. intros H. unfold asked. rewrite (wadd_id n 16) by lia. rewrite wadd_id by lia. lia. Qed.

Lemma reallocate_is m p o b n got g : p = b + 32 -> load64 m (b + 16) = 5 + 2 ^ 32 -> n + 40 < 2 ^ 64 ->
  reallocate m p o n got g =
    if checked m b then
      match got with
      | None => (m, None, Fine)
      | Some b' => (store64 (mark (realloc_mem m b (asked o) b' (n + 40) g) b' (n + 16)) b' (n + 16), Some (b' + 32), Fine)
      end
    else (m, None, Alarm).
Proof.
  intros -> H4 Hn. unfold reallocate, block_of. destruct (index_is m _ b eq_refl H4) as [-> _]. 
  replace (2 ^ 31 <=? 5) with false by reflexivity. replace (20 <=? 5) with false by reflexivity. replace (5 =? 5) with true by reflexivity. cbn [negb].
  rewrite wadd_id by lia. destruct (N.ltb_spec n (n + 16)); [|lia]. replace (b + 32 - 32) with b by lia. destruct (checked m b); [|reflexivity]. destruct got as [b'|]; [|reflexivity].
  rewrite (asked_is n Hn). reflexivity.
Qed.

Lemma deallocate_is m p b : p = b + 32 -> load64 m (b + 16) = 5 + 2 ^ 32 -> load64 m (b + 24) = 0 ->
  deallocate m p = if checked m b then (true, Fine) else (false, Alarm).
Proof.
  intros -> H4 H5. unfold deallocate, block_of, destructor. destruct (index_is m _ b eq_refl H4) as [-> ->]. replace (b + 32 - 8) with (b + 24) by lia. rewrite H5. replace (b + 32 - 32) with b by lia. reflexivity.
Qed.

Lemma resize_inv s v n got g : inv s v -> n + 40 < 2 ^ 64 -> (forall b, got = Some b -> given b n) ->
  exists s', step s (Resize n got g) = (s', Fine) /\ inv s' (next v (Resize n got g)).
Proof.
  intros (a & P & G & W & Sz & C) Hn Hg. cbn [step]. rewrite (reallocate_is _ _ _ a) by (try exact (w_head _ _ _ W); assumption).
  assert (Ck : checked (memory s) a = true) by (apply (checked_true _ _ _ (w_size _ _ _ W)); split; [exact (w_before _ _ _ W)|exact (w_after _ _ _ W)]).
  rewrite Ck. destruct got as [b|]; [|eexists; split; [reflexivity|]; exists a; cbn [next ptr size memory]; split; [exact P|]; split; [exact G|]; split; [exact W|]; split; [exact Sz|exact C]].
  specialize (Hg b eq_refl). destruct Hg as [G1 G2]. eexists. split; [reflexivity|]. exists b. cbn [ptr size memory next]. split; [reflexivity|]. split; [split; assumption|].
  assert (A : asked (size s) = size s + 40) by (destruct G; apply asked_is; lia). rewrite A.
  set (m1 := realloc_mem (memory s) a (size s + 40) b (n + 40) g).
  assert (Pre : forall j, j < size s + 40 -> j < n + 40 -> m1 (b + j) = memory s (a + j)).
  { intros j H1 H2. unfold m1. now apply realloc_prefix. }
  assert (Mk : forall j, j < n + 32 -> j < 8 \/ 16 <= j -> mark m1 b (n + 16) (b + j) = m1 (b + j)).
  { intros j H1 H2. rewrite mark_is. destruct (N.leb_spec (b + 8) (b + j)), (N.ltb_spec (b + j) (b + 16)), (N.leb_spec (b + 16 + (n + 16)) (b + j)), (N.ltb_spec (b + j) (b + 24 + (n + 16))); cbn [andb]; lia. }
  split; [split|].
  - apply load_store. lia.
  - intros i Hi. rewrite store_other by lia. rewrite mark_is. destruct (N.leb_spec (b + 8) (b + 8 + i)), (N.ltb_spec (b + 8 + i) (b + 16)); cbn [andb]; lia.
  - intros i Hi. rewrite store_other by lia. rewrite mark_is.
    destruct (N.leb_spec (b + 8) (b + 32 + n + i)), (N.ltb_spec (b + 32 + n + i) (b + 16)), (N.leb_spec (b + 16 + (n + 16)) (b + 32 + n + i)), (N.ltb_spec (b + 32 + n + i) (b + 24 + (n + 16))); cbn [andb]; lia.
  - rewrite <- (w_head _ _ _ W). unfold load64. rewrite !store_other by lia. rewrite <- !N.add_assoc. rewrite !Mk, !Pre by lia. reflexivity.
  - rewrite <- (w_destructor _ _ _ W). unfold load64. rewrite !store_other by lia. rewrite <- !N.add_assoc. rewrite !Mk, !Pre by lia. reflexivity.
  - split; [reflexivity|]. cbn [vsize contents memory ptr]. intros j x Hj. destruct (N.ltb_spec j (vsize v)); [|discriminate]. destruct (N.ltb_spec j n); [|lia]. cbn [andb]. intros Cj.
    rewrite store_other by lia. rewrite <- N.add_assoc. rewrite Mk, Pre by lia. rewrite N.add_assoc, <- P. now apply C.
Qed.

Lemma run_inv ops : forall s v, inv s v -> keeps_to_it v ops -> exists s', run s ops = (s', Fine) /\ inv s' (fold_left next ops v).
Proof.
  induction ops as [|o ops IH]; intros s v I K; [exists s; auto|]. destruct K as [Ko K]. cbn [run fold_left].
  assert (exists s', step s o = (s', Fine) /\ inv s' (next v o)) as (s' & E & I').
  { destruct o as [d b|n got g]; [destruct Ko; now apply write_inv|destruct Ko as (H1 & H2 & _); now apply resize_inv]. }
  rewrite E. now apply IH.
Qed.

Lemma run_writes ws : forall s, exists m, run s (writes ws) = (mkState m (ptr s) (size s), Fine).
Proof.
  induction ws as [|[d b] ws IH]; intros s; [exists (memory s); now destruct s|]. cbn [writes map run step fst snd]. destruct (IH (mkState (store8 (memory s) (Z.to_N (Z.of_N (ptr s) + d)) b) (ptr s) (size s))) as (m & E). now exists m.
Qed.

(** After arbitrary writes that leave the reserved bytes alone, the check finds out whether the guards are as they were. *)
Lemma checked_iff s v m : inv s v -> (forall x, reserved s x -> m x = memory s x) ->
  exists b, ptr s = b + 32 /\ load64 m (b + 16) = 5 + 2 ^ 32 /\ load64 m (b + 24) = 0 /\
    (checked m b = true <-> forall x, guarded s x -> m x = memory s x).
Proof.
  intros (a & P & G & W & Sz & C) R. unfold reserved in R. unfold guarded. rewrite P in *. exists a. split; [reflexivity|].
  split; [rewrite <- (w_head _ _ _ W); apply load_ext; intros; apply R; lia|]. split; [rewrite <- (w_destructor _ _ _ W); apply load_ext; intros; apply R; lia|].
  assert (E : load64 m a = size s + 16) by (rewrite <- (w_size _ _ _ W); apply load_ext; intros; apply R; lia).
  rewrite (checked_true _ _ _ E). split.
  - intros [A B] x [Hx|Hx].
    + replace x with (a + 8 + (x - (a + 8))) by lia. rewrite A by lia. now rewrite (w_before _ _ _ W) by lia.
    + replace x with (a + 32 + size s + (x - (a + 32 + size s))) by lia. rewrite B by lia. now rewrite (w_after _ _ _ W) by lia.
  - intros H. split; intros i Hi; (rewrite H by lia); [now apply (w_before _ _ _ W)|now apply (w_after _ _ _ W)].
Qed.
