(** The array implementation, with its list of stable entries, obeys the laws. *)
From Verif Require Import Base CollectionModel CollectionSpec CollectionLedgerProofs CollectionGenericProofs CollectionFastProofs.
From Verif Require ArrayModel ArrayProofs LinkedListModel LinkedListSpec LinkedListProofs.
From Coq Require Import Permutation.

Section A.
Context {A : Type}.
Implicit Types (l : ledger A) (s : @acoll A).
Local Notation is_list := LinkedListSpec.is_list.
Local Notation seg := LinkedListProofs.seg.
Local Notation hd_or := LinkedListProofs.hd_or.

(** ** Walks over the list of entries *)
Lemma find_entry_ok h index i : forall L p fuel, seg h p L None -> length L <= fuel ->
  find_entry fuel h index (hd_or L None) i =
  Some (match find (fun n => (index n =? i)%Z) L with Some n => n | None => 0 end).
Proof.
  induction L as [|n L IH]; intros p fuel H F; [destruct fuel; reflexivity|].
  destruct fuel as [|fuel]; [cbn in F; lia|]. destruct H as [Hn H]. cbn [find_entry hd_or].
  unfold LinkedListModel.get_next. rewrite Hn. cbn [option_map LinkedListModel.next find].
  destruct (index n =? i)%Z; [reflexivity|].
  assert (Q : (match L with [] => None | b :: _ => Some b end) = hd_or L None) by (destruct L; reflexivity).
  rewrite Q. apply (IH (Some n)); auto. cbn in F; lia.
Qed.

Lemma shift_entries_ok h i d : forall L p fuel index, seg h p L None -> NoDup L -> length L <= fuel ->
  exists index', shift_entries fuel h index (hd_or L None) i d = Some index' /\
    forall b, index' b = if (existsb (Nat.eqb b) L && index_ge (index b) i)%bool then (index b + d)%Z else index b.
Proof.
  induction L as [|n L IH]; intros p fuel index H D F.
  - exists index. split; [destruct fuel; reflexivity|]. reflexivity.
  - destruct fuel as [|fuel]; [cbn in F; lia|]. destruct H as [Hn H]. cbn [shift_entries hd_or].
    unfold LinkedListModel.get_next. rewrite Hn. cbn [option_map LinkedListModel.next].
    assert (Q : (match L with [] => None | b :: _ => Some b end) = hd_or L None) by (destruct L; reflexivity).
    rewrite Q. inversion_clear D as [|? ? Nn D'].
    set (index1 := if index_ge (index n) i then _ else index).
    destruct (IH (Some n) fuel index1 H D') as (index' & E & G); [cbn in F; lia|].
    exists index'. split; [exact E|]. intros b. rewrite G. cbn [existsb].
    destruct (Nat.eqb_spec b n) as [->|N].
    + assert (X : existsb (Nat.eqb n) L = false).
      { apply not_true_is_false. rewrite existsb_exists. intros (y & Hy & Y). apply Nat.eqb_eq in Y. subst. contradiction. }
      rewrite X. cbn [orb andb]. unfold index1. destruct (index_ge (index n) i); [|reflexivity]. now rewrite Nat.eqb_refl.
    + cbn [orb]. assert (X : index1 b = index b).
      { unfold index1. destruct (index_ge (index n) i); [|reflexivity]. destruct (Nat.eqb_spec b n); [contradiction|reflexivity]. }
      now rewrite X.
Qed.

(** The entries [es], in the order of their elements; entry number [j] has index [f j]. *)
Definition table s (es : list entry) (f : nat -> Z) : Prop :=
  NoDup es /\ (forall e, In e es -> 0 < e < a_fresh s) /\ 0 < a_fresh s /\
  (forall j e, nth_error es j = Some e -> a_index s e = f j) /\
  exists L : list nat, is_list (a_heap s) L /\ Permutation L es /\ a_entries s = hd_or L None.

Lemma bounded_length (L : list nat) n : NoDup L -> (forall e, In e L -> 0 < e < n) -> length L < n \/ L = [].
Proof.
  intros D B. destruct n as [|n].
  - right. destruct L as [|e L]; auto. destruct (B e (or_introl eq_refl)). lia.
  - left. assert (length L <= length (seq 1 n)) as Q.
    { apply NoDup_incl_length; auto. intros e He. rewrite in_seq. destruct (B e He). lia. }
    rewrite seq_length in Q. lia.
Qed.

Lemma table_length s es f : table s es f -> forall L, Permutation L es -> length L < a_fresh s.
Proof.
  intros (D & B & P & _) L HL. rewrite (Permutation_length HL).
  destruct (bounded_length es (a_fresh s) D B) as [H| ->]; auto.
Qed.

Lemma find_index (index : nat -> Z) i : forall L e, In e L -> index e = i -> (forall e', In e' L -> index e' = i -> e' = e) ->
  find (fun n => (index n =? i)%Z) L = Some e.
Proof.
  induction L as [|n L IH]; intros e H E U; [destruct H|]. cbn. destruct (Z.eqb_spec (index n) i) as [Q|Q].
  - f_equal. apply U; auto. now left.
  - destruct H as [->|H]; [contradiction|]. apply IH; auto. intros e' H'. apply U. now right.
Qed.

Lemma Some_inj_nat (a b : nat) : Some a = Some b -> a = b.
Proof. now injection 1. Qed.

Lemma table_find s es f j e : table s es f -> (forall a b, f a = f b -> a = b) -> nth_error es j = Some e ->
  find_entry (a_fresh s) (a_heap s) (a_index s) (a_entries s) (f j) = Some e.
Proof.
  intros T Inj H. pose proof (table_length s es f T) as Len. destruct T as (D & B & P & X & L & HL & PL & EL).
  apply LinkedListProofs.is_list_seg in HL as [DL SL]. rewrite EL.
  rewrite (find_entry_ok _ _ _ L None) by (first [exact SL | exact (Nat.lt_le_incl _ _ (Len L PL))]).
  rewrite (find_index (a_index s) (f j) L e); auto.
  - apply (Permutation_in _ (Permutation_sym PL)). eapply nth_error_In, H.
  - intros e' He' Q. apply (Permutation_in _ PL) in He'. destruct (In_nth_error _ _ He') as [k Hk].
    rewrite (X k e' Hk) in Q. apply Inj in Q. rewrite Q in Hk. apply Some_inj_nat. exact (eq_trans (eq_sym Hk) H).
Qed.

Lemma table_find_none s es f i : table s es f -> (forall j, j < length es -> f j <> i) ->
  find_entry (a_fresh s) (a_heap s) (a_index s) (a_entries s) i = Some 0.
Proof.
  intros T N. pose proof (table_length s es f T) as Len. destruct T as (D & B & P & X & L & HL & PL & EL).
  apply LinkedListProofs.is_list_seg in HL as [DL SL]. rewrite EL.
  rewrite (find_entry_ok _ _ _ L None) by (first [exact SL | exact (Nat.lt_le_incl _ _ (Len L PL))]).
  destruct (find _ L) as [n|] eqn:E; auto. apply find_some in E as [He E]. apply Z.eqb_eq in E.
  apply (Permutation_in _ PL) in He. destruct (In_nth_error _ _ He) as [k Hk]. rewrite (X k n Hk) in E.
  exfalso. apply (N k); auto. eapply nth_error_Some_lt, Hk.
Qed.

Lemma found s es f j e ok : table s es f -> (forall a b, f a = f b -> a = b) -> nth_error es j = Some e ->
  index_to_entry s (f j) ok = Some (s, e).
Proof.
  intros T Inj H. unfold index_to_entry. rewrite (table_find s es f j e T Inj H).
  destruct T as (_ & B & _). destruct (B e (nth_error_In _ _ H)). destruct (Nat.eqb_spec e 0); [lia|]. reflexivity.
Qed.

(** A new entry goes to the front of the list. *)
Lemma insert_front h (L : list nat) n fuel : is_list h L -> ~ In n L ->
  match hd_or L None with
  | Some x => exists h', LinkedListModel.insert fuel (LinkedListModel.hset h n (Some (LinkedListModel.mkNode None None))) x n = Some (h', n) /\ is_list h' (n :: L)
  | None => is_list (LinkedListModel.hset h n (Some (LinkedListModel.mkNode None None))) [n]
  end.
Proof.
  intros HL Hn. apply LinkedListProofs.is_list_seg in HL as [D S]. destruct L as [|x L]; cbn [hd_or LinkedListProofs.hd_or].
  - apply LinkedListProofs.is_list_seg. split; [repeat constructor; auto|]. cbn. split; auto. apply LinkedListProofs.hset_eq.
  - set (h1 := LinkedListModel.hset h n _).
    assert (Hx : h1 x = Some (LinkedListModel.mkNode (hd_or L None) None)).
    { unfold h1. rewrite LinkedListProofs.hset_ne by (intros ->; apply Hn; now left). apply (LinkedListProofs.seg_node h None [] x L None). exact S. }
    assert (Hnn : h1 n = Some (LinkedListModel.mkNode None None)) by apply LinkedListProofs.hset_eq.
    assert (S1 : seg h1 None (x :: L) None).
    { apply (LinkedListProofs.seg_frame h); auto. intros a Ha. apply LinkedListProofs.hset_ne. intros ->. contradiction. }
    destruct (LinkedListProofs.join_prev_next h1 [] n x L None None None None) as (h2 & h3 & E2 & E3 & S3 & _).
    + cbn. auto.
    + exact S1.
    + cbn. constructor; auto.
    + exists h3. split.
      * unfold LinkedListModel.insert, LinkedListModel.get_prev, LinkedListModel.get_next. rewrite Hx, Hnn. cbn. now rewrite E2, E3.
      * apply LinkedListProofs.is_list_seg. split; [constructor; auto|exact S3].
Qed.

Definition gap (i : nat) (j : nat) : Z := if j <? i then Z.of_nat j else Z.of_nat (j + 1).

Lemma nth_insert1 {B} (l : list B) i x j : i <= length l ->
  nth_error (insert_at l i [x]) j = if j <? i then nth_error l j else if j =? i then Some x else nth_error l (j - 1).
Proof.
  intros H. rewrite (ArrayProofs.nth_error_insert_at l i [x] j) by auto. cbn [length].
  destruct (Nat.ltb_spec j i); auto. destruct (Nat.ltb_spec j (i + 1)), (Nat.eqb_spec j i); try lia; auto.
  replace (j - i) with 0 by lia. reflexivity.
Qed.

Lemma created s es i : table s es (gap i) -> i <= length es ->
  exists s', index_to_entry s (Z.of_nat i) true = Some (s', a_fresh s) /\ a_array s' = a_array s /\
    0 < a_fresh s /\ table s' (insert_at es i [a_fresh s]) Z.of_nat.
Proof.
  intros T Hi. unfold index_to_entry. rewrite (table_find_none s es (gap i) (Z.of_nat i) T).
  2: { intros j _. unfold gap. destruct (Nat.ltb_spec j i); lia. }
  cbn [Nat.eqb negb]. destruct T as (D & B & P & X & L & HL & PL & EL).
  set (n := a_fresh s) in *.
  assert (Nn : ~ In n es) by (intros H; destruct (B n H); lia).
  assert (NL : ~ In n L) by (intros H; apply Nn; now apply (Permutation_in _ PL)).
  set (index := fun b => if b =? n then Z.of_nat i else a_index s b).
  assert (Perm : Permutation (n :: L) (insert_at es i [n])).
  { unfold insert_at. rewrite PL. rewrite <- (firstn_skipn i es) at 1. change ([n] ++ skipn i es) with (n :: skipn i es). apply Permutation_middle. }
  assert (G : forall h' ents, is_list h' (n :: L) -> ents = Some n ->
    table (mkAcoll (a_array s) ents h' index (n + 1)) (insert_at es i [n]) Z.of_nat).
  { intros h' ents Hl ->. split; [|split; [|split; [|split]]].
    - apply (Permutation_NoDup Perm). apply Hl.
    - intros e He. apply (Permutation_in _ (Permutation_sym Perm)) in He. cbn [a_fresh].
      destruct He as [<-|He]; [lia|]. apply (Permutation_in _ PL) in He. destruct (B e He). lia.
    - cbn. lia.
    - intros j e. rewrite nth_insert1 by auto. cbn [a_index]. unfold index.
      assert (Old : forall k, nth_error es k = Some e -> (e =? n) = false /\ a_index s e = gap i k).
      { intros k Hk. split; [|auto]. apply Nat.eqb_neq. intros ->. apply Nn. eapply nth_error_In, Hk. }
      destruct (Nat.ltb_spec j i).
      + intros H'. destruct (Old j H') as [-> ->]. unfold gap. destruct (Nat.ltb_spec j i); [reflexivity|lia].
      + destruct (Nat.eqb_spec j i) as [->|].
        * intros [= <-]. now rewrite Nat.eqb_refl.
        * intros H'. destruct (Old _ H') as [-> ->]. unfold gap. destruct (Nat.ltb_spec (j - 1) i); lia.
    - exists (n :: L). split; [exact Hl|]. split; [exact Perm|reflexivity]. }
  pose proof (insert_front (a_heap s) L n (n + 1) HL NL) as F. rewrite <- EL in F.
  destruct (a_entries s) as [x|].
  - destruct F as (h' & E & Hl). rewrite E. eexists. split; [reflexivity|]. split; [reflexivity|]. split; [exact P|]. now apply G.
  - eexists. split; [reflexivity|]. split; [reflexivity|]. split; [exact P|]. apply G; auto.
    destruct L; [exact F|discriminate].
Qed.

Lemma gap_end s es : table s es Z.of_nat -> table s es (gap (length es)).
Proof.
  intros (D & B & P & X & Y). split; [exact D|]. split; [exact B|]. split; [exact P|]. split; [|exact Y].
  intros j e H. rewrite (X j e H). unfold gap. pose proof (nth_error_Some_lt _ _ _ H). destruct (Nat.ltb_spec j (length es)); lia.
Qed.

Lemma in_existsb n L : In n L -> existsb (Nat.eqb n) L = true.
Proof. intros H. apply existsb_exists. exists n. split; auto. apply Nat.eqb_refl. Qed.

Lemma shift_up s es i : table s es Z.of_nat -> exists index, shift_entries (a_fresh s) (a_heap s) (a_index s) (a_entries s) (Z.of_nat i) 1 = Some index /\
  forall a, table (mkAcoll a (a_entries s) (a_heap s) index (a_fresh s)) es (gap i).
Proof.
  intros T. pose proof (table_length s es _ T) as Len. destruct T as (D & B & P & X & L & HL & PL & EL).
  pose proof HL as HL'. apply LinkedListProofs.is_list_seg in HL' as [DL SL].
  destruct (shift_entries_ok (a_heap s) (Z.of_nat i) 1 L None (a_fresh s) (a_index s) SL DL) as (index & E & G).
  { exact (Nat.lt_le_incl _ _ (Len L PL)). }
  exists index. rewrite EL at 1. split; [exact E|]. intros a.
  split; [exact D|]. split; [exact B|]. split; [exact P|]. split.
  - intros j e H. cbn [a_index]. rewrite G. rewrite in_existsb.
    2: { apply (Permutation_in _ (Permutation_sym PL)). eapply nth_error_In, H. }
    rewrite (X j e H). cbn [andb]. unfold index_ge, gap. destruct (Z.ltb_spec (Z.of_nat j) 0); [lia|].
    destruct (Z.leb_spec 0 (Z.of_nat i)); [|lia]. cbn [andb].
    destruct (Z.leb_spec (Z.of_nat i) (Z.of_nat j)), (Nat.ltb_spec j i); lia.
  - exists L. auto.
Qed.

Lemma nth_remove1 {B} (l : list B) i j : nth_error (remove_at l i 1) j = if j <? i then nth_error l j else nth_error l (j + 1).
Proof.
  destruct (Nat.ltb_spec j i) as [H|H].
  - unfold remove_at. destruct (Nat.le_gt_cases i (length l)) as [Q|Q].
    + rewrite nth_error_app1 by (rewrite firstn_length; lia). rewrite nth_error_firstn. destruct (Nat.ltb_spec j i); [auto|lia].
    + rewrite firstn_all2, skipn_all2, app_nil_r by lia. reflexivity.
  - unfold remove_at. destruct (Nat.le_gt_cases i (length l)) as [Q|Q].
    + rewrite nth_error_app2 by (rewrite firstn_length; lia). rewrite nth_error_skipn. f_equal. rewrite firstn_length. lia.
    + rewrite firstn_all2, skipn_all2, app_nil_r by lia.
      rewrite (proj2 (nth_error_None l j)) by lia. symmetry. apply nth_error_None. lia.
Qed.

Lemma remove_at_perm {B} (l : list B) i x : nth_error l i = Some x -> Permutation l (x :: remove_at l i 1).
Proof.
  intros H. destruct (nth_error_split l i H) as (l1 & l2 & -> & E). unfold remove_at. subst i.
  rewrite firstn_app, Nat.sub_diag, firstn_all. cbn [firstn]. rewrite app_nil_r, skipn_app, skipn_all2 by lia.
  replace (length l1 + 1 - length l1) with 1 by lia. cbn. symmetry. apply Permutation_middle.
Qed.

Lemma last_or_some {T} : forall K b (x y : T), match LinkedListProofs.last_or K (Some b) with None => x | Some _ => y end = y.
Proof. induction K as [|c K IH]; intros b x y; cbn; auto. Qed.

Lemma remove_entry_ok s es i e : table s es Z.of_nat -> nth_error es i = Some e ->
  exists s', remove_entry s e = Some s' /\ a_array s' = a_array s /\ table s' (remove_at es i 1) Z.of_nat.
Proof.
  intros T Hi. pose proof (table_length s es _ T) as Len. destruct T as (D & B & P & X & L & HL & PL & EL).
  assert (He : In e es) by (eapply nth_error_In, Hi). destruct (B e He) as [Pe Fe].
  assert (HeL : In e L) by (apply (Permutation_in _ (Permutation_sym PL)); auto).
  apply in_split in HeL as (L1 & L2 & EQ). rewrite EQ in HL.
  destruct (LinkedListProofs.remove_node_ok (a_heap s) L1 e L2 HL) as (h1 & E1 & R1 & R2 & U).
  pose proof HL as HL'. apply LinkedListProofs.is_list_seg in HL' as [DL SL].
  pose proof (LinkedListProofs.seg_node _ _ _ _ _ _ SL) as Hn.
  unfold remove_entry. destruct (Nat.eqb_spec e 0); [lia|]. rewrite Hn. cbn [LinkedListModel.prev LinkedListModel.next].
  assert (Eh : (match LinkedListProofs.last_or L1 None with None => hd_or L2 None | Some _ => a_entries s end) = hd_or (L1 ++ L2) None).
  { rewrite EL, EQ. destruct L1 as [|b L1]; [reflexivity|].
    exact (last_or_some L1 b (hd_or L2 None) (Some b)). }
  rewrite Eh. unfold LinkedListModel.destroy_node. rewrite E1.
  destruct R2 as [_ R2]. pose proof (R2 0 e eq_refl) as He1. unfold LinkedListModel.free_node. rewrite He1.
  set (h2 := LinkedListModel.hset h1 e None).
  assert (Ne : ~ In e (L1 ++ L2)) by (apply NoDup_remove_2; exact DL).
  assert (R3 : is_list h2 (L1 ++ L2)).
  { apply (LinkedListProofs.is_list_frame h1); auto. intros a Ha. apply LinkedListProofs.hset_ne. intros ->. contradiction. }
  pose proof R3 as R3'. apply LinkedListProofs.is_list_seg in R3' as [D3 S3].
  assert (P3 : Permutation (L1 ++ L2) (remove_at es i 1)).
  { apply (Permutation_cons_inv (a := e)). rewrite <- (remove_at_perm es i e Hi), <- PL, EQ. apply Permutation_middle. }
  destruct (shift_entries_ok h2 (a_index s e) (-1) (L1 ++ L2) None (a_fresh s) (a_index s) S3 D3) as (index & E & G).
  { pose proof (Len L PL) as Q. rewrite EQ, app_length in Q. cbn in Q. rewrite app_length. lia. }
  rewrite E. eexists. split; [reflexivity|]. split; [reflexivity|].
  split; [apply (Permutation_NoDup P3); exact D3|]. split; [|split; [exact P|split]].
  - intros b Hb. cbn [a_fresh]. apply B. apply (Permutation_in _ (Permutation_sym (remove_at_perm es i e Hi))). now right.
  - intros j b Hb. cbn [a_index]. rewrite G. rewrite in_existsb.
    2: { apply (Permutation_in _ (Permutation_sym P3)). eapply nth_error_In, Hb. }
    rewrite nth_remove1 in Hb. rewrite (X i e Hi). unfold index_ge. cbn [andb].
    destruct (Nat.ltb_spec j i).
    + rewrite (X j b Hb). destruct (Z.ltb_spec (Z.of_nat j) 0); [lia|]. destruct (Z.leb_spec 0 (Z.of_nat i)); [|lia].
      destruct (Z.leb_spec (Z.of_nat i) (Z.of_nat j)); cbn [andb]; lia.
    + rewrite (X _ b Hb). destruct (Z.ltb_spec (Z.of_nat (j + 1)) 0); [lia|]. destruct (Z.leb_spec 0 (Z.of_nat i)); [|lia].
      destruct (Z.leb_spec (Z.of_nat i) (Z.of_nat (j + 1))); cbn [andb]; lia.
  - exists (L1 ++ L2). split; [exact R3|]. split; [exact P3|reflexivity].
Qed.

(** ** The laws *)
Definition array_rep s l : Prop := holds (a_array s) (elements l) /\ table s (entries l) Z.of_nat.

Lemma of_nat_inj : forall a b, Z.of_nat a = Z.of_nat b -> a = b.
Proof. lia. Qed.

Lemma array_wf s l : array_rep s l -> well_formed ArrayBacked l.
Proof.
  intros (_ & D & B & _). split; [exact D|]. split; [|discriminate]. intros H. destruct (B 0 H). lia.
Qed.

Lemma with_array_table s a es f : table s es f -> table (with_array s a) es f.
Proof. auto. Qed.

Lemma array_inserted s s' l i x al e :
  holds (a_array s') (insert_at (elements l) i [x]) -> table s' (insert_at (entries l) i [e]) Z.of_nat -> e <> 0 -> i <= length l ->
  inserted ArrayBacked array_rep l i x al (Some (s', e)).
Proof.
  intros H T N Hi. exists s', e. split; [reflexivity|]. left. split; [exact N|]. cbn [renew]. rewrite fill_insert. split.
  - split; [unfold elements; now rewrite map_insert_at|unfold entries; now rewrite map_insert_at].
  - unfold entries. rewrite map_insert_at. cbn [map fst]. rewrite nth_insert1 by (now rewrite map_length).
    destruct (Nat.ltb_spec i i); [lia|]. now rewrite Nat.eqb_refl.
Qed.

Lemma array_append_ok s l x al : array_rep s l -> good al = true -> inserted ArrayBacked array_rep l (length l) x al (array_insert s x al).
Proof.
  intros [H T] G. apply andb_true_iff in G as [G1 G2]. unfold array_insert. rewrite G1, G2.
  destruct (arr_append_ok (a_array s) (elements l) x true H) as (a' & j & E & [[-> H']|(Q & _)]); [|discriminate]. rewrite E.
  assert (LE : length (elements l) = length l) by apply map_length.
  assert (LN : length (entries l) = length l) by apply map_length.
  destruct (created (with_array s a') (entries l) (length l)) as (s' & E' & EA & P & T').
  { rewrite <- LN. apply gap_end. now apply with_array_table. }
  { lia. }
  rewrite LE, E'. apply array_inserted; auto; [|cbn [with_array a_fresh] in *; lia].
  rewrite EA. cbn [with_array a_array]. rewrite <- LE, insert_at_end. exact H'.
Qed.

Lemma array_insert_at_ok s l x i al : array_rep s l -> good al = true -> i <= length l ->
  inserted ArrayBacked array_rep l i x al (array_insert_at s x i al).
Proof.
  intros [H T] G Hi. apply andb_true_iff in G as [G1 G2]. unfold array_insert_at. rewrite G1, G2.
  assert (LE : length (elements l) = length l) by apply map_length.
  assert (LN : length (entries l) = length l) by apply map_length.
  assert (Q : exists a', (if i =? ArrayModel.count (a_array s) then arr_append (a_array s) x true else arr_insert (a_array s) i x true) = Some (a', Z.of_nat i)
                /\ holds a' (insert_at (elements l) i [x])).
  { rewrite (holds_count _ _ H), LE. destruct (Nat.eqb_spec i (length l)) as [->|N].
    - destruct (arr_append_ok (a_array s) (elements l) x true H) as (a' & j & E & [[-> H']|(Q & _)]); [|discriminate].
      exists a'. rewrite LE in E. split; auto. rewrite <- LE, insert_at_end. exact H'.
    - destruct (arr_insert_ok (a_array s) (elements l) i x true H) as (a' & j & E & [[-> H']|(Q & _)]); [lia| |discriminate]. eauto. }
  destruct Q as (a' & -> & H').
  destruct (shift_up s (entries l) i T) as (index & -> & T').
  destruct (created _ (entries l) i (T' a')) as (s' & E' & EA & P & T''); [lia|].
  cbn [a_fresh] in *. rewrite E'. apply array_inserted; auto; [|lia]. rewrite EA. exact H'.
Qed.

Lemma entry_index s l i e : array_rep s l -> nth_error (entries l) i = Some e -> entry_to_index s e = Some (Z.of_nat i).
Proof.
  intros (_ & D & B & _ & X & L & HL & PL & _) H. assert (He : In e (entries l)) by (eapply nth_error_In, H).
  destruct (B e He). unfold entry_to_index. destruct (Nat.eqb_spec e 0); [lia|]. rewrite <- (X i e H).
  apply (Permutation_in _ (Permutation_sym PL)) in He. destruct (In_nth_error _ _ He) as [k Hk].
  now rewrite (proj2 HL k e Hk).
Qed.

Lemma array_removed s l i e a' : array_rep s l -> nth_error (entries l) i = Some e -> holds a' (remove_at (elements l) i 1) ->
  exists s', remove_entry (with_array s a') e = Some s' /\ array_rep s' (remove_at l i 1).
Proof.
  intros [H T] He H'. destruct (remove_entry_ok (with_array s a') (entries l) i e (with_array_table _ _ _ _ T) He) as (s' & E & EA & T').
  exists s'. split; auto. split.
  - rewrite EA. unfold elements. rewrite map_remove_at. exact H'.
  - unfold entries. rewrite map_remove_at. exact T'.
Qed.

Lemma array_laws : laws ArrayBacked array_interface array_rep.
Proof.
  assert (LE : forall l, length (elements l) = length l) by (intros; apply map_length).
  constructor.
  - exact array_wf.
  - intros s l [H _]. cbn. now rewrite (holds_count _ _ H).
  - intros s l x al R G. now apply array_append_ok; auto.
  - intros s l x i al R G. now apply array_insert_at_ok; auto.
  - discriminate.
  - reflexivity.
  - intros s l e R He. pose proof (array_wf s l R) as (D & _). destruct (In_nth_error _ _ He) as [i Hi].
    cbn [i_remove array_interface]. unfold array_remove. rewrite (entry_index s l i e R Hi).
    destruct (arr_remove_ok (a_array s) (elements l) i (proj1 R)) as (a' & -> & H').
    { pose proof (nth_error_Some_lt _ _ _ Hi) as Q. unfold entries in Q. rewrite map_length in Q. now rewrite LE. }
    destruct (array_removed s l i e a' R Hi H') as (s' & E & R'). exists s'. split; auto.
    cbn [renew]. rewrite fill_keep, (without_at l i e D Hi). exact R'.
  - intros s l e x R H. pose proof (array_wf s l R) as (D & _).
    assert (He : In e (entries l)) by (pose proof (lookup_in l e x H) as Q; now apply (in_map fst) in Q).
    destruct (In_nth_error _ _ He) as [i Hi]. cbn [i_element array_interface]. unfold array_element. rewrite (entry_index s l i e R Hi).
    apply (arr_get_ok _ (elements l) i x (proj1 R)). now rewrite <- (nth_lookup l i e D Hi).
  - intros s l e0 R. exact (batch_head _ l (proj1 R) e0).
  - intros s l e0 R. exact (batch_tail _ l (proj1 R) e0).
  - intros s l i R. exact (batch_current _ l (proj1 R) i).
  - intros s l i R. exact (batch_next _ l (proj1 R) i).
  - intros s l i R. exact (batch_prev _ l (proj1 R) i).
  - intros s l i e R H. cbn [i_enumerator_entry array_interface at_pos array_enumerator_entry].
    exact (found s (entries l) Z.of_nat i e true (proj2 R) of_nat_inj H).
  - intros s l R. cbn [i_destroy array_interface]. unfold array_destroy.
    pose proof (table_length s (entries l) _ (proj2 R)) as Len. destruct R as (_ & D & B & P & X & L & HL & PL & EL). rewrite EL.
    destruct L as [|n L]; cbn [LinkedListProofs.hd_or]; [eauto|].
    destruct (LinkedListProofs.destroy_ok L (a_heap s) [] n (a_fresh s) HL) as (h' & Q & _).
    { exact (Nat.lt_le_incl _ _ (Len _ PL)). }
    setoid_rewrite Q. eauto.
  - discriminate.
  - discriminate.
  - intros s l i e R H. exact (found s (entries l) Z.of_nat i e true (proj2 R) of_nat_inj H).
  - intros s l i e R H. exact (entry_index s l i e R H).
  - cbn [o_replace array_interface]. intros s l x i R Hi. unfold array_replace.
    destruct (arr_replace_ok (a_array s) (elements l) i x (proj1 R)) as (a' & -> & H'); [now rewrite LE|].
    destruct (nth_entries l i Hi) as (e & y & Ey & En & _).
    rewrite (found (with_array s a') (entries l) Z.of_nat i e true (with_array_table _ _ _ _ (proj2 R)) of_nat_inj En).
    exists (with_array s a'), e. split; [reflexivity|].
    pose proof (array_wf s l R) as (D & Z & _).
    assert (N : e <> 0) by (intros ->; apply Z; eapply nth_error_In, En). split; [exact N|].
    cbn [renew]. rewrite fill_upd by auto.
    assert (Q : entries (upd l i (e, x)) = entries l).
    { unfold entries. rewrite map_upd. cbn [fst]. clear - En. unfold entries in En. revert i En.
      induction (map fst l) as [|b t IH]; intros [|i] En; cbn in *; try discriminate; [now injection En as ->|]. f_equal. auto. }
    split; [split|].
    + cbn [with_array a_array]. unfold elements. rewrite map_upd. exact H'.
    + rewrite Q. apply with_array_table, R.
    + now rewrite Q.
  - intros f Hf. injection Hf as <-. intros s l i R Hi. unfold array_remove_at.
    destruct (arr_remove_ok (a_array s) (elements l) i (proj1 R)) as (a' & -> & H'); [now rewrite LE|].
    destruct (nth_entries l i Hi) as (e & y & Ey & En & _). unfold remove_entry_for_index.
    rewrite (table_find (with_array s a') (entries l) Z.of_nat i e (with_array_table _ _ _ _ (proj2 R)) of_nat_inj En).
    destruct (array_removed s l i e a' R En H') as (s' & E & R'). exists s'. split; auto.
    cbn [renew]. now rewrite fill_keep.
  - intros f Hf. injection Hf as <-. intros s l i R Hi. destruct (nth_entries l i Hi) as (e & x & _ & _ & Ex).
    rewrite Ex. now apply (arr_get_ok _ (elements l)); [apply R|].
  - discriminate.
  - discriminate.
Qed.

Lemma array_create_rep chunk ok : 0 < chunk -> array_rep (array_create chunk ok) [].
Proof.
  intros H. split; [now apply ArrayProofs.rep_create|].
  split; [constructor|]. split; [intros e []|]. split; [cbn; lia|]. split.
  - intros [|j] e Q; discriminate.
  - exists []. split; [split; [constructor|intros [|j] e Q; discriminate]|]. split; [constructor|reflexivity].
Qed.

End A.
