(** Proofs for the enumerables. *)
From Verif Require Import Base LinkedListModel LinkedListSpec QueueModel EnumerableModel EnumerableSpec MemoryProofs.
From Verif Require ListModel ListSpec ListProofs ArrayModel ArrayProofs.

(** ** Generic *)
Section Generic.
Context {St : Type} (step : St -> action -> option (St * result)) (xs : list N) (R : St -> cursor -> Prop).
Hypothesis sim : forall s c a, R s c -> client_ok xs c a -> exists s', step s a = Some (s', value xs (move xs c a)) /\ R s' (move xs c a).

Lemma sim_history acts : forall s c, R s c -> history_ok step xs s c acts.
Proof. induction acts as [|a t IH]; intros s c H; cbn [history_ok]; [exact I|]. intros C. destruct (sim s c a H C) as (s' & E & H'). eauto. Qed.

Lemma sim_enumerates s : R s (first xs) -> enumerates step xs s.
Proof. intros H acts. now apply sim_history. Qed.
End Generic.

Section Loop.
Context {St : Type} (step : St -> action -> option (St * result)) (xs : list N).

Lemma value_some c x : value xs c = Some x -> exists i, c = Some i /\ nth_error xs i = Some x.
Proof. destruct c as [i|]; cbn; [eauto|discriminate]. Qed.

Lemma visit_next : forall fuel s i, length xs - i <= fuel -> i < length xs ->
  history_ok step xs s (Some i) (repeat Next fuel) -> visit step fuel s Next (nth_error xs i) = Some (skipn i xs).
Proof.
  induction fuel as [|fuel IH]; intros s i Hf Hi H; [lia|].
  destruct (nth_error_lt_Some xs i Hi) as [x Hx]. rewrite Hx. cbn [visit]. cbn [repeat history_ok] in H.
  destruct (H I) as (s' & E & H'). rewrite E. cbn [move value] in *.
  assert (Sk : skipn i xs = x :: skipn (S i) xs).
  { clear - Hx. revert i Hx. induction xs as [|y l IH]; intros [|i] Hx; cbn in *; try discriminate; [now injection Hx as ->|auto]. }
  rewrite Sk. destruct (Nat.ltb_spec (S i) (length xs)).
  - cbn [value]. rewrite IH; auto. lia.
  - destruct fuel; cbn [value visit]; rewrite skipn_all2 by lia; reflexivity.
Qed.

Lemma visit_previous : forall fuel s i, i < fuel -> i < length xs ->
  history_ok step xs s (Some i) (repeat Previous fuel) -> visit step fuel s Previous (nth_error xs i) = Some (rev (firstn (S i) xs)).
Proof.
  induction fuel as [|fuel IH]; intros s i Hf Hi H; [lia|].
  destruct (nth_error_lt_Some xs i Hi) as [x Hx]. rewrite Hx. cbn [visit]. cbn [repeat history_ok] in H.
  destruct (H I) as (s' & E & H'). rewrite E.
  assert (Fk : firstn (S i) xs = firstn i xs ++ [x]).
  { clear - Hx. revert i Hx. induction xs as [|y l IH]; intros [|i] Hx; cbn in *; try discriminate; [now injection Hx as ->|]. f_equal. now apply IH. }
  rewrite Fk, rev_app_distr. cbn [rev app]. cbn [move] in *. destruct i as [|i].
  - destruct fuel; reflexivity.
  - cbn [value]. rewrite IH; auto; lia.
Qed.

Lemma enumerates_loops s fuel : enumerates step xs s -> length xs <= fuel ->
  loop step fuel s Current Next = Some xs /\ loop step fuel s Head Next = Some xs /\ loop step fuel s Tail Previous = Some (rev xs).
Proof.
  intros H Hf. unfold loop.
  assert (F : value xs (first xs) = nth_error xs 0).
  { unfold first. destruct xs; reflexivity. }
  repeat split.
  - specialize (H (Current :: repeat Next fuel)). cbn [history_ok] in H. destruct H as (s' & E & H').
    { unfold first. destruct xs; cbn; auto. }
    rewrite E. cbn [move] in *. rewrite F in *. unfold first in *. destruct (Nat.eqb_spec (length xs) 0).
    + destruct xs; [|discriminate]. destruct fuel; reflexivity.
    + rewrite visit_next; auto; lia.
  - specialize (H (Head :: repeat Next fuel)). cbn [history_ok] in H. destruct H as (s' & E & H').
    { unfold first. destruct xs; cbn; auto. }
    rewrite E. cbn [move] in *. rewrite F in *. unfold first in *. destruct (Nat.eqb_spec (length xs) 0).
    + destruct xs; [|discriminate]. destruct fuel; reflexivity.
    + rewrite visit_next; auto; lia.
  - specialize (H (Tail :: repeat Previous fuel)). cbn [history_ok] in H. destruct H as (s' & E & H').
    { unfold first. destruct xs; cbn; auto. }
    rewrite E. cbn [move] in *. destruct (Nat.eqb_spec (length xs) 0).
    + destruct xs; [|discriminate]. destruct fuel; reflexivity.
    + cbn [value]. rewrite visit_previous; auto; try lia. rewrite firstn_all2 by lia. reflexivity.
Qed.
End Loop.

(** ** Batches *)
Lemma addresses_length base size n : length (addresses base size n) = n.
Proof. unfold addresses. now rewrite map_length, seq_length. Qed.

Lemma addresses_nth base size n i : i < n -> nth_error (addresses base size n) i = Some (base + N.of_nat i * size)%N.
Proof.
  intros H. unfold addresses. rewrite (map_nth_error (fun k => (base + N.of_nat k * size)%N) i (seq 0 n) (d := i)); [reflexivity|]. rewrite (nth_error_nth' _ 0) by (now rewrite seq_length). now rewrite seq_nth.
Qed.

Definition batch_rel (base size : N) (n : nat) (b : batch) (c : cursor) : Prop :=
  b_ptr b = base /\ b_count b = n /\ b_stride b = size /\ match c with Some i => b_index b = i /\ i < n | None => True end.

Lemma batch_sim base size n s c a : batch_rel base size n s c -> client_ok (addresses base size n) c a ->
  exists s', batch_step batch_handler s a = Some (s', value (addresses base size n) (move (addresses base size n) c a)) /\
             batch_rel base size n s' (move (addresses base size n) c a).
Proof.
  intros (E1 & E2 & E3 & E4) C. unfold batch_rel.
  assert (B : forall i, i < n -> b_at s i = nth_error (addresses base size n) i).
  { intros i Hi. unfold b_at. now rewrite addresses_nth, E1, E3. }
  destruct a; cbn [batch_step batch_handler move]; rewrite ?addresses_length, ?E2; cbn [b_ptr b_count b_stride b_index b_set].
  - exists s. split; [|repeat split; eauto]. destruct c as [i|]; cbn [value].
    + destruct E4 as [-> Hi]. destruct (Nat.eqb_spec n 0); [lia|]. now rewrite B.
    + cbn in C. assert (length (addresses base size n) = 0) as L by (now rewrite C). rewrite addresses_length in L. now rewrite L.
  - exists (b_set s 0). split; [|repeat split; eauto]; unfold first; rewrite addresses_length; destruct (Nat.eqb_spec n 0); cbn [value]; auto.
    + rewrite addresses_nth, E1 by lia. change (N.of_nat 0 * size)%N with 0%N. rewrite N.add_0_r. reflexivity.
    + cbn [b_index]. split; [reflexivity|lia].
  - exists (b_set s (n - 1)). split; [|repeat split; eauto]; destruct (Nat.eqb_spec n 0); cbn [value]; auto.
    + rewrite B by lia. reflexivity.
    + cbn [b_index]. split; [reflexivity|lia].
  - destruct c as [i|]; [|destruct C]. destruct E4 as [-> Hi]. destruct (Nat.eqb_spec n 0); [lia|].
    replace (i + 1) with (S i) by lia. destruct (Nat.ltb_spec (S i) n).
    + eexists. split; [rewrite B by lia; reflexivity|]. repeat split; auto.
    + eexists. split; [reflexivity|]. repeat split; auto.
  - destruct c as [i|]; [|destruct C]. destruct E4 as [-> Hi]. destruct (Nat.eqb_spec n 0); [lia|].
    destruct i as [|i]; cbn [Nat.ltb Nat.leb].
    + eexists. split; [reflexivity|]. repeat split; auto.
    + eexists. replace (S i - 1) with i by lia. split; [rewrite B by lia; reflexivity|]. repeat split; auto; cbn; lia.
Qed.

Lemma batch_enumerates base size n : enumerates (batch_step batch_handler) (addresses base size n) (batch_create base size n).
Proof.
  apply (sim_enumerates _ _ (batch_rel base size n) (batch_sim base size n)).
  unfold batch_rel, first. rewrite addresses_length. cbn. repeat split. destruct (Nat.eqb_spec n 0); [exact I|]. split; [reflexivity|lia].
Qed.

Lemma collection_array_sim base size n s c a : batch_rel (if n =? 0 then 0%N else base) size n s c -> client_ok (addresses base size n) c a ->
  exists s', batch_step (collection_array_handler base size n) s a = Some (s', value (addresses base size n) (move (addresses base size n) c a)) /\
             batch_rel (if n =? 0 then 0%N else base) size n s' (move (addresses base size n) c a).
Proof.
  intros (E1 & E2 & E3 & E4) C. unfold batch_rel.
  assert (B : forall i, i < n -> b_at s i = nth_error (addresses base size n) i).
  { intros i Hi. unfold b_at. rewrite addresses_nth, E1, E3 by auto. destruct (Nat.eqb_spec n 0); [lia|reflexivity]. }
  destruct a; cbn [batch_step collection_array_handler move]; rewrite ?addresses_length, ?E2; cbn [b_ptr b_count b_stride b_index b_set].
  - exists s. split; [|repeat split; eauto]. destruct c as [i|]; cbn [value].
    + destruct E4 as [-> Hi]. destruct (Nat.eqb_spec n 0); [lia|]. now rewrite B.
    + cbn in C. assert (length (addresses base size n) = 0) as L by (now rewrite C). rewrite addresses_length in L. now rewrite L.
  - eexists. unfold first. rewrite addresses_length. split.
    + apply f_equal, f_equal2; [reflexivity|]. destruct (Nat.eqb_spec n 0); cbn [value]; [reflexivity|]. rewrite addresses_nth by lia. change (N.of_nat 0 * size)%N with 0%N. rewrite N.add_0_r. reflexivity.
    + cbn [b_ptr b_count b_stride b_index]. repeat split. destruct (Nat.eqb_spec n 0); [exact I|]. split; [reflexivity|lia].
  - eexists. split.
    + apply f_equal, f_equal2; [reflexivity|]. destruct (Nat.eqb_spec n 0); cbn [value]; [reflexivity|]. rewrite addresses_nth by lia. reflexivity.
    + cbn [b_ptr b_count b_stride b_index]. repeat split. destruct (Nat.eqb_spec n 0); [exact I|]. split; [reflexivity|lia].
  - destruct c as [i|]; [|destruct C]. destruct E4 as [-> Hi]. destruct (Nat.eqb_spec n 0); [lia|].
    replace (i + 1) with (S i) by lia. destruct (Nat.ltb_spec (S i) n).
    + eexists. split; [rewrite B by lia; reflexivity|]. repeat split; auto.
    + eexists. split; [reflexivity|]. repeat split; auto.
  - destruct c as [i|]; [|destruct C]. destruct E4 as [-> Hi]. destruct (Nat.eqb_spec n 0); [lia|].
    destruct i as [|i]; cbn [Nat.ltb Nat.leb].
    + eexists. split; [reflexivity|]. repeat split; auto.
    + eexists. replace (S i - 1) with i by lia. split; [rewrite B by lia; reflexivity|]. repeat split; auto; cbn; lia.
Qed.

(** ** Circular buffers *)
Lemma slots_length base size n st m : length (slots base size n st m) = n.
Proof. unfold slots. now rewrite map_length, seq_length. Qed.

Lemma slots_nth base size n st m i : i < n -> nth_error (slots base size n st m) i = Some (base + N.of_nat ((st + i) mod m) * size)%N.
Proof.
  intros H. unfold slots. rewrite (map_nth_error (fun k => (base + N.of_nat ((st + k) mod m) * size)%N) i (seq 0 n) (d := i)); [reflexivity|].
  rewrite (nth_error_nth' _ 0) by (now rewrite seq_length). now rewrite seq_nth.
Qed.

Definition circular_rel (base size : N) (n st m : nat) (b : circular) (c : cursor) : Prop :=
  c_ptr b = base /\ c_count b = n /\ c_stride b = size /\ c_max b = m /\ c_start b = st /\
  match c with Some i => c_index b = i + st /\ i < n | None => True end.

Lemma circular_sim base size n st m s c a : circular_rel base size n st m s c -> client_ok (slots base size n st m) c a ->
  exists s', circular_step s a = Some (s', value (slots base size n st m) (move (slots base size n st m) c a)) /\
             circular_rel base size n st m s' (move (slots base size n st m) c a).
Proof.
  intros (E1 & E2 & E3 & E5 & E6 & E4) C. unfold circular_rel.
  assert (B : forall i, i < n -> c_at s (i + st) = nth_error (slots base size n st m) i).
  { intros i Hi. unfold c_at. rewrite slots_nth, E1, E3, E5 by auto. do 5 f_equal. lia. }
  destruct a; cbn [circular_step circular_handler move]; rewrite ?slots_length, ?E2, ?E6; cbn [c_ptr c_count c_stride c_index c_max c_start c_set].
  - exists s. split; [|repeat split; eauto]. destruct c as [i|]; cbn [value].
    + destruct E4 as [-> Hi]. destruct (Nat.eqb_spec n 0); [lia|]. now rewrite B.
    + cbn in C. assert (length (slots base size n st m) = 0) as L by (now rewrite C). rewrite slots_length in L. now rewrite L.
  - exists (c_set s st). split; [|repeat split; eauto]; unfold first; rewrite slots_length; destruct (Nat.eqb_spec n 0); cbn [value]; auto.
    + rewrite <- (B 0) by lia. reflexivity.
    + cbn [c_index]. split; [reflexivity|lia].
  - exists (c_set s (n - 1 + st)). split; [|repeat split; eauto]; destruct (Nat.eqb_spec n 0); cbn [value]; auto.
    + rewrite B by lia. reflexivity.
    + cbn [c_index]. split; [reflexivity|lia].
  - destruct c as [i|]; [|destruct C]. destruct E4 as [-> Hi]. destruct (Nat.eqb_spec n 0); [lia|].
    replace (i + st + 1) with (S i + st) by lia. replace (S i + st <? n + st) with (S i <? n) by (destruct (Nat.ltb_spec (S i) n), (Nat.ltb_spec (S i + st) (n + st)); auto; lia).
    destruct (Nat.ltb_spec (S i) n).
    + eexists. split; [rewrite B by lia; reflexivity|]. repeat split; auto.
    + eexists. split; [reflexivity|]. repeat split; auto.
  - destruct c as [i|]; [|destruct C]. destruct E4 as [-> Hi]. destruct (Nat.eqb_spec n 0); [lia|].
    destruct i as [|i].
    + rewrite Nat.ltb_irrefl. eexists. split; [reflexivity|]. repeat split; auto.
    + destruct (Nat.ltb_spec st (S i + st)); [|lia]. eexists. replace (S i + st - 1) with (i + st) by lia.
      split; [rewrite B by lia; reflexivity|]. repeat split; auto; cbn; lia.
Qed.

(** ** Linked lists *)
Lemma get_tail_at h l : is_list h l -> forall k i a fuel, nth_error l i = Some a -> i + k + 1 = length l -> k < fuel ->
  get_tail fuel h a = nth_error l (length l - 1).
Proof.
  intros [_ H]. induction k as [|k IH]; intros i a [|fuel] Hi Hk Hf; try lia; cbn [get_tail]; unfold get_next;
    rewrite (H i a Hi); cbn [option_map next].
  - rewrite (proj2 (nth_error_None l (i + 1))) by lia. rewrite <- Hi. f_equal. lia.
  - destruct (nth_error_lt_Some l (i + 1) ltac:(lia)) as [b Hb]. rewrite Hb. apply (IH (i + 1)); auto; lia.
Qed.

Lemma get_head_at h l : is_list h l -> forall i a fuel, nth_error l i = Some a -> i < fuel -> get_head fuel h a = nth_error l 0.
Proof.
  intros [_ H]. induction i as [|i IH]; intros a [|fuel] Hi Hf; try lia; cbn [get_head]; unfold get_prev;
    rewrite (H _ a Hi); cbn [option_map prev].
  - now rewrite Hi.
  - pose proof (nth_error_Some_lt _ _ _ Hi). destruct (nth_error_lt_Some l i ltac:(lia)) as [b Hb]. rewrite Hb. apply IH; auto; lia.
Qed.

Definition at_node (data : addr -> N) (l : list addr) (c : cursor) : option addr :=
  match c with Some i => nth_error l i | None => None end.

Lemma at_value data l c : node_data data (at_node data l c) = value (map data l) c.
Proof. destruct c as [i|]; cbn; [|reflexivity]. now rewrite nth_error_map. Qed.

Definition cursor_ok (n : nat) (c : cursor) : Prop := match c with Some i => i < n | None => True end.

Lemma move_ok (xs : list N) c a : cursor_ok (length xs) c -> cursor_ok (length xs) (move xs c a).
Proof.
  intros H. destruct a; cbn [move]; auto.
  - unfold first. destruct (Nat.eqb_spec (length xs) 0); cbn; [exact I|lia].
  - destruct (Nat.eqb_spec (length xs) 0); cbn; [exact I|lia].
  - destruct c as [i|]; [|exact I]. destruct (Nat.ltb_spec (S i) (length xs)); cbn; auto.
  - destruct c as [[|i]|]; cbn in *; auto; lia.
Qed.

Definition linked_rel (data : addr -> N) (l : list addr) (s : internal) (c : cursor) : Prop :=
  cursor_ok (length l) c /\ i_ptr s = at_node data l c /\ i_extra0 s = nth_error l 0 /\
  (i_extra1 s = None \/ i_extra1 s = nth_error l (length l - 1)) /\ exists r, i_ref s = Some r /\ In r l.

Lemma next_at h l i a : is_list h l -> nth_error l i = Some a -> get_next h a = Some (nth_error l (S i)).
Proof. intros [_ H] Hi. unfold get_next. rewrite (H i a Hi). cbn [option_map next]. now rewrite Nat.add_1_r. Qed.

Lemma prev_at h l i a : is_list h l -> nth_error l i = Some a ->
  get_prev h a = Some (match i with 0 => None | S j => nth_error l j end).
Proof. intros [_ H] Hi. unfold get_prev. now rewrite (H i a Hi). Qed.

Lemma linked_sim fuel h data l : is_list h l -> l <> [] -> length l <= fuel -> forall s c a,
  linked_rel data l s c -> client_ok (map data l) c a ->
  exists s', linked_step fuel h data s a = Some (s', value (map data l) (move (map data l) c a)) /\ linked_rel data l s' (move (map data l) c a).
Proof.
  intros HL NE Hf s c a (K & E1 & E2 & E3 & r & E4 & Hr) C.
  assert (NE' : map data l <> []) by (destruct l; cbn; congruence).
  assert (Ln : length l <> 0) by (destruct l; cbn; congruence).
  pose proof (move_ok (map data l) c a) as MK. rewrite map_length in MK. specialize (MK K).
  unfold linked_step, linked_rel. destruct a; cbn [move] in *; rewrite ?map_length in *.
  - eexists. split; [rewrite E1, at_value; reflexivity|]. repeat split; eauto.
  - unfold first in *. rewrite map_length in *. destruct (Nat.eqb_spec (length l) 0); [lia|].
    eexists. split; [cbn [i_ptr i_set]; rewrite E2; change (nth_error l 0) with (at_node data l (Some 0)); rewrite at_value; reflexivity|].
    cbn [i_ptr i_extra0 i_extra1 i_ref i_set]. repeat split; eauto.
  - destruct (Nat.eqb_spec (length l) 0); [lia|].
    assert (T : exists s', match i_extra1 s with
                  | Some _ => Some s
                  | None => let? t := deref (fun a => Some (get_tail fuel h a)) (match i_ptr s with Some p => Some p | None => i_ref s end) in
                            let? t := t in
                            Some (mkInternal (i_ref s) (i_ptr s) (i_extra0 s) (Some t))
                  end = Some s' /\ i_extra1 s' = nth_error l (length l - 1) /\ i_extra0 s' = i_extra0 s /\ i_ref s' = i_ref s).
    { destruct E3 as [E3|E3].
      - rewrite E3.
        assert (exists q j, match i_ptr s with Some p => Some p | None => i_ref s end = Some q /\ nth_error l j = Some q) as (q & j & Eq & Hj).
        { rewrite E1. destruct c as [i|]; cbn [at_node].
          - destruct (nth_error_lt_Some l i K) as [q Hq]. rewrite Hq. eauto.
          - rewrite E4. apply In_nth_error in Hr as [j Hj]. eauto. }
        rewrite Eq. cbn [deref]. pose proof (nth_error_Some_lt _ _ _ Hj).
        rewrite (get_tail_at h l HL (length l - j - 1) j q fuel Hj) by lia.
        destruct (nth_error_lt_Some l (length l - 1) ltac:(lia)) as [t Ht]. rewrite Ht. eexists. split; [reflexivity|]. cbn. auto.
      - destruct (nth_error_lt_Some l (length l - 1) ltac:(lia)) as [t Ht]. rewrite Ht in *. rewrite E3. eexists. split; [reflexivity|]. auto. }
    destruct T as (s' & Es & T1 & T2 & T3). rewrite Es. eexists. split.
    { apply f_equal, f_equal2; [reflexivity|]. cbn [i_ptr i_set]. rewrite T1. change (nth_error l (length l - 1)) with (at_node data l (Some (length l - 1))). rewrite at_value. reflexivity. }
    cbn [i_ptr i_extra0 i_extra1 i_ref i_set]. rewrite T1, T2, T3. repeat split; eauto.
  - destruct c as [i|]; [|destruct C]. cbn in K. destruct (nth_error_lt_Some l i K) as [q Hq]. rewrite E1. cbn [at_node]. rewrite Hq. cbn [deref].
    rewrite (next_at h l i q HL Hq). eexists. split.
    { apply f_equal, f_equal2; [reflexivity|]. cbn [i_ptr]. destruct (Nat.ltb_spec (S i) (length l)).
      - change (nth_error l (S i)) with (at_node data l (Some (S i))). rewrite at_value. reflexivity.
      - rewrite (proj2 (nth_error_None l (S i))) by lia. reflexivity. }
    cbn [i_ptr i_extra0 i_extra1 i_ref]. split; [exact MK|]. split; [|split; [exact E2|split; [|eauto]]].
    + destruct (Nat.ltb_spec (S i) (length l)); [reflexivity|]. cbn [at_node]. apply nth_error_None. lia.
    + destruct (Nat.lt_ge_cases (S i) (length l)) as [Lt|Ge].
      * destruct (nth_error_lt_Some l (S i) Lt) as [w ->]. destruct E3 as [->| ->]; [now left|now right].
      * rewrite (proj2 (nth_error_None l (S i))) by lia. destruct E3 as [->| ->].
        -- right. rewrite <- Hq. f_equal. lia.
        -- destruct (nth_error_lt_Some l (length l - 1) ltac:(lia)) as [t Ht]. rewrite Ht. now right.
  - destruct c as [i|]; [|destruct C]. cbn in K. destruct (nth_error_lt_Some l i K) as [q Hq]. rewrite E1. cbn [at_node]. rewrite Hq. cbn [deref].
    rewrite (prev_at h l i q HL Hq). eexists. split.
    { apply f_equal, f_equal2; [reflexivity|]. cbn [i_ptr i_set]. destruct i as [|i]; [reflexivity|].
      change (nth_error l i) with (at_node data l (Some i)). rewrite at_value. reflexivity. }
    cbn [i_ptr i_extra0 i_extra1 i_ref i_set]. repeat split; eauto. destruct i; reflexivity.
Qed.

(** The queue: its linked list is [rev l], [l] oldest first. *)
Definition queue_rel (data : addr -> N) (l : list addr) (s : internal) (c : cursor) : Prop :=
  cursor_ok (length l) c /\ i_ptr s = at_node data l c /\ i_extra0 s = hd_error l /\ i_extra1 s = hd_error (rev l).

Lemma hd_rev (l : list addr) : hd_error (rev l) = match length l with 0 => None | S n => nth_error l n end.
Proof.
  destruct l as [|x t] using rev_ind; [reflexivity|]. rewrite rev_app_distr, app_length. cbn [rev app hd_error length].
  replace (length t + 1) with (S (length t)) by lia. rewrite nth_error_app2, Nat.sub_diag by lia. reflexivity.
Qed.

Lemma queue_sim h data l : is_list h (rev l) -> forall s c a,
  queue_rel data l s c -> client_ok (map data l) c a ->
  exists s', queue_enum_step h data s a = Some (s', value (map data l) (move (map data l) c a)) /\ queue_rel data l s' (move (map data l) c a).
Proof.
  intros HL s c a (K & E1 & E2 & E3) C.
  pose proof (move_ok (map data l) c a) as MK. rewrite map_length in MK. specialize (MK K).
  assert (RV : forall i, i < length l -> nth_error (rev l) (length l - 1 - i) = nth_error l i).
  { intros i Hi. rewrite nth_error_rev by lia. f_equal. lia. }
  unfold queue_enum_step, queue_rel. destruct a; cbn [move] in *; rewrite ?map_length in *.
  - eexists. split; [rewrite E1, at_value; reflexivity|]. repeat split; eauto.
  - unfold first in *. rewrite map_length in *. eexists. split.
    { apply f_equal, f_equal2; [reflexivity|]. cbn [i_ptr i_set]. rewrite E2. destruct l; cbn; reflexivity. }
    cbn [i_ptr i_extra0 i_extra1 i_set]. repeat split; eauto. rewrite E2. destruct l; reflexivity.
  - eexists. split.
    { apply f_equal, f_equal2; [reflexivity|]. cbn [i_ptr i_set]. rewrite E3, hd_rev. destruct (length l) as [|n] eqn:Ln; cbn [Nat.eqb]; [reflexivity|].
      replace (S n - 1) with n by lia. change (nth_error l n) with (at_node data l (Some n)). rewrite at_value. reflexivity. }
    cbn [i_ptr i_extra0 i_extra1 i_set]. repeat split; eauto. rewrite E3, hd_rev. destruct (length l) as [|n]; cbn; [reflexivity|]. f_equal. lia.
  - destruct c as [i|]; [|destruct C]. cbn in K. destruct (nth_error_lt_Some l i K) as [q Hq]. rewrite E1. cbn [at_node]. rewrite Hq. cbn [deref].
    assert (P : get_prev h q = Some (nth_error l (S i))).
    { rewrite (prev_at h (rev l) (length l - 1 - i) q HL) by (rewrite RV by lia; exact Hq).
      destruct (length l - 1 - i) as [|j] eqn:J; f_equal.
      - symmetry. apply nth_error_None. lia.
      - rewrite <- RV by lia. f_equal. lia. }
    rewrite P. eexists. split.
    { apply f_equal, f_equal2; [reflexivity|]. cbn [i_ptr i_set]. destruct (Nat.ltb_spec (S i) (length l)).
      - change (nth_error l (S i)) with (at_node data l (Some (S i))). rewrite at_value. reflexivity.
      - rewrite (proj2 (nth_error_None l (S i))) by lia. reflexivity. }
    cbn [i_ptr i_extra0 i_extra1 i_set]. repeat split; eauto.
    destruct (Nat.ltb_spec (S i) (length l)); [reflexivity|]. cbn [at_node]. apply nth_error_None. lia.
  - destruct c as [i|]; [|destruct C]. cbn in K. destruct (nth_error_lt_Some l i K) as [q Hq]. rewrite E1. cbn [at_node]. rewrite Hq. cbn [deref].
    assert (P : get_next h q = Some (match i with 0 => None | S j => nth_error l j end)).
    { rewrite (next_at h (rev l) (length l - 1 - i) q HL) by (rewrite RV by lia; exact Hq). f_equal.
      destruct i as [|i]; [apply nth_error_None; rewrite rev_length; lia|]. rewrite <- RV by lia. f_equal. lia. }
    rewrite P. eexists. split.
    { apply f_equal, f_equal2; [reflexivity|]. cbn [i_ptr i_set]. destruct i as [|i]; [reflexivity|].
      change (nth_error l i) with (at_node data l (Some i)). rewrite at_value. reflexivity. }
    cbn [i_ptr i_extra0 i_extra1 i_set]. repeat split; eauto. destruct i; reflexivity.
Qed.

(** The list collection: its linked list is [sentinel :: l]. *)
Lemma collection_list_sim h data sentinel l : is_list h (sentinel :: l) ->
  let last := match length l with 0 => None | S n => nth_error l n end in
  forall s c a, cursor_ok (length l) c /\ i_ptr s = at_node data l c -> client_ok (map data l) c a ->
  exists s', collection_list_step h data sentinel last s a = Some (s', value (map data l) (move (map data l) c a)) /\
    cursor_ok (length l) (move (map data l) c a) /\ i_ptr s' = at_node data l (move (map data l) c a).
Proof.
  intros HL last s c a (K & E1) C.
  pose proof (move_ok (map data l) c a) as MK. rewrite map_length in MK. specialize (MK K).
  unfold collection_list_step. destruct a; cbn [move] in *; rewrite ?map_length in *.
  - eexists. split; [rewrite E1, at_value; reflexivity|]. split; auto.
  - rewrite (next_at h _ 0 sentinel HL eq_refl). unfold first in *. rewrite map_length in *. eexists. split.
    { apply f_equal, f_equal2; [reflexivity|]. cbn [i_ptr i_set nth_error]. destruct l; cbn; reflexivity. }
    split; auto. cbn [i_ptr i_set nth_error]. destruct l; reflexivity.
  - eexists. split.
    { apply f_equal, f_equal2; [reflexivity|]. cbn [i_ptr i_set]. unfold last. destruct (length l) as [|n] eqn:Ln; cbn [Nat.eqb]; [reflexivity|].
      replace (S n - 1) with n by lia. change (nth_error l n) with (at_node data l (Some n)). rewrite at_value. reflexivity. }
    split; auto. cbn [i_ptr i_set]. unfold last. destruct (length l) as [|n]; cbn; [reflexivity|]. f_equal. lia.
  - destruct c as [i|]; [|destruct C]. cbn in K. destruct (nth_error_lt_Some l i K) as [q Hq]. rewrite E1. cbn [at_node]. rewrite Hq. cbn [deref].
    rewrite (next_at h _ (S i) q HL) by exact Hq. change (nth_error (sentinel :: l) (S (S i))) with (nth_error l (S i)). eexists. split.
    { apply f_equal, f_equal2; [reflexivity|]. cbn [i_ptr i_set]. destruct (Nat.ltb_spec (S i) (length l)).
      - change (nth_error l (S i)) with (at_node data l (Some (S i))). rewrite at_value. reflexivity.
      - rewrite (proj2 (nth_error_None l (S i))) by lia. reflexivity. }
    split; auto. cbn [i_ptr i_set]. destruct (Nat.ltb_spec (S i) (length l)); [reflexivity|]. cbn [at_node]. apply nth_error_None. lia.
  - destruct c as [i|]; [|destruct C]. cbn in K. destruct (nth_error_lt_Some l i K) as [q Hq]. rewrite E1. cbn [at_node]. rewrite Hq. cbn [deref].
    rewrite (prev_at h _ (S i) q HL) by exact Hq. destruct i as [|i]; cbn [nth_error].
    + rewrite Nat.eqb_refl. eexists. split; [reflexivity|]. split; auto.
    + destruct (nth_error_lt_Some l i ltac:(lia)) as [w Hw]. rewrite Hw.
      assert (w <> sentinel). { destruct HL as [ND _]. inversion ND as [|? ? N _]; subst. intros ->. apply N. eapply nth_error_In; eauto. }
      destruct (Nat.eqb_spec w sentinel); [congruence|]. eexists. split.
      { apply f_equal, f_equal2; [reflexivity|]. cbn [i_ptr i_set]. rewrite <- Hw. change (nth_error l i) with (at_node data l (Some i)). rewrite at_value. reflexivity. }
      split; auto.
Qed.

(** ** The paged list *)
Section Paged.
Context {A : Type} (storage : nat -> N) (size : N) (l : ListModel.plist A).

Local Notation element_addresses := (element_addresses storage size).

Lemma element_addresses_length n ps : length (element_addresses n ps) = n.
Proof. unfold element_addresses. now rewrite map_length, seq_length. Qed.

Lemma element_addresses_nth n ps i : i < n -> nth_error (element_addresses n ps) i = Some (storage (i / ps) + N.of_nat (i mod ps) * size)%N.
Proof.
  intros H. unfold element_addresses. rewrite (map_nth_error (fun k => (storage (k / ps) + N.of_nat (k mod ps) * size)%N) i (seq 0 n) (d := i)); [reflexivity|].
  rewrite (nth_error_nth' _ 0) by (now rewrite seq_length). now rewrite seq_nth.
Qed.

Lemma at_parts n ps q j : 1 <= ps -> j < ps -> q * ps + j < n ->
  nth_error (element_addresses n ps) (q * ps + j) = Some (storage q + N.of_nat j * size)%N.
Proof.
  intros H1 H2 H3. rewrite element_addresses_nth by auto. rewrite Nat.div_add_l, Nat.div_small, Nat.add_0_r by lia.
  rewrite Nat.add_comm, Nat.mod_add, Nat.mod_small by lia. reflexivity.
Qed.

Context (ps n m : nat).
Hypothesis Hps : 1 <= ps.
Hypothesis Hm : m <= ps.
Hypothesis Hn : n <> 0 -> m <> 0.
Hypothesis counts : forall p, ListModel.page_count l p = if p <? n then Some ps else if p =? n then Some m else None.
Hypothesis npages : length (ListModel.pages l) = S n.
Local Notation total := (n * ps + m).
Local Notation xs := (element_addresses total ps).

Definition paged_rel (b : batch) (c : cursor) : Prop :=
  b_stride b = size /\ b_extra1 b = Some n /\
  match c with
  | Some k => exists q j cnt, k = q * ps + j /\ j < cnt /\ k < total /\ b_extra0 b = Some q /\ b_ptr b = storage q /\ b_index b = j /\
                b_count b = cnt /\ ListModel.page_count l q = Some cnt /\ cnt <= ps
  | None => b_count b = 0
  end.

Lemma page_count_le q : q <= n -> exists cnt, ListModel.page_count l q = Some cnt /\ cnt <= ps /\ (q < n -> cnt = ps) /\ (q = n -> cnt = m) /\ (total <> 0 -> 0 < cnt).
Proof.
  intros H. rewrite counts. destruct (Nat.ltb_spec q n).
  - exists ps. repeat split; auto; try lia.
  - destruct (Nat.eqb_spec q n); [|lia]. exists m. repeat split; auto; lia.
Qed.

Lemma load_sim b q at_end cnt : ListModel.page_count l q = Some cnt ->
  load_page storage l b q at_end = Some (mkBatch (storage q) cnt (b_stride b) (if at_end then cnt - 1 else 0) (Some q) (b_extra1 b)).
Proof. intros E. unfold load_page. now rewrite E. Qed.

Lemma paged_sim s c a : paged_rel s c -> client_ok xs c a ->
  exists s', batch_step (list_handler storage l) s a = Some (s', value xs (move xs c a)) /\ paged_rel s' (move xs c a).
Proof.
  intros (E1 & E2 & E3) C. unfold paged_rel.
  destruct a; cbn [batch_step move]; rewrite ?element_addresses_length.
  - (* Current *)
    eexists. split; [|split; [exact E1|split; [exact E2|exact E3]]]. destruct c as [k|]; cbn [value].
    + destruct E3 as (q & j & cnt & -> & Hj & Hk & X0 & Xp & Xi & Xc & Pc & Hc). rewrite at_parts by lia. rewrite Xc, Xi.
      destruct (Nat.eqb_spec cnt 0); [lia|]. unfold b_at. now rewrite Xp, E1.
    + rewrite E3. reflexivity.
  - (* Head *)
    cbn [list_handler]. destruct (page_count_le 0 ltac:(lia)) as (cnt & Pc & Hc & Hc1 & Hc2 & Hc3). rewrite (load_sim s 0 false cnt Pc).
    cbn [b_stride b_extra0 b_extra1 b_count b_ptr b_index] in *. eexists. unfold first. rewrite element_addresses_length. split.
    { apply f_equal, f_equal2; [reflexivity|]. destruct (Nat.eqb_spec total 0) as [Z|Z]; cbn [value].
      - destruct (Nat.eqb_spec cnt 0); auto. lia.
      - assert (0 < cnt) by auto. destruct (Nat.eqb_spec cnt 0); [lia|].
        change 0 with (0 * ps + 0) at 2. rewrite (at_parts total ps 0 0) by lia. change (N.of_nat 0 * size)%N with 0%N. now rewrite N.add_0_r. }
    cbn [b_stride b_extra0 b_extra1 b_count b_ptr b_index]. split; [exact E1|]. split; [exact E2|].
    destruct (Nat.eqb_spec total 0) as [Z|Z].
    + lia.
    + assert (0 < cnt) by auto. exists 0, 0, cnt. repeat split; auto; lia.
  - (* Tail *)
    cbn [list_handler]. rewrite E2. destruct (page_count_le n ltac:(lia)) as (cnt & Pc & Hc & Hc1 & Hc2 & Hc3). rewrite (load_sim s n true cnt Pc).
    cbn [b_stride b_extra0 b_extra1 b_count b_ptr b_index] in *. specialize (Hc2 eq_refl). subst cnt. eexists. split.
    { apply f_equal, f_equal2; [reflexivity|]. destruct (Nat.eqb_spec total 0) as [Z|Z]; cbn [value].
      - destruct (Nat.eqb_spec m 0); auto. lia.
      - assert (0 < m) by auto. destruct (Nat.eqb_spec m 0); [lia|].
        replace (total - 1) with (n * ps + (m - 1)) by lia. rewrite at_parts by lia. unfold b_at. cbn [b_ptr b_stride]. now rewrite E1. }
    cbn [b_stride b_extra0 b_extra1 b_count b_ptr b_index]. split; [exact E1|]. split; [reflexivity|].
    destruct (Nat.eqb_spec total 0) as [Z|Z].
    + lia.
    + assert (0 < m) by auto. exists n, (m - 1), m. repeat split; auto; lia.
  - (* Next *)
    destruct c as [k|]; [|destruct C]. destruct E3 as (q & j & cnt & -> & Hj & Hk & X0 & Xp & Xi & Xc & Pc & Hc).
    rewrite Xc, Xi. destruct (Nat.eqb_spec cnt 0); [lia|].
    assert (Hq : q <= n). { destruct (Nat.le_gt_cases q n); [auto|]. assert (S n * ps <= q * ps) by (apply Nat.mul_le_mono_r; lia). lia. }
    destruct (page_count_le q Hq) as (cnt' & Pc' & _ & Hc1 & Hc2 & Hc3). rewrite Pc in Pc'. injection Pc' as <-.
    destruct (Nat.ltb_spec (j + 1) cnt).
    + assert (S (q * ps + j) < total).
      { destruct (Nat.eq_dec q n) as [->|]; [specialize (Hc2 eq_refl); lia|]. assert (S q * ps <= n * ps) by (apply Nat.mul_le_mono_r; lia). lia. }
      destruct (Nat.ltb_spec (S (q * ps + j)) total); [|lia]. eexists. split.
      { cbn [value]. replace (S (q * ps + j)) with (q * ps + (j + 1)) by lia. rewrite at_parts by lia. unfold b_at. rewrite Xp, E1. reflexivity. }
      cbn [b_stride b_extra0 b_extra1 b_count b_ptr b_index b_set]. repeat split; auto. exists q, (j + 1), cnt. repeat split; auto; lia.
    + cbn [list_handler]. rewrite X0, npages. destruct (Nat.ltb_spec (S q) (S n)).
      * assert (cnt = ps) as -> by (apply Hc1; lia). assert (S q * ps <= n * ps) by (apply Nat.mul_le_mono_r; lia).
        destruct (page_count_le (S q) ltac:(lia)) as (cnt2 & Pc2 & Hd & Hd1 & Hd2 & Hd3). rewrite (load_sim s (S q) false cnt2 Pc2).
        cbn [b_stride b_extra0 b_extra1 b_count b_ptr b_index]. assert (0 < cnt2) by (apply Hd3; lia).
        destruct (Nat.ltb_spec (S (q * ps + j)) total); [|lia]. destruct (Nat.eqb_spec cnt2 0); [lia|]. eexists. split.
        { cbn [value]. replace (S (q * ps + j)) with (S q * ps + 0) by lia. rewrite at_parts by lia. do 3 f_equal. lia. }
        cbn [b_stride b_extra0 b_extra1 b_count b_ptr b_index]. repeat split; auto. exists (S q), 0, cnt2. repeat split; auto; lia.
      * assert (q = n) as -> by lia. rewrite (Hc2 eq_refl) in *. destruct (Nat.ltb_spec (S (n * ps + j)) total); [lia|].
        eexists. split; [reflexivity|]. cbn. rewrite E2. auto.
  - (* Previous *)
    destruct c as [k|]; [|destruct C]. destruct E3 as (q & j & cnt & -> & Hj & Hk & X0 & Xp & Xi & Xc & Pc & Hc).
    rewrite Xc, Xi. destruct (Nat.eqb_spec cnt 0); [lia|].
    destruct (Nat.ltb_spec 0 j).
    + eexists. replace (q * ps + j) with (S (q * ps + (j - 1))) by lia. split.
      { cbn [value]. rewrite at_parts by lia. unfold b_at. rewrite Xp, E1. reflexivity. }
      cbn [b_stride b_extra0 b_extra1 b_count b_ptr b_index b_set]. repeat split; auto. exists q, (j - 1), cnt. repeat split; auto; lia.
    + assert (j = 0) as -> by lia. cbn [list_handler]. rewrite X0. destruct q as [|q].
      * cbn [Nat.mul Nat.add]. eexists. split; [reflexivity|]. cbn. auto.
      * assert (Hq : S q <= n). { destruct (Nat.le_gt_cases (S q) n); [auto|]. assert (S n * ps <= S q * ps) by (apply Nat.mul_le_mono_r; lia). lia. }
        destruct (page_count_le q ltac:(lia)) as (cnt2 & Pc2 & Hd & Hd1 & _). specialize (Hd1 ltac:(lia)). subst cnt2. rewrite (load_sim s q true ps Pc2).
        cbn [b_stride b_extra0 b_extra1 b_count b_ptr b_index]. destruct (Nat.eqb_spec ps 0); [lia|].
        replace (S q * ps + 0) with (S (q * ps + (ps - 1))) in * by lia. eexists. split.
        { cbn [value]. rewrite at_parts by lia. unfold b_at. cbn [b_ptr b_stride]. rewrite E1. reflexivity. }
        cbn [b_stride b_extra0 b_extra1 b_count b_ptr b_index]. repeat split; auto. exists q, (ps - 1), ps. repeat split; auto; lia.
Qed.

End Paged.

(** From the list's invariant. *)
Lemma list_counts {A} (l : ListModel.plist A) xs : ListProofs.inv l xs -> exists n m,
  m <= ListModel.pageSize l /\ (n <> 0 -> m <> 0) /\ 1 <= ListModel.pageSize l /\ length (ListModel.pages l) = S n /\ ListModel.last l = Some n /\ n * ListModel.pageSize l + m = length xs /\ forall p, ListModel.page_count l p = (if p <? n then Some (ListModel.pageSize l) else if p =? n then Some m else None).
Proof.
  intros I. pose proof (ListProofs.inv_count _ _ I) as Ct. destruct I as (ls & n & m & F & Ec & El & Hm & Hn & Lst & Cn & Ps). exists n, m.
  assert (LL : length ls = S n). { rewrite <- (map_length (@length (option A)) ls), El, app_length, repeat_length. cbn. lia. }
  assert (LP : length (ListModel.pages l) = S n) by (rewrite <- LL; now apply ListProofs.Forall2_len in F).
  repeat split; auto; [lia|]. intros p.
  assert (X : ListModel.page_count l p = nth_error (repeat (ListModel.pageSize l) n ++ [m]) p).
  { rewrite <- El. unfold ListModel.page_count. clear - F. revert p. induction F as [|a x pl ls R F IH]; intros [|p]; cbn; auto.
    destruct R as (_ & R & _). now rewrite R. }
  rewrite X. destruct (Nat.ltb_spec p n).
  - rewrite nth_error_app1 by (now rewrite repeat_length). now apply nth_error_repeat.
  - rewrite nth_error_app2, repeat_length by (now rewrite repeat_length). destruct (Nat.eqb_spec p n).
    + subst. now rewrite Nat.sub_diag.
    + apply nth_error_None. cbn. lia.
Qed.

Lemma list_enumerates {A} storage size (l : ListModel.plist A) xs : ListProofs.inv l xs ->
  exists b, list_create storage size l = Some b /\   enumerates (batch_step (list_handler storage l)) (element_addresses storage size (length xs) (ListModel.pageSize l)) b.
Proof.
  intros I. destruct (list_counts l xs I) as (n & m & Hm & Hn & Ps & Np & Lst & Tot & Cnt).
  unfold list_create. destruct (page_count_le storage l (ListModel.pageSize l) n m Ps Hm Hn Cnt Np 0 ltac:(lia)) as (c & E & Hc & Hc1 & Hc2 & Hc3).
  rewrite E. eexists. split; [reflexivity|]. rewrite <- Tot.
  apply (sim_enumerates _ _ (paged_rel storage size l (ListModel.pageSize l) n m) (paged_sim storage size l _ n m Ps Hm Hn Cnt Np)).
  unfold paged_rel, first. rewrite element_addresses_length. cbn [b_stride b_extra0 b_extra1 b_count b_ptr b_index].
  split; [reflexivity|]. split; [exact Lst|]. destruct (Nat.eqb_spec (n * ListModel.pageSize l + m) 0).
  - lia.
  - specialize (Hc3 n0). exists 0, 0, c. repeat split; auto; lia.
Qed.
