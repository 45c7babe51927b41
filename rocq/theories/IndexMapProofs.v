From Verif Require Import Base IndexMapModel IndexMapSpec.
From Verif Require ArrayProofs.

(** * max_count *)
Lemma max_count_spec chunk n : 1 <= chunk ->
  exists k, max_count chunk n = k * chunk /\ 1 <= k /\ n <= k * chunk /\ (k = 1 \/ (k - 1) * chunk < n).
Proof.
  intros H. unfold max_count.
  pose proof (Nat.div_mod n chunk ltac:(lia)) as D. pose proof (Nat.mod_upper_bound n chunk ltac:(lia)) as U.
  set (q := n / chunk) in *. set (r := n mod chunk) in *. clearbody q r.
  destruct (Nat.eqb_spec r 0) as [->|Hr]; cbn [negb orb].
  - destruct (Nat.eqb_spec n 0) as [->|Hn].
    + assert (q = 0) by nia. subst q. exists (0 + 1). repeat split; lia.
    + assert (q <> 0) by nia. exists (q + 0). repeat split; try nia.
  - exists (q + 1). replace (q + 1 - 1) with q by lia. repeat split; nia.
Qed.

Lemma max_count_unique chunk n k : 1 <= chunk -> 1 <= k -> n <= k * chunk -> (k = 1 \/ (k - 1) * chunk < n) ->
  max_count chunk n = k * chunk.
Proof.
  intros H K N L. destruct (max_count_spec chunk n H) as (q & -> & Q1 & Q2 & Q3).
  f_equal. destruct (Nat.lt_trichotomy q k) as [X|[X|X]]; [exfalso|exact X|exfalso].
  - destruct L as [->|L]; [lia|]. assert (q * chunk <= (k - 1) * chunk) by (apply Nat.mul_le_mono_r; lia). lia.
  - destruct Q3 as [->|L']; [lia|]. assert (k * chunk <= (q - 1) * chunk) by (apply Nat.mul_le_mono_r; lia). lia.
Qed.

Lemma max_count_ge chunk n : 1 <= chunk -> n <= max_count chunk n.
Proof. intros H. destruct (max_count_spec chunk n H) as (k & -> & _ & X & _). exact X. Qed.

Lemma max_count_succ chunk n : 1 <= chunk -> n < max_count chunk n -> max_count chunk (n + 1) = max_count chunk n.
Proof.
  intros H L. destruct (max_count_spec chunk n H) as (k & E & K1 & K2 & K3). rewrite E in L. rewrite E.
  apply max_count_unique; try lia.
Qed.

Lemma max_count_full chunk n : 1 <= chunk -> max_count chunk (max_count chunk n + 1) = max_count chunk n + chunk.
Proof.
  intros H. destruct (max_count_spec chunk n H) as (k & -> & K1 & K2 & K3).
  replace (k * chunk + chunk) with ((k + 1) * chunk) by lia.
  apply max_count_unique; try nia.
Qed.

(** * Counting threads *)
Definition cnt (f : pc -> bool) (ps : nat -> pc) (n : nat) : Prop :=
  exists l, NoDup l /\ length l = n /\ forall t, In t l <-> f (ps t) = true.

Definition b2n (b : bool) : nat := if b then 1 else 0.

Lemma tset_eq {X} (f : nat -> X) t x : tset f t x t = x.
Proof. unfold tset. now rewrite Nat.eqb_refl. Qed.
Lemma tset_ne {X} (f : nat -> X) t x u : u <> t -> tset f t x u = f u.
Proof. unfold tset. intros H. destruct (Nat.eqb_spec u t); [contradiction|reflexivity]. Qed.

Lemma remove_length (l : list nat) t : NoDup l -> In t l -> length (remove Nat.eq_dec t l) + 1 = length l.
Proof.
  induction l as [|a l IH]; intros N I; [destruct I|]. inversion N; subst. cbn [remove].
  destruct (Nat.eq_dec t a) as [->|Ne].
  - rewrite notin_remove by assumption. cbn [length]. lia.
  - destruct I as [->|I]; [contradiction|]. cbn [length]. specialize (IH H2 I). lia.
Qed.

Lemma nodup_remove (l : list nat) t : NoDup l -> NoDup (remove Nat.eq_dec t l).
Proof.
  induction l as [|a l IH]; intros N; [constructor|]. inversion N; subst. cbn [remove].
  destruct (Nat.eq_dec t a); [now apply IH|]. constructor; [|now apply IH].
  intros X. apply in_remove in X. tauto.
Qed.

Lemma cnt_set f ps n t p : cnt f ps n -> cnt f (tset ps t p) (n - b2n (f (ps t)) + b2n (f p)).
Proof.
  intros (l & N & L & M).
  assert (base : exists l', NoDup l' /\ length l' = n - b2n (f (ps t)) /\ forall u, In u l' <-> u <> t /\ f (ps u) = true).
  { destruct (f (ps t)) eqn:E.
    - exists (remove Nat.eq_dec t l). split; [now apply nodup_remove|]. split.
      + pose proof (remove_length l t N (proj2 (M t) E)). cbn [b2n]. lia.
      + intros u. split.
        * intros X. apply in_remove in X. rewrite M in X. tauto.
        * intros [X Y]. apply in_in_remove; [exact X|now apply M].
    - exists l. split; [exact N|]. split; [cbn [b2n]; lia|].
      intros u. rewrite M. split; [|tauto]. intros X. split; [|exact X]. intros ->. congruence. }
  destruct base as (l' & N' & L' & M'). destruct (f p) eqn:E.
  - exists (t :: l'). split; [constructor; [rewrite M'; tauto|exact N']|]. split; [cbn; lia|].
    intros u. cbn [In]. rewrite M'. destruct (Nat.eq_dec u t) as [->|Ne].
    + rewrite tset_eq. tauto.
    + rewrite tset_ne by exact Ne. intuition congruence.
  - exists l'. split; [exact N'|]. split; [cbn [b2n]; lia|].
    intros u. rewrite M'. destruct (Nat.eq_dec u t) as [->|Ne].
    + rewrite tset_eq. intuition congruence.
    + rewrite tset_ne by exact Ne. tauto.
Qed.

Lemma cnt_pos f ps n t : cnt f ps n -> f (ps t) = true -> 1 <= n.
Proof. intros (l & N & <- & M) H. apply M in H. destruct l; [destruct H|]. cbn. lia. Qed.

Lemma cnt_zero f ps t : cnt f ps 0 -> f (ps t) = false.
Proof. intros H. destruct (f (ps t)) eqn:E; [|reflexivity]. pose proof (cnt_pos _ _ _ _ H E). lia. Qed.

Lemma cnt_le f g ps n m : cnt f ps n -> cnt g ps m -> (forall p, f p = true -> g p = true) -> n <= m.
Proof.
  intros (l & N & <- & M) (l' & N' & <- & M') H. apply NoDup_incl_length; [exact N|].
  intros u X. apply M'. apply H. now apply M.
Qed.

Lemma cnt_none f ps n : cnt f ps n -> (forall t, f (ps t) = false) -> n = 0.
Proof.
  intros (l & N & <- & M) H. destruct l as [|a l]; [reflexivity|].
  specialize (proj1 (M a) (or_introl eq_refl)). rewrite H. discriminate.
Qed.

Definition in_mod (p : pc) : bool :=
  match p with
  | ModLoad _ | ModCount _ _ | ModSlot _ _ | ModExchange _ _ _ | ModTest _ _ _ _ _ | ModMutate _ | ModEnd _
  | AppLoad _ | AppCount _ _ _ | AppScan _ _ _ _ _ | AppAdd _ _ | AppMutate _ | AppEnd _ | AppFull _ _ _ _ _ => true
  | _ => false
  end.
Definition dirty (p : pc) : bool := match p with ModMutate _ | AppAdd _ _ | AppMutate _ => true | _ => false end.
Definition lag (p : pc) : bool := match p with AppAdd _ _ => true | _ => false end.
Definition added (p : pc) : bool :=
  match p with AppAdd _ _ | AppMutate _ | AppEnd _ | AppReturn _ => true | _ => false end.

(** * The invariant *)
Definition good (b : block) (c : list Z) : Prop :=
  length c <= cap b /\ forall j, j < cap b -> option_map val (slots b j) = nth_error c j.
Definition frozen (chunk : nat) (b : block) (c : list Z) : Prop :=
  good b c /\ count b = length c /\ cap b = max_count chunk (count b).

Definition is_mod (o : op) : bool := match o with Replace _ _ | Exact _ _ _ => true | _ => false end.
Definition is_res (o : op) : bool := match o with Remove _ | Insert _ _ => true | _ => false end.

Definition known chunk s v t d : Prop :=
  d = data s \/ (d < data s /\ exists c n, In (c, n) (moments v t) /\ frozen chunk (heap s d) c).
Definition stale s (d m : nat) : Prop :=
  d < data s \/ m < mutate s \/ exists u, dirty (pcs s u) = true.
Definition right v t o r : Prop :=
  exists l n, In (l, n) (moments v t) /\ plain l o = (l, r).

(** The arguments of a resize, given the count it is made for. *)
Definition made_for (chunk : nat) (r : resize) (n : nat) : Prop :=
  match r_op r with
  | Append c => r = mkResize (Append c) (r_data r) (r_mut r) n (max_count chunk (n + 1)) None None (Some (n, c))
  | Remove i => i < n /\ r = mkResize (Remove i) (r_data r) (r_mut r) (n - 1) (max_count chunk (n - 1)) (Some i) None None
  | Insert i c => i < n /\
      r = mkResize (Insert i c) (r_data r) (r_mut r) n (max_count chunk (n + 1)) None (Some i) (Some (i, c))
  | _ => False
  end.

Definition copied (r : resize) (k : nat) (buf : nat -> option cell) (c : list Z) : Prop :=
  forall j, j < k -> option_map val (buf (copy_dst r j)) = nth_error c (copy_src r j).

Definition pinv (chunk : nat) (s : state) (v : view) (t : nat) (p : pc) : Prop :=
  match p with
  | Idle => True
  | CountLoad => calls v t = Some Count /\ result v t = None
  | CountCount d => calls v t = Some Count /\ result v t = None /\ known chunk s v t d
  | GetLoad i => calls v t = Some (Get i) /\ result v t = None
  | GetCount i d => calls v t = Some (Get i) /\ result v t = None /\ known chunk s v t d
  | GetSlot i d => calls v t = Some (Get i) /\ result v t = None /\ known chunk s v t d /\ i < cap (heap s d)
  | ModBegin o | ModLoad o => calls v t = Some o /\ result v t = None /\ is_mod o = true
  | ModCount o d => calls v t = Some o /\ result v t = None /\ is_mod o = true /\ d = data s
  | ModSlot o d => calls v t = Some o /\ result v t = None /\ is_mod o = true /\ d = data s /\ index_of o < cap (heap s d)
  | ModExchange i c d => calls v t = Some (Replace i c) /\ result v t = None /\ d = data s /\ i < length (contents v)
  | ModTest i c m x d =>
      calls v t = Some (Exact i c m) /\ result v t = None /\ d = data s /\ i < length (contents v) /\
      exists l n, In (l, n) (moments v t) /\ nth_error l i = Some (val x)
  | ModMutate r => (exists o, calls v t = Some o /\ is_mod o = true) /\ result v t = Some r
  | ModEnd r =>
      exists o, calls v t = Some o /\ is_mod o = true /\
      (result v t = Some r \/ (result v t = None /\ right v t o r))
  | AppBegin c | AppLoad c => calls v t = Some (Append c) /\ result v t = None
  | AppCount c d m => calls v t = Some (Append c) /\ result v t = None /\ d = data s /\ m <= mutate s
  | AppScan c d m i max =>
      calls v t = Some (Append c) /\ result v t = None /\ d = data s /\ m <= mutate s /\ max = cap (heap s d) /\
      i <= length (contents v)
  | AppAdd d i => d = data s /\ (exists c, calls v t = Some (Append c)) /\ result v t = Some (RIndex i)
  | AppMutate i | AppEnd i | AppReturn i => (exists c, calls v t = Some (Append c)) /\ result v t = Some (RIndex i)
  | AppFull c d m i max =>
      calls v t = Some (Append c) /\ result v t = None /\ d = data s /\ m <= mutate s /\
      max = cap (heap s d) /\ i = max
  | AppCheck c d m i max =>
      calls v t = Some (Append c) /\ result v t = None /\ d <= data s /\ m <= mutate s /\
      max = cap (heap s d) /\ i = max
  | ResLoad o => calls v t = Some o /\ result v t = None /\ is_res o = true
  | ResCount o d m => calls v t = Some o /\ result v t = None /\ is_res o = true /\ known chunk s v t d /\ m <= mutate s
  | Copy r k buf =>
      calls v t = Some (r_op r) /\ result v t = None /\ r_data r <= data s /\ r_mut r <= mutate s /\ k <= r_count r /\
      exists n, made_for chunk r n /\ n <= cap (heap s (r_data r)) /\
      (stale s (r_data r) (r_mut r) \/ (n = length (contents v) /\ copied r k buf (contents v)))
  | Publish r buf =>
      calls v t = Some (r_op r) /\ result v t = None /\ r_data r <= data s /\ r_mut r <= mutate s /\
      exists n, made_for chunk r n /\ n <= cap (heap s (r_data r)) /\
      (stale s (r_data r) (r_mut r) \/
       (n = length (contents v) /\ frozen chunk (mkBlock (new_count r) (r_max r) buf) (fst (plain (contents v) (r_op r)))))
  | RemGet i d =>
      calls v t = Some (Remove i) /\ d < data s /\ i < cap (heap s d) /\
      result v t = Some (RVal (option_map val (slots (heap s d) i)))
  | InsReturn => (exists i c, calls v t = Some (Insert i c)) /\ result v t = Some (RFlag true)
  end.

Record inv (chunk : nat) (s : state) (v : view) : Prop := mkInv
  { i_good : good (heap s (data s)) (contents v);
    i_cap : cap (heap s (data s)) = max_count chunk (count (heap s (data s)));
    i_lag : exists n, cnt lag (pcs s) n /\ count (heap s (data s)) + n = length (contents v);
    i_mod : cnt in_mod (pcs s) (modify s);
    i_added : cnt added (pcs s) (adding v);
    i_old : forall d, d < data s -> exists c, frozen chunk (heap s d) c;
    i_calls : forall t, pcs s t = Idle <-> calls v t = None;
    i_moments : forall t, pcs s t <> Idle -> In (contents v, adding v) (moments v t);
    i_pcs : forall t, pinv chunk s v t (pcs s t) }.

(** * What other threads' steps can do to a thread *)
Record env (chunk : nat) s v s' v' (u : nat) (p : pc) : Prop := mkEnv
  { e_data : data s <= data s'; e_mut : mutate s <= mutate s';
    e_calls : calls v' u = calls v u; e_res : result v' u = result v u;
    e_mom : incl (moments v u) (moments v' u);
    e_old : forall d, d < data s -> heap s' d = heap s d;
    e_cap : cap (heap s' (data s)) = cap (heap s (data s));
    e_case :
      (data s' = data s /\ length (contents v) <= length (contents v') /\
       ((contents v' = contents v /\ heap s' (data s) = heap s (data s)) \/ exists w, dirty (pcs s' w) = true)) \/
      (data s < data s' /\ in_mod p = false /\ heap s' (data s) = heap s (data s) /\
       exists c n, In (c, n) (moments v u) /\ frozen chunk (heap s (data s)) c);
    e_dirty : (exists w, dirty (pcs s w) = true) -> mutate s < mutate s' \/ exists w, dirty (pcs s' w) = true }.

Lemma known_env chunk s v s' v' u p d : env chunk s v s' v' u p -> known chunk s v u d -> known chunk s' v' u d.
Proof.
  intros E [->|(L & c & n & I & F)].
  - destruct (e_case _ _ _ _ _ _ _ E) as [(A & _)|(A & _ & B & c & n & I & F)]; [left; congruence|].
    right. split; [exact A|]. exists c, n. split; [now apply (e_mom _ _ _ _ _ _ _ E)|]. now rewrite B.
  - right. pose proof (e_data _ _ _ _ _ _ _ E). split; [lia|]. exists c, n.
    split; [now apply (e_mom _ _ _ _ _ _ _ E)|]. now rewrite (e_old _ _ _ _ _ _ _ E) by exact L.
Qed.

Lemma stale_env chunk s v s' v' u p d m : env chunk s v s' v' u p -> stale s d m -> m <= mutate s -> stale s' d m.
Proof.
  intros E S M. pose proof (e_data _ _ _ _ _ _ _ E). pose proof (e_mut _ _ _ _ _ _ _ E).
  destruct S as [S|[S|S]].
  - left. lia.
  - right. left. lia.
  - destruct (e_dirty _ _ _ _ _ _ _ E S); [right; left; lia|right; right; assumption].
Qed.

Lemma cap_env chunk s v s' v' u p d : env chunk s v s' v' u p -> d <= data s -> cap (heap s' d) = cap (heap s d).
Proof.
  intros E L. destruct (Nat.eq_dec d (data s)) as [->|Ne]; [exact (e_cap _ _ _ _ _ _ _ E)|].
  rewrite (e_old _ _ _ _ _ _ _ E) by lia. reflexivity.
Qed.

Lemma fresh_env chunk s v s' v' u p d m : env chunk s v s' v' u p -> d <= data s -> m <= mutate s ->
  stale s' d m \/ (contents v' = contents v).
Proof.
  intros E L M. destruct (e_case _ _ _ _ _ _ _ E) as [(A & B & [(C & D)|W])|(A & _)].
  - right. exact C.
  - left. right. right. exact W.
  - left. left. lia.
Qed.

Lemma right_env chunk s v s' v' u p o r : env chunk s v s' v' u p -> right v u o r -> right v' u o r.
Proof. intros E (l & n & I & P). exists l, n. split; [now apply (e_mom _ _ _ _ _ _ _ E)|exact P]. Qed.

Lemma pinv_env chunk s v s' v' u p : env chunk s v s' v' u p -> pinv chunk s v u p -> pinv chunk s' v' u p.
Proof.
  intros E H. pose proof (e_calls _ _ _ _ _ _ _ E) as Ec. pose proof (e_res _ _ _ _ _ _ _ E) as Er.
  pose proof (e_data _ _ _ _ _ _ _ E) as Ed. pose proof (e_mut _ _ _ _ _ _ _ E) as Em.
  assert (K : forall d, known chunk s v u d -> known chunk s' v' u d) by (intros; eapply known_env; eauto).
  assert (kle : forall d, known chunk s v u d -> d <= data s) by (intros d [->|(X & _)]; lia).
  assert (M : in_mod p = true -> data s' = data s /\ length (contents v) <= length (contents v')).
  { intros X. destruct (e_case _ _ _ _ _ _ _ E) as [(A & B & _)|(_ & A & _)]; [auto|congruence]. }
  destruct p; cbn [pinv] in *; try rewrite Ec; try rewrite Er; try exact H; try tauto;
    try (destruct H as (A & B & C); repeat split; auto; fail).
  - (* GetSlot *) destruct H as (A & B & C & D). repeat split; auto.
    now rewrite (cap_env _ _ _ _ _ _ _ _ E (kle _ C)).
  - destruct (M eq_refl) as (M1 & M2). intuition congruence.
  - destruct (M eq_refl) as (M1 & M2). destruct H as (A & B & C & -> & D). rewrite M1. repeat split; auto.
    now rewrite (cap_env _ _ _ _ _ _ _ _ E (le_n _)).
  - destruct (M eq_refl) as (M1 & M2). destruct H as (A & B & -> & D). rewrite M1. repeat split; auto. lia.
  - destruct (M eq_refl) as (M1 & M2). destruct H as (A & B & -> & D & l & n & I & N). rewrite M1. repeat split; auto; [lia|].
    exists l, n. split; [now apply (e_mom _ _ _ _ _ _ _ E)|exact N].
  - destruct H as (o & A & B & C). exists o. repeat split; auto.
    destruct C as [C|(C1 & C2)]; [now left|right; split; [exact C1|eapply right_env; eauto]].
  - destruct (M eq_refl) as (M1 & M2). destruct H as (A & B & -> & D). rewrite M1. repeat split; auto. lia.
  - destruct (M eq_refl) as (M1 & M2). destruct H as (A & B & -> & D & -> & F). rewrite M1. repeat split; auto; try lia.
    now rewrite (cap_env _ _ _ _ _ _ _ _ E (le_n _)).
  - destruct (M eq_refl) as (M1 & M2). destruct H as (-> & A & B). rewrite M1. auto.
  - destruct (M eq_refl) as (M1 & M2). destruct H as (A & B & -> & D & -> & ->). rewrite M1. repeat split; auto; try lia;
    now rewrite (cap_env _ _ _ _ _ _ _ _ E (le_n _)).
  - destruct H as (A & B & C & D & -> & ->). repeat split; auto; try lia;
    now rewrite (cap_env _ _ _ _ _ _ _ _ E C).
  - destruct H as (A & B & C & D & F). repeat split; auto. lia.
  - destruct H as (A & B & C & D & F & n & G & I & J). repeat split; auto; try lia.
    exists n. split; [exact G|]. split; [now rewrite (cap_env _ _ _ _ _ _ _ _ E C)|].
    destruct J as [J|J]; [left; eapply stale_env; eauto|].
    destruct (fresh_env _ _ _ _ _ _ _ _ _ E C D) as [X|X]; [now left|right; now rewrite X].
  - destruct H as (A & B & C & D & n & G & I & J). repeat split; auto; try lia.
    exists n. split; [exact G|]. split; [now rewrite (cap_env _ _ _ _ _ _ _ _ E C)|].
    destruct J as [J|J]; [left; eapply stale_env; eauto|].
    destruct (fresh_env _ _ _ _ _ _ _ _ _ E C D) as [X|X]; [now left|right; now rewrite X].
  - destruct H as (A & B & C & D). rewrite (cap_env _ _ _ _ _ _ _ _ E) by lia.
    rewrite (e_old _ _ _ _ _ _ _ E) by lia. repeat split; auto. lia.
Qed.

(** * Putting an invariant together again after a step of thread t *)
Lemma inv_step chunk s v s' v' t p :
  inv chunk s v ->
  pcs s' = tset (pcs s) t p ->
  good (heap s' (data s')) (contents v') ->
  cap (heap s' (data s')) = max_count chunk (count (heap s' (data s'))) ->
  (exists n, cnt lag (pcs s') n /\ count (heap s' (data s')) + n = length (contents v')) ->
  modify s' = modify s - b2n (in_mod (pcs s t)) + b2n (in_mod p) ->
  adding v' = adding v - b2n (added (pcs s t)) + b2n (added p) ->
  (forall d, d < data s' -> exists c, frozen chunk (heap s' d) c) ->
  (p = Idle <-> calls v' t = None) ->
  (p <> Idle -> In (contents v', adding v') (moments v' t)) ->
  (forall u, u <> t -> pcs s u <> Idle -> In (contents v', adding v') (moments v' u)) ->
  pinv chunk s' v' t p ->
  (forall u, u <> t -> calls v' u = calls v u) ->
  (forall u, u <> t -> pcs s u <> Idle -> env chunk s v s' v' u (pcs s u)) ->
  inv chunk s' v'.
Proof.
  intros I P G C L M A O CI MT MU PT CU E. constructor; auto.
  - rewrite P, M. apply cnt_set. apply I.
  - rewrite P, A. apply cnt_set. apply I.
  - intros u. rewrite P. destruct (Nat.eq_dec u t) as [->|Ne]; [now rewrite tset_eq|].
    rewrite tset_ne by exact Ne. rewrite CU by exact Ne. apply I.
  - intros u. rewrite P. destruct (Nat.eq_dec u t) as [->|Ne]; [now rewrite tset_eq|].
    rewrite tset_ne by exact Ne. now apply MU.
  - intros u. rewrite P. destruct (Nat.eq_dec u t) as [->|Ne]; [now rewrite tset_eq|].
    rewrite tset_ne by exact Ne. pose proof (i_pcs _ _ _ I u) as X.
    destruct (pcs s u) eqn:Eu; try exact Logic.I;
      (eapply pinv_env; [|exact X]; rewrite <- Eu; apply E; [exact Ne|congruence]).
Qed.

Lemma dirty_set ps t p : dirty (ps t) = false -> (exists w, dirty (ps w) = true) -> exists w, dirty (tset ps t p w) = true.
Proof.
  intros D (w & W). exists w. destruct (Nat.eq_dec w t) as [->|Ne]; [congruence|]. now rewrite tset_ne.
Qed.

(** A step that touches nothing but the thread's own place. *)
Lemma inv_go chunk s v t p :
  inv chunk s v -> pcs s t <> Idle -> p <> Idle ->
  in_mod p = in_mod (pcs s t) -> added p = added (pcs s t) -> lag p = lag (pcs s t) ->
  dirty (pcs s t) = false ->
  pinv chunk (go s t p) v t p -> inv chunk (go s t p) v.
Proof.
  intros I N1 N2 M A L D P.
  apply (inv_step chunk s v _ _ t p I); cbn [go modify mutate data heap pcs]; auto; try apply I.
  - destruct (i_lag _ _ _ I) as (n & X & Y). exists n. split; [|exact Y].
    pose proof (cnt_set lag (pcs s) n t p X) as Z. rewrite L in Z.
    replace (n - b2n (lag (pcs s t)) + b2n (lag (pcs s t))) with n in Z; [exact Z|].
    destruct (lag (pcs s t)) eqn:E; cbn [b2n]; [pose proof (cnt_pos _ _ _ _ X E)|]; lia.
  - rewrite M. pose proof (i_mod _ _ _ I) as X.
    destruct (in_mod (pcs s t)) eqn:E; cbn [b2n]; [pose proof (cnt_pos _ _ _ _ X E)|]; lia.
  - rewrite A. pose proof (i_added _ _ _ I) as X.
    destruct (added (pcs s t)) eqn:E; cbn [b2n]; [pose proof (cnt_pos _ _ _ _ X E)|]; lia.
  - split; [contradiction|]. intros X. apply (i_calls _ _ _ I) in X. contradiction.
  - intros _. now apply I.
  - intros u _ U. now apply I.
  - intros u Ne U. constructor; cbn [go modify mutate data heap pcs]; auto; try apply incl_refl.
    + left. repeat split; auto.
    + intros W. right. now apply dirty_set.
Qed.

Lemma cnt_same f ps n t p : cnt f ps n -> f p = f (ps t) -> cnt f (tset ps t p) n.
Proof.
  intros X L. pose proof (cnt_set f ps n t p X) as Z. rewrite L in Z.
  replace (n - b2n (f (ps t)) + b2n (f (ps t))) with n in Z; [exact Z|].
  destruct (f (ps t)) eqn:E; cbn [b2n]; [pose proof (cnt_pos _ _ _ _ X E)|]; lia.
Qed.

Lemma minus_plus_b2n f ps n t : cnt f ps n -> n - b2n (f (ps t)) + b2n (f (ps t)) = n.
Proof. intros X. destruct (f (ps t)) eqn:E; cbn [b2n]; [pose proof (cnt_pos _ _ _ _ X E)|]; lia. Qed.

(** A call begins. *)
Lemma inv_call chunk s v t o : inv chunk s v -> pcs s t = Idle ->
  inv chunk (go s t (start_of o)) (next v (ECall t o)).
Proof.
  intros I N.
  assert (F : in_mod (start_of o) = false /\ added (start_of o) = false /\ lag (start_of o) = false /\
              dirty (start_of o) = false /\ start_of o <> Idle) by (destruct o; repeat split; discriminate).
  destruct F as (F1 & F2 & F3 & F4 & F5).
  apply (inv_step chunk s v _ _ t (start_of o) I); cbn [go modify mutate data heap pcs next contents calls result adding moments];
    auto; try apply I.
  - destruct (i_lag _ _ _ I) as (n & X & Y). exists n. split; [|exact Y]. apply cnt_same; [exact X|]. now rewrite F3, N.
  - rewrite F1, N. cbn [in_mod b2n]. lia.
  - rewrite F2, N. cbn [added b2n]. lia.
  - rewrite tset_eq. split; [contradiction|discriminate].
  - intros _. rewrite tset_eq. now left.
  - intros u Ne U. rewrite tset_ne by exact Ne. now apply I.
  - destruct o; cbn [start_of pinv calls result is_mod is_res]; rewrite !tset_eq; auto.
  - intros u Ne. now rewrite tset_ne.
  - intros u Ne U. constructor; cbn [go modify mutate data heap pcs next contents calls result adding moments]; auto;
      try (rewrite tset_ne by exact Ne; auto; apply incl_refl).
    + left. repeat split; auto.
    + intros W. right. apply dirty_set; [now rewrite N|exact W].
Qed.

(** A call returns. *)
Lemma inv_ret chunk s v t r s' :
  inv chunk s v -> pcs s t <> Idle ->
  s' = mkState (modify s - b2n (in_mod (pcs s t))) (mutate s) (data s) (heap s) (tset (pcs s) t Idle) ->
  dirty (pcs s t) = false -> added (pcs s t) = is_append (calls v t) ->
  inv chunk s' (next v (ERet t r)).
Proof.
  intros I N -> D A.
  assert (L : lag (pcs s t) = false) by (destruct (pcs s t); try reflexivity; discriminate).
  apply (inv_step chunk s v _ _ t Idle I); cbn [go modify mutate data heap pcs next contents calls result adding moments];
    auto; try apply I.
  - destruct (i_lag _ _ _ I) as (n & X & Y). exists n. split; [|exact Y]. apply cnt_same; [exact X|]. now rewrite L.
  - rewrite A. unfold b2n. cbn [added]. lia.
  - rewrite tset_eq. tauto.
  - intros X. contradiction.
  - intros u _ _. now left.
  - exact Logic.I.
  - intros u Ne. now rewrite tset_ne.
  - intros u Ne U. constructor; cbn [go modify mutate data heap pcs next contents calls result adding moments]; auto.
    + now rewrite tset_ne.
    + intros x X. now right.
    + left. repeat split; auto.
    + intros W. right. now apply dirty_set.
Qed.

(** modify or mutate changes. *)
Lemma inv_word chunk s v t p s' :
  inv chunk s v -> pcs s t <> Idle -> p <> Idle ->
  pcs s' = tset (pcs s) t p -> data s' = data s -> heap s' = heap s ->
  modify s' = modify s - b2n (in_mod (pcs s t)) + b2n (in_mod p) ->
  mutate s' = mutate s + b2n (dirty (pcs s t)) ->
  added p = added (pcs s t) -> lag p = lag (pcs s t) ->
  pinv chunk s' v t p -> inv chunk s' v.
Proof.
  intros I N1 N2 P D H M U A L PI.
  apply (inv_step chunk s v _ _ t p I); auto; try rewrite D; try rewrite H; try apply I.
  - destruct (i_lag _ _ _ I) as (n & X & Y). exists n. rewrite P. split; [|exact Y]. now apply cnt_same.
  - rewrite A. symmetry. apply minus_plus_b2n. apply I.
  - split; [contradiction|]. intros X. apply (i_calls _ _ _ I) in X. contradiction.
  - intros _. now apply I.
  - intros u _ X. now apply I.
  - intros u Ne X. constructor; auto; try apply incl_refl; try rewrite D; try rewrite H; try lia; auto.
    + left. repeat split; auto.
    + intros W. rewrite U, P. destruct (dirty (pcs s t)) eqn:E; cbn [b2n]; [left; lia|]. right. now apply dirty_set.
Qed.

(** A set slot gets a new element. *)
Lemma good_set b c i x : good b c -> i < length c ->
  good (mkBlock (count b) (cap b) (tset (slots b) i (Some x))) (upd c i (val x)).
Proof.
  intros (L & G) H. split; cbn [cap slots]; [now rewrite upd_length|].
  intros j J. unfold tset. destruct (Nat.eqb_spec j i) as [->|Ne].
  - rewrite nth_error_upd_eq by exact H. reflexivity.
  - rewrite nth_error_upd_ne by auto. now apply G.
Qed.

Lemma good_app b c x : good b c -> length c < cap b ->
  good (mkBlock (count b) (cap b) (tset (slots b) (length c) (Some x))) (c ++ [val x]).
Proof.
  intros (L & G) H. split; cbn [cap slots]; [rewrite app_length; cbn; lia|].
  intros j J. unfold tset. destruct (Nat.eqb_spec j (length c)) as [->|Ne].
  - rewrite nth_error_app2 by lia. now rewrite Nat.sub_diag.
  - rewrite G by exact J. destruct (Nat.lt_ge_cases j (length c)).
    + now rewrite nth_error_app1.
    + rewrite nth_error_app2 by lia. destruct (j - length c) as [|[|k]] eqn:E; cbn; [lia| |];
      (rewrite (proj2 (nth_error_None c j)) by lia; reflexivity).
Qed.

Lemma inv_effect chunk s v t o i c p :
  inv chunk s v -> pcs s t <> Idle -> dirty (pcs s t) = false -> added (pcs s t) = false -> in_mod (pcs s t) = true ->
  calls v t = Some o ->
  (is_mod o = true /\ fst (plain (contents v) o) = upd (contents v) i (val c) /\ i < length (contents v) /\
     p = ModMutate (snd (plain (contents v) o)) \/
   o = Append c /\ i = length (contents v) /\ i < cap (heap s (data s)) /\ p = AppAdd (data s) i) ->
  inv chunk (go (set_slot s (data s) i c) t p) (next v (EEffect t)).
Proof.
  intros I N D A M C K. cbn [next]. rewrite C. destruct (plain (contents v) o) as [l r] eqn:Pl.
  set (d := data s) in *. set (b := heap s d) in *.
  assert (Lag : lag (pcs s t) = false) by (destruct (pcs s t); try reflexivity; discriminate).
  destruct (i_lag _ _ _ I) as (nl & X & Y). fold d b in Y.
  assert (Hs : forall j, heap (go (set_slot s d i c) t p) j =
                if Nat.eqb j d then mkBlock (count b) (cap b) (tset (slots b) i (Some c)) else heap s j) by reflexivity.
  assert (HD : heap (go (set_slot s d i c) t p) d = mkBlock (count b) (cap b) (tset (slots b) i (Some c)))
    by (rewrite Hs, Nat.eqb_refl; reflexivity).
  assert (Dp : dirty p = true) by (destruct K as [(_ & _ & _ & ->)|(_ & _ & _ & ->)]; reflexivity).
  assert (Mp : in_mod p = true) by (destruct K as [(_ & _ & _ & ->)|(_ & _ & _ & ->)]; reflexivity).
  assert (Ip : p <> Idle) by (intros ->; discriminate).
  assert (LL : good (mkBlock (count b) (cap b) (tset (slots b) i (Some c))) l /\
               length l = length (contents v) + b2n (lag p) /\ is_append (Some o) = lag p /\ added p = lag p).
  { destruct K as [(K1 & K2 & K3 & ->)|(-> & -> & K3 & ->)].
    - cbn [fst] in K2. subst l. repeat split; try (rewrite upd_length; cbn; lia); try (apply good_set; [apply I|exact K3]).
      destruct o; try discriminate; reflexivity.
    - cbn [plain] in Pl. injection Pl as <- <-. repeat split; try (rewrite app_length; cbn; lia);
      try (apply good_app; [apply I|exact K3]). }
  destruct LL as (G & Ll & La & Lad).
  apply (inv_step chunk s v _ _ t p I); cbn [modify mutate data pcs contents calls result adding moments go set_slot with_block];
    fold d; try rewrite HD; auto; try apply I.
  - exists (nl - b2n (lag (pcs s t)) + b2n (lag p)). split; [now apply cnt_set|]. rewrite Lag. cbn [b2n count]. lia.
  - rewrite M, Mp. pose proof (i_mod _ _ _ I) as Q. pose proof (cnt_pos _ _ _ _ Q M). cbn [b2n]. lia.
  - rewrite A, Lad, La. cbn [b2n]. unfold b2n. lia.
  - intros j J. rewrite Hs. destruct (Nat.eqb_spec j d); [lia|]. now apply I.
  - split; [contradiction|congruence].
  - intros _. now left.
  - intros u _ _. now left.
  - destruct K as [(K1 & K2 & K3 & ->)|(-> & -> & K3 & ->)]; cbn [pinv calls result snd]; rewrite tset_eq.
    + split; [|reflexivity]. now exists o.
    + cbn [plain] in Pl. injection Pl as <- <-. repeat split. now exists c.
  - intros u Ne U. constructor; cbn [modify mutate data pcs contents calls result adding moments go set_slot with_block]; auto; fold d.
    + now rewrite tset_ne.
    + intros q Q. now right.
    + intros j J. rewrite Hs. destruct (Nat.eqb_spec j d); [lia|reflexivity].
    + now rewrite HD.
    + left. split; [reflexivity|]. split; [lia|]. right. exists t. now rewrite tset_eq.
    + intros _. right. exists t. now rewrite tset_eq.
Qed.

(** count catches up. *)
Lemma inv_add chunk s v t i :
  1 <= chunk -> inv chunk s v -> pcs s t = AppAdd (data s) i ->
  inv chunk (go (with_block s (data s) (mkBlock (count (heap s (data s)) + 1) (cap (heap s (data s))) (slots (heap s (data s)))))
               t (AppMutate i)) v.
Proof.
  intros Ch I P. set (d := data s) in *. set (b := heap s d) in *.
  destruct (i_lag _ _ _ I) as (nl & X & Y). fold d b in Y.
  assert (L : lag (pcs s t) = true) by now rewrite P.
  pose proof (cnt_pos _ _ _ _ X L) as NP.
  set (s' := go _ _ _).
  assert (Hs : forall j, heap s' j = if Nat.eqb j d then mkBlock (count b + 1) (cap b) (slots b) else heap s j) by reflexivity.
  assert (HD : heap s' d = mkBlock (count b + 1) (cap b) (slots b)) by (rewrite Hs, Nat.eqb_refl; reflexivity).
  pose proof (i_good _ _ _ I) as G. fold d b in G. pose proof (i_cap _ _ _ I) as Cp. fold d b in Cp.
  pose proof (i_pcs _ _ _ I t) as PI. rewrite P in PI. cbn [pinv] in PI.
  apply (inv_step chunk s v s' _ t (AppMutate i) I); cbn [modify mutate data pcs go with_block s']; fold d; try rewrite HD; auto; try apply I.
  - cbn [cap count]. rewrite Cp. symmetry. apply max_count_succ; [exact Ch|]. rewrite <- Cp. destruct G as (G & _). lia.
  - exists (nl - b2n (lag (pcs s t)) + b2n (lag (AppMutate i))). split; [now apply cnt_set|]. rewrite L. cbn [b2n lag count]. lia.
  - rewrite P. cbn [in_mod b2n]. pose proof (i_mod _ _ _ I) as Q. assert (M : in_mod (pcs s t) = true) by now rewrite P.
    pose proof (cnt_pos _ _ _ _ Q M). lia.
  - rewrite P. cbn [added b2n]. pose proof (i_added _ _ _ I) as Q. assert (M : added (pcs s t) = true) by now rewrite P.
    pose proof (cnt_pos _ _ _ _ Q M). lia.
  - intros j J. rewrite Hs. destruct (Nat.eqb_spec j d); [lia|]. now apply I.
  - split; [discriminate|]. intros Z. apply (i_calls _ _ _ I) in Z. congruence.
  - intros _. apply I. congruence.
  - intros u _ Z. now apply I.
  - cbn [pinv]. tauto.
  - intros u Ne U. constructor; cbn [modify mutate data pcs go with_block s']; auto; fold d.
    + apply incl_refl.
    + intros j J. rewrite Hs. destruct (Nat.eqb_spec j d); [lia|reflexivity].
    + now rewrite HD.
    + left. split; [reflexivity|]. split; [lia|]. right. exists t. now rewrite tset_eq.
    + intros _. right. exists t. now rewrite tset_eq.
Qed.

(** New data is published. *)
Lemma inv_publish chunk s v t p r buf :
  1 <= chunk -> inv chunk s v -> pcs s t = Publish r buf ->
  modify s = 0 -> mutate s = r_mut r -> data s = r_data r ->
  p = match r_op r with Append _ => AppReturn (r_count r) | Remove i => RemGet i (r_data r) | _ => InsReturn end ->
  inv chunk (mkState 0 (mutate s + 1) (data s + 1)
               (tset (heap s) (data s + 1) (mkBlock (new_count r) (r_max r) buf)) (tset (pcs s) t p))
            (next v (EEffect t)).
Proof.
  intros Ch I P M0 Mu Da Pp.
  pose proof (i_pcs _ _ _ I t) as PI. rewrite P in PI. cbn [pinv] in PI.
  destruct PI as (C & R & _ & _ & n & MF & _ & S). cbn [next]. rewrite C.
  assert (NM : forall u, in_mod (pcs s u) = false).
  { intros u. pose proof (i_mod _ _ _ I) as Q. rewrite M0 in Q. now apply (cnt_zero _ _ _ Q). }
  destruct S as [[S|[S|(u & S)]]|S]; [lia|lia| |].
  { specialize (NM u). destruct (pcs s u); discriminate. }
  destruct S as (-> & F). destruct (i_lag _ _ _ I) as (nl & X & Y).
  assert (nl = 0) as ->.
  { apply (cnt_none _ _ _ X). intros u. specialize (NM u). destruct (pcs s u); try reflexivity; discriminate. }
  assert (FZ : frozen chunk (heap s (data s)) (contents v)).
  { split; [apply I|]. split; [lia|apply I]. }
  set (s' := mkState _ _ _ _ _).
  assert (Hn : heap s' (data s + 1) = mkBlock (new_count r) (r_max r) buf) by (cbn [heap s']; now rewrite tset_eq).
  assert (Ho : forall d, d <= data s -> heap s' d = heap s d) by (intros d D; cbn [heap s']; apply tset_ne; lia).
  destruct (plain (contents v) (r_op r)) as [l x] eqn:Pl. cbn [fst] in F. destruct F as (F1 & F2 & F3).
  assert (Ip : p <> Idle /\ in_mod p = false /\ lag p = false /\ added p = is_append (Some (r_op r))).
  { unfold made_for in MF. subst p. destruct (r_op r); try contradiction; repeat split; discriminate. }
  destruct Ip as (Ip & Ip1 & Ip2 & Ip3).
  apply (inv_step chunk s v s' _ t p I); cbn [modify mutate data pcs s' contents calls result adding moments];
    try rewrite Hn; auto; try apply I.
  - exists 0. split; [|cbn [count] in *; lia]. apply cnt_same; [exact X|]. now rewrite Ip2, P.
  - rewrite P, M0, Ip1. reflexivity.
  - rewrite P, Ip3. unfold b2n. cbn [added]. lia.
  - intros d D. rewrite Ho by lia. destruct (Nat.eq_dec d (data s)) as [->|Ne]; [now exists (contents v)|]. apply I. lia.
  - split; [contradiction|congruence].
  - intros _. now left.
  - intros u _ _. now left.
  - subst p. unfold made_for in MF. destruct (r_op r) eqn:Er; try contradiction; cbn [pinv calls result data s']; rewrite tset_eq.
    + cbn [plain] in Pl. injection Pl as <- <-. rewrite MF. cbn [r_count]. split; [now exists c|reflexivity].
    + destruct MF as (MF & _). cbn [plain] in Pl. rewrite (proj2 (Nat.ltb_lt i _) MF) in Pl. injection Pl as <- <-.
      split; [now exists i, c|reflexivity].
    + destruct MF as (MF & _). cbn [plain] in Pl. injection Pl as <- <-. rewrite <- Da. rewrite !Ho by lia.
      destruct FZ as ((Z1 & Z2) & Z3 & Z4). repeat split; auto; try lia. f_equal. f_equal. symmetry. apply Z2. lia.
  - intros u Ne U. constructor; cbn [modify mutate data pcs s' contents calls result adding moments]; auto; try lia.
    + now rewrite tset_ne.
    + intros q Q. now right.
    + intros d D. apply Ho. lia.
    + now rewrite Ho.
    + right. split; [lia|]. split; [apply NM|]. split; [now apply Ho|].
      exists (contents v), (adding v). split; [now apply I|exact FZ].
Qed.

(** * The copy a resize makes *)
Lemma finish_ok chunk r buf c : 1 <= chunk -> made_for chunk r (length c) -> copied r (r_count r) buf c ->
  frozen chunk (mkBlock (new_count r) (r_max r) (finish r buf)) (fst (plain c (r_op r))).
Proof.
  intros Ch MF Co. unfold made_for in MF. destruct (r_op r) eqn:Eo; try contradiction.
  - rewrite MF in Co |- *. unfold copied, copy_dst, copy_src in Co. unfold finish, new_count, copy_dst.
    cbn [r_count r_max r_skip r_extra r_put] in *. cbn [plain fst].
    pose proof (max_count_ge chunk (length c + 1) Ch) as Ge.
    split; [split|split]; cbn [cap count slots]; [rewrite app_length; cbn; lia| |rewrite app_length; cbn; lia|reflexivity].
    intros j J. unfold tset. destruct (Nat.eqb_spec j (length c)) as [->|Ne].
    + rewrite nth_error_app2 by lia. now rewrite Nat.sub_diag.
    + destruct (Nat.leb_spec (length c) j); destruct (Nat.ltb_spec j (max_count chunk (length c + 1))); try lia; cbn [andb].
      * symmetry. cbn [option_map]. apply nth_error_None. rewrite app_length. cbn. lia.
      * rewrite Co by lia. now rewrite nth_error_app1.
  - destruct MF as (Li & MF). rewrite MF in Co |- *. unfold copied, copy_dst, copy_src in Co. unfold finish, new_count, copy_dst.
    cbn [r_count r_max r_skip r_extra r_put] in *. cbn [plain]. rewrite (proj2 (Nat.ltb_lt _ _) Li). cbn [fst].
    pose proof (max_count_ge chunk (length c + 1) Ch) as Ge.
    split; [split|split]; cbn [cap count slots]; try (rewrite insert_at_length; cbn [length]; lia); [|reflexivity].
    intros j J. rewrite ArrayProofs.nth_error_insert_at by lia. cbn [length]. unfold tset.
    destruct (Nat.eqb_spec j i) as [->|Ne].
    + destruct (Nat.ltb_spec i i); [lia|]. destruct (Nat.ltb_spec i (i + 1)); [|lia]. now rewrite Nat.sub_diag.
    + destruct (Nat.ltb_spec (length c) i); [lia|].
      destruct (Nat.leb_spec (length c + 1) j); destruct (Nat.ltb_spec j (max_count chunk (length c + 1))); try lia; cbn [andb].
      * destruct (Nat.ltb_spec j i); [lia|]. destruct (Nat.ltb_spec j (i + 1)); [lia|].
        symmetry. cbn [option_map]. apply nth_error_None. lia.
      * destruct (Nat.ltb_spec j i).
        -- specialize (Co j ltac:(lia)). destruct (Nat.ltb_spec j i); [exact Co|lia].
        -- destruct (Nat.ltb_spec j (i + 1)); [lia|]. specialize (Co (j - 1) ltac:(lia)).
           destruct (Nat.ltb_spec (j - 1) i); [lia|]. now replace (j - 1 + 1) with j in Co by lia.
  - destruct MF as (Li & MF). rewrite MF in Co |- *. unfold copied, copy_dst, copy_src in Co. unfold finish, new_count, copy_dst.
    cbn [r_count r_max r_skip r_extra r_put] in *. cbn [plain fst].
    pose proof (max_count_ge chunk (length c - 1) Ch) as Ge.
    assert (Lr : length (remove_at c i 1) = length c - 1) by (rewrite remove_at_length; lia).
    split; [split|split]; cbn [cap count slots]; try lia; [|f_equal; lia].
    intros j J. rewrite ArrayProofs.nth_error_remove_at by lia.
    destruct (Nat.leb_spec (length c - 1) j); destruct (Nat.ltb_spec j (max_count chunk (length c - 1))); try lia; cbn [andb].
    + destruct (Nat.ltb_spec j i); [lia|]. symmetry. cbn [option_map]. apply nth_error_None. lia.
    + rewrite Co by lia. now destruct (Nat.ltb_spec j i).
Qed.

Lemma made_for_bounds chunk r n : 1 <= chunk -> made_for chunk r n ->
  (forall k, k < r_count r -> copy_src r k < n /\ copy_dst r k < r_max r) /\
  match r_put r with Some (i, _) => i < r_max r | None => True end /\
  (forall j k, j < k -> copy_dst r j <> copy_dst r k).
Proof.
  intros Ch MF. unfold made_for in MF.
  pose proof (max_count_ge chunk (n + 1) Ch). pose proof (max_count_ge chunk (n - 1) Ch).
  destruct (r_op r) eqn:Eo; try contradiction.
  - rewrite MF. unfold copy_src, copy_dst. cbn [r_count r_max r_skip r_extra r_put]. repeat split; intros; lia.
  - destruct MF as (Li & MF). rewrite MF. unfold copy_src, copy_dst. cbn [r_count r_max r_skip r_extra r_put]. repeat split; intros.
    + lia.
    + destruct (Nat.ltb_spec k i); lia.
    + lia.
    + destruct (Nat.ltb_spec k i); destruct (Nat.ltb_spec j i); lia.
  - destruct MF as (Li & MF). rewrite MF. unfold copy_src, copy_dst. cbn [r_count r_max r_skip r_extra r_put]. repeat split; intros.
    + destruct (Nat.ltb_spec k i); lia.
    + lia.
    + lia.
Qed.

Lemma copied_more r k buf c x : (forall j k, j < k -> copy_dst r j <> copy_dst r k) ->
  copied r k buf c -> option_map val x = nth_error c (copy_src r k) -> copied r (k + 1) (tset buf (copy_dst r k) x) c.
Proof.
  intros D Co X j J. destruct (Nat.eq_dec j k) as [->|Ne]; [now rewrite tset_eq|].
  rewrite tset_ne by (apply D; lia). apply Co. lia.
Qed.

(** * Every step *)
Lemma known_block chunk s v t d : inv chunk s v -> pcs s t <> Idle -> known chunk s v t d ->
  exists l n, In (l, n) (moments v t) /\ good (heap s d) l /\ count (heap s d) <= length l <= count (heap s d) + n /\
  cap (heap s d) = max_count chunk (count (heap s d)).
Proof.
  intros I N [->|(L & c & n & X & F)].
  - exists (contents v), (adding v). split; [now apply I|]. split; [apply I|]. split; [|apply I].
    destruct (i_lag _ _ _ I) as (nl & A & B).
    pose proof (cnt_le _ _ _ _ _ A (i_added _ _ _ I)) as Le. specialize (Le ltac:(intros []; auto)). lia.
  - exists c, n. destruct F as (F1 & F2 & F3). repeat split; auto; try apply F1; lia.
Qed.

Lemma count_cap chunk s v d : 1 <= chunk -> inv chunk s v -> d <= data s ->
  count (heap s d) <= cap (heap s d) /\ cap (heap s d) = max_count chunk (count (heap s d)).
Proof.
  intros Ch I L. assert (X : cap (heap s d) = max_count chunk (count (heap s d))).
  { destruct (Nat.eq_dec d (data s)) as [->|Ne]; [apply I|].
    destruct (i_old _ _ _ I d ltac:(lia)) as (c & _ & _ & F). exact F. }
  split; [rewrite X; now apply max_count_ge|exact X].
Qed.

Lemma not_stale_count chunk s v d m : inv chunk s v -> d = data s -> m <= mutate s ->
  stale s d m \/ count (heap s d) = length (contents v).
Proof.
  intros I -> M. destruct (i_lag _ _ _ I) as (n & A & B). destruct n as [|n]; [right; lia|].
  left. right. right. destruct A as (l & _ & L & X). destruct l as [|u l]; [discriminate|].
  exists u. assert (Y : lag (pcs s u) = true) by (apply X; now left). destruct (pcs s u); try discriminate. reflexivity.
Qed.

Lemma stale_go s t p d m : dirty (pcs s t) = false -> stale s d m -> stale (go s t p) d m.
Proof. intros D [S|[S|S]]; [now left|right; now left|right; right; now apply dirty_set]. Qed.

Lemma slot_some s d i x : slot s d i = Some x -> i < cap (heap s d) /\ x = slots (heap s d) i.
Proof. unfold slot. destruct (Nat.ltb_spec i (cap (heap s d))); [|discriminate]. intros H0. injection H0 as <-. auto. Qed.

Definition step_ok chunk v s' e : Prop := inv chunk s' (next v e) /\ effect_ok v e /\ return_nearly_ok v e.

Lemma tau_ok chunk v s' : inv chunk s' v -> step_ok chunk v s' ETau.
Proof. intros H. split; [exact H|]. split; exact Logic.I. Qed.

Lemma right_now chunk s v t o r : inv chunk s v -> pcs s t <> Idle -> plain (contents v) o = (contents v, r) -> right v t o r.
Proof. intros I N P. exists (contents v), (adding v). split; [now apply I|exact P]. Qed.

Lemma upd_out {A} (c : list A) : forall i x, length c <= i -> upd c i x = c.
Proof. induction c as [|a c IH]; intros [|i] x H; cbn in *; try lia; auto. f_equal. apply IH. lia. Qed.

Ltac ret_inv I P C :=
  eapply inv_ret;
  [exact I|rewrite P; discriminate|unfold go; cbn [with_modify modify mutate data heap pcs]; f_equal; rewrite P; cbn [in_mod b2n]; lia
  |now rewrite P|rewrite P, C; try reflexivity].

Ltac word_inv I P p :=
  match type of I with inv ?ch ?s ?v =>
    match type of P with pcs _ ?t = _ =>
      let Q := fresh in
      pose proof (fun X => cnt_pos _ _ _ t (i_mod _ _ _ I) X) as Q; rewrite P in Q; cbn [in_mod] in Q;
      apply (inv_word ch s v t p);
      [exact I|rewrite P; discriminate|discriminate|reflexivity|reflexivity|reflexivity
      |rewrite P; cbn [with_modify with_mutate go modify in_mod b2n]; try (specialize (Q eq_refl)); lia
      |rewrite P; cbn [with_modify with_mutate go mutate dirty b2n]; lia|now rewrite P|now rewrite P|clear Q]
    end end.

Lemma step_inv chunk ext s v l s' e :
  1 <= chunk -> inv chunk s v -> step chunk ext s l = Some (s', e) -> step_ok chunk v s' e.
Proof.
  intros Ch I H. destruct l as [t o|t]; cbn [step] in H.
  { destruct (pcs s t) eqn:P; try discriminate. injection H as <- <-.
    split; [now apply inv_call|]. split; exact Logic.I. }
  pose proof (i_pcs _ _ _ I t) as PI.
  assert (go_ok : forall p, p <> Idle -> pcs s t <> Idle ->
    in_mod p = in_mod (pcs s t) -> added p = added (pcs s t) -> lag p = lag (pcs s t) -> dirty (pcs s t) = false ->
    pinv chunk (go s t p) v t p -> step_ok chunk v (go s t p) ETau).
  { intros. apply tau_ok. now apply inv_go. }
  pose proof (i_moments _ _ _ I t) as MM.
  remember (pcs s t) as p eqn:P. symmetry in P. unfold step_pc in H. destruct p; cbn [pinv] in PI.
  - discriminate.
  - (* CountLoad *) injection H as <- <-. apply go_ok; try discriminate; auto. cbn [pinv]. repeat split; try tauto. now left.
  - (* CountCount *) injection H as <- <-. destruct PI as (C & R & K). split; [|split; [exact Logic.I|]].
    + ret_inv I P C.
    + exists Count. split; [exact C|]. rewrite R.
      destruct (known_block _ _ _ _ _ I ltac:(rewrite P; discriminate) K) as (l & n & A & B & D & _).
      exists l, n. split; [exact A|]. right. exact D.
  - (* GetLoad *) injection H as <- <-. apply go_ok; try discriminate; auto. cbn [pinv]. repeat split; try tauto. now left.
  - (* GetCount *) destruct PI as (C & R & K).
    destruct (known_block _ _ _ _ _ I ltac:(rewrite P; discriminate) K) as (l & n & A & B & _ & D).
    destruct (Nat.ltb_spec i (max_count chunk (count (heap s d)))) as [L|L]; injection H as <- <-.
    + apply go_ok; try discriminate; auto. cbn [pinv go heap]. repeat split; auto. now rewrite D.
    + split; [|split; [exact Logic.I|]].
      * ret_inv I P C.
      * exists (Get i). split; [exact C|]. rewrite R. exists l, n. split; [exact A|]. left. cbn [plain]. f_equal. f_equal.
        apply nth_error_None. destruct B as (B & _). lia.
  - (* GetSlot *) destruct PI as (C & R & K & L). destruct (slot s d i) as [x|] eqn:S; [|discriminate]. injection H as <- <-.
    apply slot_some in S. destruct S as (_ & ->).
    destruct (known_block _ _ _ _ _ I ltac:(rewrite P; discriminate) K) as (l & n & A & B & _ & D).
    split; [|split; [exact Logic.I|]].
    + ret_inv I P C.
    + exists (Get i). split; [exact C|]. rewrite R. exists l, n. split; [exact A|]. left. cbn [plain]. f_equal. f_equal.
      symmetry. now apply B.
  - (* ModBegin *) injection H as <- <-. apply tau_ok.
    word_inv I P (ModLoad o). exact PI.
  - (* ModLoad *) injection H as <- <-. apply go_ok; try discriminate; auto. cbn [pinv]. tauto.
  - (* ModCount *) destruct PI as (C & R & O & ->).
    destruct (Nat.ltb_spec (index_of o) (max_count chunk (count (heap s (data s))))) as [L|L]; injection H as <- <-.
    + apply go_ok; try discriminate; auto. cbn [pinv go heap data]. repeat split; auto.
      rewrite (i_cap _ _ _ I). exact L.
    + apply go_ok; try discriminate; auto. cbn [pinv]. exists o. repeat split; auto. right. split; [exact R|].
      rewrite <- (i_cap _ _ _ I) in L. pose proof (i_good _ _ _ I) as (G & _).
      eapply right_now; [exact I|rewrite P; discriminate|].
      assert (N : nth_error (contents v) (index_of o) = None) by (apply nth_error_None; lia).
      destruct o; try discriminate; cbn [index_of plain] in *; rewrite N; [|reflexivity].
      f_equal. apply upd_out. lia.
  - (* ModSlot *) destruct PI as (C & R & O & -> & L).
    destruct (slot s (data s) (index_of o)) as [x|] eqn:S; [|discriminate]. apply slot_some in S. destruct S as (_ & ->).
    pose proof (i_good _ _ _ I) as (G1 & G2). specialize (G2 _ L).
    destruct o; try discriminate; cbn [index_of] in *.
    + destruct (slots (heap s (data s)) i) as [x|] eqn:S; cbn [option_map] in G2; injection H as <- <-.
      * apply go_ok; try discriminate; auto. cbn [pinv go data]. repeat split; auto.
        apply nth_error_Some. congruence.
      * apply go_ok; try discriminate; auto. cbn [pinv]. exists (Replace i c). repeat split; auto. right. split; [exact R|].
        eapply right_now; [exact I|rewrite P; discriminate|]. cbn [plain]. rewrite <- G2. f_equal.
        apply upd_out. now apply nth_error_None.
    + destruct (slots (heap s (data s)) i) as [x|] eqn:S; cbn [option_map] in G2.
      * destruct ext.
        -- injection H as <- <-. apply go_ok; try discriminate; auto. cbn [pinv go data]. repeat split; auto.
           { apply nth_error_Some. congruence. }
           exists (contents v), (adding v). split; [apply MM; discriminate|congruence].
        -- destruct (Z.eqb_spec (val x) m) as [E|E]; injection H as <- <-.
           ++ assert (Pl : plain (contents v) (Exact i c m) = (upd (contents v) i (val c), RFlag true)).
              { cbn [plain]. rewrite <- G2, E, Z.eqb_refl. reflexivity. }
              split; [|split; [split; [exact R|]; exists (Exact i c m); split; [exact C|now rewrite Pl]|exact Logic.I]].
              apply (inv_effect chunk s v t (Exact i c m)); auto; try (rewrite P; try discriminate; reflexivity).
              left. rewrite Pl. repeat split; auto. apply nth_error_Some. congruence.
           ++ apply go_ok; try discriminate; auto. cbn [pinv]. exists (Exact i c m). repeat split; auto. right. split; [exact R|].
              eapply right_now; [exact I|rewrite P; discriminate|]. cbn [plain]. rewrite <- G2.
              destruct (Z.eqb_spec (val x) m); [contradiction|reflexivity].
      * injection H as <- <-. apply go_ok; try discriminate; auto. cbn [pinv]. exists (Exact i c m). repeat split; auto.
        right. split; [exact R|]. eapply right_now; [exact I|rewrite P; discriminate|]. cbn [plain]. now rewrite <- G2.
  - (* ModExchange *) destruct PI as (C & R & -> & L).
    destruct (slot s (data s) i) as [x|] eqn:S; [|discriminate]. apply slot_some in S. destruct S as (Lc & ->).
    pose proof (i_good _ _ _ I) as (G1 & G2). specialize (G2 _ Lc).
    destruct (slots (heap s (data s)) i) as [x|] eqn:S; cbn [option_map] in G2.
    + injection H as <- <-. split; [|split; [split; [exact R|]; exists (Replace i c); split; [exact C|cbn [plain snd]; now rewrite <- G2]|exact Logic.I]].
      apply (inv_effect chunk s v t (Replace i c)); auto; try (rewrite P; try discriminate; reflexivity).
      left. cbn [plain fst snd is_mod]. rewrite G2. auto.
    + symmetry in G2. apply nth_error_None in G2. lia.
  - (* ModTest *) destruct PI as (C & R & -> & L & l & n & A & B).
    destruct (Z.eqb_spec (val v0) m) as [E|E].
    + destruct (slot s (data s) i) as [x|] eqn:S; [|discriminate]. apply slot_some in S. destruct S as (Lc & ->).
      pose proof (i_good _ _ _ I) as (G1 & G2). specialize (G2 _ Lc).
      destruct (slots (heap s (data s)) i) as [x|] eqn:S; cbn [option_map] in G2; [|discriminate].
      destruct (same x v0) eqn:Sa; injection H as <- <-.
      * assert (Vx : val x = m) by (unfold same in Sa; apply andb_true_iff in Sa; destruct Sa as (_ & Sa); apply Z.eqb_eq in Sa; congruence).
        assert (Pl : plain (contents v) (Exact i c m) = (upd (contents v) i (val c), RFlag true)).
        { cbn [plain]. rewrite <- G2, Vx, Z.eqb_refl. reflexivity. }
        split; [|split; [split; [exact R|]; exists (Exact i c m); split; [exact C|now rewrite Pl]|exact Logic.I]].
        apply (inv_effect chunk s v t (Exact i c m)); auto; try (rewrite P; try discriminate; reflexivity).
        left. rewrite Pl. auto.
      * apply go_ok; try discriminate; auto. cbn [pinv go data]. repeat split; auto.
        exists (contents v), (adding v). split; [apply MM; discriminate|congruence].
    + injection H as <- <-. apply go_ok; try discriminate; auto. cbn [pinv]. exists (Exact i c m). repeat split; auto.
      right. split; [exact R|]. exists l, n. split; [exact A|]. cbn [plain]. rewrite B.
      destruct (Z.eqb_spec (val v0) m); [contradiction|reflexivity].
  - (* ModMutate *) injection H as <- <-. apply tau_ok. destruct PI as ((o & C & O) & R).
    word_inv I P (ModEnd r). cbn [pinv]. exists o. auto.
  - (* ModEnd *) injection H as <- <-. destruct PI as (o & C & O & R). split; [|split; [exact Logic.I|]].
    + ret_inv I P C. now destruct o.
    + exists o. split; [exact C|]. destruct R as [R|(R & l & n & A & B)]; rewrite R; [reflexivity|].
      exists l, n. split; [exact A|]. now left.
  - (* AppBegin *) injection H as <- <-. apply tau_ok.
    word_inv I P (AppLoad c). exact PI.
  - (* AppLoad *) injection H as <- <-. apply go_ok; try discriminate; auto. cbn [pinv go data mutate]. repeat split; auto; tauto.
  - (* AppCount *) injection H as <- <-. destruct PI as (C & R & -> & L).
    apply go_ok; try discriminate; auto. cbn [pinv go data mutate heap]. repeat split; auto.
    + symmetry. apply I.
    + destruct (i_lag _ _ _ I) as (nl & A & B). lia.
  - (* AppScan *) destruct PI as (C & R & -> & Lm & -> & Li).
    destruct (Nat.ltb_spec i (cap (heap s (data s)))) as [L|L].
    + destruct (slot s (data s) i) as [x|] eqn:S; [|discriminate]. apply slot_some in S. destruct S as (Lc & ->).
      pose proof (i_good _ _ _ I) as (G1 & G2). specialize (G2 _ Lc).
      destruct (slots (heap s (data s)) i) as [x|] eqn:S; cbn [option_map] in G2; injection H as <- <-.
      * apply go_ok; try discriminate; auto. cbn [pinv go data mutate heap]. repeat split; auto.
        assert (i < length (contents v)) by (apply nth_error_Some; congruence). lia.
      * symmetry in G2. apply nth_error_None in G2. assert (i = length (contents v)) as -> by lia.
        split; [|split; [split; [exact R|]; exists (Append c); split; [exact C|reflexivity]|exact Logic.I]].
        apply (inv_effect chunk s v t (Append c)); auto; try (rewrite P; try discriminate; reflexivity).
    + injection H as <- <-. apply go_ok; try discriminate; auto. cbn [pinv go data mutate heap]. repeat split; auto.
      pose proof (i_good _ _ _ I) as (G1 & G2). lia.
  - (* AppAdd *) destruct PI as (-> & _). injection H as <- <-. apply tau_ok. apply inv_add; auto.
  - (* AppMutate *) injection H as <- <-. apply tau_ok.
    word_inv I P (AppEnd i). exact PI.
  - (* AppEnd *) injection H as <- <-. destruct PI as ((c & C) & R). split; [|split; [exact Logic.I|]].
    + ret_inv I P C.
    + exists (Append c). split; [exact C|]. now rewrite R.
  - (* AppFull *) injection H as <- <-. apply tau_ok. destruct PI as (C & R & -> & Lm & -> & ->).
    word_inv I P (AppCheck c (data s) m (cap (heap s (data s))) (cap (heap s (data s)))). cbn [pinv go with_modify data mutate heap]. repeat split; auto.
  - (* AppCheck *) destruct PI as (C & R & Ld & Lm & -> & ->).
    destruct (count_cap _ _ _ d Ch I Ld) as (Cc & Cm).
    destruct (Nat.eqb_spec (cap (heap s d)) (count (heap s d))) as [E|E]; injection H as <- <-.
    + apply go_ok; try discriminate; auto. cbn [pinv r_op r_data r_mut r_count go data mutate heap contents].
      repeat split; auto; try lia. exists (cap (heap s d)). split; [|split; [lia|]].
      * unfold made_for. cbn [r_op r_data r_mut]. f_equal. rewrite Cm. now rewrite max_count_full.
      * destruct (Nat.eq_dec d (data s)) as [->|Ne]; [|left; left; cbn [go data]; lia].
        destruct (not_stale_count _ _ _ _ m I eq_refl Lm) as [S|S].
        -- left. apply stale_go; [now rewrite P|exact S].
        -- right. split; [congruence|]. intros j J. lia.
    + apply go_ok; try discriminate; auto. cbn [pinv]. auto.
  - (* AppReturn *) injection H as <- <-. destruct PI as ((c & C) & R). split; [|split; [exact Logic.I|]].
    + ret_inv I P C.
    + exists (Append c). split; [exact C|]. now rewrite R.
  - (* ResLoad *) injection H as <- <-. apply go_ok; try discriminate; auto. cbn [pinv go mutate]. repeat split; try tauto; [now left|lia].
  - (* ResCount *) destruct PI as (C & R & O & K & Lm).
    destruct (known_block _ _ _ _ _ I ltac:(rewrite P; discriminate) K) as (l & n & A & B & D & Cm).
    assert (Ld : d <= data s) by (destruct K as [->|(K & _)]; lia).
    destruct (count_cap _ _ _ d Ch I Ld) as (Cc & _).
    assert (Fresh : forall q, stale (go s t q) d m \/ count (heap s d) = length (contents v)).
    { intros q. destruct (Nat.eq_dec d (data s)) as [->|Ne]; [|left; left; cbn [go data]; lia].
      destruct (not_stale_count _ _ _ _ m I eq_refl Lm) as [S|S]; [|now right].
      left. apply stale_go; [now rewrite P|exact S]. }
    destruct o; try discriminate; destruct (Nat.leb_spec (count (heap s d)) i) as [L|L]; cbn [orb] in H.
    + injection H as <- <-. split; [|split; [exact Logic.I|]].
      * ret_inv I P C.
      * exists (Insert i c). split; [exact C|]. rewrite R. exists l, n. split; [exact A|]. right. lia.
    + destruct (Nat.eqb_spec (count (heap s d)) 0); [lia|]. injection H as <- <-.
      apply go_ok; try discriminate; auto. cbn [pinv r_op r_data r_mut r_count]. repeat split; auto; try (cbn [go data mutate]; lia).
      exists (count (heap s d)). split; [|split; [exact Cc|]].
      * unfold made_for. cbn [r_op r_data r_mut]. auto.
      * match goal with |- stale (go s t ?q) _ _ \/ _ => destruct (Fresh q) as [F|F]; [now left|right] end. split; [exact F|]. intros j J. lia.
    + injection H as <- <-. split; [|split; [exact Logic.I|]].
      * ret_inv I P C.
      * exists (Remove i). split; [exact C|]. rewrite R. exists l, n. split; [exact A|]. right. lia.
    + destruct (Nat.eqb_spec (count (heap s d)) 0); [lia|]. injection H as <- <-.
      apply go_ok; try discriminate; auto. cbn [pinv r_op r_data r_mut r_count]. repeat split; auto; try (cbn [go data mutate]; lia).
      exists (count (heap s d)). split; [|split; [exact Cc|]].
      * unfold made_for. cbn [r_op r_data r_mut]. auto.
      * match goal with |- stale (go s t ?q) _ _ \/ _ => destruct (Fresh q) as [F|F]; [now left|right] end. split; [exact F|]. intros j J. lia.
  - (* Copy *) destruct PI as (C & R & Ld & Lm & Lk & n & MF & Ln & S).
    destruct (made_for_bounds _ _ _ Ch MF) as (B1 & B2 & B3).
    destruct (Nat.ltb_spec k (r_count r)) as [L|L].
    + destruct (slot s (r_data r) (copy_src r k)) as [x|] eqn:Sl; [|discriminate]. apply slot_some in Sl. destruct Sl as (Lc & ->).
      destruct (Nat.ltb_spec (copy_dst r k) (r_max r)); [|discriminate]. injection H as <- <-.
      apply go_ok; try discriminate; auto. cbn [pinv go data mutate heap]. repeat split; auto; try lia.
      exists n. split; [exact MF|]. split; [exact Ln|].
      destruct S as [S|(S1 & S2)]; [left; apply stale_go; [now rewrite P|exact S]|].
      destruct (Nat.eq_dec (r_data r) (data s)) as [E|Ne]; [|left; left; cbn [go data]; lia].
      right. split; [exact S1|]. apply copied_more; [exact B3|exact S2|].
      rewrite E in Lc |- *. now apply (i_good _ _ _ I).
    + destruct (match r_put r with Some (i, _) => i <? r_max r | None => true end); [|discriminate]. injection H as <- <-.
      apply go_ok; try discriminate; auto. cbn [pinv go data mutate heap]. repeat split; auto; try lia.
      exists n. split; [exact MF|]. split; [exact Ln|].
      destruct S as [S|(-> & S2)]; [left; apply stale_go; [now rewrite P|exact S]|].
      right. split; [reflexivity|]. apply finish_ok; auto. now replace (r_count r) with k by lia.
  - (* Publish *) destruct ((modify s =? 0) && (mutate s =? r_mut r) && (data s =? r_data r)) eqn:T; injection H as <- <-.
    + split; [|split; [|exact Logic.I]].
      * apply (inv_publish chunk s v t _ r buf); auto; lia.
      * destruct PI as (C & R & _ & _ & n & MF & _ & S). split; [exact R|]. exists (r_op r). split; [exact C|].
        destruct S as [[S|[S|(u & S)]]|(-> & _)]; [lia|lia| |].
        { exfalso. assert (X : in_mod (pcs s u) = false).
          { pose proof (i_mod _ _ _ I) as Q. replace (modify s) with 0 in Q by lia. now apply (cnt_zero _ _ _ Q). }
          destruct (pcs s u); discriminate. }
        unfold made_for in MF. destruct (r_op r); try contradiction; cbn [plain snd succeeds]; auto.
        -- destruct MF as (MF & _). now rewrite (proj2 (Nat.ltb_lt _ _) MF).
        -- destruct MF as (MF & _). destruct (nth_error (contents v) i) eqn:E; [reflexivity|]. apply nth_error_None in E. lia.
    + destruct PI as (C & R & Ld & Lm & n & MF & _). unfold made_for in MF.
      destruct (r_op r) eqn:E; try contradiction; apply go_ok; try discriminate; auto; cbn [pinv is_res]; auto.
  - (* RemGet *) destruct PI as (C & Ld & Lc & R). destruct (slot s d i) as [x|] eqn:S; [|discriminate]. injection H as <- <-.
    apply slot_some in S. destruct S as (_ & ->). split; [|split; [exact Logic.I|]].
    + ret_inv I P C.
    + exists (Remove i). split; [exact C|]. now rewrite R.
  - (* InsReturn *) injection H as <- <-. destruct PI as ((i & c & C) & R). split; [|split; [exact Logic.I|]].
    + ret_inv I P C.
    + exists (Insert i c). split; [exact C|]. now rewrite R.
Qed.
