From Verif Require Import Base IndexMapModel IndexMapSpec IndexMapProofs.

Lemma init_inv chunk : 1 <= chunk -> inv chunk (init chunk) start.
Proof.
  intros Ch. assert (Z : forall f, f Idle = false -> cnt f (pcs (init chunk)) 0).
  { intros f F. exists []. split; [constructor|]. split; [reflexivity|]. intros t. cbn [init pcs In]. rewrite F. split; [tauto|discriminate]. }
  assert (M : max_count chunk 0 = chunk).
  { rewrite (max_count_unique chunk 0 1); lia. }
  constructor; cbn [init start modify data heap pcs contents calls result adding moments count cap slots]; auto.
  - split; cbn [length cap slots]; [lia|]. intros [|j] _; reflexivity.
  - exists 0. split; [now apply Z|reflexivity].
  - intros d D. lia.
  - tauto.
  - intros t X. contradiction.
  - intros t. exact I.
Qed.

Lemma run_inv chunk ext ls : forall s v s' es, 1 <= chunk -> inv chunk s v -> run chunk ext s ls = Some (s', es) ->
  inv chunk s' (after v es) /\ all effect_ok v es /\ all return_nearly_ok v es.
Proof.
  induction ls as [|l ls IH]; intros s v s' es Ch I R; cbn [run] in R.
  - injection R as <- <-. cbn. auto.
  - destruct (step chunk ext s l) as [[s1 e]|] eqn:S; [|discriminate].
    destruct (run chunk ext s1 ls) as [[s2 es2]|] eqn:R2; [|discriminate]. injection R as <- <-.
    destruct (step_inv _ _ _ _ _ _ _ Ch I S) as (I1 & E1 & R1).
    destruct (IH _ _ _ _ Ch I1 R2) as (I2 & E2 & R3). cbn [after all]. auto.
Qed.

(** * No thread is ever stuck *)
Lemma slot_in s d i : i < cap (heap s d) -> slot s d i = Some (slots (heap s d) i).
Proof. unfold slot. intros H. now rewrite (proj2 (Nat.ltb_lt _ _) H). Qed.

Lemma inv_progress chunk ext s v t : 1 <= chunk -> inv chunk s v -> pcs s t <> Idle -> step chunk ext s (Step t) <> None.
Proof.
  intros Ch I N. cbn [step]. pose proof (i_pcs _ _ _ I t) as PI. pose proof (i_good _ _ _ I) as (G1 & G2).
  destruct (pcs s t) eqn:P; cbn [step_pc pinv] in *; try congruence.
  - destruct (i <? max_count chunk (count (heap s d))); discriminate.
  - rewrite slot_in by tauto. discriminate.
  - destruct (index_of o <? max_count chunk (count (heap s d))); discriminate.
  - destruct PI as (_ & _ & O & _ & L). rewrite slot_in by exact L.
    destruct o; try discriminate; destruct (slots (heap s d) _); try discriminate.
    destruct ext; [discriminate|]. destruct (Z.eqb _ _); discriminate.
  - destruct PI as (_ & _ & -> & L). rewrite slot_in by lia. destruct (slots (heap s (data s)) i); discriminate.
  - destruct PI as (_ & _ & -> & L & _). destruct (Z.eqb _ _); [|discriminate]. rewrite slot_in by lia.
    specialize (G2 i ltac:(lia)). destruct (slots (heap s (data s)) i) as [y|].
    + destruct (same _ _); discriminate.
    + cbn in G2. symmetry in G2. apply nth_error_None in G2. lia.
  - destruct PI as (_ & _ & _ & _ & -> & _). destruct (Nat.ltb_spec i (cap (heap s d))); [|discriminate].
    rewrite slot_in by assumption. destruct (slots (heap s d) i); discriminate.
  - destruct (i =? count (heap s d)); discriminate.
  - destruct PI as (_ & _ & O & _). destruct o; try discriminate; destruct (_ || _); discriminate.
  - destruct PI as (_ & _ & _ & _ & _ & n & MF & Ln & _). destruct (made_for_bounds _ _ _ Ch MF) as (B1 & B2 & _).
    destruct (Nat.ltb_spec k (r_count r)) as [L|L].
    + destruct (B1 k L) as (X & Y). rewrite slot_in by lia. rewrite (proj2 (Nat.ltb_lt _ _) Y). discriminate.
    + destruct (r_put r) as [[i c]|]; [|discriminate]. rewrite (proj2 (Nat.ltb_lt _ _) B2). discriminate.
  - destruct (_ && _); discriminate.
  - rewrite slot_in by tauto. discriminate.
Qed.

(** * A thread running alone *)
Lemma step_shape chunk ext s t s' e : step chunk ext s (Step t) = Some (s', e) ->
  (exists p, pcs s' = tset (pcs s) t p) /\
  ((e = ETau /\ pcs s' t <> Idle) \/ (e = EEffect t /\ pcs s' t <> Idle) \/ exists r, e = ERet t r /\ pcs s' t = Idle).
Proof.
  cbn [step]. intros H.
  destruct (pcs s t) as [| | | | | |o|o|o d|o d| | | | |c|c| |c d m i0 max| | | | | | | o| o d m|r k b|r b| |] eqn:P; cbn [step_pc] in H;
    try discriminate;
    repeat match type of H with
    | context [match ?x with _ => _ end] => let E := fresh in destruct x eqn:E; try discriminate H
    end; injection H as <- <-;
    (split; [eexists; reflexivity|]);
    cbn [go set_slot with_block with_modify with_mutate pcs]; rewrite tset_eq;
    first [left; split; [reflexivity|discriminate]|right; left; split; [reflexivity|discriminate]
          |right; right; eexists; split; reflexivity|idtac].
Qed.

Definition alone_in (s : state) (t : nat) : Prop := forall u, u <> t -> pcs s u = Idle.

Definition sinv (s : state) (p : pc) : Prop :=
  match p with
  | AppCount _ d m => m = mutate s /\ d = data s
  | AppScan _ d m _ _ => m = mutate s /\ d = data s
  | AppFull _ d m _ _ | AppCheck _ d m _ _ => m = mutate s /\ d = data s /\ count (heap s d) = cap (heap s d)
  | ResCount _ d m => m = mutate s /\ d = data s
  | Copy r _ _ | Publish r _ => r_mut r = mutate s /\ r_data r = data s
  | ModTest i _ _ x d => slots (heap s d) i = Some x
  | _ => True
  end.

Definition mu (s : state) (p : pc) : nat :=
  let n := cap (heap s (data s)) in
  match p with
  | Idle => 0
  | CountLoad => 2 | CountCount _ => 1
  | GetLoad _ => 3 | GetCount _ _ => 2 | GetSlot _ _ => 1
  | ModBegin _ => 10 | ModLoad _ => 9 | ModCount _ _ => 8 | ModSlot _ _ => 7 | ModExchange _ _ _ => 6 | ModTest _ _ _ _ _ => 6
  | ModMutate _ => 5 | ModEnd _ => 4
  | AppReturn _ => 1
  | Publish _ _ => 2
  | Copy r k _ => 3 + (r_count r - k)
  | AppCheck _ _ _ _ _ => 4 + n | AppFull _ _ _ _ _ => 5 + n
  | AppScan _ _ _ i max => 6 + n + (max - i)
  | AppAdd _ _ => 3 | AppMutate _ => 2 | AppEnd _ => 1
  | AppCount _ _ _ => 7 + 2 * n | AppLoad _ => 8 + 2 * n | AppBegin _ => 9 + 2 * n
  | ResCount _ _ _ => 5 + n | ResLoad _ => 6 + n
  | RemGet _ _ => 1 | InsReturn => 1
  end.

Lemma alone_modify chunk s v t : inv chunk s v -> alone_in s t -> in_mod (pcs s t) = false -> modify s = 0.
Proof.
  intros I A M. apply (cnt_none _ _ _ (i_mod _ _ _ I)). intros u.
  destruct (Nat.eq_dec u t) as [->|Ne]; [exact M|]. now rewrite A.
Qed.

Lemma alone_count chunk s v t : inv chunk s v -> alone_in s t -> lag (pcs s t) = false ->
  count (heap s (data s)) = length (contents v).
Proof.
  intros I A M. destruct (i_lag _ _ _ I) as (n & X & Y). rewrite (cnt_none _ _ _ X) in Y; [lia|].
  intros u. destruct (Nat.eq_dec u t) as [->|Ne]; [exact M|]. now rewrite A.
Qed.

Lemma same_refl x : same x x = true.
Proof. unfold same. now rewrite Nat.eqb_refl, Z.eqb_refl. Qed.

Lemma alone_step chunk ext s v t : 1 <= chunk -> inv chunk s v -> alone_in s t -> pcs s t <> Idle -> sinv s (pcs s t) ->
  exists s' e, step chunk ext s (Step t) = Some (s', e) /\
  ((exists r, e = ERet t r /\ pcs s' t = Idle) \/
   (pcs s' t <> Idle /\ sinv s' (pcs s' t) /\ mu s' (pcs s' t) < mu s (pcs s t))).
Proof.
  intros Ch I A N S. pose proof (inv_progress chunk ext s v t Ch I N) as Pr.
  destruct (step chunk ext s (Step t)) as [[s' e]|] eqn:H; [|contradiction]. clear Pr.
  exists s', e. split; [reflexivity|].
  pose proof (i_pcs _ _ _ I t) as PI. pose proof (alone_modify _ _ _ _ I A) as AM.
  pose proof (alone_count _ _ _ _ I A) as AC. pose proof (i_good _ _ _ I) as (G1 & G2).
  cbn [step] in H.
  destruct (pcs s t) eqn:P; try congruence; cbn [step_pc pinv sinv] in *;
    repeat match type of H with
    | (if ?x then _ else _) = _ => let E := fresh "E" in destruct x eqn:E; try discriminate H
    | match slot ?a ?b ?c with _ => _ end = _ => let E := fresh "E" in destruct (slot a b c) eqn:E; try discriminate H
    | match ?x with _ => _ end = _ => destruct x; try discriminate H
    end; injection H as <- <-;
    cbn [go set_slot with_block with_modify with_mutate pcs]; rewrite tset_eq;
    try (left; eexists; split; reflexivity);
    try (right; split; [discriminate|]; split; [exact Logic.I|]; cbn [mu go set_slot with_block with_modify with_mutate data heap]; lia).
  all: try (right; split; [discriminate|]; cbn [sinv mu go set_slot with_block with_modify with_mutate data heap mutate]).
  all: try tauto.
  - apply slot_some in E. destruct E as (_ & E). cbn [index_of] in E. split; [congruence|lia].
  - exfalso. apply slot_some in E0. destruct E0 as (_ & E0). rewrite S in E0. injection E0 as ->. rewrite same_refl in E1. discriminate.
  - split; [auto|lia].
  - destruct PI as (_ & _ & -> & _). rewrite <- (i_cap _ _ _ I). split; [auto|lia].
  - split; [auto|lia].
  - destruct PI as (_ & _ & -> & _ & -> & L). split; [|lia]. repeat split; try tauto.
    rewrite AC in * by reflexivity. lia.
  - split; [auto|lia].
  - destruct PI as (_ & _ & Ld & _ & -> & ->). destruct S as (-> & -> & S). cbn [r_mut r_data r_count].
    split; [auto|lia].
  - split; [auto|lia].
  - cbn [r_mut r_data r_count]. destruct S as (-> & ->). rewrite (i_cap _ _ _ I).
    pose proof (max_count_ge chunk (count (heap s (data s))) Ch). split; [auto|lia].
  - cbn [r_mut r_data r_count]. destruct S as (-> & ->). rewrite (i_cap _ _ _ I).
    pose proof (max_count_ge chunk (count (heap s (data s))) Ch). split; [auto|lia].
  - split; [auto|lia].
  - split; [auto|lia].
  - right. destruct PI as (_ & _ & _ & _ & n & MF & _). unfold made_for in MF.
    destruct (r_op r); try contradiction; (split; [discriminate|]); (split; [exact Logic.I|]); cbn [mu]; lia.
  - exfalso. rewrite AM in E by reflexivity. destruct S as (S1 & S2). rewrite S1, S2, !Nat.eqb_refl in E. discriminate.
Qed.

(** What a thread running alone makes of the view. *)
Definition vinv (v : view) (t : nat) (o : op) (c : list Z) : Prop :=
  calls v t = Some o /\
  ((result v t = None /\ contents v = c /\ (forall x, In x (moments v t) -> x = (c, 0))) \/
   (result v t = Some (snd (plain c o)) /\ contents v = fst (plain c o))).

Lemma remove_out {X} (l : list X) i : length l <= i -> remove_at l i 1 = l.
Proof. intros H. unfold remove_at. rewrite firstn_all2, skipn_all2, app_nil_r by lia. reflexivity. Qed.

Lemma alone_run chunk ext t o c : forall m s v, 1 <= chunk -> inv chunk s v -> alone_in s t -> pcs s t <> Idle -> sinv s (pcs s t) ->
  mu s (pcs s t) <= m -> vinv v t o c ->
  exists k s' es v', run chunk ext s (repeat (Step t) k) = Some (s', es ++ [ERet t (snd (plain c o))]) /\
  inv chunk s' v' /\ (forall u, pcs s' u = Idle) /\ contents v' = fst (plain c o).
Proof.
  induction m as [|m IH]; intros s v Ch I A N S M V; [destruct (pcs s t); try congruence; cbn [mu] in M; lia|].
  destruct (alone_step chunk ext s v t Ch I A N S) as (s1 & e & H & Z).
  destruct (step_inv _ _ _ _ _ _ _ Ch I H) as (I1 & E1 & R1).
  destruct (step_shape _ _ _ _ _ _ H) as ((p & P) & Sh). destruct V as (C & V).
  assert (A1 : alone_in s1 t) by (intros u U; rewrite P, tset_ne by exact U; now apply A).
  destruct Z as [(r & -> & F)|(N1 & S1 & L1)].
  - assert (X : r = snd (plain c o) /\ contents v = fst (plain c o)).
    { cbn [return_nearly_ok] in R1. destruct R1 as (o' & C' & R1). assert (o' = o) as -> by congruence.
      destruct V as [(V1 & V2 & V3)|(V1 & V2)]; rewrite V1 in R1.
      - destruct R1 as (l & n & L & R1). apply V3 in L. injection L as -> ->.
        destruct R1 as [R1|R1]; [rewrite R1; auto|].
        destruct o; try contradiction.
        + destruct r as [|[]| |]; try contradiction. cbn [plain]. destruct (Nat.ltb_spec i (length c)); [lia|auto]. 
        + destruct r as [| |[]|]; try contradiction. cbn [plain fst snd]. rewrite remove_out by lia.
          rewrite (proj2 (nth_error_None c i)) by lia. auto.
        + destruct r; try contradiction. cbn [plain fst snd]. split; [f_equal; lia|exact V2].
      - auto. }
    destruct X as (-> & X). exists 1, s1, [], (next v (ERet t (snd (plain c o)))). split; [|split; [exact I1|split]].
    + cbn [repeat run]. rewrite H. reflexivity.
    + intros u. destruct (Nat.eq_dec u t) as [->|Ne]; [exact F|now apply A1].
    + exact X.
  - assert (V1 : vinv (next v e) t o c).
    { destruct Sh as [(-> & _)|[(-> & _)|(r & -> & F)]]; [now split| |contradiction].
      cbn [effect_ok] in E1. destruct V as [(V1 & V2 & V3)|(V1 & V2)]; [|destruct E1; congruence].
      cbn [next]. rewrite C, V2. destruct (plain c o) as [l x] eqn:Pl. split; cbn [calls result contents]; [exact C|].
      right. rewrite tset_eq, Pl. auto. }
    destruct (IH s1 (next v e) Ch I1 A1 N1 S1 ltac:(lia) V1) as (k & s' & es & v' & R & I' & F & CC).
    exists (Datatypes.S k), s', (e :: es), v'. split; [|auto]. cbn [repeat run]. rewrite H, R. reflexivity.
Qed.

Lemma alone_call chunk ext s v t o : 1 <= chunk -> inv chunk s v -> (forall u, pcs s u = Idle) ->
  exists s' v', alone chunk ext s t o (snd (plain (contents v) o)) s' /\
  inv chunk s' v' /\ (forall u, pcs s' u = Idle) /\ contents v' = fst (plain (contents v) o).
Proof.
  intros Ch I A. pose proof (inv_call chunk s v t o I (A t)) as I1.
  assert (Z : adding v = 0). { apply (cnt_none _ _ _ (i_added _ _ _ I)). intros u. now rewrite A. }
  destruct (alone_run chunk ext t o (contents v) (mu (go s t (start_of o)) (pcs (go s t (start_of o)) t)) (go s t (start_of o)) (next v (ECall t o)) Ch I1)
    as (k & s' & es & v' & R & I' & F & CC).
  - intros u U. cbn [go pcs]. rewrite tset_ne by exact U. apply A.
  - cbn [go pcs]. rewrite tset_eq. destruct o; discriminate.
  - cbn [go pcs]. rewrite tset_eq. destruct o; exact Logic.I.
  - lia.
  - split; cbn [next calls result contents moments]; rewrite !tset_eq; [reflexivity|]. left. repeat split; auto.
    intros x [<-|[]]. now rewrite Z.
  - exists s', v'. split; [|auto]. apply (alone_intro _ _ _ _ _ k s' (ECall t o :: es)).
    cbn [run step]. rewrite A, R. reflexivity.
Qed.

(** A thread that has returned takes no steps, so the result is the only one. *)
Lemma run_idle chunk ext s t k s' es : pcs s t = Idle -> run chunk ext s (repeat (Step t) k) = Some (s', es) -> k = 0 /\ s' = s /\ es = [].
Proof.
  intros P. destruct k as [|k]; cbn [repeat run].
  - intros H. injection H as <- <-. auto.
  - cbn [step]. rewrite P. discriminate.
Qed.

Lemma run_steps_det chunk ext t : forall k1 k2 s s1 s2 e1 e2 r1 r2,
  run chunk ext s (repeat (Step t) k1) = Some (s1, e1 ++ [ERet t r1]) ->
  run chunk ext s (repeat (Step t) k2) = Some (s2, e2 ++ [ERet t r2]) -> r1 = r2 /\ s1 = s2.
Proof.
  induction k1 as [|k1 IH]; intros k2 s s1 s2 e1 e2 r1 r2 R1 R2.
  - cbn in R1. injection R1 as _ X. destruct e1; discriminate.
  - destruct k2 as [|k2]; [cbn in R2; injection R2 as _ X; destruct e2; discriminate|].
    cbn [repeat run] in R1, R2. destruct (step chunk ext s (Step t)) as [[s0 e]|] eqn:H; [|discriminate].
    destruct (run chunk ext s0 (repeat (Step t) k1)) as [[x1 y1]|] eqn:Q1; [|discriminate].
    destruct (run chunk ext s0 (repeat (Step t) k2)) as [[x2 y2]|] eqn:Q2; [|discriminate].
    injection R1 as <- R1. injection R2 as <- R2.
    destruct (step_shape _ _ _ _ _ _ H) as (_ & Sh).
    destruct e1 as [|f1 e1], e2 as [|f2 e2]; cbn [app] in R1, R2.
    + injection R1 as -> ->. injection R2 as -> ->.
      destruct Sh as [(E & _)|[(E & _)|(r & E & F)]]; try discriminate.
      destruct (run_idle _ _ _ _ _ _ _ F Q1) as (_ & -> & _). destruct (run_idle _ _ _ _ _ _ _ F Q2) as (_ & -> & _). auto.
    + injection R1 as -> ->. injection R2 as E ->.
      destruct Sh as [(X & _)|[(X & _)|(r & X & F)]]; try discriminate.
      destruct (run_idle _ _ _ _ _ _ _ F Q2) as (_ & _ & X'). destruct e2; discriminate.
    + injection R2 as -> ->. injection R1 as E ->.
      destruct Sh as [(X & _)|[(X & _)|(r & X & F)]]; try discriminate.
      destruct (run_idle _ _ _ _ _ _ _ F Q1) as (_ & _ & X'). destruct e1; discriminate.
    + injection R1 as _ ->. injection R2 as _ ->. exact (IH _ _ _ _ _ _ _ _ Q1 Q2).
Qed.

Lemma alone_det chunk ext s t o r1 s1 r2 s2 : alone chunk ext s t o r1 s1 -> alone chunk ext s t o r2 s2 -> r1 = r2 /\ s1 = s2.
Proof.
  intros [k1 x1 e1 y1 R1] [k2 x2 e2 y2 R2]. cbn [run] in R1, R2.
  destruct (step chunk ext s (Call t o)) as [[s0 e]|] eqn:H; [|discriminate].
  destruct (run chunk ext s0 (repeat (Step t) k1)) as [[u1 w1]|] eqn:Q1; [|discriminate].
  destruct (run chunk ext s0 (repeat (Step t) k2)) as [[u2 w2]|] eqn:Q2; [|discriminate].
  injection R1 as <- R1. injection R2 as <- R2.
  assert (e = ECall t o) as ->. { cbn [step] in H. destruct (pcs s t); try discriminate. now injection H as _ <-. }
  destruct e1 as [|f1 e1]; [discriminate|]. destruct e2 as [|f2 e2]; [discriminate|]. cbn [app] in R1, R2.
  injection R1 as _ ->. injection R2 as _ ->. exact (run_steps_det _ _ _ _ _ _ _ _ _ _ _ _ Q1 Q2).
Qed.

Lemma in_turn_ok chunk ext : forall cs s v, 1 <= chunk -> inv chunk s v -> (forall u, pcs s u = Idle) ->
  (exists s', in_turn chunk ext s cs (plain_results (contents v) (map snd cs)) s') /\
  (forall rs s', in_turn chunk ext s cs rs s' -> rs = plain_results (contents v) (map snd cs)).
Proof.
  induction cs as [|[t o] cs IH]; intros s v Ch I A.
  - split; [exists s; constructor|]. intros rs s' H. inversion H. reflexivity.
  - destruct (alone_call chunk ext s v t o Ch I A) as (s1 & v1 & Al & I1 & A1 & C1).
    destruct (IH s1 v1 Ch I1 A1) as ((s2 & T) & U). rewrite C1 in T, U. cbn [map snd plain_results]. split.
    + exists s2. econstructor; eauto.
    + intros rs s' H. inversion H as [|? ? ? ? s3 ? rs3 ? Q T']; subst.
      destruct (alone_det _ _ _ _ _ _ _ _ _ Al Q) as (<- & <-). f_equal. eapply U; eauto.
Qed.

(** * At most one replace-exactly per value *)
Lemma all_app P : forall es v fs, all P v (es ++ fs) <-> all P v es /\ all P (after v es) fs.
Proof. induction es as [|e es IH]; intros v fs; cbn [app all after]; [tauto|]. rewrite IH. tauto. Qed.

Lemma after_app : forall es v fs, after v (es ++ fs) = after (after v es) fs.
Proof. induction es as [|e es IH]; intros v fs; cbn [app after]; auto. Qed.

Lemma value_returns i m : forall es v, nth_error (contents v) i <> Some m -> nth_error (contents (after v es)) i = Some m ->
  exists a e b, es = a ++ e :: b /\ nth_error (contents (after v a)) i <> Some m /\
  nth_error (contents (next (after v a) e)) i = Some m.
Proof.
  induction es as [|e es IH]; intros v N H; cbn [after] in H; [contradiction|].
  assert (D : nth_error (contents (next v e)) i = Some m \/ nth_error (contents (next v e)) i <> Some m).
  { destruct (nth_error (contents (next v e)) i) as [x|]; [|right; discriminate].
    destruct (Z.eq_dec x m) as [->|Ne]; [now left|right; congruence]. }
  destruct D as [D|D].
  - exists [], e, es. auto.
  - destruct (IH _ D H) as (a & f & b & -> & X & Y). exists (e :: a), f, b. auto.
Qed.
