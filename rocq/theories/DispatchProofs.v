(** Proofs about the choice of allocators. *)
From Verif Require Import Base DispatchModel DispatchSpec.
Local Open Scope nat_scope.

(** ** Groups *)
Definition counts (n k : nat) : list nat := map (fun j => if j =? n - 1 then k - (n - 1) else if j <? k then 1 else 0) (seq 0 n).

Inductive rep (gs : list group) : tree -> nat -> atype -> nat -> nat -> Prop :=
| rep_one ty k lo : (-1 <= index ty)%Z -> rep gs (One ty) k ty lo lo
| rep_many ts k tys lo mid : reps gs ts (counts (length ts) k) tys lo mid -> ts <> [] ->
    nth_error gs mid = Some (mkGroup (min k (length ts - 1)) tys) -> rep gs (Many ts) k (mkType (-2) (N.of_nat mid)) lo (S mid)
with reps (gs : list group) : list tree -> list nat -> list atype -> nat -> nat -> Prop :=
| reps_nil lo : reps gs [] [] [] lo lo
| reps_cons t k ty lo mid ts ks tys hi : rep gs t k ty lo mid -> reps gs ts ks tys mid hi -> reps gs (t :: ts) (k :: ks) (ty :: tys) lo hi.
Scheme rep_ind2 := Induction for rep Sort Prop with reps_ind2 := Induction for reps Sort Prop.
Combined Scheme rep_reps_ind from rep_ind2, reps_ind2.

Definition same_in (gs gs' : list group) (lo hi : nat) : Prop := forall i, lo <= i < hi -> nth_error gs' i = nth_error gs i.
Definition same_out (gs gs' : list group) (lo hi : nat) : Prop := length gs' = length gs /\ forall i, ~ (lo <= i < hi) -> nth_error gs' i = nth_error gs i.

Lemma rep_range gs : (forall t k ty lo hi, rep gs t k ty lo hi -> lo <= hi) /\ (forall ts ks tys lo hi, reps gs ts ks tys lo hi -> lo <= hi /\ length ks = length ts /\ length tys = length ts).
Proof.
  apply rep_reps_ind.
  - intros. lia.
  - intros ts k tys lo mid R (IH & _) _ _. lia.
  - intros. cbn. lia.
  - intros t k ty lo mid ts ks tys hi R IH Rs (IHs & L1 & L2). cbn [length]. lia.
Qed.

Lemma rep_same gs gs' : (forall t k ty lo hi, rep gs t k ty lo hi -> same_in gs gs' lo hi -> rep gs' t k ty lo hi) /\
  (forall ts ks tys lo hi, reps gs ts ks tys lo hi -> same_in gs gs' lo hi -> reps gs' ts ks tys lo hi).
Proof.
  apply rep_reps_ind.
  - intros. now constructor.
  - intros ts k tys lo mid R IH Ne E S. assert (Rg := proj1 (proj2 (rep_range gs) _ _ _ _ _ R)). apply rep_many with tys; [apply IH; intros i Hi; apply S; lia|exact Ne|]. rewrite S by lia. exact E.
  - constructor.
  - intros t k ty lo mid ts ks tys hi R IH Rs IHs S. assert (R1 := proj1 (rep_range gs) _ _ _ _ _ R). assert (R2 := proj1 (proj2 (rep_range gs) _ _ _ _ _ Rs)).
    apply reps_cons with mid; [apply IH|apply IHs]; intros i Hi; apply S; lia.
Qed.

Lemma reps_nth gs ts ks tys lo hi j ty : reps gs ts ks tys lo hi -> nth_error tys j = Some ty ->
  exists t k lo' hi', nth_error ts j = Some t /\ nth_error ks j = Some k /\ rep gs t k ty lo' hi' /\ lo <= lo' /\ hi' <= hi /\
  forall gs' k', same_out gs gs' lo' hi' -> rep gs' t k' ty lo' hi' -> reps gs' ts (upd ks j k') tys lo hi.
Proof.
  intros R. revert j. induction R as [lo|t k ty0 lo mid ts ks tys hi R1 Rs IH]; intros j E.
  - destruct j; discriminate.
  - assert (G1 := proj1 (rep_range gs) _ _ _ _ _ R1). assert (G2 := proj1 (proj2 (rep_range gs) _ _ _ _ _ Rs)). destruct j as [|j].
    + cbn in E. injection E as ->. exists t, k, lo, mid. repeat (split; [first [reflexivity|exact R1|lia]|]). intros gs' k' (_ & So) R'. cbn [upd]. apply reps_cons with mid; [exact R'|]. apply (proj2 (rep_same gs gs')); [exact Rs|]. intros i Hi. apply So. lia.
    + cbn in E. destruct (IH j E) as (t' & k' & lo' & hi' & E1 & E2 & R' & L1 & L2 & F). exists t', k', lo', hi'. repeat (split; [first [exact E1|exact E2|exact R'|lia]|]).
      intros gs' k'' So R''. cbn [upd]. apply reps_cons with mid; [|now apply F]. apply (proj1 (rep_same gs gs')); [exact R1|]. intros i Hi. apply (proj2 So). assert (G3 := proj1 (rep_range gs) _ _ _ _ _ R'). lia.
Qed.

Lemma counts_nth n k j : j < n -> nth_error (counts n k) j = Some (if j =? n - 1 then k - (n - 1) else if j <? k then 1 else 0).
Proof. intros H. unfold counts. rewrite nth_error_map. rewrite (nth_error_nth' (seq 0 n) 0) by (rewrite seq_length; lia). cbn [option_map]. now rewrite seq_nth by lia. Qed.
Lemma counts_length n k : length (counts n k) = n.
Proof. unfold counts. now rewrite map_length, seq_length. Qed.
Lemma counts_step n k c : 0 < n -> nth_error (counts n k) (min k (n - 1)) = Some c -> upd (counts n k) (min k (n - 1)) (S c) = counts n (S k).
Proof.
  intros Hn E. rewrite counts_nth in E by lia. apply list_ext_nth_error. intros i. destruct (Nat.lt_ge_cases i n) as [L|L].
  - rewrite (counts_nth n (S k) i L). destruct (Nat.eq_dec (min k (n - 1)) i) as [Q|Q].
    + rewrite Q. rewrite nth_error_upd_eq by (rewrite counts_length; lia). f_equal. injection E as E. rewrite Q in E. subst c. destruct (Nat.eqb_spec i (n - 1)); destruct (Nat.ltb_spec i k); destruct (Nat.ltb_spec i (S k)); lia.
    + rewrite nth_error_upd_ne by lia. rewrite counts_nth by lia. f_equal. destruct (Nat.eqb_spec i (n - 1)); destruct (Nat.ltb_spec i k); destruct (Nat.ltb_spec i (S k)); lia.
  - rewrite !(proj2 (nth_error_None _ _)); [reflexivity| |]; rewrite ?upd_length, ?counts_length; lia.
Qed.

Lemma pick_many ts k t c : nth_error ts (min k (length ts - 1)) = Some t -> nth_error (counts (length ts) k) (min k (length ts - 1)) = Some c -> pick (Many ts) k = pick t c.
Proof.
  intros E1 E2. assert (L : min k (length ts - 1) < length ts) by (apply nth_error_Some; congruence). rewrite counts_nth in E2 by exact L. injection E2 as E2.
  assert (Ec : c = if k <? length ts - 1 then 0 else k - (length ts - 1)).
  { destruct (Nat.eqb_spec (min k (length ts - 1)) (length ts - 1)); destruct (Nat.ltb_spec k (length ts - 1)); destruct (Nat.ltb_spec (min k (length ts - 1)) k); lia. }
  clear E2. subst c. cbn [pick]. clear L. revert k E1. induction ts as [|t0 ts IH]; intros k E1.
  - destruct (min k (length (@nil tree) - 1)); discriminate.
  - destruct ts as [|t1 ts].
    + cbn [length] in *. replace (min k (1 - 1)) with 0 in E1 by lia. injection E1 as ->. replace (k <? 1 - 1) with false by (symmetry; apply Nat.ltb_ge; lia). now rewrite Nat.sub_diag, Nat.sub_0_r.
    + destruct k as [|k].
      * cbn [length Nat.sub min nth_error] in *. injection E1 as ->. reflexivity.
      * cbn [length] in *. replace (min (S k) (S (S (length ts)) - 1)) with (S (min k (S (length ts) - 1))) in E1 by lia. cbn [nth_error] in E1. rewrite (IH k E1).
        f_equal. destruct (Nat.ltb_spec k (S (length ts) - 1)); destruct (Nat.ltb_spec (S k) (S (S (length ts)) - 1)); lia.
Qed.

Definition answer (ty : atype) : option atype := if (index ty <? 0)%Z then None else Some ty.

Lemma advance_is gs g x : nth_error gs g = Some x -> items x <> [] -> current x < length (items x) ->
  length (advance gs g) = length gs /\ (forall i, i <> g -> nth_error (advance gs g) i = nth_error gs i) /\
  nth_error (advance gs g) g = Some (mkGroup (min (S (current x)) (length (items x) - 1)) (items x)).
Proof.
  intros E Ne L. unfold advance. rewrite E. assert (Lg : g < length gs) by (apply nth_error_Some; congruence).
  destruct (Nat.ltb_spec (current x + 1) (length (items x))) as [H|H].
  - split; [apply upd_length|]. split; [intros i Hi; apply nth_error_upd_ne; congruence|]. rewrite nth_error_upd_eq by exact Lg. do 2 f_equal. lia.
  - split; [reflexivity|]. split; [reflexivity|]. rewrite E. destruct x as [c its]. cbn [current items] in *. do 2 f_equal. lia.
Qed.

Lemma resolve_rep fuel gs t k ty lo hi : rep gs t k ty lo hi -> hi < fuel ->
  exists gs', resolve fuel gs ty = Some (gs', answer (pick t k)) /\ rep gs' t (S k) ty lo hi /\ same_out gs gs' lo hi.
Proof.
  revert gs t k ty lo hi. induction fuel as [|fuel IH]; intros gs t k ty lo hi R L; [lia|]. inversion R as [ty0 k0 lo0 Hi|ts k0 tys lo0 mid Rs Ne E]; subst; cbn [resolve].
  - exists gs. cbn [pick]. unfold answer. split; [|split; [now constructor|split; reflexivity]]. destruct (Z.ltb_spec (index ty) 0); [|reflexivity]. destruct (Z.eqb_spec (index ty) (-2)); [lia|reflexivity].
  - cbn [index data]. change (-2 <? 0)%Z with true. change (-2 =? -2)%Z with true. cbv iota. rewrite Nat2N.id, E. cbn [items current].
    destruct (proj2 (rep_range gs) _ _ _ _ _ Rs) as (G & L1 & L2). assert (Lt : 0 < length ts) by (destruct ts; [congruence|cbn; lia]).
    destruct (nth_error tys (min k (length ts - 1))) as [ty'|] eqn:E'; [|apply nth_error_None in E'; lia].
    destruct (reps_nth _ _ _ _ _ _ _ _ Rs E') as (t' & k' & lo' & hi' & Et & Ek & R' & La & Lb & F).
    destruct (IH gs t' k' ty' lo' hi' R' ltac:(lia)) as (gs1 & -> & R1 & So). specialize (F gs1 (S k') So R1). rewrite (counts_step _ _ _ Lt Ek) in F.
    destruct So as (So1 & So2). assert (E1 : nth_error gs1 mid = Some (mkGroup (min k (length ts - 1)) tys)) by (rewrite So2 by lia; exact E).
    destruct (advance_is gs1 mid _ E1) as (A1 & A2 & A3); cbn [items current] in *; [intros ->; cbn in L2; lia|lia|].
    exists (advance gs1 mid). split; [now rewrite (pick_many ts k t' k' Et Ek)|]. split.
    + apply rep_many with tys; [|exact Ne|rewrite A3; do 2 f_equal; lia]. apply (proj2 (rep_same gs1 (advance gs1 mid))); [exact F|]. intros i Hi. apply A2. lia.
    + split; [congruence|]. intros i Hi. assert (G' := proj1 (rep_range gs) _ _ _ _ _ R'). rewrite A2 by lia. apply So2. lia.
Qed.

(** A tree just built *)
Fixpoint tsize (t : tree) : nat := match t with One _ => 1 | Many ts => S ((fix go ts := match ts with [] => 0 | t' :: ts' => tsize t' + go ts' end) ts) end.
Fixpoint tsizes (ts : list tree) : nat := match ts with [] => 0 | t' :: ts' => tsize t' + tsizes ts' end.
Fixpoint builds (gs : list group) (ts : list tree) : list group * list atype :=
  match ts with [] => (gs, []) | t' :: ts' => let '(gs1, ty) := build gs t' in let '(gs2, tys) := builds gs1 ts' in (gs2, ty :: tys) end.
Lemma build_many gs ts : build gs (Many ts) = let '(gs', tys) := builds gs ts in (gs' ++ [mkGroup 0 tys], mkType (-2) (N.of_nat (length gs'))).
Proof.
  cbn [build]. match goal with |- (let '(_, _) := ?f gs ts in _) = _ => assert (E : forall gs, f gs ts = builds gs ts) end.
  { clear gs. induction ts as [|t ts IH]; intros gs; [reflexivity|]. cbn [builds]. destruct (build gs t) as (gs1 & ty). now rewrite IH. }
  now rewrite E.
Qed.
Fixpoint propers (ts : list tree) : Prop := match ts with [] => True | t' :: ts' => proper t' /\ propers ts' end.

Lemma counts_zero n : counts n 0 = repeat 0 n.
Proof.
  apply list_ext_nth_error. intros i. destruct (Nat.lt_ge_cases i n) as [L|L].
  - rewrite counts_nth by exact L. rewrite nth_error_repeat by exact L. f_equal. destruct (i =? n - 1); [lia|]. now destruct (Nat.ltb_spec i 0); [lia|].
  - rewrite !(proj2 (nth_error_None _ _)); [reflexivity|rewrite repeat_length; lia|rewrite counts_length; lia].
Qed.

Lemma build_rep n : (forall t gs gs' ty, tsize t <= n -> proper t -> build gs t = (gs', ty) -> rep gs' t 0 ty (length gs) (length gs') /\ exists l, gs' = gs ++ l) /\
  (forall ts gs gs' tys, tsizes ts <= n -> propers ts -> builds gs ts = (gs', tys) -> reps gs' ts (repeat 0 (length ts)) tys (length gs) (length gs') /\ exists l, gs' = gs ++ l).
Proof.
  induction n as [|n (IH1 & IH2)].
  - split.
    + intros t ? ? ? L. destruct t; cbn [tsize] in L; lia.
    + intros ts gs gs' tys L P E. destruct ts as [|t ts]; [injection E as <- <-; split; [constructor|exists []; now rewrite app_nil_r]|]. cbn [tsizes] in L. destruct t; cbn [tsize] in L; lia.
  - assert (H1 : forall t gs gs' ty, tsize t <= S n -> proper t -> build gs t = (gs', ty) -> rep gs' t 0 ty (length gs) (length gs') /\ exists l, gs' = gs ++ l).
    { intros [ty0|ts] gs gs' ty L P E.
      - cbn in E. injection E as <- <-. split; [now constructor|exists []; now rewrite app_nil_r].
      - rewrite build_many in E. destruct (builds gs ts) as (gs1 & tys) eqn:Eb. injection E as <- <-. cbn [tsize] in L. change (S (tsizes ts) <= S n) in L. destruct P as (Ne & P). change (propers ts) in P.
        destruct (IH2 ts gs gs1 tys ltac:(lia) P Eb) as (R & l & ->). split; [|exists (l ++ [mkGroup 0 tys]); now rewrite app_assoc].
        replace (length ((gs ++ l) ++ [mkGroup 0 tys])) with (S (length (gs ++ l))) by (rewrite (app_length (gs ++ l)); cbn [length]; lia). apply rep_many with tys; [|exact Ne|].
        + rewrite counts_zero. apply (proj2 (rep_same (gs ++ l) _)); [exact R|]. intros i Hi. now rewrite nth_error_app1 by lia.
        + rewrite nth_error_app2 by lia. now rewrite Nat.sub_diag. }
    split; [exact H1|]. intros ts. induction ts as [|t ts IHt]; intros gs gs' tys L P E.
    + injection E as <- <-. split; [constructor|exists []; now rewrite app_nil_r].
    + cbn [builds] in E. destruct (build gs t) as (gs1 & ty) eqn:E1. destruct (builds gs1 ts) as (gs2 & tys2) eqn:E2. injection E as <- <-. cbn [tsizes] in L. destruct P as (P1 & P2).
      destruct (H1 t gs gs1 ty ltac:(lia) P1 E1) as (R1 & l1 & ->). destruct (IHt (gs ++ l1) gs2 tys2 ltac:(lia) P2 E2) as (R2 & l2 & ->).
      split; [|exists (l1 ++ l2); now rewrite app_assoc]. cbn [length repeat]. apply reps_cons with (length (gs ++ l1)); [|exact R2]. apply (proj1 (rep_same (gs ++ l1) _)); [exact R1|]. intros i Hi. now rewrite nth_error_app1 by lia.
Qed.

(** ** Steps *)
Lemma resolve_plain fuel gs ty : index ty <> (-2)%Z -> resolve (S fuel) gs ty = Some (gs, answer ty).
Proof. intros H. cbn [resolve]. unfold answer. destruct (Z.ltb_spec (index ty) 0); [|reflexivity]. destruct (Z.eqb_spec (index ty) (-2)); [contradiction|reflexivity]. Qed.

Lemma allocate_groups s ty size got s' calls r gs a : resolve (length (groups s) + 1) (groups s) ty = Some (gs, a) -> allocate s ty size got = To s' calls r -> groups s' = gs.
Proof.
  intros E H. unfold allocate in H. rewrite E in H. destruct a as [a|]; [|injection H as <- _ _; reflexivity]. destruct (get_slot s (index a)) as [sl|]; [|discriminate].
  destruct (has_alloc sl); [|injection H as <- _ _; reflexivity]. destruct (_ <? _)%N; [|injection H as <- _ _; reflexivity]. destruct (got =? 0)%N; [injection H as <- _ _; reflexivity|]. destruct (find_mem _ _); [discriminate|injection H as <- _ _; reflexivity].
Qed.

Lemma used_step_one s o s' calls r t k ty lo hi : rep (groups s) t k ty lo hi -> hi <= length (groups s) -> uses ty o -> step s o = To s' calls r ->
  rep (groups s') t (S k) ty lo hi /\ hi <= length (groups s').
Proof.
  intros R L U St. destruct (resolve_rep (length (groups s) + 1) _ _ _ _ _ _ R ltac:(lia)) as (gs' & E & R' & (So & _)).
  destruct o as [tys|i sl|ty' size got|ty' p size got|p|p]; try contradiction; cbn [uses] in U; cbn [step] in St.
  - subst ty'. rewrite (allocate_groups _ _ _ _ _ _ _ _ _ E St). split; [exact R'|lia].
  - destruct U as (-> & ->). unfold reallocate in St. cbn [N.eqb] in St. rewrite (allocate_groups _ _ _ _ _ _ _ _ _ E St). split; [exact R'|lia].
Qed.

Lemma realloc_groups s ty p size got s' calls r : (p =? 0)%N = false -> reallocate s ty p size got = To s' calls r -> groups s' = groups s.
Proof.
  intros E H. unfold reallocate in H. rewrite E in H. destruct (find_mem p (mems s)) as [h|]; [|discriminate]. destruct (get_slot s (allocator h)) as [sl|]; [|discriminate].
  destruct (_ <? _)%N; [|injection H as <- _ _; reflexivity]. destruct (has_realloc sl); [|injection H as <- _ _; reflexivity]. destruct (got =? 0)%N; [injection H as <- _ _; reflexivity|].
  destruct (find_mem _ _); [discriminate|injection H as <- _ _; reflexivity].
Qed.

Lemma used_step_other s o s' calls r t k ty lo hi : rep (groups s) t k ty lo hi -> hi <= length (groups s) -> apart ty o -> step s o = To s' calls r ->
  rep (groups s') t k ty lo hi /\ hi <= length (groups s').
Proof.
  intros R L U St. assert (Same : groups s' = groups s -> rep (groups s') t k ty lo hi /\ hi <= length (groups s')) by (intros ->; auto).
  assert (Plain : forall ty' size got, index ty' <> (-2)%Z -> allocate s ty' size got = To s' calls r -> groups s' = groups s).
  { intros ty' size got H St'. apply (allocate_groups s ty' size got s' calls r _ (answer ty') ltac:(rewrite Nat.add_1_r; now apply resolve_plain) St'). }
  destruct o as [tys|i sl|ty' size got|ty' p size got|p|p]; cbn [apart] in U; cbn [step] in St.
  - injection St as <- _ _. cbn [groups]. rewrite app_length. split; [|lia]. apply (proj1 (rep_same (groups s) _)); [exact R|]. intros i Hi. now rewrite nth_error_app1 by lia.
  - destruct (_ && _); [|discriminate]. injection St as <- _ _. now apply Same.
  - apply Same. exact (Plain _ _ _ U St).
  - apply Same. destruct (N.eqb_spec p 0) as [->|Hp]; [exact (Plain _ _ _ (U eq_refl) St)|]. apply N.eqb_neq in Hp. exact (realloc_groups _ _ _ _ _ _ _ _ Hp St).
  - apply Same. destruct (find_mem _ _); [|discriminate]. now injection St as <- _ _.
  - apply Same. destruct (find_mem _ _) as [h|]; [|discriminate]. destruct (get_slot _ _); [|discriminate]. destruct (_ <? _)%Z; [discriminate|]. destruct (_ =? _)%Z; now injection St as <- _ _.
Qed.

Lemma used_run ty ops n : used ty ops n -> forall s s' log t k lo hi, run s ops s' log -> rep (groups s) t k ty lo hi -> hi <= length (groups s) ->
  rep (groups s') t (k + n) ty lo hi /\ hi <= length (groups s').
Proof.
  induction 1 as [|o ops n U Us IH|o ops n U Us IH]; intros s s' log t k lo hi R Rp L; inversion R as [|? ? s1 calls r ? ? log' St R']; subst.
  - now rewrite Nat.add_0_r.
  - destruct (used_step_one _ _ _ _ _ _ _ _ _ _ Rp L U St) as (Rp1 & L1). destruct (IH _ _ _ _ _ _ _ R' Rp1 L1) as (A & B). split; [|exact B]. now replace (k + S n) with (S k + n) by lia.
  - destruct (used_step_other _ _ _ _ _ _ _ _ _ _ Rp L U St) as (Rp1 & L1). exact (IH _ _ _ _ _ _ _ R' Rp1 L1).
Qed.

(** ** Who is asked *)
Local Open Scope N_scope.
Definition held (s : state) (log : list call) : Prop := forall p h, find_mem p (mems s) = Some h -> p <> 0 /\ holder log p = Some (allocator h).

Lemma find_drop p q l : find_mem q (drop_mem p l) = if q =? p then None else find_mem q l.
Proof.
  induction l as [|(x & h) l IH]; cbn [drop_mem filter find_mem fst]; [now destruct (q =? p)|]. destruct (N.eqb_spec x p) as [E|E]; cbn [negb].
  - fold (drop_mem p l). rewrite IH. destruct (N.eqb_spec q p) as [|Ne]; [reflexivity|]. destruct (N.eqb_spec x q); [congruence|reflexivity].
  - cbn [find_mem]. fold (drop_mem p l). rewrite IH. destruct (N.eqb_spec x q) as [Q|Q]; [destruct (N.eqb_spec q p); [congruence|reflexivity]|reflexivity].
Qed.
Lemma holder_app log c : holder (log ++ [c]) = after (holder log) c.
Proof. unfold holder. now rewrite fold_left_app. Qed.

Definition fine (log calls : list call) : Prop := match calls with [] => True | [c] => own log c | _ => False end.

Lemma allocate_held s ty size got s' calls r log : held s log -> allocate s ty size got = To s' calls r -> held s' (log ++ calls) /\ fine log calls.
Proof.
  intros H St. unfold allocate in St. destruct (resolve _ _ _) as [(gs & [a|])|]; [| |discriminate].
  2: { injection St as <- <- _. split; [|exact I]. rewrite app_nil_r. exact H. }
  destruct (get_slot s (index a)) as [sl|]; [|discriminate]. destruct (has_alloc sl); [|injection St as <- <- _; split; [rewrite app_nil_r; exact H|exact I]].
  destruct (size <? _); [|injection St as <- <- _; split; [rewrite app_nil_r; exact H|exact I]]. destruct (N.eqb_spec got 0) as [->|Hg].
  - injection St as <- <- _. split; [|exact I]. intros p h Hp. cbn [mems] in Hp. rewrite holder_app. cbn [after negb N.eqb andb]. now apply H.
  - destruct (find_mem got (mems s)) eqn:Ef; [discriminate|]. injection St as <- <- _. split; [|exact I]. intros p h Hp. cbn [mems find_mem] in Hp. rewrite holder_app. cbn [after]. apply N.eqb_neq in Hg as Hg'. rewrite Hg'. cbn [negb andb].
    destruct (N.eqb_spec got p) as [E|E]; [injection Hp as <-; subst p; rewrite N.eqb_refl; auto|]. destruct (N.eqb_spec p got); [congruence|]. now apply H.
Qed.

Lemma step_held s o s' calls r log : held s log -> step s o = To s' calls r -> held s' (log ++ calls) /\ fine log calls.
Proof.
  intros H St. destruct o as [tys|i sl|ty' size got|ty p size got|p|p]; cbn [step] in St.
  - injection St as <- <- _. split; [rewrite app_nil_r; exact H|exact I].
  - destruct (_ && _); [|discriminate]. injection St as <- <- _. split; [rewrite app_nil_r; exact H|exact I].
  - now apply (allocate_held s ty' size got s' calls r).
  - unfold reallocate in St. destruct (p =? 0) eqn:Ep; [now apply (allocate_held s ty size got s' calls r)|]. destruct (find_mem p (mems s)) as [h|] eqn:Ef; [|discriminate].
    destruct (get_slot s (allocator h)) as [sl|]; [|discriminate]. destruct (size <? _); [|injection St as <- <- _; split; [rewrite app_nil_r; exact H|exact I]]. destruct (has_realloc sl); [|injection St as <- <- _; split; [rewrite app_nil_r; exact H|exact I]].
    destruct (N.eqb_spec got 0) as [->|Hg].
    + injection St as <- <- _. split; [|cbn [fine own]; now apply H]. intros q hq Hq. rewrite holder_app. cbn [after N.eqb]. now apply H.
    + destruct (find_mem got (drop_mem p (mems s))) eqn:Eg; [discriminate|]. injection St as <- <- _. split; [|cbn [fine own]; now apply H]. intros q hq Hq. cbn [mems find_mem] in Hq. rewrite holder_app. cbn [after].
      apply N.eqb_neq in Hg as Hg'. rewrite Hg'. destruct (N.eqb_spec got q) as [E|E].
      * injection Hq as <-. subst q. rewrite N.eqb_refl. auto.
      * destruct (N.eqb_spec q got); [congruence|]. rewrite find_drop in Hq. destruct (N.eqb_spec q p); [discriminate|]. now apply H.
  - destruct (find_mem p (mems s)) as [h|] eqn:Ef; [|discriminate]. injection St as <- <- _. split; [|exact I]. rewrite app_nil_r. intros q hq Hq. cbn [mems find_mem] in Hq.
    destruct (N.eqb_spec p q) as [<-|E]; [injection Hq as <-; cbn [allocator]; now apply H|]. rewrite find_drop in Hq. destruct (q =? p); [discriminate|now apply H].
  - destruct (find_mem p (mems s)) as [h|] eqn:Ef; [|discriminate]. destruct (get_slot s (allocator h)) as [sl|]; [|discriminate]. destruct (_ <? _)%Z; [discriminate|]. destruct (_ =? _)%Z; injection St as <- <- _.
    + split; [|destruct (has_free sl); [cbn [fine own]; now apply H|exact I]]. intros q hq Hq. cbn [mems] in Hq. rewrite find_drop in Hq. destruct (q =? p) eqn:Eq; [discriminate|]. destruct (has_free sl); [|rewrite app_nil_r; now apply H]. rewrite holder_app. cbn [after]. rewrite Eq. now apply H.
    + split; [|exact I]. rewrite app_nil_r. intros q hq Hq. cbn [mems find_mem] in Hq. destruct (N.eqb_spec p q) as [<-|E]; [injection Hq as <-; cbn [allocator]; now apply H|]. rewrite find_drop in Hq. destruct (q =? p); [discriminate|now apply H].
Qed.

Lemma run_held s ops s' log : run s ops s' log -> forall log0, held s log0 -> held s' (log0 ++ log) /\ forall a c b, log = a ++ c :: b -> own (log0 ++ a) c.
Proof.
  induction 1 as [s|s o s1 calls r ops s' log St R IH]; intros log0 H.
  - rewrite app_nil_r. split; [exact H|]. intros a c b E. destruct a; discriminate.
  - destruct (step_held _ _ _ _ _ _ H St) as (H1 & F). destruct (IH _ H1) as (H2 & O). rewrite app_assoc. split; [exact H2|]. intros a c b E.
    destruct calls as [|c0 [|c1 calls]]; [|  |contradiction].
    + cbn [app] in E. rewrite app_nil_r in O. exact (O a c b E).
    + cbn [app] in E. destruct a as [|x a]; injection E as -> E; [rewrite app_nil_r; exact F|]. specialize (O a c b E). rewrite <- app_assoc in O. exact O.
Qed.
