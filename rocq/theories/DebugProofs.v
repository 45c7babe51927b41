(** Proofs for C74. *)
From Coq Require Import Permutation.
From Verif Require Import Base DebugModel DebugSpec.
Local Open Scope N_scope.

(** ** How often an address is in a list *)
Definition cnt (x : N) (l : list N) : nat := count_occ N.eq_dec l x.
Definition fcnt {A} (f : A -> list N) (x : N) (l : list A) : nat := cnt x (flat_map f l).
Arguments cnt : simpl never.
Arguments fcnt : simpl never.

Lemma cnt_app x a b : cnt x (a ++ b) = (cnt x a + cnt x b)%nat.
Proof. apply count_occ_app. Qed.
Lemma cnt_cons x y a : cnt x (y :: a) = ((if N.eqb y x then 1 else 0) + cnt x a)%nat.
Proof. unfold cnt. simpl. destruct (N.eq_dec y x) as [->|E]; [now rewrite N.eqb_refl|]. now rewrite (proj2 (N.eqb_neq y x) E). Qed.
Lemma cnt_in x l : (0 < cnt x l)%nat <-> In x l.
Proof. unfold cnt. symmetry. apply count_occ_In. Qed.
Lemma cnt_out x l : cnt x l = 0%nat <-> ~ In x l.
Proof. unfold cnt. symmetry. apply count_occ_not_In. Qed.

Lemma upd_at {A} (l : list A) : forall i x, nth_error l i = Some x -> exists a b, l = a ++ x :: b /\ length a = i /\ forall y, upd l i y = a ++ y :: b.
Proof.
  induction l as [|h l IH]; intros [|i] x E; try discriminate.
  - injection E as ->. exists [], l. auto.
  - destruct (IH i x E) as (a & b & -> & L & U). exists (h :: a), b. split; [reflexivity|]. split; [simpl; congruence|]. intros y. simpl. now rewrite U.
Qed.

Lemma fcnt_upd {A} (f : A -> list N) l i c c' x : nth_error l i = Some c -> (fcnt f x (upd l i c') + cnt x (f c) = fcnt f x l + cnt x (f c'))%nat.
Proof.
  intros E. destruct (upd_at l i c E) as (a & b & -> & _ & U). rewrite U. unfold fcnt. rewrite !flat_map_app. simpl. rewrite !cnt_app. lia.
Qed.
Lemma cnt_upd (l : list entry) i e e' x : nth_error l i = Some e -> (cnt x (map fst (upd l i e')) + cnt x [fst e] = cnt x (map fst l) + cnt x [fst e'])%nat.
Proof.
  intros E. destruct (upd_at l i e E) as (a & b & -> & _ & U). rewrite U. rewrite !map_app. cbn [map]. rewrite !cnt_app, !cnt_cons. lia.
Qed.

Lemma mem_in p l : mem p l = true <-> In p l.
Proof. unfold mem. rewrite existsb_exists. split; [intros (x & H & E); apply N.eqb_eq in E; now subst|intros H; exists p; split; [exact H|apply N.eqb_refl]]. Qed.
Lemma mem_out p l : mem p l = false <-> ~ In p l.
Proof. rewrite <- mem_in. destruct (mem p l); split; congruence. Qed.

Lemma in_drop p e l : In e (drop p l) <-> In e l /\ fst e <> p.
Proof. unfold drop. rewrite filter_In, negb_true_iff, N.eqb_neq. tauto. Qed.
Lemma cnt_drop x p l : cnt x (map fst (drop p l)) = if x =? p then 0%nat else cnt x (map fst l).
Proof.
  unfold drop. induction l as [|e l IH]; [now destruct (x =? p)|]. simpl. destruct (N.eqb_spec (fst e) p) as [E|E]; simpl; rewrite !cnt_cons, ?IH.
  - destruct (N.eqb_spec x p); [reflexivity|]. destruct (N.eqb_spec (fst e) x); [congruence|reflexivity].
  - destruct (N.eqb_spec x p); [destruct (N.eqb_spec (fst e) x); [congruence|reflexivity]|reflexivity].
Qed.

Lemma in_upd {A} (l : list A) : forall i x y, In y (upd l i x) -> y = x \/ In y l.
Proof. induction l as [|h l IH]; intros [|i] x y H; simpl in *; try tauto; [destruct H; auto|]. destruct H as [H|H]; [auto|]. apply IH in H. tauto. Qed.

(** ** The invariant *)
(** Addresses only this call knows of, in the heap *)
Definition holds (c : pc) : list N :=
  match c with
  | Tracking p _ => [p]
  | Seeking ToRemove p _ | Found ToRemove p _ => [p]
  | Seeking (ToReplace q _) _ _ | Found (ToReplace q _) _ _ => [q]
  | Freeing p => [p]
  | _ => []
  end.
(** Addresses this call has to find in the list *)
Definition seeks (c : pc) : list N := match c with Seeking ToRemove p _ | Seeking (ToReplace _ _) p _ | Found ToRemove p _ | Found (ToReplace _ _) p _ => [p] | _ => [] end.
(** Old addresses of resizes, where they differ from the new *)
Definition old (c : pc) : list N := match c with Seeking (ToReplace q _) p _ | Found (ToReplace q _) p _ => if p =? q then [] else [p] | _ => [] end.

Definition ptrs (s : state) : list N := map fst (user s).

Definition at_least (s : state) (c : pc) : Prop :=
  match c with
  | Seeking ToAsk _ _ => True
  | Seeking _ p k => forall m e, (m < k)%nat -> nth_error (entries s) m = Some e -> fst e <> p
  | Found ToAsk _ _ => False
  | Found _ p k => exists i, nth_error (entries s) k = Some (p, i)
  | _ => True
  end.

Record inv (s : state) : Prop :=
  { i_once : forall x, (cnt x (ptrs s) + fcnt holds x (threads s) + fcnt old x (threads s) <= 1)%nat;
    i_zero : (cnt 0 (ptrs s) + fcnt holds 0 (threads s) + fcnt old 0 (threads s) = 0)%nat;
    i_heap : forall x, (0 < cnt x (ptrs s) + fcnt holds x (threads s))%nat -> In x (heap s);
    i_entries : forall x, x <> 0 -> cnt x (map fst (entries s)) = (cnt x (ptrs s) + fcnt seeks x (threads s))%nat;
    i_user : incl (user s) (entries s);
    i_pc : forall c, In c (threads s) -> at_least s c }.

Lemma initial_inv n : inv (initial n).
Proof.
  assert (F : forall f : pc -> list N, f Idle = [] -> forall x, fcnt f x (repeat Idle n) = 0%nat) by (intros f E x; unfold fcnt; induction n as [|n IH]; [reflexivity|]; simpl; now rewrite E).
  split; unfold ptrs, initial; cbn [user threads entries heap map app].
  - intros x. rewrite !F by reflexivity. change (cnt x []) with 0%nat. lia.
  - rewrite !F by reflexivity. reflexivity.
  - intros x. rewrite !F by reflexivity. change (cnt x []) with 0%nat. lia.
  - intros x _. rewrite !F by reflexivity. reflexivity.
  - intros e [].
  - intros c H. apply repeat_spec in H. subst c. exact I.
Qed.

Lemma seeks_le x l : (fcnt seeks x l <= fcnt holds x l + fcnt old x l)%nat.
Proof.
  unfold fcnt. induction l as [|c l IH]; [simpl; lia|]. simpl. rewrite !cnt_app.
  assert (cnt x (seeks c) <= cnt x (holds c) + cnt x (old c))%nat; [|lia].
  destruct c as [|? ?|[| |q i] p k|[| |q i] p k|?]; simpl; try lia; (destruct (N.eqb_spec p q) as [->|]; [lia|rewrite !cnt_cons; simpl; lia]).
Qed.

Lemma fcnt_in {A} (f : A -> list N) x l c : In c l -> In x (f c) -> (0 < fcnt f x l)%nat.
Proof. intros H1 H2. apply cnt_in. apply in_flat_map. eauto. Qed.

Lemma not_old s p : ~ being_replaced s p -> fcnt old p (threads s) = 0%nat /\ (fcnt seeks p (threads s) <= fcnt holds p (threads s))%nat.
Proof.
  intros N. assert (Z : fcnt old p (threads s) = 0%nat).
  { apply cnt_out. intros H. apply in_flat_map in H. destruct H as (c & Hc & H). apply N. unfold being_replaced.
    destruct c as [|? ?|[| |q i] p' k|[| |q i] p' k|?]; simpl in H; try (now destruct H); (destruct (p' =? q); [now destruct H|]; destruct H as [<-|[]]; exists q, i, k; auto). }
  split; [exact Z|]. pose proof (seeks_le p (threads s)). lia.
Qed.

(** Entries of an address, one at most *)
Lemma once_at (es : list entry) x : (cnt x (map fst es) <= 1)%nat -> forall m n e f, nth_error es m = Some e -> nth_error es n = Some f -> fst e = x -> fst f = x -> m = n.
Proof.
  induction es as [|h es IH]; intros H [|m] [|n] e f Em En Ee Ef; try discriminate; [reflexivity| | |].
  - exfalso. injection Em as ->. simpl in H. rewrite cnt_cons, Ee, N.eqb_refl in H. cbv iota in H. cbn [nth_error] in En. apply nth_error_In in En. apply (in_map fst) in En. rewrite Ef in En. apply cnt_in in En. lia.
  - exfalso. injection En as ->. simpl in H. rewrite cnt_cons, Ef, N.eqb_refl in H. cbv iota in H. cbn [nth_error] in Em. apply nth_error_In in Em. apply (in_map fst) in Em. rewrite Ee in Em. apply cnt_in in Em. lia.
  - f_equal. apply (IH ltac:(simpl in H; rewrite cnt_cons in H; lia) m n e f); assumption.
Qed.

Lemma entry_once s x : inv s -> x <> 0 -> (cnt x (map fst (entries s)) <= 1)%nat.
Proof. intros I Hx. rewrite (i_entries _ I x Hx). pose proof (i_once _ I x). pose proof (seeks_le x (threads s)). lia. Qed.

Lemma at_least_app s s' c e : entries s' = entries s ++ [e] -> (forall p, In p (seeks c) -> fst e <> p) -> at_least s c -> at_least s' c.
Proof.
  intros E N H.
  assert (Fnd : forall p k, (exists i, nth_error (entries s) k = Some (p, i)) -> exists i, nth_error (entries s') k = Some (p, i)).
  { intros p k (i & Hi). exists i. rewrite E, nth_error_app1; [exact Hi|]. apply nth_error_Some. congruence. }
  assert (Sk : forall p k, fst e <> p -> (forall m e, (m < k)%nat -> nth_error (entries s) m = Some e -> fst e <> p) -> forall m e, (m < k)%nat -> nth_error (entries s') m = Some e -> fst e <> p).
  { intros p k Np G m f L Hf. rewrite E in Hf. destruct (Nat.lt_ge_cases m (length (entries s))); [rewrite nth_error_app1 in Hf by lia; now apply (G m f)|].
    rewrite nth_error_app2 in Hf by lia. destruct (m - length (entries s))%nat as [|d]; [now injection Hf as <-|destruct d; discriminate]. }
  destruct c as [|? ?|[| |q i] p k|[| |q i] p k|?]; cbn [at_least seeks] in *; auto.
  - apply Sk; [apply N; now left|exact H].
  - apply Sk; [apply N; now left|exact H].
Qed.

Lemma at_least_upd s s' c k0 e0 e' : entries s' = upd (entries s) k0 e' -> nth_error (entries s) k0 = Some e0 ->
  (forall p, In p (seeks c) -> fst e' <> p /\ fst e0 <> p) -> at_least s c -> at_least s' c.
Proof.
  intros E E0 N H.
  assert (At : forall m f, nth_error (entries s') m = Some f -> m = k0 /\ f = e' \/ m <> k0 /\ nth_error (entries s) m = Some f).
  { intros m f Hf. rewrite E in Hf. destruct (Nat.eq_dec m k0) as [->|Ne]; [left|right; rewrite nth_error_upd_ne in Hf by auto; auto].
    rewrite nth_error_upd_eq in Hf; [split; congruence|]. apply nth_error_Some. congruence. }
  assert (Fnd : forall p k, fst e0 <> p -> (exists i, nth_error (entries s) k = Some (p, i)) -> exists i, nth_error (entries s') k = Some (p, i)).
  { intros p k Np (i & Hi). exists i. rewrite E. rewrite nth_error_upd_ne; [exact Hi|]. intros <-. rewrite E0 in Hi. injection Hi as ->. now apply Np. }
  assert (Sk : forall p k, fst e' <> p -> (forall m e, (m < k)%nat -> nth_error (entries s) m = Some e -> fst e <> p) -> forall m e, (m < k)%nat -> nth_error (entries s') m = Some e -> fst e <> p).
  { intros p k Np G m f L Hf. destruct (At m f Hf) as [(-> & ->)|(_ & Hs)]; [exact Np|now apply (G m f)]. }
  destruct c as [|? ?|[| |q i] p k|[| |q i] p k|?]; cbn [at_least seeks] in *; auto.
  - apply Sk; [apply N; now left|exact H].
  - apply Sk; [apply N; now left|exact H].
  - apply Fnd; [apply N; now left|exact H].
  - apply Fnd; [apply N; now left|exact H].
Qed.

Lemma at_least_same s s' c : entries s' = entries s -> at_least s c -> at_least s' c.
Proof. intros E. destruct c as [|? ?|[| |q i] p k|[| |q i] p k|?]; cbn [at_least]; rewrite ?E; auto. Qed.

Lemma user_once s p i : inv s -> In (p, i) (user s) -> (0 < cnt p (ptrs s))%nat /\ p <> 0.
Proof.
  intros I H. assert (C : (0 < cnt p (ptrs s))%nat) by (apply cnt_in; apply in_map_iff; exists (p, i); auto). split; [exact C|]. intros ->. pose proof (i_zero _ I). lia.
Qed.

Lemma nth_upd' {A} (l : list A) t c' x : In x (upd l t c') -> x = c' \/ exists i, i <> t /\ nth_error l i = Some x.
Proof.
  intros H. apply In_nth_error in H. destruct H as (i & H). destruct (Nat.eq_dec t i) as [<-|Ne].
  - left. rewrite nth_error_upd_eq in H; [congruence|]. rewrite <- (upd_length l t c'). apply nth_error_Some. congruence.
  - right. exists i. rewrite nth_error_upd_ne in H by exact Ne. auto.
Qed.

Lemma two_of {A} (f : A -> list N) x l i j c d : i <> j -> nth_error l i = Some c -> nth_error l j = Some d -> (cnt x (f c) + cnt x (f d) <= fcnt f x l)%nat.
Proof.
  intros Ne Hi Hj. destruct (upd_at l i c Hi) as (a & b & -> & La & _). unfold fcnt. rewrite flat_map_app. cbn [flat_map]. rewrite !cnt_app.
  assert (In d (a ++ b)).
  { destruct (Nat.lt_ge_cases j i); [rewrite nth_error_app1 in Hj by lia; apply nth_error_In in Hj; apply in_app_iff; now left|].
    rewrite nth_error_app2 in Hj by lia. destruct (j - length a)%nat as [|m] eqn:D; [lia|]. cbn [nth_error] in Hj. apply nth_error_In in Hj. apply in_app_iff. now right. }
  assert (cnt x (f d) <= cnt x (flat_map f (a ++ b)))%nat.
  { apply in_split in H. destruct H as (u & v & ->). rewrite flat_map_app. cbn [flat_map]. rewrite !cnt_app. lia. }
  rewrite flat_map_app, cnt_app in H0. lia.
Qed.

Lemma seeks_held c p : In p (seeks c) -> (1 <= cnt p (holds c) + cnt p (old c))%nat.
Proof.
  intros H. apply cnt_in in H. pose proof (seeks_le p [c]) as L. unfold fcnt in L. cbn [flat_map] in L. rewrite !app_nil_r in L. lia.
Qed.

(** Other calls look for other addresses than those this one holds or seeks. *)
Lemma others_differ s t c i c1 p p' : inv s -> nth_error (threads s) t = Some c -> nth_error (threads s) i = Some c1 -> i <> t ->
  (1 <= cnt p (holds c) + cnt p (old c))%nat -> In p' (seeks c1) -> p <> p'.
Proof.
  intros I Ht Hi Ne Hp Hp' <-. apply seeks_held in Hp'. pose proof (two_of holds p _ _ _ _ _ Ne Hi Ht). pose proof (two_of old p _ _ _ _ _ Ne Hi Ht). pose proof (i_once _ I p). lia.
Qed.
Lemma user_differs s t c p e : inv s -> nth_error (threads s) t = Some c -> (1 <= cnt p (holds c) + cnt p (old c))%nat -> In e (user s) -> fst e <> p.
Proof.
  intros I Ht Hp He <-. pose proof (i_once _ I (fst e)). apply (in_map fst) in He. apply cnt_in in He. fold (ptrs s) in He.
  assert (cnt (fst e) (holds c) <= fcnt holds (fst e) (threads s))%nat by (destruct (upd_at _ _ _ Ht) as (a & b & -> & _); unfold fcnt; rewrite flat_map_app; cbn [flat_map]; rewrite !cnt_app; lia).
  assert (cnt (fst e) (old c) <= fcnt old (fst e) (threads s))%nat by (destruct (upd_at _ _ _ Ht) as (a & b & -> & _); unfold fcnt; rewrite flat_map_app; cbn [flat_map]; rewrite !cnt_app; lia).
  lia.
Qed.
Lemma sought_nonzero s i c1 p : inv s -> nth_error (threads s) i = Some c1 -> In p (seeks c1) -> p <> 0.
Proof.
  intros I Hi H ->. apply seeks_held in H. pose proof (i_zero _ I).
  assert (forall f : pc -> list N, cnt 0 (f c1) <= fcnt f 0 (threads s))%nat as G by (intros f; destruct (upd_at _ _ _ Hi) as (a & b & -> & _); unfold fcnt; rewrite flat_map_app; cbn [flat_map]; rewrite !cnt_app; lia).
  pose proof (G holds). pose proof (G old). lia.
Qed.

(** What is sought is in the list. *)
Lemma sought_there s i c p : inv s -> nth_error (threads s) i = Some c -> In p (seeks c) -> exists m e, nth_error (entries s) m = Some e /\ fst e = p.
Proof.
  intros I Hi H. pose proof (sought_nonzero _ _ _ _ I Hi H) as Nz. apply nth_error_In in Hi. pose proof (fcnt_in seeks p _ _ Hi H) as C. pose proof (i_entries _ I p Nz) as E.
  assert (J : (0 < cnt p (map fst (entries s)))%nat) by lia. apply cnt_in in J. apply in_map_iff in J. destruct J as (e & Ee & He). apply In_nth_error in He. destruct He as (m & Hm). eauto.
Qed.

Lemma cnt_nil x : cnt x [] = 0%nat.
Proof. reflexivity. Qed.

(** A step that only moves a call on *)
Lemma moves_on s t c c' : inv s -> nth_error (threads s) t = Some c -> holds c' = holds c -> old c' = old c -> seeks c' = seeks c -> at_least s c' -> inv (set_pc s t c').
Proof.
  intros I Et E1 E2 E3 A. assert (U : forall f x, f c' = f c -> fcnt f x (upd (threads s) t c') = fcnt f x (threads s)) by (intros f x E; pose proof (fcnt_upd f (threads s) t c c' x Et); rewrite E in *; lia).
  destruct I as [I1 I2 I3 I4 I5 I6]. split; unfold set_pc, ptrs; cbn [user threads entries heap]; fold (ptrs s).
  - intros x. rewrite (U holds x E1), (U old x E2). apply I1.
  - rewrite (U holds 0 E1), (U old 0 E2). exact I2.
  - intros x. rewrite (U holds x E1). apply I3.
  - intros x Hx. rewrite (U seeks x E3). now apply I4.
  - exact I5.
  - intros c1 Hc. apply nth_upd' in Hc. destruct Hc as [->|(i & _ & Hc)]; [exact A|]. apply (at_least_same s); [reflexivity|]. apply I6. now apply nth_error_In in Hc.
Qed.

Lemma in_upd_keeps (l : list entry) k e0 e' e : nth_error l k = Some e0 -> fst e <> fst e0 -> In e l -> In e (upd l k e').
Proof.
  intros E0 N H. apply In_nth_error in H. destruct H as (m & Hm). apply (nth_error_In _ m). rewrite nth_error_upd_ne; [exact Hm|]. intros Q. subst m. apply N. assert (X : Some e = Some e0) by (exact (eq_trans (eq_sym Hm) E0)). now injection X as ->.
Qed.

Lemma step_inv s t l s' a : inv s -> step s t l = To s' a -> not_reused s l -> inv s'.
Proof.
  intros I St Nr. unfold step in St. destruct (nth_error (threads s) t) as [c|] eqn:Et; [|discriminate].
  assert (U : forall f c' x, (fcnt f x (upd (threads s) t c') + cnt x (f c) = fcnt f x (threads s) + cnt x (f c'))%nat) by (intros f c' x; now apply fcnt_upd).
  destruct I as [I1 I2 I3 I4 I5 I6] eqn:EI. assert (I' := I). clear EI. 
  destruct c as [|p i|j p k|j p k|p]; destruct l as [p1 i1| |p1|p1 d1 g1|p1| | |]; try discriminate St; try (destruct j; discriminate St).
  - (* Malloc *)
    destruct (N.eqb_spec p1 0) as [|Nz]; [discriminate|]. destruct (mem p1 (heap s)) eqn:Em; [discriminate|]. cbn [orb] in St. injection St as <- <-. apply mem_out in Em. cbn [not_reused] in Nr.
    destruct (not_old s p1 Nr) as [Zo Zs].
    assert (Zh : (cnt p1 (ptrs s) + fcnt holds p1 (threads s) = 0)%nat) by (destruct (Nat.eq_dec (cnt p1 (ptrs s) + fcnt holds p1 (threads s)) 0); [assumption|exfalso; apply Em, I3; lia]).
    split; unfold ptrs; cbn [user threads entries heap]; fold (ptrs s).
    + intros x. pose proof (U holds (Tracking p1 i1) x) as U1. pose proof (U old (Tracking p1 i1) x) as U2. cbn [holds old] in U1, U2. rewrite ?cnt_cons, ?cnt_nil in *. specialize (I1 x). destruct (N.eqb_spec p1 x) as [<-|]; lia.
    + pose proof (U holds (Tracking p1 i1) 0) as U1. pose proof (U old (Tracking p1 i1) 0) as U2. cbn [holds old] in U1, U2. rewrite ?cnt_cons, ?cnt_nil in *. destruct (N.eqb_spec p1 0); lia.
    + intros x Hx. pose proof (U holds (Tracking p1 i1) x) as U1. cbn [holds] in U1. rewrite ?cnt_cons, ?cnt_nil in *. destruct (N.eqb_spec p1 x) as [<-|]; [now left|]. right. apply I3. lia.
    + intros x Hx. pose proof (U seeks (Tracking p1 i1) x) as U1. cbn [seeks] in U1. rewrite ?cnt_nil in *. rewrite I4 by exact Hx. lia.
    + exact I5.
    + intros c1 Hc. apply nth_upd' in Hc. destruct Hc as [->|(i & _ & Hc)]; [exact Logic.I|]. apply (at_least_same s); [reflexivity|]. apply I6. now apply nth_error_In in Hc.
  - (* Free *)
    destruct (mem p1 (map fst (user s))) eqn:Em; [|discriminate]. injection St as <- <-. apply mem_in in Em. fold (ptrs s) in Em. apply cnt_in in Em.
    split; unfold ptrs; cbn [user threads entries heap].
    + intros x. pose proof (U holds (Seeking ToRemove p1 0) x) as U1. pose proof (U old (Seeking ToRemove p1 0) x) as U2. cbn [holds old] in U1, U2. rewrite ?cnt_cons, ?cnt_nil in *. rewrite cnt_drop. fold (ptrs s). specialize (I1 x).
      rewrite (N.eqb_sym x p1). destruct (N.eqb_spec p1 x) as [<-|]; lia.
    + pose proof (U holds (Seeking ToRemove p1 0) 0) as U1. pose proof (U old (Seeking ToRemove p1 0) 0) as U2. cbn [holds old] in U1, U2. rewrite ?cnt_cons, ?cnt_nil in *. rewrite cnt_drop. fold (ptrs s). 
      rewrite (N.eqb_sym 0 p1). destruct (N.eqb_spec p1 0) as [->|]; lia.
    + intros x Hx. pose proof (U holds (Seeking ToRemove p1 0) x) as U1. cbn [holds] in U1. rewrite ?cnt_cons, ?cnt_nil in *. rewrite cnt_drop in Hx. fold (ptrs s) in Hx. apply I3. rewrite (N.eqb_sym x p1) in Hx. destruct (N.eqb_spec p1 x) as [E|]; [rewrite E in *|]; lia.
    + intros x Hx. pose proof (U seeks (Seeking ToRemove p1 0) x) as U1. cbn [seeks] in U1. rewrite ?cnt_cons, ?cnt_nil in *. rewrite cnt_drop. fold (ptrs s). rewrite I4 by exact Hx. specialize (I1 x). rewrite (N.eqb_sym x p1). destruct (N.eqb_spec p1 x) as [<-|]; lia.
    + intros e He. apply in_drop in He. now apply I5.
    + intros c1 Hc. apply nth_upd' in Hc. destruct Hc as [->|(i & _ & Hc)]; [cbn [at_least]; intros; lia|]. apply (at_least_same s); [reflexivity|]. apply I6. now apply nth_error_In in Hc.
  - (* Realloc *)
    destruct (mem p1 (map fst (user s))) eqn:Em; [|discriminate]. apply mem_in in Em. fold (ptrs s) in Em. apply cnt_in in Em.
    destruct g1 as [q|], d1 as [i|]; [|destruct (_ || _); discriminate|discriminate|injection St as <- <-; exact I].
    destruct (N.eqb_spec q 0) as [|Nz]; [discriminate|]. cbn [orb] in St. destruct (mem q (heap s) && negb (q =? p1)) eqn:Eq; [discriminate|]. injection St as <- <-. cbn [not_reused] in Nr.
    destruct (not_old s q Nr) as [Zo Zs].
    assert (Zh : q <> p1 -> (cnt q (ptrs s) + fcnt holds q (threads s) = 0)%nat).
    { intros Ne. apply andb_false_iff in Eq. destruct Eq as [Eq|Eq]; [|apply negb_false_iff, N.eqb_eq in Eq; congruence]. apply mem_out in Eq.
      destruct (Nat.eq_dec (cnt q (ptrs s) + fcnt holds q (threads s)) 0); [assumption|exfalso; apply Eq, I3; lia]. }
    split; unfold ptrs; cbn [user threads entries heap].
    + intros x. pose proof (U holds (Seeking (ToReplace q i) p1 0) x) as U1. pose proof (U old (Seeking (ToReplace q i) p1 0) x) as U2. cbn [holds old] in U1, U2. rewrite ?cnt_cons, ?cnt_nil in *. rewrite cnt_drop. fold (ptrs s).
      pose proof (I1 x). pose proof (I1 p1). rewrite (N.eqb_sym x p1). destruct (N.eqb_spec p1 q) as [<-|Nq]; rewrite ?cnt_cons, ?cnt_nil in U2.
      * destruct (N.eqb_spec p1 x) as [E|]; [rewrite <- E in *|]; lia.
      * specialize (Zh ltac:(congruence)). destruct (N.eqb_spec p1 x) as [E|]; [rewrite <- E in *; destruct (N.eqb_spec q p1); [congruence|lia]|]. destruct (N.eqb_spec q x) as [E|]; [rewrite <- E in *|]; lia.
    + pose proof (U holds (Seeking (ToReplace q i) p1 0) 0) as U1. pose proof (U old (Seeking (ToReplace q i) p1 0) 0) as U2. cbn [holds old] in U1, U2. rewrite ?cnt_cons, ?cnt_nil in *. rewrite cnt_drop. fold (ptrs s).
      assert (p1 <> 0) by (intros ->; lia). destruct (N.eqb_spec 0 p1); [congruence|]. destruct (N.eqb_spec q 0); [congruence|].
      destruct (p1 =? q); rewrite ?cnt_cons, ?cnt_nil in U2; [lia|]. destruct (N.eqb_spec p1 0); [congruence|lia].
    + intros x Hx. pose proof (U holds (Seeking (ToReplace q i) p1 0) x) as U1. cbn [holds] in U1. rewrite ?cnt_cons, ?cnt_nil in *. rewrite cnt_drop in Hx. fold (ptrs s) in Hx. 
      destruct (N.eqb_spec q x) as [E|]; [left; exact E|]. right. destruct (N.eqb_spec x p1) as [E|Nx]; [exfalso; rewrite E in *; specialize (I1 p1); lia|]. apply in_in_remove; [exact Nx|]. apply I3. lia.
    + intros x Hx. pose proof (U seeks (Seeking (ToReplace q i) p1 0) x) as U1. cbn [seeks] in U1. rewrite ?cnt_cons, ?cnt_nil in *. rewrite cnt_drop. fold (ptrs s). rewrite I4 by exact Hx. specialize (I1 x). rewrite (N.eqb_sym x p1). destruct (N.eqb_spec p1 x) as [E|]; [rewrite <- E in *|]; lia.
    + intros e He. apply in_drop in He. now apply I5.
    + intros c1 Hc. apply nth_upd' in Hc. destruct Hc as [->|(i' & _ & Hc)]; [cbn [at_least]; intros; lia|]. apply (at_least_same s); [reflexivity|]. apply I6. now apply nth_error_In in Hc.
  - (* Ask *)
    destruct (p1 =? 0); [discriminate|]. injection St as <- <-. now apply (moves_on s t Idle).
  - (* Append *)
    injection St as <- <-. assert (Hp : (1 <= cnt p (holds (Tracking p i)) + cnt p (old (Tracking p i)))%nat) by (cbn [holds old]; rewrite cnt_cons, N.eqb_refl, cnt_nil; cbv iota; lia).
    split; unfold ptrs; cbn [user threads entries heap]; rewrite ?map_app; change (map fst (user s)) with (ptrs s); cbn [map fst].
    + intros x. pose proof (U holds Idle x) as U1. pose proof (U old Idle x) as U2. cbn [holds old] in U1, U2. rewrite ?cnt_app, ?cnt_cons, ?cnt_nil in *. specialize (I1 x). lia.
    + pose proof (U holds Idle 0) as U1. pose proof (U old Idle 0) as U2. cbn [holds old] in U1, U2. rewrite ?cnt_app, ?cnt_cons, ?cnt_nil in *. lia.
    + intros x Hx. pose proof (U holds Idle x) as U1. cbn [holds] in U1. rewrite ?cnt_app, ?cnt_cons, ?cnt_nil in *. apply I3. lia.
    + intros x Hx. pose proof (U seeks Idle x) as U1. cbn [seeks] in U1. rewrite ?cnt_app, ?cnt_cons, ?cnt_nil in *. rewrite I4 by exact Hx. lia.
    + intros e He. apply in_app_iff in He. apply in_app_iff. destruct He as [He|He]; [left; now apply I5|now right].
    + intros c1 Hc. apply nth_upd' in Hc. destruct Hc as [->|(i' & Ni & Hc)]; [exact Logic.I|]. apply (at_least_app s _ c1 (p, i)); [reflexivity| |apply I6; now apply nth_error_In in Hc].
      intros p' Hp'. exact (others_differ s t _ i' c1 p p' I Et Hc Ni Hp Hp').
  - (* Read *)
    assert (At := I6 _ (nth_error_In _ _ Et)). destruct (nth_error (entries s) k) as [e|] eqn:Ek.
    + destruct (N.eqb_spec (fst e) p) as [Ep|Np].
      * destruct j as [| |q i]; injection St as <- <-; apply (moves_on s t _ _ I Et); try reflexivity; cbn [at_least]; destruct e as [p' i']; cbn [fst] in Ep; subst p'; eauto.
      * injection St as <- <-. apply (moves_on s t _ _ I Et); try reflexivity.
        destruct j as [| |q i]; cbn [at_least] in *; [exact Logic.I| |]; (intros m f L Hf; destruct (Nat.eq_dec m k) as [->|]; [congruence|apply (At m f); [lia|exact Hf]]).
    + assert (No : In p (seeks (Seeking j p k)) -> (forall m e, (m < k)%nat -> nth_error (entries s) m = Some e -> fst e <> p) -> False).
      { intros Sk G. destruct (sought_there s t _ p I Et Sk) as (m & e & Hm & Ee). apply (G m e); [|exact Hm|exact Ee]. apply nth_error_None in Ek. assert (m < length (entries s))%nat by (apply nth_error_Some; congruence). lia. }
      destruct j as [| |q i]; cbn [not_found] in St; [injection St as <- <-; now apply (moves_on s t (Seeking ToAsk p k))| |]; exfalso; (apply No; [now left|exact At]).
  - (* Write *)
    assert (At := I6 _ (nth_error_In _ _ Et)). destruct j as [| |q i]; [discriminate| |]; cbn [at_least] in At; destruct At as (i0 & Ek); injection St as <- <-.
    + assert (Hp : (1 <= cnt p (holds (Found ToRemove p k)) + cnt p (old (Found ToRemove p k)))%nat) by (cbn [holds old]; rewrite cnt_cons, N.eqb_refl, cnt_nil; cbv iota; lia).
      split; unfold ptrs; cbn [user threads entries heap]; fold (ptrs s).
      * intros x. pose proof (U holds (Freeing p) x) as U1. pose proof (U old (Freeing p) x) as U2. cbn [holds old] in U1, U2. rewrite ?cnt_cons, ?cnt_nil in *. specialize (I1 x). lia.
      * pose proof (U holds (Freeing p) 0) as U1. pose proof (U old (Freeing p) 0) as U2. cbn [holds old] in U1, U2. rewrite ?cnt_cons, ?cnt_nil in *. lia.
      * intros x Hx. pose proof (U holds (Freeing p) x) as U1. cbn [holds] in U1. rewrite ?cnt_cons, ?cnt_nil in *. apply I3. lia.
      * intros x Hx. pose proof (U seeks (Freeing p) x) as U1. cbn [seeks] in U1. pose proof (cnt_upd _ _ _ (0, (0, 0)) x Ek) as U3. cbn [fst] in U3. rewrite ?cnt_cons, ?cnt_nil in *. rewrite I4 in U3 by exact Hx. destruct (N.eqb_spec 0 x); [congruence|]. lia.
      * intros e He. apply (in_upd_keeps _ _ (p, i0)); [exact Ek|exact (user_differs s t _ p e I Et Hp He)|now apply I5].
      * intros c1 Hc. apply nth_upd' in Hc. destruct Hc as [->|(i' & Ni & Hc)]; [exact Logic.I|]. apply (at_least_upd s _ c1 k (p, i0) (0, (0, 0))); [reflexivity|exact Ek| |apply I6; now apply nth_error_In in Hc].
        intros p' Hp'. split; [cbn [fst]; intros Q; exact (sought_nonzero s i' c1 p' I Hc Hp' (eq_sym Q))|exact (others_differ s t _ i' c1 p p' I Et Hc Ni Hp Hp')].
    + assert (Hq : (1 <= cnt q (holds (Found (ToReplace q i) p k)) + cnt q (old (Found (ToReplace q i) p k)))%nat) by (cbn [holds old]; rewrite cnt_cons, N.eqb_refl, cnt_nil; cbv iota; lia).
      assert (Hp : (1 <= cnt p (holds (Found (ToReplace q i) p k)) + cnt p (old (Found (ToReplace q i) p k)))%nat).
      { apply seeks_held. now left. }
      split; unfold ptrs; cbn [user threads entries heap]; rewrite ?map_app; change (map fst (user s)) with (ptrs s); cbn [map fst].
      * intros x. pose proof (U holds Idle x) as U1. pose proof (U old Idle x) as U2. cbn [holds] in U1. change (old Idle) with (@nil N) in U2. rewrite ?cnt_app, ?cnt_cons, ?cnt_nil in *. specialize (I1 x). lia.
      * pose proof (U holds Idle 0) as U1. pose proof (U old Idle 0) as U2. cbn [holds] in U1. change (old Idle) with (@nil N) in U2. rewrite ?cnt_app, ?cnt_cons, ?cnt_nil in *. lia.
      * intros x Hx. pose proof (U holds Idle x) as U1. cbn [holds] in U1. rewrite ?cnt_app, ?cnt_cons, ?cnt_nil in *. apply I3. lia.
      * intros x Hx. pose proof (U seeks Idle x) as U1. cbn [seeks] in U1. pose proof (cnt_upd _ _ _ (q, i) x Ek) as U3. cbn [fst] in U3. rewrite ?cnt_app, ?cnt_cons, ?cnt_nil in *. rewrite I4 in U3 by exact Hx. lia.
      * intros e He. apply in_app_iff in He. destruct He as [He|[<-|[]]]; [apply (in_upd_keeps _ _ (p, i0)); [exact Ek|exact (user_differs s t _ p e I Et Hp He)|now apply I5]|].
        apply (nth_error_In _ k). apply nth_error_upd_eq. apply nth_error_Some. congruence.
      * intros c1 Hc. apply nth_upd' in Hc. destruct Hc as [->|(i' & Ni & Hc)]; [exact Logic.I|]. apply (at_least_upd s _ c1 k (p, i0) (q, i)); [reflexivity|exact Ek| |apply I6; now apply nth_error_In in Hc].
        intros p' Hp'. split; [exact (others_differ s t _ i' c1 q p' I Et Hc Ni Hq Hp')|exact (others_differ s t _ i' c1 p p' I Et Hc Ni Hp Hp')].
  - (* Release *)
    injection St as <- <-. split; unfold ptrs; cbn [user threads entries heap]; fold (ptrs s).
    + intros x. pose proof (U holds Idle x) as U1. pose proof (U old Idle x) as U2. cbn [holds old] in U1, U2. rewrite ?cnt_cons, ?cnt_nil in *. specialize (I1 x). lia.
    + pose proof (U holds Idle 0) as U1. pose proof (U old Idle 0) as U2. cbn [holds old] in U1, U2. rewrite ?cnt_cons, ?cnt_nil in *. lia.
    + intros x Hx. pose proof (U holds Idle x) as U1. cbn [holds] in U1. rewrite ?cnt_cons, ?cnt_nil in *. specialize (I1 x). destruct (N.eqb_spec p x); [exfalso; lia|]. apply in_in_remove; [congruence|]. apply I3. lia.
    + intros x Hx. pose proof (U seeks Idle x) as U1. cbn [seeks] in U1. rewrite ?cnt_cons, ?cnt_nil in *. rewrite I4 by exact Hx. lia.
    + exact I5.
    + intros c1 Hc. apply nth_upd' in Hc. destruct Hc as [->|(i & _ & Hc)]; [exact Logic.I|]. apply (at_least_same s); [reflexivity|]. apply I6. now apply nth_error_In in Hc.
Qed.

Lemma run_inv s ls s' : run s ls s' -> inv s -> inv s'.
Proof. intros R. induction R as [|s t l s1 a ls s' E Nr R IH]; [auto|]. intros I. apply IH. now apply (step_inv s t l s1 a). Qed.

Lemma tracked_cnt s x : x <> 0 -> cnt x (map fst (tracked s)) = cnt x (map fst (entries s)).
Proof.
  intros Hx. unfold tracked. induction (entries s) as [|e es IH]; [reflexivity|]. cbn [filter]. destruct (N.eqb_spec (fst e) 0) as [E|E]; cbn [negb map]; rewrite !cnt_cons, IH; [|reflexivity].
  destruct (N.eqb_spec (fst e) x); [congruence|reflexivity].
Qed.
Lemma in_tracked s e : In e (tracked s) <-> In e (entries s) /\ fst e <> 0.
Proof. unfold tracked. rewrite filter_In, negb_true_iff, N.eqb_neq. tauto. Qed.

Lemma tracked_nodup s : inv s -> NoDup (map fst (tracked s)).
Proof.
  intros I. apply (NoDup_count_occ N.eq_dec). intros x. change (cnt x (map fst (tracked s)) <= 1)%nat. destruct (N.eq_dec x 0) as [->|Hx].
  - assert (cnt 0 (map fst (tracked s)) = 0%nat); [|lia]. apply cnt_out. intros H. apply in_map_iff in H. destruct H as (e & E & He). apply in_tracked in He. tauto.
  - rewrite (tracked_cnt s x Hx). now apply entry_once.
Qed.
Lemma user_tracked s : inv s -> incl (user s) (tracked s).
Proof. intros I [p i] He. apply in_tracked. split; [now apply (i_user _ I)|]. exact (proj2 (user_once s p i I He)). Qed.
Lemma user_nodup s : inv s -> NoDup (user s).
Proof.
  intros I. apply (NoDup_map_inv fst). apply (NoDup_count_occ N.eq_dec). intros x. change (cnt x (ptrs s) <= 1)%nat. pose proof (i_once _ I x). lia.
Qed.
Lemma quiet_seeks s x : quiet s -> fcnt seeks x (threads s) = 0%nat.
Proof. intros Q. apply cnt_out. intros H. apply in_flat_map in H. destruct H as (c & Hc & H). now rewrite (Q c Hc) in H. Qed.

Lemma quiet_tracked s : inv s -> quiet s -> Permutation (tracked s) (user s).
Proof.
  intros I Q. symmetry. apply NoDup_Permutation_bis; [now apply user_nodup| |now apply user_tracked].
  assert (L : Permutation (map fst (tracked s)) (ptrs s)).
  { apply (Permutation_count_occ N.eq_dec). intros x. change (cnt x (map fst (tracked s)) = cnt x (ptrs s)). destruct (N.eq_dec x 0) as [->|Hx].
    - assert (Z : cnt 0 (map fst (tracked s)) = 0%nat). { apply cnt_out. intros H. apply in_map_iff in H. destruct H as (e & E & He). apply in_tracked in He. tauto. } rewrite Z. pose proof (i_zero _ I). lia.
    - rewrite (tracked_cnt s x Hx), (i_entries _ I x Hx), (quiet_seeks s x Q). lia. }
  apply Permutation_length in L. unfold ptrs in L. rewrite !map_length in L. exact (Nat.eq_le_incl _ _ L).
Qed.

(** ** Asking *)
Definition asking (s : state) (t : nat) (p : N) (i : info) : Prop :=
  In (p, i) (user s) /\ (nth_error (threads s) t = Some Idle \/ exists k m j, nth_error (threads s) t = Some (Seeking ToAsk p k) /\ (k <= m)%nat /\ nth_error (entries s) m = Some (p, j)).

Lemma other_keeps s t l s' a t0 c0 : t <> t0 -> nth_error (threads s) t0 = Some c0 -> step s t l = To s' a -> nth_error (threads s') t0 = Some c0.
Proof.
  intros Ne E St. unfold step, not_found, set_pc in St.
  repeat (match type of St with context [match ?x with _ => _ end] => destruct x end; try discriminate St); try (injection St as <- <-; cbn [threads]; rewrite ?nth_error_upd_ne by exact Ne; exact E).
Qed.

(** An entry that no call is looking for stays where it is. *)
Lemma entry_keeps s t l s' a p i m j : inv s -> In (p, i) (user s) -> nth_error (entries s) m = Some (p, j) -> step s t l = To s' a -> exists j', nth_error (entries s') m = Some (p, j').
Proof.
  intros I Hu Hm St. assert (Lm : (m < length (entries s))%nat) by (apply nth_error_Some; congruence).
  unfold step in St. destruct (nth_error (threads s) t) as [c|] eqn:Et; [|discriminate].
  assert (K : forall k e0 e', nth_error (entries s) k = Some e0 -> In (fst e0) (seeks c) -> nth_error (upd (entries s) k e') m = Some (p, j)).
  { intros k e0 e' Ek Hs. rewrite nth_error_upd_ne; [exact Hm|]. intros ->. rewrite Ek in Hm. injection Hm as ->. cbn [fst] in Hs.
    apply (user_differs s t c p (p, i) I Et (seeks_held _ _ Hs) Hu). reflexivity. }
  assert (At := i_pc _ I _ (nth_error_In _ _ Et)).
  destruct c as [|p0 i0|j0 p0 k0|j0 p0 k0|p0]; destruct l as [p1 i1| |p1|p1 d1 g1|p1| | |]; try discriminate St; try (destruct j0; discriminate St).
  - destruct (_ || _); [discriminate|]. injection St as <- <-. eauto.
  - destruct (mem _ _); [|discriminate]. injection St as <- <-. eauto.
  - destruct (mem _ _); [|discriminate]. destruct g1, d1; [destruct (_ || _); [discriminate|]; injection St as <- <-; eauto|destruct (_ || _); discriminate|discriminate|injection St as <- <-; eauto].
  - destruct (p1 =? 0); [discriminate|]. injection St as <- <-. eauto.
  - injection St as <- <-. cbn [entries]. rewrite nth_error_app1 by exact Lm. eauto.
  - destruct (nth_error (entries s) k0) as [e|]; [|destruct j0; injection St as <- <-; eauto]. destruct (fst e =? p0); [destruct j0|]; injection St as <- <-; eauto.
  - destruct j0 as [| |q iq]; [discriminate| |]; cbn [at_least] in At; destruct At as (x & Ek); injection St as <- <-; cbn [entries]; exists j; (apply (K k0 (p0, x)); [exact Ek|now left]).
  - injection St as <- <-. eauto.
Qed.

Lemma user_keeps s t l s' a p i : In (p, i) (user s) -> step s t l = To s' a -> match l with Free q => q <> p | Realloc q _ _ => q <> p | _ => True end -> In (p, i) (user s').
Proof.
  intros Hu St Ok. unfold step, not_found, set_pc in St. destruct (nth_error (threads s) t) as [c|]; [|discriminate].
  destruct c as [|p0 i0|j0 p0 k0|j0 p0 k0|p0]; destruct l as [p1 i1| |p1|p1 d1 g1|p1| | |]; try discriminate St; try (destruct j0; discriminate St);
    repeat (match type of St with context [match ?x with _ => _ end] => destruct x end; try discriminate St); injection St as <- <-; cbn [user]; auto;
    try (apply in_app_iff; now left); apply in_drop; (split; [exact Hu|cbn [fst]; congruence]).
Qed.

Lemma asking_step s t p i x l s' a : inv s -> asking s t p i -> step s x l = To s' a -> leaves p t (x, l) -> asking s' t p i.
Proof.
  intros I (Hu & A) St Lv. unfold leaves in Lv. cbn [fst snd] in Lv. destruct (Nat.eqb_spec x t) as [->|Ne].
  - subst l. unfold step in St. destruct A as [A|(k & m & j & A & L & Hm)]; rewrite A in St; [discriminate|].
    destruct (nth_error (entries s) k) as [e|] eqn:Ek; [|apply nth_error_None in Ek; assert (m < length (entries s))%nat by (apply nth_error_Some; congruence); lia].
    assert (Lt : (t < length (threads s))%nat) by (apply nth_error_Some; congruence).
    destruct (N.eqb_spec (fst e) p) as [E|E]; injection St as <- <-; split; try exact Hu; cbn [set_pc threads entries].
    + left. now apply nth_error_upd_eq.
    + right. exists (k + 1)%nat, m, j. split; [now apply nth_error_upd_eq|]. split; [|exact Hm]. assert (k <> m) by (intros ->; rewrite Hm in Ek; injection Ek as <-; now apply E). lia.
  - split; [apply (user_keeps s x l s' a); assumption|]. destruct A as [A|(k & m & j & A & L & Hm)].
    + left. exact (other_keeps s x l s' a t _ Ne A St).
    + right. destruct (entry_keeps s x l s' a p i m j I Hu Hm St) as (j' & Hj'). exists k, m, j'. split; [exact (other_keeps s x l s' a t _ Ne A St)|]. auto.
Qed.

Lemma asking_run s ls s' t p i : run s ls s' -> inv s -> asking s t p i -> Forall (leaves p t) ls -> asking s' t p i /\ inv s'.
Proof.
  intros R. induction R as [|s x l s1 a ls s' E Nr R IH]; [auto|]. intros I A F. inversion_clear F as [|? ? F1 F2]. apply IH; [now apply (step_inv s x l s1 a)|now apply (asking_step s t p i x l s1 a)|exact F2].
Qed.
