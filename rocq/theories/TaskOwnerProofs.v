(** Proofs about who owns tasks. *)
From Coq Require Import Permutation.
From Verif Require Import Base TaskOwnerModel TaskOwnerSpec.

Lemma nodup_left {X} (a b : list X) : NoDup (a ++ b) -> NoDup a.
Proof. induction a as [|x a IH]; cbn [app]; [constructor|]. intros H. apply NoDup_cons_iff in H as (N & H). constructor; [|auto]. intros I. apply N, in_app_iff. now left. Qed.

(** ** Counting events *)
Lemma times_app e a b : times e (a ++ b) = times e a + times e b.
Proof. unfold times. rewrite filter_app, app_length. reflexivity. Qed.

Lemma side_eqb_refl d : side_eqb d d = true. Proof. now destruct d. Qed.
Lemma side_eqb_eq a b : side_eqb a b = true -> a = b. Proof. now destruct a, b. Qed.

Lemma times_one t d u e : times (t, d) [(u, e)] = if (u =? t) && side_eqb e d then 1 else 0.
Proof. unfold times. cbn [filter fst snd]. destruct ((u =? t) && side_eqb e d); reflexivity. Qed.

Lemma times_none ev : (forall t d, times (t, d) ev = 0) -> ev = [].
Proof.
  destruct ev as [|[t d] l]; [reflexivity|]. intros H. specialize (H t d). unfold times in H. cbn [filter fst snd] in H.
  rewrite Nat.eqb_refl, side_eqb_refl in H. discriminate.
Qed.

(** What runs when the counts go down from [T] to [T'] *)
Definition acc (shape : nat -> side -> bool) (T T' : nat -> nat) (ev : list event) : Prop :=
  forall t d, times (t, d) ev = if ((0 <? T t) && (T' t =? 0) && shape t d)%bool then 1 else 0.

Lemma acc_nil shape T T' : (forall t, T' t = T t) -> acc shape T T' [].
Proof. intros H t d. rewrite H. cbn. destruct (T t); reflexivity. Qed.

Lemma acc_app shape T T1 T2 a b : (forall t, T1 t <= T t) -> (forall t, T2 t <= T1 t) -> acc shape T T1 a -> acc shape T1 T2 b -> acc shape T T2 (a ++ b).
Proof.
  intros H1 H2 A B t d. rewrite times_app, A, B. specialize (H1 t). specialize (H2 t). destruct (T t) eqn:E, (T1 t) eqn:E1, (T2 t) eqn:E2; try lia; cbn; destruct (shape t d); cbn; lia.
Qed.

Lemma acc_ext shape T T' U U' ev : (forall t, T t = U t) -> (forall t, T' t = U' t) -> acc shape T T' ev -> acc shape U U' ev.
Proof. intros H H' A t d. rewrite <- H, <- H'. apply A. Qed.

Lemma acc_same shape T T' ev : (forall t, T' t = T t) -> acc shape T T' ev -> ev = [].
Proof. intros H A. apply times_none. intros t d. rewrite A, H. destruct (T t); reflexivity. Qed.

(** ** Tasks: [T t] references to [t] *)
Section Shape.
Context (shape : nat -> side -> bool).

Record tinv (s : state) (fin : nat -> bool) (T : nat -> nat) : Prop := {
  TI_task : forall t, tasks s t = match T t with 0 => None | S _ => Some (mkTask (T t) (shape t Input) (shape t Output) (fin t)) end;
  TI_data : forall t d, datas s t d = match T t with 0 => None | S _ => if shape t d then Some 1 else None end }.

Lemma tinv_ext s fin T U : (forall t, U t = T t) -> tinv s fin T -> tinv s fin U.
Proof. intros H [A B]. split; intros; rewrite ?A, ?B, H; reflexivity. Qed.

(** The rest of the state stays. *)
Definition same (s s' : state) : Prop := nodes s' = nodes s /\ queues s' = queues s /\ next_task s' = next_task s /\ next_node s' = next_node s.

Lemma same_refl s : same s s. Proof. repeat split. Qed.
Lemma same_trans s1 s2 s3 : same s1 s2 -> same s2 s3 -> same s1 s3.
Proof. intros (A & B & C & D) (A' & B' & C' & D'). repeat split; congruence. Qed.

Definition less (T : nat -> nat) (t : nat) : nat -> nat := fun u => if u =? t then T u - 1 else T u.

Lemma free_side_ok s (T : nat -> nat) t d : datas s t d = (if shape t d then Some 1 else None) ->
  exists s' ev, free_side s (shape t d) t d = Some (s', ev) /\ same s s' /\ tasks s' = tasks s /\
    (forall u e, datas s' u e = if (u =? t) && side_eqb e d then None else datas s u e) /\ ev = if shape t d then [(t, d)] else [].
Proof.
  intros E. unfold free_side, free_data. destruct (shape t d); rewrite ?E.
  - eexists _, _. split; [reflexivity|]. repeat split.
  - exists s, []. split; [reflexivity|]. repeat split. intros u e. destruct (Nat.eqb_spec u t) as [->|]; [|reflexivity]. destruct (side_eqb e d) eqn:Ed; [|reflexivity]. apply side_eqb_eq in Ed as ->. exact E.
Qed.

Lemma free_task_ok s fin T t c : tinv s fin T -> T t = S c ->
  exists s' ev, free_task s t = Some (s', ev) /\ tinv s' fin (less T t) /\ same s s' /\ acc shape T (less T t) ev.
Proof.
  intros [A B] Et. unfold free_task. rewrite A, Et. cbn [t_refs t_input t_output t_finished].
  assert (AC : forall ev, (forall u d, times (u, d) ev = if (t =? u) && (c =? 0) && shape t d then 1 else 0) -> acc shape T (less T t) ev).
  { intros ev H u d. rewrite H. unfold less. destruct (Nat.eqb_spec u t) as [->|Ne].
    - rewrite Nat.eqb_refl, Et. cbn [Nat.ltb Nat.leb andb]. replace (S c - 1) with c by lia. reflexivity.
    - destruct (Nat.eqb_spec t u); [congruence|]. cbn. destruct (T u); reflexivity. }
  destruct c as [|c].
  - destruct (free_side_ok s T t Input) as (s1 & e1 & F1 & Sm1 & Tk1 & D1 & ->). { rewrite B, Et. reflexivity. }
    rewrite F1. destruct (free_side_ok s1 T t Output) as (s2 & e2 & F2 & Sm2 & Tk2 & D2 & ->). { rewrite D1, B, Et, Nat.eqb_refl. reflexivity. }
    rewrite F2. eexists _, _. split; [reflexivity|]. split; [|split].
    + split; intros u; [|intros d]; cbn [set_task tasks datas]; unfold less; destruct (Nat.eqb_spec u t) as [->|Ne].
      * now rewrite Et.
      * now rewrite Tk2, Tk1, A.
      * rewrite Et, D2, D1, Nat.eqb_refl. destruct d; reflexivity.
      * rewrite D2, D1, B. destruct (Nat.eqb_spec u t); [contradiction|]. reflexivity.
    + destruct Sm1 as (X1 & X2 & X3 & X4), Sm2 as (Y1 & Y2 & Y3 & Y4). repeat split; cbn [set_task nodes queues next_task next_node]; congruence.
    + apply AC. intros u d. rewrite times_app. cbn [Nat.eqb andb].
      destruct (shape t Input) eqn:E1, (shape t Output) eqn:E2; rewrite ?times_one; destruct (t =? u); destruct d; rewrite ?E1, ?E2; reflexivity.
  - eexists _, _. split; [reflexivity|]. split; [|split; [repeat split|apply AC; intros u d; cbn; rewrite andb_false_r; reflexivity]].
    split; intros u; [|intros d]; cbn [set_task tasks datas]; unfold less; destruct (Nat.eqb_spec u t) as [->|Ne].
    + rewrite Et. cbn [Nat.sub]. reflexivity.
    + apply A.
    + rewrite B, Et. reflexivity.
    + apply B.
Qed.

Definition more (T : nat -> nat) (t : nat) : nat -> nat := fun u => if u =? t then S (T u) else T u.

Lemma retain_ok s fin T t c : tinv s fin T -> T t = S c -> exists s', retain_task s t = Some s' /\ tinv s' fin (more T t) /\ same s s'.
Proof.
  intros [A B] Et. unfold retain_task. rewrite A, Et. eexists. split; [reflexivity|]. split; [|repeat split].
  split; intros u; [|intros d]; cbn [set_task tasks datas t_refs t_input t_output t_finished]; unfold more; destruct (Nat.eqb_spec u t) as [->|Ne].
  - now rewrite Et.
  - apply A.
  - now rewrite B, Et.
  - apply B.
Qed.

(** ** Nodes: exactly those of [D] *)
Definition ninv (s : state) (D : list (nat * node)) : Prop :=
  NoDup (map fst D) /\ (forall n x, nodes s n = Some x <-> In (n, x) D) /\ (forall n x, In (n, x) D -> n < next_node s).

Definition carried (D : list (nat * node)) (t : nat) : nat := list_sum (map (fun p => is (n_task (snd p)) t) D).

Lemma carried_app D E t : carried (D ++ E) t = carried D t + carried E t.
Proof. unfold carried. rewrite map_app, list_sum_app. reflexivity. Qed.

Lemma carried_perm D E t : Permutation D E -> carried D t = carried E t.
Proof. clear shape. intros P. induction P; cbn [carried map list_sum fold_right] in *; unfold carried in *; cbn [map list_sum fold_right] in *; unfold list_sum in *; lia. Qed.

Lemma ninv_perm s D E : Permutation D E -> ninv s D -> ninv s E.
Proof.
  intros P (A & B & C). split; [eapply Permutation_NoDup; [apply Permutation_map; exact P|exact A]|]. split; intros n x.
  - rewrite B. split; apply Permutation_in; [exact P|now symmetry].
  - intros H. apply (C n x). eapply Permutation_in; [symmetry; exact P|exact H].
Qed.

Lemma ninv_same s s' D : same s s' -> ninv s D -> ninv s' D.
Proof. intros (E & _ & _ & E') (A & B & C). split; [exact A|]. rewrite E, E'. split; assumption. Qed.

Lemma ninv_set s n x y D : ninv s ((n, x) :: D) -> ninv (set_node s n (Some y)) ((n, y) :: D).
Proof.
  intros (A & B & C). cbn [map fst] in A. split; [exact A|]. apply NoDup_cons_iff in A as (NI & A). split; intros m z; cbn [set_node nodes next_node].
  - destruct (Nat.eqb_spec m n) as [->|Ne].
    + split; [intros [= <-]; now left|]. intros [E|I]; [congruence|]. exfalso. apply NI. apply in_map_iff. now exists (n, z).
    + rewrite B. split; (intros [E|I]; [congruence|now right]).
  - intros [E|I]; [injection E as <- <-|]; eapply C; [left; reflexivity|right; exact I].
Qed.

Lemma ninv_del s n x D : ninv s ((n, x) :: D) -> ninv (set_node s n None) D.
Proof.
  intros (A & B & C). cbn [map fst] in A. apply NoDup_cons_iff in A as (NI & A). split; [exact A|]. split; intros m z; cbn [set_node nodes next_node].
  - destruct (Nat.eqb_spec m n) as [->|Ne].
    + split; [discriminate|]. intros I. exfalso. apply NI. apply in_map_iff. now exists (n, z).
    + rewrite B. split; [intros [E|I]; [congruence|exact I]|now right].
  - intros I. eapply C. right. exact I.
Qed.

(** Everything: the nodes of [D], and [C t] more references to [t]. *)
Definition inv (s : state) (fin : nat -> bool) (D : list (nat * node)) (C : nat -> nat) : Prop := ninv s D /\ tinv s fin (fun t => C t + carried D t).

Lemma inv_perm s fin D E C : Permutation D E -> inv s fin D C -> inv s fin E C.
Proof. intros P (A & B). split; [exact (ninv_perm s D E P A)|]. eapply tinv_ext; [|exact B]. intros t. cbn beta. now rewrite (carried_perm D E t P). Qed.

Definition kept (s s' : state) : Prop := queues s' = queues s /\ next_task s' = next_task s /\ next_node s' = next_node s.
Lemma kept_trans s1 s2 s3 : kept s1 s2 -> kept s2 s3 -> kept s1 s3.
Proof. intros (A & B & C) (A' & B' & C'). repeat split; congruence. Qed.

Definition total (C : nat -> nat) (D : list (nat * node)) : nat -> nat := fun t => C t + carried D t.

Lemma carried_cons n x D t : carried ((n, x) :: D) t = is (n_task x) t + carried D t.
Proof. reflexivity. Qed.

Lemma free_last s fin n o D C : inv s fin ((n, mkNode 1 o) :: D) C ->
  exists s' ev, free_node s n = Some (s', ev) /\ inv s' fin D C /\ kept s s' /\ acc shape (total C ((n, mkNode 1 o) :: D)) (total C D) ev.
Proof.
  intros (NI & TI). unfold free_node. assert (En : nodes s n = Some (mkNode 1 o)) by (apply NI; now left). rewrite En. cbn [n_refs n_task]. destruct o as [t|].
  - destruct (free_task_ok s fin _ t (C t + carried D t) TI) as (s1 & ev & F & TI1 & Sm & A). { rewrite carried_cons. cbn [n_task is]. rewrite Nat.eqb_refl. lia. }
    rewrite F. eexists _, _. split; [reflexivity|].
    assert (X : forall u, less (fun t0 => C t0 + carried ((n, mkNode 1 (Some t)) :: D) t0) t u = C u + carried D u).
    { intros u. unfold less. rewrite carried_cons. cbn [n_task is]. destruct (Nat.eqb_spec u t) as [->|Ne]; [rewrite Nat.eqb_refl; lia|]. destruct (Nat.eqb_spec t u); [congruence|]. lia. }
    split; [split|split].
    + eapply ninv_del. eapply ninv_same; [exact Sm|exact NI].
    + destruct (tinv_ext _ _ _ (fun u => C u + carried D u) (fun u => eq_sym (X u)) TI1) as [P Q]. split; [exact P|exact Q].
    + destruct Sm as (_ & ? & ? & ?). repeat split; assumption.
    + eapply acc_ext; [reflexivity|exact X|exact A].
  - eexists _, _. split; [reflexivity|]. split; [split|split; [repeat split|now apply acc_nil]].
    + eapply ninv_del. exact NI.
    + destruct TI as [P Q]. split; [exact P|exact Q].
Qed.

Lemma free_more s fin n c o D C : inv s fin ((n, mkNode (S (S c)) o) :: D) C ->
  exists s', free_node s n = Some (s', []) /\ inv s' fin ((n, mkNode (S c) o) :: D) C /\ kept s s'.
Proof.
  intros (NI & TI). unfold free_node. assert (En : nodes s n = Some (mkNode (S (S c)) o)) by (apply NI; now left). rewrite En. cbn [n_refs n_task].
  eexists. split; [reflexivity|]. split; [split|repeat split].
  - eapply ninv_set. exact NI.
  - destruct TI as [P Q]. split; [exact P|exact Q].
Qed.

(** Nodes with one reference *)
Definition ones (M : list (nat * option nat)) : list (nat * node) := map (fun p => (fst p, mkNode 1 (snd p))) M.

Lemma ones_ids M : map fst (ones M) = map fst M.
Proof. unfold ones. rewrite map_map. reflexivity. Qed.

Lemma ids_filter {X} (n : nat) (M : list (nat * X)) : map fst (filter (fun p => negb (fst p =? n)) M) = filter (fun x => negb (x =? n)) (map fst M).
Proof. induction M as [|[m x] M IH]; cbn [filter map fst]; [reflexivity|]. destruct (m =? n); cbn [negb map fst]; now rewrite IH. Qed.

Lemma pick n (M : list (nat * option nat)) : NoDup (map fst M) -> In n (map fst M) -> exists o, Permutation M ((n, o) :: filter (fun p => negb (fst p =? n)) M).
Proof.
  induction M as [|[m o] M IH]; cbn [map fst In filter]; [contradiction|]. intros N I. apply NoDup_cons_iff in N as (NI & N). destruct (Nat.eqb_spec m n) as [->|Ne]; cbn [negb].
  - exists o. apply perm_skip. replace (filter _ M) with M; [reflexivity|]. symmetry. clear IH I N. induction M as [|[k x] M IH]; [reflexivity|]. cbn [filter fst map In] in *.
    destruct (Nat.eqb_spec k n) as [->|]; [exfalso; apply NI; now left|]. cbn [negb]. f_equal. apply IH. intros X. apply NI. now right.
  - destruct I as [E|I]; [congruence|]. destruct (IH N I) as (x & P). exists x. rewrite P at 1. apply perm_swap.
Qed.

Lemma reclaim_ok fin C : forall sel s M D, inv s fin (ones M ++ D) C ->
  exists s' M' ev, reclaim s (map fst M) sel = Some (s', map fst M', ev) /\ inv s' fin (ones M' ++ D) C /\ kept s s' /\
    acc shape (total C (ones M ++ D)) (total C (ones M' ++ D)) ev /\ (forall t, carried (ones M') t <= carried (ones M) t) /\
    (forall x, In x M' <-> In x M /\ ~ In (fst x) sel).
Proof.
  induction sel as [|n sel IH]; intros s M D I; cbn [reclaim].
  - exists s, M, []. split; [reflexivity|]. split; [exact I|]. split; [repeat split|]. split; [now apply acc_nil|]. split; [lia|]. cbn [In]. tauto.
  - assert (N : NoDup (map fst M)). { destruct I as ((N & _) & _). rewrite map_app, ones_ids in N. eapply nodup_left. exact N. }
    destruct (existsb (Nat.eqb n) (map fst M)) eqn:E.
    + apply existsb_exists in E as (m & Im & Em). apply Nat.eqb_eq in Em as <-. destruct (pick n M N Im) as (o & P). set (M1 := filter (fun p => negb (fst p =? n)) M) in *.
      assert (PO : Permutation (ones M ++ D) ((n, mkNode 1 o) :: ones M1 ++ D)). { unfold ones at 1. rewrite P. reflexivity. }
      destruct (free_last s fin n o (ones M1 ++ D) C (inv_perm _ _ _ _ _ PO I)) as (s1 & ev1 & F & I1 & K1 & A1). rewrite F, <- ids_filter.
      destruct (IH s1 M1 D I1) as (s2 & M2 & ev2 & R & I2 & K2 & A2 & Le & Mem). unfold M1 in R. rewrite R. exists s2, M2, (ev1 ++ ev2).
      assert (Le1 : forall t, total C (ones M1 ++ D) t <= total C (ones M ++ D) t). { intros t. unfold total. rewrite (carried_perm _ _ t PO), carried_cons. lia. }
      split; [reflexivity|]. split; [exact I2|]. split; [eapply kept_trans; eassumption|]. split; [|split].
      * eapply acc_app; [exact Le1| |eapply acc_ext; [| |exact A1]|exact A2].
        { intros t. unfold total. rewrite !carried_app. specialize (Le t). lia. }
        { intros t. unfold total. now rewrite (carried_perm _ _ t PO). } { reflexivity. }
      * intros t. specialize (Le t). specialize (Le1 t). unfold total in Le1. rewrite !carried_app in Le1. lia.
      * intros [m x]. rewrite Mem. unfold M1. rewrite filter_In. cbn [fst In]. destruct (Nat.eqb_spec m n) as [->|Ne]; cbn [negb]; intuition congruence.
    + destruct (IH s M D I) as (s2 & M2 & ev2 & R & I2 & K2 & A2 & Le & Mem). exists s2, M2, ev2. split; [exact R|]. split; [exact I2|]. split; [exact K2|]. split; [exact A2|]. split; [exact Le|].
      intros [m x]. rewrite Mem. cbn [fst In]. split; [|intuition]. intros (Ix & Ns). split; [exact Ix|]. intros [<-|X]; [|contradiction].
      assert (X : existsb (Nat.eqb n) (map fst M) = true). { apply existsb_exists. exists n. split; [apply in_map_iff; now exists (n, x)|apply Nat.eqb_refl]. } congruence.
Qed.

(** Nodes that wait: two references and a task *)
Definition twos (P : list nat) (W : list nat) : list (nat * node) := map (fun p => (fst p, mkNode 2 (Some (snd p)))) (combine P W).

Lemma carried_twos P W t : length P = length W -> carried (twos P W) t = count_occ Nat.eq_dec W t.
Proof.
  clear shape.
  revert W. induction P as [|n P IH]; intros [|u W] E; cbn [length] in E; try discriminate; [reflexivity|]. unfold twos. cbn [combine map fst snd]. fold (twos P W).
  rewrite carried_cons. cbn [n_task is count_occ]. rewrite IH by lia. destruct (Nat.eq_dec u t), (Nat.eqb_spec u t); subst; try contradiction; lia.
Qed.

(** All the nodes of a queue: its head, with [h] in it, those that wait and those to be reclaimed. *)
Definition nodes_of (hd : nat) (h : option nat) (P W : list nat) (M : list (nat * option nat)) : list (nat * node) := (hd, mkNode 1 h) :: twos P W ++ ones M.

Lemma pop_node_ok fin C s ser hd h P W M l D sel : length P = length W -> inv s fin (nodes_of hd h P W M ++ D) C ->
  match P, W with
  | n :: P', t :: W' => exists s' M' ev, pop_node s (mkQueue ser hd P (map fst M) l) sel = Some (s', mkQueue ser n P' (map fst M') l, Some n, ev) /\
      inv s' fin ((n, mkNode 2 (Some t)) :: twos P' W' ++ ones M' ++ D) C /\ kept s s' /\
      acc shape (total C (nodes_of hd h P W M ++ D)) (total C ((n, mkNode 2 (Some t)) :: twos P' W' ++ ones M' ++ D)) ev /\
      (forall u, carried (ones M') u <= is h u + carried (ones M) u) /\ (forall x, In x M' -> x = (hd, h) \/ In x M)
  | _, _ => exists s' M' ev, pop_node s (mkQueue ser hd P (map fst M) l) sel = Some (s', mkQueue ser hd [] (map fst M') l, None, ev) /\
      inv s' fin (nodes_of hd h [] [] M' ++ D) C /\ kept s s' /\ acc shape (total C (nodes_of hd h [] [] M ++ D)) (total C (nodes_of hd h [] [] M' ++ D)) ev /\
      (forall u, carried (ones M') u <= carried (ones M) u) /\ (forall x, In x M' -> In x M)
  end.
Proof.
  intros L I. unfold pop_node. cbn [q_head q_pending q_managed q_serial q_last].
  assert (Eh : nodes s hd = Some (mkNode 1 h)) by (apply I; now left). rewrite Eh.
  destruct P as [|n P], W as [|t W]; cbn [length] in L; try discriminate.
  - assert (Pm : Permutation (nodes_of hd h [] [] M ++ D) (ones M ++ (hd, mkNode 1 h) :: D)). { unfold nodes_of, twos. cbn [combine map app]. apply Permutation_middle. }
    destruct (reclaim_ok fin C sel s M ((hd, mkNode 1 h) :: D) (inv_perm _ _ _ _ _ Pm I)) as (s' & M' & ev & R & I' & K & A & Le & Mem). rewrite R. exists s', M', ev.
    assert (Pm' : Permutation (nodes_of hd h [] [] M' ++ D) (ones M' ++ (hd, mkNode 1 h) :: D)). { unfold nodes_of, twos. cbn [combine map app]. apply Permutation_middle. }
    split; [reflexivity|]. split; [eapply inv_perm; [symmetry; exact Pm'|exact I']|]. split; [exact K|]. split; [|split; [exact Le|intros x Ix; now apply Mem]].
    eapply acc_ext; [| |exact A]; intros u; unfold total; [now rewrite (carried_perm _ _ u Pm)|now rewrite (carried_perm _ _ u Pm')].
  - assert (Pm : Permutation (nodes_of hd h (n :: P) (t :: W) M ++ D) (ones ((hd, h) :: M) ++ (n, mkNode 2 (Some t)) :: twos P W ++ D)).
    { unfold nodes_of, twos, ones. cbn [combine map app fst snd]. apply perm_skip. fold (ones M) (twos P W). etransitivity; [|apply Permutation_middle]. apply perm_skip.
      rewrite !app_assoc. apply Permutation_app_tail, Permutation_app_comm. }
    destruct (reclaim_ok fin C sel s ((hd, h) :: M) _ (inv_perm _ _ _ _ _ Pm I)) as (s' & M' & ev & R & I' & K & A & Le & Mem). cbn [map fst] in R. rewrite R. exists s', M', ev.
    assert (Pm' : Permutation ((n, mkNode 2 (Some t)) :: twos P W ++ ones M' ++ D) (ones M' ++ (n, mkNode 2 (Some t)) :: twos P W ++ D)).
    { etransitivity; [|apply Permutation_middle]. apply perm_skip. rewrite !app_assoc. apply Permutation_app_tail, Permutation_app_comm. }
    split; [reflexivity|]. split; [eapply inv_perm; [symmetry; exact Pm'|exact I']|]. split; [exact K|]. split; [|split].
    + eapply acc_ext; [| |exact A]; intros u; unfold total; [now rewrite (carried_perm _ _ u Pm)|now rewrite (carried_perm _ _ u Pm')].
    + intros u. specialize (Le u). unfold ones in Le at 2. cbn [map fst snd] in Le. rewrite carried_cons in Le. exact Le.
    + intros x Ix. apply Mem in Ix as ([<-|Ix] & _); [now left|now right].
Qed.

Lemma drain_ok fin C ser l sel D : forall P fuel W s hd h M, length P = length W -> length P < fuel -> inv s fin (nodes_of hd h P W M ++ D) C ->
  exists s' hd' h' M' ev, drain fuel s (mkQueue ser hd P (map fst M) l) sel = Some (s', mkQueue ser hd' [] (map fst M') l, ev) /\
    inv s' fin (nodes_of hd' h' [] [] M' ++ D) C /\ kept s s' /\ acc shape (total C (nodes_of hd h P W M ++ D)) (total C (nodes_of hd' h' [] [] M' ++ D)) ev /\
    (forall u, carried (nodes_of hd' h' [] [] M') u <= carried (nodes_of hd h P W M) u).
Proof.
  induction P as [|n P IH]; intros [|fuel] [|t W] s hd h M L F I; cbn [length] in *; try discriminate; try lia; cbn [drain].
  - destruct (pop_node_ok fin C s ser hd h [] [] M l D (sel (S fuel)) eq_refl I) as (s' & M' & ev & E & I' & K & A & Le & _). rewrite E.
    exists s', hd, h, M', ev. split; [reflexivity|]. split; [exact I'|]. split; [exact K|]. split; [exact A|]. intros u. unfold nodes_of, twos. cbn [combine map app]. rewrite !carried_cons. specialize (Le u). lia.
  - destruct (pop_node_ok fin C s ser hd h (n :: P) (t :: W) M l D (sel (S fuel)) ltac:(cbn [length]; lia) I) as (s1 & M1 & ev1 & E & I1 & K1 & A1 & Le1 & _). rewrite E.
    destruct (free_more s1 fin n 0 (Some t) _ C I1) as (s2 & F2 & I2 & K2). rewrite F2.
    assert (I2' : inv s2 fin (nodes_of n (Some t) P W M1 ++ D) C). { unfold nodes_of. cbn [app]. rewrite <- app_assoc. exact I2. }
    destruct (IH fuel W s2 n (Some t) M1 ltac:(lia) ltac:(lia) I2') as (s3 & hd' & h' & M' & ev & E3 & I3 & K3 & A3 & Le3). rewrite E3.
    assert (X : forall u, carried (nodes_of n (Some t) P W M1) u <= carried (nodes_of hd h (n :: P) (t :: W) M) u).
    { intros u. unfold nodes_of, twos. cbn [combine map app fst snd]. rewrite !carried_cons, !carried_app. cbn [n_task is]. specialize (Le1 u). fold (twos P W). lia. }
    exists s3, hd', h', M', (ev1 ++ [] ++ ev). split; [reflexivity|]. split; [exact I3|]. split; [eapply kept_trans; [exact K1|eapply kept_trans; [exact K2|exact K3]]|]. split.
    + cbn [app]. eapply acc_app; [| |eapply acc_ext; [reflexivity| |exact A1]|exact A3].
      * intros u. unfold total. rewrite !carried_app. specialize (X u). lia.
      * intros u. unfold total. rewrite !carried_app. specialize (Le3 u). lia.
      * intros u. unfold total, nodes_of. cbn [app]. rewrite !carried_cons, <- app_assoc. reflexivity.
    + intros u. specialize (X u). specialize (Le3 u). lia.
Qed.

End Shape.
