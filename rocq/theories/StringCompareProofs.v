(** Hashes, equality, prefixes and suffixes of the strings that represent a sequence. *)
From Verif Require Import Base Word StringModel StringSpec StringPackProofs StringUtf8Proofs StringReadProofs.

(** ** A string determines its characters *)

Lemma utf8_inj cs : Forall scalar cs -> forall cs', Forall scalar cs' -> utf8 cs = utf8 cs' -> cs = cs'.
Proof.
  induction 1 as [|c cs S _ IH]; intros cs' H' E.
  - destruct cs' as [|c' cs']; [reflexivity|]. rewrite utf8_cons in E. pose proof (utf8_char_nonempty c'). destruct (utf8_char c'); [cbn in *; lia|discriminate].
  - destruct H' as [|c' cs' S' H'].
    + rewrite utf8_cons in E. pose proof (utf8_char_nonempty c). destruct (utf8_char c); [cbn in *; lia|discriminate].
    + rewrite !utf8_cons in E. pose proof (get_utf8_ok [] c (utf8 cs) S) as G. pose proof (get_utf8_ok [] c' (utf8 cs') S') as G'.
      cbn [app length] in G, G'. rewrite E, G' in G. injection G as <- _. apply app_inv_head in E. f_equal. now apply IH.
Qed.

Lemma Forall2_fun {A B} (R : A -> B -> Prop) l1 l2 l3 : (forall a b c, R a b -> R a c -> b = c) -> Forall2 R l1 l2 -> Forall2 R l1 l3 -> l2 = l3.
Proof. intros H F. revert l3. induction F; intros l3 F'; inversion F'; subst; [reflexivity|]. f_equal; eauto. Qed.
Lemma Forall2_inj {A B} (R : A -> B -> Prop) l1 l2 l3 : (forall a b c, R a b -> R c b -> a = c) -> Forall2 R l1 l2 -> Forall2 R l3 l2 -> l1 = l3.
Proof. intros H F. revert l3. induction F; intros l3 F'; inversion F'; subst; [reflexivity|]. f_equal; eauto. Qed.

Section with_maps.
Context (M : env) (GM : good_maps M).

Lemma digits_eq set cs cs' ds ds' : Forall2 (first_at (chars_of M set)) cs ds -> Forall2 (first_at (chars_of M set)) cs' ds' -> (cs = cs' <-> ds = ds').
Proof.
  intros F F'. split; intros ->.
  - eapply Forall2_fun; [|exact F|exact F']. intros a b c H1 H2. exact (first_at_unique _ _ _ _ H1 H2).
  - eapply Forall2_inj; [|exact F|exact F']. intros a b c H1 H2. exact (first_at_fun _ _ _ _ H1 H2).
Qed.

Lemma inline_eq set cs cs' w w' : Forall scalar cs -> Forall scalar cs' -> inline M set cs w -> inline M set cs' w' -> (cs = cs' <-> w = w').
Proof.
  intros S S' I I'. destruct (inline_digits M GM set cs w S I) as (ds & D & L & F & ->).
  destruct (inline_digits M GM set cs' w' S' I') as (ds' & D' & L' & F' & ->). rewrite (digits_eq set cs cs' ds ds' F F').
  split; [now intros ->|]. intros E. apply (packed_inj (bits_of set)); try apply D; try apply D'. lia.
Qed.

Lemma represents_fun s cs cs' : represents M s cs -> represents M s cs' -> cs = cs'.
Proof.
  intros R R'. pose proof (represents_scalar M s cs R) as S. pose proof (represents_scalar M s cs' R') as S'. destruct s as [w|h].
  - destruct R as [_ [set I]], R' as [_ [set' I']]. pose proof (tagged_set M set cs w I). pose proof (tagged_set M set' cs' w I').
    replace set' with set in I' by congruence. now apply (inline_eq set cs cs' w w).
  - pose proof (get_size_ok M GM (Heap h) cs R) as E. pose proof (get_size_ok M GM (Heap h) cs' R') as E'. rewrite E in E'. injection E' as L.
    apply utf8_inj; [assumption..|]. destruct R as (Se & _ & r & Em & _), R' as (Se' & _ & r' & Em' & _).
    rewrite (encode_utf8 _ _ Se) in Em. rewrite (encode_utf8 _ _ Se') in Em'.
    assert (A : firstn (length (utf8 cs)) (h_mem h) = utf8 cs) by (rewrite Em; apply firstn_app_exact).
    assert (A' : firstn (length (utf8 cs')) (h_mem h) = utf8 cs') by (rewrite Em'; apply firstn_app_exact). congruence.
Qed.

(** ** What is ahead of an enumerator *)

Definition rest (a : action) (cs : list N) (i : nat) : list N := match a with Previous => rev (firstn i cs) | _ => skipn (i + 1) cs end.

Definition ahead (a : action) (s : str) (cs : list N) (st : estate) (l : list N) : Prop :=
  exists i, positioned s cs st (At i) /\ l = rest a cs i.

Definition stepping (a : action) : Prop := a = Next \/ a = Previous.

Lemma skipn_nth (cs : list N) i : i < length cs -> skipn i cs = nth i cs 0%N :: skipn (i + 1) cs.
Proof.
  intros H. rewrite Nat.add_1_r. revert i H. induction cs as [|c cs IH]; intros [|i] H; cbn [length] in *; try lia; [reflexivity|]. cbn [skipn nth]. apply IH. lia.
Qed.

Lemma ahead_more a s cs st x l : represents M s cs -> stepping a -> ahead a s cs st (x :: l) ->
  exists st', enum_move M s st a = Some (st', x) /\ ahead a s cs st' l /\ ended st' = false.
Proof.
  intros R Ha (i & P & E). assert (Hi : i < length cs) by apply P. assert (Hne : cs <> []) by (intros ->; cbn in Hi; lia).
  destruct Ha as [-> | ->]; cbn [rest] in E.
  - assert (H : i + 1 < length cs) by (apply (f_equal (@length N)) in E; rewrite skipn_length in E; cbn [length] in E; lia).
    assert (Hm : moved cs (At i) Next = Some (At (i + 1))) by (cbn [moved]; destruct (Nat.ltb_spec (i + 1) (length cs)); [reflexivity|lia]).
    destruct (move_ok M GM s cs st (At i) Next (At (i + 1)) R Hne P Hm) as (st' & Em & P'). cbn [returned char_at_position] in Em.
    rewrite (skipn_nth cs (i + 1) H) in E. injection E as -> ->. exists st'. split; [exact Em|].
    split; [now exists (i + 1)|]. unfold ended. now rewrite (positioned_index s cs st' _ P').
  - destruct i as [|i]; [discriminate|]. assert (Hm : moved cs (At (Datatypes.S i)) Previous = Some (At i)) by reflexivity.
    destruct (move_ok M GM s cs st _ Previous (At i) R Hne P Hm) as (st' & Em & P'). cbn [returned char_at_position] in Em.
    replace (Datatypes.S i) with (i + 1) in E by lia. rewrite (firstn_next cs i) in E by lia. rewrite rev_app_distr in E. injection E as -> ->.
    exists st'. split; [exact Em|]. split; [now exists i|]. unfold ended. now rewrite (positioned_index s cs st' _ P').
Qed.

Lemma ahead_none a s cs st : represents M s cs -> stepping a -> ahead a s cs st [] ->
  exists st', enum_move M s st a = Some (st', past_char s) /\ ended st' = true /\ (past_char s <> 0%N -> enum_move M s st' a = Some (st', 0%N)).
Proof.
  intros R Ha (i & P & E). assert (Hi : i < length cs) by apply P. assert (Hne : cs <> []) by (intros ->; cbn in Hi; lia).
  assert (Hm : moved cs (At i) a = Some Past).
  { destruct Ha as [-> | ->]; cbn [rest moved] in *.
    - apply (f_equal (@length N)) in E. rewrite skipn_length in E. cbn [length] in E. destruct (Nat.ltb_spec (i + 1) (length cs)); [lia|reflexivity].
    - apply (f_equal (@length N)) in E. rewrite rev_length, firstn_length in E. cbn [length] in E. replace i with 0 by lia. reflexivity. }
  destruct (move_ok M GM s cs st (At i) a Past R Hne P Hm) as (st' & Em & P'). exists st'. split; [|split].
  - rewrite Em. now destruct Ha as [-> | ->].
  - unfold ended. now rewrite (positioned_index s cs st' _ P').
  - destruct P' as [_ P']. unfold past_char. destruct s as [w|h]; [contradiction|]. destruct (h_encoding h) eqn:Ee; [|contradiction].
    intros _. subst st'. now destruct Ha as [-> | ->].
Qed.

(** ** Stepping two enumerators together *)

Definition leads (s1 : str) (l1 l2 : list N) : Prop :=
  (exists post, l1 = l2 ++ post) \/ (past_char s1 <> 0%N /\ l2 = l1 ++ [past_char s1]).

Lemma leads_cons s1 x y l1 l2 : leads s1 (x :: l1) (y :: l2) <-> x = y /\ leads s1 l1 l2.
Proof.
  unfold leads. split.
  - intros [[post E]|[H E]]; cbn in E; injection E as -> E; (split; [reflexivity|]); [left; now exists post|now right].
  - intros [-> [[post ->]|[H ->]]]; [left; now exists post|right; now split].
Qed.
Lemma leads_nil s1 l1 : leads s1 l1 [].
Proof. left. now exists l1. Qed.
Lemma leads_short s1 y l2 : leads s1 [] (y :: l2) <-> past_char s1 = y /\ past_char s1 <> 0%N /\ l2 = [].
Proof.
  unfold leads. split.
  - intros [[post E]|[H E]]; [discriminate|]. cbn in E. injection E as -> ->. now repeat split.
  - intros (<- & H & ->). right. now split.
Qed.

Lemma in_step_ok a s1 cs1 s2 cs2 : represents M s1 cs1 -> represents M s2 cs2 -> stepping a ->
  forall l1 l2 e1 e2 fuel, ahead a s1 cs1 e1 l1 -> ahead a s2 cs2 e2 l2 -> Forall (fun c => c <> 0%N) l1 -> Forall (fun c => c <> 0%N) l2 ->
    length l1 + 2 <= fuel ->
    exists e1' e2', in_step fuel M a s1 e1 s2 e2 = Some (e1', e2') /\ (ended e2' = true <-> leads s1 l1 l2) /\ (ended e1' = true <-> leads s2 l2 l1).
Proof.
  intros R1 R2 Ha. induction l1 as [|x l1 IH]; intros l2 e1 e2 fuel A1 A2 N1 N2 Hf; (destruct fuel as [|fuel]; [lia|]); cbn [in_step].
  - destruct (ahead_none a s1 cs1 e1 R1 Ha A1) as (e1' & -> & En1 & Again1). destruct l2 as [|y l2].
    + destruct (ahead_none a s2 cs2 e2 R2 Ha A2) as (e2' & -> & En2 & Again2).
      assert (Done : (ended e2' = true <-> leads s1 [] []) /\ (ended e1' = true <-> leads s2 [] [])) by (split; (split; [intros _; apply leads_nil|now intros _])).
      destruct (N.eqb_spec (past_char s1) (past_char s2)) as [E|E]; [destruct (N.eqb_spec (past_char s1) 0) as [Z|Z]|]; cbn [andb negb]; try (exists e1', e2'; split; [reflexivity|exact Done]).
      destruct fuel as [|fuel]; [cbn in Hf; lia|]. cbn [in_step]. rewrite Again1, Again2 by congruence. cbn. exists e1', e2'. split; [reflexivity|exact Done].
    + destruct (ahead_more a s2 cs2 e2 y l2 R2 Ha A2) as (e2' & -> & A2' & En2).
      assert (Second : ended e1' = true <-> leads s2 (y :: l2) []) by (split; [intros _; apply leads_nil|now intros _]).
      inversion N2 as [|y' l2' Hy N2']; subst.
      destruct (N.eqb_spec (past_char s1) y) as [E|E]; [destruct (N.eqb_spec (past_char s1) 0) as [Z|Z]; [congruence|]|]; cbn [andb negb].
      * destruct fuel as [|fuel]; [cbn in Hf; lia|]. cbn [in_step]. rewrite Again1 by assumption. destruct l2 as [|z l2].
        -- destruct (ahead_none a s2 cs2 e2' R2 Ha A2') as (e2'' & -> & En2' & _). rewrite andb_false_r.
           exists e1', e2''. split; [reflexivity|]. split; [|exact Second]. rewrite leads_short. now split.
        -- destruct (ahead_more a s2 cs2 e2' z l2 R2 Ha A2') as (e2'' & -> & _ & En2'). rewrite andb_false_r.
           exists e1', e2''. split; [reflexivity|]. split; [|exact Second]. rewrite leads_short, En2'. split; [discriminate|]. intros (_ & _ & ?). discriminate.
      * exists e1', e2'. split; [reflexivity|]. split; [|exact Second]. rewrite leads_short, En2. split; [discriminate|]. intros (? & _). contradiction.
  - destruct (ahead_more a s1 cs1 e1 x l1 R1 Ha A1) as (e1' & -> & A1' & En1). inversion N1 as [|x' l1' Hx N1']; subst. destruct l2 as [|y l2].
    + destruct (ahead_none a s2 cs2 e2 R2 Ha A2) as (e2' & -> & En2 & Again2).
      destruct (N.eqb_spec x (past_char s2)) as [E|E]; [destruct (N.eqb_spec x 0) as [Z|Z]; [contradiction|]|]; cbn [andb negb].
      * destruct fuel as [|fuel]; [cbn in Hf; lia|]. cbn [in_step]. rewrite Again2 by congruence. destruct l1 as [|z l1].
        -- destruct (ahead_none a s1 cs1 e1' R1 Ha A1') as (e1'' & -> & En1' & _).
           exists e1'', e2'. split; [now destruct (past_char s1 =? 0)%N|].
           split; [split; [intros _; apply leads_nil|now intros _]|]. rewrite leads_short. split; [|now intros _]. intros _. split; [congruence|]. split; [congruence|reflexivity].
        -- destruct (ahead_more a s1 cs1 e1' z l1 R1 Ha A1') as (e1'' & -> & _ & En1'). inversion N1' as [|z' l' Hz _]; subst.
           exists e1'', e2'. split; [now destruct (z =? 0)%N|].
           split; [split; [intros _; apply leads_nil|now intros _]|]. rewrite leads_short, En1'. split; [discriminate|]. intros (_ & _ & ?). discriminate.
      * exists e1', e2'. split; [reflexivity|]. split; [split; [intros _; apply leads_nil|now intros _]|].
        rewrite leads_short, En1. split; [discriminate|]. intros (? & _). congruence.
    + destruct (ahead_more a s2 cs2 e2 y l2 R2 Ha A2) as (e2' & -> & A2' & En2). inversion N2 as [|y' l2' Hy N2']; subst.
      destruct (N.eqb_spec x y) as [E|E]; [destruct (N.eqb_spec x 0) as [Z|Z]; [contradiction|]|]; cbn [andb negb].
      * subst y. cbn [length] in Hf. destruct (IH l2 e1' e2' fuel A1' A2' N1' N2' ltac:(lia)) as (f1 & f2 & -> & H1 & H2). exists f1, f2. split; [reflexivity|].
        rewrite !leads_cons, H1, H2. split; (split; [intros H; split; [reflexivity|exact H]|now intros [_ H]]).
      * exists e1', e2'. split; [reflexivity|]. rewrite !leads_cons, En1, En2. split; (split; [discriminate|]); intros [? _]; congruence.
Qed.

(** ** Hashes *)

Definition hash_of (cs : list N) : N :=
  let hash := fold_left hash_byte (utf8 cs) 0%N in
  let hash := wadd 32 hash (wshl 32 hash 3) in
  let hash := N.lxor hash (N.shiftr hash 11) in
  wadd 32 hash (wshl 32 hash 15).

Lemma hash_loop_ok s cs : represents M s cs -> forall l i st fuel hash, positioned s cs st (At i) -> l = skipn (i + 1) cs -> length l + 2 <= fuel ->
  hash_loop fuel M s st (nth i cs 0%N) hash = Some (fold_left hash_byte (utf8 (nth i cs 0%N :: l)) hash).
Proof.
  intros R. pose proof (represents_scalar M s cs R) as S. induction l as [|x l IH]; intros i st fuel hash P E Hf; (destruct fuel as [|fuel]; [cbn in Hf; lia|]).
  - assert (Hi : i < length cs) by apply P. pose proof (scalar_nth cs i S Hi) as Si. cbn [hash_loop].
    destruct (N.eqb_spec (nth i cs 0%N) 0) as [Z|Z]; [now apply scalar_nz in Si|]. rewrite (positioned_index s cs st _ P). cbn [index].
    destruct (ahead_none Next s cs st R (or_introl eq_refl) (ex_intro _ i (conj P E))) as (st' & -> & En & _).
    rewrite (put_utf8_ok _ Si). rewrite utf8_cons. change (utf8 []) with (@nil N). rewrite app_nil_r.
    destruct fuel as [|fuel]; [cbn in Hf; lia|]. cbn [hash_loop]. destruct (past_char s =? 0)%N; [reflexivity|].
    unfold ended in En. destruct (enum_index st'); [discriminate|reflexivity].
  - assert (Hi : i < length cs) by apply P. pose proof (scalar_nth cs i S Hi) as Si. cbn [hash_loop].
    destruct (N.eqb_spec (nth i cs 0%N) 0) as [Z|Z]; [now apply scalar_nz in Si|]. rewrite (positioned_index s cs st _ P). cbn [index].
    assert (H : i + 1 < length cs) by (apply (f_equal (@length N)) in E; rewrite skipn_length in E; cbn [length] in E; lia).
    assert (Hm : moved cs (At i) Next = Some (At (i + 1))) by (cbn [moved]; destruct (Nat.ltb_spec (i + 1) (length cs)); [reflexivity|lia]).
    assert (Hne : cs <> []) by (intros ->; cbn in Hi; lia).
    destruct (move_ok M GM s cs st (At i) Next (At (i + 1)) R Hne P Hm) as (st' & -> & P'). cbn [returned char_at_position].
    rewrite (skipn_nth cs (i + 1) H) in E. injection E as -> ->. cbn [length] in Hf. rewrite (IH (i + 1) st' fuel _ P' eq_refl) by lia.
    rewrite (put_utf8_ok _ Si), (utf8_cons (nth i cs 0%N)), fold_left_app. reflexivity.
Qed.

Lemma get_hash_ok s cs : represents M s cs -> get_hash M s = Some (hash_of cs).
Proof.
  intros R. unfold get_hash. rewrite (get_length_ok M GM s cs R). destruct cs as [|c cs].
  - destruct (get_enumerator_empty M GM s R) as (st & -> & -> & _). reflexivity.
  - destruct (get_enumerator_ok M GM s (c :: cs) R ltac:(discriminate)) as (st & -> & P). rewrite (positioned_current M s _ st _ R P). cbn [char_at_position].
    rewrite (hash_loop_ok s (c :: cs) R cs 0 st _ 0%N P eq_refl) by (cbn [length]; lia). reflexivity.
Qed.

(** ** Equality *)

Lemma strncmp_ok l1 : Forall (fun b => b <> 0%N) l1 -> forall l2 r1 r2, Forall (fun b => b <> 0%N) l2 -> length l1 = length l2 ->
  exists q, strncmp (l1 ++ r1) (l2 ++ r2) (length l1) = Some q /\ (q = true <-> l1 = l2).
Proof.
  induction 1 as [|b l1 Hb _ IH]; intros l2 r1 r2 H2 L; destruct H2 as [|b2 l2 Hb2 H2]; try discriminate; cbn [app strncmp length].
  - exists true. split; [now destruct r1|]. now split.
  - injection L as L. destruct (N.eqb_spec b b2) as [->|E].
    + destruct (N.eqb_spec b2 0); [contradiction|]. destruct (IH l2 r1 r2 H2 L) as (q & -> & Hq). exists q. split; [reflexivity|].
      rewrite Hq. split; [now intros ->|]. congruence.
    + exists false. split; [reflexivity|]. split; [discriminate|congruence].
Qed.

Lemma forall_nz cs : Forall scalar cs -> Forall (fun c => c <> 0%N) cs.
Proof. intros H. eapply Forall_impl; [|exact H]. exact scalar_nz. Qed.

Lemma equal_ok same s1 s2 cs1 cs2 : represents M s1 cs1 -> represents M s2 cs2 -> (same = true -> s1 = s2) ->
  exists q, equal M same s1 s2 = Some q /\ (q = true <-> cs1 = cs2 /\ ~ (same = false /\ empty_constant s1 s2 cs1)).
Proof.
  intros R1 R2 Hsame. pose proof (represents_scalar M s1 cs1 R1) as S1. pose proof (represents_scalar M s2 cs2 R2) as S2.
  unfold equal. destruct (match s1, s2 with Tagged w1, Tagged w2 => (w1 =? w2)%N | Heap _, Heap _ => same | _, _ => false end) eqn:Ei.
  { exists true. split; [reflexivity|]. split; [intros _|reflexivity]. assert (Es : s1 = s2).
    { destruct s1, s2; try discriminate; [apply N.eqb_eq in Ei; now subst|now apply Hsame]. }
    subst s2. split; [exact (represents_fun s1 _ _ R1 R2)|]. intros [_ [_ E]]. now destruct s1. }
  destruct (same_set s1 s2) eqn:Es.
  { exists false. split; [reflexivity|]. split; [discriminate|]. intros [E _]. destruct s1 as [w1|], s2 as [w2|]; try discriminate. apply N.eqb_eq in Es. apply N.eqb_neq in Ei.
    destruct R1 as [_ [set I1]], R2 as [_ [set' I2]]. pose proof (tagged_set M _ _ _ I1). pose proof (tagged_set M _ _ _ I2).
    replace set' with set in I2 by congruence. exfalso. apply Ei. now apply (inline_eq set cs1 cs2 w1 w2). }
  rewrite (get_size_ok M GM s1 cs1 R1), (get_size_ok M GM s2 cs2 R2).
  destruct (Nat.eqb_spec (length (utf8 cs1)) (length (utf8 cs2))) as [En|En]; cbn [negb].
  2: { exists false. split; [reflexivity|]. split; [discriminate|]. intros [-> _]. contradiction. }
  rewrite (get_length_ok M GM s1 cs1 R1), (get_length_ok M GM s2 cs2 R2).
  destruct (Nat.eqb_spec (length cs1) (length cs2)) as [El|El]; cbn [negb].
  2: { exists false. split; [reflexivity|]. split; [discriminate|]. intros [-> _]. contradiction. }
  rewrite (get_hash_ok s1 cs1 R1), (get_hash_ok s2 cs2 R2).
  destruct (N.eqb_spec (hash_of cs1) (hash_of cs2)) as [Eh|Eh]; cbn [negb].
  2: { exists false. split; [reflexivity|]. split; [discriminate|]. intros [-> _]. contradiction. }
  clear Ei Es Eh.
  assert (General : (forall h1 h2, s1 = Heap h1 -> s2 <> Heap h2) -> exists q,
    (let? e1 := get_enumerator M s1 in let? e2 := get_enumerator M s2 in
     let? c1 := enum_current s1 e1 in let? c2 := enum_current s2 e2 in
     if (c1 =? c2)%N then let? (e1, _) := in_step (length cs1 + length cs2 + 2) M Next s1 e1 s2 e2 in Some (ended e1) else Some false) = Some q
    /\ (q = true <-> cs1 = cs2 /\ ~ (same = false /\ empty_constant s1 s2 cs1))).
  { intros Hh. destruct cs1 as [|c1 cs1], cs2 as [|c2 cs2]; try discriminate.
    - destruct (get_enumerator_empty M GM s1 R1) as (e1 & -> & -> & _ & M1). destruct (get_enumerator_empty M GM s2 R2) as (e2 & -> & -> & _ & M2).
      rewrite N.eqb_refl. change (length (@nil N) + length (@nil N) + 2) with 2. cbn [in_step]. rewrite M1, M2, N.eqb_refl. cbn [andb negb].
      destruct s1 as [w1|h1]; [|destruct (h_encoding h1) eqn:E1].
      + exists true. split; [reflexivity|]. split; [|reflexivity]. intros _. split; [reflexivity|]. now intros [_ [_ ?]].
      + exists false. split; [reflexivity|]. split; [discriminate|]. intros [_ H]. exfalso. apply H. destruct s2 as [w2|h2]; [|now destruct (Hh h1 h2)].
        split; [destruct same; [discriminate (Hsame eq_refl)|reflexivity]|]. split; [reflexivity|exact E1].
      + exists true. split; [reflexivity|]. split; [|reflexivity]. intros _. split; [reflexivity|]. intros [_ [_ H]]. destruct s2; [congruence|contradiction].
    - destruct (get_enumerator_ok M GM s1 (c1 :: cs1) R1 ltac:(discriminate)) as (e1 & -> & P1). destruct (get_enumerator_ok M GM s2 (c2 :: cs2) R2 ltac:(discriminate)) as (e2 & -> & P2).
      rewrite (positioned_current M s1 _ e1 _ R1 P1), (positioned_current M s2 _ e2 _ R2 P2). cbn [char_at_position nth].
      destruct (N.eqb_spec c1 c2) as [->|Ec].
      2: { exists false. split; [reflexivity|]. split; [discriminate|]. intros [E _]. congruence. }
      apply forall_nz in S1. apply forall_nz in S2. inversion S1 as [|? ? _ N1]; subst. inversion S2 as [|? ? _ N2]; subst.
      destruct (in_step_ok Next s1 (c2 :: cs1) s2 (c2 :: cs2) R1 R2 (or_introl eq_refl) cs1 cs2 e1 e2 (length (c2 :: cs1) + length (c2 :: cs2) + 2)) as (f1 & f2 & -> & _ & H); try assumption.
      { exists 0. split; [exact P1|reflexivity]. } { exists 0. split; [exact P2|reflexivity]. } { cbn [length]. lia. }
      exists (ended f1). split; [reflexivity|]. rewrite H. injection El as El. split.
      + intros [[post ->]|[_ ->]]; [|rewrite app_length in El; cbn in El; lia]. rewrite app_length in El. destruct post; [|cbn in El; lia].
        split; [now rewrite app_nil_r|]. intros [_ [? _]]. discriminate.
      + intros [E _]. left. exists []. rewrite app_nil_r. congruence. }
  destruct s1 as [w1|h1], s2 as [w2|h2]; try (apply General; intros; congruence).
  destruct R1 as (Se1 & _ & r1 & Em1 & _), R2 as (Se2 & _ & r2 & Em2 & _). rewrite Em1, Em2, (encode_utf8 _ _ Se1), (encode_utf8 _ _ Se2).
  destruct (strncmp_ok (utf8 cs1) (utf8_nz _ S1) (utf8 cs2) r1 r2 (utf8_nz _ S2) En) as (q & -> & Hq). exists q. split; [reflexivity|]. rewrite Hq. split.
  - intros E. split; [now apply utf8_inj|]. now intros [_ [_ ?]].
  - now intros [-> _].
Qed.

(** ** Prefixes *)

Lemma firstn_digits set cs ds n : Forall2 (first_at (chars_of M set)) cs ds -> Forall2 (first_at (chars_of M set)) (firstn n cs) (firstn n ds).
Proof. intros F. revert n. induction F; intros [|n]; cbn [firstn]; constructor; auto. Qed.
Lemma skipn_digits set cs ds n : Forall2 (first_at (chars_of M set)) cs ds -> Forall2 (first_at (chars_of M set)) (skipn n cs) (skipn n ds).
Proof. intros F. revert n. induction F; intros [|n]; cbn [skipn]; auto. Qed.

Lemma land_tag set v m : (set < 4)%N -> N.land (set + 4 * v) (m * 2 ^ 2) = (N.land v m * 2 ^ 2)%N.
Proof.
  intros H. replace (set + 4 * v)%N with (v * 2 ^ 2 + set)%N by (change (2 ^ 2)%N with 4%N; lia). apply N.bits_inj. intros i.
  rewrite N.land_spec, testbit_split by exact H. rewrite !testbit_mul_pow2. destruct (N.ltb_spec i 2); [apply andb_false_r|]. now rewrite N.land_spec.
Qed.

Lemma mask_tag n : (1 <= n <= 60)%N -> low_mask n = Some (N.ones n) /\ wshl 64 (N.ones n) 2 = (N.ones n * 2 ^ 2)%N.
Proof.
  intros H. split; [apply low_mask_ok; lia|]. apply wshl_tag. rewrite N.ones_equiv. assert (2 ^ n < 2 ^ 62)%N by (apply N.pow_lt_mono_r; lia). lia.
Qed.

Lemma prefix_split (ps cs : list N) : (exists post, cs = ps ++ post) <-> firstn (length ps) cs = ps.
Proof.
  split; [intros [post ->]; apply firstn_app_exact|]. intros E. exists (skipn (length ps) cs). rewrite <- E at 1. symmetry. apply firstn_skipn.
Qed.

Lemma has_prefix_ok same s p cs ps : represents M s cs -> represents M p ps -> (same = true -> s = p) -> ps <> [] ->
  exists q, has_prefix M same s p = Some q /\ (q = true <-> (exists post, cs = ps ++ post) \/ misled Next s cs ps).
Proof.
  intros R1 R2 Hsame Hps. unfold has_prefix. destruct (equal_ok same s p cs ps R1 R2 Hsame) as (q & -> & Hq). destruct q.
  { exists true. split; [reflexivity|]. split; [|reflexivity]. intros _. left. exists []. rewrite app_nil_r. now apply Hq. }
  clear Hq. pose proof (represents_scalar M s cs R1) as S1. pose proof (represents_scalar M p ps R2) as S2.
  assert (General : forall fuel, length cs + 2 <= fuel -> exists q,
    (let? e1 := get_enumerator M s in let? e2 := get_enumerator M p in
     let? c1 := enum_current s e1 in let? c2 := enum_current p e2 in
     if (c1 =? c2)%N then let? (_, e2) := in_step fuel M Next s e1 p e2 in Some (ended e2) else Some false) = Some q
    /\ (q = true <-> (exists post, cs = ps ++ post) \/ misled Next s cs ps)).
  { intros fuel Hf. destruct ps as [|p0 ps]; [contradiction|]. destruct (get_enumerator_ok M GM p (p0 :: ps) R2 ltac:(discriminate)) as (e2 & E2 & P2). destruct cs as [|c0 cs].
    - destruct (get_enumerator_empty M GM s R1) as (e1 & -> & C1 & _). rewrite E2, C1, (positioned_current M p _ e2 _ R2 P2). cbn [char_at_position nth].
      inversion S2 as [|? ? Sp _]; subst. apply scalar_nz in Sp. destruct (N.eqb_spec 0 p0); [congruence|]. exists false. split; [reflexivity|]. split; [discriminate|].
      intros [[post E]|[E _]]; [discriminate|contradiction].
    - destruct (get_enumerator_ok M GM s (c0 :: cs) R1 ltac:(discriminate)) as (e1 & -> & P1). rewrite E2.
      rewrite (positioned_current M s _ e1 _ R1 P1), (positioned_current M p _ e2 _ R2 P2). cbn [char_at_position nth].
      assert (Ho : (exists post, c0 :: cs = (p0 :: ps) ++ post) \/ misled Next s (c0 :: cs) (p0 :: ps) <-> leads s (c0 :: cs) (p0 :: ps)).
      { unfold leads, misled. split; (intros [H|H]; [now left|right]); [tauto|split; [discriminate|exact H]]. }
      rewrite leads_cons in Ho. destruct (N.eqb_spec c0 p0) as [->|Ec].
      2: { exists false. split; [reflexivity|]. rewrite Ho. split; [discriminate|]. intros [E _]. contradiction. }
      apply forall_nz in S1. apply forall_nz in S2. inversion S1 as [|? ? _ N1]; subst. inversion S2 as [|? ? _ N2]; subst.
      destruct (in_step_ok Next s (p0 :: cs) p (p0 :: ps) R1 R2 (or_introl eq_refl) cs ps e1 e2 fuel) as (f1 & f2 & -> & H & _); try assumption.
      { exists 0. split; [exact P1|reflexivity]. } { exists 0. split; [exact P2|reflexivity]. } { cbn [length] in Hf. lia. }
      exists (ended f2). split; [reflexivity|]. rewrite Ho, H. tauto. }
  rewrite (get_length_ok M GM s cs R1), (get_length_ok M GM p ps R2).
  destruct s as [w1|h1]; [destruct p as [w2|h2]|]; try (apply General; lia).
  destruct R1 as [_ [set I1]], R2 as [_ [set' I2]]. rewrite (tagged_set M _ _ _ I1), (tagged_set M _ _ _ I2).
  destruct (N.eqb_spec set set') as [<-|Hs].
  2: { rewrite (tagged_len M GM _ _ _ S1 I1), (tagged_len M GM _ _ _ S2 I2). apply General. lia. }
  rewrite (tagged_len M GM _ _ _ S2 I2).
  destruct (inline_digits M GM set cs w1 S1 I1) as (ds & D & L & F & ->). destruct (inline_digits M GM set ps w2 S2 I2) as (es & D' & L' & F' & ->).
  pose proof (digits_word set es (length ps) D' ltac:(rewrite <- L'; apply D')) as Hw. pose proof (bits_pos set (dg_set _ _ D)). pose proof (dg_set _ _ D) as Hset.
  assert (Hl : 1 <= length ps) by (destruct ps; [contradiction|cbn; lia]).
  destruct (mask_tag (N.of_nat (length ps) * bits_of set) ltac:(nia)) as [Em Et]. rewrite Em, Et. rewrite !land_tag by lia.
  eexists. split; [reflexivity|]. rewrite (N.mul_comm (N.of_nat _)), !N.land_ones, !packed_mod by (apply D || apply D').
  rewrite N.eqb_eq, N.mul_cancel_r by (vm_compute; discriminate). rewrite (firstn_all2 es) by lia.
  assert (A : (exists post, cs = ps ++ post) \/ misled Next (Tagged (set + 4 * packed (bits_of set) ds)) cs ps <-> firstn (length ps) cs = ps).
  { rewrite prefix_split. split; [intros [H0|(_ & H0 & _)]; [exact H0|contradiction]|now left]. }
  rewrite A, (digits_eq set _ _ _ _ (firstn_digits set cs ds (length ps) F) F'). split; [|now intros ->].
  apply packed_inj; try apply (digits_firstn set ds _ D); try apply D'.
Qed.

(** ** Suffixes *)

Lemma suffix_split (ps cs : list N) : (exists pre, cs = pre ++ ps) <-> length ps <= length cs /\ skipn (length cs - length ps) cs = ps.
Proof.
  split.
  - intros [pre ->]. rewrite app_length. split; [lia|]. replace (length pre + length ps - length ps) with (length pre) by lia. apply skipn_app_exact.
  - intros [_ E]. exists (firstn (length cs - length ps) cs). rewrite <- E at 2. symmetry. apply firstn_skipn.
Qed.

Lemma rev_last (c : N) cs : cs <> [] -> rev cs = nth (length cs - 1) cs c :: rev (firstn (length cs - 1) cs).
Proof.
  intros H. destruct (exists_last H) as (l & x & ->). rewrite app_length. cbn [length]. replace (length l + 1 - 1) with (length l) by lia.
  rewrite rev_app_distr, firstn_app_exact, app_nth2, Nat.sub_diag by lia. reflexivity.
Qed.

Lemma suffix_rev (ps cs : list N) : (exists pre, cs = pre ++ ps) <-> exists post, rev cs = rev ps ++ post.
Proof.
  split; intros [l E].
  - exists (rev l). now rewrite E, rev_app_distr.
  - exists (rev l). apply (f_equal (@rev N)) in E. now rewrite rev_app_distr, !rev_involutive in E.
Qed.

Lemma has_suffix_ok same s p cs ps : represents M s cs -> represents M p ps -> (same = true -> s = p) -> cs <> [] -> ps <> [] ->
  ~ same_set_longer s p cs ps ->
  exists q, has_suffix M same s p = Some q /\ (q = true <-> (exists pre, cs = pre ++ ps) \/ misled Previous s cs ps).
Proof.
  intros R1 R2 Hsame Hcs Hps Hlong. unfold has_suffix. destruct (equal_ok same s p cs ps R1 R2 Hsame) as (q & -> & Hq). destruct q.
  { exists true. split; [reflexivity|]. split; [|reflexivity]. intros _. left. exists []. now apply Hq. }
  clear Hq. pose proof (represents_scalar M s cs R1) as S1. pose proof (represents_scalar M p ps R2) as S2.
  rewrite (get_length_ok M GM s cs R1), (get_length_ok M GM p ps R2).
  assert (General : exists q,
    (let? e1 := get_enumerator M s in let? e2 := get_enumerator M p in
     let? (e1, c1) := enum_move M s e1 Tail in let? (e2, c2) := enum_move M p e2 Tail in
     if (c1 =? c2)%N then let? (_, e2) := in_step (length cs + length ps + 2) M Previous s e1 p e2 in Some (ended e2) else Some false) = Some q
    /\ (q = true <-> (exists pre, cs = pre ++ ps) \/ misled Previous s cs ps)).
  { destruct (get_enumerator_ok M GM s cs R1 Hcs) as (e1 & -> & P1). destruct (get_enumerator_ok M GM p ps R2 Hps) as (e2 & -> & P2).
    destruct (move_ok M GM s cs e1 _ Tail _ R1 Hcs P1 eq_refl) as (f1 & -> & Q1). destruct (move_ok M GM p ps e2 _ Tail _ R2 Hps P2 eq_refl) as (f2 & -> & Q2).
    cbn [returned char_at_position].
    assert (Ho : (exists pre, cs = pre ++ ps) \/ misled Previous s cs ps <-> leads s (rev cs) (rev ps)).
    { unfold leads, misled. rewrite suffix_rev. split; (intros [H|H]; [now left|right]).
      - destruct H as (_ & H & ->). split; [exact H|reflexivity].
      - destruct H as (H & E). split; [exact Hcs|]. split; [exact H|]. apply (f_equal (@rev N)) in E. now rewrite rev_app_distr, !rev_involutive in E. }
    rewrite (rev_last 0%N cs Hcs), (rev_last 0%N ps Hps), leads_cons in Ho.
    destruct (N.eqb_spec (nth (length cs - 1) cs 0%N) (nth (length ps - 1) ps 0%N)) as [E|Ec].
    2: { exists false. split; [reflexivity|]. rewrite Ho. split; [discriminate|]. intros [E _]. contradiction. }
    apply forall_nz in S1. apply forall_nz in S2.
    destruct (in_step_ok Previous s cs p ps R1 R2 (or_intror eq_refl) (rev (firstn (length cs - 1) cs)) (rev (firstn (length ps - 1) ps)) f1 f2 (length cs + length ps + 2)) as (g1 & g2 & -> & H & _).
    { eexists. split; [exact Q1|reflexivity]. } { eexists. split; [exact Q2|reflexivity]. }
    { apply Forall_rev, Forall_firstn, S1. } { apply Forall_rev, Forall_firstn, S2. } { rewrite rev_length, firstn_length. lia. }
    exists (ended g2). split; [reflexivity|]. rewrite Ho, H. tauto. }
  destruct s as [w1|h1]; [destruct p as [w2|h2]|]; try exact General.
  destruct R1 as [_ [set I1]], R2 as [_ [set' I2]]. pose proof (tagged_set M _ _ _ I1) as T1. pose proof (tagged_set M _ _ _ I2) as T2. 
  destruct (N.eqb_spec (set_of w1) (set_of w2)) as [Hs|Hs]; [|exact General].
  assert (Hlen : length ps <= length cs) by (cbn [same_set_longer] in Hlong; lia). rewrite T1.
  replace set' with set in I2 by congruence.
  rewrite (tagged_len M GM _ _ _ S2 I2), (tagged_len M GM _ _ _ S1 I1).
  destruct (inline_digits M GM set cs w1 S1 I1) as (ds & D & L & F & ->). destruct (inline_digits M GM set ps w2 S2 I2) as (es & D' & L' & F' & ->).
  pose proof (digits_word set es (length ps) D' ltac:(rewrite <- L'; apply D')) as Hw. pose proof (bits_pos set (dg_set _ _ D)). pose proof (dg_set _ _ D) as Hset.
  pose proof (digits_word set ds (length cs - length ps) D ltac:(pose proof (dg_len _ _ D); lia)) as Hw'.
  assert (Hl : 1 <= length ps) by (destruct ps; [contradiction|cbn; lia]).
  destruct (mask_tag (N.of_nat (length ps) * bits_of set) ltac:(nia)) as [Em Et]. rewrite Em, Et.
  destruct (Nat.ltb_spec (length cs) (length ps)); [lia|]. rewrite shr_ok by nia. eexists. split; [reflexivity|].
  assert (X : N.land ((set + 4 * packed (bits_of set) ds) / 2 ^ (N.of_nat (length cs - length ps) * bits_of set)) (N.ones (N.of_nat (length ps) * bits_of set) * 2 ^ 2)
    = (N.land (packed (bits_of set) (skipn (length cs - length ps) ds)) (N.ones (N.of_nat (length ps) * bits_of set)) * 2 ^ 2)%N).
  { rewrite !land_shifted, N.mul_comm with (n := N.of_nat (length cs - length ps)). rewrite N.div_div by (apply pow2_nz).
    rewrite (N.mul_comm (2 ^ (bits_of set * _))), <- N.div_div by (apply pow2_nz).
    rewrite <- (N.shiftr_div_pow2 (set + _) 2), shiftr_tag by lia. rewrite packed_div by apply D. rewrite <- N.land_ones. reflexivity. }
  rewrite X. clear X. rewrite land_tag by lia. rewrite (N.mul_comm (N.of_nat (length ps))), !N.land_ones, !packed_mod by ((apply Forall_skipn; apply D) || apply D').
  rewrite N.eqb_eq, N.mul_cancel_r by (vm_compute; discriminate). rewrite (firstn_all2 es) by lia. rewrite firstn_all2 by (rewrite skipn_length; lia).
  assert (A : (exists pre, cs = pre ++ ps) \/ misled Previous (Tagged (set + 4 * packed (bits_of set) ds)) cs ps <-> skipn (length cs - length ps) cs = ps).
  { rewrite suffix_split. split; [intros [[_ Hx]|(_ & Hx & _)]; [exact Hx|contradiction]|now left]. }
  rewrite A, (digits_eq set _ _ _ _ (skipn_digits set cs ds (length cs - length ps) F) F'). split; [|now intros ->].
  apply packed_inj; try apply (digits_skipn set ds _ D); try apply D'.
Qed.
End with_maps.
