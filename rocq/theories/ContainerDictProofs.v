(** Proofs about copying dictionaries and collections through reflection. *)
From Verif Require Import Base ContainerModel ContainerProofs ContainerMapProofs HashMapModel HashMapSpec HashMapProofs HashMapStepProofs DictionaryModel DictionarySpec DictionaryProofs.
From Verif Require CollectionModel CollectionSpec CollectionGenericProofs CollectionHistoryProofs.

Section Dictionary.
Context {K V : Type} (eqk : K -> K -> bool).

Lemma specs_puts kd vd (kvs : list (K * V)) : forall l,
  (forall i j x y, nth_error (rev l ++ kvs) i = Some x -> nth_error (rev l ++ kvs) j = Some y -> eqk (fst x) (fst y) = true -> i = j) ->
  exists rs, specs eqk kd vd l (map (fun x => Put (fst x) (snd x)) kvs) = (rev kvs ++ l, rs, []).
Proof.
  induction kvs as [|[k v] t IH]; intros l D; cbn [map specs spec fst snd rev]; [now exists []|].
  assert (X : lookup eqk l k = None).
  { unfold lookup. destruct (find _ l) as [y|] eqn:E; [|reflexivity]. apply find_some in E as (Iy & Ey). apply in_rev, In_nth_error in Iy as (i & Ei). pose proof (nth_error_Some_lt _ _ _ Ei).
    assert (X1 : nth_error (rev l ++ (k, v) :: t) (length (rev l)) = Some (k, v)) by (rewrite nth_error_app2, Nat.sub_diag by lia; reflexivity).
    assert (X2 : nth_error (rev l ++ (k, v) :: t) i = Some y) by (rewrite nth_error_app1 by lia; exact Ei). pose proof (D _ _ _ _ X1 X2 Ey). lia. }
  rewrite X. destruct (IH ((k, v) :: l)) as (rs & E). { cbn [rev]. intros i j x y. rewrite <- app_assoc. cbn [app]. apply D. }
  rewrite E. exists (RUnit :: rs). rewrite <- app_assoc. reflexivity.
Qed.

Lemma puts_acts hash' full (kvs : list (K * V)) : forall d evs0 d' rs evs, acts hash' eqk full d (map (fun x => Put (fst x) (snd x)) kvs) = Some (d', rs, evs) ->
  puts (fun c x => put_dictionary hash' eqk full c (fst x) (snd x)) (d, evs0) kvs = Some (d', evs0 ++ evs).
Proof.
  induction kvs as [|[k v] t IH]; intros d evs0 d' rs evs E; cbn [map acts puts act d_step fst snd] in *.
  - injection E as <- _ <-. now rewrite app_nil_r.
  - unfold put_dictionary at 1. cbn [fst snd]. unfold unit_of in E. destruct (d_set_value hash' eqk full d k v) as [[d1 e1]|]; [|discriminate].
    destruct (acts hash' eqk full d1 _) as [[[d2 rs2] e2]|] eqn:E2; [|discriminate]. injection E as <- _ <-. rewrite (IH d1 (evs0 ++ e1) _ _ _ E2). now rewrite app_assoc.
Qed.

Lemma specs_flags kd vd kd' vd' (p : list (action K V)) : forall l, fst (specs eqk kd vd l p) = fst (specs eqk kd' vd' l p).
Proof.
  induction p as [|a p IH]; intros l; cbn [specs]; [reflexivity|].
  assert (E : fst (spec eqk kd vd l a) = fst (spec eqk kd' vd' l a)) by (destruct a as [k v|k|k|k v|k v|k|k|k|k|]; cbn [spec]; try destruct (lookup eqk l k) as [[]|]; reflexivity).
  destruct (spec eqk kd vd l a) as [[l1 r1] e1], (spec eqk kd' vd' l a) as [[l2 r2] e2]. injection E as -> ->. specialize (IH l2).
  destruct (specs eqk kd vd l2 p) as [[l3 r3] e3], (specs eqk kd' vd' l2 p) as [[l4 r4] e4]. injection IH as -> ->. reflexivity.
Qed.

Lemma spec_length kd vd (l : list (K * V)) a : length (fst (fst (spec eqk kd vd l a))) <= S (length l).
Proof.
  assert (F : forall f, length (filter f l) <= length l) by (intros f; induction l as [|x t IH]; cbn [filter length]; [lia|]; destruct (f x); cbn [length]; lia).
  destruct a as [k v|k|k|k v|k v|k|k|k|k|]; cbn [spec]; try destruct (lookup eqk l k) as [[]|]; cbn [fst length]; unfold replace, without; rewrite ?map_length; try lia; (etransitivity; [apply F|lia]).
Qed.

Lemma specs_length kd vd (p : list (action K V)) : forall l, length (fst (fst (specs eqk kd vd l p))) <= length l + length p.
Proof.
  induction p as [|a p IH]; intros l; cbn [specs length]; [cbn [fst]; lia|]. pose proof (spec_length kd vd l a).
  destruct (spec eqk kd vd l a) as [[l1 r1] e1]. specialize (IH l1). destruct (specs eqk kd vd l1 p) as [[l3 r3] e3]. cbn [fst] in *. lia.
Qed.

End Dictionary.

Lemma copy_dictionary_unseen : forall (K V : Type) (hash hash' : K -> N) (eqk : K -> K -> bool) (junk : V) full full' s s' kd vd kd' vd' (p q : list (action K V)) fuel,
  lawful hash eqk -> lawful hash' eqk -> s <> BothBits -> s' <> BothBits -> (N.of_nat (length p + length q) <= 2 ^ 33)%N -> length p <= fuel ->
  exists d d1 rs evs d2, d_create s kd vd = Some d /\ acts hash eqk full d p = Some (d1, rs, evs) /\
    build_dictionary hash hash' eqk junk full' fuel s' kd' vd' d1 = Some (d2, []) /\
    exists d3 d4 rs' evs1 evs2, acts hash eqk full d1 q = Some (d3, rs', evs1) /\ acts hash' eqk full' d2 q = Some (d4, rs', evs2) /\
      (kd = kd' -> vd = vd' -> evs1 = evs2).
Proof.
  intros K V hash hash' eqk junk full full' s s' kd vd kd' vd' p q fuel (H1 & H2 & H3 & H4) (_ & _ & _ & H4') Hs Hs' Hp Hf.
  pose (N0 := 3 * (length p + length q) + 3). assert (EN : N0 = 3 * (length p + length q) + 3) by reflexivity. clearbody N0.
  assert (Small : (N.of_nat N0 <= 2 ^ 35)%N) by (rewrite EN; lia).
  destruct (create_ok (V := V) hash eqk full N0 Small s kd vd Hs) as (d & st0 & E & <- & <- & R0 & L0).
  destruct (create_ok (V := V) hash' eqk full' N0 Small s' kd' vd' Hs') as (n & st0' & E' & <- & <- & R0' & L0').
  destruct (acts_ok hash eqk full H1 H2 H3 H4 N0 Small p 0 d st0 [] R0 ltac:(lia) L0) as (m & rs & evs & st & l & Ea & Sp & R & L).
  pose proof (specs_length eqk (keyd d) (vald d) p []) as Ll. rewrite Sp in Ll. cbn [fst length Nat.add] in Ll.
  destruct (fill_from_is eqk H1 H2 H3 hash N0 _ m st l H4 R ltac:(lia) L) as (kvs & Len & Lk & Dd & Fill).
  destruct (acts_ok hash' eqk full' H1 H2 H3 H4' N0 Small (map (fun x => Put (fst x) (snd x)) kvs) 0 n st0' [] R0') as (m' & rs' & evs' & st' & l' & Ea' & Sp' & R' & L').
  { rewrite map_length. lia. } { exact L0'. }
  destruct (specs_puts eqk (keyd n) (vald n) kvs [] Dd) as (rs2 & X). rewrite X in Sp'. injection Sp' as <- <- <-. rewrite app_nil_r in L'. rewrite map_length in R'.
  destruct (good_holds hash eqk N0 _ m st R ltac:(lia)) as (U & _). destruct (good_holds hash' eqk N0 _ m' st' R' ltac:(lia)) as (U' & _).
  assert (Ll' : listed st' l).
  { apply (listed_rehash eqk H1 st); auto. intros k c. rewrite (proj2 (listed_keys eqk H1 st kvs Lk U) k c), (proj2 (listed_keys eqk H1 st' (rev kvs) L' U') k c).
    split; intros (v & -> & Iv); exists v; (split; [reflexivity|]); apply in_rev; [now rewrite rev_involutive|exact Iv]. }
  destruct (acts_ok hash eqk full H1 H2 H3 H4 N0 Small q _ (on d m) st l R ltac:(lia) L) as (m1 & rs1 & evs1 & st1 & l1 & Q1 & S1 & _).
  destruct (acts_ok hash' eqk full' H1 H2 H3 H4' N0 Small q _ (on n m') st' l R' ltac:(lia) Ll') as (m2 & rs3 & evs2 & st2 & l2 & Q2 & S2 & _).
  cbn [on keyd vald] in S1, S2. pose proof (specs_flags eqk (keyd d) (vald d) (keyd n) (vald n) q l) as SF. rewrite S1, S2 in SF. injection SF as -> ->.
  exists d, (on d m), rs, evs, (on n m'). split; [exact E|]. split; [exact Ea|]. split.
  - unfold build_dictionary. rewrite E'. cbn [on dmap]. rewrite Fill by lia. exact (puts_acts eqk hash' full' kvs n [] _ _ _ Ea').
  - exists (on (on d m) m1), (on (on n m') m2), rs3, evs1, evs2. split; [exact Q1|]. split; [exact Q2|]. intros Ek Ev. rewrite Ek, Ev in S1. congruence.
Qed.

(** ** Collections *)
Section Collection.
Import CollectionModel CollectionSpec CollectionGenericProofs.
Context {A St Tt : Type} (I : interface A St) (J : interface A Tt).

(** The loop is the enumeration, then the insertions. *)
Lemma fill_collection_is ordered env fuel : forall s e x c xs, enumerate_from I fuel s e x Next = Some xs ->
  fill_collection I J ordered env fuel s e x c = puts (put_collection J ordered env) c xs.
Proof.
  induction fuel as [|f IH]; intros s e [x|] c xs E; cbn [enumerate_from fill_collection] in *; try discriminate; try (injection E as <-; reflexivity).
  destruct (i_enumerator _ I s e Next) as [[e1 y]|]; [|discriminate]. destruct (enumerate_from I f s e1 y Next) as [t|] eqn:Et; [|discriminate]. injection E as <-.
  cbn [puts]. destruct (put_collection J ordered env c x) as [c1|]; [|reflexivity]. apply IH. exact Et.
Qed.

Definition insertion (ordered : bool) (x : A) (al : alloc) : op A := if ordered then Append x al else Insert x al.

(** [xs] one after the other from call [k] on *)
Fixpoint insertions (ordered : bool) (env : nat -> alloc) (k : nat) (xs : list A) : list (op A) :=
  match xs with [] => [] | x :: t => insertion ordered x (env k) :: insertions ordered env (S k) t end.

Lemma puts_insertions dtor ordered env xs : forall k t t' rs, run J dtor t (insertions ordered env k xs) = Some (t', rs) ->
  exists c, puts (put_collection J ordered env) (k, t) xs = Some (c, t').
Proof.
  induction xs as [|x xs IH]; intros k t t' rs E; cbn [insertions run puts] in *; [injection E as <- _; eauto|].
  unfold put_collection at 1. cbn [fst snd]. destruct ordered; cbn [insertion step] in E; unfold returning in E.
  - destruct (append_element J t x (env k)) as [[t1 e]|]; [|discriminate]. destruct (run J dtor t1 _) as [[t2 rs2]|] eqn:E2; [|discriminate]. injection E as <- _. eauto.
  - destruct (i_insert _ J t x (env k)) as [[t1 e]|]; [|discriminate]. destruct (run J dtor t1 _) as [[t2 rs2]|] eqn:E2; [|discriminate]. injection E as <- _. eauto.
Qed.

Lemma plain_insertions ordered env xs : forall k l, fst (plain_run l (insertions ordered env k xs)) = l ++ xs.
Proof.
  induction xs as [|x xs IH]; intros k l; cbn [insertions plain_run]; [now rewrite app_nil_r|].
  assert (P : plain l (insertion ordered x (env k)) = (l ++ [x], Entry false)) by (destruct ordered; reflexivity). rewrite P. specialize (IH (S k) (l ++ [x])).
  destruct (plain_run (l ++ [x]) _). cbn [fst] in *. rewrite IH, <- app_assoc. reflexivity.
Qed.

Lemma insertions_in_range ordered env xs : (forall k, grow_ok (env k) = true /\ node_ok (env k) = true) -> forall k l, in_range_run l (insertions ordered env k xs).
Proof.
  intros H. induction xs as [|x xs IH]; intros k l; cbn [insertions in_range_run]; [exact Logic.I|].
  destruct (H k) as (G1 & G2). destruct ordered; cbn [insertion by_index in_range plain fst]; unfold allocates; cbn [allocations]; rewrite G1, G2; repeat (split; [auto|]); apply IH.
Qed.

Lemma copy_collection_ok im im' (R : St -> ledger A -> Prop) (R' : Tt -> ledger A -> Prop) (L : laws im I R) (L' : laws im' J R') s0 t0 :
  R s0 [] -> R' t0 [] -> forall dtor dtor' ops ordered env fuel, in_range_run [] ops -> (forall k, grow_ok (env k) = true /\ node_ok (env k) = true) -> length (fst (plain_run [] ops)) < fuel ->
  exists s rs t, run I dtor s0 ops = Some (s, rs) /\ build_collection I J ordered env fuel t0 s = Some t /\
    step J dtor' t Forward = Some (t, RElements (fst (plain_run [] ops)), []) /\
    forall later, in_range_run (fst (plain_run [] ops)) later ->
      exists t' rs', run J dtor' t later = Some (t', rs') /\ map (fun p => CollectionSpec.show (fst p)) rs' = snd (plain_run (fst (plain_run [] ops)) later).
Proof.
  intros R0 R0' dtor dtor' ops ordered env fuel Ra Env Hf.
  destruct (CollectionHistoryProofs.plain_sim im I R L dtor ops s0 [] R0 Ra) as (s & l & rs & E & Rs & P1 & _). cbn [elements map] in P1.
  set (xs := fst (plain_run [] ops)) in *. clearbody xs. exists s, rs.
  destruct (CollectionHistoryProofs.plain_sim im' J R' L' dtor' (insertions ordered env 0 xs) t0 [] R0' (insertions_in_range ordered env xs Env 0 [])) as (t & l' & rs' & E' & Rt & P1' & _).
  cbn [elements map] in P1'. rewrite plain_insertions in P1'. cbn [app] in P1'. exists t. split; [exact E|]. split.
  - pose proof (enumerate_sim im I R L s l Rs) as En. rewrite P1 in En. unfold build_collection. unfold enumerate in En.
    destruct (i_enumerator _ I s (Internal None) Head) as [[e1 y1]|]; [|discriminate]. destruct (i_enumerator _ I s e1 Current) as [[e2 x]|]; [|discriminate].
    assert (Fu : enumerate_from I fuel s e2 x Next = Some xs).
    { rewrite (L_count im I R L s l Rs) in En. assert (Le : length l + 1 <= fuel) by (unfold elements in P1; apply (f_equal (@length _)) in P1; rewrite map_length in P1; lia).
      clear - En Le. revert Le En. generalize (length l + 1). intros f. revert fuel e2 x xs. induction f as [|f IH]; intros [|fuel] e [x|] xs Le En; cbn [enumerate_from] in *; try discriminate; try lia; try exact En.
      destruct (i_enumerator _ I s e Next) as [[e1 y]|]; [|discriminate]. destruct (enumerate_from I f s e1 y Next) as [t|] eqn:Et; [|discriminate]. rewrite (IH fuel e1 y t ltac:(lia) Et). exact En. }
    rewrite (fill_collection_is ordered env fuel s e2 x (0, t0) xs Fu). destruct (puts_insertions dtor' ordered env xs 0 t0 t rs' E') as (c & ->). reflexivity.
  - split; [cbn [step]; rewrite (enumerate_sim im' J R' L' t l' Rt), P1'; reflexivity|]. intros later Hl. rewrite <- P1' in Hl.
    destruct (CollectionHistoryProofs.plain_sim im' J R' L' dtor' later t l' Rt Hl) as (t' & l2 & rs2 & E2 & _ & _ & P2). exists t', rs2. split; [exact E2|]. rewrite <- P1'. exact P2.
Qed.

End Collection.
