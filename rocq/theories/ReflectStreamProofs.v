(** Proofs for run-length encoding streams. *)
From Verif Require Import Base ReflectStreamModel ReflectStreamSpec.
Local Open Scope N_scope.

Lemma to_bytes_length n : forall v, length (to_bytes n v) = n.
Proof. induction n as [|n IH]; intros v; cbn [to_bytes length]; [reflexivity|now rewrite IH]. Qed.

Lemma of_to_bytes n : forall v, of_bytes (to_bytes n v) = v mod 2 ^ (8 * N.of_nat n).
Proof.
  induction n as [|n IH]; intros v; cbn [to_bytes of_bytes].
  - change (2 ^ (8 * N.of_nat 0)) with 1. now rewrite N.mod_1_r.
  - rewrite IH. replace (8 * N.of_nat (S n)) with (8 + 8 * N.of_nat n) by lia. rewrite N.pow_add_r. change (2 ^ 8) with 256.
    rewrite N.mod_mul_r by (try lia; apply N.pow_nonzero; lia). reflexivity.
Qed.

Lemma to_of_bytes bs : Forall (fun b => b < 256) bs -> to_bytes (length bs) (of_bytes bs) = bs.
Proof.
  induction 1 as [|b bs Hb _ IH]; cbn [length to_bytes of_bytes]; [reflexivity|]. replace (b + 256 * of_bytes bs) with (b + of_bytes bs * 256) by lia.
  rewrite N.mod_add, N.div_add, N.mod_small, N.div_small by lia. cbn [N.add]. now rewrite IH.
Qed.

Lemma take_bytes_app n : forall a s, length a = n -> take_bytes n (a ++ s) = Some (a, s).
Proof. induction n as [|n IH]; intros [|b a] s H; cbn [length take_bytes app] in *; try discriminate; [reflexivity|]. rewrite IH by congruence. reflexivity. Qed.

Section RLE.
Variables (mask : N -> bool) (size : nat).
Hypothesis size_ok : (1 <= size < 8)%nat.
Let max := 2 ^ (8 * N.of_nat size).

Lemma max_is : max_run size = Some max.
Proof. unfold max_run. replace (8 * N.of_nat size <? 64) with true by lia. reflexivity. Qed.

Lemma max_big : 256 <= max.
Proof. unfold max. change 256 with (2 ^ 8). apply N.pow_le_mono_r; lia. Qed.

(** ** One byte at a time *)
Definition w1 (m : bool) (r : run) (b : N) : run * list N :=
  if m
  then if count r =? 0 then (r, [b])
       else if b =? value r then let r := mkRun (value r) (count r + 1) in if count r =? max then write_flush size r else (r, [])
       else let (r, o) := write_flush size r in (r, o ++ [b])
  else write_loop mask size max r [b].

Fixpoint w (r : run) (l : list (bool * N)) : run * list N :=
  match l with [] => (r, []) | (m, b) :: t => let (r, o) := w1 m r b in let (r, o') := w r t in (r, o ++ o') end.

Definition r1 (m : bool) (r : run) (s : list N) : option (run * N * list N) :=
  if negb (count r =? 0) then Some (mkRun (value r) (count r - 1), value r, s)
  else match s with
       | [] => None
       | b :: s => if m then Some (r, b, s) else if mask b then let? (c, s) := take_bytes size s in Some (mkRun b (of_bytes c), b, s) else Some (r, b, s)
       end.

Fixpoint rd (r : run) (ms : list bool) (s : list N) : option (run * list N * list N) :=
  match ms with
  | [] => Some (r, [], s)
  | m :: t => let? x := r1 m r s in match x with (r, b, s) => let? y := rd r t s in match y with (r, d, s) => Some (r, b :: d, s) end end
  end.

Lemma w_app l1 : forall r l2, w r (l1 ++ l2) = let (r, o) := w r l1 in let (r, o') := w r l2 in (r, o ++ o').
Proof.
  induction l1 as [|[m b] l1 IH]; intros r l2; cbn [w app]; [now destruct (w r l2)|]. destruct (w1 m r b) as [r1 o1]. rewrite IH. destruct (w r1 l1) as [r2 o2]. destruct (w r2 l2) as [r3 o3]. now rewrite app_assoc.
Qed.

Lemma rd_app l1 : forall r l2 s, rd r (l1 ++ l2) s = let? x := rd r l1 s in match x with (r, d, s) => let? y := rd r l2 s in match y with (r, d', s) => Some (r, d ++ d', s) end end.
Proof.
  induction l1 as [|m l1 IH]; intros r l2 s; cbn [rd app]; [destruct (rd r l2 s) as [[[? ?] ?]|]; reflexivity|]. destruct (r1 m r s) as [[[ra b] s1]|]; [|reflexivity]. rewrite IH.
  destruct (rd ra l1 s1) as [[[rb d1] s2]|]; [|reflexivity]. destruct (rd rb l2 s2) as [[[rc d2] s3]|]; reflexivity.
Qed.

Lemma write_is d : forall r, write_loop mask size max r d = w r (map (pair false) d).
Proof.
  induction d as [|b d IH]; intros r; [reflexivity|]. cbn [map w w1]. change (b :: d) with ([b] ++ d). cbn [write_loop app].
  match goal with |- (let (_, _) := ?x in _) = _ => destruct x as [ra oa] end. cbn [app]. rewrite IH. destruct (w ra (map (pair false) d)) as [rb ob]. now rewrite app_nil_r.
Qed.

Lemma raw_is d : forall r, count r = 0 -> w r (map (pair true) d) = (r, d).
Proof. induction d as [|b d IH]; intros r H; [reflexivity|]. cbn [map w w1]. rewrite H. cbn [N.eqb]. rewrite IH by exact H. reflexivity. Qed.

Lemma continue_is d : forall r, count r <> 0 -> count r < max -> no_spill max r d -> continue_loop size max r d = w r (map (pair true) d).
Proof.
  induction d as [|b d IH]; intros r Hc Hm NS; [reflexivity|]. cbn [map w continue_loop no_spill] in *. unfold w1. destruct (N.eqb_spec (count r) 0) as [|_]; [contradiction|]. destruct (N.eqb_spec b (value r)) as [->|Hb]; cbn [negb].
  - specialize (NS eq_refl). cbn [count]. destruct (N.eqb_spec (count r + 1) max) as [Em|Em].
    + unfold write_flush. cbn [count value]. replace (count r + 1 =? 0) with false by lia. rewrite raw_is by reflexivity. destruct d as [|b' d]; [reflexivity|]. cbn [hd_error] in NS. cbn [continue_loop value].
      destruct (N.eqb_spec b' (value r)) as [->|]; [congruence|]. cbn [negb]. reflexivity.
    + rewrite IH; cbn [count value]; auto; lia.
  - unfold write_flush. destruct (N.eqb_spec (count r) 0) as [|_]; [contradiction|]. rewrite raw_is by reflexivity. now rewrite <- app_assoc.
Qed.

Lemma read_is n : forall r s, read mask size r n s = rd r (repeat false n) s.
Proof.
  induction n as [|n IH]; intros r s; [reflexivity|]. cbn [read repeat rd]. unfold r1. destruct (negb (count r =? 0)); [rewrite IH; reflexivity|]. destruct s as [|b s]; [reflexivity|]. destruct (mask b); [|rewrite IH; reflexivity].
  destruct (take_bytes size s) as [[c s1]|]; [|reflexivity]. rewrite IH. reflexivity.
Qed.

Lemma take_is n : forall r s, count r = 0 -> (let? (d, s) := take_bytes n s in Some (r, d, s)) = rd r (repeat true n) s.
Proof.
  induction n as [|n IH]; intros r s H; [reflexivity|]. cbn [repeat rd]. unfold r1. rewrite H. cbn [N.eqb negb take_bytes]. destruct s as [|b s]; [reflexivity|]. rewrite <- IH by exact H. destruct (take_bytes n s) as [[x y]|]; reflexivity.
Qed.

Lemma read_continue_is n : forall r s, read_continue r n s = rd r (repeat true n) s.
Proof.
  assert (L : forall n r s, read_continue_loop r n s = rd r (repeat true n) s).
  { clear n. induction n as [|n IH]; intros r s; [reflexivity|]. cbn [read_continue_loop]. destruct (N.eqb_spec (count r) 0) as [E|E]; cbn [negb]; [now apply take_is|]. cbn [repeat rd]. unfold r1. replace (count r =? 0) with false by lia. cbn [negb]. rewrite IH. reflexivity. }
  intros r s. unfold read_continue. destruct (N.eqb_spec (count r) 0) as [E|E]; cbn [negb]; [now apply take_is|apply L].
Qed.

(** ** Invariant of the writer: the run is shorter than the greatest length *)
Lemma w1_small m r b : count r < max -> count (fst (w1 m r b)) < max.
Proof.
  intros H. pose proof max_big. unfold w1, write_loop, write_byte, write_flush. destruct m, (N.eqb_spec (count r) 0) as [E|E]; cbn [negb]; try (destruct (b =? value r)); cbn [negb]; cbn [count];
    try (destruct (N.eqb_spec (count r + 1) max); replace (count r + 1 =? 0) with false by lia); try destruct (mask b); cbn [fst count]; lia.
Qed.

Lemma w_small l : forall r, count r < max -> count (fst (w r l)) < max.
Proof.
  induction l as [|[m b] l IH]; intros r H; cbn [w]; [exact H|]. pose proof (w1_small m r b H) as H1. destruct (w1 m r b) as [ra oa]. specialize (IH ra H1). destruct (w ra l). exact IH.
Qed.

(** ** Reading back *)
Definition flushed (x : run * list N) : list N := snd x ++ snd (write_flush size (fst x)).

Lemma flushed_cons m b l r : flushed (w r ((m, b) :: l)) = snd (w1 m r b) ++ flushed (w (fst (w1 m r b)) l).
Proof. cbn [w]. destruct (w1 m r b) as [ra oa]. unfold flushed. cbn [fst snd]. destruct (w ra l) as [rb ob]. cbn [fst snd]. now rewrite app_assoc. Qed.

Lemma of_small v : v < max -> of_bytes (to_bytes size v) = v.
Proof. intros H. rewrite of_to_bytes. now apply N.mod_small. Qed.

Lemma back l : forall r, count r < max ->
  (count r = 0 -> forall r0 rest, count r0 = 0 -> exists r', rd r0 (map fst l) (flushed (w r l) ++ rest) = Some (r', map snd l, rest) /\ count r' = 0) /\
  (count r <> 0 -> exists e s, flushed (w r l) = to_bytes size (count r - 1 + e) ++ s /\ count r + e <= max /\
     forall rest, exists r', rd (mkRun (value r) e) (map fst l) (s ++ rest) = Some (r', map snd l, rest) /\ count r' = 0).
Proof.
  pose proof max_big as MB. induction l as [|[m b] l IH]; intros r Hr.
  - split.
    + intros H r0 rest H0. exists r0. split; [|exact H0]. unfold flushed. cbn [w fst snd app]. unfold write_flush. now rewrite H.
    + intros H. exists 0, []. split; [|split; [lia|intros rest; eexists; split; reflexivity]]. unfold flushed. cbn [w fst snd app]. unfold write_flush. destruct (N.eqb_spec (count r) 0); [contradiction|]. cbn [snd]. now rewrite app_nil_r, N.add_0_r.
  - pose proof (w1_small m r b Hr) as H1. rewrite flushed_cons. cbn [map fst snd].
    (* a byte written while there is no run, read while there is none *)
    assert (Z : forall ra, count ra = 0 -> forall r0 rest, count r0 = 0 ->
              exists r', rd r0 (m :: map fst l) ((b :: flushed (w (if m then ra else if mask b then mkRun b 1 else ra) l)) ++ rest) = Some (r', b :: map snd l, rest) /\ count r' = 0).
    { intros ra Ha r0 rest H0. cbn [rd app]. unfold r1. rewrite H0. cbn [N.eqb negb]. destruct m.
      - destruct (proj1 (IH ra ltac:(lia)) Ha r0 rest H0) as (r' & -> & C). eauto.
      - destruct (mask b).
        + destruct (proj2 (IH (mkRun b 1) ltac:(cbn [count]; lia)) ltac:(cbn [count]; lia)) as (e & s & -> & He & Q). cbn [count value] in *. rewrite <- app_assoc, take_bytes_app by apply to_bytes_length.
          rewrite of_small by lia. replace (1 - 1 + e) with e by lia. destruct (Q rest) as (r' & -> & C). eauto.
        + destruct (proj1 (IH ra ltac:(lia)) Ha r0 rest H0) as (r' & -> & C). eauto. }
    split.
    + intros H r0 rest H0. specialize (Z r H r0 rest H0). unfold w1. destruct m.
      * rewrite H. cbn [N.eqb fst snd app]. exact Z.
      * unfold write_loop, write_byte. rewrite H. cbn [N.eqb negb app fst snd]. destruct (mask b); cbn [fst snd app]; exact Z.
    + intros H. destruct (N.eqb_spec b (value r)) as [Hb|Hb].
      * (* the run goes on *)
        assert (E : w1 m r b = (let r' := mkRun (value r) (count r + 1) in if count r' =? max then write_flush size r' else (r', []))).
        { unfold w1. destruct m; [destruct (N.eqb_spec (count r) 0); [contradiction|]; replace (b =? value r) with true by lia; reflexivity|].
          unfold write_loop. replace (count r =? 0) with false by lia. replace (b =? value r) with true by lia. cbn [negb count]. destruct (count r + 1 =? max); [|reflexivity]. destruct (write_flush size (mkRun (value r) (count r + 1))). now rewrite app_nil_r. }
        rewrite E in *. cbn [count] in *. clear E. destruct (N.eqb_spec (count r + 1) max) as [Em|Em].
        -- unfold write_flush. cbn [count value]. replace (count r + 1 =? 0) with false by lia. cbn [fst snd]. exists 1, (flushed (w (mkRun (value r) 0) l)). split; [f_equal; f_equal; lia|]. split; [lia|].
           intros rest. cbn [rd]. unfold r1. cbn [count value N.eqb negb]. destruct (proj1 (IH (mkRun (value r) 0) ltac:(cbn [count]; lia)) eq_refl (mkRun (value r) (1 - 1)) rest eq_refl) as (r' & -> & C). rewrite Hb. eauto.
        -- cbn [fst snd app] in *. destruct (proj2 (IH (mkRun (value r) (count r + 1)) ltac:(cbn [count]; lia)) ltac:(cbn [count]; lia)) as (e & s & -> & He & Q). cbn [count value] in *.
           exists (e + 1), s. split; [f_equal; f_equal; lia|]. split; [lia|]. intros rest. cbn [rd]. unfold r1. cbn [count value]. replace (e + 1 =? 0) with false by lia. cbn [negb]. replace (e + 1 - 1) with e by lia.
           destruct (Q rest) as (r' & -> & C). rewrite Hb. eauto.
      * (* it ends *)
        assert (E : w1 m r b = (if m then mkRun (value r) 0 else if mask b then mkRun b 1 else mkRun (value r) 0, to_bytes size (count r - 1) ++ [b])).
        { unfold w1, write_loop, write_byte, write_flush. replace (count r =? 0) with false by lia. replace (b =? value r) with false by lia. cbn [negb count]. destruct m; [reflexivity|]. destruct (mask b); now rewrite app_nil_r. }
        rewrite E. cbn [fst snd]. exists 0, (b :: flushed (w (if m then mkRun (value r) 0 else if mask b then mkRun b 1 else mkRun (value r) 0) l)). split; [rewrite <- app_assoc, N.add_0_r; reflexivity|]. split; [lia|].
        intros rest. apply (Z (mkRun (value r) 0)); reflexivity.
Qed.

(** ** Programs *)
Lemma reads_is q : forall r s, reads mask size r q s = rd r (read_modes q) s.
Proof.
  induction q as [|o q IH]; intros r s; [reflexivity|]. cbn [reads]. unfold read_modes in *. cbn [flat_map]. rewrite rd_app.
  replace (match o with Read n => read mask size r n s | ReadContinue n => read_continue r n s end) with (rd r (match o with Read n => repeat false n | ReadContinue n => repeat true n end) s) by (destruct o; [now rewrite read_is|now rewrite read_continue_is]).
  match goal with |- context [rd r ?ms s] => destruct (rd r ms s) as [[[ra d] s1]|]; [|reflexivity] end. rewrite IH. reflexivity.
Qed.

Lemma fst_pairs {A B} (a : A) (l : list B) : map fst (map (pair a) l) = repeat a (length l).
Proof. induction l as [|b l IH]; cbn [map repeat length fst]; [reflexivity|now rewrite IH]. Qed.

Lemma snd_pairs {A B} (a : A) (l : list B) : map snd (map (pair a) l) = l.
Proof. induction l as [|b l IH]; cbn [map snd]; [reflexivity|now rewrite IH]. Qed.

Lemma one_write (r : run) (o : wop) (d : list N) (m : bool) : o = (if m then WriteContinue d else Write d) -> count r < max -> no_spills mask size r [o] ->
  writes mask size r [o] = Some (w r (map (pair m) d)).
Proof.
  intros -> Hr [NS _]. cbn [writes]. destruct m.
  - unfold write_continue. destruct (N.eqb_spec (count r) 0) as [E|E]; cbn [negb]; [rewrite raw_is by exact E; now rewrite app_nil_r|]. rewrite max_is, continue_is by auto. destruct (w r (map (pair true) d)). now rewrite app_nil_r.
  - unfold write. rewrite max_is. rewrite write_is. destruct (w r (map (pair false) d)). now rewrite app_nil_r.
Qed.

Lemma writes_cons (r : run) (o : wop) p : writes mask size r (o :: p) = let? (r, x) := writes mask size r [o] in let? (r, y) := writes mask size r p in Some (r, x ++ y).
Proof.
  cbn [writes]. match goal with |- (match ?x with Some _ => _ | None => _ end) = _ => destruct x as [[ra oa]|]; [|reflexivity] end. now rewrite app_nil_r.
Qed.

Lemma program p : forall ra l, count ra = 0 -> no_spills mask size (fst (w ra l)) p ->
  exists (r' : run) (o : list N), writes mask size (fst (w ra l)) (p ++ [WriteFlush]) = Some (r', o) /\
  forall r0 rest, count r0 = 0 -> exists r1, rd r0 (map fst l ++ write_modes p) (snd (w ra l) ++ o ++ rest) = Some (r1, map snd l ++ written p, rest) /\ count r1 = 0.
Proof.
  pose proof max_big as MB. induction p as [|o p IH]; intros ra l Ha NS.
  - cbn [app writes]. pose proof (proj1 (back l ra ltac:(lia)) Ha) as B. unfold flushed in B. destruct (write_flush size (fst (w ra l))) as [rf of] eqn:F. eexists _, _. split; [reflexivity|]. intros r0 rest H0.
    cbn [snd] in B. rewrite app_nil_r. unfold write_modes, written. cbn [flat_map]. rewrite !app_nil_r, app_assoc. now apply B.
  - assert (G : forall (m : bool) (d : list N), o = (if m then WriteContinue d else Write d) -> data_of o = d ->
      exists r' o0, writes mask size (fst (w ra l)) ((o :: p) ++ [WriteFlush]) = Some (r', o0) /\
      forall r0 rest, count r0 = 0 -> exists r1, rd r0 (map fst l ++ write_modes (o :: p)) (snd (w ra l) ++ o0 ++ rest) = Some (r1, map snd l ++ written (o :: p), rest) /\ count r1 = 0).
    { intros m d Ho Hd. assert (NS1 : no_spills mask size (fst (w ra l)) [o]) by (destruct NS as [A _]; split; [exact A|]; destruct (writes mask size (fst (w ra l)) [o]) as [[? ?]|]; exact I).
      pose proof (one_write (fst (w ra l)) o d m Ho (w_small l ra ltac:(lia)) NS1) as W1. cbn [app]. rewrite writes_cons, W1.
      destruct NS as [_ NS]. rewrite W1 in NS. specialize (IH ra (l ++ map (pair m) d) Ha). rewrite w_app in IH. destruct (w ra l) as [rb ob]. cbn [fst snd] in *. destruct (w rb (map (pair m) d)) as [rc oc]. cbn [fst snd] in *.
      destruct (IH NS) as (r' & o' & -> & Q). exists r', (oc ++ o'). split; [reflexivity|]. intros r0 rest H0. destruct (Q r0 rest H0) as (r2 & E & C). exists r2. split; [|exact C].
      rewrite !map_app, fst_pairs, snd_pairs, <- !app_assoc in E. unfold write_modes, written. cbn [flat_map]. rewrite Hd, <- !app_assoc. destruct m; rewrite Ho; exact E. }
    destruct o as [d|d|].
    + now apply (G false d).
    + now apply (G true d).
    + destruct NS as [_ NS]. cbn [app]. rewrite writes_cons. cbn [writes] in *. pose proof (proj1 (back l ra ltac:(lia)) Ha) as B. unfold flushed in B.
      assert (F0 : count (fst (write_flush size (fst (w ra l)))) = 0) by (unfold write_flush; destruct (N.eqb_spec (count (fst (w ra l))) 0); [assumption|reflexivity]).
      destruct (write_flush size (fst (w ra l))) as [rf of]. cbn [fst snd] in *. destruct (IH rf [] F0 NS) as (r' & o' & W2 & Q). cbn [fst snd map app w] in W2, Q. rewrite W2. exists r', ((of ++ []) ++ o'). split; [reflexivity|].
      intros r0 rest H0. destruct (B r0 (o' ++ rest) H0) as (r1 & E1 & C1). destruct (Q r1 rest C1) as (r2 & E2 & C2). exists r2. split; [|exact C2]. rewrite rd_app, app_nil_r, <- !app_assoc in *. rewrite E1.
      change (write_modes (WriteFlush :: p)) with (write_modes p). change (written (WriteFlush :: p)) with (written p). rewrite E2. reflexivity.
Qed.

Lemma round_trip p q : no_spills mask size start p -> read_modes q = write_modes p ->
  exists r' o, writes mask size start (p ++ [WriteFlush]) = Some (r', o) /\ forall rest, exists r1, reads mask size start q (o ++ rest) = Some (r1, written p, rest) /\ count r1 = 0.
Proof.
  intros NS M. destruct (program p start [] eq_refl NS) as (r' & o & W & Q). exists r', o. split; [exact W|]. intros rest. rewrite reads_is, M. exact (Q start rest eq_refl).
Qed.

End RLE.

(** ** What is stored *)
Section Stored.
Variables (mask : N -> bool) (size : nat).
Hypothesis size_ok : (1 <= size < 8)%nat.
Let max := 2 ^ (8 * N.of_nat size).

Lemma count_run b n : forall c, c <> 0 -> c + N.of_nat n < max -> write_loop mask size max (mkRun b c) (repeat b n) = (mkRun b (c + N.of_nat n), []).
Proof.
  induction n as [|n IH]; intros c Hc H; cbn [repeat write_loop]; [now rewrite N.add_0_r|]. cbn [count value]. replace (c =? 0) with false by lia. replace (b =? b) with true by lia. cbn [negb].
  replace (c + 1 =? max) with false by lia. rewrite IH by lia. replace (c + N.of_nat (S n)) with (c + 1 + N.of_nat n) by lia. reflexivity.
Qed.

Lemma write_loop_app d1 : forall r d2, write_loop mask size max r (d1 ++ d2) = let (r, o) := write_loop mask size max r d1 in let (r, o') := write_loop mask size max r d2 in (r, o ++ o').
Proof. intros r d2. unfold max. rewrite !(write_is mask size), map_app, w_app. destruct (w mask size r (map (pair false) d1)) as [ra oa]. now rewrite (write_is mask size). Qed.

Lemma stored_run b n : mask b = true -> 1 <= N.of_nat n <= max ->
  exists r, writes mask size start [Write (repeat b n); WriteFlush] = Some (r, b :: to_bytes size (N.of_nat n - 1)).
Proof.
  intros Mb H. assert (MB : 256 <= max) by (unfold max; change 256 with (2 ^ 8); apply N.pow_le_mono_r; lia). cbn [writes]. unfold write. rewrite (max_is mask size size_ok). fold max. destruct n as [|n]; [lia|]. cbn [repeat]. change (b :: repeat b n) with ([b] ++ repeat b n). rewrite write_loop_app.
  cbn [write_loop]. unfold start, write_byte. cbn [count N.eqb negb]. rewrite Mb. cbn [N.add app]. destruct (N.eq_dec (N.of_nat (S n)) max) as [E|E].
  - destruct n as [|n]; [lia|]. replace (repeat b (S n)) with (repeat b n ++ [b]) by (symmetry; apply repeat_cons). rewrite write_loop_app, count_run by lia. cbn [write_loop count value app]. replace (1 + N.of_nat n =? 0) with false by lia.
    replace (b =? b) with true by lia. cbn [negb]. replace (1 + N.of_nat n + 1 =? max) with true by lia. unfold write_flush at 1. cbn [count value]. replace (1 + N.of_nat n + 1 =? 0) with false by lia. unfold write_flush. cbn [count N.eqb]. eexists.
    rewrite !app_nil_r. do 3 f_equal. f_equal. lia.
  - rewrite count_run by lia. cbn [app]. unfold write_flush. cbn [count value]. replace (1 + N.of_nat n =? 0) with false by lia. eexists. rewrite app_nil_r. do 3 f_equal. f_equal. lia.
Qed.

Lemma stored_plain d : (forall b, In b d -> mask b = false) -> writes mask size start [Write d; WriteFlush] = Some (start, d).
Proof.
  intros H. cbn [writes]. unfold write. rewrite (max_is mask size size_ok). fold max.
  assert (L : write_loop mask size max start d = (start, d)).
  { induction d as [|b d IH]; [reflexivity|]. cbn [write_loop]. unfold start at 1, write_byte. cbn [count N.eqb negb]. rewrite (H b) by now left. change (mkRun 0 0) with start. rewrite IH by (intros x Hx; apply H; now right). reflexivity. }
  rewrite L. cbn [write_flush start count N.eqb]. now rewrite !app_nil_r.
Qed.

End Stored.

Lemma only_writes mask size p : (forall d, ~ In (WriteContinue d) p) -> forall r, no_spills mask size r p.
Proof.
  induction p as [|o p IH]; intros H r; cbn [no_spills]; [exact I|]. assert (Hp : forall d, ~ In (WriteContinue d) p) by (intros d Hd; apply (H d); now right). split; [|destruct (writes mask size r [o]) as [[ra oa]|]; auto].
  destruct o as [d|d|]; try exact I. exfalso. apply (H d). now left.
Qed.
