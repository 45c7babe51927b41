(** Proofs about log messages. *)
From Coq Require Import Ascii List NArith Lia Bool PeanoNat.
From Verif Require Import Base FormatModel FormatSpec FormatProofs LogModel LogSpec.
Import ListNotations.
Open Scope char_scope.
Open Scope N_scope.

(** ** The buffer *)

Lemma grow_ok n b : sound b -> exists b', grow true n b = (true, b') /\ sound b' /\ text b' = text b /\ len b + n <= size b'.
Proof.
  intros [L R]. unfold grow, left. rewrite (proj2 (N.leb_le _ _) L).
  destruct (N.ltb_spec (size b - len b) n) as [K|K].
  - eexists. split; [reflexivity|]. cbn [size text room]. unfold sound, len in *. cbn [size text room].
    unfold batches. pose proof (N.div_mod n 64 ltac:(discriminate)) as D. pose proof (N.mod_lt n 64 ltac:(discriminate)).
    set (q := n / 64) in *. clearbody q. repeat split; lia.
  - exists b. repeat split; try assumption. lia.
Qed.

Lemma put_ok s z b : len b + N.of_nat (length s) + z <= room b ->
  put s z b = Some (mkbuf (size b) (room b) (text b ++ s)).
Proof. intros H. unfold put. rewrite (proj2 (N.leb_le _ _) H). reflexivity. Qed.

Lemma sound_put s b : sound b -> len b + N.of_nat (length s) <= size b ->
  sound (mkbuf (size b) (room b) (text b ++ s)).
Proof. intros [L R] H. unfold sound, len in *. cbn [size room text]. rewrite app_length. split; [lia|exact R]. Qed.

Lemma write_sound s b : sound b -> exists b', buffer_write true s b = Some b' /\ sound b' /\ text b' = text b ++ s.
Proof.
  intros H. unfold buffer_write. destruct (grow_ok (N.of_nat (length s)) b H) as (b' & -> & S' & T & L).
  assert (len b' = len b) as E by (unfold len; rewrite T; reflexivity).
  rewrite put_ok by (destruct S'; lia). eexists. split; [reflexivity|]. split.
  - apply sound_put; [exact S'|lia].
  - cbn [text]. rewrite T. reflexivity.
Qed.
Lemma remove_sound n b : sound b ->
  exists b', buffer_remove n b = Some b' /\ sound b' /\ text b' = firstn (length (text b) - N.to_nat n) (text b).
Proof.
  intros [L R]. unfold buffer_remove.
  set (k := if len b <? n then len b else n).
  assert (length (text b) - N.to_nat k = length (text b) - N.to_nat n)%nat as ->.
  { unfold k, len in *. destruct (N.ltb_spec (N.of_nat (length (text b))) n); lia. }
  set (t := firstn (length (text b) - N.to_nat n) (text b)).
  assert (length t <= length (text b))%nat as Lt by (unfold t; rewrite firstn_length; lia).
  assert (N.of_nat (length t) <? room b = true) as -> by (apply N.ltb_lt; unfold len in L; lia).
  eexists. split; [reflexivity|]. split; [|reflexivity]. unfold sound, len in *. cbn [text size room]. lia.
Qed.

Lemma run_acts_ok l : forall b, sound b -> exists b', run_acts l b = Some b' /\ sound b' /\ text b' = apply l (text b).
Proof.
  induction l as [|x l IH]; intros b H; [exists b; repeat split; apply H|].
  cbn [run_acts apply fold_left]. change (fold_left apply_act l ?y) with (apply l y). destruct x as [s|n]; cbn [apply_act].
  - destruct (write_sound s b H) as (b1 & -> & H1 & <-). apply IH. exact H1.
  - destruct (remove_sound n b H) as (b1 & -> & H1 & <-). apply IH. exact H1.
Qed.

Lemma copy_ok s b : sound b -> exists b', copy s b = Some b' /\ sound b' /\ text b' = text b ++ s.
Proof.
  intros H. unfold copy. destruct s as [|c s]; [exists b; rewrite app_nil_r; repeat split; apply H|].
  destruct (grow_ok (N.of_nat (length (c :: s))) b H) as (b' & -> & S' & T & L).
  assert (len b' = len b) as E by (unfold len; rewrite T; reflexivity).
  rewrite put_ok by (destruct S'; lia). eexists. split; [reflexivity|]. split.
  - apply sound_put; [exact S'|lia].
  - cbn [text]. rewrite T. reflexivity.
Qed.

Lemma run_messages_ok ms : forall b, sound b ->
  exists b', run_messages ms b = Some b' /\ sound b' /\ text b' = filtered ms (text b).
Proof.
  induction ms as [|f ms IH]; intros b H; [exists b; repeat split; apply H|].
  cbn [run_messages filtered fold_left]. destruct (run_acts_ok (f (text b)) b H) as (b1 & -> & H1 & <-).
  apply IH. exact H1.
Qed.

(** ** The heading *)

Lemma digit_char k : k < 10 -> a_digit (ascii_of_N (48 + k)) /\ N_of_ascii (ascii_of_N (48 + k)) - 48 = k.
Proof.
  intros H. assert (k = 0 \/ k = 1 \/ k = 2 \/ k = 3 \/ k = 4 \/ k = 5 \/ k = 6 \/ k = 7 \/ k = 8 \/ k = 9) as C by lia.
  repeat (destruct C as [->|C]; [split; [vm_compute; tauto|reflexivity]|]). subst k. split; [vm_compute; tauto|reflexivity].
Qed.
Lemma decimal_from_app a b : forall v, decimal_from v (a ++ b) = decimal_from (decimal_from v a) b.
Proof. induction a as [|c a IH]; intros v; [reflexivity|]. cbn. apply IH. Qed.

Lemma decimal_text_length f : forall n, (length (decimal_text f n) <= f)%nat.
Proof.
  induction f as [|f IH]; intros n; [cbn; lia|]. cbn [decimal_text]. rewrite app_length. cbn [length].
  destruct (n <? 10); [cbn; lia|]. specialize (IH (n / 10)). lia.
Qed.
Lemma decimal_text_ok f : forall n, n < 10 ^ N.of_nat (S f) -> number n (decimal_text (S f) n).
Proof.
  induction f as [|f IH]; intros n H.
  - change (10 ^ N.of_nat 1) with 10 in H. cbn [decimal_text]. rewrite (proj2 (N.ltb_lt n 10) H). cbn [app].
    rewrite N.mod_small by exact H. destruct (digit_char n H) as [D V].
    split; [(constructor; [exact D|constructor])|]. split; [unfold decimal; cbn [decimal_from]; rewrite V; lia|].
    destruct (ascii_dec (ascii_of_N (48 + n)) "0") as [E|E]; [left; rewrite E; reflexivity|right].
    do 2 eexists. split; [reflexivity|exact E].
  - remember (S f) as g eqn:Eg. cbn [decimal_text].
    assert (n mod 10 < 10) as M by (apply N.mod_lt; discriminate).
    destruct (digit_char (n mod 10) M) as [D V].
    destruct (N.ltb_spec n 10) as [L|L].
    + cbn [app]. rewrite N.mod_small in * by exact L.
      split; [(constructor; [exact D|constructor])|]. split; [unfold decimal; cbn [decimal_from]; rewrite V; lia|].
      destruct (ascii_dec (ascii_of_N (48 + n)) "0") as [E|E]; [left; rewrite E; reflexivity|right].
      do 2 eexists. split; [reflexivity|exact E].
    + assert (n / 10 < 10 ^ N.of_nat g) as B.
      { apply N.div_lt_upper_bound; [discriminate|]. rewrite Nat2N.inj_succ, N.pow_succ_r' in H. exact H. }
      destruct (IH (n / 10) B) as (F1 & F2 & F3).
      split; [apply Forall_app; split; [exact F1|(constructor; [exact D|constructor])]|]. split.
      * unfold decimal in *. rewrite decimal_from_app, F2. cbn [decimal_from]. rewrite V.
        pose proof (N.div_mod n 10 ltac:(discriminate)). lia.
      * right. destruct F3 as [E|(c & r & E & Hc)].
        -- exfalso. rewrite E in F2. change (decimal ["0"]) with 0 in F2.
           assert (1 <= n / 10) as K by (apply N.div_le_lower_bound; [discriminate|lia]). rewrite <- F2 in K. lia.
        -- rewrite E. exists c. eexists. split; [reflexivity|exact Hc].
Qed.

Lemma line_length line : (length (line_text line) <= 11)%nat.
Proof.
  unfold line_text. destruct (line <? 2 ^ 31).
  - pose proof (decimal_text_length 10 line). lia.
  - cbn [length]. pose proof (decimal_text_length 10 (2 ^ 32 - line)). lia.
Qed.

Lemma heading_fits tag file func line : N.of_nat (length (heading tag file func line)) < estimate tag file func.
Proof.
  pose proof (line_length line) as L. unfold heading, estimate.
  destruct file, func; rewrite !app_length; cbn [length]; rewrite ?app_length; cbn [length]; rewrite ?app_length; cbn [length]; lia.
Qed.

Lemma heading_ok tag file func line : line < 2 ^ 31 -> headed tag file func line (heading tag file func line).
Proof.
  intros H. exists (decimal_text 10 line). split.
  - apply decimal_text_ok. assert (2 ^ 31 < 10 ^ N.of_nat 10) by (vm_compute; reflexivity). lia.
  - unfold heading, line_text. rewrite (proj2 (N.ltb_lt _ _) H).
    destruct file, func; rewrite <- ?app_assoc; reflexivity.
Qed.

Lemma start_ok tag file func line s r : estimate tag file func <= r ->
  start tag file func line s r = Some (mkbuf s r (heading tag file func line)).
Proof.
  intros H. unfold start. pose proof (heading_fits tag file func line) as F.
  rewrite (proj2 (N.ltb_lt _ _) F), (proj2 (N.leb_le _ _) H). reflexivity.
Qed.
Lemma batches_ge n : n < batches n.
Proof. unfold batches. pose proof (N.div_mod n 64 ltac:(discriminate)). pose proof (N.mod_lt n 64 ltac:(discriminate)). lia. Qed.

(** ** The format *)

Lemma find_none c s : ~ In c s -> find c s = None.
Proof.
  induction s as [|x s IH]; intros H; [reflexivity|]. cbn [find].
  rewrite eqb_ne by (intros ->; apply H; left; reflexivity). rewrite IH by (intros K; apply H; right; exact K). reflexivity.
Qed.

(** The characters in front of the next specifier *)
Fixpoint chars (l : list piece) : list ascii * list piece :=
  match l with
  | Lit c :: r => let '(s, r) := chars r in (c :: s, r)
  | _ => ([], l)
  end.
Definition at_specifier (l : list piece) : Prop :=
  match l with [] => True | Lit _ :: _ => False | _ => True end.

Lemma chars_spec l s r : chars l = (s, r) -> show_all l = s ++ show_all r /\ at_specifier r.
Proof.
  revert s r. induction l as [|p l IH]; intros s r H; cbn [chars] in H.
  - injection H as <- <-. split; [reflexivity|exact I].
  - destruct p; try (injection H as <- <-; split; [reflexivity|exact I]).
    destruct (chars l) as [s0 r0] eqn:E. injection H as <- <-.
    destruct (IH _ _ eq_refl) as [A B]. split; [|exact B]. cbn. f_equal. exact A.
Qed.

Lemma chars_rendered P fs l a m m' s r : rendered P fs l a m m' -> chars l = (s, r) ->
  rendered P fs r a (m ++ s) m' /\ ~ In "%" s.
Proof.
  intros H. revert s r. induction H; intros s r E; cbn [chars] in E.
  - injection E as <- <-. rewrite app_nil_r. split; [constructor|intros []].
  - destruct (chars l) as [s0 r0]. injection E as <- <-. destruct (IHrendered _ _ eq_refl) as [A B].
    rewrite <- app_assoc in A. split; [exact A|]. intros [K|K]; [congruence|exact (B K)].
  - injection E as <- <-. rewrite app_nil_r. split; [econstructor; eassumption|intros []].
  - injection E as <- <-. rewrite app_nil_r. split; [econstructor; eassumption|intros []].
  - injection E as <- <-. rewrite app_nil_r. split; [econstructor; eassumption|intros []].
Qed.

Lemma specifier_shows P fs l a m m' : rendered P fs l a m m' -> at_specifier l -> l <> [] ->
  exists r, show_all l = "%" :: r.
Proof.
  intros H Hs Hn. destruct H; try contradiction; try (eexists; reflexivity).
  destruct t as [|c t]; [discriminate|]. cbn in H0. injection H0 as ->. eexists. reflexivity.
Qed.

(** Splitting at the next specifier *)
Lemma split_ok P fs r a m m' q s : rendered P fs r a m m' -> at_specifier r -> ~ In "%" (skipn (length q) (q ++ s)) ->
  split_at (length q) (q ++ s ++ show_all r) =
  (q ++ s, match r with [] => None | _ => Some (show_all r) end).
Proof.
  intros H Hs Hn. rewrite skipn_app_exact in Hn. unfold split_at. rewrite skipn_app_exact.
  destruct r as [|p r].
  - cbn [show_all flat_map]. rewrite app_nil_r. rewrite find_none by exact Hn. reflexivity.
  - destruct (specifier_shows P fs _ a m m' H Hs) as (t & E); [discriminate|]. rewrite E.
    rewrite find_app by exact Hn.
    rewrite <- app_length. rewrite !app_assoc. rewrite firstn_app_exact, skipn_app_exact. reflexivity.
Qed.

Lemma declines_all fs s a b : sound b -> (forall f, In f fs -> declines f s a (text b)) ->
  run_filters fs s a b = Some (0%nat, a, b).
Proof.
  intros Hb. induction fs as [|f fs IH]; intros H; [reflexivity|].
  cbn [run_filters]. rewrite (H f (or_introl eq_refl)). cbn [run_acts].
  apply IH. intros g Hg. apply H. right. exact Hg.
Qed.
Lemma takes (fs1 : list filter) (f : filter) (fs2 : list filter) s a b n a' acts : sound b -> (forall g, In g fs1 -> declines g s a (text b)) ->
  f s a (text b) = Some (S n, a', acts) ->
  exists b', run_filters (fs1 ++ f :: fs2) s a b = Some (S n, a', b') /\ sound b' /\ text b' = apply acts (text b).
Proof.
  intros Hb. induction fs1 as [|g fs1 IH]; intros H E; cbn [app run_filters].
  - rewrite E. destruct (run_acts_ok acts b Hb) as (b' & -> & S' & T). exists b'. repeat split; try assumption; apply S'.
  - rewrite (H g (or_introl eq_refl)). cbn [run_acts]. apply IH; [|exact E]. intros h Hh. apply H. right. exact Hh.
Qed.

Lemma print_chars P s a : ~ In "%" s -> print P s a = Some s.
Proof.
  induction s as [|c s IH]; intros H; [reflexivity|].
  rewrite print_char by (intros ->; apply H; left; reflexivity).
  rewrite IH by (intros K; apply H; right; exact K). reflexivity.
Qed.

Lemma of_type_take t v a : of_type t v -> take_value t (v :: a) = Some (v, a).
Proof. destruct t, v; cbn; try contradiction; reflexivity. Qed.
Lemma star_args_take w l a : star_args w l -> take_star w (l ++ a) = Some (l, a).
Proof. intros []; reflexivity. Qed.

Lemma print_std P d v s a : wf d -> arguments d v ->
  print P (show d ++ s) (v ++ a) = match print P s a with Some o => Some (P d v ++ o) | None => None end.
Proof.
  intros W (t & w & p & x & Ht & Hw & Hp & Hx & ->). rewrite print_show by exact W. rewrite Ht.
  rewrite <- !app_assoc. rewrite (star_args_take _ _ _ Hw), (star_args_take _ _ _ Hp).
  cbn [app]. rewrite of_type_take by exact Hx. reflexivity.
Qed.

Lemma skip_value d t v a : wf d -> type_of d = Some t -> of_type t v ->
  skip_arg (d_conv d) (packed (d_length d) 0) (v :: a) = Some a.
Proof.
  intros W Et H. pose proof (type_standard d t Et) as Hc. pose proof (wf_length d W) as Hl. clear W.
  destruct d as [fs w p l c]. cbn [d_conv d_length] in *. unfold type_of in Et. cbn [d_conv d_length] in Et.
  cbn in Hl. cbn in Hc.
  repeat (destruct Hl as [<-|Hl];
    [repeat (destruct Hc as [<-|Hc]; [vm_compute in Et; first [discriminate|injection Et as <-; destruct v; try contradiction; reflexivity]|]); destruct Hc|]).
  destruct Hl.
Qed.

Lemma no_star_args w l : w <> Star -> star_args w l -> l = [].
Proof. intros Nw H. destruct H; [reflexivity|reflexivity|exfalso; apply Nw; reflexivity]. Qed.

Lemma options_no_percent d : wf d -> ~ In "%" (options d).
Proof.
  intros W H. destruct (options_members d "%" W H) as [K|[K|[K|K]]].
  - apply flag_iff in K. discriminate.
  - apply digit_iff in K. discriminate.
  - cbn in K. repeat (destruct K as [K|K]; [discriminate|]). exact K.
  - destruct (wf_conv d W) as (_ & _ & C). apply C. rewrite <- K. cbn. tauto.
Qed.
Lemma options_two d : wf d -> exists c s, options d = c :: s /\ ~ In "%" s.
Proof.
  intros W. destruct (options_head d W) as (c & s & E & _). exists c, s. split; [exact E|].
  intros K. apply (options_no_percent d W). rewrite E. right. exact K.
Qed.

Lemma show_all_cons p l : show_all (p :: l) = show_piece p ++ show_all l.
Proof. reflexivity. Qed.

Lemma loop_ok P fs : forall fuel l a m m' b, (length (show_all l) < fuel)%nat ->
  rendered P fs l a m m' -> at_specifier l -> l <> [] -> sound b -> text b = m ->
  exists b', log_loop P fs fuel (show_all l) a b = Some b' /\ sound b' /\ text b' = m'.
Proof.
  induction fuel as [|fuel IH]; intros l a m m' b Hf H Hs Hn Hb Ht; [lia|].
  (* the rest of the run, after the specifier and the characters behind it *)
  assert (forall l a m m' b s r, rendered P fs l a m m' -> chars l = (s, r) -> sound b -> text b = m ++ s ->
    (length (show_all r) < fuel)%nat ->
    exists b', match (match r with [] => None | _ => Some (show_all r) end) with
               | Some s => log_loop P fs fuel s a b | None => Some b end = Some b' /\ sound b' /\ text b' = m') as Rest.
  { clear - IH. intros l a m m' b s r H E Hb Ht Hf.
    destruct (chars_spec l s r E) as [_ Hs]. destruct (chars_rendered P fs l a m m' s r H E) as [H' _].
    destruct r as [|p r].
    - inversion H'; subst. exists b. repeat split; try apply Hb. exact Ht.
    - apply (IH (p :: r) a (m ++ s) m' b Hf H' Hs); [discriminate|exact Hb|exact Ht]. }
  destruct H as [a m|c l a m m' Hc H|l a m m' Hd H|d v l a m m' W Ns Ha Hd H|t f fs1 fs2 acts l a a' m m' Ef Hh Hd Hf' H]; try contradiction.
  - (* "%%" *)
    cbn [log_loop]. rewrite declines_all by (try rewrite Ht; assumption).
    destruct (chars l) as [s r] eqn:E. destruct (chars_spec l s r E) as [El Hr].
    destruct (chars_rendered P fs l a _ m' s r H E) as [H' Hp].
    rewrite show_all_cons, El. cbn [show_piece].
    assert (Nat.ltb (length (["%"; "%"] ++ s ++ show_all r)) 2 = false) as -> by (apply Nat.ltb_ge; cbn; lia).
    pose proof (split_ok P fs r a _ m' ["%"; "%"] s H' Hr) as Sp. rewrite skipn_app_exact in Sp. specialize (Sp Hp).
    change (length ["%"; "%"]) with 2%nat in Sp. rewrite Sp.
    change (["%"; "%"] ++ s) with ("%" :: "%" :: s). rewrite print_percent, print_chars by exact Hp.
    destruct (grow_ok (N.of_nat (length ("%" :: s))) b Hb) as (b1 & -> & S1 & T1 & L1).
    assert (len b1 = len b) as Eb by (unfold len; rewrite T1; reflexivity).
    rewrite put_ok by (destruct S1; lia).
    rewrite percent_info. cbn [nth]. change (skip_arg "%" (length_mod no_info) a) with (Some a). cbv iota.
    refine (Rest l a (m ++ ["%"]) m' _ s r H E _ _ _).
    + apply sound_put; [exact S1|lia].
    + cbn [text]. rewrite T1, Ht, <- app_assoc. reflexivity.
    + rewrite show_all_cons, El in Hf. cbn [show_piece] in Hf. rewrite !app_length in Hf. cbn [length] in Hf. lia.
  - (* a directive *)
    destruct Ns as [N1 N2]. pose proof Ha as (ty & w & p & x & Hty & Hw & Hpr & Hx & Ev).
    rewrite (no_star_args _ _ N1 Hw), (no_star_args _ _ N2 Hpr) in Ev. cbn [app] in Ev.
    cbn [log_loop]. rewrite declines_all by (try rewrite Ht; assumption).
    destruct (chars l) as [s r] eqn:E. destruct (chars_spec l s r E) as [El Hr].
    destruct (chars_rendered P fs l a _ m' s r H E) as [H' Hp].
    rewrite show_all_cons, El. cbn [show_piece].
    destruct (options_two d W) as (c & o & Eo & Ho).
    assert (Nat.ltb (length (show d ++ s ++ show_all r)) 2 = false) as ->
      by (apply Nat.ltb_ge; unfold show; rewrite Eo; cbn; lia).
    pose proof (split_ok P fs r a _ m' ["%"; c] (o ++ s) H' Hr) as Sp. rewrite skipn_app_exact in Sp.
    assert (~ In "%" (o ++ s)) as Hos by (rewrite in_app_iff; tauto). specialize (Sp Hos).
    assert (["%"; c] ++ (o ++ s) ++ show_all r = show d ++ s ++ show_all r) as E1
      by (unfold show; rewrite Eo; cbn [app]; rewrite <- app_assoc; reflexivity).
    assert (["%"; c] ++ o ++ s = show d ++ s) as E2 by (unfold show; rewrite Eo; reflexivity).
    rewrite E1, E2 in Sp. change (length ["%"; c]) with 2%nat in Sp. rewrite Sp.
    rewrite print_std by assumption. rewrite print_chars by exact Hp.
    destruct (grow_ok (N.of_nat (length (P d v ++ s))) b Hb) as (b1 & -> & S1 & T1 & L1).
    assert (len b1 = len b) as Eb by (unfold len; rewrite T1; reflexivity).
    rewrite put_ok by (destruct S1; lia).
    rewrite get_info_percent, show_last by exact W.
    change (length_mod (the_info d)) with (packed (d_length d) 0).
    rewrite Ev. cbn [app]. rewrite (skip_value d ty x a W Hty Hx).
    refine (Rest l a (m ++ P d v) m' _ s r H E _ _ _).
    + rewrite <- Ev. apply sound_put; [exact S1|lia].
    + cbn [text]. rewrite T1, Ht, <- app_assoc, Ev. reflexivity.
    + rewrite show_all_cons, El in Hf. cbn [show_piece] in Hf. rewrite !app_length in Hf. unfold show in Hf. cbn [length] in Hf. lia.
  - (* a filter's specifier *)
    destruct t as [|ct t]; [discriminate|]. cbn [hd_error] in Hh. injection Hh as ->.
    cbn [log_loop]. subst fs m. cbn [length] in Hf'.
    destruct (takes fs1 f fs2 _ a b (length t) a' acts Hb Hd Hf') as (b1 & -> & S1 & T1). cbv iota.
    destruct (chars l) as [s r] eqn:E. destruct (chars_spec l s r E) as [El Hr].
    destruct (chars_rendered P _ l a' _ m' s r H E) as [H' Hp].
    rewrite show_all_cons, El. cbn [show_piece].
    assert (Nat.ltb (length (("%" :: t) ++ s ++ show_all r)) (S (length t)) = false) as ->
      by (apply Nat.ltb_ge; rewrite app_length; cbn; lia).
    change (S (length t)) with (length ("%" :: t)). rewrite skipn_app_exact.
    pose proof (split_ok P _ r a' _ m' [] s H' Hr) as Sp. cbn [app length skipn] in Sp. specialize (Sp Hp). rewrite Sp.
    destruct (copy_ok s b1 S1) as (b2 & -> & S2 & T2).
    refine (Rest l a' (apply acts (text b)) m' b2 s r H E S2 _ _).
    + rewrite T2, T1. reflexivity.
    + rewrite show_all_cons, El in Hf. cbn [show_piece] in Hf. rewrite !app_length in Hf. cbn [length] in Hf. lia.
Qed.

Lemma log_ok P fs ms tag file func line l a body : fs <> [] ->
  rendered P fs l a (heading tag file func line) body ->
  log P fs ms tag file func line (show_all l) a = Some (filtered ms body).
Proof.
  intros Hfs H. unfold log. destruct fs as [|f0 fs0]; [contradiction|].
  remember (f0 :: fs0) as fs eqn:Efs. clear Efs Hfs.
  set (s0 := batches (estimate tag file func)).
  pose proof (batches_ge (estimate tag file func)) as Ge. fold s0 in Ge.
  rewrite start_ok by lia.
  set (b0 := mkbuf s0 (s0 + 1) (heading tag file func line)).
  assert (sound b0) as H0.
  { split; [|reflexivity]. unfold len, b0. cbn [text size]. pose proof (heading_fits tag file func line). lia. }
  destruct (chars l) as [s r] eqn:E. destruct (chars_spec l s r E) as [El Hr].
  destruct (chars_rendered P _ l a _ body s r H E) as [H' Hp].
  pose proof (split_ok P _ r a _ body [] s H' Hr) as Sp. cbn [app length skipn] in Sp. specialize (Sp Hp).
  rewrite El at 1. rewrite Sp.
  destruct (copy_ok s b0 H0) as (b1 & -> & S1 & T1).
  assert (exists b2, match (match r with [] => None | _ => Some (show_all r) end) with
      | Some s1 => log_loop P fs (S (length (show_all l))) s1 a b1 | None => Some b1 end = Some b2 /\ sound b2 /\ text b2 = body)
    as (b2 & E2 & S2 & T2).
  { destruct r as [|p r].
    - inversion H'; subst. exists b1. repeat split; try apply S1. exact T1.
    - apply (loop_ok P fs _ (p :: r) a (heading tag file func line ++ s) body b1); try assumption; [|discriminate].
      rewrite El, app_length. lia. }
  rewrite El in E2 |- *.
  rewrite E2.
  rewrite put_ok by (destruct S2; cbn; lia). rewrite app_nil_r. destruct (run_messages_ok ms (mkbuf (size b2) (room b2) (text b2))) as (b3 & -> & _ & T3); [exact S2|].
  rewrite T3. cbn [text]. rewrite T2. reflexivity.
Qed.

Lemma printed_print P l a o : printed P l a o -> print P (show_all l) a = Some o.
Proof.
  intros H. induction H.
  - reflexivity.
  - change (show_all (Lit c :: l)) with (c :: show_all l). rewrite print_char, IHprinted by assumption. reflexivity.
  - change (show_all (Percent :: l)) with ("%" :: "%" :: show_all l). rewrite print_percent, IHprinted. reflexivity.
  - rewrite show_all_cons. cbn [show_piece]. rewrite print_std, IHprinted by assumption. reflexivity.
Qed.

Lemma plain_log P tag file func line l a o : printed P l a o ->
  log P [] [] tag file func line (show_all l) a = Some (heading tag file func line ++ o).
Proof.
  intros H. unfold log. rewrite (printed_print P l a o H). rewrite start_ok by lia.
  pose proof (heading_fits tag file func line).
  rewrite put_ok by (unfold len; cbn [text room]; lia). reflexivity.
Qed.

Lemma printed_rendered P fs l a o : (forall f, In f fs -> quiet f) -> starless l -> printed P l a o ->
  forall m, rendered P fs l a m (m ++ o).
Proof.
  intros Q Ns H. induction H; intros m.
  - rewrite app_nil_r. constructor.
  - constructor; [assumption|]. replace (m ++ c :: o) with ((m ++ [c]) ++ o) by (rewrite <- app_assoc; reflexivity).
    apply IHprinted. intros d Hd. apply Ns. right. exact Hd.
  - constructor.
    + intros f Hf. apply (Q f Hf).
    + replace (m ++ "%" :: o) with ((m ++ ["%"]) ++ o) by (rewrite <- app_assoc; reflexivity).
      apply IHprinted. intros d Hd. apply Ns. right. exact Hd.
  - assert (no_star d) as Nd by (apply Ns; left; reflexivity).
    apply r_std; try assumption.
    + intros f Hf. destruct H0 as (t & w & p & x & Ht & _). rewrite show_all_cons. cbn [show_piece].
      apply (Q f Hf) with (t := t); [assumption|exact Ht|apply Nd].
    + replace (m ++ P d v ++ o) with ((m ++ P d v) ++ o) by (rewrite <- app_assoc; reflexivity).
      apply IHprinted. intros d' Hd. apply Ns. right. exact Hd.
Qed.

Lemma builtin_quiet P f : In f [binary; deletion; array P; string_filter] -> quiet f.
Proof.
  intros H rest a m. split.
  - destruct H as [<-|[<-|[<-|[<-|[]]]]]; reflexivity.
  - intros d t W Ht Hw. pose proof (type_standard d t Ht) as Hc.
    assert (d_conv d <> "B" /\ d_conv d <> "D" /\ d_conv d <> "S") as (NB & ND & NS).
    { repeat split; intros E; rewrite E in Hc; cbn in Hc; repeat (destruct Hc as [Hc|Hc]; [discriminate|]); exact Hc. }
    destruct H as [<-|[<-|[<-|[<-|[]]]]].
    + exact (binary_declines d rest a m W NB).
    + exact (deletion_declines d rest a m W Hw ND).
    + exact (array_declines P d rest a m W).
    + exact (string_declines d rest a m W NS).
Qed.

Lemma transparent P fs tag file func line l a o :
  (forall f, In f fs -> quiet f) -> starless l -> printed P l a o ->
  log P fs [] tag file func line (show_all l) a = log P [] [] tag file func line (show_all l) a.
Proof.
  intros Q Ns H. rewrite (plain_log P tag file func line l a o H).
  destruct fs as [|f fs]; [apply plain_log; exact H|].
  rewrite (log_ok P (f :: fs) [] tag file func line l a (heading tag file func line ++ o)); [reflexivity|discriminate|].
  apply printed_rendered; assumption.
Qed.

(** ** Message filters without specifier filters *)

Lemma overflow P tag file func line l a o s ms : printed P l a o ->
  (16 <= length s)%nat -> N.of_nat (length s) < 2 ^ 63 -> N.of_nat (length (heading tag file func line ++ o)) < 2 ^ 63 ->
  log P [] ((fun _ => [Write s]) :: ms) tag file func line (show_all l) a = None.
Proof.
  intros H Hs B1 B2. unfold log. rewrite (printed_print P l a o H). rewrite start_ok by lia.
  pose proof (heading_fits tag file func line) as F.
  rewrite put_ok by (unfold len; cbn [text room]; lia). cbn [run_messages run_acts text size room].
  unfold buffer_write, grow, left, len. cbn [text size room].
  set (h := heading tag file func line) in *.
  assert (1 <= N.of_nat (length (h ++ o))) as L1.
  { rewrite app_length. unfold h, heading. destruct file, func; rewrite ?app_length; cbn [length]; lia. }
  assert (estimate tag file func <= N.of_nat (length h) + 12) as L2.
  { unfold h, heading, estimate. clear. destruct file, func; rewrite ?app_length; cbn [length]; rewrite ?app_length; cbn [length]; rewrite ?app_length; cbn [length];
      try lia.
    all: assert (1 <= length (line_text line))%nat by (unfold line_text; destruct (line <? 2 ^ 31); cbn [decimal_text length]; rewrite ?app_length; cbn [length]; lia); lia. }
  change (2 ^ 63) with 9223372036854775808 in *. change (2 ^ 64) with 18446744073709551616.
  destruct (N.leb_spec (N.of_nat (length (h ++ o))) 0) as [K|K]; [lia|].
  destruct (N.ltb_spec (18446744073709551616 + 0 - N.of_nat (length (h ++ o))) (N.of_nat (length s))) as [K2|K2]; [lia|].
  unfold put, len. cbn [text room size].
  destruct (N.leb_spec (N.of_nat (length (h ++ o)) + N.of_nat (length s) + 1) (estimate tag file func + N.of_nat (length o))) as [K3|K3]; [|reflexivity].
  rewrite app_length in K3. lia.
Qed.

(** ** A failed allocation *)

Lemma failed_write s b : sound b -> size b - len b < N.of_nat (length s) ->
  exists b', buffer_write false s b = Some b' /\ text b' = text b /\ buffer_write true s b' = None.
Proof.
  intros [L R] H. unfold buffer_write, grow, left. rewrite (proj2 (N.leb_le _ _) L), (proj2 (N.ltb_lt _ _) H).
  eexists. split; [reflexivity|]. split; [reflexivity|]. unfold len in *. cbn [text size room].
  pose proof (batches_ge (N.of_nat (length s))) as G.
  rewrite (proj2 (N.leb_le _ _)) by lia.
  destruct (N.ltb_spec (size b + batches (N.of_nat (length s)) - N.of_nat (length (text b))) (N.of_nat (length s))) as [K|K]; [lia|].
  unfold put, len. cbn [text size room].
  destruct (N.leb_spec (N.of_nat (length (text b)) + N.of_nat (length s) + 1) (room b)) as [K2|K2]; [lia|reflexivity].
Qed.

(** ** Large line numbers *)

Lemma large_line P fs tag f func line : 2 ^ 31 <= line -> line < 2 ^ 32 ->
  exists ds, number (2 ^ 32 - line) ds /\
    log P fs [] tag (Some f) func line [] [] = Some (tag ++ [":"; "["] ++ f ++ [":"; "-"] ++ ds ++ ["]"; ":"] ++
      match func with Some g => g ++ [":"; " "] | None => [" "] end).
Proof.
  intros L1 L2. exists (decimal_text 10 (2 ^ 32 - line)). split.
  - apply decimal_text_ok. assert (2 ^ 32 < 10 ^ N.of_nat 10) by (vm_compute; reflexivity). lia.
  - assert (log P fs [] tag (Some f) func line [] [] = Some (heading tag (Some f) func line)) as ->.
    { destruct fs as [|x fs].
      - etransitivity; [apply (plain_log P tag (Some f) func line [] [] []); constructor|]. rewrite app_nil_r. reflexivity.
      - apply (log_ok P (x :: fs) [] tag (Some f) func line [] [] _); [discriminate|constructor]. }
    unfold heading, line_text. rewrite (proj2 (N.ltb_ge _ _) L1). destruct func; rewrite <- ?app_assoc; reflexivity.
Qed.

(** ** Widths from the arguments *)

Lemma d_star_wf : wf d_star.
Proof.
  constructor; cbn; try tauto; [constructor|].
  repeat split; intros H; repeat (destruct H as [H|H]; [discriminate|]); exact H.
Qed.
Lemma d_int_wf : wf d_int.
Proof.
  constructor; cbn; try tauto; [constructor|].
  repeat split; intros H; repeat (destruct H as [H|H]; [discriminate|]); exact H.
Qed.

Lemma loop_step P fs fuel s a b part next o n i a' : sound b ->
  (forall f, In f fs -> declines f s a (text b)) -> (2 <= length s)%nat -> split_at 2 s = (part, next) ->
  print P part a = Some o -> get_info part = (n, i) -> skip_arg (nth n part zero) (length_mod i) a = Some a' ->
  exists b', log_loop P fs (S fuel) s a b = match next with Some s => log_loop P fs fuel s a' b' | None => Some b' end /\
    sound b' /\ text b' = text b ++ o.
Proof.
  intros H D L Sp Pr Gi Sk. cbn [log_loop]. rewrite declines_all by assumption.
  rewrite (proj2 (Nat.ltb_ge _ _) L), Sp, Pr.
  destruct (grow_ok (N.of_nat (length o)) b H) as (b' & -> & S' & T & Lb).
  assert (len b' = len b) as E by (unfold len; rewrite T; reflexivity).
  rewrite put_ok by (destruct S'; lia). rewrite Gi, Sk. eexists. split; [reflexivity|]. split.
  - apply sound_put; [exact S'|lia].
  - cbn [text]. rewrite T. reflexivity.
Qed.

Lemma star_shift P tag file func line :
  log P [binary] [] tag file func line (show_all [Std d_star; Lit " "; Std d_int]) [AInt 5; AInt 1; AInt 2] =
    Some (heading tag file func line ++ P d_star [AInt 5; AInt 1] ++ [" "] ++ P d_int [AInt 1]).
Proof.
  unfold log. set (s0 := batches (estimate tag file func)).
  pose proof (batches_ge (estimate tag file func)) as Ge. fold s0 in Ge.
  rewrite start_ok by lia.
  set (b0 := mkbuf s0 (s0 + 1) (heading tag file func line)).
  assert (sound b0) as H0.
  { split; [|reflexivity]. unfold len, b0. cbn [text size]. pose proof (heading_fits tag file func line). lia. }
  change (show_all [Std d_star; Lit " "; Std d_int]) with ["%"; "*"; "d"; " "; "%"; "d"].
  change (split_at 0 ["%"; "*"; "d"; " "; "%"; "d"]) with (@nil ascii, Some ["%"; "*"; "d"; " "; "%"; "d"]).
  cbv iota. cbn [copy]. cbn [length].
  destruct (loop_step P [binary] 6 ["%"; "*"; "d"; " "; "%"; "d"] [AInt 5; AInt 1; AInt 2] b0
    ["%"; "*"; "d"; " "] (Some ["%"; "d"]) (P d_star [AInt 5; AInt 1] ++ [" "])
    (fst (get_info ["%"; "*"; "d"; " "])) (snd (get_info ["%"; "*"; "d"; " "])) [AInt 1; AInt 2] H0)
    as (b1 & -> & S1 & T1); try reflexivity; [intros f [<-|[]]; reflexivity|cbn; lia|].
  cbv iota.
  destruct (loop_step P [binary] 5 ["%"; "d"] [AInt 1; AInt 2] b1
    ["%"; "d"] None (P d_int [AInt 1])
    (fst (get_info ["%"; "d"])) (snd (get_info ["%"; "d"])) [AInt 2] S1)
    as (b2 & -> & S2 & T2); try reflexivity; [intros f [<-|[]]; reflexivity| |].
  - replace (P d_int [AInt 1]) with (P d_int [AInt 1] ++ []) by apply app_nil_r. reflexivity.
  - cbv iota. rewrite put_ok by (destruct S2; cbn; lia). cbn [run_messages text].
    rewrite T2, T1, app_nil_r. unfold b0. cbn [text]. rewrite <- !app_assoc. reflexivity.
Qed.

(** ** Numbers have one text *)

Lemma digit_value c : a_digit c -> N_of_ascii c - 48 < 10 /\ (N_of_ascii c - 48 = 0 -> c = "0").
Proof. intros H. cbn in H. repeat (destruct H as [<-|H]; [split; [vm_compute; reflexivity|first [reflexivity|discriminate]]|]). contradiction. Qed.
Lemma digit_inj c d : a_digit c -> a_digit d -> N_of_ascii c - 48 = N_of_ascii d - 48 -> c = d.
Proof.
  intros H K. cbn in H, K.
  repeat (destruct H as [<-|H]; [repeat (destruct K as [<-|K]; [first [reflexivity|discriminate]|]); contradiction|]). contradiction.
Qed.
Lemma decimal_from_pos ds : forall v, 0 < v -> 0 < decimal_from v ds.
Proof. induction ds as [|c ds IH]; intros v H; [exact H|]. cbn [decimal_from]. apply IH. lia. Qed.
Lemma decimal_pos c r : a_digit c -> c <> "0" -> 0 < decimal (c :: r).
Proof.
  intros D H. unfold decimal. cbn [decimal_from]. apply decimal_from_pos. destruct (digit_value c D) as [_ Z].
  destruct (N.eq_dec (N_of_ascii c - 48) 0) as [E|E]; [elim (H (Z E))|lia].
Qed.
Lemma decimal_last ds c : decimal (ds ++ [c]) = 10 * decimal ds + (N_of_ascii c - 48).
Proof. unfold decimal. rewrite decimal_from_app. reflexivity. Qed.

Lemma decimal_unique ds : forall es, Forall a_digit ds -> Forall a_digit es ->
  hd_error ds <> Some "0" -> hd_error es <> Some "0" -> decimal ds = decimal es -> ds = es.
Proof.
  induction ds as [|c ds IH] using rev_ind; intros es Hd He Zd Ze E.
  - destruct es as [|e es]; [reflexivity|]. exfalso. pose proof (Forall_inv He) as De.
    pose proof (decimal_pos e es De) as P. change (decimal []) with 0 in E. rewrite <- E in P.
    assert (e <> "0") as Ne by (intros ->; apply Ze; reflexivity). specialize (P Ne). lia.
  - destruct es as [|e0 es0] using rev_ind.
    { exfalso. destruct ds as [|d ds].
      - cbn [app] in *. pose proof (decimal_pos c [] (Forall_inv Hd)) as P. rewrite E in P.
        assert (c <> "0") as Ne by (intros ->; apply Zd; reflexivity). specialize (P Ne). change (decimal []) with 0 in P. lia.
      - cbn [app] in *. pose proof (decimal_pos d (ds ++ [c]) (Forall_inv Hd)) as P. rewrite E in P.
        assert (d <> "0") as Ne by (intros ->; apply Zd; reflexivity). specialize (P Ne). change (decimal []) with 0 in P. lia. }
    clear IHes0. rewrite !decimal_last in E.
    apply Forall_app in Hd as [Hd Hc]. apply Forall_app in He as [He Hc']. apply Forall_inv in Hc, Hc'.
    destruct (digit_value c Hc) as [Lc _], (digit_value e0 Hc') as [Le _].
    assert (decimal ds = decimal es0 /\ N_of_ascii c - 48 = N_of_ascii e0 - 48) as [E1 E2].
    { set (x := N_of_ascii c - 48) in *. set (y := N_of_ascii e0 - 48) in *. clearbody x y. lia. }
    rewrite (digit_inj c e0 Hc Hc' E2). rewrite (IH es0 Hd He); [reflexivity| | |exact E1].
    + destruct ds; [discriminate|exact Zd].
    + destruct es0; [discriminate|exact Ze].
Qed.

Lemma number_unique n ds es : number n ds -> number n es -> ds = es.
Proof.
  intros (D1 & E1 & C1) (D2 & E2 & C2). destruct C1 as [->|(c & r & -> & Nc)], C2 as [->|(d & q & -> & Nd)].
  - reflexivity.
  - exfalso. pose proof (decimal_pos d q (Forall_inv D2) Nd) as P. rewrite E2, <- E1 in P. vm_compute in P. discriminate.
  - exfalso. pose proof (decimal_pos c r (Forall_inv D1) Nc) as P. rewrite E1, <- E2 in P. vm_compute in P. discriminate.
  - apply decimal_unique; try assumption; [intros [= H]; exact (Nc H)|intros [= H]; exact (Nd H)|congruence].
Qed.
