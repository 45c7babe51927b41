From Verif Require Import Base FnAllocModel FnAllocSpec.

Section Layout.
Context {F : Type} (header : F -> list word) (h : nat) (HL : forall d, length (header d) = h).
Notation lay := (layout header).

Lemma lay_length s : length (lay s) = length s.
Proof. apply map_length. Qed.

Lemma block_lay (s : blocks F) b : block (lay s) b = option_map (fun x => header (owner x) ++ words x) (find s b).
Proof. unfold block, find, layout. rewrite nth_error_map. destruct (nth_error s b) as [[x|]|]; reflexivity. Qed.

Lemma lay_upd s b o : lay (upd s b o) = upd (lay s) b (option_map (fun x => header (owner x) ++ words x) o).
Proof. revert b; induction s as [|y s IH]; intros [|b]; cbn [layout upd map]; try reflexivity. f_equal. apply IH. Qed.

Lemma lay_app s t : lay (s ++ t) = lay s ++ lay t.
Proof. apply map_app. Qed.

Lemma upd_header d (ws : list word) i w : upd (header d ++ ws) (h + i) w = header d ++ upd ws i w.
Proof.
  rewrite <- (HL d). induction (header d) as [|y l IH]; cbn [app length Nat.add upd]; [reflexivity|]. now rewrite IH.
Qed.

Lemma nth_header d (ws : list word) i : nth_error (header d ++ ws) (h + i) = nth_error ws i.
Proof. rewrite <- (HL d), nth_error_app2 by lia. f_equal. lia. Qed.

Lemma resize_header d ws n : resize (header d ++ ws) (n + h) = header d ++ kept ws n.
Proof.
  unfold resize, kept. rewrite firstn_app, app_length, (HL d), (firstn_all2 (header d)) by (rewrite HL; lia).
  rewrite <- app_assoc. f_equal. f_equal; f_equal; lia.
Qed.

Lemma user_block_some (s : blocks F) p b x : user_block h s p = Some (b, x) -> p = (b, h) /\ find s b = Some x.
Proof.
  unfold user_block. destruct p as [b' o]. cbn [fst snd]. destruct (Nat.eqb_spec o h) as [->|]; [|discriminate].
  destruct (find s b') as [y|] eqn:E; [|discriminate]. intros Q. injection Q as <- <-. split; [reflexivity|exact E].
Qed.

Lemma at_pos b o i : at_ (b, o) (Z.of_nat i) = Some (o + i).
Proof. unfold at_. cbn [snd]. destruct (Z.ltb_spec (Z.of_nat o + Z.of_nat i) 0); [lia|]. f_equal. lia. Qed.

Lemma touch_ok (s : blocks F) a s' w : user_access h s a = Some (s', w) -> touch (lay s) a = Some (lay s', w).
Proof.
  destruct a as [p i|p i v]; cbn [user_access touch];
    (destruct (user_block h s p) as [[b x]|] eqn:U; [|discriminate]; apply user_block_some in U as [-> U]).
  - destruct (nth_error (words x) i) as [y|] eqn:E; [|discriminate]. intros Q. injection Q as <- <-.
    unfold load. cbn [fst]. rewrite block_lay, U. cbn [option_map]. rewrite at_pos, nth_header, E. reflexivity.
  - destruct (Nat.ltb_spec i (length (words x))) as [L|]; [|discriminate]. intros Q. injection Q as <- <-.
    unfold store. cbn [fst]. rewrite block_lay, U. cbn [option_map]. rewrite at_pos, app_length, (HL (owner x)).
    destruct (Nat.ltb_spec (h + i) (h + length (words x))); [|lia]. rewrite upd_header, lay_upd. reflexivity.
Qed.

Lemma realloc_ok (s : blocks F) b x n how s' r :
  find s b = Some x -> resized s b x n how = (s', r) ->
  realloc (lay s) (b, 0) (n + h) how = Some (lay s', match r with Some b' => Some (b', 0) | None => None end).
Proof.
  intros U R. unfold realloc. cbn [fst snd Nat.eqb]. rewrite block_lay, U. cbn [option_map].
  rewrite resize_header. unfold resized in R. destruct how; injection R as <- <-; [reflexivity| |].
  - rewrite lay_upd. reflexivity.
  - rewrite lay_app, lay_upd, lay_length. reflexivity.
Qed.

Lemma free_ok (s : blocks F) b x : find s b = Some x -> free (lay s) (b, 0) = Some (lay (upd s b None)).
Proof. intros U. unfold free. cbn [fst snd Nat.eqb]. rewrite block_lay, U, lay_upd. reflexivity. Qed.

Lemma load_header (s : blocks F) b x i w : find s b = Some x -> nth_error (header (owner x)) i = Some w -> forall k o, (Z.of_nat o + k = Z.of_nat i)%Z ->
  load (lay s) (b, o) k = Some w.
Proof.
  intros U E k o K. unfold load. cbn [fst]. rewrite block_lay, U. cbn [option_map].
  unfold at_. cbn [snd]. destruct (Z.ltb_spec (Z.of_nat o + k) 0); [lia|].
  rewrite K, Nat2Z.id, nth_error_app1; [exact E|]. apply nth_error_Some. congruence.
Qed.

End Layout.

Lemma upd_last {A} (l : list A) x y : upd (l ++ [x]) (length l) y = l ++ [y].
Proof. induction l; cbn [app length upd]; [reflexivity|]. now rewrite IHl. Qed.

Lemma block_last (m : memory) ws : block (m ++ [Some ws]) (length m) = Some ws.
Proof. unfold block. rewrite nth_error_app2, Nat.sub_diag by lia. reflexivity. Qed.

Lemma store_last (m : memory) ws i w : i < length ws -> store (m ++ [Some ws]) (length m, i) 0 w = Some (m ++ [Some (upd ws i w)]).
Proof.
  intros L. unfold store. cbn [fst]. rewrite block_last. unfold at_. cbn [snd].
  destruct (Z.ltb_spec (Z.of_nat i + 0) 0); [lia|]. rewrite Z.add_0_r, Nat2Z.id.
  destruct (Nat.ltb_spec i (length ws)); [|lia]. now rewrite upd_last.
Qed.

Lemma custom_header_length d : length (custom_header d) = 3. Proof. reflexivity. Qed.
Lemma callback_header_length f : length (callback_header f) = 1. Proof. reflexivity. Qed.

Lemma custom_alloc_ok s a r d n :
  custom_alloc (layout custom_header s) (Some (mkFunctions (Some a) r d)) n true
  = Some (layout custom_header (s ++ [Some (mkAblock (mkFunctions (Some a) r d) (repeat Unset n))]), [CallAlloc a (n + 3)], Some (length s, 3)).
Proof.
  unfold custom_alloc, malloc, forward. rewrite (Nat.add_comm n 3). cbn [Nat.add repeat forward fst snd].
  rewrite store_last by (cbn [length]; lia). cbn [upd].
  rewrite store_last by (cbn [length]; lia). cbn [upd].
  rewrite store_last by (cbn [length]; lia). cbn [upd].
  rewrite lay_app, lay_length. reflexivity.
Qed.

Lemma custom_step_ok s o s' l r :
  custom_spec s o = Some (s', l, r) -> custom_step (layout custom_header s) o = Some (layout custom_header s', l, r).
Proof.
  pose proof custom_header_length as HL.
  destruct o as [data n ok|data p n how|p|a]; cbn [custom_spec custom_step].
  - destruct data as [[fa fr ff]|]; cbn [f_alloc].
    + destruct fa as [a|].
      * destruct ok; intros Q; injection Q as <- <- <-; [now rewrite custom_alloc_ok|reflexivity].
      * intros Q; injection Q as <- <- <-. reflexivity.
    + intros Q; injection Q as <- <- <-. reflexivity.
  - destruct (user_block 3 s p) as [[b x]|] eqn:U; [|discriminate]. apply user_block_some in U as [-> U].
    destruct (f_realloc (owner x)) as [f|] eqn:EF; [|discriminate].
    destruct (resized s b x n how) as [s1 b'] eqn:R. intros Q. injection Q as <- <- <-.
    unfold custom_realloc, back. cbn [fst snd Nat.leb Nat.sub].
    rewrite (load_header custom_header s b x 1 (Fn (f_realloc (owner x))) U eq_refl 1 0 eq_refl). cbn [callee]. rewrite EF.
    rewrite (realloc_ok custom_header 3 HL s b x n how s1 b' U R). destruct b'; reflexivity.
  - destruct (user_block 3 s p) as [[b x]|] eqn:U; [|discriminate]. apply user_block_some in U as [-> U].
    destruct (f_free (owner x)) as [f|] eqn:EF; [|discriminate]. intros Q. injection Q as <- <- <-.
    unfold custom_free, back. cbn [fst snd Nat.leb Nat.sub].
    rewrite (load_header custom_header s b x 2 (Fn (f_free (owner x))) U eq_refl 2 0 eq_refl). cbn [callee]. rewrite EF.
    rewrite (free_ok custom_header s b x U). reflexivity.
  - destruct (user_access 3 s a) as [[s1 w]|] eqn:E; [|discriminate]. intros Q. injection Q as <- <- <-.
    rewrite (touch_ok custom_header 3 HL s a s1 w E). reflexivity.
Qed.

Lemma callback_alloc_ok s f n n' :
  callback_alloc (layout callback_header s) f n n' true
  = Some (layout callback_header (s ++ [Some (mkAblock f (repeat Unset (changed f n n')))]),
          tell f AllocatePre None (Some n) ++ tell f AllocatePost (Some (length s, 1)) (Some (changed f n n')), Some (length s, 1)).
Proof.
  unfold callback_alloc, malloc, forward. rewrite (Nat.add_comm _ 1). cbn [Nat.add repeat forward fst snd].
  rewrite store_last by (cbn [length]; lia). cbn [upd]. rewrite lay_app, lay_length. reflexivity.
Qed.

Lemma callback_step_ok s o s' l r :
  callback_spec s o = Some (s', l, r) -> callback_step (layout callback_header s) o = Some (layout callback_header s', l, r).
Proof.
  pose proof callback_header_length as HL.
  destruct o as [f n n' ok|data p n n' how|p|a]; cbn [callback_spec callback_step].
  - destruct f as [f|], ok; intros Q; injection Q as <- <- <-; try (rewrite callback_alloc_ok; reflexivity); reflexivity.
  - destruct (user_block 1 s p) as [[b x]|] eqn:U; [|discriminate]. apply user_block_some in U as [-> U].
    destruct (resized s b x _ how) as [s1 b'] eqn:R. intros Q. injection Q as <- <- <-.
    unfold callback_realloc, back. cbn [fst snd Nat.leb Nat.sub].
    rewrite (load_header callback_header s b x 0 (Fn (owner x)) U eq_refl (-1) 1 eq_refl).
    change (changed (owner x) n n') with (match owner x with Some _ => n' | None => n end).
    rewrite (realloc_ok callback_header 1 HL s b x _ how s1 b' U R). destruct (owner x), b'; reflexivity.
  - destruct (user_block 1 s p) as [[b x]|] eqn:U; [|discriminate]. apply user_block_some in U as [-> U].
    intros Q. injection Q as <- <- <-.
    unfold callback_free, back. cbn [fst snd Nat.leb Nat.sub].
    rewrite (load_header callback_header s b x 0 (Fn (owner x)) U eq_refl (-1) 1 eq_refl).
    rewrite (free_ok callback_header s b x U). destruct (owner x); reflexivity.
  - destruct (user_access 1 s a) as [[s1 w]|] eqn:E; [|discriminate]. intros Q. injection Q as <- <- <-.
    rewrite (touch_ok callback_header 1 HL s a s1 w E). reflexivity.
Qed.

Lemma run_ok {F O L} (header : F -> list word) (spec : blocks F -> O -> option (blocks F * list L * result)) step :
  (forall s o s' l r, spec s o = Some (s', l, r) -> step (layout header s) o = Some (layout header s', l, r)) ->
  forall os s s' rs, run spec s os = Some (s', rs) -> run step (layout header s) os = Some (layout header s', rs).
Proof.
  intros H. induction os as [|o os IH]; intros s s' rs R; cbn [run] in *.
  - injection R as <- <-. reflexivity.
  - destruct (spec s o) as [[[s1 l] r]|] eqn:E; [|discriminate].
    destruct (run spec s1 os) as [[s2 rs1]|] eqn:E2; [|discriminate]. injection R as <- <-.
    rewrite (H _ _ _ _ _ E), (IH _ _ _ E2). reflexivity.
Qed.

Lemma misaligned base b h : aligned base -> h = 3 \/ h = 1 -> ~ aligned (user_address base (b, h)).
Proof.
  unfold aligned, user_address. cbn [snd]. intros B H A.
  pose proof (N.div_mod base 16). pose proof (N.div_mod (base + 8 * N.of_nat h + 16) 16). lia.
Qed.
