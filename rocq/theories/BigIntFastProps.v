(** C16: fast big integers agree with exact arithmetic. *)
From Verif Require Import Base BigIntModel BigIntSpec BigIntSubProofs BigIntTextProofs BigIntFastModel BigIntFastSpec BigIntFastProofs BigIntProps.
Local Open Scope Z_scope.

Theorem c16_create : well_formed_canonical BigIntFastModel.create /\ fvalue BigIntFastModel.create = 0.
Proof. repeat split. Qed.
Print Assumptions c16_create.

Theorem c16_set_int_partial v : inline v -> exists r, BigIntFastModel.set_int v = Some r /\ fvalue r = v /\ well_formed_canonical r.
Proof.
  intros H. unfold BigIntFastModel.set_int. rewrite range_test. destruct (tagged_value_ok v H) as (w & E & O & L & F).
  exists (Tagged w). split; [exact E|]. split; [exact F|]. now split.
Qed.
Print Assumptions c16_set_int_partial.

(** Every int64_t outside the inline range fails an assertion instead of being boxed (lines 387-397). *)
Theorem c16_set_int_refuted v : int64 v -> ~ inline v -> BigIntFastModel.set_int v = None.
Proof. intros _ H. unfold BigIntFastModel.set_int. rewrite range_test. now apply tagged_value_none. Qed.
Print Assumptions c16_set_int_refuted.

Theorem c16_set_big_partial b : normal b ->
  (exists r, set_big b = Some r /\ fvalue r = value b /\ well_formed r /\ (canonical b -> well_formed_canonical r)) <->
  (if Z.abs (value b) <? 2 ^ 63 then inline (value b) else copies (Z.abs (value b))).
Proof. apply set_big_iff. Qed.
Print Assumptions c16_set_big_partial.

Theorem c16_set_string s z : denotes s z -> exists r, BigIntFastModel.set_string s = Some r /\ fvalue r = z /\ well_formed_canonical r.
Proof.
  intros H. destruct (parse_ok s z H) as (b & E & V & C). unfold BigIntFastModel.set_string. rewrite E. exists (Boxed b). auto.
Qed.
Print Assumptions c16_set_string.

Theorem c16_get_string f : well_formed f -> exists s, BigIntFastModel.get_string f = Some s /\ denotes s (fvalue f).
Proof.
  intros Hf. unfold BigIntFastModel.get_string, get_big_int. destruct f as [w|b].
  - destruct Hf as [Ho Hw]. rewrite get_tagged_ok by assumption. destruct (box_ok w Ho Hw) as (b & E & V & C). rewrite E.
    eexists. split; [reflexivity|]. rewrite <- V. apply print_ok. exact (proj1 C).
  - eexists. split; [reflexivity|]. now apply print_ok.
Qed.
Print Assumptions c16_get_string.

Theorem c16_get_big_int f : well_formed f -> exists b, get_big_int f = Some b /\ value b = fvalue f /\ normal b.
Proof.
  intros Hf. destruct f as [w|b]; cbn [get_big_int].
  - destruct Hf as [Ho Hw]. rewrite get_tagged_ok by assumption. destruct (box_ok w Ho Hw) as (b & E & V & C). exists b. split; [exact E|]. split; [exact V|exact (proj1 C)].
  - exists b. repeat split; apply Hf.
Qed.
Print Assumptions c16_get_big_int.

Theorem c16_get_sign f : well_formed_canonical f -> get_sign f = Some (fvalue f <? 0).
Proof.
  intros Hf. destruct f as [w|b]; cbn [get_sign].
  - destruct Hf as [Ho Hw]. now rewrite get_tagged_ok by assumption.
  - f_equal. now apply canonical_sign.
Qed.
Print Assumptions c16_get_sign.

(** ** Comparison *)

Theorem c16_compare_partial f g : well_formed_canonical f -> well_formed_canonical g ->
  compare_fast f g = Some (fvalue f ?= fvalue g).
Proof. apply compare_fast_ok. Qed.
Print Assumptions c16_compare_partial.

Theorem c16_compare_big_partial f b : well_formed_canonical f -> canonical b ->
  compare_big f b = Some (fvalue f ?= value b) /\ compare_big_fast b f = Some (value b ?= fvalue f).
Proof.
  intros Hf Hb. unfold compare_big. rewrite compare_big_fast_ok by assumption. split; [|reflexivity]. cbn [option_map]. f_equal. symmetry. apply Z.compare_antisym.
Qed.
Print Assumptions c16_compare_big_partial.

Theorem c16_compare_int_partial f v : well_formed_canonical f -> - 2 ^ 63 < v < 2 ^ 63 ->
  BigIntFastModel.compare_int f v = Some (fvalue f ?= v).
Proof.
  intros Hf Hv. destruct f as [w|a]; cbn [BigIntFastModel.compare_int].
  - destruct Hf as [Ho Hw]. rewrite get_tagged_ok by assumption. f_equal. apply compare_Z.
  - now apply compare_int_big.
Qed.
Print Assumptions c16_compare_int_partial.

Theorem c16_compare_string_partial f s z : well_formed_canonical f -> denotes s z ->
  BigIntFastModel.compare_string f s = Some (fvalue f ?= z).
Proof.
  intros Hf Hs. destruct (parse_ok s z Hs) as (b & E & V & C). destruct f as [w|a]; cbn [BigIntFastModel.compare_string].
  - destruct Hf as [Ho Hw]. rewrite get_tagged_ok, E by assumption.
    rewrite compare_int_big; [|assumption|pose proof (tagged_range w Hw); unfold inline in *; lia].
    cbn [option_map]. f_equal. rewrite V. symmetry. apply Z.compare_antisym.
  - unfold BigIntModel.compare_string. rewrite E. f_equal. rewrite <- V. now apply compare_ok.
Qed.
Print Assumptions c16_compare_string_partial.

(** ** Addition and subtraction. Inline: right exactly when the result is inline or does not fit an int64_t; the
    results between 2^62 and 2^63 fail an assertion. *)

Theorem c16_add_int_partial w v : well_formed (Tagged w) -> int64 v -> let x := fvalue (Tagged w) in
  (inline_ok (x + v) v -> exists r, BigIntFastModel.add_int (Tagged w) v = Some r /\ fvalue r = x + v /\ well_formed_canonical r) /\
  (~ inline_ok (x + v) v -> BigIntFastModel.add_int (Tagged w) v = None).
Proof.
  intros [Ho Hw] Hv x. destruct (add_int_tagged w v Ho Hw Hv) as [H1 H2]. split; [exact H1|].
  intros H. destruct (BigIntFastModel.add_int (Tagged w) v); [|reflexivity]. exfalso. apply H. apply H2. discriminate.
Qed.
Print Assumptions c16_add_int_partial.

Theorem c16_sub_int_partial w v : well_formed (Tagged w) -> int64 v -> let x := fvalue (Tagged w) in
  (inline_ok (x - v) v -> exists r, BigIntFastModel.sub_int (Tagged w) v = Some r /\ fvalue r = x - v /\ well_formed_canonical r) /\
  (~ inline_ok (x - v) v -> BigIntFastModel.sub_int (Tagged w) v = None).
Proof.
  intros [Ho Hw] Hv x. destruct (sub_int_tagged w v Ho Hw Hv) as [H1 H2]. split; [exact H1|].
  intros H. destruct (BigIntFastModel.sub_int (Tagged w) v); [|reflexivity]. exfalso. apply H. apply H2. discriminate.
Qed.
Print Assumptions c16_sub_int_partial.

(** Boxed: as the big integer calls. *)
Theorem c16_boxed_int_partial b v : normal b -> - 2 ^ 63 < v < 2 ^ 63 ->
  (sign b = (v <? 0) \/ subtract_int_ok (value b) v ->
   exists r, BigIntFastModel.add_int (Boxed b) v = Some r /\ fvalue r = value b + v /\ well_formed r) /\
  (sign b <> (v <? 0) \/ subtract_int_ok (value b) v ->
   exists r, BigIntFastModel.sub_int (Boxed b) v = Some r /\ fvalue r = value b - v /\ well_formed r).
Proof.
  intros Hb Hv. cbn [BigIntFastModel.add_int BigIntFastModel.sub_int]. split; intros H.
  - destruct (proj1 (add_int_iff b v Hb Hv) H) as (r & E & V & N). rewrite E. exists (Boxed r). auto.
  - destruct (proj1 (sub_int_iff b v Hb Hv) H) as (r & E & V & N). rewrite E. exists (Boxed r). auto.
Qed.
Print Assumptions c16_boxed_int_partial.

Theorem c16_add_big_partial f b : well_formed f -> normal b ->
  (add_ok f b -> exists r, add_big f b = Some r /\ fvalue r = fvalue f + value b /\ well_formed r) /\
  ((exists r, add_big f b = Some r /\ fvalue r = fvalue f + value b) -> add_ok f b).
Proof. apply add_big_iff. Qed.
Print Assumptions c16_add_big_partial.

Theorem c16_sub_big_partial f b : well_formed f -> normal b ->
  (sub_ok f b -> exists r, sub_big f b = Some r /\ fvalue r = fvalue f - value b /\ well_formed r) /\
  ((exists r, sub_big f b = Some r /\ fvalue r = fvalue f - value b) -> sub_ok f b).
Proof. apply sub_big_iff. Qed.
Print Assumptions c16_sub_big_partial.

(** Two fast integers, the second boxed. *)
Theorem c16_add_fast_partial f b : well_formed f -> normal b ->
  (add_ok f b -> exists r, add_fast f (Boxed b) = Some r /\ fvalue r = fvalue f + value b /\ well_formed r) /\
  (sub_ok f b -> exists r, sub_fast f (Boxed b) = Some r /\ fvalue r = fvalue f - value b /\ well_formed r).
Proof. intros Hf Hb. split; [apply (add_big_iff f b Hf Hb)|apply (sub_big_iff f b Hf Hb)]. Qed.
Print Assumptions c16_add_fast_partial.

(** Two inline integers: the first is added to, or subtracted from, itself (lines 522, 612). *)
Theorem c16_add_fast_refuted w w' r : well_formed (Tagged w) ->
  (add_fast (Tagged w) (Tagged w') = Some r -> fvalue r = fvalue (Tagged w) + fvalue (Tagged w)) /\
  (sub_fast (Tagged w) (Tagged w') = Some r -> fvalue r = 0).
Proof.
  intros [Ho Hw]. cbn [add_fast sub_fast tagged_of]. rewrite get_tagged_ok by assumption.
  assert (Hi : int64 (fvalue (Tagged w))) by (pose proof (tagged_range w Hw); unfold inline, int64 in *; lia).
  destruct (add_int_tagged w _ Ho Hw Hi) as [A1 A2]. destruct (sub_int_tagged w _ Ho Hw Hi) as [S1 S2]. split; intros E.
  - destruct A1 as (r' & E' & V & _); [apply A2; congruence|]. rewrite E in E'. injection E' as ->. exact V.
  - destruct S1 as (r' & E' & V & _); [apply S2; congruence|]. rewrite E in E'. injection E' as ->. lia.
Qed.
Print Assumptions c16_add_fast_refuted.

(** A boxed integer and an inline one: an assertion fails. *)
Theorem c16_add_fast_boxed_refuted b w : add_fast (Boxed b) (Tagged w) = None /\ sub_fast (Boxed b) (Tagged w) = None.
Proof. split; reflexivity. Qed.
Print Assumptions c16_add_fast_boxed_refuted.

(** A string operand: as the big integer it denotes. *)
Theorem c16_add_string_partial f s z b : well_formed f -> denotes s z -> canonical b -> value b = z ->
  (add_ok f b -> exists r, BigIntFastModel.add_string f s = Some r /\ fvalue r = fvalue f + z /\ well_formed r) /\
  (sub_ok f b -> exists r, BigIntFastModel.sub_string f s = Some r /\ fvalue r = fvalue f - z /\ well_formed r).
Proof.
  intros Hf Hs Cb Vb. destruct (parse_ok s z Hs) as (b' & E & V & C).
  assert (b' = b) by (apply canonical_unique; congruence). subst b'. rewrite <- Vb.
  destruct f as [w|a]; cbn [BigIntFastModel.add_string BigIntFastModel.sub_string]; unfold BigIntModel.add_string, BigIntModel.sub_string; rewrite E;
    (split; [apply (add_big_iff _ b Hf (proj1 Cb))|apply (sub_big_iff _ b Hf (proj1 Cb))]).
Qed.
Print Assumptions c16_add_string_partial.

(** Copies of fast integers, and fast integers as operands of big integer calls. *)
Theorem c16_copy_partial f : well_formed f -> (match f with Tagged _ => True | Boxed b => copies (Z.abs (value b)) end) ->
  BigIntFastModel.copy f = Some f.
Proof.
  intros Hf Hc. destruct f as [w|b]; [reflexivity|]. cbn [BigIntFastModel.copy]. apply (c14_set_big_int_partial b Hf) in Hc. now rewrite Hc.
Qed.
Print Assumptions c16_copy_partial.

(** Setting a fast integer from a fast integer, and a big integer from a fast integer. *)
Theorem c16_set_fast_partial g : well_formed g ->
  (exists r, set_fast g = Some r /\ fvalue r = fvalue g /\ well_formed r) <->
  match g with
  | Tagged _ => True
  | Boxed b => if Z.abs (value b) <? 2 ^ 63 then inline (value b) else copies (Z.abs (value b))
  end.
Proof.
  intros Hg. destruct g as [w|b]; cbn [set_fast].
  - split; [trivial|]. intros _. exists (Tagged w). auto.
  - rewrite <- (set_big_iff b Hg). split; intros (r & E & V & W); exists r; cbn [fvalue] in *.
    + split; [exact E|]. split; [exact V|]. split; [exact W|]. intros C. unfold set_big in E. rewrite small_component_ok in E by exact Hg.
      destruct (Z.ltb_spec (Z.abs (value b)) (2 ^ 63)); [|destruct (set_big_int b) eqn:Eb; [|discriminate]; injection E as <-].
      * rewrite range_test in E. unfold tagged_value in E. destruct ((_ <=? _) && _); [|discriminate]. injection E as <-. exact W.
      * unfold set_big_int in Eb. destruct copyable; [|discriminate]. injection Eb as <-. exact C.
    + tauto.
Qed.
Print Assumptions c16_set_fast_partial.

Theorem c16_big_set_fast_partial g : well_formed g ->
  (exists r, big_set_fast g = Some r /\ value r = fvalue g /\ normal r) <->
  match g with Tagged _ => True | Boxed b => copies (Z.abs (value b)) end.
Proof.
  intros Hg. destruct g as [w|b]; cbn [big_set_fast].
  - split; [trivial|]. intros _. destruct Hg as [Ho Hw]. rewrite get_tagged_ok by assumption.
    destruct (box_ok w Ho Hw) as (r & E & V & C). exists r. split; [exact E|]. split; [exact V|exact (proj1 C)].
  - rewrite (c14_set_big_int_partial b Hg). split.
    + intros (r & E & _). unfold set_big_int in *. destruct (copyable _); [|discriminate]. now destruct b.
    + intros E. exists b. auto.
Qed.
Print Assumptions c16_big_set_fast_partial.

Theorem c16_big_fast_partial a g : normal a -> well_formed g ->
  let exact_when (add : bool) := match g with
    | Tagged _ => (if add then sign a = (fvalue g <? 0) else sign a <> (fvalue g <? 0)) \/ subtract_int_ok (value a) (fvalue g)
    | Boxed b => (if add then sign a = sign b else sign a <> sign b) \/ subtract_ok (value a) (value b) end in
  (exact_when true -> exists r, big_add_fast a g = Some r /\ value r = value a + fvalue g /\ normal r) /\
  (exact_when false -> exists r, big_sub_fast a g = Some r /\ value r = value a - fvalue g /\ normal r).
Proof.
  intros Ha Hg exact_when. destruct g as [w|b]; unfold exact_when; cbn [big_add_fast big_sub_fast].
  - destruct Hg as [Ho Hw]. rewrite get_tagged_ok by assumption.
    assert (Hv : - 2 ^ 63 < fvalue (Tagged w) < 2 ^ 63) by (pose proof (tagged_range w Hw); unfold inline in *; lia).
    split; [apply (add_int_iff a _ Ha Hv)|apply (sub_int_iff a _ Ha Hv)].
  - split; [apply (add_iff a b Ha Hg)|apply (sub_iff a b Ha Hg)].
Qed.
Print Assumptions c16_big_fast_partial.

(** ** Non-vacuity: the boundary of the inline range *)
Example c16_boundary :
  option_map fvalue (BigIntFastModel.set_int (2 ^ 62 - 1)) = Some (2 ^ 62 - 1) /\
  option_map fvalue (BigIntFastModel.set_int (- 2 ^ 62)) = Some (- 2 ^ 62) /\
  (let? f := BigIntFastModel.set_int (2 ^ 62 - 1) in BigIntFastModel.add_int f 1) = None /\
  option_map fvalue (let? f := BigIntFastModel.set_int (2 ^ 62 - 1) in BigIntFastModel.add_int f (2 ^ 63 - 1)) = Some (2 ^ 63 + 2 ^ 62 - 2) /\
  option_map fvalue (let? f := BigIntFastModel.set_int (- 2 ^ 62) in BigIntFastModel.sub_int f (2 ^ 63 - 1)) = Some (- 2 ^ 63 - 2 ^ 62 + 1) /\
  option_map fvalue (let? f := BigIntFastModel.set_int 1 in let? g := BigIntFastModel.set_int 2 in add_fast f g) = Some 2 /\
  option_map fvalue (let? f := BigIntFastModel.set_int 7 in add_big f (mkBig true [2 ^ 64 - 1]%N)) = Some (8 - 2 ^ 64).
Proof. vm_compute. repeat split. Qed.
