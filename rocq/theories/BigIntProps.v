(** C14: big integer addition and subtraction. C15: comparison, parsing and printing. *)
From Coq Require Import String Ascii.
From Verif Require Import Base BigIntModel BigIntSpec BigIntProofs BigIntSubProofs BigIntTextProofs.
From Verif Require ListModel.
Local Open Scope Z_scope.

(** The characters of a literal, for the examples. *)
Definition chars (s : string) : list N := map N_of_ascii (list_ascii_of_string s).

(** ** C14 *)

Theorem c14_create : canonical create /\ value create = 0.
Proof. exact create_ok. Qed.
Print Assumptions c14_create.

Theorem c14_set_int_partial v : - 2 ^ 63 < v < 2 ^ 63 -> exists r, set_int v = Some r /\ value r = v /\ canonical r.
Proof. apply set_int_ok. Qed.
Print Assumptions c14_set_int_partial.

(** The one int64_t that is left: the negation overflows (BigInt.c 97). *)
Theorem c14_set_int_refuted : exists v, int64 v /\ set_int v = None /\ forall b, add_int b v = None /\ sub_int b v = None.
Proof. exists (- 2 ^ 63). repeat split; try reflexivity; discriminate. Qed.
Print Assumptions c14_set_int_refuted.

(** Copying a big integer works for up to 16 digits and for multiples of 16 digits only. *)
Theorem c14_set_big_int_partial b : normal b -> (copies (Z.abs (value b)) <-> set_big_int b = Some b).
Proof.
  intros [S1 Z1]. rewrite value_abs by assumption. rewrite <- (copyable_iff _ Z1). unfold set_big_int. destruct b as [s l]. cbn [limbs sign].
  destruct (copyable (length l)); split; congruence.
Qed.
Print Assumptions c14_set_big_int_partial.

Theorem c14_set_big_int_refuted : exists s b, set_string s = Some b /\ canonical b /\ set_big_int b = None.
Proof.
  destruct (parse_ok (literal false (repeat 49%N 272)) (match digits 0 (repeat 49%N 272) with Some z => z | None => 0 end)) as (r & E & _ & C).
  - exists false, (repeat 49%N 272), (match digits 0 (repeat 49%N 272) with Some z => z | None => 0 end).
    split; [reflexivity|]. split; [discriminate|]. split; [vm_compute; reflexivity|reflexivity].
  - exists (literal false (repeat 49%N 272)), r. split; [exact E|]. split; [exact C|].
    assert (L : option_map (fun r => length (limbs r)) (set_string (literal false (repeat 49%N 272))) = Some 17%nat) by (vm_compute; reflexivity).
    rewrite E in L. injection L as L. unfold set_big_int. now rewrite L.
Qed.
Print Assumptions c14_set_big_int_refuted.

(** What happens there in the list: a full page and one more element are appended page by page. *)
Theorem c14_copy_pages_refuted :
  exists (l0 : ListModel.plist nat), ListModel.create 4 16 (true, true) = Some l0 /\
    ListModel.run l0 [(ListModel.AppendMany (Some (seq 0 16)) 16, (true, true)); (ListModel.AppendMany (Some [16%nat]) 1, (true, true))] = None.
Proof. eexists. split; [reflexivity|]. vm_compute. reflexivity. Qed.
Print Assumptions c14_copy_pages_refuted.

(** Addition of numbers of the same sign and subtraction of numbers of different signs are exact. Otherwise the
    result is exact when the library finds the difference of the magnitudes ([subtract_ok]) ... *)
Theorem c14_add_partial a b : normal a -> normal b -> sign a = sign b \/ subtract_ok (value a) (value b) ->
  exists r, add a b = Some r /\ value r = value a + value b /\ normal r /\ (value r <> 0 -> canonical r).
Proof.
  intros Ha Hb H. destruct (proj1 (add_iff a b Ha Hb) H) as (r & E & V & N). exists r. auto using canonical_intro.
Qed.
Print Assumptions c14_add_partial.

Theorem c14_sub_partial a b : normal a -> normal b -> sign a <> sign b \/ subtract_ok (value a) (value b) ->
  exists r, sub a b = Some r /\ value r = value a - value b /\ normal r /\ (value r <> 0 -> canonical r).
Proof.
  intros Ha Hb H. destruct (proj1 (sub_iff a b Ha Hb) H) as (r & E & V & N). exists r. auto using canonical_intro.
Qed.
Print Assumptions c14_sub_partial.

Theorem c14_add_int_partial a v : normal a -> - 2 ^ 63 < v < 2 ^ 63 -> sign a = (v <? 0) \/ subtract_int_ok (value a) v ->
  exists r, add_int a v = Some r /\ value r = value a + v /\ normal r /\ (value r <> 0 -> canonical r).
Proof.
  intros Ha Hv H. destruct (proj1 (add_int_iff a v Ha Hv) H) as (r & E & V & N). exists r. auto using canonical_intro.
Qed.
Print Assumptions c14_add_int_partial.

Theorem c14_sub_int_partial a v : normal a -> - 2 ^ 63 < v < 2 ^ 63 -> sign a <> (v <? 0) \/ subtract_int_ok (value a) v ->
  exists r, sub_int a v = Some r /\ value r = value a - v /\ normal r /\ (value r <> 0 -> canonical r).
Proof.
  intros Ha Hv H. destruct (proj1 (sub_int_iff a v Ha Hv) H) as (r & E & V & N). exists r. auto using canonical_intro.
Qed.
Print Assumptions c14_sub_int_partial.

(** ... and in no other case. *)
Theorem c14_add_exact_only a b r : normal a -> normal b -> add a b = Some r -> value r = value a + value b ->
  sign a = sign b \/ subtract_ok (value a) (value b).
Proof. intros Ha Hb E V. apply (proj2 (add_iff a b Ha Hb)). eauto. Qed.
Print Assumptions c14_add_exact_only.

Theorem c14_sub_exact_only a b r : normal a -> normal b -> sub a b = Some r -> value r = value a - value b ->
  sign a <> sign b \/ subtract_ok (value a) (value b).
Proof. intros Ha Hb E V. apply (proj2 (sub_iff a b Ha Hb)). eauto. Qed.
Print Assumptions c14_sub_exact_only.

Theorem c14_add_int_exact_only a v r : normal a -> - 2 ^ 63 < v < 2 ^ 63 -> add_int a v = Some r -> value r = value a + v ->
  sign a = (v <? 0) \/ subtract_int_ok (value a) v.
Proof. intros Ha Hv E V. apply (proj2 (add_int_iff a v Ha Hv)). eauto. Qed.
Print Assumptions c14_add_int_exact_only.

Theorem c14_sub_int_exact_only a v r : normal a -> - 2 ^ 63 < v < 2 ^ 63 -> sub_int a v = Some r -> value r = value a - v ->
  sign a <> (v <? 0) \/ subtract_int_ok (value a) v.
Proof. intros Ha Hv E V. apply (proj2 (sub_int_iff a v Ha Hv)). eauto. Qed.
Print Assumptions c14_sub_int_exact_only.

(** With a string operand. *)
Theorem c14_add_string_partial a s z : normal a -> denotes s z -> (sign a = (z <? 0)) \/ subtract_ok (value a) z ->
  exists r, add_string a s = Some r /\ value r = value a + z /\ normal r /\ (value r <> 0 -> canonical r).
Proof.
  intros Ha Hs H. destruct (parse_ok s z Hs) as (b & E & V & C). unfold add_string. rewrite E.
  rewrite <- V in *. rewrite <- (canonical_sign b C) in H. apply c14_add_partial; auto. exact (proj1 C).
Qed.
Print Assumptions c14_add_string_partial.

Theorem c14_sub_string_partial a s z : normal a -> denotes s z -> (sign a <> (z <? 0)) \/ subtract_ok (value a) z ->
  exists r, sub_string a s = Some r /\ value r = value a - z /\ normal r /\ (value r <> 0 -> canonical r).
Proof.
  intros Ha Hs H. destruct (parse_ok s z Hs) as (b & E & V & C). unfold sub_string. rewrite E.
  rewrite <- V in *. rewrite <- (canonical_sign b C) in H. apply c14_sub_partial; auto. exact (proj1 C).
Qed.
Print Assumptions c14_sub_string_partial.

(** 0x70000000000000005 - 3 loses its leading digit. *)
Theorem c14_sub_refuted : exists a r, set_string (chars "0x70000000000000005") = Some a /\ canonical a /\ sub_int a 3 = Some r /\
  value a = 7 * 2 ^ 64 + 5 /\ value r = 2.
Proof.
  destruct (parse_ok (chars "0x70000000000000005") (7 * 2 ^ 64 + 5)) as (a & E & V & C).
  - exists false, (chars "70000000000000005"), (7 * 2 ^ 64 + 5). repeat split; discriminate.
  - exists a, (mkBig false [2%N]). split; [exact E|]. split; [exact C|].
    assert (E' : set_string (chars "0x70000000000000005") = Some (mkBig false [5%N; 7%N])) by (vm_compute; reflexivity).
    rewrite E in E'. injection E' as ->. repeat split.
Qed.
Print Assumptions c14_sub_refuted.

(** Two equal leading digits: the wrong digit is dropped. *)
Theorem c14_sub_trim_refuted : exists a b r, canonical a /\ canonical b /\ sub a b = Some r /\
  value a - value b = 2 ^ 64 + 1 /\ value r = 1.
Proof.
  exists (mkBig false [1%N; 5%N; 3%N]), (mkBig false [0%N; 4%N; 3%N]), (mkBig false [1%N; 0%N]).
  repeat split; try discriminate; intros d Hd; cbn in Hd; (repeat destruct Hd as [<-|Hd]; try reflexivity; try contradiction).
Qed.
Print Assumptions c14_sub_trim_refuted.

(** -5 + 5 is a negative zero. *)
Theorem c14_canonical_refuted : exists a r, set_int (-5) = Some a /\ add_int a 5 = Some r /\ value r = 0 /\ ~ canonical r.
Proof. exists (mkBig true [5%N]), (mkBig true [0%N]). repeat split. intros [_ H]. now apply H. Qed.
Print Assumptions c14_canonical_refuted.

(** ** C15 *)

Theorem c15_compare_partial a b : canonical a -> canonical b -> compare a b = (value a ?= value b).
Proof. apply compare_ok. Qed.
Print Assumptions c15_compare_partial.

Theorem c15_compare_int_partial a v : canonical a -> - 2 ^ 63 < v < 2 ^ 63 -> compare_int a v = Some (value a ?= v).
Proof.
  intros Ca Hv. destruct (set_int_ok v Hv) as (b & E & V & C). unfold compare_int. rewrite E. f_equal. rewrite <- V. now apply compare_ok.
Qed.
Print Assumptions c15_compare_int_partial.

Theorem c15_compare_string_partial a s z : canonical a -> denotes s z -> compare_string a s = Some (value a ?= z).
Proof.
  intros Ca Hs. destruct (parse_ok s z Hs) as (b & E & V & C). unfold compare_string. rewrite E. f_equal. rewrite <- V. now apply compare_ok.
Qed.
Print Assumptions c15_compare_string_partial.

(** A zero that was reached by adding is smaller than zero. *)
Theorem c15_compare_refuted : exists a r, set_int (-5) = Some a /\ add_int a 5 = Some r /\ value r = 0 /\ compare_int r 0 = Some Lt.
Proof. exists (mkBig true [5%N]), (mkBig true [0%N]). repeat split. Qed.
Print Assumptions c15_compare_refuted.

Theorem c15_parse s z : denotes s z -> exists r, set_string s = Some r /\ value r = z /\ canonical r.
Proof. apply parse_ok. Qed.
Print Assumptions c15_parse.

Theorem c15_print b : normal b -> denotes (get_string b) (value b).
Proof. apply print_ok. Qed.
Print Assumptions c15_print.

Theorem c15_round_trip b : normal b ->
  exists r, set_string (get_string b) = Some r /\ value r = value b /\ canonical r /\ (canonical b -> r = b).
Proof.
  intros H. destruct (parse_ok _ _ (print_ok b H)) as (r & E & V & C). exists r. repeat (split; [assumption|]).
  intros Cb. now apply canonical_unique.
Qed.
Print Assumptions c15_round_trip.

(** A canonical big integer is determined by its value. *)
Theorem c15_canonical_unique a b : canonical a -> canonical b -> value a = value b -> a = b.
Proof. apply canonical_unique. Qed.
Print Assumptions c15_canonical_unique.

(** ** Non-vacuity *)

(** Carries and borrows; the results that end in a zero digit are wrong. *)
Example c14_carry :
  add_string (mkBig false [2 ^ 64 - 1; 2 ^ 64 - 1]%N) (chars "0x1") = Some (mkBig false [0; 0; 1]%N) /\
  sub (mkBig false [0; 0; 1]%N) (mkBig false [1]%N) = Some (mkBig false [2 ^ 64 - 1; 0]%N) /\
  sub (mkBig false [0; 1]%N) (mkBig false [1]%N) = Some (mkBig false [2 ^ 64 - 1]%N) /\
  sub (mkBig true [1]%N) (mkBig true [0; 0; 1]%N) = Some (mkBig false [2 ^ 64 - 1; 0]%N) /\
  sub (mkBig true [4; 9; 5]%N) (mkBig true [1; 9; 6]%N) = Some (mkBig false [2 ^ 64 - 3; 0]%N) /\
  sub_int (mkBig false [3%N]) 10 = Some (mkBig true [7%N]).
Proof. vm_compute. repeat split. Qed.

(** Where subtraction is right and where it is not. *)
Example c14_domain_right : subtract_ok (2 ^ 64) 1 /\ subtract_ok (5 * 2 ^ 128 + 3) (7 * 2 ^ 128) /\ subtract_ok 5 5 /\ subtract_int_ok (-3) 10.
Proof.
  split; [|split; [|split]].
  - split; [split; right; reflexivity|]. intros _. left. discriminate.
  - split; [split; left; reflexivity|]. intros _. left. discriminate.
  - split; [split; left; reflexivity|]. intros _. left. discriminate.
  - right. reflexivity.
Qed.

Example c14_domain_wrong : ~ subtract_ok (7 * 2 ^ 64 + 5) 3 /\ ~ subtract_ok (2 ^ 128) 1 /\ ~ subtract_int_ok (- 2 ^ 64) 0.
Proof.
  split; [|split].
  - intros [[[H|H] _] _]; vm_compute in H; discriminate.
  - intros [[_ [H|H]] _]; vm_compute in H; discriminate.
  - intros [[[H|H] _]|H]; vm_compute in H; discriminate.
Qed.

Example c15_literal : denotes (chars "-0x00000000000000000aBcDeF0123456789") (- 0xabcdef0123456789).
Proof. exists true, (chars "00000000000000000aBcDeF0123456789"), 0xabcdef0123456789. repeat split; discriminate. Qed.

Example c15_text :
  option_map get_string (set_string (chars "-0xabc0123456789abcdef")) = Some (chars "-0x0000000000000abc0123456789abcdef") /\
  option_map get_string (set_string (chars "-0x0")) = Some (chars "0x0000000000000000") /\
  set_string (chars "12") = None.
Proof. vm_compute. repeat split. Qed.
