(** C79, C80 and C81. *)
From Verif Require Import Base Word BigIntModel BigIntSpec BigIntProofs BigIntSubProofs BigIntProps BigIntFastModel BigIntFastSpec BigIntFastProofs
  StringModel StringSpec StringReadProofs StringProps MapperModel MapperSpec MapperProofs.
Local Open Scope N_scope.

(** A big integer that is mapped, with any intent, and unmapped is the integer it was, except that zero does not come
    back when it is mapped to be serialized. *)
Theorem c79_big_int_partial i b : canonical b -> (big_round i b = Some b <-> ~ (i = Serialize /\ value b = 0%Z)).
Proof.
  intros C. destruct i; try (split; [intros _ [? _]; discriminate|intros _; now apply big_round_text]).
  rewrite (big_round_words b (proj1 C)). tauto.
Qed.
Print Assumptions c79_big_int_partial.

(** Zero is read back as an integer without components. It is not equal to zero, and copying it fails an assertion. *)
Theorem c79_zero_refuted : exists b r, canonical b /\ value b = 0%Z /\ big_round Serialize b = Some r /\
  BigIntModel.compare r b <> Eq /\ BigIntModel.compare_int r 0 <> Some Eq /\ set_big_int r = None.
Proof.
  exists BigIntModel.create, (mkBig false []). split; [|repeat split; discriminate]. split; [split|]; cbn.
  - intros d [<-|[]]. reflexivity.
  - reflexivity.
  - discriminate.
Qed.
Print Assumptions c79_zero_refuted.

Example c79_big_int_example : let b := mkBig true [18446744073709551615; 5; 9223372036854775808] in
  canonical b /\ length (shift_in (limbs b) 1) = 4%nat /\ big_round Serialize b = Some b.
Proof.
  cbv zeta. split; [|split; vm_compute; reflexivity]. split; [split|]; cbn [limbs sign]; [|vm_compute; reflexivity|intros _; vm_compute; discriminate].
  intros d [<-|[<-|[<-|[]]]]; vm_compute; reflexivity.
Qed.

(** The same for fast integers, boxed ones of a size that CCBigIntSetBigInt copies when the intent is to share or copy. *)
Theorem c79_fast_partial i f : well_formed_canonical f ->
  ((exists g, fast_round i f = Some g /\ well_formed_canonical g /\ fvalue g = fvalue f) <->
   match f with
   | BigIntFastModel.Tagged _ => True
   | Boxed b => ~ (i = Serialize /\ value b = 0%Z) /\ (i = Share \/ i = Copy -> copies (Z.abs (value b)))
   end).
Proof.
  intros W. destruct f as [w|b]; cbn [well_formed_canonical] in W.
  - split; [easy|]. intros _. unfold fast_round. destruct i; cbn [map_fast BigIntFastModel.copy unmap_fast];
      try (eexists; split; [reflexivity|split; [exact W|reflexivity]]).
    all: unfold BigIntFastModel.get_string, get_big_int; rewrite (get_tagged_ok w (proj1 W) (proj2 W)); destruct (box_ok w (proj1 W) (proj2 W)) as (b & -> & V & C);
      destruct (c15_round_trip b (proj1 C)) as (r & E & _ & _ & U); specialize (U C); subst r; cbn [unmap_fast]; unfold BigIntFastModel.set_string; rewrite E;
      eexists; (split; [reflexivity|split; [exact C|exact V]]).
  - pose proof (c14_set_big_int_partial b (proj1 W)) as Cp. pose proof (c15_round_trip b (proj1 W)) as (r & Et & _ & _ & U). specialize (U W). subst r.
    assert (Cn : set_big_int b = Some b \/ set_big_int b = None) by (unfold set_big_int; destruct copyable; [left; now destruct b|now right]).
    unfold fast_round. destruct i; cbn [map_fast BigIntFastModel.copy].
    + split; [intros _; split; [intros [? _]; discriminate|intros [?|?]; discriminate]|]. intros _. cbn [unmap_fast]. eexists. split; [reflexivity|split; [exact W|reflexivity]].
    + split.
      * intros (g & E & _). split; [intros [? _]; discriminate|]. intros _. apply Cp. destruct Cn as [Cn|Cn]; [exact Cn|]. rewrite Cn in E. discriminate.
      * intros [_ H]. rewrite (proj1 Cp (H (or_introl eq_refl))). cbn [unmap_fast]. eexists. split; [reflexivity|split; [exact W|reflexivity]].
    + split.
      * intros (g & E & _). split; [intros [? _]; discriminate|]. intros _. apply Cp. destruct Cn as [Cn|Cn]; [exact Cn|]. rewrite Cn in E. discriminate.
      * intros [_ H]. rewrite (proj1 Cp (H (or_intror eq_refl))). cbn [unmap_fast]. eexists. split; [reflexivity|split; [exact W|reflexivity]].
    + cbn [unmap_fast]. split.
      * intros (g & E & Wg & V). split; [|intros [?|?]; discriminate]. intros [_ Z]. rewrite (words_zero b (proj1 W) Z) in E. injection E as <-. cbn [well_formed_canonical] in Wg.
        destruct Wg as [[_ Hz] _]. pose proof (sized_len _ Hz) as L. cbn in L. lia.
      * intros [H _]. pose proof (proj2 (big_round_words b (proj1 W))) as Er. unfold big_round in Er. cbn [map_big unmap_big] in Er. rewrite Er by tauto.
        eexists. split; [reflexivity|split; [exact W|reflexivity]].
    + split; [intros _; split; [intros [? _]; discriminate|intros [?|?]; discriminate]|]. intros _. cbn [BigIntFastModel.get_string get_big_int unmap_fast]. unfold BigIntFastModel.set_string. rewrite Et.
      eexists. split; [reflexivity|split; [exact W|reflexivity]].
    + split; [intros _; split; [intros [? _]; discriminate|intros [?|?]; discriminate]|]. intros _. cbn [BigIntFastModel.get_string get_big_int unmap_fast]. unfold BigIntFastModel.set_string. rewrite Et.
      eexists. split; [reflexivity|split; [exact W|reflexivity]].
Qed.
Print Assumptions c79_fast_partial.

Example c79_fast_example : well_formed_canonical (Boxed (mkBig true [5; 7])) /\ fast_round Serialize (Boxed (mkBig true [5; 7])) = Some (Boxed (mkBig true [5; 7])) /\
  fast_round Display (BigIntFastModel.Tagged 85) = Some (Boxed (mkBig false [42])).
Proof. split; [|split; vm_compute; reflexivity]. split; [split|]; cbn [limbs]; [intros d [<-|[<-|[]]]; reflexivity|vm_compute; reflexivity|intros _; vm_compute; discriminate]. Qed.

(** A string that is mapped to be transferred, shared or copied and unmapped has the characters it had. *)
Theorem c80_copied M i before rest s cs : good_maps M -> ~ as_bytes i -> represents M s cs ->
  exists r, str_round M i before rest s = Some r /\ represents M r cs.
Proof. intros GM. now apply str_object. Qed.
Print Assumptions c80_copied.

(** When it is mapped to be serialized, displayed or inspected this is so exactly when its characters are ASCII,
    whatever lies behind the bytes in memory. *)
Theorem c80_serialized_partial M i before rest s cs : good_maps M -> ascii_maps M -> as_bytes i -> represents M s cs ->
  ((exists r, str_round M i before rest s = Some r /\ represents M r cs) <-> ascii cs).
Proof. intros GM. now apply str_bytes. Qed.
Print Assumptions c80_serialized_partial.

Lemma E0_ascii : ascii_maps E0.
Proof.
  assert (H : forall l, forallb (fun c => c <? 128) l = true -> forall c, In c l -> c < 128) by (intros l Hl c Hc; rewrite forallb_forall in Hl; specialize (Hl c Hc); lia).
  intros set c Hs. apply H. assert (E : set = 1 \/ set = 2 \/ set = 3) by lia. destruct E as [->|[->| ->]]; vm_compute; reflexivity.
Qed.

(** The text "h€llo, world" is serialized without its last two bytes, and reads back without them. *)
Theorem c80_serialized_refuted : exists s cs r, represents E0 s cs /\ str_round E0 Serialize (Some 0) [0] s = Some r /\
  represents E0 r (firstn 10 cs) /\ length cs = 12%nat.
Proof.
  set (cs := [104; 8364; 108; 108; 111; 44; 32; 119; 111; 114; 108; 100]).
  destruct (c49_sized_copy E0 UTF8 (Some 0) cs [0] E0_good) as (s & _ & R).
  - repeat constructor; vm_compute; intuition discriminate.
  - exists s, cs. assert (Es : str_round E0 Serialize (Some 0) [0] s = create_with_size E0 UTF8 Copied (Some 0) (utf8 (firstn 10 cs) ++ [0]) (length (utf8 (firstn 10 cs)))).
    { unfold str_round. rewrite (map_bytes E0 E0_good Serialize s cs (or_introl eq_refl) R). reflexivity. }
    destruct (c49_sized_copy E0 UTF8 (Some 0) (firstn 10 cs) [0] E0_good) as (r & Er & Rr).
    { repeat constructor; vm_compute; intuition discriminate. }
    exists r. split; [exact R|]. split; [now rewrite Es|]. split; [exact Rr|reflexivity].
Qed.
Print Assumptions c80_serialized_refuted.

(** No two types have the same index, and a type that has none is not given one, whatever the offset. *)
Theorem c81_distinct t u offset : serialize_lookup t offset <> 255 -> serialize_lookup t offset = serialize_lookup u offset -> t = u.
Proof.
  unfold serialize_lookup. destruct (offset <? 255); [|easy]. destruct (index_of t) as [i|] eqn:Ei; [|easy]. destruct (N.ltb_spec (i + offset) 255) as [Li|]; [|easy]. intros _.
  destruct (index_of u) as [j|] eqn:Ej; [|intros E; lia]. destruct (N.ltb_spec (j + offset) 255); intros E; [|lia]. assert (i = j) as <- by lia. now apply (index_inj t u i).
Qed.
Print Assumptions c81_distinct.

(** The index of a type leads back to the type with the same offset exactly when that is 0 or 128. *)
Theorem c81_lookup_partial t offset : serialize_lookup t offset <> 255 ->
  (deserialize_lookup (serialize_lookup t offset) offset = Some (Some t) <-> offset = 0 \/ offset = 128).
Proof.
  unfold serialize_lookup. destruct (N.ltb_spec offset 255) as [Lo|]; [|easy]. destruct (index_of t) as [i|] eqn:Ei; [|easy]. cbv zeta.
  destruct (N.ltb_spec (i + offset) 255) as [Li|]; [|easy]. intros _. unfold deserialize_lookup. destruct (N.ltb_spec offset 255); [|lia]. destruct (N.ltb_spec (i + offset) 255); [|lia].
  cbn [andb]. destruct (index_lookup t i Ei) as [En L53]. cbv zeta. split.
  - intros E. destruct (nth_error lookups (N.to_nat ((i + offset + offset) mod 256))) as [u|] eqn:Eu; [|discriminate]. assert (u = t) as -> by congruence. apply lookup_index in Eu. rewrite N2Nat.id in Eu. assert (Ej : i = (i + offset + offset) mod 256) by congruence. clear E Eu.
    pose proof (N.div_mod (i + offset + offset) 256). assert ((i + offset + offset) / 256 < 3) by (apply N.div_lt_upper_bound; lia).
    assert (Q : (i + offset + offset) / 256 = 0 \/ (i + offset + offset) / 256 = 1 \/ (i + offset + offset) / 256 = 2) by lia. destruct Q as [Q|[Q|Q]]; rewrite Q in *; clear - Ej H1 L53 Lo Li; lia.
  - intros [->| ->].
    + rewrite !N.add_0_r, N.mod_small by lia. now rewrite En.
    + replace (i + 128 + 128) with (i + 1 * 256) by lia. rewrite N.mod_add, N.mod_small by lia. now rewrite En.
Qed.
Print Assumptions c81_lookup_partial.

(** With the offset 1, void is written as 2 and read as the type at place 3; the last type fails an assertion. *)
Theorem c81_offset_refuted : deserialize_lookup (serialize_lookup TVoid 1) 1 = Some (Some TAllocatorType) /\ deserialize_lookup (serialize_lookup TBigIntFast 1) 1 = None.
Proof. split; reflexivity. Qed.
Print Assumptions c81_offset_refuted.

Example c81_example : serialize_lookup TVector3D 0 = 21 /\ deserialize_lookup 21 0 = Some (Some TVector3D) /\ serialize_lookup (TOther 3) 0 = 255.
Proof. repeat split. Qed.
