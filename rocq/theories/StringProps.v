(** C26, C27, C28, C49, C50 and C51. *)
From Verif Require Import Base Word StringModel StringSpec StringPackProofs StringUtf8Proofs StringReadProofs StringCompareProofs StringMakeProofs StringBuildProofs StringFindProofs StringSearchProofs.

(** ** C26: making a string, in memory or inline *)

(** A string that is created from characters stands for them, and it is inline exactly when a map has all of them and
    there is room. *)
Theorem c26_create : forall M e m before cs r, good_maps M -> Forall (encodable e) cs ->
  (m = Copied \/ exists b, before = Some b /\ (b < 256)%N) ->
  exists s, create M e m before (encode e cs ++ 0%N :: r) = Some s /\ represents M s cs /\ (is_tagged s = true <-> fits M cs).
Proof. intros M e m before cs r GM Se Hm. now apply create_ok. Qed.
Print Assumptions c26_create.

Theorem c26_create_character : forall M c, good_maps M -> scalar c ->
  represents M (create_character M c) [c] /\ (is_tagged (create_character M c) = true <-> fits M [c]).
Proof. intros M c GM S. now apply create_character_ok. Qed.
Print Assumptions c26_create_character.

Theorem c26_constant : forall M e cs, good_maps M -> Forall (encodable e) cs -> represents M (constant e (encode e cs)) cs.
Proof. intros. now apply constant_ok. Qed.
Print Assumptions c26_constant.

(** ** C26: what a string says about itself *)

Theorem c26_length : forall M s cs, good_maps M -> represents M s cs -> get_length M s = Some (length cs).
Proof. intros. now apply get_length_ok. Qed.
Print Assumptions c26_length.

Theorem c26_size : forall M s cs, good_maps M -> represents M s cs -> get_size M s = Some (length (utf8 cs)).
Proof. intros. now apply get_size_ok. Qed.
Print Assumptions c26_size.

Theorem c26_character : forall M s cs i c, good_maps M -> represents M s cs -> nth_error cs i = Some c -> char_at M s i = Some c.
Proof.
  intros M s cs i c GM R E. rewrite (char_at_ok M GM s cs i R) by (apply nth_error_Some; congruence). f_equal. now apply nth_error_nth.
Qed.
Print Assumptions c26_character.

Theorem c26_copy_characters : forall M s cs i n, good_maps M -> represents M s cs -> i + n <= length cs ->
  copy_characters M s i n = Some (utf8 (firstn n (skipn i cs))).
Proof. intros. now apply copy_characters_ok. Qed.
Print Assumptions c26_copy_characters.

(** ** C26: new strings *)

Theorem c26_copy : forall M s cs, good_maps M -> represents M s cs -> exists t, copy M s = Some t /\ represents M t cs.
Proof. intros. now apply copy_ok. Qed.
Print Assumptions c26_copy.

Theorem c26_substring : forall M s cs i n, good_maps M -> (junk M < 256)%N -> represents M s cs -> i + n <= length cs ->
  exists t, substring M s i n = Some t /\ represents M t (firstn n (skipn i cs)).
Proof. intros. now apply substring_ok. Qed.
Print Assumptions c26_substring.

Theorem c26_insert : forall M s t cs ts i, good_maps M -> (junk M < 256)%N -> represents M s cs -> represents M t ts -> i <= length cs ->
  exists u, insert M s i t = Some u /\ represents M u (firstn i cs ++ ts ++ skipn i cs).
Proof. intros. now apply insert_ok. Qed.
Print Assumptions c26_insert.

Theorem c26_remove : forall M s cs i n, good_maps M -> (junk M < 256)%N -> represents M s cs -> i + n <= length cs ->
  exists t, without M s i n = Some t /\ represents M t (firstn i cs ++ skipn (i + n) cs).
Proof. intros. now apply without_ok. Qed.
Print Assumptions c26_remove.

(** ** C26: comparisons *)

(** Inline strings are equal exactly when their characters are, whatever the maps. *)
Theorem c26_equal_inline : forall M w1 w2 cs1 cs2, good_maps M -> represents M (Tagged w1) cs1 -> represents M (Tagged w2) cs2 ->
  exists q, equal M false (Tagged w1) (Tagged w2) = Some q /\ (q = true <-> cs1 = cs2).
Proof.
  intros M w1 w2 cs1 cs2 GM R1 R2. destruct (equal_ok M GM false _ _ cs1 cs2 R1 R2) as (q & E & H); [discriminate|]. exists q. split; [exact E|].
  rewrite H. split; [now intros [? _]|]. intros ->. split; [reflexivity|]. now intros [_ [_ ?]].
Qed.
Print Assumptions c26_equal_inline.

(** Strings of any kind: the empty constant in ASCII is the one exception. [same] says whether the two arguments are
    the same pointer. *)
Theorem c26_equal_partial : forall M same s1 s2 cs1 cs2, good_maps M -> represents M s1 cs1 -> represents M s2 cs2 -> (same = true -> s1 = s2) ->
  exists q, equal M same s1 s2 = Some q /\ (q = true <-> cs1 = cs2 /\ ~ empty_constant s1 s2 cs1).
Proof.
  intros M same s1 s2 cs1 cs2 GM R1 R2 Hs. destruct (equal_ok M GM same s1 s2 cs1 cs2 R1 R2 Hs) as (q & E & H). exists q. split; [exact E|].
  rewrite H. split; intros [-> N]; (split; [reflexivity|]); [|tauto]. intros Hc. apply N. split; [|exact Hc].
  destruct same; [|reflexivity]. rewrite (Hs eq_refl) in Hc. destruct Hc as [_ Hc]. now destruct s2.
Qed.
Print Assumptions c26_equal_partial.

Definition E0 : env := mkEnv default_maps 65.

Theorem default_maps_good : forall j, good_maps (mkEnv default_maps j).
Proof.
  intros j set H. assert (A : forall c, In c (map127 ++ map63 ++ map31) -> c <> 0%N -> encodable ASCII c).
  { intros c I Hc. assert (F : Forall (fun c => (c <? 128)%N = true) (map127 ++ map63 ++ map31)) by (vm_compute; repeat constructor).
    rewrite Forall_forall in F. specialize (F c I). apply N.ltb_lt in F. split; [split; lia|exact F]. }
  assert (set = 1 \/ set = 2 \/ set = 3)%N as [-> | [-> | ->]] by lia; (split; [reflexivity|]); (split; [reflexivity|]); intros c I Hc; apply A; auto; rewrite !in_app_iff; auto.
Qed.
Print Assumptions default_maps_good.

Lemma E0_good : good_maps E0.
Proof. apply default_maps_good. Qed.

(** [CCStringEqual(CC_STRING(""), empty)] is FALSE, and with the arguments swapped it is TRUE. *)
Theorem c26_equal_refuted : exists s1 s2, represents E0 s1 [] /\ represents E0 s2 [] /\ equal E0 false s1 s2 = Some false /\ equal E0 false s2 s1 = Some true.
Proof.
  exists (constant ASCII []), (Tagged 3). split; [apply (constant_ok E0 ASCII []); constructor|].
  split; [split; [constructor|]; exists 3%N; split; [lia|]; split; [cbn; lia|]; now exists []|]. split; vm_compute; reflexivity.
Qed.
Print Assumptions c26_equal_refuted.

(** Prefixes. *)
Theorem c26_prefix_partial : forall M same s p cs ps, good_maps M -> represents M s cs -> represents M p ps -> (same = true -> s = p) -> ps <> [] ->
  exists q, has_prefix M same s p = Some q /\ (q = true <-> (exists post, cs = ps ++ post) \/ misled Next s cs ps).
Proof. intros. now apply has_prefix_ok. Qed.
Print Assumptions c26_prefix_partial.

Theorem c26_prefix_inline_partial : forall M w p cs ps, good_maps M -> represents M (Tagged w) cs -> represents M p ps -> ps <> [] ->
  exists q, has_prefix M false (Tagged w) p = Some q /\ (q = true <-> exists post, cs = ps ++ post).
Proof.
  intros M w p cs ps GM R1 R2 Hp. destruct (has_prefix_ok M GM false (Tagged w) p cs ps R1 R2 ltac:(discriminate) Hp) as (q & E & H). exists q. split; [exact E|].
  rewrite H. split; [intros [?|(_ & ? & _)]; [assumption|contradiction]|now left].
Qed.
Print Assumptions c26_prefix_inline_partial.

(** Characters for the examples: "abcdefghijkl", which is as much as the smallest map holds. *)
Definition letters : list N := [97; 98; 99; 100; 101; 102; 103; 104; 105; 106; 107; 108]%N.
Lemma ascii_ok cs : forallb (fun c => (0 <? c)%N && (c <? 128)%N) cs = true -> Forall (encodable ASCII) cs.
Proof.
  intros H. rewrite forallb_forall in H. apply Forall_forall. intros c I. specialize (H c I). apply andb_prop in H. destruct H as [H1 H2].
  apply N.ltb_lt in H1, H2. split; [split; [lia|intros [? ?]; lia]|exact H2].
Qed.

(** The word of an inline string with the smallest map. *)
Definition word3 (cs : list N) : N := (3 + 4 * packed 5 (map (fun c => c - 92) cs))%N.
Lemma letters_first c : (97 <= c <= 122)%N -> first_at (chars_of E0 3) c (c - 92).
Proof.
  intros H. apply in_map_ok. assert (A : Forall (fun n => in_map (97 + N.of_nat n) (chars_of E0 3) 0 = Some (97 + N.of_nat n - 92)%N) (seq 0 26)) by (vm_compute; repeat constructor).
  rewrite Forall_forall in A. specialize (A (N.to_nat (c - 97))). rewrite in_seq in A. replace (97 + N.of_nat (N.to_nat (c - 97)))%N with c in A by lia. apply A. lia.
Qed.
Lemma word3_ok cs : Forall (fun c => 97 <= c <= 122)%N cs -> length cs <= 12 -> represents E0 (Tagged (word3 cs)) cs.
Proof.
  intros H L. split; [eapply Forall_impl; [|exact H]; intros c Hc; cbv beta in Hc; split; [|intros ?]; lia|]. exists 3%N. split; [lia|]. split; [exact L|]. exists (map (fun c => (c - 92)%N) cs). split; [|reflexivity].
  clear L. induction H; constructor; [now apply letters_first|assumption].
Qed.

(** The test for an empty prefix shifts by 64 when both strings are inline with the same map, and says FALSE when the
    string is in memory. *)
Theorem c26_prefix_empty_refuted :
  represents E0 (Tagged (word3 letters)) letters /\ represents E0 (Tagged 3) [] /\ has_prefix E0 false (Tagged (word3 letters)) (Tagged 3) = None /\
  represents E0 (constant ASCII letters) letters /\ has_prefix E0 false (constant ASCII letters) (Tagged 3) = Some false.
Proof.
  split; [apply word3_ok; [repeat constructor; lia|cbn; lia]|]. split; [apply (word3_ok []); [constructor|cbn; lia]|]. split; [vm_compute; reflexivity|].
  split; [apply (constant_ok E0 ASCII); now apply ascii_ok|vm_compute; reflexivity].
Qed.
Print Assumptions c26_prefix_empty_refuted.

(** A string of 12 characters that was not copied, with an 'm' in front of it in memory, has itself followed by 'm' as
    a prefix. *)
Theorem c26_prefix_misled_refuted : exists s p, create E0 ASCII Borrowed (Some 109%N) (letters ++ [33; 0])%N = Some s /\
  represents E0 s (letters ++ [33%N]) /\ represents E0 p (letters ++ [33; 109])%N /\ has_prefix E0 false s p = Some true.
Proof.
  assert (Se : Forall (encodable ASCII) (letters ++ [33%N])) by (now apply ascii_ok).
  destruct (create_ok E0 E0_good ASCII Borrowed (Some 109%N) (letters ++ [33%N]) [] Se) as (s & E & R & _); [right; exists 109%N; split; [reflexivity|lia]|].
  exists s, (constant ASCII (letters ++ [33; 109]%N)). split; [exact E|]. split; [exact R|].
  split; [apply (constant_ok E0 ASCII); now apply ascii_ok|]. vm_compute in E. injection E as <-. vm_compute. reflexivity.
Qed.
Print Assumptions c26_prefix_misled_refuted.

(** Suffixes. *)
Theorem c26_suffix_partial : forall M same s p cs ps, good_maps M -> represents M s cs -> represents M p ps -> (same = true -> s = p) -> cs <> [] -> ps <> [] ->
  ~ same_set_longer s p cs ps ->
  exists q, has_suffix M same s p = Some q /\ (q = true <-> (exists pre, cs = pre ++ ps) \/ misled Previous s cs ps).
Proof. intros. now apply has_suffix_ok. Qed.
Print Assumptions c26_suffix_partial.

Theorem c26_suffix_inline_partial : forall M w p cs ps, good_maps M -> represents M (Tagged w) cs -> represents M p ps -> ps <> [] -> length ps <= length cs ->
  exists q, has_suffix M false (Tagged w) p = Some q /\ (q = true <-> exists pre, cs = pre ++ ps).
Proof.
  intros M w p cs ps GM R1 R2 Hp Hl. assert (Hc : cs <> []) by (intros ->; destruct ps; [contradiction|cbn in Hl; lia]).
  destruct (has_suffix_ok M GM false (Tagged w) p cs ps R1 R2 ltac:(discriminate) Hc Hp) as (q & E & H); [destruct p; cbn; lia|]. exists q. split; [exact E|].
  rewrite H. split; [intros [?|(_ & ? & _)]; [assumption|contradiction]|now left].
Qed.
Print Assumptions c26_suffix_inline_partial.

(** Asking whether "ab" ends in "xab" shifts by a negative number of characters. *)
Theorem c26_suffix_refuted : represents E0 (Tagged (word3 [97; 98]%N)) [97; 98]%N /\ represents E0 (Tagged (word3 [120; 97; 98]%N)) [120; 97; 98]%N /\
  has_suffix E0 false (Tagged (word3 [97; 98]%N)) (Tagged (word3 [120; 97; 98]%N)) = None.
Proof.
  split; [apply word3_ok; [repeat constructor; lia|cbn; lia]|]. split; [apply word3_ok; [repeat constructor; lia|cbn; lia]|]. vm_compute. reflexivity.
Qed.
Print Assumptions c26_suffix_refuted.

(** Search in inline strings. *)
Theorem c26_find_partial : forall M w sub cs scs i, good_maps M -> represents M (Tagged w) cs -> represents M sub scs -> scs <> [] -> i <= length cs ->
  exists r, find M (Tagged w) i sub = Some r /\ (~ overlooked M (Tagged w) sub cs scs i -> least scs cs i r) /\ (overlooked M (Tagged w) sub cs scs i -> r = None).
Proof. intros. now apply find_ok. Qed.
Print Assumptions c26_find_partial.

(** ** C50: the hash *)

Theorem c50_hash : forall M M' s s' cs, good_maps M -> good_maps M' -> represents M s cs -> represents M' s' cs ->
  exists k, get_hash M s = Some k /\ get_hash M' s' = Some k.
Proof. intros M M' s s' cs GM GM' R R'. exists (hash_of cs). split; now apply get_hash_ok. Qed.
Print Assumptions c50_hash.

(** ** C27 *)

Lemma scalar_encodable cs : Forall scalar cs -> Forall (encodable UTF8) cs.
Proof. intros H. eapply Forall_impl; [|exact H]. now split. Qed.

Theorem c27_length_and_characters : forall M m before cs r, good_maps M -> Forall scalar cs -> (m = Copied \/ exists b, before = Some b /\ (b < 256)%N) ->
  exists s, create M UTF8 m before (utf8 cs ++ 0%N :: r) = Some s /\ get_length M s = Some (length cs) /\
    forall i c, nth_error cs i = Some c -> char_at M s i = Some c.
Proof.
  intros M m before cs r GM S Hm. destruct (create_ok M GM UTF8 m before cs r (scalar_encodable cs S) Hm) as (s & E & R & _). exists s. split; [exact E|].
  split; [now apply get_length_ok|]. intros i c Ei. now apply (c26_character M s cs).
Qed.
Print Assumptions c27_length_and_characters.

Lemma utf8_quiet M m before mem s : create M UTF8 m before mem = Some s -> quiet s.
Proof.
  unfold create, create_from. destruct (strlen mem) as [n|]; [|discriminate]. destruct (create_tagged M mem n UTF8) as [w|]; [|discriminate].
  destruct (negb (w =? 0)%N); [intros E; injection E as <-; exact Logic.I|].
  destruct m; [destruct (strncpy mem n); [|discriminate]|..]; intros E; injection E as <-; cbn; discriminate.
Qed.

(** Any mixture of head, tail, next, previous and current. *)
Theorem c27_enumerate : forall M m before cs r steps places, good_maps M -> Forall scalar cs -> cs <> [] -> (m = Copied \/ exists b, before = Some b /\ (b < 256)%N) ->
  walked cs (At 0) steps = Some places ->
  exists s st, create M UTF8 m before (utf8 cs ++ 0%N :: r) = Some s /\ get_enumerator M s = Some st /\ enumerated M s st steps = Some places.
Proof.
  intros M m before cs r steps places GM S Hne Hm W. destruct (create_ok M GM UTF8 m before cs r (scalar_encodable cs S) Hm) as (s & E & R & _).
  destruct (get_enumerator_ok M GM s cs R Hne) as (st & Es & P). exists s, st. split; [exact E|]. split; [exact Es|].
  apply (enumerated_ok M GM s cs R Hne (utf8_quiet M m before _ s E) steps st (At 0) places P W).
Qed.
Print Assumptions c27_enumerate.

(** No characters: the enumerator is at a 0 and then past the end. *)
Theorem c27_enumerate_empty : forall M m before r, good_maps M -> (m = Copied \/ exists b, before = Some b /\ (b < 256)%N) ->
  exists s st, create M UTF8 m before (utf8 [] ++ 0%N :: r) = Some s /\ get_enumerator M s = Some st /\ enum_current s st = Some 0%N /\
    exists st', enum_move M s st Next = Some (st', 0%N) /\ enum_index st' = None.
Proof.
  intros M m before r GM Hm. destruct (create_ok M GM UTF8 m before [] r (Forall_nil _) Hm) as (s & E & R & T). pose proof (proj2 T (empty_fits M)) as Ht.
  destruct (get_enumerator_empty M GM s R) as (st & Es & Ec & _ & Em). exists s, st. split; [exact E|]. split; [exact Es|]. split; [exact Ec|].
  eexists. split; [exact Em|]. destruct s; [reflexivity|discriminate].
Qed.
Print Assumptions c27_enumerate_empty.

(** ** C51: enumerating any string *)

Theorem c51_enumerate_partial : forall M s cs steps places, good_maps M -> represents M s cs -> cs <> [] -> quiet s -> walked cs (At 0) steps = Some places ->
  exists st, get_enumerator M s = Some st /\ enum_current s st = Some (nth 0 cs 0%N) /\ enumerated M s st steps = Some places.
Proof.
  intros M s cs steps places GM R Hne Q W. destruct (get_enumerator_ok M GM s cs R Hne) as (st & Es & P). exists st. split; [exact Es|].
  split; [exact (positioned_current M s cs st _ R P)|]. exact (enumerated_ok M GM s cs R Hne Q steps st (At 0) places P W).
Qed.
Print Assumptions c51_enumerate_partial.

(** A string in ASCII that was not copied gives the byte in front of it as a 14th character. *)
Theorem c51_enumerate_refuted : exists s st, create E0 ASCII Borrowed (Some 109%N) (letters ++ [33; 0])%N = Some s /\ represents E0 s (letters ++ [33%N]) /\
  get_enumerator E0 s = Some st /\
  match enumerated E0 s st (repeat Next 13) with Some l => map snd l = skipn 1 letters ++ [33; 109]%N | None => False end.
Proof.
  assert (Se : Forall (encodable ASCII) (letters ++ [33%N])) by (now apply ascii_ok).
  destruct (create_ok E0 E0_good ASCII Borrowed (Some 109%N) (letters ++ [33%N]) [] Se) as (s & E & R & _); [right; exists 109%N; split; [reflexivity|lia]|].
  destruct (get_enumerator_ok E0 E0_good s _ R ltac:(discriminate)) as (st & Es & _). exists s, st. split; [exact E|]. split; [exact R|]. split; [exact Es|].
  vm_compute in E. injection E as <-. vm_compute in Es. injection Es as <-. vm_compute. reflexivity.
Qed.
Print Assumptions c51_enumerate_refuted.

(** ** C49: a size given at creation *)

Theorem c49_sized_copy : forall M e before cs rest, good_maps M -> Forall (encodable e) cs ->
  exists s, create_with_size M e Copied before (encode e cs ++ rest) (length (encode e cs)) = Some s /\ represents M s cs.
Proof. intros M e before cs rest GM Se. destruct (create_with_size_ok M GM e before cs rest Se) as (s & E & R & _). eauto. Qed.
Print Assumptions c49_sized_copy.

(** Not copied: in ASCII, or when the 0 is where the size says. *)
Theorem c49_sized_partial : forall M e m b cs rest, good_maps M -> (b < 256)%N -> Forall (encodable e) cs -> strlen (encode e cs ++ rest) <> None ->
  (e = ASCII \/ exists r, rest = 0%N :: r) ->
  exists s, create_with_size M e m (Some b) (encode e cs ++ rest) (length (encode e cs)) = Some s /\ represents M s cs.
Proof.
  intros M e m b cs rest GM Hb Se Hl Hr. destruct (create_from_ok M GM e m (Some b) cs rest false Se) as (s & E & R & _); [|eauto].
  right. split; [now exists b|]. split; [tauto|now right].
Qed.
Print Assumptions c49_sized_partial.

(** In UTF-8 without a copy the length and the enumerator go on to the 0: the first 2 of 14 characters that no map has. *)
Theorem c49_sized_refuted : exists s, create_with_size E0 UTF8 Borrowed (Some 0%N) (utf8 (repeat 0x20ac%N 14) ++ [0%N]) (length (utf8 (repeat 0x20ac%N 2))) = Some s /\
  get_size E0 s = Some (length (utf8 (repeat 0x20ac%N 2))) /\ get_length E0 s = Some 14 /\ char_at E0 s 13 = Some 0x20ac%N.
Proof. eexists. split; [vm_compute; reflexivity|]. split; [reflexivity|]. split; vm_compute; reflexivity. Qed.
Print Assumptions c49_sized_refuted.

(** ** C28: search *)

Theorem c28_find_partial : forall M s sub cs scs i, good_maps M -> represents M s cs -> represents M sub scs -> scs <> [] -> i <= length cs ->
  exists r, find M s i sub = Some r /\ (~ overlooked M s sub cs scs i -> least scs cs i r) /\ (overlooked M s sub cs scs i -> r = None).
Proof. intros. now apply find_ok. Qed.
Print Assumptions c28_find_partial.

(** "abcdefghijkl" is not found in itself, nor "kl" in it. *)
Theorem c28_find_refuted : represents E0 (Tagged (word3 letters)) letters /\ represents E0 (Tagged (word3 [107; 108]%N)) [107; 108]%N /\
  least [107; 108]%N letters 0 (Some 10) /\ find E0 (Tagged (word3 letters)) 0 (Tagged (word3 [107; 108]%N)) = Some None /\
  least letters letters 0 (Some 0) /\ find E0 (Tagged (word3 letters)) 0 (Tagged (word3 letters)) = Some None.
Proof.
  split; [apply word3_ok; [repeat constructor; lia|cbn; lia]|]. split; [apply word3_ok; [repeat constructor; lia|cbn; lia]|].
  split; [split; [lia|]; split; [exists (firstn 10 letters), []; now split|]|split; [vm_compute; reflexivity|split; [|vm_compute; reflexivity]]].
  - intros q Hq. rewrite occurs_iff by discriminate. do 10 (destruct q as [|q]; [discriminate|]). lia.
  - split; [lia|]. split; [exists [], []; now split|]. lia.
Qed.
Print Assumptions c28_find_refuted.

(** The empty substring: a shift by 64 when both are inline with the same map; otherwise it is nowhere. *)
Theorem c28_find_empty_refuted : represents E0 (Tagged (word3 letters)) letters /\ represents E0 (Tagged 3) [] /\ least [] letters 0 (Some 0) /\
  find E0 (Tagged (word3 letters)) 0 (Tagged 3) = None /\ find E0 (constant ASCII letters) 0 (Tagged 3) = Some None.
Proof.
  split; [apply word3_ok; [repeat constructor; lia|cbn; lia]|]. split; [apply (word3_ok []); [constructor|cbn; lia]|].
  split; [split; [lia|]; split; [exists [], letters; now split|lia]|]. split; vm_compute; reflexivity.
Qed.
Print Assumptions c28_find_empty_refuted.

(** ** C28: replacing *)

Theorem c28_replace_partial : forall M s occ rep cs ocs rcs, good_maps M -> (junk M < 256)%N -> represents M s cs -> represents M occ ocs -> represents_or_null M rep rcs ->
  ocs <> [] -> safe occ ocs cs ->
  exists t out, replace M s occ rep = Some t /\ represents M t out /\ replaced ocs rcs cs out.
Proof. intros. now apply replace_ok. Qed.
Print Assumptions c28_replace_partial.

Theorem c28_replace_any_partial : forall M s occs reps cs ocss rcss, good_maps M -> (junk M < 256)%N -> represents M s cs -> Forall2 (represents M) occs ocss ->
  Forall2 (represents_or_null M) reps rcss -> length occs = length reps -> Forall (fun c => c <> []) ocss -> all_safe occs ocss cs ->
  exists t out, replace_any M s occs reps = Some t /\ represents M t out /\ replaced_any ocss rcss cs out.
Proof. intros. now apply replace_any_ok. Qed.
Print Assumptions c28_replace_any_partial.

(** "kl" in "abcdefghijkl" is not replaced by "x". *)
Theorem c28_replace_refuted : exists t, replace E0 (Tagged (word3 letters)) (Tagged (word3 [107; 108]%N)) (Some (Tagged (word3 [120%N]))) = Some t /\
  represents E0 t letters /\ ~ replaced [107; 108]%N [120%N] letters letters.
Proof.
  exists (Tagged (word3 letters)). split; [vm_compute; reflexivity|]. split; [apply word3_ok; [repeat constructor; lia|cbn; lia]|]. intros H.
  inversion H as [cs Hn E|pre post out Hp Hr E E']; subst.
  - apply Hn. exists 10. exists (firstn 10 letters), []. now split.
  - apply app_inv_head in E'. discriminate.
Qed.
Print Assumptions c28_replace_refuted.

(** ** C28: separating and joining *)

Theorem c28_split_partial : forall M s occ cs ocs, good_maps M -> (junk M < 256)%N -> represents M s cs -> represents M occ ocs -> ocs <> [] ->
  ~ overlooked M s occ cs ocs 0 ->
  exists l ls, split M s occ = Some l /\ Forall2 (represents M) l ls /\ pieces ocs cs ls.
Proof. intros. now apply split_ok. Qed.
Print Assumptions c28_split_partial.

(** When the search goes wrong there is one piece, with the separator in it. *)
Theorem c28_split_refuted : forall M s occ cs ocs, good_maps M -> (junk M < 256)%N -> represents M s cs -> represents M occ ocs -> ocs <> [] -> overlooked M s occ cs ocs 0 ->
  exists t, split M s occ = Some [t] /\ represents M t cs /\ contains ocs cs.
Proof.
  intros M s occ cs ocs GM J R Ro Hne Ho. destruct (split_overlooked M GM J s occ cs ocs R Ro Hne Ho) as (t & E & R'). exists t. split; [exact E|]. split; [exact R'|].
  destruct Ho as (_ & (_ & O & _) & _). eexists. exact O.
Qed.
Print Assumptions c28_split_refuted.

Theorem c28_split_any_partial : forall M s occs cs ocss, good_maps M -> (junk M < 256)%N -> represents M s cs -> Forall2 (represents M) occs ocss -> Forall (fun c => c <> []) ocss ->
  (forall k occ ocs, nth_error occs k = Some occ -> nth_error ocss k = Some ocs -> ~ overlooked M s occ cs ocs 0) ->
  exists l ls, split_any M s occs = Some l /\ Forall2 (represents M) l ls /\ pieces_any ocss cs ls /\
    Forall (fun x => forall ocs, In ocs ocss -> ~ contains ocs x) ls.
Proof.
  intros M s occs cs ocss GM J R Fo Hne Hno. destruct (split_any_ok M GM J s occs cs ocss R Fo Hne Hno) as (l & ls & E & F & P). exists l, ls.
  split; [exact E|]. split; [exact F|]. split; [exact P|]. apply (pieces_any_without ocss cs); [|exact P]. now apply Forall_forall.
Qed.
Print Assumptions c28_split_any_partial.

Theorem c28_join : forall M l sep ls scs, good_maps M -> (junk M < 256)%N -> Forall2 (represents M) l ls -> represents_or_null M sep scs ->
  exists t, join M l sep = Some t /\ represents M t (joined scs ls).
Proof. intros. now apply join_ok. Qed.
Print Assumptions c28_join.

(** Separate, then join: the string is back, and no piece has the separator in it. *)
Theorem c28_split_join_partial : forall M s occ cs ocs, good_maps M -> (junk M < 256)%N -> represents M s cs -> represents M occ ocs -> ocs <> [] ->
  ~ overlooked M s occ cs ocs 0 ->
  exists l ls t, split M s occ = Some l /\ Forall2 (represents M) l ls /\ Forall (fun x => ~ contains ocs x) ls /\ join M l (Some occ) = Some t /\ represents M t cs.
Proof.
  intros M s occ cs ocs GM J R Ro Hne Hno. destruct (split_ok M GM J s occ cs ocs R Ro Hne Hno) as (l & ls & E & F & P).
  destruct (join_ok M GM J l (Some occ) ls ocs F Ro) as (t & Et & Rt). rewrite (pieces_joined ocs cs ls P) in Rt. exists l, ls, t.
  split; [exact E|]. split; [exact F|]. split; [now apply (pieces_without ocs cs)|]. now split.
Qed.
Print Assumptions c28_split_join_partial.

(** ** Cases *)

Example c26_case : good_maps E0 /\ represents E0 (Tagged (word3 letters)) letters /\
  substring E0 (Tagged (word3 letters)) 2 3 = Some (Tagged (word3 [99; 100; 101]%N)) /\
  insert E0 (Tagged (word3 [97; 98]%N)) 1 (Tagged (word3 [120; 121]%N)) = Some (Tagged (word3 [97; 120; 121; 98]%N)) /\
  create E0 ASCII Borrowed (Some 0%N) [97; 66; 0]%N = Some (Tagged (2 + 4 * (23 + 64 * 50))).
Proof. split; [apply E0_good|]. split; [apply word3_ok; [repeat constructor; lia|cbn; lia]|]. repeat split; vm_compute; reflexivity. Qed.

Definition wide : list N := [0x7f; 0x80; 0x7ff; 0x800; 0xd7ff; 0xe000; 0xffff; 0x10000; 0x10ffff]%N.
Example c27_case : Forall scalar wide /\
  walked wide (At 0) [Next; Next; Previous; Tail; Previous; Next; Next; Head; Current]
  = Some [(Some 1, 0x80%N); (Some 2, 0x7ff%N); (Some 1, 0x80%N); (Some 8, 0x10ffff%N); (Some 7, 0x10000%N); (Some 8, 0x10ffff%N); (None, 0%N); (Some 0, 0x7f%N); (Some 0, 0x7f%N)].
Proof. split; [|reflexivity]. unfold wide. repeat (apply Forall_cons; [split; [lia|intros [? ?]; lia]|]). apply Forall_nil. Qed.

(** "ababa" with "aba": the first of two overlapping occurrences. *)
Example c28_case : represents E0 (Tagged (word3 [97; 98; 97; 98; 97]%N)) [97; 98; 97; 98; 97]%N /\ represents E0 (constant ASCII [97; 98; 97]%N) [97; 98; 97]%N /\
  safe (constant ASCII [97; 98; 97]%N) [97; 98; 97]%N [97; 98; 97; 98; 97]%N /\
  replace E0 (Tagged (word3 [97; 98; 97; 98; 97]%N)) (constant ASCII [97; 98; 97]%N) (Some (Tagged (word3 [120%N]))) = Some (Tagged (word3 [120; 98; 97]%N)) /\
  split E0 (Tagged (word3 [97; 98; 97; 98; 97]%N)) (Tagged (word3 [98%N])) = Some [Tagged (word3 [97%N]); Tagged (word3 [97%N]); Tagged (word3 [97%N])].
Proof.
  split; [apply word3_ok; [repeat constructor; lia|cbn; lia]|]. split; [apply (constant_ok E0 ASCII); now apply ascii_ok|].
  split; [exact Logic.I|]. split; vm_compute; reflexivity.
Qed.

(** The case of [c28_split_refuted]. *)
Example c28_overlooked_case : overlooked E0 (Tagged (word3 letters)) (Tagged (word3 [107; 108]%N)) letters [107; 108]%N 0.
Proof. split; [reflexivity|]. split; [exact (proj1 (proj2 (proj2 c28_find_refuted)))|]. split; vm_compute; reflexivity. Qed.
