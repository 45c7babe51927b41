(** C101: the version of the system. C102: the names of the process. *)
From Verif Require Import Base LastComponentModel LastComponentSpec LastComponentProps SystemModel SystemSpec SystemProofs.
Local Open Scope N_scope.

(** A version of one, two or three numbers is read as those numbers, the missing ones as 0. *)
Theorem c101_version_partial : forall parts text, (1 <= length parts <= 3)%nat -> Forall is_digits parts ->
  Forall (fun s => number s < 2 ^ 32) parts -> text = pointed parts -> text <> [] ->
  system_version unknown (Some text) = Some (nth 0 (map number parts) 0, nth 1 (map number parts) 0, nth 2 (map number parts) 0).
Proof.
  intros parts text L D B E NE. unfold system_version, unknown. rewrite N.eqb_refl. destruct text as [|c s]; [congruence|]. rewrite E.
  assert (NP : parts <> []) by (intros ->; cbn in L; lia).
  pose proof (parse_parts parts NP D B [] 2 ltac:(lia)) as P. cbn [length app repeat] in P. rewrite P.
  destruct parts as [|a [|b [|d [|]]]]; cbn [length] in L; try lia; reflexivity.
Qed.
Print Assumptions c101_version_partial.

(** A fourth number is written past the end of the array of three. *)
Theorem c101_fourth_refuted : forall a b c d rest, Forall is_digits [a; b; c] -> Forall (fun s => number s < 2 ^ 32) [a; b; c] -> d <> 46 ->
  system_version unknown (Some (pointed [a; b; c] ++ 46 :: d :: rest)) = None.
Proof.
  intros a b c d rest D B H. inversion D as [|? ? Da D1]; subst. inversion D1 as [|? ? Db D2]; subst. inversion D2 as [|? ? Dc _]; subst.
  inversion B as [|? ? Ba B1]; subst. inversion B1 as [|? ? Bb B2]; subst. inversion B2 as [|? ? Bc _]; subst.
  unfold system_version, unknown. rewrite N.eqb_refl. cbn [pointed].
  assert (P : parse ((a ++ 46 :: b ++ 46 :: c) ++ 46 :: d :: rest) 0 [0; 0; 0] = None).
  { rewrite <- app_assoc. cbn [app]. pose proof (parse_digits a Da ((46 :: (b ++ 46 :: c) ++ 46 :: d :: rest)) [] 0 [0; 0] Ba) as P1.
    cbn [length app] in P1. rewrite P1. cbn [parse]. rewrite N.eqb_refl. rewrite <- app_assoc. cbn [app].
    pose proof (parse_digits b Db (46 :: c ++ 46 :: d :: rest) [number a] 0 [0] Bb) as P2. cbn [length app] in P2. rewrite number_is in P2. rewrite P2.
    cbn [parse]. rewrite N.eqb_refl. pose proof (parse_digits c Dc (46 :: d :: rest) [number a; number b] 0 [] Bc) as P3.
    cbn [length app] in P3. rewrite !number_is in P3. rewrite P3. cbn [parse]. rewrite N.eqb_refl. destruct (N.eqb_spec d 46); [congruence|]. reflexivity. }
  destruct ((a ++ 46 :: b ++ 46 :: c) ++ 46 :: d :: rest) as [|x t] eqn:E; [reflexivity|]. now rewrite P.
Qed.
Print Assumptions c101_fourth_refuted.

(** Once known it stays the same, whatever the system answers, and until then it is asked for again. *)
Theorem c101_cached : forall answers a b c, a <> u32_max -> versions (a, b, c) answers = Some (map (fun _ => (a, b, c)) answers).
Proof.
  induction answers as [|x t IH]; intros a b c H; [reflexivity|]. cbn [versions system_version map].
  destruct (N.eqb_spec a u32_max); [congruence|]. now rewrite IH.
Qed.
Print Assumptions c101_cached.

Theorem c101_asked_again : forall n text, text <> [] ->
  versions unknown (repeat None n ++ [Some text]) = (let? v := system_version unknown (Some text) in Some (repeat unknown n ++ [v])).
Proof.
  intros n text NE. induction n as [|n IH].
  - cbn [repeat app versions]. destruct (system_version unknown (Some text)); reflexivity.
  - cbn [repeat app versions]. change (system_version unknown None) with (Some unknown). cbv beta match. rewrite IH.
    destruct (system_version unknown (Some text)); reflexivity.
Qed.
Print Assumptions c101_asked_again.

(** On iOS a later version has a larger literal, so comparing literals compares versions. *)
Theorem c101_ios : forall a b x c d y, b < 100 -> d < 100 -> a < 400000 -> c < 400000 ->
  (version_literal IOS (a, b, x) < version_literal IOS (c, d, y) <-> earlier (a, b) (c, d)).
Proof.
  intros a b x c d y Hb Hd Ha Hc. unfold version_literal, u32, earlier. cbn [fst snd]. rewrite !N.mod_small by lia. lia.
Qed.
Print Assumptions c101_ios.

(** On OS X too, for the versions 10.0 to 10.99, and the literals are those of Availability.h: 1000 to 1090, 101000 on. *)
Theorem c101_osx_partial : forall b x d y, b < 100 -> d < 100 ->
  (version_literal OSX (10, b, x) < version_literal OSX (10, d, y) <-> earlier (10, b) (10, d)) /\
  version_literal OSX (10, b, x) = (if b <? 10 then 1000 + 10 * b else 100000 + 100 * b).
Proof.
  intros b x d y Hb Hd. unfold version_literal, u32, earlier. cbn [fst snd]. rewrite N.leb_refl. cbn [andb].
  destruct (N.leb_spec 10 b), (N.leb_spec 10 d), (N.ltb_spec b 10); rewrite !N.mod_small by lia; lia.
Qed.
Print Assumptions c101_osx_partial.

(** But the versions after those, 11.0 on, have smaller literals than 10.10: features are taken to be missing. *)
Theorem c101_osx_refuted : forall a b x y, 11 <= a <= 1000 -> b < 10 ->
  earlier (10, 10) (a, b) /\ version_literal OSX (a, b, x) < version_literal OSX (10, 10, y).
Proof.
  intros a b x y Ha Hb. unfold version_literal, u32, earlier. cbn [fst snd]. split; [lia|].
  destruct (N.leb_spec 10 b); [lia|]. rewrite andb_false_r. change ((10 <=? 10) && (10 <=? 10)) with true. cbv iota.
  rewrite !N.mod_small by lia. lia.
Qed.
Print Assumptions c101_osx_refuted.

(** "10.15.7" *)
Example c101_ex : system_version unknown (Some [49; 48; 46; 49; 53; 46; 55]) = Some (10, 15, 7) /\
  pointed [[49; 48]; [49; 53]; [55]] = [49; 48; 46; 49; 53; 46; 55] /\ map number [[49; 48]; [49; 53]; [55]] = [10; 15; 7] /\
  Forall is_digits [[49; 48]; [49; 53]; [55]] /\ version_literal OSX (10, 15, 7) = 101500 /\ version_literal IOS (9, 3, 1) = 90300 /\
  version_literal OSX (11, 0, 0) = 1100.
Proof. repeat split; try reflexivity. repeat constructor; lia. Qed.

(** The name of the process is the last component of its path. *)
Theorem c102_name : forall max path dir name, text path -> is_last 47 path dir name [] ->
  process_name max None (Some path) = Some name.
Proof.
  intros max path dir name T H. destruct (c97_found_partial 47 path dir name [] T ltac:(discriminate) H (or_introl eq_refl)) as (off & len & E & D & O & L).
  unfold process_name. rewrite E. assert (len = 0%Z) as -> by (apply L; reflexivity). cbn [Z.eqb]. unfold denotes in D. cbn [Z.eqb] in D.
  destruct D as (_ & _ & D). now rewrite D.
Qed.
Print Assumptions c102_name.

(** Its stripped name is what is left of the name without all but letters and digits. *)
Theorem c102_stripped_partial : forall max name left, Forall (fun c => c < 128) name -> stripped_of name left -> (length left < max)%nat ->
  process_stripped max [] (Some name) = Some left.
Proof.
  intros max name left F H L. apply stripped_unique in H. subst left. unfold process_stripped. now rewrite strip_is.
Qed.
Print Assumptions c102_stripped_partial.

(** Every name has one, so names that are not ASCII, or too long, are all that is left out: they are undefined. *)
Theorem c102_stripped_refuted : forall max name,
  (exists left, stripped_of name left /\ forall other, stripped_of name other -> other = left) /\
  (((exists c, In c name /\ 128 <= c) \/ (exists left, stripped_of name left /\ (max <= length left)%nat)) ->
   process_stripped max [] (Some name) = None).
Proof.
  intros max name. split.
  - exists (filter alnum name). split; [apply filter_stripped|]. intros o H. now apply stripped_unique.
  - intros H. unfold process_stripped. apply strip_none. destruct H as [H|(l & H & L)]; [now left|right].
    apply stripped_unique in H. subst l. exact L.
Qed.
Print Assumptions c102_stripped_refuted.

(** Whatever the calls and whatever path the system answers later, all give the names of the path answered first. *)
Theorem c102_cached_partial : forall max path dir name left asks first, text path -> is_last 47 path dir name [] ->
  Forall (fun c => c < 128) name -> stripped_of name left -> (length left < max)%nat ->
  first = AskName (Some path) \/ first = AskStripped (Some path) ->
  process_calls max (None, []) (first :: asks) = Some (map (fun o => match o with AskName _ => Some name | AskStripped _ => Some left end) (first :: asks)).
Proof.
  intros max path dir name left asks first T H F St L Hf.
  pose proof (c102_name max path dir name T H) as PN. pose proof (c102_stripped_partial max name left F St L) as PS.
  assert (G : forall s, s = [] \/ s = left -> process_calls max (Some name, s) asks
    = Some (map (fun o => match o with AskName _ => Some name | AskStripped _ => Some left end) asks)).
  { induction asks as [|o t IH]; intros s Hs; [reflexivity|]. cbn [process_calls map]. destruct o as [q|q]; cbn [process_call].
    - change (process_name max (Some name) q) with (Some name). cbv beta match. now rewrite IH.
    - assert (E : (match s with [] => process_name max (Some name) q | _ :: _ => Some name end) = Some name) by (destruct s; reflexivity).
      rewrite E. assert (E' : process_stripped max s (Some name) = Some left).
      { destruct Hs as [->| ->]; [exact PS|]. destruct left; [exact PS|reflexivity]. }
      rewrite E'. rewrite IH by now right. reflexivity. }
  destruct Hf as [->| ->]; cbn [process_calls process_call map].
  - rewrite PN. rewrite G by now left. reflexivity.
  - rewrite PN, PS. rewrite G by now right. reflexivity.
Qed.
Print Assumptions c102_cached_partial.

(** "/bin/a-b 2": "a-b 2", stripped "ab2" *)
Example c102_ex : is_last 47 [47; 98; 105; 110; 47; 97; 45; 98; 32; 50] [47; 98; 105; 110; 47] [97; 45; 98; 32; 50] [] /\
  process_name 1024 None (Some [47; 98; 105; 110; 47; 97; 45; 98; 32; 50]) = Some [97; 45; 98; 32; 50] /\
  process_stripped 1024 [] (Some [97; 45; 98; 32; 50]) = Some [97; 98; 50] /\ stripped_of [97; 45; 98; 32; 50] [97; 98; 50].
Proof.
  repeat split; try reflexivity; try discriminate.
  - cbn. intuition discriminate.
  - constructor.
  - right. exists [47; 98; 105; 110]. reflexivity.
  - exact (filter_stripped [97; 45; 98; 32; 50]).
Qed.
