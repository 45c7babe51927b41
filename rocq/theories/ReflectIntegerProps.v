(** C60: integers written by the binary serialisation. *)
From Verif Require Import Base ReflectStreamModel ReflectIntegerModel ReflectIntegerSpec ReflectIntegerProofs.
Local Open Scope Z_scope.

(** Full statement (C60): an integer written from memory of one size and byte order and read into memory of another is the
    same integer, or the nearest one the reader can hold, and the reader takes exactly the bytes written. It is false of
    variable-length integers: see below. *)

(** Integers of a fixed size *)
Theorem c60_fixed : forall signed e1 e2 wire prefer bs,
  bytes bs -> (length bs <= 64)%nat -> (length bs < prefer)%nat ->
  exists out, serialize_integer e1 bs signed true prefer wire = Some out /\
  forall rest, exists bs2, deserialize_integer e2 (length bs) signed true prefer wire (out ++ rest) = Some (bs2, rest) /\
    length bs2 = length bs /\ number signed e2 bs2 = number signed e1 bs.
Proof.
  intros signed e1 e2 wire prefer bs B L P. unfold serialize_integer, deserialize_integer. replace (prefer <=? length bs)%nat with false by lia. cbn [orb negb].
  destruct (fixed_trip e1 e2 wire bs B L) as (out & E & Q). exists out. split; [exact E|]. intros rest. destruct (Q rest) as (bs2 & E2 & _ & L2 & F). exists bs2. split; [exact E2|]. split; [exact L2|]. now rewrite !number_is, L2, F.
Qed.
Print Assumptions c60_fixed.

Example fixed_applies :
  serialize_integer Native [1; 2; 3; 4]%N true true 8 Big = Some [4; 3; 2; 1]%N /\ deserialize_integer Big 4 true true 8 Big [4; 3; 2; 1; 9]%N = Some ([4; 3; 2; 1]%N, [9]%N).
Proof. split; reflexivity. Qed.

(** Variable-length integers that the reader can hold, of the sizes 1, 2 and 4 (up to 7 bytes unsigned, 6 bytes signed), read
    into the same size or another *)
Theorem c60_small_sizes_partial : forall (signed : bool) e1 e2 wire1 wire2 f1 f2 p1 p2 bs n,
  bytes bs -> (1 <= length bs <= if signed then 6 else 7)%nat -> (1 <= n)%nat ->
  (p1 <= length bs)%nat \/ f1 = false -> (p2 <= n)%nat \/ f2 = false ->
  fits signed n (number signed e1 bs) ->
  exists out, serialize_integer e1 bs signed f1 p1 wire1 = Some out /\
  forall rest, exists bs2, deserialize_integer e2 n signed f2 p2 wire2 (out ++ rest) = Some (bs2, rest) /\
    length bs2 = n /\ number signed e2 bs2 = number signed e1 bs.
Proof.
  intros signed e1 e2 wire1 wire2 f1 f2 p1 p2 bs n B L Hn V1 V2 F. unfold serialize_integer, deserialize_integer.
  replace ((p1 <=? length bs)%nat || negb f1) with true by (destruct V1 as [V1| ->]; [replace (p1 <=? length bs)%nat with true by lia; reflexivity|now rewrite orb_true_r]).
  replace ((p2 <=? n)%nat || negb f2) with true by (destruct V2 as [V2| ->]; [replace (p2 <=? n)%nat with true by lia; reflexivity|now rewrite orb_true_r]).
  assert (L64 : (1 <= length bs <= 64)%nat) by (destruct signed; lia). pose proof (magnitude_bounds _ (lowest_first_bytes e1 bs B)) as M. rewrite lowest_first_length, pow256 in M.
  assert (K : kept signed (number signed e1 bs)).
  { pose proof (pow_half (length bs) ltac:(lia)) as PH. destruct signed; cbn [kept].
    - assert (2 ^ (8 * Z.of_nat (length bs) - 1) <= 2 ^ 47) by (apply Z.pow_le_mono_r; lia). rewrite number_is. cbn [andb]. cbn zeta. destruct (Z.leb_spec (2 ^ (8 * Z.of_nat (length bs) - 1)) (magnitude (lowest_first e1 bs))); lia.
    - assert (2 ^ (8 * Z.of_nat (length bs)) <= 2 ^ 56) by (apply Z.pow_le_mono_r; lia). rewrite number_is. cbn [andb]. cbn zeta. lia. }
  destruct signed.
  - destruct (signed_trip e1 e2 bs n B L64 Hn F K) as (out & E & Q). exists out. split; [exact E|]. intros rest. destruct (Q rest) as (bs2 & E2 & _ & L2 & N2). eauto.
  - destruct (unsigned_trip e1 e2 bs n B L64 Hn F K) as (out & E & Q). exists out. split; [exact E|]. intros rest. destruct (Q rest) as (bs2 & E2 & _ & L2 & N2). eauto.
Qed.
Print Assumptions c60_small_sizes_partial.

Example small_sizes_apply :
  number true Native [24; 252]%N = -1000 /\ fits true 4 (-1000) /\ serialize_integer Native [24; 252]%N true false 0 Native = Some [231; 99]%N /\
  deserialize_integer Big 4 true false 0 Native [231; 99; 7]%N = Some ([255; 255; 252; 24]%N, [7]%N) /\ number true Big [255; 255; 252; 24]%N = -1000.
Proof. split; [reflexivity|]. split; [cbn; lia|]. repeat split; reflexivity. Qed.

(** Of any sizes, as long as the number is small enough *)
Theorem c60_variable_partial : forall (signed : bool) e1 e2 wire1 wire2 f1 f2 p1 p2 bs n,
  bytes bs -> (1 <= length bs <= 64)%nat -> (1 <= n)%nat ->
  (p1 <= length bs)%nat \/ f1 = false -> (p2 <= n)%nat \/ f2 = false ->
  fits signed n (number signed e1 bs) -> kept signed (number signed e1 bs) ->
  exists out, serialize_integer e1 bs signed f1 p1 wire1 = Some out /\
  forall rest, exists bs2, deserialize_integer e2 n signed f2 p2 wire2 (out ++ rest) = Some (bs2, rest) /\
    length bs2 = n /\ number signed e2 bs2 = number signed e1 bs.
Proof.
  intros signed e1 e2 wire1 wire2 f1 f2 p1 p2 bs n B L Hn V1 V2 F K. unfold serialize_integer, deserialize_integer.
  replace ((p1 <=? length bs)%nat || negb f1) with true by (destruct V1 as [V1| ->]; [replace (p1 <=? length bs)%nat with true by lia; reflexivity|now rewrite orb_true_r]).
  replace ((p2 <=? n)%nat || negb f2) with true by (destruct V2 as [V2| ->]; [replace (p2 <=? n)%nat with true by lia; reflexivity|now rewrite orb_true_r]).
  destruct signed.
  - destruct (signed_trip e1 e2 bs n B L Hn F K) as (out & E & Q). exists out. split; [exact E|]. intros rest. destruct (Q rest) as (bs2 & E2 & _ & L2 & N2). eauto.
  - destruct (unsigned_trip e1 e2 bs n B L Hn F K) as (out & E & Q). exists out. split; [exact E|]. intros rest. destruct (Q rest) as (bs2 & E2 & _ & L2 & N2). eauto.
Qed.
Print Assumptions c60_variable_partial.

Example variable_applies :
  number false Little [255; 255; 255; 255; 255; 255; 255; 0]%N = 2 ^ 56 - 1 /\ kept false (2 ^ 56 - 1) /\ fits false 8 (2 ^ 56 - 1) /\
  serialize_integer Little [255; 255; 255; 255; 255; 255; 255; 0]%N false false 0 Native = Some [255; 255; 255; 255; 255; 255; 255; 127]%N.
Proof. split; [reflexivity|]. split; [cbn; lia|]. split; [cbn; lia|reflexivity]. Qed.

(** What exactly becomes of the integers of eight bytes: an unsigned one is kept below 2^56, and any other is read as 2^64-1; *)
Theorem c60_unsigned64 : forall e1 e2 bs,
  bytes bs -> length bs = 8%nat ->
  exists out, serialize_integer e1 bs false false 0 Native = Some out /\
  forall rest, exists bs2, deserialize_integer e2 8 false false 0 Native (out ++ rest) = Some (bs2, rest) /\ length bs2 = 8%nat /\
    number false e2 bs2 = if number false e1 bs <? 2 ^ 56 then number false e1 bs else 2 ^ 64 - 1.
Proof.
  intros e1 e2 bs B L. unfold serialize_integer, deserialize_integer. cbn [negb]. rewrite !orb_true_r. destruct (unsigned_64 e1 e2 bs B L) as (out & E & Q). exists out. split; [exact E|]. intros rest. destruct (Q rest) as (bs2 & E2 & _ & L2 & N2). eauto.
Qed.
Print Assumptions c60_unsigned64.

(** a signed one is kept exactly when its bits 48 to 55 are copies of its sign. *)
Theorem c60_signed64 : forall e1 e2 bs,
  bytes bs -> length bs = 8%nat ->
  let v := number true e1 bs in
  exists out, serialize_integer e1 bs true false 0 Native = Some out /\
  forall rest, exists bs2, deserialize_integer e2 8 true false 0 Native (out ++ rest) = Some (bs2, rest) /\ length bs2 = 8%nat /\
    (number true e2 bs2 = v <-> (v / 2 ^ 48) mod 256 = if v <? 0 then 255 else 0).
Proof.
  intros e1 e2 bs B L v. unfold serialize_integer, deserialize_integer. cbn [negb]. rewrite !orb_true_r. destruct (signed_64 e1 e2 bs B L) as (out & E & Q). exists out. split; [exact E|]. intros rest. destruct (Q rest) as (bs2 & E2 & _ & L2 & N2). eauto.
Qed.
Print Assumptions c60_signed64.

(** The values of the full statement that are lost: 2^56 becomes 2^64-1 and 2^48 becomes 0 though the reader can hold them; and
    0x18000 becomes 0x8000 when it is read into two bytes. *)
Theorem c60_refuted :
  (exists bs out bs2, bytes bs /\ serialize_integer Native bs false false 0 Native = Some out /\ deserialize_integer Native 8 false false 0 Native out = Some (bs2, []) /\
     number false Native bs = 2 ^ 56 /\ number false Native bs2 = 2 ^ 64 - 1) /\
  (exists bs out bs2, bytes bs /\ serialize_integer Native bs true false 0 Native = Some out /\ deserialize_integer Native 8 true false 0 Native out = Some (bs2, []) /\
     number true Native bs = 2 ^ 48 /\ number true Native bs2 = 0) /\
  (exists bs out bs2, bytes bs /\ serialize_integer Native bs false false 0 Native = Some out /\ deserialize_integer Native 2 false false 0 Native out = Some (bs2, []) /\
     number false Native bs = 98304 /\ nearest false 2 98304 = 65535 /\ number false Native bs2 = 32768).
Proof.
  split; [|split].
  - exists [0; 0; 0; 0; 0; 0; 0; 1]%N, [128; 128; 128; 128; 128; 128; 128; 128; 0]%N, [255; 255; 255; 255; 255; 255; 255; 255]%N. split; [repeat constructor|]. repeat split; reflexivity.
  - exists [0; 0; 0; 0; 0; 0; 1; 0]%N, [128; 128; 128; 128; 128; 128; 128; 0]%N, [0; 0; 0; 0; 0; 0; 0; 0]%N. split; [repeat constructor|]. repeat split; reflexivity.
  - exists [0; 128; 1; 0]%N, [128; 128; 65]%N, [0; 128]%N. split; [repeat constructor|]. repeat split; reflexivity.
Qed.
Print Assumptions c60_refuted.
