(** C22: circular memory and byte order. [h] is the hardware's endianness, [o] the kind of call. *)
From Verif Require Import Base MemoryModel MemorySpec MemoryProofs.

(** A write of n whole values changes exactly their n * vs bytes (modulo the size), and memory then holds each
    value in the stated byte order. *)
Theorem c22_write_values (h : endian) (o : order) (vs n : nat) (mem buf : list N) (off : N) :
  vs <> 0 -> mem <> [] -> n * vs <= length mem -> (off + N.of_nat (n * vs) < 2 ^ 64)%N -> length buf = n * vs ->
  exists mem', write h o vs mem (length mem) off (n * vs) buf = Some mem' /\ length mem' = length mem /\
    (forall v, v < n -> number (memory_order h o) (mem_value vs v mem' off) = number h (value vs v buf)) /\
    (forall p, (forall k, k < n * vs -> p <> place (length mem) off k) -> nth_error mem' p = nth_error mem p).
Proof.
  intros Hv Hm Hc Ho Hb. destruct (write_spec h o vs mem off (n * vs) buf Hv Hc Ho) as (mem' & A & B & C & D).
  { intros l Hl. rewrite Hb. now apply index_bound. }
  exists mem'. split; [exact A|]. split; [exact B|]. split; [|exact D]. intros v Hvn.
  assert (Hm' : mem' <> []) by (destruct mem; [congruence|destruct mem'; discriminate]).
  apply orders_agree with (vs := vs); [now apply value_length with n|apply mem_value_length|].
  intros j Hj. rewrite mem_value_nth by auto. rewrite B, C by nia. rewrite index_value by auto.
  rewrite value_nth; [reflexivity|]. pose proof (index_bound h o vs j 1 Hv ltac:(lia)). lia.
Qed.
Print Assumptions c22_write_values.

(** A read of n whole values gives each value, from bytes in the stated order, and leaves the rest of the buffer. *)
Theorem c22_read_values (h : endian) (o : order) (vs n : nat) (mem buf : list N) (off : N) :
  vs <> 0 -> mem <> [] -> (off + N.of_nat (n * vs) < 2 ^ 64)%N -> n * vs <= length buf ->
  exists buf', read h o vs mem (length mem) off (n * vs) buf = Some buf' /\ length buf' = length buf /\
    (forall v, v < n -> number h (value vs v buf') = number (memory_order h o) (mem_value vs v mem off)) /\
    (forall p, n * vs <= p -> nth_error buf' p = nth_error buf p).
Proof.
  intros Hv Hm Ho Hb. destruct (read_spec h o vs mem off (n * vs) buf Hv (or_intror Hm) Ho) as (buf' & A & B & C & D).
  { intros l Hl. pose proof (index_bound h o vs l n Hv Hl). lia. }
  exists buf'. split; [exact A|]. split; [exact B|]. split.
  - intros v Hvn. symmetry. apply orders_agree with (vs := vs); [|apply mem_value_length|].
    + unfold value. rewrite firstn_length, skipn_length. nia.
    + intros j Hj. rewrite mem_value_nth by auto. rewrite <- C by nia. rewrite index_value by auto.
      rewrite value_nth; [reflexivity|]. pose proof (index_bound h o vs j 1 Hv ltac:(lia)). lia.
  - intros p Hp. apply D. intros k Hk. pose proof (index_bound h o vs k n Hv Hk). lia.
Qed.
Print Assumptions c22_read_values.

(** Reading back what was written, with the same kind of call, any byte count and any offset, gives the bytes
    written: byte positions the write did not take from the buffer are left as they were in the destination. *)
Theorem c22_round_trip (h : endian) (o : order) (vs count : nat) (mem buf dst : list N) (off : N) :
  vs <> 0 -> count <= length mem -> (off + N.of_nat count < 2 ^ 64)%N ->
  (forall l, l < count -> index_of h o vs l < length buf) -> length dst = length buf ->
  exists mem' dst', write h o vs mem (length mem) off count buf = Some mem' /\
    read h o vs mem' (length mem') off count dst = Some dst' /\ length dst' = length dst /\
    (forall l, l < count -> nth_error dst' (index_of h o vs l) = nth_error buf (index_of h o vs l)) /\
    (forall p, (forall l, l < count -> p <> index_of h o vs l) -> nth_error dst' p = nth_error dst p).
Proof.
  intros Hv Hc Ho Hb Hd. destruct (write_spec h o vs mem off count buf Hv Hc Ho Hb) as (mem' & A & B & C & D).
  destruct (read_spec h o vs mem' off count dst Hv) as (dst' & A' & B' & C' & D'); auto.
  { destruct mem'; [left; cbn in B; lia|right; discriminate]. }
  { intros l Hl. rewrite Hd. auto. }
  exists mem', dst'. split; [exact A|]. split; [exact A'|]. split; [exact B'|]. split; [|exact D'].
  intros l Hl. rewrite C', B by auto. apply C. auto.
Qed.
Print Assumptions c22_round_trip.

(** In particular a native write and read of any number of bytes. *)
Theorem c22_round_trip_bytes (h : endian) (vs : nat) (mem buf dst : list N) (off : N) :
  vs <> 0 -> length buf <= length mem -> (off + N.of_nat (length buf) < 2 ^ 64)%N -> length dst = length buf ->
  exists mem', write h Native vs mem (length mem) off (length buf) buf = Some mem' /\
    read h Native vs mem' (length mem') off (length buf) dst = Some buf.
Proof.
  intros Hv Hc Ho Hd. destruct (c22_round_trip h Native vs (length buf) mem buf dst off) as (mem' & dst' & A & B & L & C & _); auto.
  { intros l Hl. cbn [index_of]. now rewrite straight_id. }
  exists mem'. split; auto. rewrite B. f_equal. apply list_ext_nth_error. intros i. destruct (Nat.lt_ge_cases i (length buf)).
  - specialize (C i H). cbn [index_of] in C. now rewrite straight_id in C.
  - transitivity (@None N); [|symmetry]; apply nth_error_None; lia.
Qed.
Print Assumptions c22_round_trip_bytes.

(** CCSwap reverses the bytes, so doing it twice changes nothing. *)
Theorem c22_swap_reverses (data : list N) : swap data (length data) = Some (rev data).
Proof. apply swap_spec. Qed.
Print Assumptions c22_swap_reverses.

Theorem c22_swap_involutive (data : list N) :
  exists d, swap data (length data) = Some d /\ swap d (length d) = Some data.
Proof. exists (rev data). rewrite !swap_spec, rev_involutive. auto. Qed.
Print Assumptions c22_swap_involutive.

Example c22_case : let mem := [0; 0; 0; 0; 0; 0; 0]%N in
  write Little BigEndian 2 mem 7 5%N 4 [1; 2; 3; 4]%N = Some [4; 3; 0; 0; 0; 2; 1]%N /\
  read Little BigEndian 2 [4; 3; 0; 0; 0; 2; 1]%N 7 5%N 4 [9; 9; 9; 9]%N = Some [1; 2; 3; 4]%N /\
  swap [1; 2; 3; 4; 5]%N 5 = Some [5; 4; 3; 2; 1]%N.
Proof. vm_compute. auto. Qed.

(** The calls on a CCData of at least [size] bytes do what the same calls do on its first [size] bytes. *)
Theorem c22_data_read (h : endian) (o : order) (vs : nat) (mem rest : list N) (off : N) (count : nat) (buf : list N) :
  mem <> [] -> (off + N.of_nat count < 2 ^ 64)%N ->
  data_read h o vs (mem ++ rest) (length mem) off count buf = read h o vs mem (length mem) off count buf.
Proof. apply data_read_eq. Qed.
Print Assumptions c22_data_read.
Theorem c22_data_write (h : endian) (o : order) (vs : nat) (mem rest : list N) (off : N) (count : nat) (buf : list N) :
  mem <> [] -> (off + N.of_nat count < 2 ^ 64)%N ->
  data_write h o vs (mem ++ rest) (length mem) off count buf = option_map (fun m => m ++ rest) (write h o vs mem (length mem) off count buf).
Proof. apply data_write_eq. Qed.
Print Assumptions c22_data_write.
Example c22_data_case : data_write Little BigEndian 2 [0; 0; 0; 0; 0; 0; 0; 8]%N 7 9%N 4 [1; 2; 3; 4]%N = Some [0; 0; 2; 1; 4; 3; 0; 8]%N.
Proof. vm_compute. reflexivity. Qed.
