(** C24, C25: data objects. *)
From Verif Require Import Base DataModel DataSpec DataProofs.

(** * C25 *)

(** For every interface that does its part, any preferred map size: the transfer moves the first [c] of the [n] bytes
    asked for, all of them unless the interface's maps are short, says so, and changes nothing else. *)
Theorem c25_read {St} (I : interface St) inv contents okr okw full (d : data St) (off n : nat) (buf : list N) :
  lawful I inv contents okr okw full -> inv (d_int d) ->
  off + n <= length (contents (d_int d)) -> n <= length buf -> provided okr (i_pms I (d_int d)) off n ->
  exists d' c, read_buffer I d off n buf = Some (d', overwrite buf 0 (slice (contents (d_int d)) off c), c) /\ count_ok full c n /\
    contents (d_int d') = contents (d_int d).
Proof.
  intros L Hi Hb Hl Hp. destruct (read_buffer_ok I inv contents okr okw full L d off n buf Hi Hb Hl (fun _ => Hp)) as (d' & c & E1 & E2 & (S1 & _) & _). eauto.
Qed.
Print Assumptions c25_read.

Theorem c25_write {St} (I : interface St) inv contents okr okw full (d : data St) (off n : nat) (buf : list N) :
  lawful I inv contents okr okw full -> inv (d_int d) ->
  off + n <= length (contents (d_int d)) -> n <= length buf -> provided okw (i_pms I (d_int d)) off n ->
  exists d' c, write_buffer I d off n buf = Some (d', c) /\ count_ok full c n /\
    contents (d_int d') = overwrite (contents (d_int d)) off (slice buf 0 c).
Proof.
  intros L Hi Hb Hl Hp. destruct (write_buffer_ok I inv contents okr okw full L d off n buf Hi Hb Hl (fun _ => Hp)) as (d' & c & E1 & E2 & E3 & _). eauto.
Qed.
Print Assumptions c25_write.

Theorem c25_fill {St} (I : interface St) inv contents okr okw full (d : data St) (off n : nat) (v : N) :
  lawful I inv contents okr okw full -> inv (d_int d) ->
  off + n <= length (contents (d_int d)) -> provided okw (i_pms I (d_int d)) off n ->
  exists d' c, fill_buffer I d off n v = Some (d', c) /\ count_ok full c n /\
    contents (d_int d') = overwrite (contents (d_int d)) off (repeat v c).
Proof.
  intros L Hi Hb Hp. destruct (fill_buffer_ok I inv contents okr okw full L d off n v Hi Hb (fun _ => Hp)) as (d' & c & E1 & E2 & E3 & _). eauto.
Qed.
Print Assumptions c25_fill.

(** Between two objects of any two interfaces; the pieces are those of the source's preferred size. *)
Theorem c25_copy {St T} (I : interface St) inv contents okr okw (J : interface T) jinv jcontents jokr jokw jfull (d : data St) (e : data T) (off n doff : nat) :
  lawful I inv contents okr okw True -> lawful J jinv jcontents jokr jokw jfull -> inv (d_int d) -> jinv (d_int e) ->
  off + n <= length (contents (d_int d)) -> doff + n <= length (jcontents (d_int e)) ->
  provided okr (i_pms I (d_int d)) off n -> provided jokw (i_pms I (d_int d)) doff n ->
  exists d' e' c, copy_pieces I J d e off n doff = Some (d', e', c) /\ count_ok jfull c n /\ contents (d_int d') = contents (d_int d) /\
    jcontents (d_int e') = overwrite (jcontents (d_int e)) doff (slice (contents (d_int d)) off c).
Proof.
  intros L M Hi Hj Hb Hc Hp Hq. destruct (copy_pieces_ok I inv contents okr okw L J jinv jcontents jokr jokw jfull M d e off n doff Hi Hj Hb Hc Hp Hq)
    as (d' & e' & c & E1 & E2 & (S1 & _) & E3 & _). eauto 8.
Qed.
Print Assumptions c25_copy.

(** Between two objects of one interface, which may have a shortcut. *)
Theorem c25_copy_same {St} (I : interface St) inv contents okr okw (d e : data St) (off n doff : nat) :
  lawful I inv contents okr okw True -> inv (d_int d) -> inv (d_int e) ->
  off + n <= length (contents (d_int d)) -> doff + n <= length (contents (d_int e)) ->
  provided okr (i_pms I (d_int d)) off n -> provided okw (i_pms I (d_int d)) doff n ->
  exists d' e', copy_buffer I d e off n doff = Some (d', e', n) /\ contents (d_int d') = contents (d_int d) /\
    contents (d_int e') = overwrite (contents (d_int e)) doff (slice (contents (d_int d)) off n).
Proof.
  intros L Hi Hj Hb Hc Hp Hq. unfold copy_buffer. destruct (i_copy I) as [f|] eqn:Ef.
  - destruct (law_opt_copy _ _ _ _ _ _ L f Ef _ _ _ _ _ Hi Hj Hb Hc) as (t & E1 & E2 & _). rewrite E1. eauto.
  - destruct (copy_pieces_ok I inv contents okr okw L I inv contents okr okw True L d e off n doff Hi Hj Hb Hc Hp Hq) as (d' & e' & c & E1 & (E2 & E4) & (S1 & _) & E3 & _).
    rewrite E4 in * by exact Logic.I. eauto.
Qed.
Print Assumptions c25_copy_same.

(** CCDataBuffer does its part for every request; so does a piecewise interface for pieces up to its preferred size [p],
    short when it never maps more than [q] < [p] bytes. *)
Theorem c25_buffer : lawful buffer_interface (fun _ => True) (fun s => s) (fun _ _ => True) (fun _ _ => True) True.
Proof. exact buffer_lawful. Qed.
Print Assumptions c25_buffer.
Theorem c25_piecewise (p q : nat) : lawful (piece_interface p q) (fun _ => True) (fun s => s) (fun _ n => n <= p) (fun _ n => n <= p) (p <= q).
Proof. apply piece_lawful. auto. Qed.
Print Assumptions c25_piecewise.

(** Containers: reads of at least one byte at any offset, and writes of whole elements. *)
Theorem c25_container_partial (es : nat) : es <> 0 ->
  lawful container_interface (cinv es) bytes_of (fun _ n => n <> 0) (fun off n => n <> 0 /\ off mod es = 0 /\ n mod es = 0) True.
Proof. apply container_lawful. Qed.
Print Assumptions c25_container_partial.

(** Any byte range can be changed through a map opened for reading and writing. *)
Theorem c25_container_read_write_map (es : nat) (s : container) (off : nat) (bytes : list N) :
  whole s /\ c_es s = es -> off + length bytes <= length (bytes_of s) -> bytes <> [] ->
  exists m m' s', container_map s off (length bytes) RW = Some m /\ peek m = Some (slice (bytes_of s) off (length bytes)) /\
    poke m bytes = Some m' /\ container_unmap s m' = Some s' /\ (whole s' /\ c_es s' = es) /\ bytes_of s' = overwrite (bytes_of s) off bytes.
Proof. apply container_rw. Qed.
Print Assumptions c25_container_read_write_map.

(** Writing part of an element through CCDataWriteBuffer stores whatever the fresh map held around it: of four bytes, one
    is written, and all change. *)
Theorem c25_container_write_refuted : exists s off buf d',
  (whole s /\ off + length buf <= length (bytes_of s)) /\
  write_buffer container_interface (create s) off (length buf) buf = Some (d', length buf) /\
  bytes_of (d_int d') <> overwrite (bytes_of s) off buf.
Proof.
  exists {| c_elems := [[1; 2]; [3; 4]]%N; c_es := 2; c_junk := fun _ => 0xee%N |}, 1, [9%N].
  eexists. split; [split; [split; [discriminate|repeat constructor]|cbn; lia]|]. split; [vm_compute; reflexivity|]. vm_compute. discriminate.
Qed.
Print Assumptions c25_container_write_refuted.

(** Reading no bytes at all copies elements into an empty allocation. *)
Theorem c25_container_empty_refuted : exists s, whole s /\ read_buffer container_interface (create s) 0 0 [] = None.
Proof. exists {| c_elems := [[1; 2]]%N; c_es := 2; c_junk := fun _ => 0%N |}. split; [split; [discriminate|repeat constructor]|reflexivity]. Qed.
Print Assumptions c25_container_empty_refuted.

(** Concrete cases: 7 bytes at offset 2 in pieces of 3, whole and short; a container read across three elements. *)
Definition ten : list N := [0; 1; 2; 3; 4; 5; 6; 7; 8; 9]%N.
Example c25_read_case : provided (fun _ n => n <= 3) (i_pms (piece_interface 3 9) ten) 2 7 /\
  option_map (fun r => (snd (fst r), snd r)) (read_buffer (piece_interface 3 9) (create ten) 2 7 (repeat 99%N 8)) = Some ([2; 3; 4; 5; 6; 7; 8; 99]%N, 7) /\
  option_map (fun r => (snd (fst r), snd r)) (read_buffer (piece_interface 3 2) (create ten) 2 7 (repeat 99%N 8)) = Some ([2; 3; 99; 99; 99; 99; 99; 99]%N, 2).
Proof.
  split; [|vm_compute; auto]. cbn [provided piece_interface i_pms]. split; [discriminate|]. split; [auto|]. vm_compute. lia.
Qed.
Example c25_write_case :
  option_map (fun r => (d_int (fst r), snd r)) (write_buffer (piece_interface 3 9) (create ten) 2 7 (repeat 99%N 8)) = Some ([0; 1; 99; 99; 99; 99; 99; 99; 99; 9]%N, 7) /\
  option_map (fun r => (d_int (fst r), snd r)) (fill_buffer (piece_interface 4 9) (create ten) 1 8 7) = Some ([0; 7; 7; 7; 7; 7; 7; 7; 7; 9]%N, 8).
Proof. vm_compute. auto. Qed.
Definition boxes : container := {| c_elems := [[1; 2; 3]; [4; 5; 6]; [7; 8; 9]]%N; c_es := 3; c_junk := fun _ => 0xee%N |}.
Example c25_container_case : (whole boxes /\ c_es boxes = 3) /\
  option_map (fun r => (snd (fst r), snd r)) (read_buffer container_interface (create boxes) 2 5 (repeat 0%N 5)) = Some ([3; 4; 5; 6; 7]%N, 5) /\
  option_map (fun r => (bytes_of (d_int (fst r)), snd r)) (write_buffer container_interface (create boxes) 3 6 (repeat 0%N 6)) = Some ([1; 2; 3; 0; 0; 0; 0; 0; 0]%N, 6).
Proof. split; [split; [split; [discriminate|repeat constructor]|reflexivity]|vm_compute; auto]. Qed.
(** A copy from a container into a piecewise buffer. *)
Example c25_copy_case :
  option_map (fun r => (d_int (snd (fst r)), snd r)) (copy_pieces container_interface (piece_interface 9 9) (create boxes) (create ten) 1 4 5) = Some ([0; 1; 2; 3; 4; 2; 3; 4; 5; 9]%N, 4).
Proof. vm_compute. reflexivity. Qed.

(** * C24 *)

(** Every history that keeps to the user's part, from creation: every result, the hash among them, is that of the
    current contents. What is missing: histories that read through a map while changes are unhashed, or that ask for the
    hash right after a resize. *)
Theorem c24_hash_partial {St} (I : interface St) inv contents okr okw (h : list N -> N) (s : St) (ops : list (op St)) :
  lawful I inv contents okr okw True -> inv s -> history_ok I inv contents okr okw h (create s) Dirty ops.
Proof. intros L Hi. apply history; auto. reflexivity. Qed.
Print Assumptions c24_hash_partial.

(** Those are wrong. A write, then a read through a map, then the hash: *)
Theorem c24_map_refuted (h : list N -> N) : h [1; 1]%N <> h [1; 2]%N ->
  exists d1 d2 d3 d4 d5, let st := step buffer_interface (fun s => h s) in
    st (create [1; 1]%N) OHash = Some (d1, RHash (h [1; 1]%N)) /\ st d1 (OWrite 1 1 [2%N]) = Some (d2, RCount 1) /\
    st d2 (OMapRead 0 1) = Some (d3, RBytes [1%N]) /\ st d3 (OMapRead 0 2) = Some (d4, RBytes [1; 2]%N) /\
    st d4 OHash = Some (d5, RHash (h [1; 1]%N)) /\ d_int d5 = [1; 2]%N.
Proof. intros _. do 5 eexists. repeat split. Qed.
Print Assumptions c24_map_refuted.

(** On an interface without a read callback, CCDataReadBuffer is enough: *)
Theorem c24_read_refuted (h : list N -> N) : h [1; 1]%N <> h [1; 2]%N ->
  exists d1 d2 d3 d4, let st := step (piece_interface 8 8) (fun s => h s) in
    st (create [1; 1]%N) OHash = Some (d1, RHash (h [1; 1]%N)) /\ st d1 (OWrite 1 1 [2%N]) = Some (d2, RCount 1) /\
    st d2 (ORead 0 2 [0; 0]%N) = Some (d3, RBytes [1; 2]%N) /\
    st d3 OHash = Some (d4, RHash (h [1; 1]%N)) /\ d_int d4 = [1; 2]%N.
Proof. intros _. do 4 eexists. repeat split. Qed.
Print Assumptions c24_read_refuted.

(** The size changes, the hash does not: *)
Theorem c24_resize_refuted (h : list N -> N) : h [1; 1]%N <> h [1]%N ->
  exists d1 d2 d3, let st := step buffer_interface (fun s => h s) in
    st (create [1; 1]%N) OHash = Some (d1, RHash (h [1; 1]%N)) /\ st d1 (OResize 1) = Some (d2, RBool true) /\
    st d2 OHash = Some (d3, RHash (h [1; 1]%N)) /\ d_int d3 = [1]%N.
Proof. intros _. do 3 eexists. repeat split. Qed.
Print Assumptions c24_resize_refuted.

(** A history within the user's part: the hash is the sum of the bytes. *)
Definition sum (l : list N) : N := fold_left N.add l 0%N.
Fixpoint results (d : data (list N)) (ops : list (op (list N))) : option (list result) :=
  match ops with
  | [] => Some []
  | o :: t => let? (d, x) := step buffer_interface sum d o in let? r := results d t in Some (x :: r)
  end.
Example c24_case : results (create [1; 2; 3; 4]%N) [OHash; OWrite 1 2 [7; 7]%N; ORead 0 2 [0; 0]%N; OHash; OMapRead 1 2; OHash; OResize 2; OFill 0 2 5; OHash] =
  Some [RHash 10; RCount 2; RBytes [1; 7]%N; RHash 19; RBytes [7; 7]%N; RHash 19; RBool true; RCount 2; RHash 10].
Proof. vm_compute. reflexivity. Qed.
Example c24_case_client : let ok := client_ok buffer_interface (fun _ => True) (fun s => s) (fun _ _ => True) (fun _ _ => True) in
  ok (create [1; 2; 3; 4]%N) Dirty (OWrite 1 2 [7; 7]%N) /\ ok (create [1; 2; 3; 4]%N) Dirty (ORead 0 2 [0; 0]%N) /\ ok (create [1; 2; 3; 4]%N) Clean (OMapRead 1 2) /\ ok (create [1]%N) Dirty OHash.
Proof. unfold client_ok; cbn; repeat split; try lia; discriminate. Qed.
