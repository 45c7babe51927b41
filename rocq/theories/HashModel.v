(** Model of CommonC/Hash.c. The data object is its bytes [data] and its preferred map size [pms]; a map of a range
    gives the bytes of the range in full (no failed or short maps). The hardware is little endian. *)
From Verif Require Import Base Word.

(** Lines 43-45 *)
Definition jenkins_byte (h b : N) : N :=
  let h := wadd 32 h b in
  let h := wadd 32 h (wshl 32 h 10) in
  N.lxor h (N.shiftr h 6).

(** Lines 41-46 and 56-61: the bytes of one map *)
Definition jenkins_map (map : list N) (h : N) : N := fold_left jenkins_byte map h.

(** Lines 37-52, from [l] on with [n] to go *)
Fixpoint jenkins_loop (data : list N) (pms l n : nat) (h : N) : N :=
  match n with
  | O => h
  | S m => jenkins_loop data pms (S l) m (jenkins_map (slice data (l * pms) pms) h)
  end.

(** CCHashJenkins32, lines 31-71. Division by a map size of 0 is undefined. *)
Definition jenkins32 (data : list N) (pms : nat) : option N :=
  if pms =? 0 then None
  else
    let count := length data / pms in
    let h := jenkins_loop data pms 0 count 0%N in
    let read := count * pms in
    let h := jenkins_map (slice data read (length data - read)) h in
    let h := wadd 32 h (wshl 32 h 3) in
    let h := N.lxor h (N.shiftr h 11) in
    let h := wadd 32 h (wshl 32 h 15) in
    Some h.

(** CCHashROL32, lines 73-76 *)
Definition rol32 (x y : N) : N := N.lor (wshl 32 x y) (N.shiftr x (32 - y)).

(** Lines 102-104 *)
Definition scramble (k : N) : N :=
  let k := wmul 32 k 0xcc9e2d51 in
  let k := rol32 k 15 in
  wmul 32 k 0x1b873593.

(** Lines 106-107 *)
Definition mix (h k : N) : N :=
  let h := N.lxor h k in
  wadd 32 (wmul 32 (rol32 h 13) 5) 0xe6546b64.

(** ((uint32_t* )Map.ptr)[i], line 101 *)
Definition load32 (map : list N) (i : nat) : option N :=
  let? a := nth_error map (4 * i) in
  let? b := nth_error map (4 * i + 1) in
  let? c := nth_error map (4 * i + 2) in
  let? d := nth_error map (4 * i + 3) in
  Some (a + 2 ^ 8 * b + 2 ^ 16 * c + 2 ^ 24 * d)%N.

(** Lines 99-108 and 142-151 *)
Fixpoint murmur_blocks (map : list N) (i n : nat) (h : N) : option N :=
  match n with
  | O => Some h
  | S m => let? k := load32 map i in murmur_blocks map (S i) m (mix h (scramble k))
  end.

(** Lines 110-131 and 153-174, [tail] being the bytes after the blocks *)
Definition murmur_tail (tail : list N) (h : N) : N :=
  match tail with
  | [a] => N.lxor h (scramble a)
  | [a; b] => N.lxor h (scramble (N.lxor (N.shiftl b 8) a))
  | [a; b; c] => N.lxor h (scramble (N.lxor (N.lxor (N.shiftl c 16) (N.shiftl b 8)) a))
  | _ => h
  end.

(** Lines 98-131 and 141-174: the bytes of one map *)
Definition murmur_map (map : list N) (h : N) : option N :=
  let count := length map / 4 in
  let? h := murmur_blocks map 0 count h in
  Some (murmur_tail (skipn (count * 4) map) h).

(** Lines 94-137 *)
Fixpoint murmur_loop (data : list N) (pms l n : nat) (h : N) : option N :=
  match n with
  | O => Some h
  | S m => let? h := murmur_map (slice data (l * pms) pms) h in murmur_loop data pms (S l) m h
  end.

(** CCHashMurmur32, lines 78-188 *)
Definition murmur32 (data : list N) (pms : nat) : option N :=
  let pms := (pms / 4) * 4 in
  let pms := if pms =? 0 then 4 else pms in
  let size := length data in
  let count := ((size / 4) * 4) / pms in
  let? h := murmur_loop data pms 0 count 0%N in
  let read := count * pms in
  let? h := murmur_map (slice data read (size - read)) h in
  let h := N.lxor h (N.of_nat size mod 2 ^ 32)%N in
  let h := N.lxor h (N.shiftr h 16) in
  let h := wmul 32 h 0x85ebca6b in
  let h := N.lxor h (N.shiftr h 13) in
  let h := wmul 32 h 0xc2b2ae35 in
  let h := N.lxor h (N.shiftr h 16) in
  Some h.
