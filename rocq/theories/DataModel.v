(** Model of CommonC/Data.c, CommonC/DataBuffer.c and CommonC/DataContainer.c. Bytes are numbers, buffers are lists of bytes;
    an access outside a buffer, or a division by 0, is [None]. Allocation succeeds. A change made through a map reaches
    the data when the map is given back (for CCDataBuffer the map aliases the buffer: the difference is visible only to
    code that looks at the data while it holds a map open for writing). *)
From Verif Require Import Base.

(** CCDataHintRead, CCDataHintWrite, DataTypes.h *)
Record access := { rd : bool; wr : bool }.
Definition RO := {| rd := true; wr := false |}.
Definition WO := {| rd := false; wr := true |}.
Definition RW := {| rd := true; wr := true |}.

(** CCBufferMap, Buffer.h: the pointer is position [m_start] of the allocation [m_mem] *)
Record mapping := { m_mem : list N; m_start : nat; m_off : nat; m_size : nat; m_hint : access }.

(** memcpy out of the first size bytes at the map's pointer *)
Definition peek (m : mapping) : option (list N) :=
  if m_start m + m_size m <=? length (m_mem m) then Some (slice (m_mem m) (m_start m) (m_size m)) else None.
(** memcpy or memset of the first size bytes at the map's pointer *)
Definition poke (m : mapping) (bytes : list N) : option mapping :=
  if (length bytes =? m_size m) && (m_start m + m_size m <=? length (m_mem m)) then
    Some {| m_mem := overwrite (m_mem m) (m_start m) bytes; m_start := m_start m; m_off := m_off m; m_size := m_size m; m_hint := m_hint m |}
  else None.
(** Bytes in and out of a caller's buffer *)
Definition put (buf : list N) (i : nat) (bytes : list N) : option (list N) :=
  if i + length bytes <=? length buf then Some (overwrite buf i bytes) else None.
Definition get (buf : list N) (i n : nat) : option (list N) := if i + n <=? length buf then Some (slice buf i n) else None.

(** CCDataInterface, DataInterface.h: the callbacks that reach contents. [None] for an optional one is a NULL pointer.
    The result of resize is [None] for FALSE. *)
Record interface (St : Type) := {
  i_pms : St -> option nat;
  i_map : St -> nat -> nat -> access -> option mapping;
  i_unmap : St -> mapping -> option St;
  i_resize : option (St -> nat -> option St);
  i_read : option (St -> nat -> nat -> list N -> option (list N * nat));
  i_write : option (St -> nat -> nat -> list N -> option (St * nat));
  i_copy : option (St -> nat -> nat -> St -> nat -> option (St * nat));
  i_fill : option (St -> nat -> nat -> N -> option (St * nat))
}.
Arguments i_pms {St}. Arguments i_map {St}. Arguments i_unmap {St}. Arguments i_resize {St}.
Arguments i_read {St}. Arguments i_write {St}. Arguments i_copy {St}. Arguments i_fill {St}.

(** CCDataInfo, Data.h *)
Record data (St : Type) := { d_int : St; d_hash : N; d_mut : bool }.
Arguments d_int {St}. Arguments d_hash {St}. Arguments d_mut {St}.

(** CCDataCreate, lines 41-74 *)
Definition create {St} (s : St) : data St := {| d_int := s; d_hash := 0%N; d_mut := true |}.

Definition set_mut {St} (d : data St) : data St := {| d_int := d_int d; d_hash := d_hash d; d_mut := true |}.

(** CCDataSetSize, lines 102-107 *)
Definition set_size {St} (I : interface St) (d : data St) (n : nat) : data St * bool :=
  match i_resize I with
  | None => (d, false)
  | Some f => match f (d_int d) n with
              | None => (d, false)
              | Some s => ({| d_int := s; d_hash := d_hash d; d_mut := d_mut d |}, true)
              end
  end.

(** CCDataGetHash, lines 109-123. [hasher] stands for whichever of the three hash functions applies: it only reads, and
    what it does to the flag is overwritten by line 119 *)
Definition get_hash {St} (hasher : St -> N) (d : data St) : data St * N :=
  if d_mut d then let h := hasher (d_int d) in ({| d_int := d_int d; d_hash := h; d_mut := false |}, h) else (d, d_hash d).

(** CCDataSync, CCDataInvalidate, CCDataModifiedRange, lines 125-139, 155-163, after the contents were changed to those of [s] *)
Definition changed {St} (d : data St) (s : St) : data St := {| d_int := s; d_hash := d_hash d; d_mut := true |}.

(** CCDataMapBuffer, lines 165-173 *)
Definition map_buffer {St} (I : interface St) (d : data St) (off n : nat) (a : access) : option mapping := i_map I (d_int d) off n a.
(** CCDataUnmapBuffer, lines 175-181 *)
Definition unmap_buffer {St} (I : interface St) (d : data St) (m : mapping) : option (data St) :=
  let? s := i_unmap I (d_int d) m in Some {| d_int := s; d_hash := d_hash d; d_mut := wr (m_hint m) |}.

(** Size / PreferredMapSize with SIZE_MAX the default, lines 88-93, 194: the second component is the number of whole pieces *)
Definition pieces {St} (I : interface St) (d : data St) (n : nat) : option (nat * nat) :=
  match i_pms I (d_int d) with
  | None => Some (0, 0)
  | Some p => if p =? 0 then None else Some (p, n / p)
  end.

(** Lines 196-200, 204-208 *)
Definition read_piece {St} (I : interface St) (d : data St) (off n : nat) (buf : list N) (at_ : nat) : option (data St * list N * nat) :=
  let? m := map_buffer I d off n RO in
  let? b := peek m in
  let? buf := put buf at_ b in
  let? d := unmap_buffer I d m in
  Some (d, buf, m_size m).

(** The loop of lines 194-202, from [l] on with [k] to go; the last component tells whether it returned at line 201 *)
Fixpoint read_loop {St} (I : interface St) (d : data St) (off p l k : nat) (buf : list N) (read : nat) : option (data St * list N * nat * bool) :=
  match k with
  | O => Some (d, buf, read, false)
  | S k =>
      let? r := read_piece I d (off + l * p) p buf (l * p) in
      let '(d, buf, c) := r in
      if c =? p then read_loop I d off p (S l) k buf (read + c) else Some (d, buf, read + c, true)
  end.

(** CCDataReadBuffer, lines 183-212 *)
Definition read_buffer {St} (I : interface St) (d : data St) (off n : nat) (buf : list N) : option (data St * list N * nat) :=
  match i_read I with
  | Some f => let? r := f (d_int d) off n buf in let '(buf, c) := r in Some (d, buf, c)
  | None =>
      let? (p, k) := pieces I d n in
      let? r := read_loop I d off p 0 k buf 0 in
      let '(d, buf, read, early) := r in
      if (early : bool) then Some (d, buf, read)
      else
        let? r := read_piece I d (off + read) (n - read) buf read in
        let '(d, buf, c) := r in
        Some (d, buf, read + c)
  end.

(** Lines 227-231, 235-239 and 299-303, 307-311: [src i n] is the [n] bytes to store for the piece that starts at [i], which are
    those of the caller's buffer (write) or copies of the fill byte (fill) *)
Definition write_piece {St} (I : interface St) (d : data St) (off n : nat) (src : nat -> nat -> option (list N)) (at_ : nat) : option (data St * nat) :=
  let? m := map_buffer I d off n WO in
  let? b := src at_ (m_size m) in
  let? m := poke m b in
  let? d := unmap_buffer I d m in
  Some (d, m_size m).

(** The loops of lines 225-233 and 297-305 *)
Fixpoint write_loop {St} (I : interface St) (d : data St) (off p l k : nat) (src : nat -> nat -> option (list N)) (done : nat) : option (data St * nat * bool) :=
  match k with
  | O => Some (d, done, false)
  | S k =>
      let? (d, c) := write_piece I d (off + l * p) p src (l * p) in
      if c =? p then write_loop I d off p (S l) k src (done + c) else Some (d, done + c, true)
  end.

(** Lines 223-242 and 295-314 *)
Definition write_pieces {St} (I : interface St) (d : data St) (off n : nat) (src : nat -> nat -> option (list N)) : option (data St * nat) :=
  let? (p, k) := pieces I d n in
  let? r := write_loop I d off p 0 k src 0 in
  let '(d, done, early) := r in
  if (early : bool) then Some (d, done)
  else
    let? (d, c) := write_piece I d (off + done) (n - done) src done in
    Some (set_mut d, done + c).

(** CCDataWriteBuffer, lines 214-245 *)
Definition write_buffer {St} (I : interface St) (d : data St) (off n : nat) (buf : list N) : option (data St * nat) :=
  match i_write I with
  | Some f => let? (s, c) := f (d_int d) off n buf in Some (changed d s, c)
  | None => write_pieces I d off n (get buf)
  end.

(** CCDataFillBuffer, lines 286-317 *)
Definition fill_buffer {St} (I : interface St) (d : data St) (off n : nat) (v : N) : option (data St * nat) :=
  match i_fill I with
  | Some f => let? (s, c) := f (d_int d) off n v in Some (changed d s, c)
  | None => write_pieces I d off n (fun _ n => Some (repeat v n))
  end.

(** Lines 262-268, 272-278 *)
Definition copy_piece {St T} (I : interface St) (J : interface T) (d : data St) (e : data T) (off n doff : nat) : option (data St * data T * nat) :=
  let? sm := map_buffer I d off n RO in
  let? dm := map_buffer J e doff (m_size sm) WO in
  let? b := get (m_mem sm) (m_start sm) (m_size dm) in
  let? dm := poke dm b in
  let? e := unmap_buffer J e dm in
  let? d := unmap_buffer I d sm in
  Some (d, e, m_size dm).

(** The loop of lines 260-270 *)
Fixpoint copy_loop {St T} (I : interface St) (J : interface T) (d : data St) (e : data T) (off p doff l k done : nat) : option (data St * data T * nat * bool) :=
  match k with
  | O => Some (d, e, done, false)
  | S k =>
      let? r := copy_piece I J d e (off + l * p) p (doff + l * p) in
      let '(d, e, c) := r in
      if c =? p then copy_loop I J d e off p doff (S l) k (done + c) else Some (d, e, done + c, true)
  end.

(** CCDataCopyBuffer, lines 247-284, for two data objects; this one when the interfaces differ or have no copy callback *)
Definition copy_pieces {St T} (I : interface St) (J : interface T) (d : data St) (e : data T) (off n doff : nat) : option (data St * data T * nat) :=
  let? (p, k) := pieces I d n in
  let? r := copy_loop I J d e off p doff 0 k 0 in
  let '(d, e, done, early) := r in
  if (early : bool) then Some (d, e, done)
  else
    let? r := copy_piece I J d e (off + done) (n - done) (doff + done) in
    let '(d, e, c) := r in
    Some (d, set_mut e, done + c).
(** Line 256: the same interface *)
Definition copy_buffer {St} (I : interface St) (d e : data St) (off n doff : nat) : option (data St * data St * nat) :=
  match i_copy I with
  | Some f => let? (s, c) := f (d_int d) off n (d_int e) doff in Some (d, changed e s, c)
  | None => copy_pieces I I d e off n doff
  end.

(** * CCDataBuffer: the internal state is the buffer, DataBuffer.c *)
(** CCDataBufferMapBuffer, CCDataBufferUnmapBuffer, lines 130-137 *)
Definition buffer_map (s : list N) (off n : nat) (a : access) : option mapping :=
  if off + n <=? length s then Some {| m_mem := slice s off n; m_start := 0; m_off := off; m_size := n; m_hint := a |} else None.
Definition buffer_unmap (s : list N) (m : mapping) : option (list N) :=
  if wr (m_hint m) then put s (m_off m) (m_mem m) else Some s.
(** CCDataBufferResize, lines 139-150; bytes that realloc adds are unknown, here 0xaa. [n] = 0 frees and is FALSE *)
Definition buffer_resize (s : list N) (n : nat) : option (list N) :=
  if n =? 0 then None else Some (firstn n s ++ repeat 0xaa%N (n - length s)).
(** Lines 161-187 *)
Definition buffer_read (s : list N) (off n : nat) (buf : list N) : option (list N * nat) :=
  let? b := get s off n in let? buf := put buf 0 b in Some (buf, n).
Definition buffer_write (s : list N) (off n : nat) (buf : list N) : option (list N * nat) :=
  let? b := get buf 0 n in let? s := put s off b in Some (s, n).
Definition buffer_copy (s : list N) (off n : nat) (t : list N) (toff : nat) : option (list N * nat) :=
  let? b := get s off n in let? t := put t toff b in Some (t, n).
Definition buffer_fill (s : list N) (off n : nat) (v : N) : option (list N * nat) :=
  let? s := put s off (repeat v n) in Some (s, n).

(** CCDataBufferInterface, lines 54-70 *)
Definition buffer_interface : interface (list N) := {|
  i_pms := fun _ => None; i_map := buffer_map; i_unmap := buffer_unmap; i_resize := Some buffer_resize;
  i_read := Some buffer_read; i_write := Some buffer_write; i_copy := Some buffer_copy; i_fill := Some buffer_fill |}.

(** A user's interface over the same buffer with the required callbacks only, which prefers maps of [p] bytes and never
    maps more than [q] bytes at once *)
Definition piece_interface (p q : nat) : interface (list N) := {|
  i_pms := fun _ => Some p; i_map := fun s off n a => buffer_map s off (Nat.min n q) a; i_unmap := buffer_unmap; i_resize := None;
  i_read := None; i_write := None; i_copy := None; i_fill := None |}.

(** * CCDataContainer, DataContainer.c: the elements in enumeration order; [c_junk] is what fresh memory holds *)
Record container := { c_elems : list (list N); c_es : nat; c_junk : nat -> N }.

(** The loop of lines 130-139: the elements from [ci] on. [ao] is AlignedOffset *)
Fixpoint copy_in (elems : list (list N)) (es ao count ci index : nat) (ptr : list N) : option (list N) :=
  match elems with
  | [] => Some ptr
  | e :: t =>
      if ao <=? ci * es then
        let? ptr := put ptr (index * es) e in
        if (ci + 1) * es =? count then Some ptr else copy_in t es ao count (ci + 1) (index + 1) ptr
      else copy_in t es ao count (ci + 1) index ptr
  end.
(** The loop of lines 158-167 *)
Fixpoint copy_out (elems : list (list N)) (es ao count ci index : nat) (ptr : list N) : option (list (list N)) :=
  match elems with
  | [] => Some []
  | e :: t =>
      if ao <=? ci * es then
        let? b := get ptr (index * es) es in
        if (ci + 1) * es =? count then Some (b :: t) else let? t := copy_out t es ao count (ci + 1) (index + 1) ptr in Some (b :: t)
      else let? t := copy_out t es ao count (ci + 1) index ptr in Some (e :: t)
  end.

(** Lines 116-120, 130 and 147-158 *)
Definition aligned_size (es n : nat) : nat := n + (if n mod es =? 0 then 0 else es - n mod es).
Definition alloc_size (es off n : nat) : nat := aligned_size es n + (if off mod es =? 0 then 0 else es).

(** CCDataContainerMapBuffer, lines 114-143 *)
Definition container_map (s : container) (off n : nat) (a : access) : option mapping :=
  let es := c_es s in
  if es =? 0 then None
  else
    let ao := off - off mod es in
    let ptr := map (c_junk s) (seq 0 (alloc_size es off n)) in
    let? ptr := if rd a then copy_in (c_elems s) es ao (ao + alloc_size es off n) 0 0 ptr else Some ptr in
    Some {| m_mem := ptr; m_start := off mod es; m_off := off; m_size := n; m_hint := a |}.
(** CCDataContainerUnmapBuffer, lines 145-171 *)
Definition container_unmap (s : container) (m : mapping) : option container :=
  let es := c_es s in
  if es =? 0 then None
  else if wr (m_hint m) then
    let ao := m_off m - m_off m mod es in
    let? e := copy_out (c_elems s) es ao (ao + alloc_size es (m_off m) (m_size m)) 0 0 (m_mem m) in
    Some {| c_elems := e; c_es := es; c_junk := c_junk s |}
  else Some s.

(** CCDataContainerInterface, lines 49-56 *)
Definition container_interface : interface container := {|
  i_pms := fun _ => None; i_map := container_map; i_unmap := container_unmap; i_resize := None;
  i_read := None; i_write := None; i_copy := None; i_fill := None |}.
