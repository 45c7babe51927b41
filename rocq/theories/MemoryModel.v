(** Model of CommonC/MemoryTemplate.h and CommonC/Swap.h. Memory and buffers are lists of bytes. An access outside a
    list, and a remainder by 0, is [None]. *)
From Verif Require Import Base Word.

(** Store one byte. *)
Definition store (l : list N) (i : nat) (v : N) : option (list N) := if i <? length l then Some (upd l i v) else None.

(** (Offset + Loop) % Size in size_t *)
Definition at_ (size : nat) (off : N) (l : nat) : nat := N.to_nat ((off + N.of_nat l) mod 2 ^ 64 mod N.of_nat size)%N.

(** The buffer index of byte [l] for values of [vs] bytes. Lines 54, 120: *)
Definition straight (vs l : nat) : nat := l mod vs + (l / vs) * vs.
(** Lines 69, 135: *)
Definition mirrored (vs l : nat) : nat := (vs - 1) - l mod vs + (l / vs) * vs.

(** The loops of lines 52-55 and 67-70, from [l] on with [n] to go *)
Fixpoint read_loop (ix : nat -> nat) (mem : list N) (size : nat) (off : N) (l n : nat) (buf : list N) : option (list N) :=
  match n with
  | O => Some buf
  | S m =>
      let? v := nth_error mem (at_ size off l) in
      let? buf := store buf (ix l) v in
      read_loop ix mem size off (S l) m buf
  end.
(** The loops of lines 118-121 and 133-136 *)
Fixpoint write_loop (ix : nat -> nat) (mem : list N) (size : nat) (off : N) (l n : nat) (buf : list N) : option (list N) :=
  match n with
  | O => Some mem
  | S m =>
      let? v := nth_error buf (ix l) in
      let? mem := store mem (at_ size off l) v in
      write_loop ix mem size off (S l) m buf
  end.

Inductive order := Native | Swapped | BigEndian | LittleEndian.
Inductive endian := Big | Little.

(** Which loop runs on hardware of endianness [h]: lines 78-112 and 144-178 *)
Definition index_of (h : endian) (o : order) : nat -> nat -> nat :=
  match o, h with
  | Native, _ => straight
  | Swapped, _ => mirrored
  | BigEndian, Big => straight | BigEndian, Little => mirrored
  | LittleEndian, Little => straight | LittleEndian, Big => mirrored
  end.

(** CCMemoryRead/ReadSwap/ReadBig/ReadLittle: [vs] is sizeof( *Buffer) *)
Definition read (h : endian) (o : order) (vs : nat) (mem : list N) (size : nat) (off : N) (count : nat) (buf : list N) : option (list N) :=
  if (size =? 0) && negb (count =? 0) then None else read_loop (index_of h o vs) mem size off 0 count buf.
(** CCMemoryWrite/WriteSwap/WriteBig/WriteLittle *)
Definition write (h : endian) (o : order) (vs : nat) (mem : list N) (size : nat) (off : N) (count : nat) (buf : list N) : option (list N) :=
  if (size =? 0) && negb (count =? 0) then None else write_loop (index_of h o vs) mem size off 0 count buf.

(** CCSwap, Swap.h 40-48, from [l] on with [n] to go *)
Fixpoint swap_loop (data : list N) (size l n : nat) : option (list N) :=
  match n with
  | O => Some data
  | S m =>
      let? t := nth_error data l in
      let? u := nth_error data (size - l - 1) in
      let? data := store data l u in
      let? data := store data (size - l - 1) t in
      swap_loop data size (S l) m
  end.
Definition swap (data : list N) (size : nat) : option (list N) := swap_loop data size 0 (size / 2).

(** The part of a CCData the calls of CommonC/DataMemoryTemplate.h map (lines 97-98 and likewise): offset and size. *)
Definition mapped (size : nat) (off : N) (count : nat) : nat * nat :=
  let b := N.to_nat (off mod N.of_nat size) in
  if size <=? b + count then (0, size) else (b, size - b).

(** DataMemoryTemplate.h 95-133, for data whose map is its bytes [data]: reading from the map *)
Definition data_read (h : endian) (o : order) (vs : nat) (data : list N) (size : nat) (off : N) (count : nat) (buf : list N) : option (list N) :=
  if size =? 0 then None
  else let (mo, ms) := mapped size off count in
  read h o vs (slice data mo ms) size (off - N.of_nat mo)%N count buf.

(** DataMemoryTemplate.h 155-193: writing into the map, which unmapping puts back *)
Definition data_write (h : endian) (o : order) (vs : nat) (data : list N) (size : nat) (off : N) (count : nat) (buf : list N) : option (list N) :=
  if size =? 0 then None
  else let (mo, ms) := mapped size off count in
  let? m := write h o vs (slice data mo ms) size (off - N.of_nat mo)%N count buf in
  Some (firstn mo data ++ m ++ skipn (mo + ms) data).
