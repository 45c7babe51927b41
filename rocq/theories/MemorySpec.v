(** Circular memory: position p of a memory of [size] bytes is its byte p mod size. *)
From Verif Require Import Base MemoryModel.

Definition place (size : nat) (off : N) (l : nat) : nat := N.to_nat ((off + N.of_nat l) mod N.of_nat size).

(** The number a value's bytes represent. *)
Fixpoint little (bs : list N) : N := match bs with [] => 0 | b :: t => b + 256 * little t end%N.
Definition number (e : endian) (bs : list N) : N := match e with Little => little bs | Big => little (rev bs) end.

(** The byte order each kind of call uses for the memory, on hardware of endianness [h]. *)
Definition memory_order (h : endian) (o : order) : endian :=
  match o with
  | Native => h
  | Swapped => match h with Big => Little | Little => Big end
  | BigEndian => Big
  | LittleEndian => Little
  end.

(** The [v]th value of [vs] bytes in a buffer, and in circular memory from [off]. *)
Definition value (vs v : nat) (buf : list N) : list N := firstn vs (skipn (v * vs) buf).
Definition mem_value (vs v : nat) (mem : list N) (off : N) : list N :=
  map (fun j => nth (place (length mem) off (v * vs + j)) mem 0%N) (seq 0 vs).
