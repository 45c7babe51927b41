(** Model of the run-length encoding streams of CommonC/ReflectStream.c (little-endian hardware).

    Simplifications: the stream underneath is the list of the bytes written to it, or of the bytes that can be read from it
    (a read past its end is [None]); the set of the bytes that are run-length encoded (repeat.mask) is a boolean function.
    The writer and the reader keep the value and the count of the current run. *)
From Verif Require Import Base.
Local Open Scope N_scope.

(** The [n] low bytes of [v], lowest first, and back *)
Fixpoint to_bytes (n : nat) (v : N) : list N := match n with O => [] | S m => v mod 256 :: to_bytes m (v / 256) end.
Fixpoint of_bytes (bs : list N) : N := match bs with [] => 0 | b :: t => b + 256 * of_bytes t end.

(** Reading [n] bytes *)
Fixpoint take_bytes (n : nat) (s : list N) : option (list N * list N) :=
  match n, s with
  | O, _ => Some ([], s)
  | S _, [] => None
  | S m, b :: t => let? (x, r) := take_bytes m t in Some (b :: x, r)
  end.

Section RLE.
Variables (mask : N -> bool) (size : nat).

Record run := mkRun { value : N; count : N }.

(** ReflectStream.c 83 and 111: 1ULL << (8 * size), undefined from 64 bits on *)
Definition max_run : option N := let bits := 8 * N.of_nat size in if bits <? 64 then Some (2 ^ bits) else None.

(** 54-68 *)
Definition write_flush (r : run) : run * list N :=
  if count r =? 0 then (r, []) else (mkRun (value r) 0, to_bytes size (count r - 1)).

(** 70-79 *)
Definition write_byte (r : run) (b : N) : run * list N := (if mask b then mkRun b (count r + 1) else r, [b]).

(** 81-105 *)
Fixpoint write_loop (max : N) (r : run) (data : list N) : run * list N :=
  match data with
  | [] => (r, [])
  | b :: t =>
      let (r, o) :=
        if negb (count r =? 0)
        then if negb (b =? value r) then let (r, o1) := write_flush r in let (r, o2) := write_byte r b in (r, o1 ++ o2)
             else let r := mkRun (value r) (count r + 1) in if count r =? max then write_flush r else (r, [])
        else write_byte r b in
      let (r, o') := write_loop max r t in (r, o ++ o')
  end.

Definition write (r : run) (data : list N) : option (run * list N) := let? max := max_run in Some (write_loop max r data).

(** 113-127 *)
Fixpoint continue_loop (max : N) (r : run) (data : list N) : run * list N :=
  match data with
  | [] => (r, [])
  | b :: t =>
      if negb (b =? value r) then let (r, o) := write_flush r in (r, o ++ b :: t)
      else let r := mkRun (value r) (count r + 1) in
           let (r, o) := if count r =? max then write_flush r else (r, []) in
           let (r, o') := continue_loop max r t in (r, o ++ o')
  end.

(** 107-133 *)
Definition write_continue (r : run) (data : list N) : option (run * list N) :=
  if negb (count r =? 0) then let? max := max_run in Some (continue_loop max r data) else Some (r, data).

(** 135-165. The count is 0 before it is read into, so the bytes above the [size] read are 0. *)
Fixpoint read (r : run) (n : nat) (s : list N) : option (run * list N * list N) :=
  match n with
  | O => Some (r, [], s)
  | S m =>
      if negb (count r =? 0)
      then let? x := read (mkRun (value r) (count r - 1)) m s in match x with (r', d, s) => Some (r', value r :: d, s) end
      else match s with
           | [] => None
           | b :: s =>
               if mask b
               then let? (c, s) := take_bytes size s in
                    let? x := read (mkRun b (of_bytes c)) m s in match x with (r', d, s) => Some (r', b :: d, s) end
               else let? x := read r m s in match x with (r', d, s) => Some (r', b :: d, s) end
           end
  end.

(** 171-186 *)
Fixpoint read_continue_loop (r : run) (n : nat) (s : list N) : option (run * list N * list N) :=
  match n with
  | O => Some (r, [], s)
  | S m =>
      if negb (count r =? 0)
      then let? x := read_continue_loop (mkRun (value r) (count r - 1)) m s in match x with (r', d, s) => Some (r', value r :: d, s) end
      else let? (d, s) := take_bytes n s in Some (r, d, s)
  end.

(** 167-192 *)
Definition read_continue (r : run) (n : nat) (s : list N) : option (run * list N * list N) :=
  if negb (count r =? 0) then read_continue_loop r n s else let? (d, s) := take_bytes n s in Some (r, d, s).

(** ** Programs *)
Inductive wop := Write (data : list N) | WriteContinue (data : list N) | WriteFlush.
Inductive rop := Read (n : nat) | ReadContinue (n : nat).

Fixpoint writes (r : run) (p : list wop) : option (run * list N) :=
  match p with
  | [] => Some (r, [])
  | o :: p =>
      let? (r, x) := match o with Write d => write r d | WriteContinue d => write_continue r d | WriteFlush => Some (write_flush r) end in
      let? (r, y) := writes r p in Some (r, x ++ y)
  end.

Fixpoint reads (r : run) (p : list rop) (s : list N) : option (run * list N * list N) :=
  match p with
  | [] => Some (r, [], s)
  | o :: p =>
      let? x := match o with Read n => read r n s | ReadContinue n => read_continue r n s end in
      match x with (r, d, s) => let? y := reads r p s in match y with (r, d', s) => Some (r, d ++ d', s) end end
  end.

End RLE.
