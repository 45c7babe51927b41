(** Building a log message: CommonC/Logging.c 392-705 (MessageBufferWrite, MessageBufferRemove and the
    first half of CCLogv).  Not modelled: the input filters and where the finished message goes. *)
From Coq Require Import Ascii List NArith Lia Bool.
From Verif Require Import FormatModel.
Import ListNotations.
Open Scope char_scope.
Open Scope N_scope.

(** The message under construction: MessageSize, how many characters are allocated for it, and its
    characters (Length of them). *)
Record buffer : Type := mkbuf { size : N; room : N; text : list ascii }.
Definition len (b : buffer) : N := N.of_nat (length (text b)).

(** MessageSize - Length as size_t *)
Definition left (b : buffer) : N := if len b <=? size b then size b - len b else 2 ^ 64 + size b - len b.
(** 396, 491, 548, 655: CC_MESSAGE_BATCH_SIZE + ((n / CC_MESSAGE_BATCH_SIZE) * CC_MESSAGE_BATCH_SIZE) *)
Definition batches (n : N) : N := 64 + n / 64 * 64.

(** 394-400, 489-496, 546-554, 653-661: room for [n] more characters.  [ok] is whether the allocation
    succeeds; if it does not the new size stays although the memory is the old one. *)
Definition grow (ok : bool) (n : N) (b : buffer) : bool * buffer :=
  if left b <? n then
    let s := size b + batches n in
    (ok, mkbuf s (if ok then s + 1 else room b) (text b))
  else (true, b).

(** [s] put at the end of the message, and [z] terminators.  [None]: past the end of the memory. *)
Definition put (s : list ascii) (z : N) (b : buffer) : option buffer :=
  if len b + N.of_nat (length s) + z <=? room b then Some (mkbuf (size b) (room b) (text b ++ s)) else None.

(** 392-406: MessageBufferWrite.  The characters are taken to contain no terminator (strncpy would put
    terminators in place of everything after one). *)
Definition buffer_write (ok : bool) (s : list ascii) (b : buffer) : option buffer :=
  match grow ok (N.of_nat (length s)) b with
  | (true, b) => put s 1 b
  | (false, b) => Some b
  end.
(** 408-415: MessageBufferRemove *)
Definition buffer_remove (n : N) (b : buffer) : option buffer :=
  let n := if len b <? n then len b else n in
  let t := firstn (length (text b) - N.to_nat n) (text b) in
  if N.of_nat (length t) <? room b then Some (mkbuf (size b) (room b) t) else None.

(** From here on allocations succeed. *)
Fixpoint run_acts (l : list act) (b : buffer) : option buffer :=
  match l with
  | [] => Some b
  | Write s :: l => match buffer_write true s b with Some b => run_acts l b | None => None end
  | Remove n :: l => match buffer_remove n b with Some b => run_acts l b | None => None end
  end.

(** 487-500, 651-665: some of the format copied as it is *)
Definition copy (s : list ascii) (b : buffer) : option buffer :=
  match s with
  | [] => Some b
  | _ => let '(_, b) := grow true (N.of_nat (length s)) b in put s 0 b
  end.

(** "%d" for the line: an unsigned int shown as an int *)
Fixpoint decimal_text (fuel : nat) (n : N) : list ascii :=
  match fuel with
  | O => []
  | S f => (if n <? 10 then [] else decimal_text f (n / 10)) ++ [ascii_of_N (48 + n mod 10)]
  end.
Definition line_text (line : N) : list ascii :=
  if line <? 2 ^ 31 then decimal_text 10 line else "-" :: decimal_text 10 (2 ^ 32 - line).

(** 452-455: how long the part in front of the message may be, with its terminator *)
Definition estimate (tag : list ascii) (file func : option (list ascii)) : N :=
  N.of_nat (length tag) + 1 +
  match file with Some f => 1 + N.of_nat (length f) + 1 + 11 + 2 | None => 0 end +
  match func with Some f => N.of_nat (length f) + 1 | None => 0 end + 2.
(** 474-477, 685-688 *)
Definition heading (tag : list ascii) (file func : option (list ascii)) (line : N) : list ascii :=
  match file, func with
  | Some f, Some g => tag ++ [":"; "["] ++ f ++ [":"] ++ line_text line ++ ["]"; ":"] ++ g ++ [":"; " "]
  | Some f, None => tag ++ [":"; "["] ++ f ++ [":"] ++ line_text line ++ ["]"; ":"; " "]
  | None, Some g => tag ++ [":"] ++ g ++ [":"; " "]
  | None, None => tag ++ [":"; " "]
  end.
(** snprintf of the heading: [None] if it were cut short (Length would be past what was written) *)
Definition start (tag : list ascii) (file func : option (list ascii)) (line : N) (size room : N) : option buffer :=
  let h := heading tag file func line in
  if (N.of_nat (length h) <? estimate tag file func) && (estimate tag file func <=? room)
  then Some (mkbuf size room h) else None.

(** 514-521: the filters in turn until one takes something.  What the others did stays. *)
Fixpoint run_filters (fs : list filter) (s : list ascii) (a : list arg) (b : buffer)
  : option (nat * list arg * buffer) :=
  match fs with
  | [] => Some (0%nat, a, b)
  | f :: fs =>
      match f s a (text b) with
      | None => None
      | Some (n, a, acts) =>
          match run_acts acts b with
          | None => None
          | Some b => match n with O => run_filters fs s a b | S _ => Some (n, a, b) end
          end
      end
  end.

(** 563-641: the argument the directive took *)
Definition skip_arg (c : ascii) (le : N) (a : list arg) : option (list arg) :=
  let drop {A} (o : option (A * list arg)) := match o with Some (_, a) => Some a | None => None end in
  if among c ["d"; "i"; "o"; "u"; "x"; "X"] then
    if is_long le then drop (next_long a) else drop (next_int a)
  else if among c ["f"; "F"; "e"; "E"; "g"; "G"; "a"; "A"] then
    if le =? len_L then drop (next_long_double a) else drop (next_double a)
  else if Ascii.eqb c "c" then drop (next_int a)
  else if among c ["s"; "p"; "n"] then drop (next_ptr a)
  else Some a.

(** The text up to the next '%' from index [from] on, and the format from there. *)
Definition split_at (from : nat) (s : list ascii) : list ascii * option (list ascii) :=
  match find "%" (skipn from s) with
  | Some n => (firstn (from + n) s, Some (skipn (from + n) s))
  | None => (s, None)
  end.

(** 503-667: the loop.  [s] begins with a '%'.  [None]: undefined behaviour (line 525 looks behind the
    terminator if the '%' is the last character). *)
Fixpoint log_loop (P : printer) (fs : list filter) (fuel : nat) (s : list ascii) (a : list arg) (b : buffer)
  : option buffer :=
  match fuel with
  | O => None
  | S fuel =>
      match run_filters fs s a b with
      | None => None
      | Some (O, a, b) =>
          if Nat.ltb (length s) 2 then None
          else
            let '(part, next) := split_at 2 s in
            match print P part a with
            | None => None
            | Some o =>
                let '(_, b) := grow true (N.of_nat (length o)) b in
                match put o 1 b with
                | None => None
                | Some b =>
                    let '(n, i) := get_info part in
                    match skip_arg (nth n part zero) (length_mod i) a with
                    | None => None
                    | Some a => match next with Some s => log_loop P fs fuel s a b | None => Some b end
                    end
                end
            end
      | Some (n, a, b) =>
          if Nat.ltb (length s) n then None
          else
            let '(part, next) := split_at 0 (skipn n s) in
            match copy part b with
            | None => None
            | Some b => match next with Some s => log_loop P fs fuel s a b | None => Some b end
            end
      end
  end.

(** 694-703: the message filters *)
Fixpoint run_messages (l : list (list ascii -> list act)) (b : buffer) : option buffer :=
  match l with
  | [] => Some b
  | f :: l => match run_acts (f (text b)) b with Some b => run_messages l b | None => None end
  end.

(** 418-703: the message CCLogv builds.  [fs] and [ms] are the specifier and message filters, the one
    added last first.  [Tag] is not NULL and the option is not CCLogOptionNone. *)
Definition log (P : printer) (fs : list filter) (ms : list (list ascii -> list act))
  (tag : list ascii) (file func : option (list ascii)) (line : N) (format : list ascii) (a : list arg)
  : option (list ascii) :=
  match
    match fs with
    | _ :: _ =>
        let s := batches (estimate tag file func) in
        match start tag file func line s (s + 1) with
        | None => None
        | Some b =>
            let '(part, next) := split_at 0 format in
            match copy part b with
            | None => None
            | Some b =>
                match (match next with
                       | None => Some b
                       | Some s => log_loop P fs (S (length format)) s a b
                       end) with
                | None => None
                | Some b => put [] 1 b
                end
            end
        end
    | [] =>
        match print P format a with
        | None => None
        | Some o =>
            match start tag file func line 0 (estimate tag file func + N.of_nat (length o)) with
            | None => None
            | Some b => put o 1 b
            end
        end
    end with
  | None => None
  | Some b => match run_messages ms b with Some b => Some (text b) | None => None end
  end.
