(** Specification of log messages (C77). *)
From Coq Require Import Ascii List NArith Lia Bool.
From Verif Require Import FormatModel FormatSpec LogModel.
Import ListNotations.
Open Scope char_scope.
Open Scope N_scope.

(** ** The heading: "TAG:[file:line]:function: ", where the file and the function are optional *)

Definition number (n : N) (ds : list ascii) : Prop :=
  Forall a_digit ds /\ decimal ds = n /\ (ds = ["0"] \/ exists c r, ds = c :: r /\ c <> "0").
Definition headed (tag : list ascii) (file func : option (list ascii)) (line : N) (h : list ascii) : Prop :=
  exists ds, number line ds /\
    h = tag ++ [":"] ++ match file with Some f => ["["] ++ f ++ [":"] ++ ds ++ ["]"; ":"] | None => [] end ++
        match func with Some f => f ++ [":"] | None => [] end ++ [" "].

(** ** The message *)

(** A format in pieces: characters, "%%", the standard's directives, and specifiers of filters. *)
Inductive piece : Type := Lit (c : ascii) | Percent | Std (d : directive) | Custom (t : list ascii).
Definition show_piece (p : piece) : list ascii :=
  match p with Lit c => [c] | Percent => ["%"; "%"] | Std d => show d | Custom t => t end.
Definition show_all (l : list piece) : list ascii := flat_map show_piece l.

(** The arguments a directive takes: for a width, for a precision, and its value *)
Inductive star_args : amount -> list arg -> Prop :=
| star_absent : star_args Absent []
| star_number ds : star_args (Number ds) []
| star_star n : star_args Star [AInt n].
Definition of_type (t : value_type) (v : arg) : Prop :=
  match t, v with
  | TInt, AInt _ | TLong, ALong _ | TDouble, ADouble _ | TLongDouble, ALongDouble _ | TPtr, APtr _ => True
  | _, _ => False
  end.
Definition arguments (d : directive) (l : list arg) : Prop :=
  exists t w p v, type_of d = Some t /\ star_args (d_width d) w /\ star_args (d_prec d) p /\ of_type t v /\
    l = w ++ p ++ [v].

(** What is made of the pieces, from message [m] to message [m']: characters stand for themselves, a
    directive no filter takes is shown as printf would with the next arguments, and the first filter
    that takes a specifier decides what becomes of the message and which arguments are left. *)
Inductive rendered (P : printer) (fs : list filter) : list piece -> list arg -> list ascii -> list ascii -> Prop :=
| r_end a m : rendered P fs [] a m m
| r_char c l a m m' : c <> "%" -> rendered P fs l a (m ++ [c]) m' -> rendered P fs (Lit c :: l) a m m'
| r_percent l a m m' :
    (forall f, In f fs -> declines f (show_all (Percent :: l)) a m) ->
    rendered P fs l a (m ++ ["%"]) m' -> rendered P fs (Percent :: l) a m m'
| r_std d v l a m m' :
    wf d -> no_star d -> arguments d v ->
    (forall f, In f fs -> declines f (show_all (Std d :: l)) (v ++ a) m) ->
    rendered P fs l a (m ++ P d v) m' -> rendered P fs (Std d :: l) (v ++ a) m m'
| r_custom t (f : filter) (fs1 fs2 : list filter) acts l a a' m m' :
    fs = fs1 ++ f :: fs2 -> hd_error t = Some "%" ->
    (forall g, In g fs1 -> declines g (show_all (Custom t :: l)) a m) ->
    f (show_all (Custom t :: l)) a m = Some (length t, a', acts) ->
    rendered P fs l a' (apply acts m) m' -> rendered P fs (Custom t :: l) a m m'.

(** The message filters, in turn *)
Definition filtered (ms : list (list ascii -> list act)) (m : list ascii) : list ascii :=
  fold_left (fun m f => apply (f m) m) ms m.

(** What printf makes of pieces without filters' specifiers *)
Inductive printed (P : printer) : list piece -> list arg -> list ascii -> Prop :=
| p_end a : printed P [] a []
| p_char c l a o : c <> "%" -> printed P l a o -> printed P (Lit c :: l) a (c :: o)
| p_percent l a o : printed P l a o -> printed P (Percent :: l) a ("%" :: o)
| p_std d v l a o : wf d -> arguments d v -> printed P l a o -> printed P (Std d :: l) (v ++ a) (P d v ++ o).

Definition starless (l : list piece) : Prop := forall d, In (Std d) l -> no_star d.

(** Filters that leave the standard's directives alone *)
Definition quiet (f : filter) : Prop :=
  forall rest a m,
    declines f ("%" :: "%" :: rest) a m /\
    forall d t, wf d -> type_of d = Some t -> d_width d <> Star -> declines f (show d ++ rest) a m.

(** "%*d" and "%d" *)
Definition d_star : directive := mkdir [] Star Absent [] "d".
Definition d_int : directive := mkdir [] Absent Absent [] "d".

(** A message in memory: it has its size and a place for the terminator. *)
Definition sound (b : buffer) : Prop := len b <= size b /\ room b = size b + 1.
