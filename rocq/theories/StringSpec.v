(** What C26, C27 and C28 mean. A string is a sequence of Unicode scalar values other than 0. *)
From Verif Require Import Base StringModel.

Definition scalar (c : N) : Prop := (0 < c <= 0x10ffff)%N /\ ~ (0xd800 <= c <= 0xdfff)%N.

(** The UTF-8 encoding. *)
Definition utf8_char (c : N) : list N :=
  (if c <? 0x80 then [c]
   else if c <? 0x800 then [0xc0 + c / 0x40; 0x80 + c mod 0x40]
   else if c <? 0x10000 then [0xe0 + c / 0x1000; 0x80 + c / 0x40 mod 0x40; 0x80 + c mod 0x40]
   else [0xf0 + c / 0x40000; 0x80 + c / 0x1000 mod 0x40; 0x80 + c / 0x40 mod 0x40; 0x80 + c mod 0x40])%N.
Definition utf8 (cs : list N) : list N := concat (map utf8_char cs).

(** The characters an encoding has, and the bytes of a sequence of them. *)
Definition encodable (e : encoding) (c : N) : Prop := scalar c /\ match e with ASCII => (c < 128)%N | UTF8 => True end.
Definition encode (e : encoding) (cs : list N) : list N := match e with ASCII => cs | UTF8 => utf8 cs end.

(** The maps: each has as many entries as its set says, begins with 0 and has characters of its encoding. *)
Definition good_maps (M : env) : Prop :=
  forall set, (1 <= set <= 3)%N ->
    length (chars_of M set) = N.to_nat (map_size set) /\ nth_error (chars_of M set) 0 = Some 0%N /\
    forall c, In c (chars_of M set) -> c <> 0%N -> encodable (cm_encoding (maps M set)) c.

(** [d] is the place where [c] first is in the map. *)
Definition first_at (l : list N) (c : N) (d : N) : Prop :=
  nth_error l (N.to_nat d) = Some c /\ forall j, (j < N.to_nat d)%nat -> nth_error l j <> Some c.

(** Digits of [b] bits, least significant first. *)
Fixpoint packed (b : N) (ds : list N) : N := match ds with [] => 0 | d :: ds => d + 2 ^ b * packed b ds end%N.

(** The word that holds [cs] inline with the map [set]. *)
Definition inline (M : env) (set : N) (cs : list N) (w : N) : Prop :=
  (1 <= set <= 3)%N /\ length cs <= char_max set /\
  exists ds, Forall2 (first_at (chars_of M set)) cs ds /\ w = (set + 4 * packed (bits_of set) ds)%N.

(** The characters in memory, at the given address. The size that is remembered is the size of the characters; a 0
    follows the characters unless there are some, they are ASCII and their size is remembered. *)
Definition stored (h : info) (cs : list N) : Prop :=
  Forall (encodable (h_encoding h)) cs /\ (exists b, h_before h = Some b /\ b < 256)%N /\
  exists rest, h_mem h = encode (h_encoding h) cs ++ rest /\
    ((exists r, rest = 0%N :: r) \/ h_encoding h = ASCII /\ h_size h <> None /\ cs <> []) /\
    (h_size h = None \/ h_size h = Some (length (encode (h_encoding h) cs))).

(** A CCString and the characters it stands for. *)
Definition represents (M : env) (s : str) (cs : list N) : Prop :=
  match s with
  | Tagged w => Forall scalar cs /\ exists set, inline M set cs w
  | Heap h => stored h cs
  end.

(** Which sequences some map holds. *)
Definition fits (M : env) (cs : list N) : Prop :=
  exists set, (1 <= set <= 3)%N /\ length cs <= char_max set /\ forall c, In c cs -> In c (chars_of M set).

(** ** Operations on sequences *)

Definition occurs_at (sub cs : list N) (p : nat) : Prop := exists pre post, cs = pre ++ sub ++ post /\ length pre = p.
Definition contains (sub cs : list N) : Prop := exists p, occurs_at sub cs p.

(** The least position from [i] on at which [sub] occurs. *)
Definition least (sub cs : list N) (i : nat) (r : option nat) : Prop :=
  match r with
  | Some p => i <= p /\ occurs_at sub cs p /\ forall q, i <= q < p -> ~ occurs_at sub cs q
  | None => forall q, i <= q -> ~ occurs_at sub cs q
  end.

(** Left to right, without overlaps. *)
Inductive replaced (occ rep : list N) : list N -> list N -> Prop :=
| replaced_none cs : ~ contains occ cs -> replaced occ rep cs cs
| replaced_step pre post out : (forall q, q < length pre -> ~ occurs_at occ (pre ++ occ ++ post) q) ->
    replaced occ rep post out -> replaced occ rep (pre ++ occ ++ post) (pre ++ rep ++ out).

Inductive pieces (occ : list N) : list N -> list (list N) -> Prop :=
| pieces_none cs : ~ contains occ cs -> pieces occ cs [cs]
| pieces_step pre post l : (forall q, q < length pre -> ~ occurs_at occ (pre ++ occ ++ post) q) ->
    pieces occ post l -> pieces occ (pre ++ occ ++ post) (pre :: l).

Fixpoint joined (sep : list N) (l : list (list N)) : list N :=
  match l with [] => [] | [x] => x | x :: l => x ++ sep ++ joined sep l end.

(** ** Enumeration: a position in the sequence, or past an end *)

Inductive position := At (i : nat) | Past.
Definition char_at_position (cs : list N) (p : position) : N := match p with At i => nth i cs 0%N | Past => 0%N end.
(** [None]: the documentation leaves the call undefined. *)
Definition moved (cs : list N) (p : position) (a : action) : option position :=
  match a, p with
  | Head, _ => Some (At 0)
  | Tail, _ => Some (At (length cs - 1))
  | Next, At i => Some (if i + 1 <? length cs then At (i + 1) else Past)
  | Previous, At (Datatypes.S i) => Some (At i)
  | Previous, At O => Some Past
  | Current, _ => Some p
  | _, Past => None
  end.

Definition index (p : position) : option nat := match p with At i => Some i | Past => None end.

(** The indices and characters a sequence of calls gives, and what they should be. *)
Fixpoint enumerated (M : env) (s : str) (st : estate) (l : list action) : option (list (option nat * N)) :=
  match l with [] => Some [] | a :: l => let? (st, c) := enum_move M s st a in let? r := enumerated M s st l in Some ((enum_index st, c) :: r) end.
Fixpoint walked (cs : list N) (p : position) (l : list action) : option (list (option nat * N)) :=
  match l with [] => Some [] | a :: l => let? p := moved cs p a in let? r := walked cs p l in Some ((index p, char_at_position cs p) :: r) end.

(** A string whose byte in front of the characters is not 0 while it is read past the end: only ASCII in memory. *)
Definition quiet (s : str) : Prop :=
  match s with Heap h => h_encoding h = ASCII -> h_before h = Some 0%N | Tagged _ => True end.

(** The cases in which a search in an inline string goes wrong: all places are taken, the search starts at 0 and the
    substring is first found at the very end. *)
Definition overlooked (M : env) (s sub : str) (cs scs : list N) (i : nat) : Prop :=
  i = 0 /\ least scs cs 0 (Some (length cs - length scs)) /\
  match s, sub with Tagged w, Tagged w' => set_of w = set_of w' /\ length cs = char_max (set_of w) | _, _ => False end.

(** ** Several strings to look for: the closest one, and the first in the list of those at the same place *)

Definition nearest (subs : list (list N)) (cs : list N) (i p k : nat) : Prop :=
  i <= p /\ (exists sub, nth_error subs k = Some sub /\ occurs_at sub cs p) /\
  forall j sub q, nth_error subs j = Some sub -> i <= q -> occurs_at sub cs q -> p < q \/ p = q /\ k <= j.

Definition closest (subs : list (list N)) (cs : list N) (i : nat) (r : option (nat * nat)) : Prop :=
  match r with
  | Some (p, k) => nearest subs cs i p k
  | None => forall sub q, In sub subs -> i <= q -> ~ occurs_at sub cs q
  end.

Inductive replaced_any (occs reps : list (list N)) : list N -> list N -> Prop :=
| replaced_any_none cs : (forall occ, In occ occs -> ~ contains occ cs) -> replaced_any occs reps cs cs
| replaced_any_step k occ rep pre post out : nth_error occs k = Some occ -> nth_error reps k = Some rep ->
    nearest occs (pre ++ occ ++ post) 0 (length pre) k ->
    replaced_any occs reps post out -> replaced_any occs reps (pre ++ occ ++ post) (pre ++ rep ++ out).

Inductive pieces_any (occs : list (list N)) : list N -> list (list N) -> Prop :=
| pieces_any_none cs : (forall occ, In occ occs -> ~ contains occ cs) -> pieces_any occs cs [cs]
| pieces_any_step k occ pre post l : nth_error occs k = Some occ -> nearest occs (pre ++ occ ++ post) 0 (length pre) k ->
    pieces_any occs post l -> pieces_any occs (pre ++ occ ++ post) (pre :: l).

(** A string or NULL. *)
Definition represents_or_null (M : env) (s : option str) (cs : list N) : Prop :=
  match s with Some s => represents M s cs | None => cs = [] end.

(** ** Where the code departs from the sequences *)

(** What a step past an end returns: the byte in front of the characters when they are ASCII in memory. *)
Definition past_char (s : str) : N :=
  match s with
  | Heap h => match h_encoding h with ASCII => match h_before h with Some b => sext b | None => 0%N end | UTF8 => 0%N end
  | Tagged _ => 0%N
  end.

(** That byte is taken for the missing character of a prefix ([Next]) or suffix ([Previous]). *)
Definition misled (a : action) (s : str) (cs ps : list N) : Prop :=
  cs <> [] /\ past_char s <> 0%N /\ ps = match a with Previous => past_char s :: cs | _ => cs ++ [past_char s] end.

(** Inline with the same map, and the second is longer. *)
Definition same_set_longer (s p : str) (cs ps : list N) : Prop :=
  match s, p with Tagged w, Tagged w' => set_of w = set_of w' /\ length cs < length ps | _, _ => False end.

(** The empty constant in ASCII against an inline empty string. *)
Definition empty_constant (s1 s2 : str) (cs : list N) : Prop :=
  cs = [] /\ match s1, s2 with Heap h, Tagged _ => h_encoding h = ASCII | _, _ => False end.

(** Not inline, or not at the end of the characters: then no search is led astray. *)
Definition safe (occ : str) (ocs cs : list N) : Prop := match occ with Tagged _ => ~ exists pre, cs = pre ++ ocs | Heap _ => True end.
Definition all_safe (occs : list str) (ocss : list (list N)) (cs : list N) : Prop :=
  forall k occ ocs, nth_error occs k = Some occ -> nth_error ocss k = Some ocs -> safe occ ocs cs.
