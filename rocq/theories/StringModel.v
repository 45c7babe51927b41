(** Model of CommonC/CCString.c, CCString.h and CCStringEnumerator.h on 64-bit little or big endian hardware with a
    signed [char]. A CCString is a word that holds the characters itself (a tagged string), or a pointer to a
    CCStringInfo. [None]: a failed assertion or undefined behaviour. Allocation succeeds. Simplified: the size,
    length and hash a CCStringInfo remembers are recomputed (its characters do not change), and so are the hashes in
    the cache of lines 1187-1232 and 1263-1284; what is freed is not modelled. *)
From Verif Require Import Base Word.

(** CCString.h 108-111: CCStringEncoding *)
Inductive encoding := ASCII | UTF8.
Definition encoding_eqb (a b : encoding) : bool := match a, b with ASCII, ASCII | UTF8, UTF8 => true | _, _ => false end.

(** Lines 135-138: one entry of [Maps] *)
Record charmap := mkMap { cm_encoding : encoding; cm_chars : list N }.

(** What the functions read that is not an argument: [Maps] (lines 135-163, changed by CCStringRegisterMap only),
    and the byte in front of a block that the string functions allocate (the last byte of the allocator's header). *)
Record env := mkEnv { maps : N -> charmap; junk : N }.

(** Lines 78-85: CCStringInfo. [h_mem] is the memory from the first character on, as far as it may be read; [h_before]
    is the byte in front of it, [None] when it may not be read; [h_size] is [None] for a string whose size is not
    marked (the constant strings of CCString.h 86-98); [h_free] is CCStringHintFree and [h_unsafe] is
    CCStringMarkUnsafeBuffer. *)
Record info := mkInfo { h_encoding : encoding; h_free : bool; h_unsafe : bool; h_size : option nat; h_mem : list N; h_before : option N }.

Inductive str := Tagged (w : N) | Heap (h : info).

(** CCString.h 428-435: CCStringTaggedMask *)
Definition set_of (w : N) : N := N.land w 3.

(** C shifts of a 64-bit word; [None]: the distance is not less than 64 *)
Definition shl (x n : N) : option N := if (n <? 64)%N then Some (wshl 64 x n) else None.
Definition shr (x n : N) : option N := if (n <? 64)%N then Some (N.shiftr x n) else None.
(** [UINTPTR_MAX >> ((sizeof(CCString) * 8) - n)]; the distance wraps when [n] is more than 64 *)
Definition low_mask (n : N) : option N := if (n <=? 64)%N then shr (2 ^ 64 - 1) (64 - n) else None.

(** Lines 110-142: the default maps *)
Definition map127 : list N := map N.of_nat (seq 0 127).
Definition map63 : list N :=
  ([0; 45; 43; 47; 42; 40; 41; 32; 33; 61; 60; 62; 46;
    48; 49; 50; 51; 52; 53; 54; 55; 56; 57;
    97; 98; 99; 100; 101; 102; 103; 104; 105; 106; 107; 108; 109; 110; 111; 112; 113; 114; 115; 116; 117; 118; 119; 120; 121; 122;
    65; 66; 67; 68; 69; 70; 71; 73; 78; 79; 80; 82; 83; 84])%N.
Definition map31 : list N :=
  ([0; 45; 33; 64; 38;
    97; 98; 99; 100; 101; 102; 103; 104; 105; 106; 107; 108; 109; 110; 111; 112; 113; 114; 115; 116; 117; 118; 119; 120; 121; 122])%N.
Definition default_maps (set : N) : charmap :=
  mkMap ASCII (if (set =? 1)%N then map127 else if (set =? 2)%N then map63 else map31).

(** Lines 173-186: CCStringCharacterInMap, over the first [MapSize] entries (a map has exactly that many) *)
Fixpoint in_map (c : N) (l : list N) (i : N) : option N :=
  match l with [] => None | x :: l => if (x =? c)%N then Some i else in_map c l (i + 1)%N end.

(** Lines 188-201, 253-264: CCStringTaggedMap, CCStringTaggedBitSize, CCStringTaggedMapSize, CCStringTaggedCharacterMax *)
Definition chars_of (M : env) (set : N) : list N := cm_chars (maps M set).
Definition bits_of (set : N) : N := (8 - set)%N.
Definition map_size (set : N) : N := N.shiftr 127 (set - 1).
Definition char_max (set : N) : nat := if (set =? 1)%N then 8 else if (set =? 2)%N then 10 else 12.

(** A [char] converted to CCChar *)
Definition sext (b : N) : N := if (b <? 128)%N then b else (b + (2 ^ 32 - 256))%N.

(** Lines 289-297: CCCharSize *)
Definition char_size (c : N) : nat :=
  if (c =? 0)%N then 0 else if (c <? 0x80)%N then 1 else if (c <? 0x800)%N then 2 else if (c <? 0x10000)%N then 3 else 4.

(** Lines 1679-1690: CCStringTrailingBytesUTF8, CCStringOffsetsUTF8 *)
Definition trailing : list nat := repeat 0 192 ++ repeat 1 32 ++ repeat 2 16 ++ repeat 3 8 ++ repeat 4 4 ++ repeat 5 4.
Definition offsets : list N := ([0; 0x3080; 0xe2080; 0x03c82080; 0xfa082080; 0x82082080])%N.

(** Lines 1699-1701: [extra] bytes are shifted in, then the last one *)
Fixpoint gather (mem : list N) (i extra : nat) (c : N) : option N :=
  let? b := nth_error mem i in
  match extra with
  | O => Some (wadd 32 c b)
  | Datatypes.S extra => gather mem (i + 1) extra (wshl 32 (wadd 32 c b) 6)
  end.

(** Lines 1692-1707: CCStringGetCharacterUTF8 of the bytes at position [i]; the character and the size *)
Definition get_utf8 (mem : list N) (i : nat) : option (N * nat) :=
  let? b := nth_error mem i in
  let? extra := nth_error trailing (N.to_nat b) in
  let? offset := nth_error offsets extra in
  let? c := gather mem i extra 0 in
  let c := wsub 32 c offset in
  if ((c <=? 0x10ffff) && ((c <? 0xd800) || (0xdfff <? c)))%N then Some (c, extra + 1) else None.

(** Lines 1709-1714: CCStringGetPreviousCodepointUTF8 *)
Fixpoint prev_codepoint (mem : list N) (i : nat) : option nat :=
  match i with
  | O => Some O
  | Datatypes.S j => let? b := nth_error mem i in if (N.land b 0xc0 =? 0x80)%N then prev_codepoint mem j else Some i
  end.

(** Lines 1716-1738: CCStringCopyCharacterUTF8; the bytes written *)
Definition first_mark : list N := ([0; 0; 0xc0; 0xe0; 0xf0; 0xf8; 0xfc])%N.
Definition low_byte (x : N) : N := (x mod 256)%N.
Definition put_utf8 (c : N) : list N :=
  let tail x := low_byte (N.land (N.lor x 0x80) 0xbf) in
  let head x n := low_byte (N.lor x (nth n first_mark 0%N)) in
  match char_size c with
  | 1 => [head c 1]
  | 2 => [head (N.shiftr c 6) 2; tail c]
  | 3 => [head (N.shiftr (N.shiftr c 6) 6) 3; tail (N.shiftr c 6); tail c]
  | 4 => [head (N.shiftr (N.shiftr (N.shiftr c 6) 6) 6) 4; tail (N.shiftr (N.shiftr c 6) 6); tail (N.shiftr c 6); tail c]
  | _ => []
  end.

(** Lines 1662-1669: CCStringGetLengthUTF8; the fuel is more than the bytes that can be read *)
Fixpoint length_utf8 (fuel : nat) (mem : list N) (i : nat) : option nat :=
  match fuel with
  | O => None
  | Datatypes.S fuel =>
      let? (c, size) := get_utf8 mem i in
      if (c =? 0)%N then Some O else let? n := length_utf8 fuel mem (i + size) in Some (Datatypes.S n)
  end.

(** strlen and strncpy of the C library; [None]: read past the readable memory *)
Fixpoint strlen (mem : list N) : option nat :=
  match mem with [] => None | b :: mem => if (b =? 0)%N then Some O else let? n := strlen mem in Some (Datatypes.S n) end.
Fixpoint strncpy (mem : list N) (n : nat) : option (list N) :=
  match n, mem with
  | O, _ => Some []
  | Datatypes.S _, [] => None
  | Datatypes.S n', b :: mem => if (b =? 0)%N then Some (repeat 0%N n) else let? r := strncpy mem n' in Some (b :: r)
  end.

(** ** Creation *)

(** Lines 203-226: the ASCII loop of CCStringCreateTaggedFromMapSet; [loop] counts up and [n] iterations are left.
    The result 0 is "does not fit". *)
Fixpoint tag_ascii (M : env) (set : N) (mem : list N) (loop : N) (n : nat) (w : N) : option N :=
  match n with
  | O => Some w
  | Datatypes.S n =>
      match mem with
      | [] => None
      | b :: mem =>
          match in_map (sext b) (chars_of M set) 0 with
          | Some i => let? x := shl i (bits_of set * loop) in tag_ascii M set mem (loop + 1) n (N.lor w (wshl 64 x 2))
          | None => Some 0%N
          end
      end
  end.

(** Lines 228-248: the UTF8 loop *)
Fixpoint tag_utf8 (fuel : nat) (M : env) (set : N) (mem : list N) (loop size : nat) (count : N) (w : N) : option N :=
  match fuel with
  | O => None
  | Datatypes.S fuel =>
      if size <=? loop then Some w
      else
        let? (c, n) := get_utf8 mem loop in
        if (count <? 62 / bits_of set)%N then
          match in_map c (chars_of M set) 0 with
          | Some i => let? x := shl i (bits_of set * count) in tag_utf8 fuel M set mem (loop + n) size (count + 1) (N.lor w (wshl 64 x 2))
          | None => Some 0%N
          end
        else Some 0%N
  end.

(** Lines 203-251: CCStringCreateTaggedFromMapSet *)
Definition tag_from (M : env) (set : N) (mem : list N) (size : nat) (e : encoding) : option N :=
  match e with
  | ASCII => tag_ascii M set mem 0 size set
  | UTF8 => tag_utf8 (Datatypes.S size) M set mem 0 size 0 set
  end.

(** Lines 266-279: CCStringCreateTagged; [sets] is what is left to try *)
Fixpoint tag_first (M : env) (sets : list N) (mem : list N) (size : nat) (e : encoding) : option N :=
  match sets with
  | [] => Some 0%N
  | set :: sets =>
      if size <=? char_max set * (match e with UTF8 => 4 | ASCII => 1 end) then
        let? w := tag_from M set mem size e in
        if (w =? 0)%N then tag_first M sets mem size e else Some w
      else tag_first M sets mem size e
  end.
Definition create_tagged (M : env) (mem : list N) (size : nat) (e : encoding) : option N := tag_first M [3%N; 2%N; 1%N] mem size e.

(** CCString.h 121-123: CCStringHintCopy, CCStringHintFree, neither *)
Inductive mode := Copied | Freed | Borrowed.

(** Lines 343-390: CCStringCreateFromString of the [size] characters at [mem]; [before] is the byte in front of them.
    A copy sits behind the field [string], which is NULL. *)
Definition create_from (M : env) (e : encoding) (m : mode) (before : option N) (mem : list N) (size : nat) (same : bool) : option str :=
  let? w := create_tagged M mem size e in
  if negb (w =? 0)%N then Some (Tagged w)
  else match m with
       | Copied => let? l := strncpy mem size in Some (Heap (mkInfo e true false (Some size) (l ++ [0%N]) (Some 0%N)))
       | _ => let free := match m with Freed => true | _ => false end in
              if same then Some (Heap (mkInfo e free false (Some size) mem before))
              else let? n := strlen mem in Some (Heap (mkInfo e free (negb (size =? n)) (Some size) mem before))
       end.

(** Lines 392-404: CCStringCreate, CCStringCreateWithSize *)
Definition create (M : env) (e : encoding) (m : mode) (before : option N) (mem : list N) : option str :=
  let? n := strlen mem in create_from M e m before mem n true.
Definition create_with_size (M : env) (e : encoding) (m : mode) (before : option N) (mem : list N) (size : nat) : option str :=
  create_from M e m before mem size false.

(** CCString.h 86-98: CC_STRING, CC_STRING_ENCODING: a header of zeros in front of the characters *)
Definition constant (e : encoding) (bytes : list N) : str := Heap (mkInfo e false false None (bytes ++ [0%N]) (Some 0%N)).

(** Lines 299-341: CCStringCreateWithCharacter *)
Fixpoint tag_character (M : env) (sets : list N) (c : N) : option N :=
  match sets with
  | [] => None
  | set :: sets => match in_map c (chars_of M set) 0 with Some i => Some (N.lor set (wshl 64 i 2)) | None => tag_character M sets c end
  end.
Definition create_character (M : env) (c : N) : str :=
  match tag_character M [3%N; 2%N; 1%N] c with
  | Some w => Tagged w
  | None =>
      let size := char_size c in
      if 1 <? size then Heap (mkInfo UTF8 false false (Some size) (put_utf8 c ++ [0%N]) (Some 0%N))
      else Heap (mkInfo ASCII false false (Some size) [low_byte c; 0%N] (Some 0%N))
  end.

(** ** Observations *)

(** Lines 934-940: CCStringGetEncoding *)
Definition get_encoding (M : env) (s : str) : encoding :=
  match s with Tagged w => cm_encoding (maps M (set_of w)) | Heap h => h_encoding h end.

(** Lines 951-958: [Map[(String >> (Bits * Loop)) & MapSize]] of the word without its tag *)
Definition lookup (M : env) (set v : N) (i : nat) : option N :=
  let? x := shr v (bits_of set * N.of_nat i) in nth_error (chars_of M set) (N.to_nat (N.land x (map_size set))).

Fixpoint tagged_size (M : env) (set v : N) (loop n : nat) : option nat :=
  match n with
  | O => Some O
  | Datatypes.S n => let? c := lookup M set v loop in let? r := tagged_size M set v (loop + 1) n in Some (char_size c + r)
  end.

(** Lines 942-973: CCStringGetSize *)
Definition get_size (M : env) (s : str) : option nat :=
  match s with
  | Tagged w => tagged_size M (set_of w) (N.shiftr w 2) 0 (char_max (set_of w))
  | Heap h => match h_size h with Some n => Some n | None => strlen (h_mem h) end
  end.

(** Lines 1012-1136: the length of a tagged string *)
Definition tagged_length (w : N) : nat :=
  let on m := negb (N.land w m =? 0)%N in
  if (set_of w =? 1)%N then
    if on 0x3ffffffc0000000%N then
      if on 0x3fff00000000000%N then if on 0x3f8000000000000%N then 8 else 7
      else if on 0xfe000000000%N then 6 else 5
    else if on 0x3ffffffc%N then
      if on 0x3fff0000%N then if on 0x3f800000%N then 4 else 3
      else if on 0xfe00%N then 2 else 1
    else 0
  else if (set_of w =? 2)%N then
    if on 0x3fffffff00000000%N then
      if on 0x3ffc000000000000%N then if on 0x3f00000000000000%N then 10 else 9
      else if on 0x3ffc000000000%N then if on 0x3f00000000000%N then 8 else 7
      else 6
    else if on 0xfffffffc%N then
      if on 0xfff00000%N then if on 0xfc000000%N then 5 else 4
      else if on 0xfff00%N then if on 0xfc000%N then 3 else 2
      else 1
    else 0
  else
    if on 0x3fffffff00000000%N then
      if on 0x3fff800000000000%N then
        if on 0x3ff0000000000000%N then if on 0x3e00000000000000%N then 12 else 11
        else 10
      else if on 0x7fff00000000%N then
        if on 0x7fe000000000%N then if on 0x7c0000000000%N then 9 else 8
        else 7
      else 0
    else if on 0xfffffffc%N then
      if on 0xfffe0000%N then
        if on 0xffc00000%N then if on 0xf8000000%N then 6 else 5
        else 4
      else if on 0x1fffc%N then
        if on 0x1ff80%N then if on 0x1f000%N then 3 else 2
        else 1
      else 0
    else 0.

(** Lines 975-1171: CCStringGetLength *)
Definition get_length (M : env) (s : str) : option nat :=
  match s with
  | Tagged w => Some (tagged_length w)
  | Heap h => match h_encoding h with ASCII => get_size M s | UTF8 => length_utf8 (Datatypes.S (length (h_mem h))) (h_mem h) 0 end
  end.

(** Lines 1289-1298: CCStringTaggedCharacterAtIndex; the index SIZE_MAX is [None] *)
Definition tagged_at (M : env) (w : N) (i : option nat) : option N :=
  match i with
  | Some i => if i <? char_max (set_of w)
              then let? x := shr w (bits_of (set_of w) * N.of_nat i) in
                   nth_error (chars_of M (set_of w)) (N.to_nat (N.land (N.shiftr x 2) (map_size (set_of w))))
              else Some 0%N
  | None => Some 0%N
  end.

(** ** Enumerators *)

Inductive action := Head | Tail | Next | Previous | Current.

(** CCEnumeratorState. [Internal] has the index, the current character, the next code point and the direction
    (extra[0..3], lines 1499-1541 and 1579-1655); [Batch] has the index and the count. The index SIZE_MAX is
    [None]. *)
Inductive estate := Internal (i : option nat) (c : N) (off : nat) (forward : bool) | Batch (i : option nat) (count : nat).

(** Lines 1574: the [char] at the index; the index SIZE_MAX is the byte in front of the characters *)
Definition batch_at (h : info) (i : option nat) : option N :=
  let? b := match i with Some i => nth_error (h_mem h) i | None => h_before h end in Some (sext b).

(** [index - 1] of a size_t *)
Definition pred_index (n : nat) : option nat := match n with O => None | Datatypes.S k => Some k end.
(** [index + 1], which is 0 for SIZE_MAX *)
Definition succ_index (i : option nat) : nat := match i with Some i => i + 1 | None => 0 end.

(** Lines 1495-1542: CCStringEnumerator of a tagged string. Stepping back from the index SIZE_MAX is left out: it is
    documented as undefined (CCStringEnumerator.h 96-97). *)
Definition tagged_step (M : env) (w : N) (st : estate) (a : action) : option (estate * N) :=
  match st with
  | Batch _ _ => None
  | Internal i c off fwd =>
      let go j := let? c := tagged_at M w j in Some (Internal j c off fwd, c) in
      match a with
      | Head => go (Some 0)
      | Tail => go (pred_index (tagged_length w))
      | Next => if tagged_length w <=? succ_index i then Some (Internal None 0 off fwd, 0%N) else go (Some (succ_index i))
      | Previous => match i with
                    | Some O => Some (Internal None 0 off fwd, 0%N)
                    | Some (Datatypes.S j) => go (Some j)
                    | None => None
                    end
      | Current => Some (st, c)
      end
  end.

(** Lines 1546-1575: of a string in ASCII *)
Definition ascii_step (M : env) (h : info) (st : estate) (a : action) : option (estate * N) :=
  match st with
  | Internal _ _ _ _ => None
  | Batch i n =>
      let? st' := match a with
                  | Head => let? l := get_length M (Heap h) in Some (Batch (Some 0) l)
                  | Tail => let? l := get_length M (Heap h) in Some (Batch (pred_index l) l)
                  | Next | Previous => Some (Batch None 0)
                  | Current => Some st
                  end in
      let? c := batch_at h (match st' with Batch i _ => i | Internal i _ _ _ => i end) in Some (st', c)
  end.

(** Lines 1621-1623 and 1645-1647: one code point on, one code point back *)
Definition on_utf8 (mem : list N) (i : option nat) (off : nat) : option (option nat * N * nat) :=
  let? (c, size) := get_utf8 mem off in Some (Some (succ_index i), c, off + size).
Definition back_utf8 (mem : list N) (i : nat) (off : nat) : option (option nat * N * nat) :=
  match off with
  | O => None
  | Datatypes.S off => let? off := prev_codepoint mem off in let? (c, _) := get_utf8 mem off in Some (pred_index i, c, off)
  end.

(** Lines 1577-1656: of a string in UTF-8. The recursive calls of lines 1616 and 1640 are the same step in the other
    direction, followed by putting the index back. Left out: stepping back from the index SIZE_MAX, and the tail of an
    empty string (line 1597 reads in front of the characters). *)
Definition utf8_step (M : env) (h : info) (st : estate) (a : action) : option (estate * N) :=
  let mem := h_mem h in
  match st with
  | Batch _ _ => None
  | Internal i c off fwd =>
      let? len := get_length M (Heap h) in
      match a with
      | Head => let? (c, size) := get_utf8 mem 0 in Some (Internal (Some 0) c size true, c)
      | Tail =>
          let? size := get_size M (Heap h) in
          match size with
          | O => None
          | Datatypes.S k => let? off := prev_codepoint mem k in let? (c, _) := get_utf8 mem off in Some (Internal (pred_index len) c off false, c)
          end
      | Next =>
          if len <=? succ_index i then Some (Internal None 0 off fwd, 0%N)
          else
            let? off := (if fwd then Some off else let? (_, _, off) := on_utf8 mem i off in Some off) in
            let? (i, c, off) := on_utf8 mem i off in Some (Internal i c off true, c)
      | Previous =>
          match i with
          | None => None
          | Some O => Some (Internal None 0 off fwd, 0%N)
          | Some i =>
              let? off := (if fwd then let? (_, _, off) := back_utf8 mem i off in Some off else Some off) in
              let? (i, c, off) := back_utf8 mem i off in Some (Internal i c off false, c)
          end
      | Current => Some (st, c)
      end
  end.

(** Lines 1493-1660: CCStringEnumerator *)
Definition enumerator (M : env) (s : str) (st : estate) (a : action) : option (estate * N) :=
  match s with
  | Tagged w => tagged_step M w st a
  | Heap h => match h_encoding h with ASCII => ascii_step M h st a | UTF8 => utf8_step M h st a end
  end.

(** Lines 1467-1491: CCStringGetEnumerator *)
Definition get_enumerator (M : env) (s : str) : option estate :=
  let start := match s with Heap h => match h_encoding h with ASCII => Batch None 0 | UTF8 => Internal None 0 0 true end | Tagged _ => Internal None 0 0 true end in
  let? (st, _) := enumerator M s start Head in Some st.

(** CCStringEnumerator.h 107-122: CCStringEnumeratorGetIndex *)
Definition enum_index (st : estate) : option nat := match st with Internal i _ _ _ => i | Batch i _ => i end.

(** CCStringEnumerator.h 124-139: CCStringEnumeratorGetCurrent *)
Definition enum_current (s : str) (st : estate) : option N :=
  match st, s with
  | Internal _ c _ _, _ => Some c
  | Batch i n, Heap h => if n =? 0 then Some 0%N else batch_at h i
  | Batch _ _, Tagged _ => None
  end.

(** CCStringEnumerator.h 141-179: CCStringEnumeratorGetHead, GetTail, Next, Previous *)
Definition enum_move (M : env) (s : str) (st : estate) (a : action) : option (estate * N) :=
  match st, s with
  | Batch i n, Heap h =>
      match a with
      | Next => if n =? 0 then Some (st, 0%N)
                else if succ_index i <? n then let? c := batch_at h (Some (succ_index i)) in Some (Batch (Some (succ_index i)) n, c)
                else enumerator M s st a
      | Previous => if n =? 0 then Some (st, 0%N)
                    else match i with
                         | Some (Datatypes.S j) => let? c := batch_at h (Some j) in Some (Batch (Some j) n, c)
                         | Some O => enumerator M s st a
                         | None => None
                         end
      | Current => let? c := enum_current s st in Some (st, c)
      | _ => enumerator M s st a
      end
  | _, _ => match a with Current => let? c := enum_current s st in Some (st, c) | _ => enumerator M s st a end
  end.

(** Lines 1235-1255: the hash; [c] is the current character *)
Definition hash_byte (hash b : N) : N :=
  let hash := wadd 32 hash (sext b) in let hash := wadd 32 hash (wshl 32 hash 10) in N.lxor hash (N.shiftr hash 6).
Fixpoint hash_loop (fuel : nat) (M : env) (s : str) (st : estate) (c hash : N) : option N :=
  match fuel with
  | O => None
  | Datatypes.S fuel =>
      if (c =? 0)%N then Some hash
      else match enum_index st with
           | None => Some hash
           | Some _ => let? (st, c') := enum_move M s st Next in hash_loop fuel M s st c' (fold_left hash_byte (put_utf8 c) hash)
           end
  end.

(** Lines 1183-1287: CCStringGetHash *)
Definition get_hash (M : env) (s : str) : option N :=
  let? len := get_length M s in
  let? st := get_enumerator M s in
  let? c := enum_current s st in
  let? hash := hash_loop (len + 2) M s st c 0 in
  let hash := wadd 32 hash (wshl 32 hash 3) in
  let hash := N.lxor hash (N.shiftr hash 11) in
  Some (wadd 32 hash (wshl 32 hash 15)).

(** Line 1324: [Index] steps *)
Fixpoint forward (M : env) (s : str) (st : estate) (c : N) (n : nat) : option (estate * N) :=
  match n with O => Some (st, c) | Datatypes.S n => let? (st, c) := enum_move M s st Next in forward M s st c n end.

(** Lines 1300-1329: CCStringGetCharacterAtIndex *)
Definition char_at (M : env) (s : str) (i : nat) : option N :=
  let? len := get_length M s in
  if negb (i <? len) then None
  else match s with
       | Tagged w => tagged_at M w (Some i)
       | Heap h =>
           match h_encoding h with
           | ASCII => batch_at h (Some i)
           | UTF8 => let? st := get_enumerator M s in let? c := enum_current s st in let? (_, c) := forward M s st c i in Some c
           end
       end.

(** ** Comparisons *)

(** Lines 1392, 1427, 1458: step both in the same direction while the characters are the same and not 0 *)
Fixpoint in_step (fuel : nat) (M : env) (a : action) (s1 : str) (e1 : estate) (s2 : str) (e2 : estate) : option (estate * estate) :=
  match fuel with
  | O => None
  | Datatypes.S fuel =>
      let? (e1, c1) := enum_move M s1 e1 a in
      let? (e2, c2) := enum_move M s2 e2 a in
      if ((c1 =? c2) && negb (c1 =? 0))%N then in_step fuel M a s1 e1 s2 e2 else Some (e1, e2)
  end.

Definition ended (st : estate) : bool := match enum_index st with None => true | Some _ => false end.
Definition same_set (s1 s2 : str) : bool :=
  match s1, s2 with Tagged w1, Tagged w2 => (set_of w1 =? set_of w2)%N | _, _ => false end.
Definition is_tagged (s : str) : bool := match s with Tagged _ => true | Heap _ => false end.

(** strncmp of the C library: is the result 0? *)
Fixpoint strncmp (m1 m2 : list N) (n : nat) : option bool :=
  match n with
  | O => Some true
  | Datatypes.S n =>
      match m1, m2 with
      | b1 :: m1, b2 :: m2 => if (b1 =? b2)%N then if (b1 =? 0)%N then Some true else strncmp m1 m2 n else Some false
      | _, _ => None
      end
  end.

(** Lines 1370-1403: CCStringEqual. [same] is [String1 == String2] for two pointers. *)
Definition equal (M : env) (same : bool) (s1 s2 : str) : option bool :=
  if (match s1, s2 with Tagged w1, Tagged w2 => (w1 =? w2)%N | Heap _, Heap _ => same | _, _ => false end) then Some true
  else if same_set s1 s2 then Some false
  else
    let? n1 := get_size M s1 in let? n2 := get_size M s2 in
    if negb (n1 =? n2) then Some false
    else
      let? l1 := get_length M s1 in let? l2 := get_length M s2 in
      if negb (l1 =? l2) then Some false
      else
        let? k1 := get_hash M s1 in let? k2 := get_hash M s2 in
        if negb (k1 =? k2)%N then Some false
        else
          match s1, s2 with
          | Heap h1, Heap h2 => strncmp (h_mem h1) (h_mem h2) n1
          | _, _ =>
              let? e1 := get_enumerator M s1 in let? e2 := get_enumerator M s2 in
              let? c1 := enum_current s1 e1 in let? c2 := enum_current s2 e2 in
              if (c1 =? c2)%N then let? (e1, _) := in_step (l1 + l2 + 2) M Next s1 e1 s2 e2 in Some (ended e1) else Some false
          end.

(** Lines 1405-1434: CCStringHasPrefix *)
Definition has_prefix (M : env) (same : bool) (s p : str) : option bool :=
  let? q := equal M same s p in
  if q then Some true
  else
    match s, p with
    | Tagged w1, Tagged w2 =>
        if (set_of w1 =? set_of w2)%N then
          let? m := low_mask (N.of_nat (tagged_length w2) * bits_of (set_of w1)) in
          let m := wshl 64 m 2 in Some (N.land w1 m =? N.land w2 m)%N
        else
          let? e1 := get_enumerator M s in let? e2 := get_enumerator M p in
          let? c1 := enum_current s e1 in let? c2 := enum_current p e2 in
          if (c1 =? c2)%N then let? (_, e2) := in_step (tagged_length w1 + tagged_length w2 + 2) M Next s e1 p e2 in Some (ended e2) else Some false
    | _, _ =>
        let? l1 := get_length M s in let? l2 := get_length M p in
        let? e1 := get_enumerator M s in let? e2 := get_enumerator M p in
        let? c1 := enum_current s e1 in let? c2 := enum_current p e2 in
        if (c1 =? c2)%N then let? (_, e2) := in_step (l1 + l2 + 2) M Next s e1 p e2 in Some (ended e2) else Some false
    end.

(** Lines 1436-1465: CCStringHasSuffix; [None] also when line 1448 shifts by a negative number of characters *)
Definition has_suffix (M : env) (same : bool) (s p : str) : option bool :=
  let? q := equal M same s p in
  if q then Some true
  else
    let general :=
      let? l1 := get_length M s in let? l2 := get_length M p in
      let? e1 := get_enumerator M s in let? e2 := get_enumerator M p in
      let? (e1, c1) := enum_move M s e1 Tail in let? (e2, c2) := enum_move M p e2 Tail in
      if (c1 =? c2)%N then let? (_, e2) := in_step (l1 + l2 + 2) M Previous s e1 p e2 in Some (ended e2) else Some false in
    match s, p with
    | Tagged w1, Tagged w2 =>
        if (set_of w1 =? set_of w2)%N then
          let? m := low_mask (N.of_nat (tagged_length w2) * bits_of (set_of w1)) in
          let m := wshl 64 m 2 in
          if tagged_length w1 <? tagged_length w2 then None
          else let? x := shr w1 (N.of_nat (tagged_length w1 - tagged_length w2) * bits_of (set_of w1)) in
               Some (N.land x m =? N.land w2 m)%N
        else general
    | _, _ => general
    end.

(** ** Searching *)

(** Lines 1349-1352; the fuel is the number of iterations left by [Loop < SubstringMax] *)
Fixpoint find_tagged (n : nat) (bits v sub mask : N) (i len : nat) : option nat :=
  match n with
  | O => None
  | Datatypes.S n =>
      if i <? len then if (N.land v mask =? sub)%N then Some i else find_tagged n bits (N.shiftr v bits) sub mask (i + 1) len
      else None
  end.

(** Lines 1359-1362: are the [n] characters left the same? *)
Fixpoint same_chars (M : env) (s sub : str) (i j n : nat) : option bool :=
  match n with
  | O => Some false
  | Datatypes.S n =>
      let? c1 := char_at M s i in let? c2 := char_at M sub j in
      if (c1 =? c2)%N then match n with O => Some true | _ => same_chars M s sub (i + 1) (j + 1) n end else Some false
  end.

(** Lines 1357-1363; [n] bounds the iterations *)
Fixpoint find_general (n : nat) (M : env) (s sub : str) (i len sublen : nat) : option (option nat) :=
  match n with
  | O => None
  | Datatypes.S n =>
      if (sublen <=? len - i) && (i <? len) then
        let? q := same_chars M s sub i 0 sublen in if q then Some (Some i) else find_general n M s sub (i + 1) len sublen
      else Some None
  end.

(** Lines 1331-1368: CCStringFindSubstring; SIZE_MAX is [Some None] *)
Definition find (M : env) (s : str) (i : nat) (sub : str) : option (option nat) :=
  let? len := get_length M s in
  let? sublen := get_length M sub in
  if negb (i <=? len) then None
  else if negb (len =? 0) && (sublen <=? len - i) then
    let general := find_general (Datatypes.S len) M s sub i len sublen in
    match s, sub with
    | Tagged w1, Tagged w2 =>
        if (set_of w1 =? set_of w2)%N then
          let bits := bits_of (set_of w1) in
          let? sub := shl (N.shiftr w2 2) (bits * N.of_nat i) in
          let? m := low_mask (N.of_nat sublen * bits) in
          let? mask := shl m (bits * N.of_nat i) in
          Some (find_tagged (char_max (set_of w1) - sublen) bits (N.shiftr w1 2) sub mask i len)
        else general
    | _, _ => general
    end
  else Some None.

(** ** New strings from strings *)

(** Lines 894-898 and 920-924: encode [n] characters *)
Fixpoint encode_loop (M : env) (s : str) (st : estate) (c : N) (n : nat) : option (list N) :=
  match n with
  | O => Some []
  | Datatypes.S n =>
      if (c =? 0)%N then Some []
      else match enum_index st with
           | None => Some []
           | Some _ => let? (st, c') := enum_move M s st Next in let? r := encode_loop M s st c' n in Some (put_utf8 c ++ r)
           end
  end.

(** Lines 881-932: CCStringCopyCharacters; the bytes written to the buffer *)
Definition copy_characters (M : env) (s : str) (offset n : nat) : option (list N) :=
  let? len := get_length M s in
  if negb (offset + n <=? len) then None
  else
    let by_character :=
      let? st := get_enumerator M s in
      let? c0 := enum_current s st in
      let? (st, _) := forward M s st c0 offset in
      let? c := enum_current s st in encode_loop M s st c n in
    match s with
    | Tagged _ => by_character
    | Heap h =>
        match h_encoding h with
        | ASCII => strncpy (skipn offset (h_mem h)) n
        | UTF8 => let? size := get_size M s in if size - offset =? n then strncpy (skipn offset (h_mem h)) n else by_character
        end
    end.

(** A block of [capacity] bytes that is filled with [bytes] and a final 0; [None]: it does not fit *)
Definition filled (capacity : nat) (bytes : list N) : option (list N) :=
  if length bytes + 1 <=? capacity then Some (bytes ++ [0%N]) else None.

(** Lines 817-826: CCStringCopy *)
Definition copy (M : env) (s : str) : option str :=
  match s with
  | Tagged _ => Some s
  | Heap h => if h_free h then Some s
              else let? size := get_size M s in create_with_size M (h_encoding h) Copied (h_before h) (h_mem h) size
  end.

(** Lines 828-859: CCStringCopySubstring *)
Definition substring (M : env) (s : str) (offset n : nat) : option str :=
  let? len := get_length M s in
  if negb (offset + n <=? len) then None
  else match s with
       | Tagged w =>
           let set := set_of w in let bits := bits_of set in
           if n =? 0 then Some (Tagged set)
           else
             let? m := low_mask (N.of_nat n * bits) in
             let? m := shl m (N.of_nat offset * bits) in
             let? x := shr (N.land (N.shiftr w 2) m) (N.of_nat offset * bits) in
             Some (Tagged (N.lor (wshl 64 x 2) set))
       | Heap h =>
           if negb (h_unsafe h) && encoding_eqb (h_encoding h) ASCII then
             create_with_size M ASCII Copied (h_before h) (skipn offset (h_mem h)) n
           else
             let? size := get_size M s in
             let? bytes := copy_characters M s offset n in
             let? mem := filled (size + 1) bytes in
             create M (h_encoding h) Freed (Some (junk M)) mem
       end.

(** Lines 406-451: CCStringCreateByInsertingString *)
Definition insert (M : env) (s : str) (i : nat) (ins : str) : option str :=
  let? len := get_length M s in
  let? inslen := get_length M ins in
  if negb (i <=? len) then None
  else
    let slow :=
      let? size := get_size M s in
      let? inssize := get_size M ins in
      let? a := copy_characters M s 0 i in
      let? b := copy_characters M ins 0 inslen in
      let? c := (if i <? len then copy_characters M s i (len - i) else Some []) in
      let? mem := filled (size + inssize + 1) (a ++ b ++ c) in
      create M (match get_encoding M s with UTF8 => UTF8 | ASCII => get_encoding M ins end) Freed (Some (junk M)) mem in
    match s, ins with
    | Tagged w1, Tagged w2 =>
        let set := set_of w1 in let bits := bits_of set in
        if ((set =? set_of w2)%N && (len + inslen <? char_max set)) then
          let v := N.shiftr w1 2 in
          let? r := (if i =? 0 then Some set
                     else let? m := low_mask (N.of_nat i * bits) in Some (N.lor set (wshl 64 (N.land v m) 2))) in
          let? x := shl (N.shiftr w2 2) (N.of_nat i * bits) in
          let r := N.lor r (wshl 64 x 2) in
          if i <? len then
            let? m := low_mask (N.of_nat (len - i) * bits) in
            let? m := shl m (N.of_nat i * bits) in
            let? x := shl (N.land v m) (N.of_nat inslen * bits) in
            Some (Tagged (N.lor r (wshl 64 x 2)))
          else Some (Tagged r)
        else slow
    | _, _ => slow
    end.

(** Lines 453-490: CCStringCreateWithoutRange *)
Definition without (M : env) (s : str) (offset n : nat) : option str :=
  let? len := get_length M s in
  if negb (offset + n <=? len) then None
  else if n =? 0 then copy M s
  else if offset + n =? len then substring M s 0 offset
  else match s with
       | Tagged w =>
           let set := set_of w in let bits := bits_of set in
           let v := N.shiftr w 2 in
           let? r := (if offset =? 0 then Some set
                      else let? m := low_mask (N.of_nat offset * bits) in Some (N.lor set (wshl 64 (N.land v m) 2))) in
           let? m := low_mask (N.of_nat (len - (n + offset)) * bits) in
           let? m := shl m (N.of_nat (n + offset) * bits) in
           let? x := shr (N.land v m) (N.of_nat n * bits) in
           Some (Tagged (N.lor r (wshl 64 x 2)))
       | Heap h =>
           let? size := get_size M s in
           let? a := copy_characters M s 0 offset in
           let? b := copy_characters M s (offset + n) (len - (offset + n)) in
           let? mem := filled (size - n + 1) (a ++ b) in
           create M (h_encoding h) Freed (Some (junk M)) mem
       end.

(** Lines 503-512, 516-525: the occurrence of [n] characters at [i] is taken out and the replacement (or NULL) put in *)
Definition substitute (M : env) (s : str) (i n : nat) (rep : option str) : option str :=
  let? t := without M s i n in match rep with Some r => insert M t i r | None => Some t end.

(** Line 511 *)
Definition rep_length (M : env) (rep : option str) : option nat :=
  match rep with Some r => get_length M r | None => Some 0 end.

(** Lines 514-526; [pos] is [Index + ReplacementLength] and [len] is [StringLength] *)
Fixpoint replace_loop (fuel : nat) (M : env) (s occ : str) (rep : option str) (pos len n rl : nat) : option str :=
  match fuel with
  | O => None
  | Datatypes.S fuel =>
      if pos <? len then
        let? r := find M s pos occ in
        match r with
        | None => Some s
        | Some i => let? t := substitute M s i n rep in replace_loop fuel M t occ rep (i + rl) (len - n + rl) n rl
        end
      else Some s
  end.

(** Lines 492-529: CCStringCreateByReplacingOccurrencesOfString *)
Definition replace (M : env) (s occ : str) (rep : option str) : option str :=
  let? r := find M s 0 occ in
  match r with
  | None => copy M s
  | Some i =>
      let? n := get_length M occ in
      let? t := substitute M s i n rep in
      let? rl := rep_length M rep in
      let? len := get_length M t in
      let? len0 := get_length M s in
      replace_loop (Datatypes.S len0) M t occ rep (i + rl) len n rl
  end.

(** Lines 531-545: CCStringFindClosestSubstring; the index and which of the substrings (and lines 591-605:
    CCStringFindClosestSubstringFromCollection, on the elements of the collection in order, C07) *)
Fixpoint find_closest (M : env) (s : str) (i : nat) (subs : list str) (k : nat) (best : option (nat * nat)) : option (option (nat * nat)) :=
  match subs with
  | [] => Some best
  | sub :: subs =>
      let? r := find M s i sub in
      let best := match r, best with
                  | Some p, Some (q, _) => if p <? q then Some (p, k) else best
                  | Some p, None => Some (p, k)
                  | None, _ => best
                  end in
      find_closest M s i subs (k + 1) best
  end.

(** Lines 570-586 *)
Fixpoint replace_any_loop (fuel : nat) (M : env) (s : str) (occs : list str) (reps : list (option str)) (pos : nat) : option str :=
  match fuel with
  | O => None
  | Datatypes.S fuel =>
      let? len := get_length M s in
      if pos <? len then
        let? r := find_closest M s pos occs 0 None in
        match r with
        | None => Some s
        | Some (i, k) =>
            let? occ := nth_error occs k in
            let? rep := nth_error reps k in
            let? n := get_length M occ in
            let? t := substitute M s i n rep in
            let? rl := rep_length M rep in replace_any_loop fuel M t occs reps (i + rl)
        end
      else Some s
  end.

(** Lines 547-589: CCStringCreateByReplacingOccurrencesOfGroupedStrings (and lines 607-652:
    CCStringCreateByReplacingOccurrencesOfGroupedEntries, on the elements of two collections of the same count) *)
Definition replace_any (M : env) (s : str) (occs : list str) (reps : list (option str)) : option str :=
  let? r := find_closest M s 0 occs 0 None in
  match r with
  | None => copy M s
  | Some (i, k) =>
      let? occ := nth_error occs k in
      let? rep := nth_error reps k in
      let? n := get_length M occ in
      let? t := substitute M s i n rep in
      let? rl := rep_length M rep in
      let? len0 := get_length M s in replace_any_loop (Datatypes.S len0) M t occs reps (i + rl)
  end.

(** Lines 665-670, 675-684 *)
Fixpoint join_loop (M : env) (s : str) (l : list str) (sep : option str) : option str :=
  match l with
  | [] => Some s
  | x :: l =>
      let? s := (match sep with Some p => let? n := get_length M s in insert M s n p | None => Some s end) in
      let? n := get_length M s in
      let? s := insert M s n x in join_loop M s l sep
  end.

(** Lines 654-689: CCStringCreateByJoiningStrings (and CCStringCreateByJoiningEntries, lines 691-731, on the elements
    of the collection) *)
Definition join (M : env) (l : list str) (sep : option str) : option str :=
  match l with
  | [] => create M ASCII Borrowed None [0%N]
  | s :: l => let? s := copy M s in join_loop M s l sep
  end.

(** Lines 750-756; the strings appended to the collection *)
Fixpoint split_loop (fuel : nat) (M : env) (s occ : str) (i n len : nat) : option (list str) :=
  match fuel with
  | O => None
  | Datatypes.S fuel =>
      let? r := find M s i occ in
      match r with
      | None => let? x := substring M s i (len - i) in Some [x]
      | Some j => let? x := substring M s i (j - i) in let? l := split_loop fuel M s occ (j + n) n len in Some (x :: l)
      end
  end.

(** Lines 733-759: CCStringCreateBySeparatingOccurrencesOfString; the elements of the collection *)
Definition split (M : env) (s occ : str) : option (list str) :=
  let? r := find M s 0 occ in
  match r with
  | None => let? x := copy M s in Some [x]
  | Some i =>
      let? n := get_length M occ in
      let? len := get_length M s in
      let? x := substring M s 0 i in
      let? l := split_loop (Datatypes.S len) M s occ (i + n) n len in Some (x :: l)
  end.

(** Lines 778-784 *)
Fixpoint split_any_loop (fuel : nat) (M : env) (s : str) (occs : list str) (i len : nat) : option (list str) :=
  match fuel with
  | O => None
  | Datatypes.S fuel =>
      let? r := find_closest M s i occs 0 None in
      match r with
      | None => let? x := substring M s i (len - i) in Some [x]
      | Some (j, k) =>
          let? occ := nth_error occs k in
          let? n := get_length M occ in
          let? x := substring M s i (j - i) in let? l := split_any_loop fuel M s occs (j + n) len in Some (x :: l)
      end
  end.

(** Lines 761-787: CCStringCreateBySeparatingOccurrencesOfGroupedStrings (and lines 789-815:
    CCStringCreateBySeparatingOccurrencesOfGroupedEntries, on the elements of the collection) *)
Definition split_any (M : env) (s : str) (occs : list str) : option (list str) :=
  let? r := find_closest M s 0 occs 0 None in
  match r with
  | None => let? x := copy M s in Some [x]
  | Some (i, k) =>
      let? occ := nth_error occs k in
      let? n := get_length M occ in
      let? len := get_length M s in
      let? x := substring M s 0 i in
      let? l := split_any_loop (Datatypes.S len) M s occs (i + n) len in Some (x :: l)
  end.
