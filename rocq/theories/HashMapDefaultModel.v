(** Model of what HashMap.c does for an implementation that leaves its optional
    functions out (CommonC/HashMap.c 194-216 and 232-274) and of the hash used
    when a map is created without one (HashMap.c 108-137).

    An implementation is given by its required functions: [call] answers the
    calls of HashMapModel, [enum] is its enumerator, whose state and whose
    results are entries as in HashMapModel.enum_step, and [content] is what is
    stored behind the pointers of an entry. *)
From Verif Require Import Base HashMapModel.
From Verif Require EnumerableModel.
Local Open Scope N_scope.

Section Default.
Context {K V St : Type} (call : St -> op K V -> option (St * ret K V)).
Context (enum : St -> N -> EnumerableModel.action -> option (N * option N)).
Context (content : St -> N -> option (K * option V)).

(** The entry CCHashMapFindKey gives (HashMap.c 146-151) *)
Definition find (m : St) (k : K) : option (St * N) :=
  let? (m, r) := call m (FindKey k) in
  match r with REntry e => Some (m, e) | _ => None end.

(** HashMap.c 194-200 *)
Definition default_get (m : St) (k : K) : option (St * ret K V) :=
  let? (m, e) := find m k in call m (GetEntry e).

(** HashMap.c 202-208 *)
Definition default_set (m : St) (k : K) (v : V) : option (St * ret K V) :=
  let? (m, e) := find m k in call m (SetEntry e v).

(** HashMap.c 210-216 *)
Definition default_remove (m : St) (k : K) : option (St * ret K V) :=
  let? (m, e) := find m k in call m (RemoveEntry e).

(** The loops of HashMap.c 245-248 and 267-270, [s] being the enumerator and [r]
    the pointer; [fuel] bounds the rounds. *)
Fixpoint collect (fuel : nat) (m : St) (s : N) (r : option N) : option (list (K * option V)) :=
  match r with
  | None => Some []
  | Some e =>
      match fuel with
      | O => None
      | S fuel =>
          let? x := content m e in
          let? (s, r) := enum m s EnumerableModel.Next in
          let? l := collect fuel m s r in
          Some (x :: l)
      end
  end.

(** HashMap.c 276-283 and 285-292 set the enumerator to the head; HashMap.c 245
    and 267 start at the current element.  [s] is the enumerator before it is
    set. *)
Definition walk (fuel : nat) (m : St) (s : N) : option (list (K * option V)) :=
  let? (s, _) := enum m s EnumerableModel.Head in
  let? (s, r) := enum m s EnumerableModel.Current in
  collect fuel m s r.

(** HashMap.c 232-252 *)
Definition default_keys (fuel : nat) (m : St) (s : N) : option (St * ret K V) :=
  let? l := walk fuel m s in Some (m, RKeys (map fst l)).

(** HashMap.c 254-274 *)
Definition default_values (fuel : nat) (m : St) (s : N) : option (St * ret K V) :=
  let? l := walk fuel m s in Some (m, RValues (map snd l)).

End Default.

(** ** The hash of a map without a hash function *)

Inductive endian := Little | Big.

(** A word of 8 bytes in memory and its value *)
Fixpoint le_value (bs : list N) : N := match bs with [] => 0 | b :: t => b + 256 * le_value t end.
Definition word_value (h : endian) (bs : list N) : N := match h with Little => le_value bs | Big => le_value (rev bs) end.

(** memcpy of [src] into [dst] from the byte [at_] on; [None]: outside of it *)
Definition copy_to (dst : list N) (at_ : nat) (src : list N) : option (list N) :=
  if (at_ + length src <=? length dst)%nat then Some (firstn at_ dst ++ src ++ skipn (at_ + length src) dst) else None.

(** HashMap.c 108-137 without a getHash callback; [size] is keySize and [key] the
    bytes that can be read at Key.  &Hash + n on line 128 is n words, not bytes.
    [None]: reads or writes outside. *)
Definition default_hash (h : endian) (size : nat) (key : list N) : option N :=
  if (8 <=? size)%nat then
    if (8 <=? length key)%nat then Some (word_value h (firstn 8 key)) else None
  else if (size <=? length key)%nat then
    let? w := copy_to (repeat 0 8) (match h with Little => 0 | Big => 8 * (8 - size) end) (firstn size key) in
    Some (word_value h w)
  else None.

(** HashMapSeparateChainingArray.c 251, and the other two implementations alike:
    keys of a map without a comparator are compared with memcmp *)
Fixpoint same_bytes (a b : list N) : bool :=
  match a, b with
  | [], [] => true
  | x :: a, y :: b => (x =? y) && same_bytes a b
  | _, _ => false
  end.
