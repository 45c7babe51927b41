(** Model of CommonC/BigIntFast.h. A fast big integer is a pointer-sized word that holds a small value directly, or
    a pointer to a big integer. [None]: a failed assertion or undefined behaviour. Allocation succeeds; what is
    destroyed is not modelled. *)
From Verif Require Import Base Word BigIntModel.
Local Open Scope Z_scope.

Inductive fast := Tagged (w : N) | Boxed (b : bigint).

(** Lines 33-34 *)
Definition TAGGED_MAX : Z := 2 ^ 62 - 1.
Definition TAGGED_MIN : Z := - TAGGED_MAX - 1.
Definition INT64_MAX : Z := 2 ^ 63 - 1.
Definition INT64_MIN : Z := - 2 ^ 63.

(** Lines 317-323: CCBigIntFastGetTaggedValue; [None]: assertion *)
Definition get_tagged (w : N) : option Z := if N.odd w then Some (Z.shiftr (signed64 w) 1) else None.

(** Lines 325-330: CCBigIntFastTaggedValue; [None]: assertion *)
Definition tagged_value (v : Z) : option fast :=
  if (v <=? TAGGED_MAX) && (TAGGED_MIN <=? v) then Some (Tagged (N.lor (wshl 64 (Z.to_N (v mod 2 ^ 64)) 1) 1)) else None.

(** Lines 288-291: CCBigIntFastCreate (lines 38-39) *)
Definition create : fast := Tagged (N.lor (wshl 64 0 1) 1).

(** Lines 298-308: CCBigIntFastCopy *)
Definition copy (f : fast) : option fast :=
  match f with Tagged w => Some f | Boxed b => let? r := set_big_int b in Some (Boxed r) end.

(** Lines 332-337: CCBigIntFastGetSign *)
Definition get_sign (f : fast) : option bool :=
  match f with Tagged w => let? v := get_tagged w in Some (v <? 0) | Boxed b => Some (sign b) end.

(** Lines 345-350, 497-502 and 587-592 (the same test): a big integer of one component below 2^63 *)
Definition small_component (b : bigint) : option Z :=
  match limbs b with
  | [c] => if (N.land c (2 ^ 64 - 2 ^ 63) =? 0)%N then Some (if sign b then - Z.of_N c else Z.of_N c) else None
  | _ => None
  end.

(** Lines 339-365: CCBigIntFastSetBigInt *)
Definition set_big (b : bigint) : option fast :=
  let boxed := let? r := set_big_int b in Some (Boxed r) in
  match small_component b with
  | Some v => if (v <=? TAGGED_MAX) || (TAGGED_MIN <=? v) then tagged_value v else boxed
  | None => boxed
  end.

(** Lines 367-380: CCBigIntFastSetBigIntFast *)
Definition set_fast (g : fast) : option fast := match g with Tagged w => Some (Tagged w) | Boxed b => set_big b end.

(** Lines 382-398: CCBigIntFastSetInt *)
Definition set_int (v : Z) : option fast :=
  if (v <=? TAGGED_MAX) || (TAGGED_MIN <=? v) then tagged_value v
  else let? r := BigIntModel.set_int v in Some (Boxed r).

(** Lines 400-408: CCBigIntFastSetString *)
Definition set_string (s : list N) : option fast := let? r := BigIntModel.set_string s in Some (Boxed r).

(** Lines 410-421: CCBigIntFastGetBigInt; line 415 is CCBigIntSetBigIntFast (BigInt.c 78-85) *)
Definition get_big_int (f : fast) : option bigint :=
  match f with Tagged w => let? v := get_tagged w in BigIntModel.set_int v | Boxed b => Some b end.

(** Lines 423-435: CCBigIntFastGetString *)
Definition get_string (f : fast) : option (list N) := let? b := get_big_int f in Some (BigIntModel.get_string b).

(** BigInt.c 267-272: CCBigIntCompareBigIntFast *)
Definition compare_big_fast (a : bigint) (g : fast) : option comparison :=
  match g with Tagged w => let? v := get_tagged w in BigIntModel.compare_int a v | Boxed b => Some (BigIntModel.compare a b) end.

(** Lines 437-440: CCBigIntFastCompareBigInt *)
Definition compare_big (f : fast) (b : bigint) : option comparison := option_map CompOpp (compare_big_fast b f).

(** Lines 442-459: CCBigIntFastCompareBigIntFast *)
Definition compare_fast (f g : fast) : option comparison :=
  match f with
  | Tagged w =>
      let? va := get_tagged w in
      match g with
      | Tagged w => let? vb := get_tagged w in Some (if va <? vb then Lt else if vb <? va then Gt else Eq)
      | Boxed b => option_map CompOpp (BigIntModel.compare_int b va)
      end
  | Boxed a => compare_big_fast a g
  end.

(** Lines 461-471: CCBigIntFastCompareInt *)
Definition compare_int (f : fast) (v : Z) : option comparison :=
  match f with
  | Tagged w => let? va := get_tagged w in Some (if va <? v then Lt else if v <? va then Gt else Eq)
  | Boxed a => BigIntModel.compare_int a v
  end.

(** Lines 473-487: CCBigIntFastCompareString *)
Definition compare_string (f : fast) (s : list N) : option comparison :=
  match f with
  | Tagged w => let? va := get_tagged w in let? b := BigIntModel.set_string s in option_map CompOpp (BigIntModel.compare_int b va)
  | Boxed a => BigIntModel.compare_string a s
  end.

(** Lines 526-561: CCBigIntFastAddInt *)
Definition add_int (f : fast) (v : Z) : option fast :=
  match f with
  | Tagged w =>
      let? i := get_tagged w in
      if ((0 <? v) && (INT64_MAX - v <? i)) || ((v <? 0) && (i <? INT64_MIN - v)) then
        let? b := BigIntModel.set_int i in
        let? b := BigIntModel.add_int b v in Some (Boxed b)
      else
        let r := i + v in
        if (r <=? TAGGED_MAX) || (TAGGED_MIN <=? r) then tagged_value r
        else let? b := BigIntModel.set_int r in Some (Boxed b)
  | Boxed b => let? b := BigIntModel.add_int b v in Some (Boxed b)
  end.

(** Lines 616-651: CCBigIntFastSubInt *)
Definition sub_int (f : fast) (v : Z) : option fast :=
  match f with
  | Tagged w =>
      let? i := get_tagged w in
      if ((v <? 0) && (INT64_MAX + v <? i)) || ((0 <? v) && (i <? INT64_MIN + v)) then
        let? b := BigIntModel.set_int i in
        let? b := BigIntModel.sub_int b v in Some (Boxed b)
      else
        let r := i - v in
        if (r <=? TAGGED_MAX) || (TAGGED_MIN <=? r) then tagged_value r
        else let? b := BigIntModel.set_int r in Some (Boxed b)
  | Boxed b => let? b := BigIntModel.sub_int b v in Some (Boxed b)
  end.

(** Lines 489-514: CCBigIntFastAddBigInt *)
Definition add_big (f : fast) (v : bigint) : option fast :=
  match f with
  | Tagged w =>
      match small_component v with
      | Some c => add_int f c
      | None =>
          let? i := get_tagged w in
          let? b := BigIntModel.set_int i in
          let? b := BigIntModel.add b v in Some (Boxed b)
      end
  | Boxed b => let? b := BigIntModel.add b v in Some (Boxed b)
  end.

(** Lines 579-604: CCBigIntFastSubBigInt *)
Definition sub_big (f : fast) (v : bigint) : option fast :=
  match f with
  | Tagged w =>
      match small_component v with
      | Some c => sub_int f c
      | None =>
          let? i := get_tagged w in
          let? b := BigIntModel.set_int i in
          let? b := BigIntModel.sub b v in Some (Boxed b)
      end
  | Boxed b => let? b := BigIntModel.sub b v in Some (Boxed b)
  end.

(** Lines 522 and 612: CCBigIntFastGetTaggedValue( *Integer ), with its assertion *)
Definition tagged_of (f : fast) : option Z := match f with Tagged w => get_tagged w | Boxed _ => None end.

(** Lines 516-524: CCBigIntFastAddBigIntFast *)
Definition add_fast (f g : fast) : option fast :=
  match g with Tagged _ => let? v := tagged_of f in add_int f v | Boxed b => add_big f b end.

(** Lines 606-614: CCBigIntFastSubBigIntFast *)
Definition sub_fast (f g : fast) : option fast :=
  match g with Tagged _ => let? v := tagged_of f in sub_int f v | Boxed b => sub_big f b end.

(** Lines 563-577: CCBigIntFastAddString *)
Definition add_string (f : fast) (s : list N) : option fast :=
  match f with
  | Tagged _ => let? b := BigIntModel.set_string s in add_big f b
  | Boxed b => let? b := BigIntModel.add_string b s in Some (Boxed b)
  end.

(** Lines 653-667: CCBigIntFastSubString *)
Definition sub_string (f : fast) (s : list N) : option fast :=
  match f with
  | Tagged _ => let? b := BigIntModel.set_string s in sub_big f b
  | Boxed b => let? b := BigIntModel.sub_string b s in Some (Boxed b)
  end.

(** BigInt.c 78-85, 387-394, 445-452: CCBigIntSetBigIntFast, CCBigIntAddBigIntFast, CCBigIntSubBigIntFast *)
Definition big_set_fast (g : fast) : option bigint :=
  match g with Tagged w => let? v := get_tagged w in BigIntModel.set_int v | Boxed b => set_big_int b end.
Definition big_add_fast (a : bigint) (g : fast) : option bigint :=
  match g with Tagged w => let? v := get_tagged w in BigIntModel.add_int a v | Boxed b => BigIntModel.add a b end.
Definition big_sub_fast (a : bigint) (g : fast) : option bigint :=
  match g with Tagged w => let? v := get_tagged w in BigIntModel.sub_int a v | Boxed b => BigIntModel.sub a b end.
