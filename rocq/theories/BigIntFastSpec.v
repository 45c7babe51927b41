(** What C16 means. *)
From Verif Require Import Base BigIntModel BigIntSpec BigIntFastModel.
Local Open Scope Z_scope.

(** The integers held in the word itself. *)
Definition inline (x : Z) : Prop := - 2 ^ 62 <= x < 2 ^ 62.

(** A tagged word is odd; the 63 bits above the tag are a two's complement number. *)
Definition fvalue (f : fast) : Z :=
  match f with
  | Tagged w => let h := Z.of_N w / 2 in if h <? 2 ^ 62 then h else h - 2 ^ 63
  | Boxed b => value b
  end.

Definition well_formed (f : fast) : Prop :=
  match f with Tagged w => N.odd w = true /\ (w < 2 ^ 64)%N | Boxed b => normal b end.
Definition well_formed_canonical (f : fast) : Prop :=
  match f with Tagged w => N.odd w = true /\ (w < 2 ^ 64)%N | Boxed b => canonical b end.

(** When adding an int64_t to an inline integer works: the result is inline, or does not fit an int64_t. *)
Definition inline_ok (result operand : Z) : Prop := inline result \/ ~ int64 result /\ operand <> - 2 ^ 63.

(** When the sum of a fast integer and a big integer is found. *)
Definition add_ok (f : fast) (b : bigint) : Prop :=
  match f with
  | Tagged _ =>
      if Z.abs (value b) <? 2 ^ 63 then inline_ok (fvalue f + value b) (value b)
      else (fvalue f <? 0) = sign b \/ subtract_ok (fvalue f) (value b)
  | Boxed a => sign a = sign b \/ subtract_ok (value a) (value b)
  end.
Definition sub_ok (f : fast) (b : bigint) : Prop :=
  match f with
  | Tagged _ =>
      if Z.abs (value b) <? 2 ^ 63 then inline_ok (fvalue f - value b) (value b)
      else (fvalue f <? 0) <> sign b \/ subtract_ok (fvalue f) (value b)
  | Boxed a => sign a <> sign b \/ subtract_ok (value a) (value b)
  end.
