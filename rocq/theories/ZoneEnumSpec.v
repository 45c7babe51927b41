(** What an enumerable of a memory zone must visit. *)
From Verif Require Import Base EnumerableModel EnumerableSpec ZoneModel ZoneEnumModel.
Local Open Scope N_scope.

(** The bytes in use in some blocks. *)
Definition used (bs : list block) : N := fold_right (fun k n => offset k + n) 0 bs.

(** As many items of [stride] bytes as are whole in the [size] bytes from [p]. *)
Definition items_at (p size stride : N) : list N := addresses p stride (N.to_nat (size / stride)).

(** The items from byte [off] of block [k], then those of the blocks that follow. *)
Definition items (k : block) (off stride : N) (rest : list block) : list N :=
  items_at (base k + off) (offset k - off) stride ++ flat_map (fun b => items_at (base b) (offset b) stride) rest.

(** The zones in which going on works: there is an item in every block from the first one on, and an enumeration that may
    run off the end of the last block does not begin in the middle of it. *)
Record onward (k : block) (off stride : N) (rest : list block) (count : nat) : Prop := {
  t_stride : 0 < stride;
  t_start : off + stride <= offset k;
  t_rest : Forall (fun b => stride <= offset b) rest;
  t_end : off = 0 \/ rest <> [] \/ (N.of_nat count <= (offset k - off) / stride)
}.

(** Those in which going back works too: the first item is at a whole number of strides in its block. *)
Definition tidy (k : block) (off stride : N) (rest : list block) (count : nat) : Prop :=
  onward k off stride rest count /\ off mod stride = 0.

(** Moving on [n] times. *)
Fixpoint nexts (bs : list block) (n : nat) (e : zenum) : option (zenum * list result) :=
  match n with
  | O => Some (e, [])
  | S n => let? (e, r) := zstep bs e Next in let? (e, rs) := nexts bs n e in Some (e, r :: rs)
  end.
