(** Operations on a sequence of bytes. *)
From Verif Require Import Base FileModel.
Local Open Scope N_scope.

(** The bytes from an offset on, as many as there are of [n] *)
Definition part (contents : list N) (offset n : N) : list N := take n (drop offset contents).

(** [data] written over the bytes from an offset on, inserted before them; [n] bytes from an offset on removed. Space between
    the end and the offset is filled with zeros. *)
Definition before (contents : list N) (offset : N) : list N := take offset contents ++ zeros (offset - len contents).
Definition overwritten (contents : list N) (offset : N) (data : list N) : list N :=
  match data with [] => contents | _ => before contents offset ++ data ++ drop (offset + len data) contents end.
Definition inserted (contents : list N) (offset : N) (data : list N) : list N :=
  match data with [] => contents | _ => before contents offset ++ data ++ drop offset contents end.
Definition removed (contents : list N) (offset n : N) : list N := take offset contents ++ drop (offset + n) contents.

(** The offset after an operation on [n] bytes at [offset] *)
Definition moved (o : offsetting) (offset n : N) : N := match o with Preserve => offset | Update => offset + n end.
