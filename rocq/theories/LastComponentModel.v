(** Model of CCLastComponent (CommonC/File.c 37-70).  A C string is the list of
    its bytes without the terminating 0; pointers into it are offsets.  The code
    forms pointers in front of the string, which is taken to work.  The
    separator is not 0. *)
From Verif Require Import Base.
Local Open Scope N_scope.

(** strrchr of the C library *)
Fixpoint strrchr (s : list N) (c : N) : option nat :=
  match s with
  | [] => None
  | x :: t => match strrchr t c with Some i => Some (S i) | None => if x =? c then Some 0%nat else None end
  end.

(** The byte at an offset: 0 at the end *)
Definition at_ (s : list N) (i : nat) : N := nth i s 0.

(** File.c 58 and 62: while ((--LastComponent > Path) && ...); from the offset
    [p] *)
Fixpoint back (test : N -> bool) (s : list N) (p : nat) : Z :=
  match p with
  | O => -1
  | S q => if ((0 <? q)%nat && test (at_ s q))%bool then back test s q else Z.of_nat q
  end.
Definition back_from (test : N -> bool) (s : list N) (p : Z) : Z :=
  if (p <? 0)%Z then (p - 1)%Z else back test s (Z.to_nat p).

(** File.c 37-70: the offset it returns and the length; [None]: NULL.  [path]
    is [None] for NULL. *)
Definition last_component (path : option (list N)) (sep : N) : option (Z * Z) :=
  let? s := path in
  match strrchr s sep with
  | None => if at_ s 0 =? 0 then None else Some (0, 0)%Z
  | Some i =>
      if negb (at_ s (i + 1) =? 0) then Some (Z.of_nat i + 1, 0)%Z
      else
        let end_ := back_from (fun c => c =? sep) s (Z.of_nat i) in
        let p := back_from (fun c => negb (c =? sep)) s end_ in
        if (p <? 0)%Z then None
        else if (p =? 0)%Z then Some (p, end_ - (p - 1))%Z
        else Some (p + 1, end_ - p)%Z
  end.
