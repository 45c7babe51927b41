(** Model of the report of the debug allocator: CommonC/DebugAllocator.c 128-195. No other thread changes the list
    meanwhile. The dictionaries are association lists in the order their keys were first set: what a dictionary is to
    its users is C09 to C12; the order of the report is not specified. *)
From Verif Require Import Base DebugModel.
Local Open Scope N_scope.

Definition lines := list (N * list N).
Definition files := list (N * lines).

(** Lines 156-168: the array of the allocations of a line, made if it is not there; the pointer is appended *)
Fixpoint add_line (ls : lines) (line p : N) : lines :=
  match ls with
  | [] => [(line, [p])]
  | (l, ps) :: t => if l =? line then (l, ps ++ [p]) :: t else (l, ps) :: add_line t line p
  end.

(** Lines 143-154: the lines of a file, made if they are not there *)
Fixpoint add_file (fs : files) (file line p : N) : files :=
  match fs with
  | [] => [(file, add_line [] line p)]
  | (f, ls) :: t => if f =? file then (f, add_line ls line p) :: t else (f, ls) :: add_file t file line p
  end.

(** Lines 128-172: CCDebugAllocatorDump *)
Fixpoint dump (es : list entry) (fs : files) : files :=
  match es with
  | [] => fs
  | (p, (file, line)) :: t => dump t (if p =? 0 then fs else add_file fs file line p)
  end.

(** Lines 174-195: CCDebugAllocatorPrint: a heading for each file, under it the line and the pointer of each allocation *)
Definition report (es : list entry) : list (N * list (N * N)) :=
  map (fun f => (fst f, flat_map (fun l => map (fun p => (fst l, p)) (snd l)) (snd f))) (dump es []).
