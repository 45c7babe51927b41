(** Model of the version of the system (CommonC/SystemInfo.c) and of the names of the process (CommonC/ProcessInfo.c).

    What the operating system answers is the environment. A static variable is state that is passed along. A step is
    [None] when the code writes out of the bounds of an array or calls a function of the C library with an argument it
    does not allow. *)
From Verif Require Import Base LastComponentModel.
Local Open Scope N_scope.

Definition u32 (x : N) : N := x mod 2 ^ 32.
Definition u32_max : N := 2 ^ 32 - 1.

(** SystemInfo.c 38: the static VersionValues, before it is known *)
Definition version := (N * N * N)%type.
Definition unknown : version := (u32_max, 0, 0).

(** Line 75: one of the three Values is written. [None]: there is no such value. *)
Fixpoint put (vs : list N) (i : nat) (f : N -> N) : option (list N) :=
  match vs, i with
  | [], _ => None
  | v :: t, O => Some (f v :: t)
  | v :: t, S i => let? t := put t i f in Some (v :: t)
  end.

(** Lines 71-76: the loop over the characters (16 bits each) *)
Fixpoint parse (s : list N) (i : nat) (vs : list N) : option (list N) :=
  match s with
  | [] => Some vs
  | c :: s => if c =? 46 then parse s (S i) vs
              else let? vs := put vs i (fun v => u32 (v * 10 + (2 ^ 32 + c - 48))) in parse s i vs
  end.

(** Lines 36-100: CCSystemVersion on the Apple platforms. [text] is the product version the system answers, if any. An
    empty text, which would need an array of no characters, is [None]. *)
Definition system_version (known : version) (text : option (list N)) : option version :=
  let '(major, _, _) := known in
  if major =? u32_max then
    match text with
    | None => Some known
    | Some [] => None
    | Some s => match parse s 0 [0; 0; 0] with
                | Some [a; b; c] => Some (a, b, c)
                | _ => None
                end
    end
  else Some known.

Inductive platform := OSX | IOS | Other.

(** Lines 102-116: CCSystemVersionLiteral of the version known *)
Definition version_literal (p : platform) (v : version) : N :=
  let '(major, minor, _) := v in
  match p with
  | OSX => if (10 <=? major) && (10 <=? minor) then u32 (major * 10000 + minor * 100) else u32 (major * 100 + minor * 10)
  | IOS => u32 (major * 10000 + minor * 100)
  | Other => u32_max
  end.

(** Calls one after the other with what the system answers at each *)
Fixpoint versions (known : version) (answers : list (option (list N))) : option (list version) :=
  match answers with
  | [] => Some []
  | a :: t => let? v := system_version known a in let? vs := versions v t in Some (v :: vs)
  end.

(** ProcessInfo.c 56-82: CCProcessCurrentName. [name] is the static pointer, as the text it points to; [max] is
    CC_PATH_NAME_LENGTH_MAX. *)
Definition process_name (max : nat) (name : option (list N)) (path : option (list N)) : option (list N) :=
  match name with
  | Some n => Some n
  | None =>
      let? s := path in
      let? (p, n) := last_component (Some s) 47 in
      if (n =? 0)%Z then Some (skipn (Z.to_nat p) s)
      else if (n <? Z.of_nat max)%Z then Some (firstn (Z.to_nat n) (skipn (Z.to_nat p) s))
      else None
  end.

(** isalnum of the C library in the C locale. *)
Definition alnum (c : N) : bool :=
  ((48 <=? c) && (c <=? 57)) || ((65 <=? c) && (c <=? 90)) || ((97 <=? c) && (c <=? 122)).

(** ProcessInfo.c 92-94. [None]: isalnum of a char that is negative, or no room in [Name]. *)
Fixpoint strip (max : nat) (s : list N) (out : list N) : option (list N) :=
  match s with
  | [] => if Nat.ltb (length out) max then Some out else None
  | c :: s => if 128 <=? c then None
              else if alnum c then (if Nat.ltb (length out) max then strip max s (out ++ [c]) else None)
              else strip max s out
  end.

(** ProcessInfo.c 84-99: CCProcessCurrentStrippedName. [stripped] is the static array, up to its 0. *)
Definition process_stripped (max : nat) (stripped : list N) (name : option (list N)) : option (list N) :=
  match stripped with
  | [] => match name with None => Some [] | Some s => strip max s [] end
  | _ => Some stripped
  end.

(** Calls one after the other, each with the path the system answers: the two static variables are passed along
    (ProcessInfo.c 58, 86). *)
Inductive ask := AskName (path : option (list N)) | AskStripped (path : option (list N)).

Definition process_call (max : nat) (st : option (list N) * list N) (o : ask) : option (option (list N) * list N * option (list N)) :=
  let '(name, stripped) := st in
  match o with
  | AskName path => let n := process_name max name path in Some ((n, stripped), n)
  | AskStripped path =>
      let n := match stripped with [] => process_name max name path | _ => name end in
      let? s := process_stripped max stripped n in Some ((n, s), Some s)
  end.

Fixpoint process_calls (max : nat) (st : option (list N) * list N) (os : list ask) : option (list (option (list N))) :=
  match os with
  | [] => Some []
  | o :: t => let? (st, r) := process_call max st o in let? rs := process_calls max st t in Some (r :: rs)
  end.
