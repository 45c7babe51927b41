(** Model of CommonC/ConcurrentIndexMap.c: any number of threads calling it, interleaved at every atomic
    access of shared memory, under sequential consistency, with CC_CONCURRENT_INDEX_MAP_STRICT_COMPLIANCE
    off (the default). Element values are numbers (they are copied and compared with memcmp).
    Simplifications: memory never runs out; the garbage collector keeps the data a call still looks at from
    being freed (C42, C43), so a data pointer is a version number, never reused; mutate (uint32_t) is
    unbounded: 2^32 changes during one resize would go unnoticed by the code. *)
From Verif Require Import Base.

(** What a slot holds when it is set: the element's value, and the address it is kept at when elements are
    stored outside the buffer (any number otherwise). Lines 103-105, 171-173. *)
Record cell := mkCell { addr : nat; val : Z }.

(** Lines 48-52. [cap]: the size of buffer, counted in elements; [slots i]: NULL or not set is [None]. *)
Record block := mkBlock { count : nat; cap : nat; slots : nat -> option cell }.

Inductive op :=
| Append (c : cell) | Insert (i : nat) (c : cell) | Remove (i : nat)
| Replace (i : nat) (c : cell) | Exact (i : nat) (c : cell) (m : Z) (* m: Match *)
| Get (i : nat) | Count.
Inductive res := RIndex (i : nat) | RFlag (b : bool) | RVal (v : option Z) | RCount (n : nat).

(** The arguments of CCConcurrentIndexMapResize and what its caller needs afterwards. SIZE_MAX is [None].
    [r_data], [r_mut]: the data and mutate of the caller's copy of the pointer; [r_put]: the element to be put
    into the new data, with its index. *)
Record resize := mkResize
  { r_op : op; r_data : nat; r_mut : nat; r_count : nat; r_max : nat; r_skip : option nat; r_extra : option nat;
    r_put : option (nat * cell) }.

Inductive pc :=
| Idle
| CountLoad | CountCount (d : nat)                           (* 420, 421 *)
| GetLoad (i : nat) | GetCount (i d : nat) | GetSlot (i d : nat)  (* 441, 442, 445 *)
| ModBegin (o : op) | ModLoad (o : op) | ModCount (o : op) (d : nat) (* 465/506, 467/508, 470/511 *)
| ModSlot (o : op) (d : nat)                                 (* the first access to the slot in 473/514 *)
| ModExchange (i : nat) (c : cell) (d : nat)                 (* 135, 233 *)
| ModTest (i : nat) (c : cell) (m : Z) (v : cell) (d : nat)  (* 257-259 *)
| ModMutate (r : res)                                        (* 483/524 *)
| ModEnd (r : res)                                           (* 484/525 *)
| AppBegin (c : cell) | AppLoad (c : cell) | AppCount (c : cell) (d m : nat) (* 570, 572, 575; m: Pointer.mutate *)
| AppScan (c : cell) (d m i max : nat)                       (* 147, 297 *)
| AppAdd (d i : nat)                                         (* 581 *)
| AppMutate (i : nat)                                        (* 584 *)
| AppEnd (i : nat)                                           (* 598 after success *)
| AppFull (c : cell) (d m i max : nat)                       (* 598 after failure *)
| AppCheck (c : cell) (d m i max : nat)                      (* 603 *)
| AppReturn (i : nat)                                        (* 621 *)
| ResLoad (o : op) | ResCount (o : op) (d m : nat)           (* 644/679, 645/680 *)
| Copy (r : resize) (k : nat) (buf : nat -> option cell)     (* 542 *)
| Publish (r : resize) (buf : nat -> option cell)            (* 618, 652, 687 *)
| RemGet (i d : nat)                                         (* 654 *)
| InsReturn.                                                 (* 691 *)

(** Lines 54-73, 95-100: the pointer's modify, mutate and data; [heap d]: the data d points to. *)
Record state := mkState { modify : nat; mutate : nat; data : nat; heap : nat -> block; pcs : nat -> pc }.

Definition tset {X} (f : nat -> X) (t : nat) (x : X) : nat -> X := fun u => if Nat.eqb u t then x else f u.

(** CCConcurrentIndexMapGetMaxCount, 349-352 *)
Definition max_count (chunk n : nat) : nat :=
  (n / chunk + (if negb (n mod chunk =? 0) || (n =? 0) then 1 else 0)) * chunk.

(** CCConcurrentIndexMapCreate, 368-406 *)
Definition init (chunk : nat) : state :=
  mkState 0 0 0 (fun _ => mkBlock 0 chunk (fun _ => None)) (fun _ => Idle).

Inductive label := Call (t : nat) (o : op) | Step (t : nat).

(** [EEffect]: the access by which the call changes the map. *)
Inductive event := ECall (t : nat) (o : op) | EEffect (t : nat) | ERet (t : nat) (r : res) | ETau.

Definition go (s : state) (t : nat) (p : pc) : state :=
  mkState (modify s) (mutate s) (data s) (heap s) (tset (pcs s) t p).
Definition with_modify (s : state) (n : nat) : state := mkState n (mutate s) (data s) (heap s) (pcs s).
Definition with_mutate (s : state) (n : nat) : state := mkState (modify s) n (data s) (heap s) (pcs s).
Definition with_block (s : state) (d : nat) (b : block) : state :=
  mkState (modify s) (mutate s) (data s) (tset (heap s) d b) (pcs s).

(** A slot of the buffer d points to; outside of the buffer is undefined behaviour. *)
Definition slot (s : state) (d i : nat) : option (option cell) :=
  if i <? cap (heap s d) then Some (slots (heap s d) i) else None.
Definition set_slot (s : state) (d i : nat) (c : cell) : state :=
  let b := heap s d in with_block s d (mkBlock (count b) (cap b) (tset (slots b) i (Some c))).

Definition same (a b : cell) : bool := (addr a =? addr b) && Z.eqb (val a) (val b).

(** The first line of each call. *)
Definition start_of (o : op) : pc :=
  match o with
  | Count => CountLoad | Get i => GetLoad i
  | Replace _ _ | Exact _ _ _ => ModBegin o
  | Append c => AppBegin c
  | Remove _ | Insert _ _ => ResLoad o
  end.

Definition index_of (o : op) : nat :=
  match o with Insert i _ | Remove i | Replace i _ | Exact i _ _ | Get i => i | Append _ | Count => 0 end.

(** What malloc'd memory holds before it is initialised. *)
Definition garbage : nat -> option cell := fun _ => Some (mkCell 0 0).

(** 542: where element [k] is copied from and to. *)
Definition copy_src (r : resize) (k : nat) : nat :=
  match r_skip r with None => k | Some x => if k <? x then k else k + 1 end.
Definition copy_dst (r : resize) (k : nat) : nat :=
  match r_extra r with None => k | Some x => if k <? x then k else k + 1 end.
(** 543, and the caller's initElement (606, 687) *)
Definition finish (r : resize) (buf : nat -> option cell) : nat -> option cell :=
  let first := copy_dst r (r_count r) in
  let b := fun i => if (first <=? i) && (i <? r_max r) then None else buf i in
  match r_put r with None => b | Some (i, c) => tset b i (Some c) end.
(** 541 *)
Definition new_count (r : resize) : nat := r_count r + match r_skip r with None => 1 | Some _ => 0 end.

(** A thread's next access. [None]: it is not in a call, or accesses memory outside of a buffer or
    through a NULL element. *)
Definition step_pc (chunk : nat) (ext : bool) (s : state) (t : nat) (p : pc) : option (state * event) :=
  match p with
  | Idle => None
  (* CCConcurrentIndexMapGetCount, 414-426 *)
  | CountLoad => Some (go s t (CountCount (data s)), ETau)
  | CountCount d => Some (go s t Idle, ERet t (RCount (count (heap s d))))
  (* CCConcurrentIndexMapGetElementAtIndex, 435-450 *)
  | GetLoad i => Some (go s t (GetCount i (data s)), ETau)
  | GetCount i d =>
      if i <? max_count chunk (count (heap s d)) then Some (go s t (GetSlot i d), ETau)
      else Some (go s t Idle, ERet t (RVal None))
  | GetSlot i d => let? v := slot s d i in Some (go s t Idle, ERet t (RVal (option_map val v)))
  (* CCConcurrentIndexMapReplaceElementAtIndex, 452-490, and ReplaceExact, 492-531 *)
  | ModBegin o => Some (go (with_modify s (modify s + 1)) t (ModLoad o), ETau)
  | ModLoad o => Some (go s t (ModCount o (data s)), ETau)
  | ModCount o d =>
      if index_of o <? max_count chunk (count (heap s d)) then Some (go s t (ModSlot o d), ETau)
      else Some (go s t (ModEnd (match o with Exact _ _ _ => RFlag false | _ => RVal None end)), ETau)
  | ModSlot o d =>
      let? v := slot s d (index_of o) in
      match o with
      | Replace i c => (* 133-134, 225-226 *)
          match v with
          | None => Some (go s t (ModEnd (RVal None)), ETau)
          | Some _ => Some (go s t (ModExchange i c d), ETau)
          end
      | Exact i c m =>
          match v with
          | None => Some (go s t (ModEnd (RFlag false)), ETau) (* 141, 247 *)
          | Some x =>
              if ext then Some (go s t (ModTest i c m x d), ETau) (* 246 *)
              else if Z.eqb (val x) m (* 141 *)
              then Some (go (set_slot s d i c) t (ModMutate (RFlag true)), EEffect t)
              else Some (go s t (ModEnd (RFlag false)), ETau)
          end
      | _ => None
      end
  | ModExchange i c d => (* 135-137, 233-241 *)
      let? v := slot s d i in
      match v with
      | Some x => Some (go (set_slot s d i c) t (ModMutate (RVal (Some (val x)))), EEffect t)
      | None => Some (go (set_slot s d i c) t (ModEnd (RVal None)), ETau)
      end
  | ModTest i c m x d => (* 255-273 *)
      if Z.eqb (val x) m then
        let? v := slot s d i in
        let? y := v in (* a NULL would be dereferenced by the next memcmp *)
        if same y x then Some (go (set_slot s d i c) t (ModMutate (RFlag true)), EEffect t)
        else Some (go s t (ModTest i c m y d), ETau)
      else Some (go s t (ModEnd (RFlag false)), ETau)
  | ModMutate r => Some (go (with_mutate s (mutate s + 1)) t (ModEnd r), ETau)
  | ModEnd r => Some (go (with_modify s (modify s - 1)) t Idle, ERet t r)
  (* CCConcurrentIndexMapAppendElement, 551-633 *)
  | AppBegin c => Some (go (with_modify s (modify s + 1)) t (AppLoad c), ETau)
  | AppLoad c => Some (go s t (AppCount c (data s) (mutate s)), ETau)
  | AppCount c d m =>
      let n := count (heap s d) in Some (go s t (AppScan c d m n (max_count chunk n)), ETau)
  | AppScan c d m i max => (* 143-150, 295-300 *)
      if i <? max then
        let? v := slot s d i in
        match v with
        | None => Some (go (set_slot s d i c) t (AppAdd d i), EEffect t)
        | Some _ => Some (go s t (AppScan c d m (i + 1) max), ETau)
        end
      else Some (go s t (AppFull c d m i max), ETau)
  | AppAdd d i =>
      let b := heap s d in
      Some (go (with_block s d (mkBlock (count b + 1) (cap b) (slots b))) t (AppMutate i), ETau)
  | AppMutate i => Some (go (with_mutate s (mutate s + 1)) t (AppEnd i), ETau)
  | AppEnd i => Some (go (with_modify s (modify s - 1)) t Idle, ERet t (RIndex i))
  | AppFull c d m i max => Some (go (with_modify s (modify s - 1)) t (AppCheck c d m i max), ETau)
  | AppCheck c d m i max =>
      if i =? count (heap s d)
      then Some (go s t (Copy (mkResize (Append c) d m i (max + chunk) None None (Some (i, c))) 0 garbage), ETau)
      else Some (go s t (AppBegin c), ETau)
  | AppReturn i => Some (go s t Idle, ERet t (RIndex i))
  (* CCConcurrentIndexMapRemoveElementAtIndex, 635-668, and Insert, 670-702 *)
  | ResLoad o => Some (go s t (ResCount o (data s) (mutate s)), ETau)
  | ResCount o d m =>
      let n := count (heap s d) in
      match o with
      | Remove i =>
          if (n <=? i) || (n =? 0) then Some (go s t Idle, ERet t (RVal None))
          else Some (go s t (Copy (mkResize o d m (n - 1) (max_count chunk (n - 1)) (Some i) None None) 0 garbage), ETau)
      | Insert i c =>
          if (n <=? i) || (n =? 0) then Some (go s t Idle, ERet t (RFlag false))
          else Some (go s t (Copy (mkResize o d m n (max_count chunk (n + 1)) None (Some i) (Some (i, c))) 0 garbage), ETau)
      | _ => None
      end
  (* CCConcurrentIndexMapResize, 533-549 *)
  | Copy r k buf =>
      if k <? r_count r then
        let? v := slot s (r_data r) (copy_src r k) in
        if copy_dst r k <? r_max r then Some (go s t (Copy r (k + 1) (tset buf (copy_dst r k) v)), ETau) else None
      else if match r_put r with Some (i, _) => i <? r_max r | None => true end
      then Some (go s t (Publish r (finish r buf)), ETau) else None
  | Publish r buf => (* 618, 652, 687 *)
      if (modify s =? 0) && (mutate s =? r_mut r) && (data s =? r_data r)
      then
        let d := data s + 1 in
        Some (mkState 0 (mutate s + 1) d (tset (heap s) d (mkBlock (new_count r) (r_max r) buf))
                (tset (pcs s) t
                   match r_op r with
                   | Append _ => AppReturn (r_count r) | Remove i => RemGet i (r_data r) | _ => InsReturn
                   end), EEffect t)
      else Some (go s t match r_op r with Append c => AppBegin c | o => ResLoad o end, ETau)
  | RemGet i d => let? v := slot s d i in Some (go s t Idle, ERet t (RVal (option_map val v)))
  | InsReturn => Some (go s t Idle, ERet t (RFlag true))
  end.

Definition step (chunk : nat) (ext : bool) (s : state) (l : label) : option (state * event) :=
  match l with
  | Call t o => match pcs s t with Idle => Some (go s t (start_of o), ECall t o) | _ => None end
  | Step t => step_pc chunk ext s t (pcs s t)
  end.

Fixpoint run (chunk : nat) (ext : bool) (s : state) (ls : list label) : option (state * list event) :=
  match ls with
  | [] => Some (s, [])
  | l :: t => let? (s', e) := step chunk ext s l in
              let? (s'', es) := run chunk ext s' t in Some (s'', e :: es)
  end.
