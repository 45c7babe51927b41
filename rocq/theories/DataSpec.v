(** What a data object promises: its contents are a list of bytes, and each operation acts on that list. *)
From Verif Require Import Base DataModel.

(** What an implementer of CCDataInterface has to provide, for requests within the contents of states that satisfy [inv]. [okr off n] and [okw off n]
    say which read and write requests are provided for; [full] says that maps are never shorter than asked for. *)
Record lawful {St} (I : interface St) (inv : St -> Prop) (contents : St -> list N) (okr okw : nat -> nat -> Prop) (full : Prop) : Prop := {
  (** a map shows the contents, and giving it back unwritten changes nothing *)
  law_read : forall s off n, inv s -> off + n <= length (contents s) -> okr off n ->
    exists m s', i_map I s off n RO = Some m /\ m_hint m = RO /\ m_size m <= n /\ (full -> m_size m = n) /\
      peek m = Some (slice (contents s) off (m_size m)) /\ i_unmap I s m = Some s' /\ contents s' = contents s /\ inv s' /\ i_pms I s' = i_pms I s;
  (** giving a map back after writing it stores exactly the bytes written *)
  law_write : forall s off n, inv s -> off + n <= length (contents s) -> okw off n ->
    exists m, i_map I s off n WO = Some m /\ m_hint m = WO /\ m_size m <= n /\ (full -> m_size m = n) /\
      forall bytes, length bytes = m_size m -> exists m' s', poke m bytes = Some m' /\ m_hint m' = WO /\ m_size m' = m_size m /\
        i_unmap I s m' = Some s' /\ contents s' = overwrite (contents s) off bytes /\ inv s' /\ i_pms I s' = i_pms I s;
  (** the optional shortcuts do the whole job *)
  law_opt_read : forall f, i_read I = Some f -> forall s off n buf, inv s -> off + n <= length (contents s) -> n <= length buf ->
    f s off n buf = Some (overwrite buf 0 (slice (contents s) off n), n);
  law_opt_write : forall f, i_write I = Some f -> forall s off n buf, inv s -> off + n <= length (contents s) -> n <= length buf ->
    exists s', f s off n buf = Some (s', n) /\ contents s' = overwrite (contents s) off (slice buf 0 n) /\ inv s' /\ i_pms I s' = i_pms I s;
  law_opt_fill : forall f, i_fill I = Some f -> forall s off n v, inv s -> off + n <= length (contents s) ->
    exists s', f s off n v = Some (s', n) /\ contents s' = overwrite (contents s) off (repeat v n) /\ inv s' /\ i_pms I s' = i_pms I s;
  law_resize : forall f, i_resize I = Some f -> forall s n s', inv s -> f s n = Some s' -> inv s';
  law_opt_copy : forall f, i_copy I = Some f -> forall s off n t toff, inv s -> inv t -> off + n <= length (contents s) -> toff + n <= length (contents t) ->
    exists t', f s off n t toff = Some (t', n) /\ contents t' = overwrite (contents t) toff (slice (contents s) off n) /\ inv t' /\ i_pms I t' = i_pms I t
}.

(** The pieces of a request of [n] bytes at [off] for a preferred size are all provided for *)
Definition provided (ok : nat -> nat -> Prop) (pms : option nat) (off n : nat) : Prop :=
  match pms with
  | None => ok off n
  | Some p => p <> 0 /\ (forall l, l < n / p -> ok (off + l * p) p) /\ ok (off + n / p * p) (n mod p)
  end.

(** Which bytes a transfer may move: all [n], or a leading part if maps can be short *)
Definition count_ok (full : Prop) (c n : nat) : Prop := c <= n /\ (full -> c = n).

(** * C24: histories *)
Inductive op (St : Type) :=
| ORead (off n : nat) (buf : list N)     (* CCDataReadBuffer *)
| OWrite (off n : nat) (buf : list N)    (* CCDataWriteBuffer *)
| OFill (off n : nat) (v : N)            (* CCDataFillBuffer *)
| OMapRead (off n : nat)                 (* CCDataMapBuffer for reading, then CCDataUnmapBuffer *)
| OMapWrite (off : nat) (bytes : list N) (* CCDataMapBuffer for writing, store, CCDataUnmapBuffer *)
| OChanged (s : St)                       (* change the contents directly, then CCDataModifiedRange or CCDataInvalidate or CCDataSync *)
| OResize (n : nat)                      (* CCDataSetSize *)
| OHash.                                 (* CCDataGetHash *)
Arguments ORead {St}. Arguments OWrite {St}. Arguments OFill {St}. Arguments OMapRead {St}. Arguments OMapWrite {St}.
Arguments OChanged {St}. Arguments OResize {St}. Arguments OHash {St}.

Inductive result := RBytes (l : list N) | RCount (n : nat) | RBool (b : bool) | RHash (h : N) | RUnit.

Definition step {St} (I : interface St) (hasher : St -> N) (d : data St) (o : op St) : option (data St * result) :=
  match o with
  | ORead off n buf => let? r := read_buffer I d off n buf in let '(d, buf, c) := r in Some (d, RBytes buf)
  | OWrite off n buf => let? (d, c) := write_buffer I d off n buf in Some (d, RCount c)
  | OFill off n v => let? (d, c) := fill_buffer I d off n v in Some (d, RCount c)
  | OMapRead off n => let? m := map_buffer I d off n RO in let? b := peek m in let? d := unmap_buffer I d m in Some (d, RBytes b)
  | OMapWrite off bytes => let? m := map_buffer I d off (length bytes) WO in let? m := poke m bytes in let? d := unmap_buffer I d m in Some (d, RUnit)
  | OChanged s => Some (changed d s, RUnit)
  | OResize n => let '(d, b) := set_size I d n in Some (d, RBool b)
  | OHash => let '(d, h) := get_hash hasher d in Some (d, RHash h)
  end.

(** What the user knows: the hash was asked for after the last change (Clean), or was not (Dirty), or the size was
    changed since and nothing else (Resized). *)
Inductive phase := Clean | Dirty | Resized.

(** Does this operation read through a map? *)
Definition reads_map {St} (I : interface St) (o : op St) : bool :=
  match o with ORead _ _ _ => match i_read I with Some _ => false | None => true end | OMapRead _ _ => true | _ => false end.
Definition modifies {St} (o : op St) : bool :=
  match o with OWrite _ _ _ | OFill _ _ _ | OMapWrite _ _ | OChanged _ => true | _ => false end.

Definition next {St} (I : interface St) (p : phase) (o : op St) (x : result) : phase :=
  if modifies o then Dirty
  else match o, x, p with
       | OHash, _, _ => Clean
       | OResize _, RBool true, Clean => Resized
       | _, _, _ => p
       end.

(** The user's part. Operations stay inside the contents; and, the limits of what the code gets right: contents are not
    read through a map while there are changes the hash was not asked for, and the hash is not asked for right after
    a resize. *)
Definition client_ok {St} (I : interface St) (inv : St -> Prop) (contents : St -> list N) (okr okw : nat -> nat -> Prop) (d : data St) (p : phase) (o : op St) : Prop :=
  let c := contents (d_int d) in
  let pms := i_pms I (d_int d) in
  match o with
  | ORead off n buf => off + n <= length c /\ n <= length buf /\ provided okr pms off n
  | OWrite off n buf => off + n <= length c /\ n <= length buf /\ provided okw pms off n
  | OFill off n v => off + n <= length c /\ provided okw pms off n
  | OMapRead off n => off + n <= length c /\ okr off n
  | OMapWrite off bytes => off + length bytes <= length c /\ okw off (length bytes)
  | OChanged s => inv s
  | OResize n => True
  | OHash => p <> Resized
  end /\ (reads_map I o = true -> p <> Dirty).

(** The implementation's part: results and contents. *)
Definition impl_ok {St} (contents : St -> list N) (h : list N -> N) (d : data St) (o : op St) (x : result) (d' : data St) : Prop :=
  let c := contents (d_int d) in
  let c' := contents (d_int d') in
  match o with
  | ORead off n buf => x = RBytes (overwrite buf 0 (slice c off n)) /\ c' = c
  | OWrite off n buf => x = RCount n /\ c' = overwrite c off (slice buf 0 n)
  | OFill off n v => x = RCount n /\ c' = overwrite c off (repeat v n)
  | OMapRead off n => x = RBytes (slice c off n) /\ c' = c
  | OMapWrite off bytes => c' = overwrite c off bytes
  | OChanged s => c' = contents s
  | OResize n => x = RBool false -> c' = c
  | OHash => x = RHash (h c) /\ c' = c
  end.

Fixpoint history_ok {St} (I : interface St) (inv : St -> Prop) (contents : St -> list N) (okr okw : nat -> nat -> Prop) (h : list N -> N) (d : data St) (p : phase) (ops : list (op St)) : Prop :=
  match ops with
  | [] => True
  | o :: t =>
      client_ok I inv contents okr okw d p o ->
      exists d' x, step I (fun s => h (contents s)) d o = Some (d', x) /\ impl_ok contents h d o x d' /\
        history_ok I inv contents okr okw h d' (next I p o x) t
  end.

(** The bytes of a container are those of its elements in order; its elements all have the element size. *)
Definition bytes_of (s : container) : list N := concat (c_elems s).
Definition whole (s : container) : Prop := c_es s <> 0 /\ Forall (fun e => length e = c_es s) (c_elems s).
Definition cinv (es : nat) (s : container) : Prop := whole s /\ c_es s = es.
