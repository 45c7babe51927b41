(** Model of the mappers and unmappers of strings and big integers in CommonC/ReflectedTypes.c and of the lookup of
    default types there. A value is mapped, the mapped data is handed on (copied, or written and read back), and the
    handed on data is unmapped to a new value. The reference counts of the values are not modelled, and the case of a
    null value, which every mapper and unmapper hands on as it is, is left out. Allocation succeeds. [None]: a failed
    assertion or undefined behaviour. *)
From Verif Require Import Base Word BigIntModel BigIntFastModel StringModel.
Local Open Scope N_scope.

(** Reflect.h 48-55: CCReflectMapIntent *)
Inductive intent := Transfer | Share | Copy | Serialize | Display | Inspect.

(** ** Big integers *)

(** What is handed to the handler: the object itself, an array of uint64_t, or a CCString (here its text) *)
Inductive mapped (A : Type) := MObject (a : A) | MWords (ws : list N) | MText (s : list N).
Arguments MObject {A}. Arguments MWords {A}. Arguments MText {A}.

(** Lines 587-597 and 701-711 (the same code): each component is shifted up by one and filled with what was shifted out of the one below *)
Fixpoint shift_in (ls : list N) (remainder : N) : list N :=
  match ls with
  | [] => if remainder =? 0 then [] else [remainder]
  | c :: ls => N.lor (wshl 64 c 1) remainder :: shift_in ls (N.shiftr c 63)
  end.

(** Lines 570-610: CCBigIntMapper *)
Definition map_big (i : intent) (b : bigint) : mapped bigint :=
  match i with
  | Transfer | Share => MObject b
  | Serialize => MWords (shift_in (limbs b) (if sign b then 1 else 0))
  | Copy | Display | Inspect => MText (BigIntModel.get_string b)
  end.

(** Lines 636-650: [component] holds the upper bits of the word before *)
Fixpoint shift_out (ws : list N) (component : N) : list N :=
  match ws with
  | [] => if component =? 0 then [] else [component]
  | w :: ws => N.lor component (wshl 64 (N.land w 1) 63) :: shift_out ws (N.shiftr w 1)
  end.

(** Lines 630-650 and 745-765 (the same code): an array; the first word is read without a look at the count *)
Definition unmap_words (ws : list N) : option bigint :=
  match ws with
  | [] => None
  | w :: ws => Some (mkBig (negb (N.land w 1 =? 0)) (shift_out ws (N.shiftr w 1)))
  end.

(** Lines 612-661: CCBigIntUnmapper *)
Definition unmap_big (m : mapped bigint) : option bigint :=
  match m with
  | MText s => BigIntModel.set_string s
  | MWords ws => unmap_words ws
  | MObject b => Some b
  end.

(** Lines 663-725: CCBigIntFastMapper; a tagged word is handed on as an integer *)
Definition map_fast (i : intent) (f : fast) : option (mapped fast) :=
  match i with
  | Transfer => Some (MObject f)
  | Share | Copy => let? c := BigIntFastModel.copy f in Some (MObject c)
  | Serialize =>
      match f with
      | BigIntFastModel.Tagged _ => Some (MObject f)
      | Boxed b => Some (MWords (shift_in (limbs b) (if sign b then 1 else 0)))
      end
  | Display | Inspect => let? s := BigIntFastModel.get_string f in Some (MText s)
  end.

(** Lines 727-776: CCBigIntFastUnmapper *)
Definition unmap_fast (m : mapped fast) : option fast :=
  match m with
  | MText s => BigIntFastModel.set_string s
  | MWords ws => let? b := unmap_words ws in Some (Boxed b)
  | MObject f => Some f
  end.

(** ** Strings *)

(** The object, or an array of [unsigned char] *)
Inductive mapped_str := SObject (s : str) | SBytes (bs : list N).

(** CCString.c 874-879 and CCString.h 69-74: CC_STRING_TEMP_BUFFER, the memory at [Buffer] *)
Definition temp_buffer (M : StringModel.env) (s : str) : option (list N) :=
  let copied := let? len := get_length M s in let? bs := copy_characters M s 0 len in
                let? size := get_size M s in filled (size + 1) bs in
  match s with
  | Tagged _ => copied
  | Heap h => if h_unsafe h then copied else Some (h_mem h)
  end.

(** The first [n] bytes of [mem]; [None]: there are fewer *)
Definition read_bytes (mem : list N) (n : nat) : option (list N) := if (n <=? length mem)%nat then Some (firstn n mem) else None.

(** Lines 482-529: CCStringMapper, for a handler that does not print *)
Definition map_str (M : StringModel.env) (i : intent) (s : str) : option mapped_str :=
  match i with
  | Transfer => Some (SObject s)
  | Share | Copy => let? c := StringModel.copy M s in Some (SObject c)
  | Serialize | Display | Inspect =>
      let? mem := temp_buffer M s in
      let? n := get_length M s in
      let? bs := read_bytes mem n in Some (SBytes bs)
  end.

(** Lines 531-546: CCStringUnmapper; [rest] is what lies behind the array in memory *)
Definition unmap_str (M : StringModel.env) (before : option N) (rest : list N) (m : mapped_str) : option str :=
  match m with
  | SBytes bs => create_with_size M UTF8 Copied before (bs ++ rest) (length bs)
  | SObject s => Some s
  end.

(** ** The lookup of types *)

(** The reflected types that have an index, and the others *)
Inductive ty :=
| TReflectType | TVoid | TString | TAllocatorType | TReflectOpaque | TReflectInteger | TReflectValidator
| TReflectPointer | TReflectStruct | TReflectStaticPointer | TReflectDynamicPointer | TReflectArray | TReflectStructField
| TReflectFloat | TReflectEnumerable | TReflectValue | TVector4D | TColourRGBA | TMatrix4 | TVector4Di | TColourRGBAi
| TVector3D | TColourRGB | TMatrix3 | TVector3Di | TColourRGBi | TVector2D | TRect | TMatrix2 | TVector2Di
| TDictionaryCallbacks | TTypeMapper | TTypeUnmapper | TValidation | TMemoryDestructor | TComparator
| TCollectionElementDestructor | TDictionaryElementDestructor | TDictionaryKeyHasher
| TDictionaryCallbacksWeak | TDictionaryCallbacksTransfer | TDictionaryCallbacksRetain
| THashMapKeyHasher | THashMapInterface | TStringWeak | TStringTransfer | TStringRetain
| TAllocatorWeak | TAllocatorTransfer | TAllocatorRetain | TDebugAllocatorInfo | TBigInt | TBigIntFast
| TOther (n : nat).

(** Lines 199-267: the index of a type. The switch over the kind of the type only leaves out comparisons that fail. *)
Definition index_of (t : ty) : option N :=
  match t with
  | TReflectType => Some 0 | TVoid => Some 1 | TString => Some 2 | TAllocatorType => Some 3 | TBigInt => Some 51 | TBigIntFast => Some 52
  | TReflectOpaque => Some 4 | TReflectInteger => Some 5 | TReflectValidator => Some 6 | TReflectPointer => Some 7
  | TReflectStruct => Some 8 | TReflectStaticPointer => Some 9 | TReflectDynamicPointer => Some 10 | TReflectArray => Some 11
  | TReflectStructField => Some 12 | TReflectFloat => Some 13 | TReflectEnumerable => Some 14 | TReflectValue => Some 15
  | TVector4D => Some 16 | TColourRGBA => Some 17 | TMatrix4 => Some 18 | TVector4Di => Some 19 | TColourRGBAi => Some 20
  | TVector3D => Some 21 | TColourRGB => Some 22 | TMatrix3 => Some 23 | TVector3Di => Some 24 | TColourRGBi => Some 25
  | TVector2D => Some 26 | TRect => Some 27 | TMatrix2 => Some 28 | TVector2Di => Some 29 | TDictionaryCallbacks => Some 30
  | TDebugAllocatorInfo => Some 50
  | TTypeMapper => Some 31 | TTypeUnmapper => Some 32 | TValidation => Some 33 | TMemoryDestructor => Some 34 | TComparator => Some 35
  | TCollectionElementDestructor => Some 36 | TDictionaryElementDestructor => Some 37 | TDictionaryKeyHasher => Some 38
  | TDictionaryCallbacksWeak => Some 39 | TDictionaryCallbacksTransfer => Some 40 | TDictionaryCallbacksRetain => Some 41
  | THashMapKeyHasher => Some 42 | THashMapInterface => Some 43 | TStringWeak => Some 44 | TStringTransfer => Some 45 | TStringRetain => Some 46
  | TAllocatorWeak => Some 47 | TAllocatorTransfer => Some 48 | TAllocatorRetain => Some 49
  | TOther _ => None
  end.

(** Lines 195-278: CCReflectSerializeBinaryTypeLookupDefaults; 255 is "no index" *)
Definition serialize_lookup (t : ty) (offset : N) : N :=
  if offset <? 255 then
    match index_of t with
    | Some i => let i := i + offset in if i <? 255 then i else 255
    | None => 255
    end
  else 255.

(** Lines 280-334: CCReflectTypeLookups *)
Definition lookups : list ty :=
  [ TReflectType; TVoid; TString; TAllocatorType; TReflectOpaque; TReflectInteger; TReflectValidator;
    TReflectPointer; TReflectStruct; TReflectStaticPointer; TReflectDynamicPointer; TReflectArray; TReflectStructField;
    TReflectFloat; TReflectEnumerable; TReflectValue; TVector4D; TColourRGBA; TMatrix4; TVector4Di; TColourRGBAi;
    TVector3D; TColourRGB; TMatrix3; TVector3Di; TColourRGBi; TVector2D; TRect; TMatrix2; TVector2Di;
    TDictionaryCallbacks; TTypeMapper; TTypeUnmapper; TValidation; TMemoryDestructor; TComparator;
    TCollectionElementDestructor; TDictionaryElementDestructor; TDictionaryKeyHasher;
    TDictionaryCallbacksWeak; TDictionaryCallbacksTransfer; TDictionaryCallbacksRetain;
    THashMapKeyHasher; THashMapInterface; TStringWeak; TStringTransfer; TStringRetain;
    TAllocatorWeak; TAllocatorTransfer; TAllocatorRetain; TDebugAllocatorInfo; TBigInt; TBigIntFast ].

(** Lines 336-348: CCReflectDeserializeBinaryTypeLookupDefaults; [Some None] is NULL. Line 340 adds to a uint8_t. *)
Definition deserialize_lookup (index offset : N) : option (option ty) :=
  if (offset <? 255) && (index <? 255) then
    let index := (index + offset) mod 256 in
    match nth_error lookups (N.to_nat index) with Some t => Some (Some t) | None => None end
  else Some None.
