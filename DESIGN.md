# Formal model of CommonC: design

This directory holds a Rocq (Coq 8.16.1) model of parts of CommonC and
machine-checked proofs about it. `properties.jsonl` lists the properties in
English, `MANIFEST.json` maps each to its theorems, this file says how each is
modelled and what is trusted.

## Layout

For each area `X` of the code there are up to four files in `rocq/theories`:

* `XModel.v`  - the model: total computable Gallina functions, each definition
  with a comment citing the file and lines of /repo it models, and the
  simplifications made. No proofs.
* `XSpec.v`   - a small specification, independent of the model's helpers.
* `XProofs.v` - lemmas and proofs.
* `XProps.v`  - the property theorems only, each closed by `exact`, followed by
  `Print Assumptions`, and `Example`s showing that the hypotheses are met by a
  concrete non-trivial case.

`Base.v` holds general list and arithmetic helpers.

## Conventions

* Integers are unbounded (`nat`, `N`, `Z`) unless the property is about wrap;
  then `mod 2^n` is written in the model. Where the code would wrap or overflow
  outside what is modelled, the definition's comment says so.
* Undefined behaviour (out-of-bounds access, signed overflow, oversized shift,
  null dereference) and failed `CCAssertLog` checks are explicit outcomes of the
  model, never silently totalised.
* Concurrency is modelled by interleaving: one step per atomic action, under
  sequential consistency. Weak-memory reorderings are not modelled: the
  `memory_order` arguments in the code are not checked to be strong enough.
* If the faithful model violates a property, the file contains a theorem
  `..._refuted` with a concrete witness, and a theorem `..._partial` for the
  largest convenient domain on which the property holds.

## Plan per property

| Id | Model | Proof method |
|----|-------|--------------|
| C01 | `ArrayModel`: storage as a list of cells of length = allocated capacity, out-of-range access is an explicit outcome, allocation may fail (oracle bit per call) | refinement to `list`, capacity invariant |
| C02 | `LinkedListModel`: heap of nodes `addr -> {next, prev}`; functions as in the C code | segment predicate, frame property |
| C03 | `QueueModel` over the linked list heap | refinement to FIFO list over operation sequences |
| C04 | `ListModel`: list of pages | refinement to `list` |
| C05, C06 | `CollectionModel`: three implementations as state machines | refinement to `list`; handle map invariant |
| C07 | destructor log in the collection model | invariant over histories; refuted for remove-all on the fast array |
| C08 | `EnumModel`: batch, circular and paged enumerators | induction on the number of steps |
| C09-C11 | `HashMapModel`: buckets of slots with hash flags | refinement to finite map |
| C12 | `BitTricksModel` on `N` below 2^64 | bitwise characterisation |
| C13 | `BitsModel` on byte arrays | bitwise characterisation, refutations |
| C14-C16 | `BigIntModel`, `BigIntFastModel` on limb lists | value function into `Z`; refutations |
| C17 | `DecimalModel` | arithmetic, refutations |
| C18, C19 | `RandomModel` | arithmetic; linear algebra over GF(2) |
| C20 | `ValidateModel` on byte lists | value function into `Z` |
| C21 | `RangeModel` | arithmetic |
| C22 | `MemoryModel` | induction |
| C23 | `HashModel` | chunking lemma by induction |
| C24, C25 | `DataModel` | state machine; chunking lemma |
| C26 | `StringModel`: a string is a word or a record with the readable memory; maps are a parameter | digit lists in base 2^bits, representation predicate |
| C27 | `StringModel` decoders and enumerators | encode/decode inverse, enumerator positions |
| C28 | `StringModel` search | induction on the rest of the string; exceptions characterised |
| C29, C30 | `PathModel` | state machine over characters |
| C31 | `AlignedModel` | arithmetic |
| C32 | `RefCountModel` | interleaving invariant |
| C33 | `PoolModel` | invariant |
| C34 | `ZoneModel` | invariant, refinement to a stack of allocations |
| C35-C45 | one interleaving model each | inductive invariants with history variables |
| C46, C47 | `TaskModel`, `TaskQueueModel` | inductive invariants |
| C48 | `RangeModel` | arithmetic |
| C49-C51 | `StringModel` | as C26 and C27 |
| C54 | allocation outcomes in `CollectionModel` | read off the simulation; refutations |
| C55 | `CollectionCreateModel` | arithmetic; search invariant |
| C56 | `HashMapSplitModel`: the two data-oriented hash maps | simulation with the interleaved one, field by field |
| C57, C58 | `DictionaryModel`: on the hash map, destructor calls as events | refinement to an association list for any load-factor test; permutation count; refutations |
| C59 | `ReflectStreamModel`: the run-length writer and reader | invariant relating the pending run to the bytes still to come |
| C60 | `ReflectIntegerModel`: integers in memory to bytes and back | arithmetic on digits; finite bit checks; exact characterisation for 64 bits; refutation |
| C61 | `ReflectValueModel`: values over a graph of type descriptors | induction on the depth of the value; refutation |
| C62 | `ReflectTypeModel`: the descriptors as a graph, written depth first with back references | writer and reader kept in step (the reader's table is a function of the writer's); bisimulation between the graphs |
| C63 | `ReflectCopyModel`: values, and objects with reference counts behind their pointers | induction on the depth of the value; the objects made are exactly those the copy owns; refutations |
| C64-C66 | `FileModel`: files as byte sequences with an offset, block by block | induction on the blocks copied; exact characterisation; refutations |
| C67 | `LockModel`: every atomic step of every thread | invariant: the lock counts the readers and flags the writer |
| C68 | `VolumeModel`: a tree of nodes, walked component by component | the volume as a mapping from lists of names; induction on the path |
| C69 | `VolumeModel`: what a listing appends, entry by entry | induction on the depth and the entries; one entry for each name and names of files as invariants of the reachable volumes |
| C70 | `VolumeModel`: copying through file handles, child by child | induction on the depth, with an invariant for the children copied so far |
| C71 | Hash callbacks (KeysModel.v) on the models of big integers, fast big integers and strings | The comparators answer equal only for the same sign and components (or characters), a tagged value hashes like its one-component form; then C57 is instantiated. Negative zero and the empty constant: refuted |
| C72 | `BoundsModel`: memory as bytes, guards and headers at their addresses | invariant: the guards are intact and the stored size is right; the check is an equivalence; refutations for the bytes that are not guarded |
| C73 | `ZoneAllocModel` on `ZoneModel`: allocations with their sizes, memory as bytes | invariant: every allocation in the used part of one block, pairwise apart; the cases of a resize, with the converse; refutations from the converse |
| C74 | `DebugModel`: threads with program counters over the list, the heap and the program's allocations | invariant counting each pointer over the allocations, the threads and the list; the place of an entry nobody looks for is fixed; witness of the race |
| C75 | `DispatchModel`: groups as records that refer to each other, headers of memory, logged calls of allocator functions | representation of a tree of lists by groups, with a count of uses for each; log invariant for owners |
| C76 | `FormatModel`: the reader of specifiers and the filters as functions of the format, the arguments and the message; what printf shows for one directive is a parameter | directives as records with their text; the reader is followed part by part; digits by induction; arrays by induction on the count |
| C77 | `LogModel`: the message with its size and the room it really has, the loop over the format | invariant: room for the text and the terminator; induction on the pieces of the format; witnesses for arguments of `*` and the wrapped size check |
| C78 | `InputModel`: CCLogv up to the input filters, which call it again | induction on the length of the file name; with an empty path, induction on the depth of the calls |
| C79 | `MapperModel`: the mappers and unmappers of CCBigInt and CCBigIntFast | induction on the components; the text round trip of C15 |
| C80 | `MapperModel`: the mapper and unmapper of CCString, on the strings of C26–C28 | the lengths of the UTF-8 encoding; creation and copying of C49 |
| C81 | `MapperModel`: the two lookups, over all types with an index | case analysis over the types, arithmetic modulo 256 |
| C82, C83 | `FloatModel`: the functions on the bits, for any widths of exponent and mantissa; values are integers in units of the least positive number | the value rises with the bits; the floats of an interval as a list without duplicates |
| C84, C85 | `ContainerModel`: mappers and unmappers of the containers as a walk over the enumerable model that fills the models of C01, C03, C04, C02 and C09 | the walk is a fold over the values; invariants of the containers; two maps that list the same pairs answer alike |
| C86, C87 | Custom and callback allocators over blocks of words with their headers; refinement of blocks with an owner and no header, induction over programs. |
| C88, C89 | the same model with the models of C05 and C57 | the copy is the history of insertions of what the original lists, then the refinements of C05 and C57 |
| C90 | `TaskOwnerModel`: tasks, inputs, outputs, nodes and queues as counted blocks | an invariant that ties every count to the references of an abstract world, preserved by each call |
| C91 | Vector3D.h over the real numbers (GeomModel); the laws of inner and cross product, projection, normalization, distance, interpolation, clamping and normals by ring, field and Cauchy-Schwarz; the angle, parallel and orthogonal tests refuted with witnesses |
| C92 | Matrix4.h over the real numbers (GeomModel); products entry by entry, rotations through Rodrigues' formula against a declarative turn about an axis, projections as exact maps of box and pyramid onto the cube |
| C93 | the Vectorize functions over registers of four real numbers, with the instruction set as an argument (SimdModel, intrinsics and shuffle masks as functions); each against the textbook formula on lists of coordinates (SimdSpec), by computation of the lanes for each instruction set |
| C94 | the SSE2 comparison on the bits of the lanes (VecUlpsModel) against CCFloatEqualUlps of C82; linear arithmetic on the bits, witnesses and universal lemmas for the wrong cases |
| C95 | the bodies of SimdFallback.h on one lane of w bits with a signedness flag (SimdLaneModel); bits of a rotation by testbit, masks by how far the or of shifts reaches, the count by bytes as in C12, arithmetic by congruence modulo 2^w and the range of numbers |
| C96 | FSManagerRename's new path as components (RenameModel, on PathModel); induction over the parts of the file name, the name by C29's reading back |
| C97 | CCLastComponent on lists of bytes with offsets (LastComponentModel); the two backward scans by where they stop, and every text split into what precedes the component, the component and the separators after it |
| C98 | the functions HashMap.c substitutes for missing ones, over an arbitrary implementation given by its required functions and their effect on a finite map (HashMapDefaultModel, HashMapDefaultSpec); the hash map of C09 as an instance; the default hash on lists of bytes for both endiannesses |
| C99 | the mapper of terminated arrays on the bytes readable from the array on (TerminatedModel); induction on the elements, every memory split into elements before the terminator and what follows |
| C100 | `ZoneEnumModel`: the handler, the batch moves of Enumerable.h and the search for the first block on a list of blocks; simulation by the cursor of EnumerableSpec, the enumerator is at batch j with the items before it counted |
| C101, C102 | `SystemModel`: the loop over the characters of a version, the literals, the last component and the filter of a name, static variables as state; induction on the texts and on the calls, linear arithmetic for the order of literals |
| C103 | `TypeSizeModel`: the recursion over a type with products modulo 2^64, against the list of the objects a value is laid out as; induction on the layout and on the type |
| C52, C53 | `PathModel`: cached strings as numbered blocks | history induction with the cache invariant; block numbers grow |

None of the listed properties is out of reach of an executable model; what the
models leave out (weak memory, real allocator, real scheduler) is listed below
per area as it is built.

## Trusted base

* Coq 8.16.1's kernel (and `coqchk`, which has been run over the compiled
  files).
* The reading of the C code: each definition of a `*Model.v` file cites the lines
  it models, and nothing but review connects it to them.
* The specifications: the `*Spec.v` files and the statements in `*Props.v`.
* The platform assumptions: 64-bit pointers and `size_t`, little-endian hardware
  unless a comment says otherwise, sequential consistency, and an allocator that
  succeeds unless the model of the area has a choice for it.

### Assumptions

`Print Assumptions` stands under every property theorem and prints
`Closed under the global context` for each theorem but those of C91, C92 and C93:
they use no axioms, neither our own nor the standard library's.

The theorems of C91, C92 and C93 are about real numbers and use the standard library's
`Reals`.  `Print Assumptions` lists for them, and for no others, these axioms of
the standard library:

* `ClassicalDedekindReals.sig_forall_dec` (all of them)
* `FunctionalExtensionality.functional_extensionality_dep` (nearly all)
* `ClassicalDedekindReals.sig_not_dec` (those with square roots or angles)
* `Classical_Prop.classic` (`c91_angle_partial` and `c91_angle_refuted`, through
  the standard library's `acos`)

`coqchk -o` lists seven constants of Coq's own library that are in the context
of the checked files without any theorem depending on them:
`Coq.ssr.ssrunder.Under_rel.Under_rel`, `.Under_rel_from_rel`, `.Under_relE`,
`.Over_rel`, `.over_rel`, `.over_rel_done`, `.under_rel_done` (the sealed module type of the `under` tactic, loaded with the
ssreflect part of the standard library by `Zify`).

### What is modelled

| Area | In /repo/CommonC | Not modelled there |
|------|------------------|--------------------|
| Array | Array.c, Array.h | `size_t` overflow of sizes; element bytes |
| Linked list, queue | LinkedList.c/.h, Queue.c | payloads |
| List | List.c, List.h | failed allocation of headers |
| Enumerables | Enumerable.c/.h, CircularEnumerable.c/.h and the handlers of LinkedList.c, Queue.c, List.c, CollectionList.c, CollectionArray.c | fixed batch format |
| Collections | Collection.c, OrderedCollection.c, CollectionEnumerator.c, CollectionArray.c, CollectionFastArray.c, CollectionList.c | element bytes, failing allocations while inserting a collection |
| Hash map | HashMapSeparateChainingArray.c, HashMapSeparateChainingArrayDataOrientedHash.c, HashMapSeparateChainingArrayDataOrientedAll.c, HashMap.c | key and value bytes |
| Dictionary | Dictionary.c, DictionaryHashMap.c | the choice of the implementation (as for collections), floating point of the load factor, allocation failure |
| Bits | BitTricks.h, BitsTemplate.h | big-endian branches, assembler variants |
| Big integers | BigInt.c, BigIntFast.h | aliased operands, failed allocation |
| Decimals | Decimal.h | conversion to floating point |
| Random | Random.c and the integer part of Random.h | floating point ranges |
| Validation | ValidateMinimum.c, ValidateMaximum.c (integers) | floating point |
| Ranges | RangeTemplate.h, ExtremaTemplate.h (integers) | floating point |
| Memory | MemoryTemplate.h, Swap.h | vector variants |
| Hashing | Hash.c | short or failed maps |
| Data | Data.c, DataBuffer.c, DataContainer.c | file-backed data |
| Strings | CCString.c, CCString.h, CCStringEnumerator.h | what is freed, the hash cache, logging formats |
| Paths | Path.c, PathComponent.c | system paths, the default path, changing the current path itself, failed allocation |
| Allocators | Allocator.c (aligned, pool, reference counts), PoolAllocator.c/.h, MemoryZone.c | |
| ID generator | ConsecutiveIDGenerator.c, ConcurrentIDGenerator.c | weak memory |
| Lock-free buffers | ConcurrentBuffer.c, ConcurrentIndexBuffer.c, ConcurrentSwapBufferTemplate.h, ConcurrentCircularBufferTemplate.h, ConcurrentPoolTemplate.h, ConcurrentSharedResourceTemplate.h | weak memory |
| Garbage collectors | LazyGarbageCollector.c, EpochGarbageCollector.c | weak memory, counter overflow |
| Concurrent queue | ConcurrentQueue.c | weak memory, memory reuse |
| Concurrent index map | ConcurrentIndexMap.c | weak memory, memory reuse, allocation failure, strict mode, wrap of mutate |
| Tasks | Task.c, TaskQueue.c | weak memory, failed allocation |
| Reflection | Reflect.c 64–110, 815–1381, 1407–1944, 1953–2280, ReflectStream.c (run-length streams) | static pointers, opaque types, field names, destroying, printing |
| Files | FileHandle.c 119–342 (regular files on Unix), 441–581 (virtual files), FileSystem.c 369–423 and 484–932 (the virtual volume), FileSystem_Private.h 129–156 | stdio buffering, failing I/O, several handles on one file, macOS variants, weak memory |
| Key callbacks | TypeCallbacks.c 138–205 | the callbacks of plain integers, pointers and data containers |
| Bounds checking allocator | Allocator.c 170–228, 509–592, 632–666 | what the alarm prints; a user's handler; failed malloc beyond NULL |
| Zone allocators | Allocator.c 280–411, MemoryZone.h 267–283 | references on the zone, several zones, threads, the bytes of CCZoneMemoryHeader |
| Debug allocator | DebugAllocator.c 67–121 and, as `DebugReportModel`, 128–195, Allocator.c 232–253 | creation of the list, the list's own steps (C45), the format of the report, its dictionaries (C09-C12), failed malloc |
| Choice of allocators | Allocator.c 255–276, 470–666, Allocator.h 34–61, 194–246 | destructors, threads, the custom and callback allocators' functions |
| Format specifiers | Logging.c 942–1073, CustomFormatSpecifiers.c 35–433 | CCChar (435–464, depends on the locale); what printf shows for one directive is a parameter |
| Log messages | Logging.c 392–705 | input filters, the outputs, syslog and ASL, failed allocations except in c77_failed_write_refuted, printf errors |
| File name filter | CustomInputFilters.c 32–68, Logging.c 418–448 | failed allocations, other input filters that change the option, the va_list shared by the inner call |
| Mappers | ReflectedTypes.c 195–348, 482–546, 570–776 | null values, reference counts, the handlers |
| Floats | Maths.h 138–148, BitTricks.h 226–238 | CCFloatEqualRelative, CCFloatEqualAbsolute; IEEE 754 formats are assumed |
| Container mappers | ReflectedTypes.c 1445–1633, 1690–1737, 1812–1859, 1953–1993 | allocators and reference counts of the containers; the copy is built in memory of its own |
| Custom and callback allocators | Allocator.c 52–118, CallbackAllocator.h | sizes in bytes that are not whole words, overflow of sizes, what the functions and callbacks do to other memory |
| Ownership of tasks | Task.c 60–128, TaskQueue.c 50–54, 83–164, ConcurrentQueue.c 39–184, Allocator.c 594–678 | calls at the same time (C46, C47), the contents of inputs and outputs, the collector's own blocks |
| Vectors and matrices | Vector3D.h 147-387 (without the componentwise Mul, Div, comparisons, Neg, Abs and AddScalar, SubScalar), Matrix4.h 40-267 | rounding, overflow, NaN: floats are real numbers |
| Vectorized vectors | Vector2D.h 199-1180 but for the componentwise CCVector2 functions without an SSE path, Vector3D.h and Vector4D.h from CCVectorize3Dot and CCVectorize4Dot on but for the componentwise ones | rounding, NaN and the two zeros, except in C94 (bits of a lane); the denormals-are-zero mode |
| Integer vectors | SimdFallback.h 254-465 and 580-647, 932-936 (one lane; shifts as in Simd64_arm.h and Simd128_arm.h) | other primitive operations are taken as modulo 2^w; CCSimdSetSequence, horizontal and floating point functions |
| Renaming | FileSystem.c 60-102 | the move (FSManagerMove, 348-362) is one call of rename(2); memory of the components |
| Last component | File.c 37-70 | pointers in front of the string are taken to work |
| Hash map defaults | HashMap.c 108-137, 146-216, 232-292 | the collections the keys and values are returned in; a rehash function of the implementation |
| Terminated arrays | ReflectedTypes.c 458-471 | the handlers |
| Zone enumerables | MemoryZone.c 245-355, MemoryZone.h 235-265 | negative offsets, wrapping counts |
| System and process | SystemInfo.c, ProcessInfo.c 56-99 | what the operating system answers is the environment; CCHostCurrentName, CCProcessCurrentPath |
| Size of reflected types | Reflect.c 32-62 | types are trees; types referred to by pointers, structs and enumerables are left out |

Not modelled at all: the rest of FileSystem.c and FileHandle.c and their platform files,
the rest of ReflectedTypes.c, the outputs of Logging.c, and the platform
layers. ConcurrentArray.c and ConcurrentTree.c declare types and no functions.
