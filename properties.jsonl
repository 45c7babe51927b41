{"id": "C01", "title": "CCArray behaves as a sequence and never writes outside its buffer", "statement": "For every chunk size >= 1 and every sequence of CCArray calls whose indices are in range (append, append many, insert, insert many, replace, remove, remove many, copy, remove all), the array's observable contents (count, element at each index, returned indices) equal those of a plain sequence, every element access falls inside the storage currently allocated, and when an allocation fails the call returns SIZE_MAX and the contents are unchanged.", "quantifier": "all chunk sizes, all element values, all call sequences, all allocation-failure patterns", "why_tests_cant": "Growth decisions depend on count modulo chunk size and on the history of removals; tests visit only a few chunk sizes and histories.", "anchors": ["CommonC/Array.c: CCArrayCreate, CCArrayAppendElement, CCArrayAppendElements, CCArrayReplaceElementAtIndex, CCArrayReplaceElementsAtIndex, CCArrayInsertElementAtIndex, CCArrayInsertElementsAtIndex, CCArrayRemoveElementAtIndex, CCArrayRemoveElementsAtIndex, CCArrayRemoveAllElements", "CommonC/Array.h: CCArrayGetElementAtIndex, CCArrayGetCount"]}
{"id": "C02", "title": "Doubly linked list operations preserve link consistency and the sequence", "statement": "For every well-formed linked list (next and prev agree, no cycle) and every node in it, CCLinkedListInsert/InsertAfter/InsertBefore/Append/Prepend/RemoveNode yield lists that are again well formed, whose node sequence from head to tail is the old sequence with exactly the requested insertion or removal, and no other list's links change.", "quantifier": "all lists, all positions, all heaps containing other lists", "why_tests_cant": "Pointer surgery has to be right at head, tail, middle and singleton for every list length and every surrounding heap.", "anchors": ["CommonC/LinkedList.c: CCLinkedListInsert, CCLinkedListInsertAfter, CCLinkedListInsertBefore, CCLinkedListAppend, CCLinkedListPrepend, CCLinkedListRemoveNode, CCLinkedListRemove", "CommonC/LinkedList.h"]}
{"id": "C03", "title": "CCQueue is first-in first-out", "statement": "For every sequence of CCQueuePush and CCQueuePop calls starting from an empty queue, the nodes popped come out exactly in the order pushed, CCQueuePop returns NULL exactly when every pushed node has been popped, CCQueuePeek returns the node the next pop would return, and CCQueueGetCount is the number of nodes pushed and not yet popped.", "quantifier": "all push/pop/peek histories", "why_tests_cant": "FIFO order over arbitrary interleavings of pushes and pops is an unbounded-history property.", "anchors": ["CommonC/Queue.c: CCQueuePush, CCQueuePop, CCQueuePeek, CCQueueGetCount"]}
{"id": "C04", "title": "CCList (paged list) behaves as a sequence", "statement": "For every chunk size, page size and sequence of CCList calls with in-range indices, the observable contents equal those of a plain sequence: element i, the count, and the order of enumeration do not depend on how elements are spread over pages.", "quantifier": "all page sizes, all call sequences", "why_tests_cant": "Elements migrate across page boundaries on insert and remove; tests use one page size and a few positions.", "anchors": ["CommonC/List.c: CCListAppendElement, CCListAppendElements, CCListInsertElementAtIndex, CCListRemoveElementAtIndex, CCListReplaceElementAtIndex, CCListRemoveAllElements", "CommonC/List.h: CCListGetPage, CCListGetElementAtIndex"]}
{"id": "C05", "title": "All ordered collection implementations are interchangeable", "statement": "For every sequence of ordered-collection calls (append, prepend, insert at index, replace at index, remove at index, get at index, count), the array-backed, fast-array-backed and linked-list-backed collections return the same elements and counts, namely those of a plain sequence.", "quantifier": "all implementations, all call sequences", "why_tests_cant": "CCCollectionCreate picks an implementation from hints; callers rely on the observable behaviour not depending on that choice for any history.", "anchors": ["CommonC/CollectionArray.c", "CommonC/CollectionFastArray.c", "CommonC/CollectionList.c", "CommonC/OrderedCollection.c"]}
{"id": "C06", "title": "Collection entry handles keep denoting their element", "statement": "In the array-backed and list-backed collections, an entry returned for an element keeps denoting that same element across every later insertion and removal of other elements, until that element itself is removed; removing through the entry removes exactly that element.", "quantifier": "all operation histories, all live entries", "why_tests_cant": "Stability of handles under index shifts has to hold for every history of other operations.", "anchors": ["CommonC/CollectionArray.c: CCCollectionArrayRemove, ConvertIndexToEntry, ShiftEntriesUpAfterIndex, RemoveEntry", "CommonC/CollectionList.c", "CommonC/CollectionFastArray.c: CCCollectionFastArrayRemoveCollection"]}
{"id": "C07", "title": "A collection's element destructor runs exactly once per element", "statement": "When a collection has an element destructor, for every history ending with the collection's destruction every element that was ever inserted is passed to the destructor exactly once, whether it left by removal, replacement, remove-all or destruction.", "quantifier": "all histories, all implementations", "why_tests_cant": "Missing or double destruction only shows up on particular combinations of operation and implementation.", "anchors": ["CommonC/Collection.c: CCCollectionRemoveElement, CCCollectionRemoveAllElements, CCCollectionRemoveCollection, CCCollectionDestructor", "CommonC/CollectionFastArray.c: CCCollectionFastArrayRemoveAll"]}
{"id": "C08", "title": "Enumeration visits every element exactly once and in order", "statement": "For every container contents, moving an enumerable to the head and stepping with next until NULL yields each element once in order; from the tail with previous yields the reverse; for circular enumerables the visited addresses are the count slots starting at start, modulo the buffer size.", "quantifier": "all batch sizes, starts, counts and paged layouts", "why_tests_cant": "Off-by-one errors at batch and wrap boundaries depend on sizes.", "anchors": ["CommonC/Enumerable.h: CCEnumerableNext, CCEnumerablePrevious, CCEnumerableGetHead, CCEnumerableGetTail", "CommonC/CircularEnumerable.c", "CommonC/List.c: CCListEnumerableHandler"]}
{"id": "C09", "title": "CCHashMap is a finite map", "statement": "For every bucket count, every hash function and every key comparator that is an equivalence consistent with the hash, any sequence of set/get/remove/entry operations on the separate-chaining hash map gives the results of a finite map from key classes to values; the count is the number of keys present; the key and value listings contain each present key once, in matching order.", "quantifier": "all bucket counts, hash functions, comparators and histories", "why_tests_cant": "Collisions, tombstone reuse and bucket distribution depend on the hash; tests use a handful of keys.", "anchors": ["CommonC/HashMapSeparateChainingArray.c", "CommonC/HashMap.c"]}
{"id": "C10", "title": "Rehashing preserves contents", "statement": "CCHashMapRehash to any bucket count leaves every key's observable state (present or absent, initialised or not, value) and the count unchanged, and a dictionary that grows automatically never loses, duplicates or alters an entry.", "quantifier": "all maps and all new bucket counts", "why_tests_cant": "Depends on every possible distribution of keys, including entries that were created but not yet given a value.", "anchors": ["CommonC/HashMap.c: CCHashMapRehash", "CommonC/DictionaryHashMap.c"]}
{"id": "C11", "title": "Hash-map entry handles decode to the slot they were issued for", "statement": "Whenever a non-null CCHashMapEntry is issued for a bucket and a slot in it, decoding the entry yields exactly that bucket and slot, and different slots never share an entry; a null entry is only issued when the slot number does not fit.", "quantifier": "all bucket counts below 2^63 - 1 (no memory holds as many buckets), all bucket numbers and slot numbers below 2^64", "why_tests_cant": "The packing shifts by a width computed from the bucket count; all widths must work.", "anchors": ["CommonC/HashMapSeparateChainingArray.c: IndexToEntry, EntryToIndex"]}
{"id": "C12", "title": "Bit tricks compute their documented mathematical functions", "statement": "For every 64-bit input, CCBitLowestSet/LowestUnset/HighestSet isolate the right bit, CCBitNextPowerOf2 is the least power of two not below the input, CCBitMaskForValue is the least 2^k-1 covering it, CCBitCountSet is the population count, CCBitCountLowestUnset the number of trailing zeros, CCBitIsPowerOf2 is true exactly on powers of two, and the float power-of-two tests are true exactly on powers of two.", "quantifier": "all 2^64 integer inputs, all 2^32 / 2^64 float bit patterns", "why_tests_cant": "2^64 inputs cannot be enumerated.", "anchors": ["CommonC/BitTricks.h"]}
{"id": "C13", "title": "Bit-array range operations affect exactly the requested bits", "statement": "For every bit array, index and count inside it, CCBitsSet/Clear/Not/Or/And/Xor/Copy on a range change exactly the bits index..index+count-1 to the documented result and leave every other bit unchanged; CCBitsCount and CCBitsAny report on exactly those bits; single-bit get/set/clear/assign act on exactly one bit for every base type.", "quantifier": "all arrays, indices, counts, base widths", "why_tests_cant": "The code splits into alignment cases (head bits, 64-bit words, bytes, tail bits); every residue combination must be right.", "anchors": ["CommonC/BitsTemplate.h: CCBitsGet, CCBitsSet, CCBitsClear, CCBitsAssign, CCBitsSetRange, CCBitsClearRange, CCBitsCount, CCBitsAny, CCBitsMask, CCBitsNot, CCBitsAnd, CCBitsOr, CCBitsXor, CCBitsCopy"]}
{"id": "C14", "title": "CCBigInt addition and subtraction are exact", "statement": "For all big integers a and b (any sign, any number of limbs), after CCBigIntAddBigInt / CCBigIntSubBigInt / AddInt / SubInt / SetInt the stored value is exactly the mathematical sum, difference or value, and the representation stays canonical.", "quantifier": "all pairs of integers of any size", "why_tests_cant": "Carry and borrow chains and trimming depend on unbounded limb patterns.", "anchors": ["CommonC/BigInt.c: CCBigIntApplyAdd, CCBigIntApplySub, CCBigIntAddBigInt, CCBigIntSubBigInt, CCBigIntAddInt, CCBigIntSubInt, CCBigIntSetInt"]}
{"id": "C15", "title": "CCBigInt comparison is the integer order and hex parsing/printing round-trip", "statement": "For all big integers, the compare functions return ascending/equal/descending exactly according to the integer order, and CCBigIntSetString of the string produced by CCBigIntGetString restores the same value; parsing a hexadecimal literal gives the number it denotes.", "quantifier": "all pairs of integers; all hexadecimal literals of any length", "why_tests_cant": "Unbounded sizes; sign and zero corner cases.", "anchors": ["CommonC/BigInt.c: CCBigIntCompareBigInt, CCBigIntCompareInt, CCBigIntSetString, CCBigIntGetString"]}
{"id": "C16", "title": "CCBigIntFast agrees with CCBigInt", "statement": "For all operands, every CCBigIntFast operation yields the same integer as exact arithmetic, whether the value is held inline (tagged) or in a full big integer, including at the boundary of the inline range.", "quantifier": "all integers, all pairs of representations", "why_tests_cant": "The inline/boxed switch happens at 2^62; tests rarely sit on the boundary on both sides.", "anchors": ["CommonC/BigIntFast.h"]}
{"id": "C17", "title": "Decimal multiplication is exact or saturating", "statement": "For every 64-bit value and every decimal coefficient and exponent, CCDecimal32MultiplyU64 and CCDecimal64MultiplyU64 return floor(value * coefficient * 10^exponent) when it fits in 64 bits and UINT64_MAX otherwise (for non-negative exponents: the exact product).", "quantifier": "all 2^64 values, all coefficients and exponents", "why_tests_cant": "The product is computed in split halves with carries; the input space is far too large.", "anchors": ["CommonC/Decimal.h: CCDecimal32MultiplyU64, CCDecimal64MultiplyU64"]}
{"id": "C18", "title": "CCRandomRangei stays in range and reaches every value", "statement": "For every min <= max and every output of the underlying generator, CCRandomRangei(min, max) returns a value between min and max inclusive without overflow, and every value of the range is produced by some generator output.", "quantifier": "all int32 pairs min <= max, all generator outputs", "why_tests_cant": "2^96 combinations; the negative-remainder branch matters only for some.", "anchors": ["CommonC/Random.h: CCRandomRangei"]}
{"id": "C19", "title": "xorshift generator has full period; xorwow never loses state", "statement": "From every non-zero seed CCRandom_xorshift visits every non-zero 32-bit value exactly once before repeating (period 2^32-1), never yields 0, and seeding with any value gives a non-zero state; CCRandom_xorwow's state transition is injective and its four-word part never becomes all zero, and it never returns to an earlier state in fewer than 2^32 calls.", "quantifier": "all seeds, all numbers of steps", "why_tests_cant": "Requires all seeds and 2^32-step orbits.", "anchors": ["CommonC/Random.c: CCRandom_xorshift, CCRandomSeed_xorshift, CCRandom_xorwow, CCRandomSeed_xorwow"]}
{"id": "C20", "title": "Reflection minimum/maximum validators compare integers correctly", "statement": "For integer fields of any byte size, signedness and endianness, CCReflectValidateMinimum accepts exactly the values >= the minimum and CCReflectValidateMaximum exactly the values <= the maximum, where value and bound may differ in size, sign and endianness.", "quantifier": "all byte strings of all sizes for value and bound", "why_tests_cant": "Cross-size, cross-endian, cross-sign comparison over unbounded sizes.", "anchors": ["CommonC/ValidateMinimum.c: CCReflectValidateMinimum", "CommonC/ValidateMaximum.c: CCReflectValidateMaximum"]}
{"id": "C21", "title": "Range predicates agree with interval arithmetic", "statement": "For all integer ranges, CCRangeContains, CCRangeIntersects and CCRangeGetIntersection agree with the closed-interval meaning of start and length: containment, having a common point, and the set of common points; no result depends on overflow.", "quantifier": "all pairs of ranges", "why_tests_cant": "Four unbounded parameters; end points computed by addition.", "anchors": ["CommonC/RangeTemplate.h: CCRangeContains, CCRangeIntersects, CCRangeGetIntersection"]}
{"id": "C22", "title": "Circular memory reads and writes round-trip in every byte order", "statement": "For every memory size, offset and count not above the size, CCMemoryWrite followed by CCMemoryRead at the same offset returns the written bytes and touches only those bytes (modulo the size); the swapped/big/little variants store and load values in the stated byte order; CCSwap reverses the bytes and is its own inverse.", "quantifier": "all sizes, offsets, counts, value widths and contents", "why_tests_cant": "Wrap-around and element-width residues.", "anchors": ["CommonC/MemoryTemplate.h", "CommonC/DataMemoryTemplate.h", "CommonC/Swap.h"]}
{"id": "C23", "title": "Data hashes do not depend on how the data is mapped", "statement": "For every byte sequence and every preferred map size >= 1 of the underlying data object, CCHashJenkins32 and CCHashMurmur32 return the same value, namely the standard one-at-a-time and MurmurHash3 x86_32 (seed 0) hash of the whole byte sequence.", "quantifier": "all byte sequences, all map sizes", "why_tests_cant": "Chunk boundaries relative to 4-byte blocks.", "anchors": ["CommonC/Hash.c: CCHashJenkins32, CCHashMurmur32"]}
{"id": "C24", "title": "CCDataGetHash reflects the current contents", "statement": "For every history of reads, writes, maps, resizes and hash requests on a data object, CCDataGetHash returns the hash of the data's current contents.", "quantifier": "all operation histories", "why_tests_cant": "A cached value guarded by a dirty flag must be invalidated on every path.", "anchors": ["CommonC/Data.c: CCDataGetHash, CCDataUnmapBuffer, CCDataReadBuffer, CCDataWriteBuffer, CCDataSetSize"]}
{"id": "C25", "title": "Chunked data transfer equals direct transfer", "statement": "For every data object that must be mapped in pieces, CCDataReadBuffer, CCDataWriteBuffer, CCDataCopyBuffer and CCDataFillBuffer move exactly the requested bytes for every offset, size and preferred map size and change no others; for container-backed data the container's elements change only within the written byte range.", "quantifier": "all offsets, sizes, map sizes, element sizes and contents", "why_tests_cant": "Piecewise loops and partial elements at both ends.", "anchors": ["CommonC/Data.c: CCDataReadBuffer, CCDataWriteBuffer, CCDataCopyBuffer, CCDataFillBuffer", "CommonC/DataContainer.c: CCDataContainerMapBuffer, CCDataContainerUnmapBuffer"]}
{"id": "C26", "title": "Short (tagged) strings behave like their characters", "statement": "For every character sequence that is stored inline in the string reference, length, size, character at index, substring, insertion, range removal, equality, substring search, prefix and suffix tests give the results of the same operations on the character sequence, and equal sequences compare equal whichever character map they were packed with.", "quantifier": "all storable character sequences, all indices, all pairs of strings", "why_tests_cant": "Packed bit manipulation with three bit widths; every length and position must be right.", "anchors": ["CommonC/CCString.c: CCStringCreateTagged, CCStringGetLength, CCStringGetSize, CCStringGetCharacterAtIndex, CCStringCopySubstring, CCStringCreateByInsertingString, CCStringCreateWithoutRange, CCStringFindSubstring, CCStringHasPrefix, CCStringHasSuffix, CCStringEqual"]}
{"id": "C27", "title": "UTF-8 strings enumerate the encoded code points in both directions", "statement": "For every sequence of non-zero Unicode scalar values, encoding it as UTF-8 and then asking for its length, its characters by index, or enumerating forwards, backwards or in any mixture of next and previous steps gives the code points of the sequence.", "quantifier": "all scalar value sequences, all step sequences", "why_tests_cant": "Variable-width boundaries and direction switches, over unbounded strings.", "anchors": ["CommonC/CCString.c: CCStringGetCharacterUTF8, CCStringCopyCharacterUTF8, CCStringGetPreviousCodepointUTF8, CCStringGetLengthUTF8, CCStringEnumerator"]}
{"id": "C28", "title": "String search, replace, split and join obey the usual laws", "statement": "CCStringFindSubstring returns the least position at or after the start index where the substring occurs (or SIZE_MAX); replacing occurrences is left-to-right and non-overlapping; splitting by a separator and joining with it restores the string and no piece contains the separator.", "quantifier": "all strings, separators, replacements and start indices", "why_tests_cant": "Unbounded strings with self-overlapping patterns.", "anchors": ["CommonC/CCString.c: CCStringFindSubstring, CCStringCreateByReplacingOccurrencesOfString, CCStringCreateBySeparatingOccurrencesOfString, CCStringCreateByJoiningStrings"]}
{"id": "C29", "title": "Paths survive parsing and printing", "statement": "For every path made of an optional volume, optional root, directories, parent/current references and an optional file with extensions, FSPathCreate of the path's printed string yields the same components; parsing never drops characters of the input other than redundant separators.", "quantifier": "all component lists, all input strings", "why_tests_cant": "A hand-written state machine over unbounded strings.", "anchors": ["CommonC/Path.c: FSPathConvertPathToComponents, FSPathCreateComponent, FSPathCreatePathStringCache, FSPathGetPathString"]}
{"id": "C30", "title": "Path matching is suffix matching of components", "statement": "FSPathMatch(left, right, options) is true exactly when the component sequence of one path matches a tail of the other under the chosen options (wildcards, case sensitivity).", "quantifier": "all pairs of paths and all options", "why_tests_cant": "Unbounded component lists and option combinations.", "anchors": ["CommonC/Path.c: FSPathMatch"]}
{"id": "C31", "title": "Aligned allocations are aligned, in bounds and preserve data on resize", "statement": "For every power-of-two alignment, every size and every address returned by the system allocator, the pointer handed to the user is a multiple of the alignment, the header and the user block lie inside the system block, and reallocation preserves the first min(old, new) bytes wherever the block moves.", "quantifier": "all alignments, sizes and base addresses", "why_tests_cant": "Address arithmetic over all residues; tests see only the addresses malloc happens to return.", "anchors": ["CommonC/Allocator.c: AlignedAllocator, AlignedReallocator, AlignedDeallocator", "CommonC/Alignment.h", "CommonC/MemoryAllocation.c"]}
{"id": "C32", "title": "Reference-counted memory is destroyed exactly once, when the last reference is released", "statement": "For every interleaving of CCRetain and CCFree by any number of threads that each release only references they hold, the destructor and the deallocator run exactly once, after the last release and never while a reference is held.", "quantifier": "all thread counts and interleavings, all retain/free histories", "why_tests_cant": "Concurrent schedules cannot be enumerated by tests.", "anchors": ["CommonC/Allocator.c: CCMemoryAllocate, CCMemoryRetain, CCMemoryDeallocate", "CommonC/MemoryAllocation.h: CCRetain, CCFree"]}
{"id": "C33", "title": "Pool allocator never hands out a live block twice", "statement": "For every history of allocations and frees on a pool of max blocks, blocks handed out and not yet freed are pairwise distinct and inside the pool, allocation fails exactly when the request is too large or all max blocks are live, and freed blocks become available again.", "quantifier": "all pool sizes and histories", "why_tests_cant": "Depends on every interleaving of allocations and frees.", "anchors": ["CommonC/Allocator.c: PoolAllocator, PoolReallocator, PoolDeallocator", "CommonC/PoolAllocator.c", "CommonC/PoolAllocator.h"]}
{"id": "C34", "title": "Memory zone allocations are disjoint and restored exactly", "statement": "For every block size and every sequence of allocate, aligned allocate, save, restore and deallocate on a memory zone, live allocations are pairwise disjoint and inside their blocks, aligned allocations are aligned, and restoring to a saved point leaves exactly the allocations that were live at the save.", "quantifier": "all block sizes, request sequences and nesting of saves", "why_tests_cant": "Unbounded histories crossing block boundaries.", "anchors": ["CommonC/MemoryZone.c: CCMemoryZoneAllocate, CCMemoryZoneAlignedAllocate, CCMemoryZoneDeallocate, CCMemoryZoneSave, CCMemoryZoneRestore"]}
{"id": "C35", "title": "Concurrent ID generator never issues one ID twice at the same time", "statement": "For every capacity and every interleaving of assign, try-assign and recycle by any number of threads, no two holders have the same ID at the same time, every issued ID is below the capacity, and an ID is available again after it is recycled; try-assign fails only after having seen every ID taken.", "quantifier": "all capacities, thread counts and interleavings", "why_tests_cant": "Schedules of lock-free code.", "anchors": ["CommonC/ConsecutiveIDGenerator.c", "CommonC/ConcurrentIDGenerator.c"]}
{"id": "C36", "title": "Concurrent buffer hands each datum to at most one owner", "statement": "For every interleaving of CCConcurrentBufferWriteData and ReadData by any number of threads, every datum written is either still in the buffer, or has been returned by exactly one read, or has been destroyed exactly once by a later write or by the buffer's destruction; a read returns the most recently written datum not yet taken.", "quantifier": "all interleavings and histories", "why_tests_cant": "Schedules of lock-free code.", "anchors": ["CommonC/ConcurrentBuffer.c: CCConcurrentBufferWriteData, CCConcurrentBufferReadData, CCConcurrentBufferWriteDataSwap"]}
{"id": "C37", "title": "Concurrent index buffer gives each index a single owner", "statement": "For every interleaving of write-acquire, stage, read-acquire and discard by any number of threads, each index is at any moment owned by exactly one of: the free pool, one writer, the staging slot, one reader; staging over an unread index returns that index to the pool.", "quantifier": "all capacities, thread counts and interleavings", "why_tests_cant": "Schedules of lock-free code.", "anchors": ["CommonC/ConcurrentIndexBuffer.c"]}
{"id": "C38", "title": "Swap buffer never lets reader and writer touch the same slot and never returns stale data", "statement": "For one writer and one reader in any interleaving, the slot being written is never the slot being read, a read returns the value most recently published before it (or the previously read one if nothing new), and values are observed in publication order.", "quantifier": "all interleavings of writer and reader, all histories", "why_tests_cant": "Schedules of lock-free code.", "anchors": ["CommonC/ConcurrentSwapBufferTemplate.h"]}
{"id": "C39", "title": "Concurrent circular buffer is a bounded FIFO", "statement": "For one producer and one consumer in any interleaving, the items released by the consumer are exactly the items added, in order, with none lost, duplicated or overwritten before release; adding fails only when Tmax-1 items are unreleased.", "quantifier": "all capacities, interleavings and batch sizes", "why_tests_cant": "Schedules of lock-free code and all wrap positions.", "anchors": ["CommonC/ConcurrentCircularBufferTemplate.h"]}
{"id": "C40", "title": "Concurrent pool delivers each committed item exactly once, in order", "statement": "For one producer and any number of consumers in any interleaving, with at most Tmax items outstanding, each committed item is popped by exactly one consumer, in commit order, and staged but uncommitted items are never popped, for histories of any length.", "quantifier": "all capacities, consumer counts, interleavings and history lengths", "why_tests_cant": "Schedules of lock-free code and 2^32 counter wrap.", "anchors": ["CommonC/ConcurrentPoolTemplate.h"]}
{"id": "C41", "title": "Shared resource readers never see a recycled slot", "statement": "For any number of threads calling Get and Set in any interleaving, a Get returns the datum that was current at some moment during the call, that datum has not been destroyed before the reader has taken its own share, and every replaced datum is destroyed exactly once.", "quantifier": "all slot counts, thread counts and interleavings", "why_tests_cant": "Schedules of lock-free code with packed counters.", "anchors": ["CommonC/ConcurrentSharedResourceTemplate.h"]}
{"id": "C42", "title": "Lazy garbage collector reclaims safely and exactly once", "statement": "For every interleaving of begin, manage and end by any number of threads, an item handed to the collector is reclaimed at most once, never while a thread that was inside a begin/end section when the item was handed over is still inside it, and once no thread is inside a section every handed-over item of finished sections has been reclaimed.", "quantifier": "all thread counts and interleavings", "why_tests_cant": "Schedules of lock-free code.", "anchors": ["CommonC/LazyGarbageCollector.c"]}
{"id": "C43", "title": "Epoch garbage collector reclaims safely and exactly once", "statement": "For every interleaving of begin, manage and end by any number of threads, an item handed to the collector is reclaimed at most once and never while a thread that was inside a section when the item was handed over is still inside it.", "quantifier": "all thread counts and interleavings", "why_tests_cant": "Schedules of lock-free code with a three-slot epoch ring.", "anchors": ["CommonC/EpochGarbageCollector.c"]}
{"id": "C44", "title": "Concurrent queue is a linearizable FIFO", "statement": "For every interleaving of push and pop by any number of threads, each pushed node is popped at most once, nodes are popped in the order their pushes took effect, and a pop returning NULL happened at a moment when the queue was empty.", "quantifier": "all thread counts and interleavings", "why_tests_cant": "Schedules of lock-free code.", "anchors": ["CommonC/ConcurrentQueue.c: CCConcurrentQueuePush, CCConcurrentQueuePop, CCConcurrentQueueFixList"]}
{"id": "C45", "title": "Concurrent index map behaves as a sequence of optional elements", "statement": "For every sequence of append, insert, replace, replace-exactly, get and remove, the index map's observable contents equal those of a plain sequence (count, element at index, success flags), and concurrent replace-exactly calls on an element succeed at most once per observed value.", "quantifier": "all chunk sizes, histories and interleavings", "why_tests_cant": "Copy-on-write resizing with skip/extra slots over all counts.", "anchors": ["CommonC/ConcurrentIndexMap.c"]}
{"id": "C46", "title": "A task reports finished only when no execution is in progress and at least one has completed", "statement": "For every interleaving of CCTaskRun by any number of threads, CCTaskIsFinished is true exactly when at least one run has completed and none is in progress; CCTaskWait and CCTaskGetResult therefore return only after the function has run to completion.", "quantifier": "all thread counts and interleavings", "why_tests_cant": "Schedules.", "anchors": ["CommonC/Task.c: CCTaskRun, CCTaskIsFinished, CCTaskWait, CCTaskGetResult"]}
{"id": "C47", "title": "A serial task queue never has two tasks outstanding", "statement": "For every interleaving of pushes, pops and task runs on a serially executing task queue, where each task is pushed once and run only after a pop returned it, a pop returns a task only after every previously popped task has finished, tasks are popped in push order and each pushed task is popped at most once.", "quantifier": "all thread counts and interleavings", "why_tests_cant": "Schedules.", "anchors": ["CommonC/TaskQueue.c: CCTaskQueuePush, CCTaskQueuePop, CCTaskQueueIsEmpty"]}
{"id": "C48", "title": "CCMin, CCMax and CCClamp pick the right bound", "statement": "For all integers, CCMin and CCMax return the smaller and larger argument, and CCClamp returns the value of the closed range between the bounds that is nearest to its argument.", "quantifier": "all argument values", "why_tests_cant": "Three unbounded parameters.", "anchors": ["CommonC/ExtremaTemplate.h: CCMin, CCMax, CCClamp"]}
{"id": "C49", "title": "A string created with an explicit size has exactly the characters within that size", "statement": "For every buffer and every size that ends at a character boundary, the string CCStringCreateWithSize returns has exactly the characters encoded in the first size bytes: length, characters, comparisons and searches see nothing behind them.", "quantifier": "all buffers, sizes, encodings and ownership hints", "why_tests_cant": "Unbounded buffer contents behind the size.", "anchors": ["CommonC/CCString.c: CCStringCreateWithSize, CCStringGetLength"]}
{"id": "C50", "title": "The hash of a string depends only on its characters", "statement": "Two strings with the same characters have the same CCStringGetHash, whether they are inline, constants or in memory, in either encoding, with any registered character maps.", "quantifier": "all strings and representations", "why_tests_cant": "All pairs of representations of all strings.", "anchors": ["CommonC/CCString.c: CCStringGetHash"]}
{"id": "C51", "title": "Enumerating a string visits exactly its characters", "statement": "For every string in any representation and every sequence of head, tail, next, previous and current calls that stays within the documentation, the enumerator gives the characters and indices of the corresponding walk over the character sequence, and 0 past the ends.", "quantifier": "all strings, representations and call sequences", "why_tests_cant": "Unbounded strings and call sequences.", "anchors": ["CommonC/CCString.c: CCStringGetEnumerator, CCStringEnumeratorNext, CCStringEnumeratorPrevious", "CommonC/CCStringEnumerator.h: CC_STRING_FOREACH"]}
{"id": "C52", "title": "The strings a path gives are those of its components", "statement": "After any sequence of changes to a path's components and requests for its strings, FSPathGetFullPathString, FSPathGetPathString and FSPathGetFilenameString return the text of the components the path has then (the full string relative to the current path, or with its volume when the path has none), and nothing is written outside the buffer made for them.", "quantifier": "all component lists, call histories and current paths", "why_tests_cant": "Unbounded histories; the strings are cached.", "anchors": ["CommonC/Path.c: FSPathCreatePathStringCache, FSPathGetFullPathString, FSPathGetPathString, FSPathGetFilenameString, FSPathMutated"]}
{"id": "C53", "title": "A string obtained from a path stays valid until the path is changed", "statement": "A string returned by FSPathGetFullPathString, FSPathGetPathString or FSPathGetFilenameString can be read, and stays the same, until the components of the path are changed.", "quantifier": "all paths and all sequences of requests", "why_tests_cant": "Unbounded histories; a request may rebuild the cache.", "anchors": ["CommonC/Path.c: FSPathCreatePathStringCache, FSPathGetFullPathString, FSPathGetFilenameString"]}
{"id": "C54", "title": "An insertion into a collection that returns NULL changed nothing", "statement": "After every history, an insertion (insert, insert at index, append, prepend, replace at index) that runs out of memory returns NULL, and then the collection's elements, their order and their entries are as before and no destructor was called.", "quantifier": "all implementations, histories, insertions and failing allocations", "why_tests_cant": "Every history times every failing allocation.", "anchors": ["CommonC/CollectionArray.c: ConvertIndexToEntry, CCCollectionArrayInsert", "CommonC/CollectionFastArray.c: CCCollectionFastArrayInsert", "CommonC/CollectionList.c: CCCollectionListInsert", "CommonC/OrderedCollection.c: CCOrderedCollectionReplaceElementAtIndex"]}
{"id": "C55", "title": "CCCollectionCreate picks the best rated registered implementation", "statement": "After any sequence of registrations and deregistrations, CCCollectionCreate uses a registered implementation that supports ordering if the hint asks for it and that no other such registered implementation rates strictly higher, the most recently registered one among equals (ratings are above INT_MIN); CCCollectionHintWeightCreate never overflows and never exceeds CCCollectionHintWeightMax, so an implementation that rates itself above it is chosen over the built-in ones.", "quantifier": "all hints, hint sets, registries and histories", "why_tests_cant": "Hints are 32-bit words and registries unbounded.", "anchors": ["CommonC/Collection.c: CCCollectionCreate, CCCollectionHintWeightCreate, CCCollectionRegisterInterface, CCCollectionDeregisterInterface"]}
{"id": "C56", "title": "The hash map implementations are interchangeable", "statement": "For every hasher, comparator consistent with it, number of buckets and sequence of calls, the three separate chaining implementations of CCHashMap (interleaved, data-oriented hash, data-oriented all) return the same results (entries included), fail on the same calls, and enumerate the same keys and values in the same order.", "quantifier": "all keys, values, hash functions, bucket counts and call sequences", "why_tests_cant": "Unbounded call sequences, any hash function.", "anchors": ["CommonC/HashMapSeparateChainingArrayDataOrientedHash.c: CCHashMapSeparateChainingArrayDataOrientedHashInterface", "CommonC/HashMapSeparateChainingArrayDataOrientedAll.c: CCHashMapSeparateChainingArrayDataOrientedAllInterface", "CommonC/HashMapSeparateChainingArray.c: CCHashMapSeparateChainingArrayInterface"]}
{"id": "C57", "title": "A dictionary is a finite map that destroys each key and value once", "statement": "For every program over the dictionary interface, with any combination of destructors, every call returns what a finite map from keys to values gives, the value destructor is called exactly once on every value stored (when it is replaced or removed, or when the dictionary is destroyed) and the key destructor exactly once on every key added, and no destructor gets anything else.", "quantifier": "all programs, key and value types, hash functions and moments at which the table grows", "why_tests_cant": "Unbounded programs, with growth at any point.", "anchors": ["CommonC/Dictionary.c: CCDictionaryDestroy, CCDictionarySetEntry, CCDictionaryRemoveEntry, CCDictionarySetValue, CCDictionaryRemoveValue", "CommonC/DictionaryHashMap.c: CCDictionaryHashMapEntryForKey, CCDictionaryHashMapSetValue"]}
{"id": "C58", "title": "A dictionary entry stays the entry of its key", "statement": "An entry obtained from CCDictionaryFindKey or CCDictionaryEntryForKey refers to that key, and reads and writes its value, until the key is removed.", "quantifier": "all programs between obtaining and using the entry", "why_tests_cant": "Other insertions may grow the table at any point in between.", "anchors": ["CommonC/Dictionary.c: CCDictionaryFindKey, CCDictionaryEntryForKey, CCDictionaryGetEntry", "CommonC/DictionaryHashMap.c: CCDictionaryHashMapEntryForKey"]}
{"id": "C59", "title": "A run-length encoding stream is transparent", "statement": "Whatever is written through CCReflectStreamRLEWrite and its continue and flush operations, in whatever pieces, is read back unchanged through CCReflectStreamRLERead with the same configuration, in whatever pieces, and the reader consumes exactly the bytes the writer produced.", "quantifier": "all byte sequences, ways to cut them into calls, masks and count sizes", "why_tests_cant": "Unbounded data and call sequences; run lengths up to 2^56.", "anchors": ["CommonC/ReflectStream.c: CCReflectStreamRLEWrite, CCReflectStreamRLEWriteContinue, CCReflectStreamRLEWriteFlush, CCReflectStreamRLERead, CCReflectStreamRLEReadContinue"]}
{"id": "C60", "title": "A serialised integer is read back as the same number", "statement": "An integer written by the binary serialisation from memory of one size and byte order, and read into memory of another, is the same number, or the nearest one when the reader cannot hold it, and the reader consumes exactly the bytes written, for fixed and for variable-length integers.", "quantifier": "all integers, sizes, byte orders, signedness and length settings", "why_tests_cant": "2^64 numbers times sizes and byte orders.", "anchors": ["CommonC/Reflect.c: CCReflectSerializeBinaryVariableLengthIntegerValue, CCReflectDeserializeBinaryVariableLengthIntegerValue, CCReflectSerializeBinaryIntegerValue, CCReflectDeserializeBinaryIntegerValue"]}
{"id": "C61", "title": "A serialised value of a reflected type is read back as the same value", "statement": "For every reflected type (integers, floats, structs, arrays, pointers, validated types and enumerables, nested in any way, recursive ones included) and every value of it, CCReflectDeserialize applied to what CCReflectSerialize wrote gives the same value and consumes exactly the bytes written.", "quantifier": "all types, values, byte orders and streams that follow", "why_tests_cant": "Types and values are unbounded trees.", "anchors": ["CommonC/Reflect.c: CCReflectSerializeBinary, CCReflectDeserializeBinary"]}
{"id": "C62", "title": "A serialised type is read back as the same type", "statement": "The description of a reflected type that the binary serialisation writes, recursive and shared types included, is read back as a type with the same structure: the types that both sides look up are the looked-up ones, every other one is described again once, and reading consumes exactly the bytes written. A value serialised with its type is read back with the type that was read.", "quantifier": "all types (graphs of descriptors), lookups, and streams that follow", "why_tests_cant": "Types are unbounded graphs, with cycles.", "anchors": ["CommonC/Reflect.c: CCReflectSerializeBinaryType, CCReflectDeserializeBinaryType, CCReflectSerializeBinaryTypeData, CCReflectDeserializeBinaryTypeData, CCReflectSerializeBinaryTypeLookup"]}
{"id": "C63", "title": "A copied value has the same contents and objects of its own", "statement": "CCReflectCopy gives a value with the same contents. Transferring hands the pointers over and touches nothing else. Sharing takes a reference to every retained object and copies the owned ones; copying copies both; weak pointers are kept, or copied when asked. Every object made belongs to exactly one pointer of the copy, the source and its objects keep their contents, and what later happens to the one value does not affect the other.", "quantifier": "all types, values, object graphs and kinds of assignment", "why_tests_cant": "Values are unbounded graphs of objects.", "anchors": ["CommonC/Reflect.c: CCReflectCopy", "CommonC/Reflect.h: CCReflectAssignment"]}
{"id": "C64", "title": "File handles act on the file as on a sequence of bytes", "statement": "Reading gives the bytes at the handle's offset, as many as asked for or as there are; overwriting replaces the bytes at the offset and extends the file when it reaches its end; inserting puts the data before the bytes at the offset and keeps all others in order; removing takes out exactly the bytes asked for. The offset afterwards is the one the chosen behaviour says, the variants that take an offset act there, and an operation the handle was not opened for changes nothing.", "quantifier": "all file contents, data, offsets, counts, block sizes and handle types", "why_tests_cant": "Files and data have any length, and the copying works in blocks.", "anchors": ["CommonC/FileHandle.c: FSHandleRead, FSHandleReadFromOffset, FSHandleWrite, FSHandleWriteFromOffset, FSHandleRemove, FSHandleRemoveFromOffset, FSHandleSetOffset"]}
{"id": "C65", "title": "Virtual files behave as regular ones", "statement": "An operation on a handle to a virtual file gives the same result, contents and offset as the operation on a regular file with the same contents.", "quantifier": "all file contents, data, offsets, counts and handle types", "why_tests_cant": "Files and data have any length.", "anchors": ["CommonC/FileHandle.c: FSHandleVirtualRead, FSHandleVirtualWrite, FSHandleVirtualRemove"]}
{"id": "C66", "title": "A copied file has the contents of its source", "statement": "When FSManagerCopy of a file succeeds, the destination has the contents of the source, whether or not there was a file before.", "quantifier": "all file contents, destinations and block sizes", "why_tests_cant": "The copy works in blocks, for files of any length.", "anchors": ["CommonC/FileSystem.c: FSManagerCopyItem, FSManagerCopy"]}
{"id": "C67", "title": "The lock of virtual files excludes writers from readers and from each other", "statement": "Whatever the threads do that read and write virtual files, a thread that holds the lock for writing is the only one that holds it, what the lock protects does not change while a thread holds it for reading, no assertion fails, and when nobody holds the lock the next thread to ask for reading gets it, and the next for writing if nobody waits for reading.", "quantifier": "all interleavings of fewer than 2^31 threads", "why_tests_cant": "Schedules are unbounded.", "anchors": ["CommonC/FileSystem_Private.h: FSVirtualReadLock, FSVirtualReadUnlock, FSVirtualWriteLock, FSVirtualWriteUnlock"]}
{"id": "C68", "title": "The virtual volume is a tree of directories and files", "statement": "A path on the virtual volume exists exactly when there is a directory, or for the path of a file a file, at the place it names. Creating a path makes it exist, with its intermediate directories if asked for, fails when a file is in the way or the parent is missing, and changes nothing else. Removing a path removes it with what is in it and nothing else. \"..\" leads to the parent directory, and relative paths lead on from the current path.", "quantifier": "all volumes, paths and current paths", "why_tests_cant": "Trees and paths of any shape; every other path must be unaffected.", "anchors": ["CommonC/FileSystem.c: FSManagerVirtualNodeOp, FSManagerVirtualExists, FSManagerVirtualCreate, FSManagerVirtualRemove", "CommonC/FileSystem.h: FSManagerExists, FSManagerCreate, FSManagerRemove"]}
{"id": "C69", "title": "Listing a directory gives exactly the entries asked for", "statement": "FSManagerGetContentsAtPath of a directory on the virtual volume gives the path of every file and directory in it (and below it, when recursive) that the names and options ask for, each once, and no other path; and NULL when there are none.", "quantifier": "all volumes that creating, removing and writing lead to, directories, names and options", "why_tests_cant": "Volumes are trees of any shape, with any names; a listing must be complete and have nothing twice.", "anchors": ["CommonC/FileSystem.c: FSManagerVirtualGetContentsAtPath, FSManagerVirtualAddContentsInPath", "CommonC/FileSystem.h: FSManagerGetContentsAtPath"]}
{"id": "C70", "title": "Copies and moves on the virtual volume keep everything", "statement": "Copying a file or directory on the virtual volume makes the destination the same as the source, with everything in it, and changes nothing else; moving it does that and leaves nothing at the source; what fails changes nothing, and what succeeds loses nothing.", "quantifier": "all volumes, sources and destinations", "why_tests_cant": "Directories are trees of any depth and width; every other path must be unaffected.", "anchors": ["CommonC/FileSystem.c: FSManagerVirtualCopy, FSManagerVirtualMove", "CommonC/FileSystem.h: FSManagerCopy, FSManagerMove"]}
{"id": "C71", "title": "Equal keys have equal hashes", "statement": "The hash callbacks the library offers for dictionary keys agree with its comparators: two big integers, two fast big integers (held inline or not) or two strings that the comparator calls equal have the same hash, under the full and the low hasher. So a dictionary with such keys is a map from integers or from character sequences, and finds a value again under any key of the same value.", "quantifier": "all big integers, fast big integers and strings, in every representation, all programs of dictionary calls, size hints and load-factor tests", "why_tests_cant": "The same value has many representations (inline, one component, several; inline or stored strings) and a disagreement shows only when two of them meet as keys.", "anchors": ["CommonC/TypeCallbacks.c: CCBigIntHasher, CCBigIntFastHasher, CCBigIntLowHasher, CCBigIntFastLowHasher, CCStringHasher, CCStringComparator, CCBigIntComparator, CCBigIntFastComparator"]}
{"id": "C72", "title": "The bounds checking allocator notices writes outside of an allocation", "statement": "A program that writes only inside an allocation of CC_BOUNDS_CHECK_ALLOCATOR never sets off its check, and finds its bytes again after every resize. When any of the bytes just before or just after the allocation has been changed, the next resize and the deallocation say so.", "quantifier": "all memories, addresses, sizes, resizes and writes of any bytes anywhere", "why_tests_cant": "Any byte at any distance may be overwritten, after any history of resizes.", "anchors": ["CommonC/Allocator.c: BoundsCheckAllocator, BoundsCheckReallocator, BoundsCheckDeallocator, CCMemoryAllocate, CCMemoryReallocate, CCMemoryDeallocate"]}
{"id": "C73", "title": "Allocations in a memory zone can be resized like any others", "statement": "An allocation made with CC_ZONE_ALLOCATOR or CC_AUTORELEASE_ALLOCATOR is aligned for every type, has memory of its own inside the zone, apart from every other allocation in it, and keeps its bytes while others are made, resized and freed. CCReallocate gives it the new size with the common bytes kept.", "quantifier": "all block sizes, addresses and programs of allocations, writes, resizes and deallocations in one zone, together with plain allocations in it", "why_tests_cant": "Whether a resize works in place, within the block or into a new one depends on the whole history of the zone.", "anchors": ["CommonC/Allocator.c: ZoneAllocator, ZoneReallocator, ZoneDeallocator, AutoreleaseAllocator, AutoreleaseReallocator, AutoreleaseDeallocator", "CommonC/MemoryZone.h: CCMemoryZoneGetBlockForPointer"]}
{"id": "C74", "title": "The debug allocator tracks exactly the live allocations", "statement": "CCDebugAllocatorIsTracking answers whether the program has that allocation: every allocation made with CC_DEBUG_ALLOCATOR is tracked, once, from when the call that made it returns until it is freed, under its new pointer and place after a resize, and nothing else is. This holds with any number of threads. When no call is in progress CCDebugAllocatorPrint lists exactly those allocations, each once, under its file and with its line.", "quantifier": "all interleavings of any number of threads that allocate, resize, free and ask, and all pointers malloc and realloc may give", "why_tests_cant": "The outcome depends on how the searches of several threads through the list interleave and on which addresses are reused.", "anchors": ["CommonC/DebugAllocator.c: CCDebugAllocatorTrack, CCDebugAllocatorTrackReplaced, CCDebugAllocatorUntrack, CCDebugAllocatorIsTracking, CCDebugAllocatorPrint", "CommonC/Allocator.c: DebugAllocator, DebugReallocator, DebugDeallocator"]}
{"id": "C75", "title": "Allocations go to the allocator that was named, and stay with it", "statement": "CC_ALLOCATORS uses its allocators in order, one allocation each and the last for all that remain, nested lists included, and resizing memory uses none up. Memory is only ever resized and freed by the allocator that made it, whatever allocator CCReallocate is given, and the data of an allocator is only passed to that allocator. Sizes too large for the header are refused. Memory of CC_STATIC_ALLOC can be resized up to the size of its type and freed.", "quantifier": "all nestings of lists of allocators, all programs of allocations, resizes, retains and frees with them, all results of the allocators' functions, all sizes and alignments of static types", "why_tests_cant": "Which allocator is next depends on the whole history, and on the nesting of the lists.", "anchors": ["CommonC/Allocator.c: CCMemoryAllocate, CCMemoryReallocate, CCMemoryDeallocate, CCAllocatorAdd, StaticReallocator", "CommonC/Allocator.h: CC_ALLOCATORS, CC_STATIC_ALLOC, CC_STATIC_ALLOC_BSS"]}
{"id": "C76", "title": "Custom format specifiers show what they say", "statement": "CCGetFormatSpecifierInfo reads the flags, width, precision and length of any specifier as they are written. %B shows the bits of its argument with the width, precision and flags it has, %[count separator]\u2026 shows that many elements of an array as the specifier after it would, each apart by the separator, %DEL removes what was written before, and %S shows a string. Each takes exactly its own arguments, and leaves the specifiers of printf alone.", "quantifier": "all specifiers (flags, widths, precisions, lengths), arguments, arrays of any length, and texts before and after", "why_tests_cant": "Flags, widths and precisions combine freely, arrays and separators have any length.", "anchors": ["CommonC/Logging.c: CCGetFormatSpecifierInfo", "CommonC/CustomFormatSpecifiers.c: CCBinaryFormatSpecifier, CCArrayFormatSpecifier, CCDeletionFormatSpecifier, CCStringFormatSpecifier"]}
{"id": "C77", "title": "Log messages are complete and in order", "statement": "CCLog gives a message with the tag, file, line and function it was called with, followed by what printf would make of the format and its arguments, where the specifiers of the registered filters are replaced by what the first filter that takes them writes, and then changed by the message filters in turn. However long any part is, nothing is cut off and no memory outside the message is written. Filters do not affect messages that do not use their specifiers.", "quantifier": "all formats, arguments, headings, specifier and message filters, and lengths of what they write", "why_tests_cant": "The message's memory grows in steps as filters write any amount at any place in the format.", "anchors": ["CommonC/Logging.c: CCLogv, MessageBufferWrite, MessageBufferRemove, CCLogAddFilter, CCGetFormatSpecifierInfo"]}
{"id": "C78", "title": "File names in the log are shortened once and messages are not repeated", "statement": "With CCFileFilterInput registered, once or several times, every call of CCLog with a file name or without one gives exactly one message. Its file name is the one of the call with the added paths removed from its front, the last added first, until none is there.", "quantifier": "all sets of added paths, file names and lists of input filters", "why_tests_cant": "The filter logs again from inside of the logging, as often as a path is found; paths may be prefixes of each other or be repeated in the name.", "anchors": ["CommonC/CustomInputFilters.c: CCFileFilterInput, CCFileFilterInputAddPath", "CommonC/Logging.c: CCLogv"]}
{"id": "C79", "title": "Reflected big integers come back as the integers they were", "statement": "A CCBigInt or CCBigIntFast that is mapped by its reflected type, with any intent (transfer, share, copy, serialize, display, inspect), and unmapped again stands for the same integer, and works like it in every call.", "quantifier": "all integers of any size and sign, in both representations, and all intents", "why_tests_cant": "Integers have any number of components; what is serialized is shifted by a bit across all of them to make room for the sign.", "anchors": ["CommonC/ReflectedTypes.c: CCBigIntMapper, CCBigIntUnmapper, CCBigIntFastMapper, CCBigIntFastUnmapper"]}
{"id": "C80", "title": "Reflected strings come back with the characters they had", "statement": "A CCString that is mapped by its reflected type, with any intent, and unmapped again has the same characters.", "quantifier": "all strings of any length and characters, inline or not, and all intents", "why_tests_cant": "Strings have any length and any Unicode characters, and several representations.", "anchors": ["CommonC/ReflectedTypes.c: CCStringMapper, CCStringUnmapper"]}
{"id": "C81", "title": "Default type indices identify types", "statement": "CCReflectSerializeBinaryTypeLookupDefaults gives different types different indices, and CCReflectDeserializeBinaryTypeLookupDefaults with the same offset gives back the type that an index was given for.", "quantifier": "all types and offsets", "why_tests_cant": "It ranges over every type, with every offset, and every pair of types.", "anchors": ["CommonC/ReflectedTypes.c: CCReflectSerializeBinaryTypeLookupDefaults, CCReflectDeserializeBinaryTypeLookupDefaults"]}
{"id": "C82", "title": "Float comparison in units of least precision counts floats", "statement": "CCFloatGetUlps gives the number of floats from one float to another, and CCFloatEqualUlps tells whether there are no more of them than its argument says.", "quantifier": "all pairs of floats and all limits", "why_tests_cant": "There are 2^64 pairs of floats, and the statement is about all the floats between them.", "anchors": ["CommonC/Maths.h: CCFloatGetUlps, CCFloatEqualUlps"]}
{"id": "C83", "title": "Floats that are powers of 2 are recognized", "statement": "CCBitFloat32IsPowerOf2 and CCBitFloat64IsPowerOf2 hold exactly for the values that are powers of 2.", "quantifier": "all floats and doubles", "why_tests_cant": "There are 2^64 doubles.", "anchors": ["CommonC/BitTricks.h: CCBitFloat32IsPowerOf2, CCBitFloat64IsPowerOf2"]}
{"id": "C84", "title": "Reflected sequences are copied with their elements", "statement": "A CCArray, CCList, CCLinkedList or CCQueue that is mapped by its reflected type for copying, serializing, displaying or inspecting and unmapped again is a container with the same elements in the same order; with the intent to transfer or share, or when it is NULL, it is the same container.", "quantifier": "all containers with any history, element values, chunk and page sizes, all intents and all allocation results", "why_tests_cant": "Containers have any length and any history, and the copy has other chunk and page sizes than the original.", "anchors": ["CommonC/ReflectedTypes.c: CCReflectCCArrayMapper, CCReflectCCArrayUnmapper, CCReflectCCListMapper, CCReflectCCListUnmapper, CCReflectCCLinkedListMapper, CCReflectCCLinkedListUnmapper, CCReflectCCQueueMapper, CCReflectCCQueueUnmapper"]}
{"id": "C85", "title": "Reflected hash maps are copied with their entries", "statement": "A CCHashMap that is mapped by its reflected type for copying and unmapped again answers every later sequence of calls as the original does, whatever the number of buckets and the hasher of the type.", "quantifier": "all histories of the map before the copy, all histories after it, all lawful hashers and bucket counts, all intents", "why_tests_cant": "It ranges over two histories of any length, and the order in which entries are copied depends on the hashes.", "anchors": ["CommonC/ReflectedTypes.c: CCReflectCCHashMapMapper, CCReflectCCHashMapUnmapper"]}
{"id": "C86", "title": "Custom allocators are used with their own functions", "statement": "A block allocated with CC_CUSTOM_ALLOCATOR is resized and released with the functions it was allocated with, whatever allocators other blocks have or the call for resizing names. Those functions get what they returned before. The contents are kept, and blocks are aligned for every type when what the functions return is.", "quantifier": "all programs of allocations, changes of size, releases, reads and writes, all functions and all outcomes of them", "why_tests_cant": "It ranges over programs of any length with blocks of any number of allocators.", "anchors": ["CommonC/Allocator.c: CustomAllocator, CustomReallocator, CustomDeallocator", "CommonC/Allocator.h: CC_CUSTOM_ALLOCATOR"]}
{"id": "C87", "title": "Callback allocators tell their callbacks", "statement": "The callback a block was allocated with is told before and after each allocation and change of size of it and before its release, with the pointers involved, and no other callback is. A block has the size that was asked for, or the one the callback chose, keeps its contents, and is aligned for every type.", "quantifier": "all programs of allocations, changes of size, releases, reads and writes, all callbacks and all outcomes of malloc", "why_tests_cant": "It ranges over programs of any length with blocks of any number of callbacks, which can change sizes.", "anchors": ["CommonC/Allocator.c: CallbackAllocator, CallbackReallocator, CallbackDeallocator", "CommonC/CallbackAllocator.h: CCCallbackAllocatorEvent"]}
{"id": "C88", "title": "Reflected collections are copied with their elements", "statement": "Copying a collection through its reflection (any intent but transferring and sharing) gives a new collection that lists the same elements in the same order and then behaves as a plain sequence of them, whichever of the implementations the two collections have and whether the new one is ordered or not. Transferring or sharing it, or copying a NULL handle, gives the same handle. An insertion that fails for lack of memory is reported.", "quantifier": "all histories of the original by index, all pairs of implementations, all later histories of the copy, all element types", "why_tests_cant": "the copy is made by walking one implementation and inserting into another; tests try single pairs and short histories, and never run out of memory in the middle", "anchors": ["CommonC/ReflectedTypes.c: CCReflectCCCollectionMapper, CCReflectCCCollectionUnmapper", "CommonC/Collection.c: CCCollectionGetEnumerable"]}
{"id": "C89", "title": "Reflected dictionaries are copied with their entries", "statement": "Copying a dictionary through its reflection (any intent but transferring and sharing) gives a new dictionary that answers every later call as the original does, whatever the size hint, hasher and destructors of the new one. Making the copy runs no destructor, and a key that was never given a value is not given one. Transferring or sharing it, or copying a NULL handle, gives the same handle.", "quantifier": "all histories of the original, all later histories, all lawful hashers, all size hints and destructors", "why_tests_cant": "whether the copy answers alike depends on the collisions, the growth and the order of insertion of both tables", "anchors": ["CommonC/ReflectedTypes.c: CCReflectCCDictionaryMapper, CCReflectCCDictionaryUnmapper", "CommonC/Dictionary.c: CCDictionarySetValue"]}
{"id": "C90", "title": "Tasks are released with their inputs and outputs when nothing refers to them", "statement": "A task lives while the program or a queue refers to it: queues keep the tasks that are pushed, and a serial queue also keeps the last one it handed out. When the last reference goes, by whichever call, the destructors of its input and its output run, once each, in that call. No call reads memory that is gone, and nothing remains when the program has let go of all tasks and queues. Without memory for a task or a push, the call reports it.", "quantifier": "all histories of calls for creating, retaining, destroying, running, pushing and popping of any number of tasks and queues, and of destroying queues with tasks in them", "why_tests_cant": "the last reference may be the program's, a waiting node's or the serial queue's, in any order, and a task can be in several queues several times", "anchors": ["CommonC/Task.c: CCTaskCreate, CCTaskRun, CCTaskIsFinished", "CommonC/TaskQueue.c: CCTaskQueueCreate, CCTaskQueuePush, CCTaskQueuePop", "CommonC/Allocator.c: CCRetain, CCFree"]}
{"id": "C91", "title": "Operations on three-dimensional vectors compute the geometry their names promise", "statement": "In exact arithmetic: the cross product is at right angles to both factors, right-handed and as long as the parallelogram; projecting and rejecting split a vector into a multiple of the other and a part at right angles to it; normalizing a non-zero vector gives the vector of length one in its direction and the zero vector fails the assertion; the distance is a metric and the squared distance its square; interpolation starts and ends at its arguments and goes the fraction t of the way; clamping gives the nearest number of the range in each coordinate; the normal of a triangle has length one, is at right angles to the sides and faces the side from which the corners go anticlockwise; CCVector3Angle gives the angle between the vectors; CCVector3Parallel and CCVector3Ortho report exactly the parallel and the orthogonal vectors.", "quantifier": "all vectors of real coordinates and all factors", "why_tests_cant": "the laws relate values over all vectors; tests compare a few literals, and rounding hides which law the formula satisfies", "anchors": ["CommonC/Vector3D.h: CCVector3Cross, CCVector3Dot, CCVector3Project, CCVector3Reject, CCVector3Normalize, CCVector3Distance, CCVector3DistanceSquare, CCVector3Angle, CCVector3Lerp, CCVector3Clamp, CCVector3Parallel, CCVector3Ortho, CCVector3Normal, CCVector3NormalR"]}
{"id": "C92", "title": "Transformation matrices do to every vector what their names promise", "statement": "In exact arithmetic: the product of two matrices applies the second and then the first, is associative and has the identity as its unit; translating, scaling and rotating a matrix transforms positions (and, but for translation, directions) before the matrix is applied; a rotation turns every vector by the angle about the axis, anticlockwise, keeps inner products and handedness and leaves the axis in place, the zero axis failing the assertion; the rotations about x, y and z are the rotations about those axes and add their angles; the orthographic and the frustum projection map exactly the points of their box or pyramid into the cube from -1 to 1; the perspective projection is the frustum of that field of view and aspect.", "quantifier": "all matrices, vectors, axes, angles and projection bounds with left < right, bottom < top, near < far (0 < near for the pyramid, field of view between 0 and pi)", "why_tests_cant": "each law ranges over all matrices and vectors; a transposed or negated entry shows only for vectors and angles a test did not choose", "anchors": ["CommonC/Matrix4.h: CCMatrix4Make, CCMatrix4MakeTranslation, CCMatrix4MakeRotation, CCMatrix4MakeRotationX, CCMatrix4MakeRotationY, CCMatrix4MakeRotationZ, CCMatrix4MakeScale, CCMatrix4MakeOrtho, CCMatrix4MakeFrustum, CCMatrix4MakePerspective, CCMatrix4Mul, CCMatrix4MulVector4D, CCMatrix4MulPositionVector3D, CCMatrix4MulDirectionVector3D, CCMatrix4MulProjectVector3D"]}
{"id": "C93", "title": "Vector functions compute the same vectors for every instruction set", "statement": "In exact arithmetic and whichever of no SSE, SSE, SSE2, SSE3 or SSE4.1 the library was compiled for: sums, inner and cross products, lengths, distances, projections, rejections, perpendicular vectors, interpolation, clamping and comparisons of vectors of two, three and four coordinates give their textbook values in the lanes that hold the vector, from the plain functions, the ones on registers, the ones on registers with two packed vectors and the scalar ones alike; normalizing gives the vector of length one in the same direction and the zero vector fails the assertion.", "quantifier": "all instruction sets, all contents of the registers (unused lanes included)", "why_tests_cant": "a test runs one build on one machine; each instruction set has its own code path, and a wrong shuffle mask shows only for vectors whose lanes differ", "anchors": ["CommonC/Vector2D.h: CCVector2Add, CCVector2Dot, CCVector2Cross, CCVectorize2Dot, CCVectorize2Cross, CCVectorize2Normalize, CCVectorize2Project, CCVectorize2PackedDot, CCVectorize2PackedCross, CCVectorize2PackedNormalize, CCVectorize2ScalarPackedDot, CCVectorize2CompareEqual, CCVectorize2CompareEqualRelative", "CommonC/Vector3D.h: CCVectorize3Dot, CCVectorize3Cross, CCVectorize3Normalize, CCVectorize3Project", "CommonC/Vector4D.h: CCVectorize4Dot, CCVectorize4Cross, CCVectorize4Normalize, CCVectorize4Project"]}
{"id": "C94", "title": "Vectorized comparison within a number of representable values agrees with the comparison of single numbers", "statement": "CCVectorize2CompareEqualUlps, CCVectorize3CompareEqualUlps and CCVectorize4CompareEqualUlps compiled for SSE2 answer in each lane what CCFloatEqualUlps answers for the numbers and the allowance of that lane, as they do without SSE2.", "quantifier": "all lanes of 32-bit numbers, with any mixture of signs, zeros, infinities and NaNs, and all allowances that are not negative", "why_tests_cant": "the integer trick is right for some combinations of signs and wrong for others, and depends on what the other lanes hold; the failing cases are among 2^96 inputs per lane", "anchors": ["CommonC/Vector2D.h: CCVectorize2CompareEqualUlps, CCVector2CompareEqualUlps", "CommonC/Vector3D.h: CCVectorize3CompareEqualUlps, CCVector3CompareEqualUlps", "CommonC/Vector4D.h: CCVectorize4CompareEqualUlps, CCVector4CompareEqualUlps", "CommonC/Maths.h: CCFloatEqualUlps"]}
{"id": "C95", "title": "Functions on integer vectors compute the documented value in every lane", "statement": "For vectors of 8-, 16-, 32- and 64-bit integers, signed or unsigned: CCSimdRotateLeft and CCSimdRotateRight (and the forms with a constant) move every bit of a lane by the count around the end of the lane; CCSimdLowestSet, CCSimdLowestUnset and CCSimdHighestSet leave just that bit; CCSimdMask is the least mask that covers the lane, CCSimdMaskHighestUnset the bits above it, CCSimdMaskLowerPow2 the bits below a power of two, CCSimdNextPow2 the least power of two that is at least the lane; CCSimdCountSet and CCSimdCountLowestUnset count the bits; CCSimdMin, CCSimdMax, CCSimdClamp, CCSimdDiv, CCSimdMod and the multiply-add functions are those of the numbers in the lanes.", "quantifier": "all lane contents, rotation counts and operands, for every width and signedness", "why_tests_cant": "one macro body serves eight integer types; a shift that is wrong for one width, or that copies the sign for signed types, shows only for some values of that type", "anchors": ["CommonC/SimdFallback.h: CCSimdRotateLeft, CCSimdRotateRight, CCSimdLowestSet, CCSimdLowestUnset, CCSimdHighestSet, CCSimdNextPow2, CCSimdMask, CCSimdMaskLowerPow2, CCSimdMaskHighestUnset, CCSimdCountLowestUnset, CCSimdCountSet, CCSimdMin, CCSimdMax, CCSimdClamp, CCSimdMadd, CCSimdDiv, CCSimdMod", "CommonC/Simd64_arm.h: CCSimdShiftRight"]}
{"id": "C96", "title": "Renaming keeps an item in its directory under the given name", "statement": "FSManagerRename of a file moves it to the path in the same directory whose file name, extensions included, is the given name; of a directory, to the path in the same parent whose last directory is the given name. Nothing else of the path changes.", "quantifier": "all paths, absolute or relative, with any number of directories and extensions, and all names", "why_tests_cant": "file names are taken apart into parts and put together again, so that names and paths exist for which the new path is another than the text says; there are infinitely many", "anchors": ["CommonC/FileSystem.c: FSManagerRename, FSPathRemoveComponentIndex, FSPathConvertPathToComponents, FSPathSetComponentAtIndex", "CommonC/Path.c: FSPathConvertPathToComponents"]}
{"id": "C97", "title": "The last component of a path is found wherever separators are", "statement": "CCLastComponent returns where the last component of a path begins, with separators at the end not counted: the bytes between the last separator before it and the separators after it. The length it gives is that of the component when separators follow, and 0 when it goes up to the end of the path. It returns NULL exactly if the path is NULL, empty or nothing but separators.", "quantifier": "all texts and separators: any number of separators in front, in between and at the end, components of any length", "why_tests_cant": "the tests try the positions one by one with a component of one length; which pairs of an offset and a length go wrong depends on where the two backward scans stop", "anchors": ["CommonC/File.c: CCLastComponent", "CommonC/File.h: CCLastComponent"]}
{"id": "C98", "title": "A hash map implementation may leave its optional functions out", "statement": "Getting, setting and removing the value of a key and listing the keys and the values do the same on a hash map whose implementation provides only the required functions as on one that provides them all. A map created without a hash function hashes keys by their first bytes: only the bytes of the key are read, equal keys have equal hashes, and different keys of at most 8 bytes have different hashes, on machines of either endianness.", "quantifier": "all implementations whose required functions act as on a finite map and whose enumerator visits every entry, all maps, keys and values; all sizes and contents of keys, both endiannesses", "why_tests_cant": "the implementations in the library provide every optional function, so the tests never take these paths; the statement ranges over implementations that users write, and the tests run on machines of one endianness", "anchors": ["CommonC/HashMap.c: CCHashMapGetValue, CCHashMapSetValue, CCHashMapRemoveValue, CCHashMapGetKeys, CCHashMapGetValues, CCHashMapGetKeyHash", "CommonC/HashMapInterface.h: CCHashMapInterface"]}
{"id": "C99", "title": "A terminated array is mapped with exactly its elements", "statement": "Reflecting on an array that ends with a terminator hands on the elements from the first up to and including the first one that equals the terminator, as many bytes each as the element type has: bytes of the terminator inside or across elements do not end it, and nothing behind it is included. Mapping what was handed on gives the same elements. No byte outside of the array is read.", "quantifier": "all element sizes and terminators, all arrays and everything that may follow them in memory", "why_tests_cant": "the tests map texts of single bytes; the elements, their number and where bytes of the terminator occur are unbounded", "anchors": ["CommonC/ReflectedTypes.c: CCReflectTerminatedArrayMapper, CCReflectTerminatedArrayUnmapper", "CommonC/ReflectedTypes.h: CCReflectTerminatedArray"]}
{"id": "C100", "title": "Enumerating a zone visits its items in order, block after block", "statement": "An enumerable made from a block of a memory zone, an offset, a stride and a count visits the items from that offset on: those whole in the rest of the block the offset falls in, then those of each block after it, in order, and no more than count of them. Going back visits the same pointers in the opposite order, and the head and tail are the first and the last item. Every pointer lies with its whole item in memory in use. When the zone grows the enumeration that came to the end goes on with what was added. From an offset past the end there is nothing to visit.", "quantifier": "all zones, starting blocks, offsets, strides and counts, all sequences of moves, all growth of the last block", "why_tests_cant": "the tests enumerate one zone of eleven items; blocks, offsets, counts and the ways to move about are unbounded, and the errors need an offset in the last block, a block smaller than an item, or growth at a certain moment", "anchors": ["CommonC/MemoryZone.c: CCMemoryZoneBlockGetEnumerable, CCMemoryZoneEnumerableHandler", "CommonC/MemoryZone.h: CCMemoryZoneBlockGetEnumerable, CCMemoryZoneBlockGetPointer", "CommonC/Enumerable.h: CCEnumerableNext, CCEnumerablePrevious, CCEnumerableGetHead, CCEnumerableGetTail"]}
{"id": "C101", "title": "The version of the system is read and compared correctly", "statement": "The version the system gives as a text of numbers with points between them is returned as those numbers, missing ones as 0, without writing out of bounds. Once it is known every call returns the same, and until then the system is asked again. Of two versions the later one has the larger literal, so that testing the literal at run time tests the version.", "quantifier": "all texts of numbers and points, all sequences of calls and answers, all pairs of versions", "why_tests_cant": "a test sees the one version of the machine it runs on; the errors show only on versions with other numbers", "anchors": ["CommonC/SystemInfo.c: CCSystemVersion, CCSystemVersionLiteral", "CommonC/SystemInfo.h: CC_PLATFORM_APPLE_RUNTIME_VERSION_MIN_REQUIRED"]}
{"id": "C102", "title": "The names of the process are those of its path", "statement": "The name of the process is the last component of the path the system gives for it, and the stripped name is that name without all characters but letters and digits, in order. Nothing is written out of bounds. Every later call, of either function and whatever the system then answers, gives the same names.", "quantifier": "all paths, all names, all sequences of calls", "why_tests_cant": "a test sees the one path of the program it is part of; the characters and the length of a name are unbounded", "anchors": ["CommonC/ProcessInfo.c: CCProcessCurrentName, CCProcessCurrentStrippedName"]}
{"id": "C103", "title": "The size of a reflected type is the bytes a value of it takes", "statement": "The size given for a type is the sum of the sizes of the objects a value of it consists of: of one pointer, number, struct, opaque object or enumerable, of what a validator checks, of every element of an array. Each element of an array, at its index times the size of an element, is inside the size of the array. Only a type whose innermost type is not supported has no size.", "quantifier": "all types, with arrays and validators nested to any depth, all sizes and counts", "why_tests_cant": "types nest without a bound and the counts range over all of size_t; a test has a few types of small sizes", "anchors": ["CommonC/Reflect.c: CCReflectTypeSize", "CommonC/Reflect.h: CCReflectArray, CCReflectValidator"]}
