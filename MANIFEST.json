{
 "claims": [
  {
   "property": "C01",
   "status": "proved",
   "theorems": [
    "c01_array_is_sequence",
    "c01_replace_many_assertions_insufficient_refuted"
   ],
   "note": "Refinement to a plain sequence for every history of in-range calls with any allocation failures. The _refuted theorem shows that ReplaceElementsAtIndex's own assertions do not enforce the range."
  },
  {
   "property": "C02",
   "status": "proved",
   "theorems": [
    "c02_insert_after",
    "c02_insert_before",
    "c02_insert",
    "c02_append",
    "c02_prepend",
    "c02_remove_node",
    "c02_remove_range",
    "c02_destroy"
   ],
   "note": "Each operation on arbitrary positions in arbitrary well-formed lists, with frame and termination."
  },
  {
   "property": "C03",
   "status": "proved",
   "theorems": [
    "c03_queue_fifo"
   ],
   "note": "Refinement to a FIFO for every history."
  },
  {
   "property": "C04",
   "status": "partial",
   "theorems": [
    "c04_list_is_sequence_partial",
    "c04_create",
    "c04_append_many_refuted",
    "c04_append_null_refuted",
    "c04_remove_allocation_failure_refuted",
    "c04_append_allocation_failure_refuted"
   ],
   "note": "Every chunk and page size and every history, uninitialised elements included, for the calls allowed by append_many_safe and env_safe. Refuted: CCListAppendElements on a full last page reads past the caller's elements; NULL elements over a page boundary; failed storage growth in a removal or a bulk append."
  },
  {
   "property": "C05",
   "status": "proved",
   "theorems": [
    "c05_fast_array_is_a_sequence",
    "c05_array_is_a_sequence",
    "c05_list_is_a_sequence",
    "c05_interchangeable"
   ],
   "note": "All call sequences with indices in range whose allocations succeed; elements are opaque values; inserting a collection is assumed to find memory."
  },
  {
   "property": "C06",
   "status": "proved",
   "theorems": [
    "c06_array_entries",
    "c06_list_entries",
    "c06_array_entry_until_removed",
    "c06_list_entry_until_removed"
   ],
   "note": "Array and list, all valid histories (allocations succeed; entries passed are live; see valid in CollectionSpec)."
  },
  {
   "property": "C07",
   "status": "partial",
   "theorems": [
    "c07_array_destructor_once",
    "c07_list_destructor_once",
    "c07_fast_array_destructor_partial",
    "c07_fast_array_remove_all_refuted",
    "c07_fast_array_remove_collection_refuted"
   ],
   "note": "Proved for the array and the list, all valid histories. Fast array: c07_fast_array_remove_all_refuted (removing all elements calls no destructor, Collection.c 211) and c07_fast_array_remove_collection_refuted (entries not in ascending order); proved without those."
  },
  {
   "property": "C08",
   "status": "partial",
   "theorems": [
    "c08_loops",
    "c08_batch",
    "c08_circular",
    "c08_linked_list",
    "c08_queue",
    "c08_list_partial",
    "c08_collection_list",
    "c08_collection_array",
    "c08_list_refuted"
   ],
   "note": "Batch, circular, linked-list, queue, list-collection and array-collection enumerables proved for every sequence of moves; hash maps proved inside c09_hash_map; paged lists proved for histories outside the calls refuted under C04. c08_list_refuted: a static list's enumerator cannot reach the tail after walking off the front."
  },
  {
   "property": "C09",
   "status": "proved",
   "theorems": [
    "c09_hash_map",
    "c09_key_value"
   ],
   "note": "Array-of-items layout (HashMapSeparateChainingArray.c) and HashMap.c on top of it, every bucket count, hash, lawful comparator and history whose items can be numbered by 64-bit entries. c09_key_value compares with an association list; c09_hash_map covers the entry calls, uniqueness, enumeration and listings in matching order."
  },
  {
   "property": "C10",
   "status": "partial",
   "theorems": [
    "c10_rehash_partial",
    "c10_rehash_refuted"
   ],
   "note": "Proved for maps whose entries all have values. c10_rehash_refuted: an entry created without a value becomes initialised. "
  },
  {
   "property": "C11",
   "status": "proved",
   "theorems": [
    "c11_entry_round_trip",
    "c11_entry_unique",
    "c11_limit"
   ],
   "note": "Every bucket count below 2^63-1 (a larger bucket array cannot exist), bucket and slot; c11_limit shows that the shift is by 64 from there on."
  },
  {
   "property": "C12",
   "status": "partial",
   "theorems": [
    "c12_lowest_set",
    "c12_lowest_unset",
    "c12_highest_set",
    "c12_mask_for_value",
    "c12_mask_for_unset_value",
    "c12_mask_for_lower_power_of_2",
    "c12_absent_bit_is_zero",
    "c12_next_power_of_2_partial",
    "c12_next_power_of_2_refuted",
    "c12_count_set",
    "c12_count_lowest_unset",
    "c12_bit_set",
    "c12_is_power_of_2",
    "c12_float32_is_power_of_2_partial",
    "c12_float64_is_power_of_2_partial",
    "c12_float32_is_power_of_2_refuted",
    "c12_float64_is_power_of_2_refuted"
   ],
   "note": "All functions exact on their domain. Refuted: NextPowerOf2(0)=0; the float tests accept negative powers and infinity and reject subnormal powers of two; the _partial theorems cover 1..2^63 and positive normal floats."
  },
  {
   "property": "C13",
   "status": "partial",
   "theorems": [
    "c13_single_bit_partial",
    "c13_single_bit_refuted",
    "c13_single_bit_31_refuted",
    "c13_set_range_partial",
    "c13_clear_range_partial",
    "c13_not_range_partial",
    "c13_or_range_partial",
    "c13_xor_range_partial",
    "c13_copy_range_partial",
    "c13_and_range_partial",
    "c13_range_extent",
    "c13_range_refuted",
    "c13_and_range_refuted",
    "c13_count",
    "c13_any_partial",
    "c13_any_refuted",
    "c13_mask_partial",
    "c13_mask_order_refuted",
    "c13_mask_lone_refuted",
    "c13_mask_misplaced_refuted"
   ],
   "note": "Counting is right for every range; range writes are right exactly for ranges that end at a byte boundary or inside their first byte (c13_range_extent gives the effect for every range, c13_range_refuted the converse); And also fails on short ranges at a byte start; Any, Mask and single-bit access on 64-bit types have undefined shifts, characterised by the _refuted theorems."
  },
  {
   "property": "C14",
   "status": "partial",
   "theorems": [
    "c14_create",
    "c14_set_int_partial",
    "c14_set_int_refuted",
    "c14_set_big_int_partial",
    "c14_set_big_int_refuted",
    "c14_copy_pages_refuted",
    "c14_add_partial",
    "c14_sub_partial",
    "c14_add_int_partial",
    "c14_sub_int_partial",
    "c14_add_exact_only",
    "c14_sub_exact_only",
    "c14_add_int_exact_only",
    "c14_sub_int_exact_only",
    "c14_add_string_partial",
    "c14_sub_string_partial",
    "c14_sub_refuted",
    "c14_sub_trim_refuted",
    "c14_canonical_refuted"
   ],
   "note": "Adding magnitudes is exact and canonical for all operands. Subtracting magnitudes is exact exactly on the stated domain (c14_*_partial and the converses c14_*_exact_only): a subtrahend or borrow that stops below the leading digit, or a difference of several but fewer digits, gives a wrong result (c14_sub_refuted, c14_sub_trim_refuted). A zero can be negative (c14_canonical_refuted), INT64_MIN overflows (c14_set_int_refuted) and copies of 17 or more digits that are not a multiple of 16 fail (c14_set_big_int_refuted). Operands are distinct objects."
  },
  {
   "property": "C15",
   "status": "partial",
   "theorems": [
    "c15_compare_partial",
    "c15_compare_int_partial",
    "c15_compare_string_partial",
    "c15_compare_refuted",
    "c15_parse",
    "c15_print",
    "c15_round_trip",
    "c15_canonical_unique"
   ],
   "note": "Parsing, printing and the round trip are proved for all literals and values. Comparison is the integer order on canonical values; c15_compare_refuted: a negative zero reached by adding compares below zero."
  },
  {
   "property": "C16",
   "status": "partial",
   "theorems": [
    "c16_create",
    "c16_set_int_partial",
    "c16_set_int_refuted",
    "c16_set_big_partial",
    "c16_set_string",
    "c16_get_string",
    "c16_get_big_int",
    "c16_get_sign",
    "c16_compare_partial",
    "c16_compare_big_partial",
    "c16_compare_int_partial",
    "c16_compare_string_partial",
    "c16_add_int_partial",
    "c16_sub_int_partial",
    "c16_boxed_int_partial",
    "c16_add_big_partial",
    "c16_sub_big_partial",
    "c16_add_fast_partial",
    "c16_add_fast_refuted",
    "c16_add_fast_boxed_refuted",
    "c16_add_string_partial",
    "c16_copy_partial",
    "c16_set_fast_partial",
    "c16_big_set_fast_partial",
    "c16_big_fast_partial"
   ],
   "note": "Comparison, printing, parsing proved. Inline results between 2^62 and 2^63 fail an assertion, exactly characterised (c16_add_int_partial, c16_set_int_refuted); adding or subtracting an inline fast integer uses the wrong operand (c16_add_fast_refuted) or fails an assertion (c16_add_fast_boxed_refuted); boxed operands inherit C14's limits."
  },
  {
   "property": "C17",
   "status": "partial",
   "theorems": [
    "c17_exact32_partial",
    "c17_exact64_partial",
    "c17_saturates_partial",
    "c17_zero_refuted",
    "c17_wraps_refuted"
   ],
   "note": "Every value, coefficient and exponent whose floored product fits in 64 bits gives exactly that product, except value 0 with exponent >= 20 (refuted). Saturation proved on stated ranges; refuted with concrete inputs where a half or the last addition wraps."
  },
  {
   "property": "C18",
   "status": "partial",
   "theorems": [
    "c18_range_partial",
    "c18_every_value_partial",
    "c18_wide_range_refuted",
    "c18_randomi_range"
   ],
   "note": "All generator outputs and all ranges whose width max-min+1 is an int32_t; wider ranges overflow (refuted for 0..INT32_MAX)."
  },
  {
   "property": "C19",
   "status": "proved",
   "theorems": [
    "c19_xorshift_full_period",
    "c19_seed_nonzero",
    "c19_xorwow_injective",
    "c19_xorwow_never_zero",
    "c19_xorwow_period",
    "c19_xorwow_short_cycle"
   ],
   "note": "Full period proved by GF(2) matrices checked in the kernel: T^(2^32-1)=1 and T^((2^32-1)/p)+1 invertible for every prime p. xorwow is injective and never reaches zero from a seed; a bonus theorem shows it has a 31-step cycle."
  },
  {
   "property": "C20",
   "status": "partial",
   "theorems": [
    "c20_minimum_partial",
    "c20_maximum_partial",
    "c20_big_endian_hardware_refuted"
   ],
   "note": "All sizes of at least one byte, signs and endiannesses of value and bound, on little-endian hardware. Refuted on big-endian hardware, where native data is read from the wrong end."
  },
  {
   "property": "C21",
   "status": "partial",
   "theorems": [
    "c21_contains_partial",
    "c21_contains_elements_partial",
    "c21_intersects_partial",
    "c21_intersection_partial",
    "c21_overflow_refuted",
    "c21_disjoint_intersection_refuted"
   ],
   "note": "Any integer type, when start+length does not overflow; refuted when it does, and for the intersection of disjoint unsigned ranges."
  },
  {
   "property": "C22",
   "status": "proved",
   "theorems": [
    "c22_write_values",
    "c22_read_values",
    "c22_round_trip",
    "c22_round_trip_bytes",
    "c22_swap_reverses",
    "c22_swap_involutive",
    "c22_data_read",
    "c22_data_write"
   ],
   "note": "All sizes, offsets (offset+count below 2^64), value widths and both hardware endiannesses; the CCData-backed variants reduce to the same functions."
  },
  {
   "property": "C23",
   "status": "proved",
   "theorems": [
    "c23_jenkins",
    "c23_murmur"
   ],
   "note": "Every byte string and every preferred map size; equals the published Jenkins one-at-a-time and MurmurHash3 x86_32 (seed 0) functions, whose test vectors are checked. Little-endian loads; a map size of 0 divides by zero in the Jenkins function and is excluded."
  },
  {
   "property": "C24",
   "status": "partial",
   "theorems": [
    "c24_hash_partial",
    "c24_map_refuted",
    "c24_read_refuted",
    "c24_resize_refuted"
   ],
   "note": "Every history for every interface that meets its contract, when the user does not read through a map while changes are unhashed and does not ask right after a resize; both exceptions are refuted with concrete histories."
  },
  {
   "property": "C25",
   "status": "partial",
   "theorems": [
    "c25_read",
    "c25_write",
    "c25_fill",
    "c25_copy",
    "c25_copy_same",
    "c25_buffer",
    "c25_piecewise",
    "c25_container_partial",
    "c25_container_read_write_map",
    "c25_container_write_refuted",
    "c25_container_empty_refuted"
   ],
   "note": "Read, write, fill and copy are exact for every interface meeting its contract, any preferred size, short maps included. CCDataBuffer meets it; CCDataContainer meets it for non-empty reads and whole-element writes. Refuted: a write of part of an element, an empty read."
  },
  {
   "property": "C26",
   "status": "partial",
   "theorems": [
    "c26_create",
    "c26_create_character",
    "c26_constant",
    "c26_length",
    "c26_size",
    "c26_character",
    "c26_copy_characters",
    "c26_copy",
    "c26_substring",
    "c26_insert",
    "c26_remove",
    "c26_equal_inline",
    "c26_equal_partial",
    "c26_equal_refuted",
    "c26_prefix_partial",
    "c26_prefix_inline_partial",
    "c26_prefix_empty_refuted",
    "c26_prefix_misled_refuted",
    "c26_suffix_partial",
    "c26_suffix_inline_partial",
    "c26_suffix_refuted",
    "c26_find_partial"
   ],
   "note": "Creation, length, size, character access, copies, substrings, insertion and removal are proved for every string in every representation with any maps. Equality is right except that the empty ASCII constant is unequal to the inline empty string (c26_equal_refuted); empty prefixes (c26_prefix_empty_refuted), same-map suffixes longer than the string (c26_suffix_refuted), the byte in front of an uncopied ASCII string (c26_prefix_misled_refuted) and a search that ends at the last place of a full inline string (c28_find_refuted) are the exceptions, each characterised by an iff in the _partial theorem."
  },
  {
   "property": "C27",
   "status": "proved",
   "theorems": [
    "c27_length_and_characters",
    "c27_enumerate",
    "c27_enumerate_empty"
   ],
   "note": "Length, character access and any mixture of enumerator moves on every sequence of scalar values created from UTF-8; the empty string is c27_enumerate_empty."
  },
  {
   "property": "C28",
   "status": "partial",
   "theorems": [
    "c28_find_partial",
    "c28_find_refuted",
    "c28_find_empty_refuted",
    "c28_replace_partial",
    "c28_replace_any_partial",
    "c28_replace_refuted",
    "c28_split_partial",
    "c28_split_refuted",
    "c28_split_any_partial",
    "c28_join",
    "c28_split_join_partial"
   ],
   "note": "Find is the least occurrence except in the exactly characterised overlooked case (full inline string, inline substring with the same map that first occurs at the very end, search from 0), where it finds nothing: c28_find_refuted, c28_replace_refuted, c28_split_refuted. Empty substrings: c28_find_empty_refuted. Replace is proved when the occurrence is not both inline and at the end of the string. Join is proved for all inputs."
  },
  {
   "property": "C29",
   "status": "partial",
   "theorems": [
    "c29_round_trip_partial",
    "c29_print_partial",
    "c29_lossless_partial",
    "c29_prefix_partial",
    "c29_refuted"
   ],
   "note": "Exactly the component lists described by readable are read back from their text and printed again (c29_lossless_partial is an iff over all texts). c29_refuted: names beginning with a dot, volume names with a dot, a last .., a dot at the end and two dots in a row lose text, and ./.git is read as ../git. Without a name '.' what is read is a prefix of the text."
  },
  {
   "property": "C30",
   "status": "proved",
   "theorems": [
    "c30_match"
   ],
   "note": "All paths and options; tolower in the C locale."
  },
  {
   "property": "C31",
   "status": "partial",
   "theorems": [
    "c31_aligned_in_bounds_preserved_partial",
    "c31_size_wraps_refuted"
   ],
   "note": "Byte-level memory, power-of-two alignments, any earlier contents; right whenever size + alignment + header fits in 64 bits. The _refuted theorem shows the size sum wraps for larger requests."
  },
  {
   "property": "C32",
   "status": "proved",
   "theorems": [
    "c32_destroyed_after_last_release",
    "c32_destroyed_exactly_once",
    "c32_static_memory_never_destroyed"
   ],
   "note": "Any number of threads retaining, releasing and destroying one object, interleaved between atomic accesses; the destructor chain runs once, after the last release; static memory is never destroyed."
  },
  {
   "property": "C33",
   "status": "partial",
   "theorems": [
    "c33_blocks_handed_out_once",
    "c33_live_blocks_disjoint_and_aligned",
    "c33_blocks_inside_pool_partial",
    "c33_block_outside_pool_refuted",
    "c33_huge_request_granted_refuted"
   ],
   "note": "Every history of allocations and deallocations: blocks handed out once, disjoint, aligned. Inside the pool only if the base address needs no rounding (_partial); refuted otherwise, and refuted for requests near 2^64."
  },
  {
   "property": "C34",
   "status": "proved",
   "theorems": [
    "c34_live_memory_disjoint_and_owned",
    "c34_restore_exact"
   ],
   "note": "Every history of allocate, aligned allocate, save, restore and deallocate, any block size; block addresses below 2^63. A save is assumed to get memory: the code does not test for NULL there."
  },
  {
   "property": "C35",
   "status": "proved",
   "theorems": [
    "c35_ids_issued_when_free",
    "c35_held_ids_distinct",
    "c35_free_id_obtainable"
   ],
   "note": "Interleaved acquire/release at every atomic access, sequential consistency; any number of threads, any generator size."
  },
  {
   "property": "C36",
   "status": "proved",
   "theorems": [
    "c36_each_datum_accounted_once",
    "c36_nothing_leaks",
    "c36_without_destructor_accounted",
    "c36_read_returns_latest"
   ],
   "note": "Interleaving model, any number of writers and readers, with and without a destructor."
  },
  {
   "property": "C37",
   "status": "proved",
   "theorems": [
    "c37_single_owner",
    "c37_owners_exclusive"
   ],
   "note": "Built on the ID generator model; any number of threads."
  },
  {
   "property": "C38",
   "status": "proved",
   "theorems": [
    "c38_swap_buffer_latest_value",
    "c38_swap_buffer_slots_disjoint"
   ],
   "note": "One writer, one reader, interleaved at every atomic access and every slot access."
  },
  {
   "property": "C39",
   "status": "proved",
   "theorems": [
    "c39_circular_buffer_bounded_fifo"
   ],
   "note": "One producer, one consumer; counters wrap modulo 2^32 or any modulus the buffer size divides."
  },
  {
   "property": "C40",
   "status": "partial",
   "theorems": [
    "c40_pool_in_order_exactly_once_partial",
    "c40_pool_size_not_dividing_refuted"
   ],
   "note": "Proved when the pool size divides the index modulus; refuted with a concrete history when it does not (size 3, 32-bit index)."
  },
  {
   "property": "C41",
   "status": "partial",
   "theorems": [
    "c41_get_shares_current_live_datum_partial",
    "c41_undestroyed_data_are_in_slots_partial",
    "c41_no_access_outside_slots_partial",
    "c41_unlimited_get_out_of_bounds_refuted",
    "c41_unlimited_get_unpublished_refuted"
   ],
   "note": "Proved for the limited variant with fewer than 2^16 gets between publications. Refuted with concrete histories for the default unlimited variant: a get can index outside the slots, and can return a datum never published."
  },
  {
   "property": "C42",
   "status": "proved",
   "theorems": [
    "c42_reclaim_safe_and_once",
    "c42_quiescent_all_reclaimed"
   ],
   "note": "Interleaving model, any number of threads; reclaimed once, never while a thread that could hold it is inside, and all reclaimed when nobody is inside."
  },
  {
   "property": "C43",
   "status": "proved",
   "theorems": [
    "c43_reclaim_safe_and_once",
    "c43_unreclaimed_items_are_managed",
    "c43_three_slots"
   ],
   "note": "Interleaving model of the epoch collector; 32-bit epochs compared only for equality of slots."
  },
  {
   "property": "C44",
   "status": "partial",
   "theorems": [
    "c44_fifo",
    "c44_null_only_if_empty_or_push_in_progress_partial",
    "c44_no_null_node_followed",
    "c44_null_means_empty_refuted"
   ],
   "note": "FIFO order and at-most-once proved for every interleaving, 32-bit wrapping tags. NULL only when empty is refuted (a pusher between its two stores hides later nodes); the _partial theorem gives exactly that excuse."
  },
  {
   "property": "C45",
   "status": "partial",
   "theorems": [
    "c45_one_at_a_time",
    "c45_changes_are_atomic",
    "c45_results_partial",
    "c45_no_bad_access",
    "c45_replace_exactly_once",
    "c45_replace_exactly_returns",
    "c45_remove_refuted",
    "c45_count_refuted"
   ],
   "note": "Calls one at a time: c45_one_at_a_time is the full claim (every call ends, and returns what a plain sequence would), for all chunk sizes, both ways of storing elements and all histories. Interleaved: every change is atomic and succeeds as on a plain sequence (c45_changes_are_atomic), every result is that of the change or of the sequence at some moment of the call (c45_results_partial), except that counts and refusals to remove or insert may leave out elements whose append has not returned; that exception is real (c45_remove_refuted, c45_count_refuted). Replace-exactly: c45_replace_exactly_once, c45_replace_exactly_returns. Sequential consistency, non-strict mode, no allocation failure, unbounded mutate counter."
  },
  {
   "property": "C46",
   "status": "proved",
   "theorems": [
    "c46_finished_exactly_when_run_and_idle"
   ],
   "note": "Any number of threads, fewer than 2^32 runs in progress at once."
  },
  {
   "property": "C47",
   "status": "proved",
   "theorems": [
    "c47_fifo_each_once",
    "c47_serial_one_at_a_time",
    "c47_empty_test_exact_when_quiet",
    "c47_task_run_before_push_refuted"
   ],
   "note": "For users who push each task once and run it only after a pop returned it; the _refuted theorem shows that rule is needed."
  },
  {
   "property": "C48",
   "status": "proved",
   "theorems": [
    "c48_min",
    "c48_max",
    "c48_clamp"
   ],
   "note": "Integers, compared mathematically; one type for all arguments."
  },
  {
   "property": "C49",
   "status": "partial",
   "theorems": [
    "c49_sized_copy",
    "c49_sized_partial",
    "c49_sized_refuted"
   ],
   "note": "Proved for copies and for uncopied ASCII or when the terminator is where the size says; c49_sized_refuted: the length of an uncopied UTF-8 string ignores the size."
  },
  {
   "property": "C50",
   "status": "proved",
   "theorems": [
    "c50_hash"
   ],
   "note": "Any two representations, even under different maps."
  },
  {
   "property": "C51",
   "status": "partial",
   "theorems": [
    "c51_enumerate_partial",
    "c51_enumerate_refuted"
   ],
   "note": "Proved for every string except ASCII in memory with a non-zero byte in front, for which stepping past an end reads that byte (c51_enumerate_refuted)."
  },
  {
   "property": "C52",
   "status": "partial",
   "theorems": [
    "c52_strings_partial",
    "c52_refuted"
   ],
   "note": "Proved for every history while the current path begins with a volume, has no relative root and is not replaced; c52_refuted: a cached full string is given after FSPathSetCurrent, a relative current path recurses without end, a current path without a volume dereferences NULL."
  },
  {
   "property": "C53",
   "status": "partial",
   "theorems": [
    "c53_valid_partial",
    "c53_freed",
    "c53_refuted"
   ],
   "note": "Proved while only such strings are asked for as the path has; c53_freed and c53_refuted: asking a directory path for its filename frees the string it gave before."
  },
  {
   "property": "C54",
   "status": "partial",
   "theorems": [
    "c54_fast_array_failed_insertion",
    "c54_list_failed_insertion_partial",
    "c54_list_replace_refuted",
    "c54_array_growth_refuted",
    "c54_array_entry_refuted"
   ],
   "note": "Proved for the fast array, and for the list but for replacements; refuted for a replacement in the list (the element after it is removed) and for the array (an entry that denotes nothing; an element without an entry)."
  },
  {
   "property": "C55",
   "status": "proved",
   "theorems": [
    "c55_weight",
    "c55_create_best",
    "c55_registry",
    "c55_most_recent_first",
    "c55_order_kept",
    "c55_built_in",
    "c55_above_max",
    "c55_int_min"
   ],
   "note": "All hints and registries; ratings of other implementations are arbitrary functions of the hint above INT_MIN (c55_int_min: one rated INT_MIN is never used)."
  },
  {
   "property": "C56",
   "status": "proved",
   "theorems": [
    "c56_same_results",
    "c56_same_enumeration",
    "c56_key_value"
   ],
   "note": "All hash functions, bucket counts and call sequences; results of calls, failures and enumeration."
  },
  {
   "property": "C57",
   "status": "partial",
   "theorems": [
    "c57_dictionary_partial",
    "c57_destroyed_once_partial",
    "c57_unset_entry_refuted"
   ],
   "note": "Proved for programs that give every entry they create a value (c57_dictionary_partial, c57_destroyed_once_partial), whatever the load-factor test says, up to 2^33 actions and for hints without both size bits. Refuted when an entry made by CCDictionaryEntryForKey is never given a value: after a growth it counts as initialised and the value destructor gets memory nobody wrote (c57_unset_entry_refuted)."
  },
  {
   "property": "C58",
   "status": "partial",
   "theorems": [
    "c58_entries_refuted",
    "c58_entries_partial"
   ],
   "note": "False across a growth: the entry of one key becomes that of another (c58_entries_refuted). Proved through every program that neither grows the table nor deletes the key (c58_entries_partial)."
  },
  {
   "property": "C59",
   "status": "partial",
   "theorems": [
    "c59_transparent_partial",
    "c59_continue_partial",
    "c59_refuted",
    "c59_stored"
   ],
   "note": "Proved for programs of Write and Flush with counts of 1 to 7 bytes (c59_transparent_partial), and with WriteContinue when no continued run goes past its greatest length (c59_continue_partial); false otherwise, and with 8-byte counts every write is undefined (c59_refuted). What is stored: c59_stored."
  },
  {
   "property": "C60",
   "status": "partial",
   "theorems": [
    "c60_fixed",
    "c60_small_sizes_partial",
    "c60_variable_partial",
    "c60_unsigned64",
    "c60_signed64",
    "c60_refuted"
   ],
   "note": "Proved for fixed sizes (c60_fixed), for variable lengths of up to 7 bytes unsigned and 6 bytes signed (c60_small_sizes_partial), and for larger ones below 2^56 or within 2^48 (c60_variable_partial). Exactly what happens to 64-bit integers: c60_unsigned64, c60_signed64. False beyond, and for numbers the reader cannot hold (c60_refuted)."
  },
  {
   "property": "C61",
   "status": "partial",
   "theorems": [
    "c61_round_trip_partial",
    "c61_refuted",
    "c61_nested_never_read"
   ],
   "note": "Proved for all types and values in which no element of an enumerable has an enumerable with elements in it (c61_round_trip_partial); such values come back with released elements (c61_refuted) and no stream gives them (c61_nested_never_read). Integers are those C60 keeps. Static pointers and opaque types are left out."
  },
  {
   "property": "C62",
   "status": "partial",
   "theorems": [
    "c62_types_partial",
    "c62_value_with_type_partial"
   ],
   "note": "Proved for all graphs of types without static pointers and without opaque types that are not looked up, with sizes below 2^56 and enumerable counts below 2^48 or unknown (c62_types_partial), and with a value behind the type (c62_value_with_type_partial). The functions that write and read a destructor are the program's and are assumed to fit together. The format does not keep field names."
  },
  {
   "property": "C63",
   "status": "partial",
   "theorems": [
    "c63_transfer_partial",
    "c63_copy_partial",
    "c63_source_untouched_partial",
    "c63_independent_partial",
    "c63_void_refuted",
    "c63_nested_refuted"
   ],
   "note": "Proved for values in which no element of an enumerable has an enumerable with elements in it: c63_transfer_partial, c63_copy_partial, c63_source_untouched_partial, c63_independent_partial. False for such values (c63_nested_refuted) and for void pointers that own their object, which end up with two owners (c63_void_refuted). Static pointers, validators and opaque types are left out."
  },
  {
   "property": "C64",
   "status": "partial",
   "theorems": [
    "c64_read",
    "c64_overwrite",
    "c64_read_back",
    "c64_insert_exactly",
    "c64_insert_partial",
    "c64_insert_refuted",
    "c64_remove_partial",
    "c64_remove_refuted",
    "c64_refused",
    "c64_from_offset_partial",
    "c64_remove_update_partial",
    "c64_change_from_offset_partial",
    "c64_from_offset_refuted"
   ],
   "note": "Reading and overwriting: c64_read, c64_overwrite, c64_read_back. What inserting does exactly: c64_insert_exactly; it is an insertion when c64_insert_partial says so and not otherwise (c64_insert_refuted: bytes are repeated when the rest is longer than the block and the data shorter; inserting past the end does not end). Removing: c64_remove_partial, c64_remove_update_partial, c64_remove_refuted. The variants with an offset are proved for reading and writing (c64_from_offset_partial) and for inserting and removing (c64_change_from_offset_partial), and a refused operation moves the offset (c64_from_offset_refuted)."
  },
  {
   "property": "C65",
   "status": "partial",
   "theorems": [
    "c65_read_and_write",
    "c65_insert_partial",
    "c65_insert_refuted",
    "c65_remove_partial"
   ],
   "note": "Reading and overwriting: c65_read_and_write. Inserting within the file and removing: c65_insert_partial, c65_remove_partial. Inserting at or past the end writes the data twice (c65_insert_refuted)."
  },
  {
   "property": "C66",
   "status": "partial",
   "theorems": [
    "c66_copy_exactly",
    "c66_copy_partial",
    "c66_copy_refuted"
   ],
   "note": "What a copy gives exactly: c66_copy_exactly. It is the source if and only if the destination was not longer (c66_copy_partial, c66_copy_refuted): the destination is not truncated."
  },
  {
   "property": "C67",
   "status": "proved",
   "theorems": [
    "c67_exclusive",
    "c67_no_assertion_fails",
    "c67_stable",
    "c67_progress"
   ],
   "note": "c67_exclusive, c67_no_assertion_fails, c67_stable, c67_progress. Sequentially consistent memory."
  },
  {
   "property": "C68",
   "status": "partial",
   "theorems": [
    "c68_exists_directory",
    "c68_exists_file_partial",
    "c68_create_directory",
    "c68_create_file_partial",
    "c68_remove_directory_partial",
    "c68_remove_file_partial",
    "c68_parents_partial",
    "c68_relative_partial",
    "c68_kind_refuted",
    "c68_root_refuted",
    "c68_deep_refuted",
    "c68_relative_parent_refuted",
    "c68_hidden_refuted"
   ],
   "note": "For paths of up to 125 components after the root: c68_exists_directory, c68_create_directory, c68_remove_directory_partial, c68_parents_partial, c68_relative_partial, and for files c68_exists_file_partial, c68_create_file_partial, c68_remove_file_partial. False: the path of a file finds a directory of that name (c68_kind_refuted), removing the root and longer paths are undefined (c68_root_refuted, c68_deep_refuted), the first '..' of a relative path is ignored (c68_relative_parent_refuted), and '.x' is the same file as 'x' (c68_hidden_refuted). Creating and removing is not proved for paths with '..' or relative ones."
  },
  {
   "property": "C69",
   "status": "partial",
   "theorems": [
    "c69_reached",
    "c69_listing_partial",
    "c69_blacklist_refuted"
   ],
   "note": "Proved for every volume reachable from the empty one by creating, removing and writing: the listing is complete, exact and without repetition, for every filter, to a depth of 125 directories (the nodes of a path are kept in an array of 128). Refuted: with the blacklist option and no names nothing is listed instead of everything (c69_blacklist_refuted). FSMatchSkipHidden is not looked at by the code, so it is not an option of the model and hidden files are listed. Missing: files whose names cannot be written as a path."
  },
  {
   "property": "C70",
   "status": "partial",
   "theorems": [
    "c70_copy_file_partial",
    "c70_copy_directory_partial",
    "c70_move_file_partial",
    "c70_move_directory_partial",
    "c70_empty_directory_refuted",
    "c70_overwrite_refuted",
    "c70_move_onto_itself_refuted",
    "c70_move_loses_refuted",
    "c70_into_itself_refuted"
   ],
   "note": "Proved: a file is copied or moved to a free path, a directory without empty directories is copied or moved to a free path outside itself, with everything in it and nothing else changed; what is at the destination of a file copy is overwritten. Refuted: copying an empty directory enumerates NULL, a copy onto a longer file leaves its end, moving a file onto itself removes it, moving a directory onto another loses the files that cannot be copied, copying a directory into itself does not end within the buffer."
  },
  {
   "property": "C71",
   "status": "partial",
   "theorems": [
    "c71_fast_hash_agrees",
    "c71_big_hash_agrees",
    "c71_same_hash_partial",
    "c71_int_lawful",
    "c71_big_lawful",
    "c71_int_dictionary_partial",
    "c71_big_dictionary_partial",
    "c71_negative_zero_refuted",
    "c71_string_lawful_partial",
    "c71_string_dictionary_partial",
    "c71_empty_string_refuted"
   ],
   "note": "Hashes agree with comparators for all big integers and fast big integers (c71_*_hash_agrees, c71_*_lawful); dictionaries keyed by them, or by strings, are maps from values (c71_*_dictionary_partial) when no key is a negative zero or an empty string. Refuted otherwise: -5 + 5 is a zero that 0 does not find; the empty constant string is not found under the inline empty string's entry."
  },
  {
   "property": "C72",
   "status": "partial",
   "theorems": [
    "c72_no_false_alarm",
    "c72_changes_noticed_partial",
    "c72_before_refuted",
    "c72_size_refuted",
    "c72_overflow_refuted"
   ],
   "note": "No false alarms, contents kept over resizes (c72_no_false_alarm); a change of any of the 8 bytes after the allocation, or of the 8 bytes that end 16 bytes before it, is noticed at the next resize or deallocation, and only such a change is (c72_changes_noticed_partial), as long as the allocator's own fields are untouched. Refuted: a write 1 to 16 bytes before the allocation hits CCAllocatorHeader, not the guard, and can go unnoticed (c72_before_refuted); overwriting the stored size hides an overrun (c72_size_refuted); sizes just below 2^64 wrap the request to malloc (c72_overflow_refuted)."
  },
  {
   "property": "C73",
   "status": "partial",
   "theorems": [
    "c73_zone_allocator_partial",
    "c73_resize_exact_partial",
    "c73_newest_refuted",
    "c73_overlap_refuted",
    "c73_large_refuted"
   ],
   "note": "Every program in a zone of any block size that keeps to three rules for growing an allocation works, with alignment, separation and contents (c73_zone_allocator_partial); the rules are exact (c73_resize_exact_partial). Refuted beyond them, for every reachable zone: the reallocators copy the new size from the old address, so growing the newest allocation past its block's end always reads behind the block (c73_newest_refuted) and growing one over the place of its new memory copies overlapping bytes (c73_overlap_refuted). Sizes within 32 bytes of the block size pass the allocator's test and fail in the zone (c73_large_refuted). References on the zone are not modelled."
  },
  {
   "property": "C74",
   "status": "partial",
   "theorems": [
    "c74_tracks_exactly_partial",
    "c74_asked_partial",
    "c74_asked_alone_partial",
    "c74_race_refuted",
    "c74_other_type_refuted",
    "c74_failed_resize_refuted",
    "c74_report_partial"
   ],
   "note": "For every interleaving of any number of threads in which no address is given out again while a resize from it is in progress: tracked once, always, and exactly when no call is in progress (c74_tracks_exactly_partial); the answers are right (c74_asked_partial, c74_asked_alone_partial); the report lists them (c74_report_partial). Refuted otherwise: a race between a resize and the reuse of its old address leaves a live allocation untracked and a free one tracked (c74_race_refuted). CCReallocate with another allocator type dereferences NULL (c74_other_type_refuted) and a failed resize is an assertion failure (c74_failed_resize_refuted). The list's operations are atomic (C45); its creation is not modelled."
  },
  {
   "property": "C75",
   "status": "partial",
   "theorems": [
    "c75_groups_in_order",
    "c75_same_allocator",
    "c75_resize",
    "c75_static_partial",
    "c75_static_aligned_refuted",
    "c75_static_free_refuted"
   ],
   "note": "Proved for all nestings and programs: the order of groups (c75_groups_in_order), memory stays with its allocator (c75_same_allocator), what a resize asks for (c75_resize). Static memory resizes up to its size for types of alignment up to 8 (c75_static_partial). Refuted: for alignment 16 it never does, since the header is not where it is looked for (c75_static_aligned_refuted), and CCFree of static memory that was not retained is a failed assertion (c75_static_free_refuted). Groups are not used by several threads at once; programs in c75_groups_in_order use no second group."
  },
  {
   "property": "C76",
   "status": "partial",
   "theorems": [
    "c76_info",
    "c76_binary_partial",
    "c76_binary_narrow_refuted",
    "c76_negative_width_refuted",
    "c76_zero_flag_refuted",
    "c76_deletion",
    "c76_array_partial",
    "c76_array_empty_refuted",
    "c76_string",
    "c76_declined_partial",
    "c76_deletion_star_refuted"
   ],
   "note": "Reading of specifiers (c76_info), %DEL (c76_deletion) and %S (c76_string) in full; %B (c76_binary_partial) and arrays (c76_array_partial) outside the refuted cases; the specifiers of printf are left alone unless their width is an argument (c76_declined_partial). Refuted: %#hhB of a value wider than the length reads before its digits (c76_binary_narrow_refuted), a negative width from the arguments fills about 2^64 characters (c76_negative_width_refuted), the 0 flag with a width and a precision (c76_zero_flag_refuted), an array specifier with count 0 does not take its array (c76_array_empty_refuted), and %DEL takes the width argument of other specifiers (c76_deletion_star_refuted). What printf shows for a directive is a parameter; %c of CCChar is not modelled."
  },
  {
   "property": "C77",
   "status": "partial",
   "theorems": [
    "c77_message_partial",
    "c77_no_filters_partial",
    "c77_filters_transparent_partial",
    "c77_star_refuted",
    "c77_message_filter_refuted",
    "c77_failed_write_refuted",
    "c77_line_refuted"
   ],
   "note": "Proved for all formats, filters and lengths, with at least one specifier filter (c77_message_partial), without filters (c77_no_filters_partial) and for the library's own filters on formats that do not use them (c77_filters_transparent_partial), when widths and precisions are not arguments and the line is below 2^31. Refuted: CCLogv does not skip the arguments of * (c77_star_refuted), message filters without specifier filters write outside the buffer (c77_message_filter_refuted), so does the write after one that ran out of memory (c77_failed_write_refuted), and lines from 2^31 are shown as negative (c77_line_refuted). Input filters and the outputs (console, files, syslog) are not modelled."
  },
  {
   "property": "C78",
   "status": "partial",
   "theorems": [
    "c78_once_partial",
    "c78_no_paths",
    "c78_empty_path_refuted",
    "c78_no_file_refuted"
   ],
   "note": "For all paths that are not empty, all file names and any registrations: exactly one message with the shortened name (c78_once_partial), which the specification determines; without paths nothing changes (c78_no_paths). Refuted: with an empty path CCLog never returns (c78_empty_path_refuted), and with any path a call without a file name, which the documentation allows, passes NULL to strncmp (c78_no_file_refuted). Other input filters only look; the shared va_list is not modelled."
  },
  {
   "property": "C79",
   "status": "partial",
   "theorems": [
    "c79_big_int_partial",
    "c79_zero_refuted",
    "c79_fast_partial"
   ],
   "note": "For all canonical integers of any size and all intents, the integer comes back exactly when it is not a zero that is serialized (c79_big_int_partial; c79_fast_partial, where sharing and copying boxed integers also needs a size that CCBigIntSetBigInt copies, see C14). Refuted: a serialized zero comes back without components; it is not equal to zero and copying it fails an assertion (c79_zero_refuted)."
  },
  {
   "property": "C80",
   "status": "partial",
   "theorems": [
    "c80_copied",
    "c80_serialized_partial",
    "c80_serialized_refuted"
   ],
   "note": "Transferred, shared and copied strings have their characters (c80_copied). Serialized, displayed and inspected strings have them exactly when all are ASCII, for the tables of ASCII characters that are the default (c80_serialized_partial): the mapper hands on as many bytes as there are characters. Refuted on a text with one other character, which loses its end (c80_serialized_refuted)."
  },
  {
   "property": "C81",
   "status": "partial",
   "theorems": [
    "c81_distinct",
    "c81_lookup_partial",
    "c81_offset_refuted"
   ],
   "note": "Distinct types have distinct indices with every offset (c81_distinct). The index leads back to the type exactly with the offsets 0 and 128 (c81_lookup_partial): the offset is added again instead of taken off. Refuted with the offset 1, where another type or a failed assertion results (c81_offset_refuted)."
  },
  {
   "property": "C82",
   "status": "partial",
   "theorems": [
    "c82_ulps_partial",
    "c82_equal_partial",
    "c82_signs",
    "c82_signs_refuted",
    "c82_nan_refuted"
   ],
   "note": "For all finite floats of the same sign, CCFloatGetUlps is the number of floats from one to the other (c82_ulps_partial) and CCFloatEqualUlps compares it with the limit (c82_equal_partial). Floats of opposite signs are equal exactly when they are the zeros (c82_signs), so the claim is refuted next to zero (c82_signs_refuted); NaNs are equal to themselves and infinity to the greatest float (c82_nan_refuted)."
  },
  {
   "property": "C83",
   "status": "partial",
   "theorems": [
    "c83_power_partial",
    "c83_power_refuted"
   ],
   "note": "For all floats and doubles the result is true exactly for the normal numbers whose absolute value is a power of 2 and for the infinities (c83_power_partial). Refuted for subnormal powers of 2, negative numbers and infinities (c83_power_refuted)."
  },
  {
   "property": "C84",
   "status": "partial",
   "theorems": [
    "c84_handle",
    "c84_array_partial",
    "c84_array_empty_refuted",
    "c84_list_partial",
    "c84_list_memory_refuted",
    "c84_linked_list",
    "c84_queue"
   ],
   "note": "For every container that calls of the API lead to: a linked list and a queue are copied with their values in order (c84_linked_list, c84_queue), a list is if its memory can be had (c84_list_partial), an array exactly when it is not empty (c84_array_partial); what is transferred, shared or NULL is passed on (c84_handle). Refuted: copying an empty array fails an assertion (c84_array_empty_refuted), and when memory runs out elements are missing in the copy of a list without notice (c84_list_memory_refuted). The copying of the elements themselves is C63."
  },
  {
   "property": "C85",
   "status": "partial",
   "theorems": [
    "c85_map_partial",
    "c85_handle",
    "c85_uninitialised_refuted"
   ],
   "note": "After every history of calls by key the copy answers every later history as the original (c85_map_partial), c85_handle for the other intents. Refuted for entries that were made and not given a value: the copy has one (c85_uninitialised_refuted). Missing: what C09 leaves out (64-bit entry numbers are assumed to suffice)."
  },
  {
   "property": "C86",
   "status": "partial",
   "theorems": [
    "c86_custom",
    "c86_alignment_refuted"
   ],
   "note": "Proved for all programs by refinement of blocks without headers (c86_custom). Refuted: the memory a program gets is never aligned for every type, since 24 + 16 bytes are put in front (c86_alignment_refuted). The functions of the user are taken to do what malloc, realloc and free do."
  },
  {
   "property": "C87",
   "status": "partial",
   "theorems": [
    "c87_callback",
    "c87_size_refuted",
    "c87_size_partial",
    "c87_alignment_refuted"
   ],
   "note": "Proved for all programs by refinement of blocks without headers (c87_callback); the size is the one asked for when the callback leaves it alone (c87_size_partial) and need not be otherwise (c87_size_refuted). Refuted: the memory a program gets is never aligned for every type (c87_alignment_refuted). A callback's own effects on memory are not modelled."
  },
  {
   "property": "C88",
   "status": "partial",
   "theorems": [
    "c88_copy_partial",
    "c88_handle",
    "c88_memory_refuted"
   ],
   "note": "Proved for the nine pairs of the three implementations, for all histories by index that do not run out of memory, with memory for every insertion into the copy (c88_copy_partial, c88_handle). Refuted: an insertion that fails is not reported and the copy lacks the element (c88_memory_refuted)."
  },
  {
   "property": "C89",
   "status": "partial",
   "theorems": [
    "c89_dictionary_partial",
    "c89_handle",
    "c89_unset_refuted"
   ],
   "note": "Proved for all histories by keys of up to 2^33 calls (c89_dictionary_partial, c89_handle). Refuted: an entry that was never set is copied as one with whatever was in memory, and its destructor then runs on that (c89_unset_refuted)."
  },
  {
   "property": "C90",
   "status": "partial",
   "theorems": [
    "c90_owned_partial",
    "c90_once_partial",
    "c90_no_memory_refuted",
    "c90_push_refuted"
   ],
   "note": "Proved for all histories of calls made one after another with memory for what they need (c90_owned_partial, c90_once_partial). Refuted: without memory for the input or output CCTaskCreate returns a task it has released (c90_no_memory_refuted); without memory for the node CCTaskQueuePush fails an assertion (c90_push_refuted). Concurrent calls are those of C46 and C47."
  },
  {
   "property": "C91",
   "status": "partial",
   "theorems": [
    "c91_cross",
    "c91_project",
    "c91_normalize",
    "c91_distance",
    "c91_lerp",
    "c91_clamp",
    "c91_normal",
    "c91_angle_partial",
    "c91_angle_refuted",
    "c91_tests_partial",
    "c91_tests_refuted"
   ],
   "note": "exact real arithmetic. The laws are proved for all vectors. Refuted: CCVector3Angle gives the cosine, not the angle (partial: it is the cosine of the angle), and CCVector3Parallel and CCVector3Ortho compare with an absolute 1e-6, so short orthogonal vectors count as parallel and a short vector as orthogonal to itself (partial: no parallel or orthogonal pair is missed)"
  },
  {
   "property": "C92",
   "status": "proved",
   "theorems": [
    "c92_product",
    "c92_make",
    "c92_translate",
    "c92_scale",
    "c92_rotation",
    "c92_rotation_axes",
    "c92_ortho",
    "c92_frustum",
    "c92_perspective",
    "c92_projected"
   ],
   "note": "exact real arithmetic: rounding is not modelled"
  },
  {
   "property": "C93",
   "status": "partial",
   "theorems": [
    "c93_plane",
    "c93_two",
    "c93_two_compare",
    "c93_packed",
    "c93_three",
    "c93_normal",
    "c93_three_agree",
    "c93_four",
    "c93_normalize_partial",
    "c93_normalize_refuted"
   ],
   "note": "exact real arithmetic; the angle functions give the cosine (see C91). Proved for all instruction sets and registers but for CCVectorize2Normalize, which without SSE and with SSE4.1 fails its assertion for every vector (c93_normalize_refuted); with SSE, SSE2 and SSE3 it is right for vectors loaded by CCVectorizeVector2D (c93_normalize_partial). The componentwise functions on three and four coordinates that are one instruction are not restated"
  },
  {
   "property": "C94",
   "status": "partial",
   "theorems": [
    "c94_positive_partial",
    "c94_signs_partial",
    "c94_negative_refuted",
    "c94_nan_refuted",
    "c94_mixed_refuted"
   ],
   "note": "Proved when no number in any lane is negative or NaN, and when the signs differ in every lane (c94_positive_partial, c94_signs_partial). Refuted otherwise: two negative numbers are always equal, a NaN is equal to anything, and numbers of different signs depend on the other lanes (c94_negative_refuted, c94_nan_refuted, c94_mixed_refuted)"
  },
  {
   "property": "C95",
   "status": "partial",
   "theorems": [
    "c95_rotate_partial",
    "c95_rotate_refuted",
    "c95_lowest",
    "c95_mask_partial",
    "c95_mask_refuted",
    "c95_count",
    "c95_order",
    "c95_divide",
    "c95_madd"
   ],
   "note": "one lane of the fallback bodies, the primitive operations as the ARM instructions do them. Refuted for rotations of negative signed lanes, which are filled with the sign (c95_rotate_refuted), and for the mask, highest bit and next power of two of 64-bit lanes, where the step by 32 is missing and the mask reaches only 48 bits down (c95_mask_refuted); proved for the rest. A signed least number divided by -1 is left out (undefined for 32 and 64 bits). Horizontal functions and trigonometry of SimdFallback.h are not modelled."
  },
  {
   "property": "C96",
   "status": "partial",
   "theorems": [
    "c96_file_partial",
    "c96_plain_partial",
    "c96_file_refuted",
    "c96_directory_partial",
    "c96_directory_refuted"
   ],
   "note": "the path it moves to; the move is one system call. Proved for file names that can be read back (as in C29: among others names and extensions without empty parts) and for paths that end in a directory's name. Refuted for names with a last dot, two dots in a row or two first dots, where the file gets another name or the path of its directory (c96_file_refuted), and for paths that end in '..' or are the root or nothing (c96_directory_refuted)."
  },
  {
   "property": "C97",
   "status": "partial",
   "theorems": [
    "c97_every",
    "c97_none",
    "c97_found_partial",
    "c97_refuted"
   ],
   "note": "Proved when no separator follows the component, when the path begins with a component of two or more bytes, and when two or more bytes precede the component. Refuted for the rest (c97_refuted): 'a/' gives NULL, and '/ab/' gives '/ab'. Pointers in front of the string are taken to work."
  },
  {
   "property": "C98",
   "status": "partial",
   "theorems": [
    "c98_get_remove",
    "c98_keys_values",
    "c98_set_partial",
    "c98_set_refuted",
    "c98_applies",
    "c98_hash_partial",
    "c98_hash_lawful",
    "c98_hash_refuted"
   ],
   "note": "Getting, removing and listing are proved for every implementation, setting for keys that are in the map. Refuted: setting a key that is not in the map does nothing, whatever the implementation (c98_set_refuted), and on big endian machines the hash of a key of fewer than 8 bytes is written out of bounds (c98_hash_refuted). Missing: the collections the lists are returned in (C07), implementations with their own rehash function."
  },
  {
   "property": "C99",
   "status": "partial",
   "theorems": [
    "c99_elements",
    "c99_only",
    "c99_again",
    "c99_full_refuted"
   ],
   "note": "Proved for every array with its terminator, with the converse (c99_only). Refuted: every array that is full is read past its end, as the size of the type is not looked at (c99_full_refuted)."
  },
  {
   "property": "C100",
   "status": "partial",
   "theorems": [
    "c100_enumerates_partial",
    "c100_loops_partial",
    "c100_onward_partial",
    "c100_inside",
    "c100_past_end_refuted",
    "c100_short_refuted",
    "c100_back_refuted",
    "c100_nothing",
    "c100_grow_partial",
    "c100_grow_one_partial",
    "c100_grow_refuted"
   ],
   "note": "Proved for every zone with an item in each block from the first one on, whole strides to the first item (not needed for going on alone), and no run off the end of a last block begun in its middle; growth of the last block by items, when there are other blocks before it in the enumeration or it is visited from its beginning. Refuted outside: pointers past the end (c100_past_end_refuted), items lost behind a small block (c100_short_refuted), other pointers on the way back (c100_back_refuted), items passed over or more than asked for after growth (c100_grow_refuted), and the tail of an enumerable with nothing to visit dereferences NULL (c100_nothing). Missing: negative offsets."
  },
  {
   "property": "C101",
   "status": "partial",
   "theorems": [
    "c101_version_partial",
    "c101_fourth_refuted",
    "c101_cached",
    "c101_asked_again",
    "c101_ios",
    "c101_osx_partial",
    "c101_osx_refuted"
   ],
   "note": "Proved: one to three numbers below 2^32, the calls after the first, the order of literals on iOS (minor versions below 100) and of 10.0 to 10.99 on OS X. Refuted: every fourth number is written out of bounds (c101_fourth_refuted), and OS X 11.0 and later have smaller literals than 10.10 (c101_osx_refuted). Missing: the calls of Core Foundation."
  },
  {
   "property": "C102",
   "status": "partial",
   "theorems": [
    "c102_name",
    "c102_stripped_partial",
    "c102_stripped_refuted",
    "c102_cached_partial"
   ],
   "note": "Proved for all paths that end with the name and all names of ASCII characters that fit, with the calls in any order. Refuted: names with other characters are passed to isalnum as negative numbers, longer names are written out of bounds (c102_stripped_refuted). Missing: the calls of the system; paths that end with separators are those of C97."
  },
  {
   "property": "C103",
   "status": "partial",
   "theorems": [
    "c103_size_modulo",
    "c103_size_partial",
    "c103_elements_partial",
    "c103_unsupported",
    "c103_overflow_refuted"
   ],
   "note": "Proved for all types modulo 2^64, exactly for those whose values take fewer than 2^64 bytes, and which types have no size. Refuted: an array of 2^32 arrays of 2^32 bytes has the size 0 (c103_overflow_refuted)."
  }
 ]
}