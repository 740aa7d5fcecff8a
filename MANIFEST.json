{
 "claims": [
  {
   "property": "C01",
   "status": "partial",
   "theorems": [
    "C01_round_trip",
    "C01_serialize_succeeds",
    "C01_empty_heap_string_refuted"
   ],
   "note": "Proved for every graph whose hash tables hold no tombstones and whose heap strings are non-empty, source memory total, images below 2^62 bytes, offset-pointer reader. Empty heap strings refuted (C01_empty_heap_string_refuted); tables with tombstones refuted (C40)."
  },
  {
   "property": "C02",
   "status": "proved",
   "theorems": [
    "C02_pointers"
   ],
   "note": "All graphs of C01: forward, backward, cyclic and interior pointers; dangling ones become null."
  },
  {
   "property": "C03",
   "status": "proved",
   "theorems": [
    "C03_offset_ptr_relocation",
    "C03_position_independent",
    "C03_serialized_everywhere",
    "C03_hostile_acceptance_refuted"
   ],
   "note": "Any buffer accepted at two addresses reads the same at both; serialized buffers are accepted everywhere. For hostile bytes acceptance itself may depend on the address (C03_hostile_acceptance_refuted)."
  },
  {
   "property": "C04",
   "status": "partial",
   "theorems": [
    "C04_in_bounds_partial",
    "C04_reads_inside_partial",
    "C04_cstring_unchecked_refuted",
    "C04_signed_overflow_refuted"
   ],
   "note": "Every byte sequence, every type without generic_cstring, wrapping pointer arithmetic. generic_cstring is not checked at all and strict signed overflow is UB: both refuted."
  },
  {
   "property": "C05",
   "status": "partial",
   "theorems": [
    "C05_terminates_partial",
    "C05_recursive_type_refuted"
   ],
   "note": "Depth bounded by the nesting of the type; unbounded for recursive types (C05_recursive_type_refuted)."
  },
  {
   "property": "C06",
   "status": "proved",
   "theorems": [
    "C06_single_byte_corruption_detected",
    "C06_unmodified_accepted"
   ],
   "note": "FNV-1a configuration. Any single-byte change at or behind the stored checksum is rejected; what the writer produced is accepted."
  },
  {
   "property": "C07",
   "status": "proved",
   "theorems": [
    "C07_check_exact"
   ],
   "note": "check accepts exactly the buffers with the right header; never reads outside."
  },
  {
   "property": "C08",
   "status": "partial",
   "theorems": [
    "C08_root_offset_agrees",
    "C08_alignment_16_refuted",
    "C08_skip_flag_writer_refuted"
   ],
   "note": "Proved for root alignments dividing the header size (all alignments up to 8). False for alignment 16 with one header word (C08_alignment_16_refuted) and for SKIP_ flags passed to serialize (C08_skip_flag_writer_refuted)."
  },
  {
   "property": "C09",
   "status": "proved",
   "theorems": [
    "C09_convert_involutive",
    "C09_written_bytes_host_independent",
    "C09_cross_host_roundtrip"
   ],
   "note": "All scalar widths, both host byte orders."
  },
  {
   "property": "C10",
   "status": "partial",
   "theorems": [
    "C10_offset_ptr_like_raw",
    "C10_post_increment_refuted"
   ],
   "note": "Everything except post-increment/decrement refines raw pointers; post-increment is refuted (C10_post_increment_refuted)."
  },
  {
   "property": "C11",
   "status": "proved",
   "theorems": [
    "C11_hash_map_refines_finite_map",
    "C11_hash_map_equality"
   ],
   "note": "All histories over emplace/insert, operator[], find, at, get, erase, clear, rehash, size, iteration and copy; any lawful hash; allocation limit explicit. operator== too."
  },
  {
   "property": "C12",
   "status": "proved",
   "theorems": [
    "C12_no_ub_no_endless_probe",
    "C12_find_terminates",
    "C12_capacity_and_load"
   ],
   "note": "For every history; outcomes UB and endless probing excluded."
  },
  {
   "property": "C13",
   "status": "proved",
   "theorems": [
    "C13_iteration_visits_each_once"
   ],
   "note": "Iteration is a permutation of the abstract map."
  },
  {
   "property": "C14",
   "status": "partial",
   "theorems": [
    "C14_vector",
    "C14_lifetime_partial",
    "C14_reserve_wraps_refuted",
    "C14_push_own_element_refuted",
    "C14_insert_result_refuted",
    "C14_insert_result",
    "C14_insert_empty_range",
    "C14_insert_empty_range_refuted",
    "C14_self_move",
    "C14_erase_range_result_refuted",
    "C14_shrink_leaks_refuted",
    "C14_set_leaks_refuted",
    "C14_copy_assign_leaks_refuted"
   ],
   "note": "Refinement to sequences for all histories over several vectors, any element type and size width, up to half the size type's range, empty forward ranges inserted only at the end. Refuted: inserting an empty forward range before other elements moves them onto themselves (nested vectors lose their contents); shrinking resize, set and copy assignment leak; aliasing push_back; oversized reserve; the positions returned by insert and erase(range)."
  },
  {
   "property": "C15",
   "status": "proved",
   "theorems": [
    "C15_compare",
    "C15_strict_total_order"
   ],
   "note": "All five operators against lexicographic order, and strict total order."
  },
  {
   "property": "C16",
   "status": "proved",
   "theorems": [
    "C16_bitset"
   ],
   "note": "Every size, every history over several bitsets, every index and shift amount, all observers."
  },
  {
   "property": "C17",
   "status": "partial",
   "theorems": [
    "C17_bitvec_partial",
    "C17_next_set_bit_partial",
    "C17_next_set_bit_exact",
    "C17_unused_bits_zero",
    "C17_full_shift_refuted",
    "C17_reset_refuted",
    "C17_next_set_bit_refuted",
    "C17_adopt_refuted"
   ],
   "note": "Every history (also of bit vectors made from given blocks) except reset(), shifts by at least the size, next_set_bit inside a partly used last block, and construction from more blocks than the size needs. Those are refuted: the first two leave a size without blocks (UB on next access), the third can return an index behind the end, the fourth counts hidden bits."
  },
  {
   "property": "C18",
   "status": "proved",
   "theorems": [
    "C18_get_next",
    "C18_garbage_refuted"
   ],
   "note": "Every schedule, thread count and start value below 2^32, compare-exchange may fail spuriously. Needs unused bits that are zero or invisible; otherwise refuted (C18_garbage_refuted)."
  },
  {
   "property": "C19",
   "status": "proved",
   "theorems": [
    "C19_atomic_set",
    "C19_no_lost_bit",
    "C19_plain_set_refuted"
   ],
   "note": "Every schedule. Single-location atomicity of fetch_or/fetch_and is the assumption. The plain set is shown to lose updates."
  },
  {
   "property": "C20",
   "status": "partial",
   "theorems": [
    "C20_fetch_min",
    "C20_fetch_max_noop",
    "C20_fetch_max_refuted"
   ],
   "note": "fetch_min linearizable and computes the minimum under every schedule. fetch_max is refuted: it never changes the cell."
  },
  {
   "property": "C21",
   "status": "partial",
   "theorems": [
    "C21_string_partial",
    "C21_embedded_nul_refuted",
    "C21_own_piece_refuted",
    "C21_own_piece_when",
    "C21_view_self_refuted",
    "C21_view_of_owner_refuted",
    "C21_long_refuted"
   ],
   "note": "Whole histories of owning and viewing strings, also of views that become owners of a piece of their own characters, agree with character sequences and free every block exactly once (C21_string_partial). Refuted outside the precondition: embedded NUL in short strings, assigning a piece of an owning string to itself (C21_own_piece_when: after every history, a freed block is read or the string becomes empty), self-assignment of a short view, 2^32 characters. C21_view_of_owner_refuted: a view of an owning string dangles once the owner changes."
  },
  {
   "property": "C22",
   "status": "partial",
   "theorems": [
    "C22_cstring_partial",
    "C22_move_leaks_refuted",
    "C22_self_move_refuted",
    "C22_self_assign_refuted",
    "C22_own_piece_when",
    "C22_raw_moved_refuted",
    "C22_long_refuted"
   ],
   "note": "Histories of cstrings agree with character sequences, data()[size()] is NUL, all blocks freed (C22_cstring_partial). Refuted: move assignment leaks the target's block, self-move and self-assignment lose or free the contents, assigning a piece of an owning cstring to itself reads a freed block or gives NULs (C22_own_piece_when), moved-from raw cstring holds 15 NULs, 2^31+144 characters overflow the inline buffer."
  },
  {
   "property": "C23",
   "status": "partial",
   "theorems": [
    "C23_vecvec_partial",
    "C23_at_size_refuted",
    "C23_front_refuted",
    "C23_shrink_refuted",
    "C23_shrink_when",
    "C23_at_size_when"
   ],
   "note": "Every history of emplace_back, add_back_sized, push_back, grow, resize, clear, element writes and reads answers as a list of lists does. Refuted: at(size()) and front() of an emptied vecvec pass the check and read out of bounds; shrinking resize leaves stale elements that later buckets expose. C23_shrink_when and C23_at_size_when say what shrinking followed by emplace_back, and at(size()) and front(), do after every history."
  },
  {
   "property": "C24",
   "status": "partial",
   "theorems": [
    "C24_multimap_partial",
    "C24_disjoint",
    "C24_count_refuted",
    "C24_erase_result_refuted",
    "C24_iterator_decrement_refuted"
   ],
   "note": "Every history of operations answers as a map from keys to lists of at most 2^lmax elements, buckets stay disjoint, and exceeding the bucket limit throws without effect. Refuted and excluded from the statement: element_count after erase(key), the iterator returned by erase of the last element, and operator-- of the bucket iterator."
  },
  {
   "property": "C25",
   "status": "partial",
   "theorems": [
    "C25_fws_multimap_partial",
    "C25_unfinished_refuted",
    "C25_last_key_refuted",
    "C25_empty_refuted",
    "C25_iterator_minus_refuted",
    "C25_unfinished_when",
    "C25_unfinished_first_when",
    "C25_last_key_when"
   ],
   "note": "Every history answers with exactly the elements pushed per key. Refuted: elements behind the last finish_key join the last key; reading the last finished key while building, iterating over a never finished map, and iterator subtraction. C25_unfinished_when, C25_unfinished_first_when and C25_last_key_when say what finish_map with unfinished elements and reading the last key do after every history."
  },
  {
   "property": "C26",
   "status": "partial",
   "theorems": [
    "C26_paged_vecvec_partial",
    "C26_disjoint",
    "C26_truncates_refuted",
    "C26_empty_refuted"
   ],
   "note": "Every history of operations answers as a list of lists of at most 2^15 elements, pages in use stay disjoint and inside the data, and an overfull page throws without effect. Refuted and excluded: containers of 2^16 elements or more, iteration over an empty paged_vecvec."
  },
  {
   "property": "C27",
   "status": "partial",
   "theorems": [
    "C27_nvec",
    "C27_two_levels_partial",
    "C27_size_refuted",
    "C27_at_refuted",
    "C27_size3_refuted",
    "C27_nvec_programs",
    "C27_nvec_write_apart"
   ],
   "note": "For every nesting depth, operator[] paths, iteration and size() give back what was stored, and programs that mix emplace_back with reads and writes of elements (operator[], at, front, back, range-for) answer as nested lists do (C27_nvec_programs); at(k,i) and size(k,i) for two levels (partial theorem). Refuted: size(k) and size(k,i) with three levels use the wrong level, at(size(), i) passes its check."
  },
  {
   "property": "C28",
   "status": "partial",
   "theorems": [
    "C28_flat_matrix_partial",
    "C28_resize_keeps",
    "C28_resize_moves_refuted",
    "C28_wraps_refuted",
    "C28_wraps_when"
   ],
   "note": "All histories with rows*columns < 2^32: cells are independent, at throws exactly outside the rows. Refuted: the 32 bit product wraps; resize to other column counts moves cells. Row iteration does not compile and is not modelled. C28_wraps_when: after every history a resize to 2^32 or more cells leaves a cell inside the matrix that cannot be read."
  },
  {
   "property": "C29",
   "status": "partial",
   "theorems": [
    "C29_rtree_exact",
    "C29_rtree_exact_default",
    "C29_path_hint_overflow_refuted",
    "C29_delete_with_function_elsewhere_refuted",
    "C29_delete_with_function_misses_overlapping_refuted"
   ],
   "note": "Every history of inserts, deletes, searches equals a plain collection, for every order on coordinates, every area heuristic, every node size >= 3, as long as fewer inserts were made than could make the tree higher than the fixed path_hint_ array (more than 2^34 for the default parameters). With nodes of 3 entries 40 inserts overflow it (C29_path_hint_overflow_refuted). delete_element_with_function neither honours nor covers its rectangle (two refutations). Coordinates without NaN."
  },
  {
   "property": "C30",
   "status": "partial",
   "theorems": [
    "C30_variant_partial",
    "C30_same_alternative_refuted",
    "C30_throwing_constructor_refuted",
    "C30_swap_empty_refuted",
    "C30_empty_equal_refuted",
    "C30_repeated_type_refuted",
    "C30_actual_partial",
    "C30_undefined_refuted"
   ],
   "note": "C30_variant_partial: any history over pairwise distinct alternative types answers as an optional (alternative, value), no UB, and finally as many objects are destroyed as were made. C30_actual_partial: the same with the calls that deviate, whose effect it states: assigning an lvalue or a variant of the same alternative is silently ignored, swap with an empty variant throws and may lose a value. C30_undefined_refuted: after every history comparing or swapping two empty variants, and using or destroying a variant after a throwing constructor, are UB. Also refuted: repeated types. Left out: self-move."
  },
  {
   "property": "C31",
   "status": "partial",
   "theorems": [
    "C31_optional_partial",
    "C31_optional_copy_refuted",
    "C31_optional_leak_refuted",
    "C31_unique_ptr_partial",
    "C31_owner_unique",
    "C31_self_move_refuted",
    "C31_reset_refuted",
    "C31_optional_actual_partial",
    "C31_unique_ptr_actual_partial"
   ],
   "note": "unique_ptr: histories refine to null/owning/pointing, heap equal, everything created by make_unique deleted at the end, owners unique and alive. optional: answers refine to option. Refuted: self-move of unique_ptr deletes, reset of a non-owning pointer does nothing, copying a non-const optional goes through bool, optional never destroys its value. C31_optional_actual_partial and C31_unique_ptr_actual_partial state the effect of these calls in any history. Left out: self-move of optional."
  },
  {
   "property": "C32",
   "status": "proved",
   "theorems": [
    "C32_layout",
    "C32_elements",
    "C32_equality",
    "C32_order",
    "C32_lengths_refuted"
   ],
   "note": "C32_layout (aligned, in bounds, disjoint for all type lists), C32_elements (byte-level reads of last writes), C32_equality and C32_order (lexicographic). C32_lengths_refuted: == of tuples of different lengths compares a prefix."
  },
  {
   "property": "C33",
   "status": "proved",
   "theorems": [
    "C33_trailing_zeros",
    "C33_leading_zeros",
    "C33_constexpr_trailing_zeros",
    "C33_popcount",
    "C33_next_power_of_two",
    "C33_next_power_of_two_wraps"
   ],
   "note": "All widths, wrap-around of next_power_of_two characterised."
  },
  {
   "property": "C34",
   "status": "partial",
   "theorems": [
    "C34_targets_partial",
    "C34_unaligned_base_refuted",
    "C34_nothing_refuted",
    "C34_patch_refuted"
   ],
   "note": "A buffer, a file and a memory map get the same bytes, offsets and checksums for every sequence of writes, patches and checksums, given aligned memory and no empty aligned write. Refuted without: the buffer aligns addresses, the file offsets; an empty aligned write desynchronises a file; a patch beyond the end extends a file. Only the default FNV hash composes over blocks and is modelled."
  },
  {
   "property": "C35",
   "status": "partial",
   "theorems": [
    "C35_checked_addition_exact",
    "C35_checked_addition_unsigned",
    "C35_checked_multiplication_exact",
    "C35_signed_multiplication_refuted"
   ],
   "note": "Addition exact for all types; multiplication exact for unsigned operands (its only use); signed multiplication refuted."
  },
  {
   "property": "C36",
   "status": "partial",
   "theorems": [
    "C36_equal_keys_hash_equally",
    "C36_lookup_by_other_type",
    "C36_default_map_is_finite_map",
    "C36_char_array_refuted",
    "C36_mixed_signs_refuted",
    "C36_float_refuted",
    "C36_bitset_refuted"
   ],
   "note": "Proved for two keys of the same type, for every key type built from integers, finite floats in range, pointers, strings, containers, structs, pairs, tuples, variants, strong, optional, bitset; for lookups by char pointer, terminated char array and other integer widths; and combined with C11. Refuted: char arrays longer than their string, mixed signedness, negative/huge/NaN floats, bitsets with unused bits set. std::hash is an oracle."
  },
  {
   "property": "C37",
   "status": "partial",
   "theorems": [
    "C37_type_hash_separates_partial",
    "C37_flat_structs_separate_partial",
    "C37_type_hash_terminates",
    "C37_member_moved_refuted",
    "C37_variant_refuted",
    "C37_pair_refuted",
    "C37_representation_refuted",
    "C37_name_refuted",
    "C37_static_array_refuted"
   ],
   "note": "Proved: types that nest alike (recursive ones too), and flat structs without that assumption, have equal layouts if the same values are fed into the hash; computing the hash ends. Refuted: members moved between nested structs or variants, pair versus container of pairs, signedness, size types, pointer kinds, names containing struct or const, static hash of arrays of vectors."
  },
  {
   "property": "C38",
   "status": "partial",
   "theorems": [
    "C38_history_partial",
    "C38_sync",
    "C38_shrink_refuted",
    "C38_failed_resize_refuted",
    "C38_move_assign_refuted"
   ],
   "note": "Every history of resize, reserve, write, read, sync and close, every crash point (process kill) and power failure after sync or close. Refuted: shrinking then growing shows old bytes; a failed resize leaves a map without memory; move assignment leaves the padding in the file."
  },
  {
   "property": "C39",
   "status": "partial",
   "theorems": [
    "C39_history_partial",
    "C39_reserve_refuted",
    "C39_alias_refuted",
    "C39_own_partial",
    "C39_readonly_push_refuted",
    "C39_position_refuted",
    "C39_killed_refuted",
    "C39_killed_when",
    "C39_readonly_push_when"
   ],
   "note": "Every history of push_back, emplace_back, all insert forms, resize, reserve, set, reads, writes, close and reopen against a sequence of elements. Own elements as arguments: as copies exactly when the mapping has space for one more (C39_own_partial). Refuted: reserve changes the number of elements after reopening; push_back of an own element when the file grows; push_back on a read-only vector changes the size (after every read-only history: C39_readonly_push_when); insert returns the position after the inserted elements; a killed process leaves additional elements (after every history: no element is lost and as many appear as fit into the file, C39_killed_when)."
  },
  {
   "property": "C40",
   "status": "partial",
   "theorems": [
    "C40_reachable_partial",
    "C40_tombstone_free_partial",
    "C40_lookups_partial",
    "C40_tombstone_rejected_refuted",
    "C40_rehashed_empty_refuted",
    "C40_lookup_endless_refuted",
    "C40_lookup_outside_refuted"
   ],
   "note": "Tables without tombstones survive with the same lookups. Refuted: tables with tombstones or rehashed while empty are rejected; accepted hostile tables can make lookup endless or leave the table."
  },
  {
   "property": "C41",
   "status": "partial",
   "theorems": [
    "C41_every_representation",
    "C41_unshared_buffers",
    "C41_native_unchanged",
    "C41_cstring_not_converted_refuted",
    "C41_float_not_swapped_refuted",
    "C41_bitvec_size_refuted"
   ],
   "note": "Proved for everything serialize writes and for every unshared buffer, all byte orders, raw and offset pointers, checked and unchecked; native files untouched. Excluded: generic_cstring (no conversion, refuted); float/double/enum are not swapped (refuted). The size of a bit vector is not swapped either (C41_bitvec_size_refuted)."
  },
  {
   "property": "C42",
   "status": "partial",
   "theorems": [
    "C42_safe_on_any_bytes_partial",
    "C42_hash_table_refuted",
    "C42_raw_result_refuted",
    "C42_endian_result_refuted"
   ],
   "note": "Proved for all bytes for types whose hash table entries own no memory elsewhere, pointer arithmetic wrapping. Refuted: hash table with owning entries reads past the buffer; accepted results need not be graphs when members alias (raw pointers, other byte order)."
  },
  {
   "property": "C43",
   "status": "partial",
   "theorems": [
    "C43_terminates_partial",
    "C43_endless_loop_refuted"
   ],
   "note": "Proved for types whose hash table entries own no memory elsewhere. Refuted without (C43_endless_loop_refuted): an entry that owns memory inside the control bytes of its own raw table makes the checked reader loop forever."
  },
  {
   "property": "C44",
   "status": "partial",
   "theorems": [
    "C44_accepted_means_valid",
    "C44_exact",
    "C44_serialized_accepted",
    "C44_hash_collision_refuted",
    "C44_bitvec_size_refuted"
   ],
   "note": "Proved: acceptance with DEEP_CHECK implies that everything reachable is well formed and inside the buffer, and for buffers the first pass accepts the second decides exactly that, provided different pointer types have different type hashes; and everything serialize writes is accepted, on every host, for every type, if pointers into owned memory point to objects of their type. Refuted without distinct type hashes (C44_hash_collision_refuted): vectors with 32 and 64 bit sizes have equal type hashes, so a pointer is followed under one of the types only. Bit vectors: a size of 6400 bits in one block is accepted (C44_bitvec_size_refuted)."
  },
  {
   "property": "C45",
   "status": "partial",
   "theorems": [
    "C45_second_pass_total",
    "C45_deep_check_total_partial",
    "C45_recursive_type_refuted"
   ],
   "note": "Proved: the second pass adds no undefined behaviour and no non-termination for types that are not recursive through owning members; both passes together if entries of hash tables own no memory elsewhere (C42). Refuted for recursive types (C45_recursive_type_refuted): a unique_ptr that owns itself makes the check run forever."
  },
  {
   "property": "C46",
   "status": "partial",
   "theorems": [
    "C46_unsigned_wraps",
    "C46_narrow_wraps_partial",
    "C46_uint16_product_refuted",
    "C46_signed_exact_or_undefined",
    "C46_invalid_is_last",
    "C46_divide_and_shift",
    "C46_bitwise",
    "C46_total_order",
    "C46_constructor_partial",
    "C46_constructor_refuted"
   ],
   "note": "Exact modulo 2^width for every expression over unsigned types of at least 32 bits and (except products of uint16_t) for narrower types; exact or undefined for signed ones; counting, division, shifts, bit operations, order. Refuted: strong<uint16_t> products overflow int (undefined), the constructor silently drops high bits. operator>>(strong)/<<(strong) do not compile and are not modelled."
  },
  {
   "property": "C47",
   "status": "partial",
   "theorems": [
    "C47_operators_partial",
    "C47_total_order",
    "C47_any_values",
    "C47_nan_refuted",
    "C47_nan_order_refuted",
    "C47_valueless_refuted"
   ],
   "note": "The six operators answer one lexicographic strict total order for every nesting of the modelled types without NaN and valueless variants. Refuted with NaN (<= true although neither < nor ==; < is no strict weak ordering) and for two valueless variants (undefined). With NaN and valueless variants still: != negates ==, > and >= mirror < and <=, < is asymmetric and excludes == (C47_any_values)."
  },
  {
   "property": "C48",
   "status": "partial",
   "theorems": [
    "C48_next_multiple_partial",
    "C48_allocate_partial",
    "C48_max_size_safe",
    "C48_allocate_wrap_refuted",
    "C48_round_wrap_refuted",
    "C48_max_size_refuted",
    "C48_hash_block_partial",
    "C48_unaligned_copy",
    "C48_unaligned_pointer_refuted"
   ],
   "note": "Proved for sizes whose rounding and multiplication do not wrap around, for every system allocator within its contract; the hash table block has room for slots and control bytes; unaligned copies of plain data are exact. Refuted: allocate() for counts where n*sizeof(T) wraps, rounding near 2^64, max_size() caps at 4 GiB and so rejects possible counts; a copied-out value with relative pointers dangles."
  },
  {
   "property": "C49",
   "status": "partial",
   "theorems": [
    "C49_ownership_partial",
    "C49_moved_access",
    "C49_reset_refuted",
    "C49_reset_null_refuted",
    "C49_destructor_refuted"
   ],
   "note": "Proved for all histories in which reset() is called at most once per object and not on empty or heap handles. Refuted: reset() of an empty handle, of a heap object (destroyed twice) and twice is undefined; after reset() the handle still claims to be non-null; objects in held memory are never destroyed by the handle."
  },
  {
   "property": "C50",
   "status": "partial",
   "theorems": [
    "C50_many_maps_partial",
    "C50_no_undefined",
    "C50_move_assignment_refuted",
    "C50_rehash_empty_refuted",
    "C50_clear_loop",
    "C50_failed_growth_refuted"
   ],
   "note": "Proved for all histories without rehash() of an empty map and without move assignment into a map that may hold memory: answers of independent finite maps, no undefined behaviour, at most as many blocks in use as maps that may hold memory. Refuted: move assignment leaks the target's block, rehash() of an empty map leaks a block, a failed growth loses the entries and makes the destructor undefined. The clear loop destroys exactly the entries of full slots (C50_clear_loop)."
  },
  {
   "property": "C51",
   "status": "proved",
   "theorems": [
    "C51_erase_while_iterating",
    "C51_entries_stay",
    "C51_growth_only_for_new_keys"
   ],
   "note": "Iterators are slot numbers; every history, predicate, key type."
  },
  {
   "property": "C52",
   "status": "partial",
   "theorems": [
    "C52_arity_ends",
    "C52_all_or_nothing_partial",
    "C52_complete",
    "C52_arrays",
    "C52_missing_default_refuted",
    "C52_silent_iff",
    "C52_visit",
    "C52_equal",
    "C52_member_index",
    "C52_member_index_missing",
    "C52_print"
   ],
   "note": "Everything that compiles lists all members or none. All members for structs whose members take one value and have a default (up to 64); C arrays compile only with one element. Refuted: a member (not the first) without default constructor makes the library see no members at all, so all objects compare equal and hash alike."
  },
  {
   "property": "C53",
   "status": "partial",
   "theorems": [
    "C53_histories",
    "C53_all_or_nothing",
    "C53_out_of_memory",
    "C53_no_leak_partial",
    "C53_no_leak_out_of_memory",
    "C53_strings",
    "C53_resize_leak_refuted",
    "C53_shrink_leak_refuted",
    "C53_insert_range_refuted",
    "C53_insert_n_refuted",
    "C53_insert_input_refuted",
    "C53_assign_refuted",
    "C53_constructor_refuted",
    "C53_string_refuted"
   ],
   "note": "histories defined, contents after a throw listed, no leak without resize, forward-range insertion and assignment; refuted: resize, shrinking, forward-range insertion, constructors leak; insert_n, insert_input, assignment and strings change the value when they throw"
  },
  {
   "property": "C54",
   "status": "partial",
   "theorems": [
    "C54_equal_graphs_partial",
    "C54_reproducible_partial",
    "C54_padding_refuted",
    "C54_short_string_refuted"
   ],
   "note": "Proved for graphs with equal contents, corresponding pointers and equal padding bytes, any addresses, capacities, pointer kinds and host byte orders. Refuted without equal padding: padding and unused bytes of short strings are copied into the image."
  },
  {
   "property": "C55",
   "status": "proved",
   "theorems": [
    "C55_serialize_again"
   ],
   "note": "C55_serialize_again: for every graph of C01, loading the image at any (aligned) address and serializing it from there in the same mode gives the same bytes. Proof: the graph in the image is the same as the source graph in the sense of C54."
  },
  {
   "property": "C56",
   "status": "partial",
   "theorems": [
    "C56_same_result",
    "C56_constant_memory",
    "C56_cast_partial",
    "C56_cast_serialized_partial",
    "C56_cast_header_refuted",
    "C56_cast_unconverted_refuted",
    "C56_default_end_refuted",
    "C56_empty_container_refuted"
   ],
   "note": "Proved: two pointers, container, constant memory and string view agree on all bytes, constant memory is never written; CAST agrees for files without header, in host byte order and with offset pointers. Refuted: CAST ignores the header and converts nothing; the default end is always refused; an empty container or view is undefined instead of refused."
  },
  {
   "property": "C57",
   "status": "partial",
   "theorems": [
    "C57_change_is_local",
    "C57_assignments",
    "C57_loaded",
    "C57_file_in_place_partial",
    "C57_integrity_refuted",
    "C57_shared_bytes_refuted"
   ],
   "note": "Assignments to integers, floating point numbers and non-owning pointers through any access path, on any loaded graph without shared bytes and hence on every serialized image; non-interference, header untouched, and the changed buffer as a file. Changes that allocate (push_back, reset, emplace) are not part of it. Refuted: accepted hostile buffers can share bytes between members, so that an assignment moves the size of a vector; with an integrity hash the changed file is rejected."
  },
  {
   "property": "C58",
   "status": "partial",
   "theorems": [
    "C58_histories_partial",
    "C58_without_exceptions",
    "C58_throwing_constructor_refuted",
    "C58_throwing_move_refuted",
    "C58_throwing_hash_refuted",
    "C58_usable_refuted"
   ],
   "note": "All histories, for entries that move and fill their slot without exceptions and a hash function that throws for certain keys only; constructions of entries and comparisons may throw at any time. Refuted beyond that: a constructor that throws in the slot (operator[] or a throwing move) leaves a slot marked full without an object, and a hash that throws during growth loses the entries not yet moved while size() counts them."
  },
  {
   "property": "C59",
   "status": "partial",
   "theorems": [
    "C59_memory_partial",
    "C59_buffers",
    "C59_loaded_elements_refuted",
    "C59_reset_refuted"
   ],
   "note": "Proved: histories run without undefined behaviour, each block has one owner, all blocks are freed at the end (C59_memory_partial); a buffer changes only through the vector loaded from it (C59_buffers). Refuted: elements of a loaded vector are not destroyed, so memory assigned to them leaks; reset() is public and leaks."
  },
  {
   "property": "C60",
   "status": "partial",
   "theorems": [
    "C60_same_image",
    "C60_file_partial",
    "C60_map_partial",
    "C60_load_partial",
    "C60_zero_checksum_refuted",
    "C60_without_integrity_refuted"
   ],
   "note": "Proved: the logged writes are those of serialize; a file left by an interrupted save with a checksum, cut anywhere, passes the check only if it is complete, or its data so far has the checksum 0. Refuted: data with FNV checksum 0 (a known eight-byte value; zeros after it keep the checksum 0) saved through a memory map is accepted half-written; without a checksum a file that lacks the pending pointers is accepted with null pointers."
  },
  {
   "property": "C61",
   "status": "partial",
   "theorems": [
    "C61_nested_partial",
    "C61_deep_copy_partial",
    "C61_copy_over_refuted",
    "C61_shrink_refuted",
    "C61_push_own_element_refuted"
   ],
   "note": "Proved for programs in which neither of source and target lies in the other (elements of the same vector and self-assignment are covered) and that do not copy over, or shrink, vectors of vectors with elements. Refuted parts: C61_copy_over_refuted and C61_shrink_refuted (inner blocks are never freed), C61_push_own_element_refuted (x.push_back(x[0]) reads freed memory when it grows)."
  },
  {
   "property": "C62",
   "status": "partial",
   "theorems": [
    "C62_owner_partial",
    "C62_move",
    "C62_failed_allocation",
    "C62_reset_refuted",
    "C62_empty_refuted"
   ],
   "note": "Proved for all programs that do not call reset() on a buffer that has a block. Refuted parts: C62_reset_refuted (the public reset() leaks), C62_empty_refuted (a buffer of no bytes throws where malloc(0) returns null)."
  },
  {
   "property": "C63",
   "status": "partial",
   "theorems": [
    "C63_vecvec_partial",
    "C63_backward_refuted",
    "C63_backward_when",
    "C63_lower_bound",
    "C63_paged_vecvec_partial",
    "C63_paged_empty_refuted",
    "C63_nvec_partial"
   ],
   "note": "Every program of iterator operations between begin() and end() answers as positions in the list of buckets do, for vecvec (mutable and const), non-empty paged_vecvec, and nvec at every depth, for positions of 8, 16, 32 and 64 bits; lower_bound finds the partition point. Refuted: with 32-bit positions a - b is 2^32 - k instead of -k when a is k buckets before b; begin() of an empty paged_vecvec throws. Integer keys only. C63_backward_when: with 32-bit positions every difference that should be negative is off by 2^32, after every history."
  },
  {
   "property": "C64",
   "status": "partial",
   "theorems": [
    "C64_vecvec_partial",
    "C64_vecvec_limit_refuted",
    "C64_vecvec_overflow_refuted",
    "C64_fws_multimap_partial",
    "C64_fws_limit_refuted",
    "C64_nvec_partial",
    "C64_nvec_limit_refuted"
   ],
   "note": "Proved for all histories that keep the counts below the limit of the index type, on top of C23, C25 and C27; at the limit the containers lose buckets without an error (refuted with 8-bit indices)."
  },
  {
   "property": "C65",
   "status": "partial",
   "theorems": [
    "C65_reopen_partial",
    "C65_stale_search_partial",
    "C65_unsaved_insert_loses_saved_refuted",
    "C65_unsaved_free_list_refuted",
    "C65_interrupted_save_refuted"
   ],
   "note": "Proved for all histories in which every process calls write_meta after its last change (C65_reopen_partial), and for searches after unsaved changes that keep the root node (C65_stale_search_partial). Without write_meta saved entries can be lost, an old list of free nodes lets inserts overwrite nodes in use, and an interrupted write_meta leaves no readable meta data (refuted). System crashes are not modelled."
  },
  {
   "property": "C66",
   "status": "partial",
   "theorems": [
    "C66_vecvec_partial",
    "C66_vecvec_realloc_refuted",
    "C66_vecvec_moves_refuted",
    "C66_multimap_partial",
    "C66_multimap_realloc_refuted",
    "C66_multimap_insert_refuted",
    "C66_paged_partial",
    "C66_paged_push_refuted",
    "C66_vecvec_when_partial",
    "C66_multimap_when_partial",
    "C66_paged_when_partial",
    "C66_multimap_insert_behind_partial",
    "C66_vecvec_move_partial",
    "C66_nvec_partial",
    "C66_nvec_when_partial",
    "C66_nvec_realloc_refuted",
    "C66_nvec_moves_refuted"
   ],
   "note": "Equal to passing a copy, for all histories, when the data vector has memory left (paged: always for own buckets and for insert); nvec::emplace_back of an own bucket at every depth too (C66_nvec_partial). Without memory left vecvec, mutable_fws_multimap, paged_vecvec and nvec always read through dangling references (the ..._when_partial theorems: exactly then for vecvec, multimap and nvec); vecvec::emplace_back and nvec::emplace_back move the elements out of a named container or bucket; mutable_fws_multimap's insert puts in the predecessor of an argument that lies behind the position, whenever the bucket has room; paged_vecvec's push_back reads the free list's link: refuted."
  },
  {
   "property": "C67",
   "status": "partial",
   "theorems": [
    "C67_fws_partial",
    "C67_fws_minus_refuted",
    "C67_fws_unfinished_refuted",
    "C67_multimap_partial",
    "C67_multimap_decrement_refuted",
    "C67_fws_all_when",
    "C67_multimap_all_when"
   ],
   "note": "C67_fws_partial and C67_multimap_partial: every program that stays between begin() and end(), over every map that a history gives, with fewer than 2^31 keys. False of the code: it - n of fws_multimap goes forward (C67_fws_minus_refuted), --it and it-- of mutable_fws_multimap go forward (C67_multimap_decrement_refuted), begin()/end() of an unfinished fws_multimap are no range (C67_fws_unfinished_refuted). C67_fws_all_when and C67_multimap_all_when cover programs with the wrong calls too: they answer as if each went forwards."
  },
  {
   "property": "C68",
   "status": "partial",
   "theorems": [
    "C68_layouts",
    "C68_contents",
    "C68_vecvec",
    "C68_fws_multimap",
    "C68_multimap",
    "C68_flat_matrix",
    "C68_nvec",
    "C68_paged_vecvec_partial",
    "C68_bitvec_partial",
    "C68_hash_map_partial",
    "C68_paged_order_refuted",
    "C68_bitvec_order_refuted"
   ],
   "note": "Proved for all histories before saving and after loading, all modes and byte orders, for vecvec, fws_multimap, mutable_fws_multimap, nvec and flat_matrix (C68_vecvec, C68_fws_multimap, C68_multimap, C68_nvec, C68_flat_matrix); for hash maps and sets without tombstones (C68_hash_map_partial); for paged_vecvec if the file has the byte order of the writing host or the elements have four bytes (C68_paged_vecvec_partial); for bitvec if the file has the byte order of the writing host (C68_bitvec_partial). Otherwise false: tables with tombstones are rejected (C40_tombstone_rejected_refuted), the links between free pages lie in the elements' memory and are converted as elements (C68_paged_order_refuted), and the size of a bitvec is no member for cista and is not converted (C68_bitvec_order_refuted)."
  },
  {
   "property": "C69",
   "status": "partial",
   "theorems": [
    "C69_fws_multimap",
    "C69_paged_vecvec",
    "C69_struck",
    "C69_multimap_partial",
    "C69_vecvec_partial",
    "C69_vecvec_stray_partial",
    "C69_vecvec_stray_refuted",
    "C69_vecvec_retry_refuted",
    "C69_vecvec_init_list_refuted",
    "C69_multimap_erase_refuted",
    "C69_multimap_storage_refuted",
    "C69_flat_matrix_partial",
    "C69_flat_matrix_resize_refuted",
    "C69_nvec_partial",
    "C69_nvec_size_refuted",
    "C69_nvec_retry_refuted",
    "C69_nvec_elements_refuted"
   ],
   "note": "Full statement proved for fws_multimap and paged_vecvec (C69_fws_multimap, C69_paged_vecvec). Refuted: vecvec::emplace_back and add_back_sized leave the elements of a bucket behind when the index cannot grow, and the next bucket contains them (twice after a retry); the initializer list overload adds the index first, so that a failure leaves a bucket that ends behind the data; erase(key) of mutable_fws_multimap has removed the elements when it throws; a moved bucket can get lost; flat_matrix::resize stores the new size before the entries grow; nvec::emplace_back leaves its indexes half extended unless it fails at the first growth point. Exact behaviour in these cases: C69_vecvec_stray_partial (all failures but that of an initializer list), C69_multimap_partial, C69_flat_matrix_partial; nvec: C69_nvec_partial (failures at the first growth point)."
  },
  {
   "property": "C70",
   "status": "partial",
   "theorems": [
    "C70_emplace_erase",
    "C70_insert_self",
    "C70_programs_partial",
    "C70_when_partial",
    "C70_nested_bracket_refuted",
    "C70_assign_refuted"
   ],
   "note": "m.emplace(k, m.at(j)) and m.erase(m.at(k)) equal passing a copy, for all programs (C70_emplace_erase); inserting a map into itself changes nothing (C70_insert_self). Programs with m[m.at(k)] and m[k] = m.at(j) too answer like a finite map with copies or use a dangling reference (C70_programs_partial), the latter exactly if the call makes the map grow; never if the key is present or there is room (C70_when_partial). The dangling read itself is a finding: bracket_operator_impl reads the key again after the rehash (C70_nested_bracket_refuted, C70_assign_refuted)."
  },
  {
   "property": "C71",
   "status": "partial",
   "theorems": [
    "C71_again_partial",
    "C71_reserved",
    "C71_as_copy_partial",
    "C71_move_partial",
    "C71_set_partial",
    "C71_set_front_refuted",
    "C71_again_refuted"
   ],
   "note": "Proved for every reached vector and every sequence of such calls: as with copies exactly when the result fits into the current block, UB otherwise; after reserve(n) always, up to n elements. Fails when the block grows (C71_again_refuted) and for set from the vector's own front with non-trivial elements (C71_set_front_refuted)."
  }
 ]
}