{"id": "C01", "title": "Serialize/deserialize round trip of owned data", "statement": "Serializing an object built from integers, structs, arrays, optionals, variants, strings, vectors and unique_ptrs (arbitrarily nested, possibly recursive) and then deserializing the resulting bytes with checks on succeeds (no exception) and yields an object of the same type with the same observable contents, at whatever (suitably aligned) address the bytes are loaded.", "quantifier": "every type of the supported universe, every well-formed source object graph, every load address", "why_tests_cant": "the set of types and object graphs is infinite; tests sample a handful of hand-written structs", "anchors": ["include/cista/serialization.h: serialize overloads, deserialize overloads", "include/cista/targets/buf.h: buf::write"]}
{"id": "C02", "title": "Round trip preserves non-owning pointers", "statement": "A non-owning pointer stored in the serialized object graph that points at an object owned by the same graph through a unique_ptr, or at (any byte of) an element of an indexed vector, is a pointer to the corresponding object after deserialization, whether the pointee is serialized before or after the pointer; a null pointer stays null and a pointer to anything outside the graph becomes null.", "quantifier": "every object graph, every pointer in it (forward, backward, cyclic, interior)", "why_tests_cant": "the combinations of ownership order and aliasing are unbounded", "anchors": ["include/cista/serialization.h: serialization_context::resolve_pointer, resolve_vector_range_ptr, pending_, serialize(Target&,T&)"]}
{"id": "C03", "title": "Offset-mode data is position independent", "statement": "In offset mode the deserialized data contains no absolute addresses: moving the whole buffer to any other address leaves every observation of the object graph unchanged.", "quantifier": "every buffer, every pair of load addresses", "why_tests_cant": "tests run at one or two addresses chosen by the allocator", "anchors": ["include/cista/containers/offset_ptr.h: offset_ptr, ptr_to_offset, offset_to_ptr", "include/cista/serialization.h: deserialize (offset_ptr)"]}
{"id": "C04", "title": "Checked deserialization never accepts out-of-bounds data", "statement": "Checked deserialization (default mode) in offset mode of ANY byte sequence, including hostile ones, either throws or returns an object all of whose reachable vectors, strings, unique_ptr targets, hash tables and pointers lie entirely inside the given buffer and are aligned; and while deciding, it reads no byte outside the buffer.", "quantifier": "every byte sequence, every type of the universe, every load address", "why_tests_cant": "2^(8n) inputs; fuzzing only samples", "anchors": ["include/cista/serialization.h: deserialization_context::check_ptr, check_state overloads, recurse overloads, deserialize"]}
{"id": "C05", "title": "Checked deserialization terminates", "statement": "Checked deserialization of any byte sequence terminates without unbounded recursion.", "quantifier": "every byte sequence, every type incl. recursive ones", "why_tests_cant": "non-termination on specially crafted inputs is not observable by sampling", "anchors": ["include/cista/serialization.h: recurse(basic_unique_ptr), recurse(basic_vector), deep_check_context"]}
{"id": "C06", "title": "Integrity mode detects every single-byte corruption", "statement": "With WITH_INTEGRITY, flipping any non-empty set of bits inside one byte of the payload or of the stored checksum of a serialized buffer makes deserialize throw; an unmodified buffer is never rejected.", "quantifier": "every payload, every byte position, every replacement value", "why_tests_cant": "all positions and values of all payloads cannot be enumerated", "anchors": ["include/cista/hash.h: hash_combine, hash (FNV-1a)", "include/cista/serialization.h: check, integrity_start, data_start"]}
{"id": "C07", "title": "Version mode rejects foreign type hashes", "statement": "With WITH_VERSION (or WITH_STATIC_VERSION), a buffer is accepted only if its first eight bytes are exactly the type hash of the requested type; a buffer that is not longer than the header is always rejected, without reading past it.", "quantifier": "every buffer, every type hash, every mode combination", "why_tests_cant": "needs every buffer length and content", "anchors": ["include/cista/serialization.h: check, data_start, integrity_start, deserialize"]}
{"id": "C08", "title": "Header layout agreement between writer and reader", "statement": "For every mode combination the root object is written by serialize at exactly the offset at which deserialize with the same mode expects it.", "quantifier": "every mode combination, every root type alignment", "why_tests_cant": "tests only use roots of alignment up to eight", "anchors": ["include/cista/serialization.h: data_start, integrity_start, serialize(Target&,T&)", "include/cista/targets/buf.h: buf::write"]}
{"id": "C09", "title": "Endian conversion is an involution and is platform symmetric", "statement": "Converting a scalar of 1, 2, 4 or 8 bytes to the buffer byte order and back yields the value again; a scalar written on a little-endian host in big-endian mode reads back as the same value on a big-endian host (and vice versa).", "quantifier": "every scalar width, every value, both host byte orders", "why_tests_cant": "2^64 values, and CI has no big-endian host", "anchors": ["include/cista/endian/conversion.h: endian_swap, convert_endian, endian_conversion_necessary"]}
{"id": "C10", "title": "offset_ptr behaves like a raw pointer", "statement": "An offset_ptr assigned from a pointer returns that same pointer from get(), is null exactly when assigned null, and copying or assigning it to an offset_ptr at a different address keeps the target; comparison and arithmetic agree with those of the raw pointers.", "quantifier": "every pair of (pointer location, target) addresses", "why_tests_cant": "address pairs are chosen by the allocator, 2^128 combinations", "anchors": ["include/cista/containers/offset_ptr.h: offset_ptr"]}
{"id": "C11", "title": "hash_map/hash_set behave like a finite map", "statement": "For every hash function, any history of insert, emplace, operator[], erase, clear, rehash/reserve-growth and lookup on a hash_map gives the same results (found/not found, stored value, inserted flag, number erased, size) as the same history on a mathematical finite map.", "quantifier": "every operation sequence of any length, every hash function (incl. constant ones), every key/value type", "why_tests_cant": "open addressing with tombstones has state depending on the whole history and on collisions", "anchors": ["include/cista/containers/hash_storage.h: find_impl, emplace, insert, operator[], erase, prepare_insert, resize"]}
{"id": "C12", "title": "hash_map operations always terminate", "statement": "In every reachable state of a hash_map each probe sequence reaches a slot that was never used, so lookup, insertion and erase terminate; capacity stays one less than a power of two and the load never exceeds 7/8 of capacity + 1.", "quantifier": "every operation sequence, every hash function, every key probed", "why_tests_cant": "an endless probe loop only shows in a state with no EMPTY slot in the probe order", "anchors": ["include/cista/containers/hash_storage.h: probe_seq, find_first_non_full, capacity_to_growth, rehash_and_grow_if_necessary, was_never_full, erase_meta_only"]}
{"id": "C13", "title": "hash_map iteration visits each element exactly once", "statement": "Iterating over a hash_map from begin() to end() in any reachable state yields each stored element exactly once and nothing else; size() is the number of elements visited.", "quantifier": "every operation sequence, every hash function", "why_tests_cant": "depends on the control byte layout produced by the whole history", "anchors": ["include/cista/containers/hash_storage.h: iterator, begin, end, skip_empty_or_deleted, count_leading_empty_or_deleted"]}
{"id": "C14", "title": "vector behaves like a list", "statement": "Any history of push_back, emplace_back, insert, erase, pop_back, resize, reserve, clear, set, copy and element access on a vector of fewer than 2^31 elements behaves like the same history on a mathematical sequence, and never accesses memory outside its allocation.", "quantifier": "every operation sequence, every element type", "why_tests_cant": "reallocation points and shift loops depend on history", "anchors": ["include/cista/containers/vector.h: basic_vector"]}
{"id": "C15", "title": "vector comparison is lexicographic", "statement": "operator==, <, <=, >, >= on vectors agree with lexicographic comparison of the element sequences, hence < is a strict total order whenever the element order is.", "quantifier": "every pair (triple) of vectors", "why_tests_cant": "infinitely many pairs; transitivity needs triples", "anchors": ["include/cista/containers/vector.h: operator==, operator<"]}
{"id": "C16", "title": "bitset operations match the set-of-indices semantics", "statement": "After any history of set, reset, &=, |=, ^=, ~, <<=, >>= on a bitset<N>, test(i), count, any, to_string, for_each_set_bit, == and < all agree with the mathematical N-bit vector obtained by the same history, for every N >= 1 (in particular bits past N never become visible).", "quantifier": "every N, every operation history, every index and shift amount", "why_tests_cant": "garbage bits in the last block and shift amounts at block borders depend on N and history", "anchors": ["include/cista/containers/bitset.h: bitset"]}
{"id": "C17", "title": "bitvec operations match the bit-sequence semantics", "statement": "After any history of resize, set, flips and logical operations, shifts on a bitvec, test(i), count, any, for_each_set_bit, next_set_bit, == and < agree with the mathematical bit sequence of length size().", "quantifier": "every size, every history, every index", "why_tests_cant": "as for bitset, with run-time size", "anchors": ["include/cista/containers/bitvec.h: basic_bitvec"]}
{"id": "C18", "title": "Concurrent get_next hands out each set bit at most once", "statement": "When any number of threads call get_next on a shared bitvec with a shared counter under any interleaving, no two calls return the same bit, every returned bit is a set bit not below the counter's initial value, and a call that returns nothing implies that every set bit from the initial counter value on has been handed out.", "quantifier": "every number of threads, every schedule, every initial vector", "why_tests_cant": "schedules cannot be enumerated by tests", "anchors": ["include/cista/containers/bitvec.h: get_next", "include/cista/atomic.h"]}
{"id": "C19", "title": "Concurrent atomic bit sets lose no update", "statement": "When any number of threads set bits of a shared bitvec with the atomic variant under any interleaving, afterwards exactly the bits that were set initially or by some thread are set.", "quantifier": "every number of threads, every schedule", "why_tests_cant": "lost updates show only in rare schedules", "anchors": ["include/cista/containers/bitvec.h: set<..., true>", "include/cista/atomic.h: fetch_or, fetch_and"]}
{"id": "C20", "title": "Atomic fetch_min / fetch_max compute the running extremum", "statement": "After any set of concurrent fetch_min (fetch_max) calls on one location the location holds the minimum (maximum) of the initial value and all arguments.", "quantifier": "every multiset of arguments, every schedule", "why_tests_cant": "schedules cannot be enumerated", "anchors": ["include/cista/atomic.h: fetch_max, fetch_min"]}
{"id": "C21", "title": "string stores what was assigned", "statement": "After assigning a byte sequence to a cista string (owning or view), size() and the bytes between data() and data()+size() equal the assigned sequence; copies and moves preserve it; comparisons and starts_with/ends_with agree with the byte sequences; every owned heap block is freed exactly once.", "quantifier": "every byte sequence, every history of assign/copy/move/erase", "why_tests_cant": "small-buffer boundary and ownership depend on lengths and history", "anchors": ["include/cista/containers/string.h: generic_string"]}
{"id": "C22", "title": "cstring stores arbitrary binary data and is NUL terminated", "statement": "After assigning any byte sequence (including embedded NUL bytes) to an owning cstring, view() equals the sequence and the byte at data()[size()] is NUL.", "quantifier": "every byte sequence, every history of assignments", "why_tests_cant": "lengths up to 2^32 and small-buffer border", "anchors": ["include/cista/containers/cstring.h: generic_cstring"]}
{"id": "C23", "title": "vecvec behaves like a list of lists", "statement": "Any history of emplace_back, bucket push_back/growth, resize and clear on a vecvec equals the same history on a list of lists; at(i) throws exactly when i is out of range.", "quantifier": "every operation history", "why_tests_cant": "flat storage with shifting offsets depends on whole history", "anchors": ["include/cista/containers/vecvec.h: basic_vecvec"]}
{"id": "C24", "title": "mutable_fws_multimap behaves like a map from keys to lists", "statement": "Any history of push_back/emplace_back, reserve, resize, erase and clear on buckets of a mutable_fws_multimap equals the same history on a map from keys to lists: growing one bucket, reusing freed buckets and clearing never changes any other bucket's contents, and element_count is the total number of entries.", "quantifier": "every operation history, every key", "why_tests_cant": "bucket relocation and free-list reuse depend on the whole history", "anchors": ["include/cista/containers/mutable_fws_multimap.h: dynamic_fws_multimap_base"]}
{"id": "C25", "title": "fws_multimap returns exactly what was added per key", "statement": "Building a fws_multimap by pushing values and finishing keys in order, operator[](k) is exactly the list of values pushed between the finishing of key k-1 and key k; iteration visits all keys in order.", "quantifier": "every build sequence, every key", "why_tests_cant": "unbounded build histories", "anchors": ["include/cista/containers/fws_multimap.h: fws_multimap, finish_key, finish_map"]}
{"id": "C26", "title": "paged storage keeps pages disjoint and contents intact", "statement": "Any history of creating, growing and freeing pages in paged storage (and of push_back/insert on a paged_vecvec) keeps live pages pairwise disjoint, never hands out a freed page twice, and leaves the contents of every other row unchanged.", "quantifier": "every operation history", "why_tests_cant": "free-list reuse and relocation depend on history", "anchors": ["include/cista/containers/paged.h: paged", "include/cista/containers/paged_vecvec.h: paged_vecvec"]}
{"id": "C27", "title": "nvec addresses nested containers correctly", "statement": "After any sequence of emplace_back of N-times nested containers into an nvec, at(i1..iN) and nested iteration return exactly the element lists that were added, and size(i1..ik) is the size of the nested container at that position.", "quantifier": "every nesting contents, every index tuple", "why_tests_cant": "unbounded contents; index arithmetic spans levels", "anchors": ["include/cista/containers/nvec.h: basic_nvec"]}
{"id": "C28", "title": "flat_matrix cells are independent", "statement": "In a flat_matrix with r rows and c columns distinct (row, column) pairs address distinct cells inside the storage; writing one cell changes no other; at() throws exactly for out-of-range indices.", "quantifier": "every r, c, and index pair", "why_tests_cant": "needs all dimensions incl. those where the product overflows", "anchors": ["include/cista/containers/flat_matrix.h: basic_flat_matrix"]}
{"id": "C29", "title": "rtree search is exact", "statement": "After any history of inserts and deletes, searching an rtree with a rectangle reports exactly the stored (rectangle, value) entries that intersect it, each once.", "quantifier": "every history, every query rectangle", "why_tests_cant": "node splits, reinsertion and shrinking depend on the history", "anchors": ["include/cista/containers/rtree.h: basic_rtree"]}
{"id": "C30", "title": "variant holds exactly the last assigned alternative", "statement": "After any history of construction, emplace, assignment (from values and other variants), copy and swap, a variant holds the alternative and value last stored; every constructed alternative is destroyed exactly once; comparison orders by index, then value.", "quantifier": "every history, every alternative list", "why_tests_cant": "histories are unbounded", "anchors": ["include/cista/containers/variant.h: variant"]}
{"id": "C31", "title": "unique_ptr/optional ownership", "statement": "Under any history of construct, move, reset, release and destruction of unique_ptrs each object created by make_unique is deleted exactly once, and never while still reachable through a unique_ptr; an optional reports has_value exactly when it was last assigned a value.", "quantifier": "every history", "why_tests_cant": "double frees and leaks depend on histories", "anchors": ["include/cista/containers/unique_ptr.h: basic_unique_ptr", "include/cista/containers/optional.h: optional"]}
{"id": "C32", "title": "tuple layout is sound", "statement": "For every list of element types the elements of a cista tuple are aligned, pairwise disjoint and inside the tuple's storage, and tuple comparison is lexicographic.", "quantifier": "every list of (size, alignment) pairs", "why_tests_cant": "infinitely many type lists", "anchors": ["include/cista/containers/tuple.h: get_offset, get_total_size, lt, eq"]}
{"id": "C33", "title": "Bit counting and next power of two are correct for all words", "statement": "trailing_zeros, leading_zeros, popcount return the mathematical values for every word; next_power_of_two returns the least power of two not less than its argument for every argument for which one is representable.", "quantifier": "every 32/64-bit word", "why_tests_cant": "2^64 inputs", "anchors": ["include/cista/bit_counting.h", "include/cista/next_power_of_2.h"]}
{"id": "C34", "title": "Serialization targets are interchangeable", "statement": "Serializing into an in-memory buffer (aligned base), into a file and into a memory mapped file yields the same bytes and offsets; padding is zero; a checksum computed over the file in chunks equals the checksum over the buffer.", "quantifier": "every sequence of writes with any alignments", "why_tests_cant": "write sequences are unbounded; chunk borders", "anchors": ["include/cista/targets/buf.h: buf", "include/cista/targets/file.h: file", "include/cista/mmap.h: mmap", "include/cista/chunk.h: chunk"]}
{"id": "C35", "title": "Overflow-checked arithmetic is exact", "statement": "checked_addition and checked_multiplication return the exact mathematical result of the left-to-right computation whenever every partial result is representable in the operand type and throw otherwise; they never return a wrapped result.", "quantifier": "every operand list", "why_tests_cant": "2^64 operands each", "anchors": ["include/cista/serialization.h: checked_addition, checked_multiplication"]}
{"id": "C36", "title": "Equal keys hash equally", "statement": "For the default hashing and equality function objects, two keys that compare equal have equal hashes (for integers, strings in all their representations, pairs, tuples, vectors, structs), so a hash_map with defaults never misses a present key.", "quantifier": "every pair of values of every supported key type", "why_tests_cant": "infinitely many pairs", "anchors": ["include/cista/hashing.h: hashing", "include/cista/equal_to.h: equal_to", "include/cista/hash.h"]}
{"id": "C37", "title": "Type hash separates different layouts", "statement": "Two types whose serialized layouts differ have different type hashes unless the underlying 64-bit hash collides.", "quantifier": "every pair of types", "why_tests_cant": "infinitely many type pairs", "anchors": ["include/cista/type_hash/type_hash.h: type_hash", "include/cista/type_hash/static_type_hash.h"]}
{"id": "C38", "title": "Memory-mapped file contents", "statement": "Under any history of resize and writes through a memory map and final close, the file afterwards contains exactly size() bytes, equal to what was written (zero where nothing was written); growing never loses earlier bytes; at any crash point before close the first size() bytes of the file are those written.", "quantifier": "every history, every crash point", "why_tests_cant": "crash points cannot be enumerated", "anchors": ["include/cista/mmap.h: mmap", "include/cista/io.h: write, read"]}
{"id": "C39", "title": "mmap_vec and vector are interchangeable", "statement": "A mmap_vec reopened on the file it left behind contains the same elements; push_back/insert/resize behave like the sequence operations.", "quantifier": "every operation history", "why_tests_cant": "unbounded histories", "anchors": ["include/cista/containers/mmap_vec.h: basic_mmap_vec"]}
{"id": "C40", "title": "Hash table survives serialization", "statement": "A hash_map that is serialized and deserialized with checks on is accepted, and every lookup gives the same answer as on the original; conversely checked deserialization accepts only tables on which lookup stays inside the table.", "quantifier": "every reachable table, every hash function, every key", "why_tests_cant": "table states depend on whole histories", "anchors": ["include/cista/serialization.h: serialize(hash_storage), check_state(hash_storage)", "include/cista/containers/hash_storage.h"]}
{"id": "C41", "title": "One file, every host representation", "statement": "A buffer produced by serialize is accepted by deserialize on a host of either byte order, with raw or offset pointers, checked or unchecked, at every aligned load address; after the in-place conversion the host sees the same contents, every pointer leads to the corresponding object, and no memory outside the buffer is changed. On a host with the byte order of the file and with offset pointers the buffer is not modified at all.", "quantifier": "every type, object graph, mode, host byte order, pointer representation and load address", "why_tests_cant": "needs hosts of both byte orders and all combinations of modes and graphs; in-place conversion interacts with every later read", "anchors": ["include/cista/serialization.h: convert_endian_and_ptr, deserialize, deserialize_ptr, convert_endian", "include/cista/mode.h: mode"]}
{"id": "C42", "title": "Converting checked deserialization is memory safe", "statement": "For arbitrary bytes, checked deserialize with conversion (raw pointers or other byte order) either throws or returns; it never reads or writes outside the buffer and never changes memory outside of it, and what it accepts is an object graph inside the buffer.", "quantifier": "every byte string, type, host byte order and pointer representation", "why_tests_cant": "hostile inputs can alias any members; the space of byte strings is unbounded", "anchors": ["include/cista/serialization.h: deserialize, check_state, check_ptr", "include/cista/containers/hash_storage.h: begin, operator++"]}
{"id": "C43", "title": "Converting deserialization terminates", "statement": "For arbitrary bytes the recursion depth of checked deserialize with conversion is bounded by the nesting depth of the type.", "quantifier": "every byte string and every non-recursive type", "why_tests_cant": "termination on every input", "anchors": ["include/cista/serialization.h: recurse, deserialize"]}
{"id": "C44", "title": "DEEP_CHECK accepts a buffer exactly if everything reachable through pointers is well formed", "statement": "If deserialize with mode::DEEP_CHECK returns, then every object that can be reached from the root through any number of pointers (also cyclic ones) is a well formed object of its type that lies completely inside the buffer. If the ordinary checks pass but something reachable is not well formed, deserialize throws; if everything reachable is well formed, it does not throw. In particular whatever serialize wrote passes the deep check.", "quantifier": "all buffers (any bytes), all types built from integers, pointers, structs, optional, variant, unique_ptr, vector, string and hash tables, both byte orders, raw and offset pointers, any pointer structure", "why_tests_cant": "A test checks a few corrupted buffers; the claim ranges over all pointer graphs, including cyclic ones and ones in which an address is used under several types.", "anchors": ["include/cista/serialization.h: deep_check_context, add_checked, recurse(offset_ptr), deserialize<T, Mode>"]}
{"id": "C45", "title": "The deep check is safe and ends on any bytes", "statement": "deserialize with mode::DEEP_CHECK never reads outside of the buffer, executes nothing undefined and always ends, with a result or an exception, whatever the buffer contains.", "quantifier": "all buffers (any bytes), all types, all pointer cycles", "why_tests_cant": "Hostile pointer cycles are unbounded in number; a test cannot show that none of them makes the check run forever.", "anchors": ["include/cista/serialization.h: deep_check_context, add_checked, recurse(offset_ptr), recurse(basic_unique_ptr), deserialize<T, Mode>"]}
{"id": "C46", "title": "Strong index types compute like their integers", "statement": "For cista::strong<T, Tag> over an integral type T, every expression built from the arithmetic, increment, shift and bit operators has the result the same expression has on the integers, reduced modulo 2^width for unsigned T and exact for signed T as long as each intermediate result is representable; comparisons are those of one total order; invalid() is larger than every other index and never produced by counting up from a smaller one before the index space is used up.", "quantifier": "all underlying integral types, all values, all expressions of any depth", "why_tests_cant": "The result depends on integral promotion and wrap-around at values no test enumerates (e.g. 65535*65535 in a 16-bit type), and expressions are unbounded.", "anchors": ["include/cista/strong.h: strong::operator+,-,*,/,<<,>>,|=,&=,++,--, invalid, to_idx"]}
{"id": "C47", "title": "Comparison operators of nested values agree on one total order", "statement": "For values of any nesting of integers, floating point numbers, strings, vectors, tuples, pairs and structs declared comparable, and variants, ==, !=, <, <=, > and >= all describe the same total order (lexicographic, variants by index first), so the values can be sorted and used as keys of ordered containers.", "quantifier": "all types of the given shapes, all pairs and triples of values", "why_tests_cant": "Consistency and transitivity are statements about all pairs and triples of values of unboundedly nested types.", "anchors": ["include/cista/reflection/comparable.h: CISTA_COMPARABLE", "include/cista/containers/pair.h", "include/cista/containers/tuple.h: eq, lt, operator<", "include/cista/containers/vector.h: operator<", "include/cista/containers/variant.h: operator<", "include/cista/containers/string.h: operator<"]}
{"id": "C48", "title": "Aligned memory is big enough and aligned", "statement": "Memory from cista's aligned allocator and the block of a hash table start at an address with the requested alignment and have room for everything placed in them (n elements; the slots followed by the control bytes, none overlapping), for every count the container accepts; a value copied out of unaligned memory equals the stored one.", "quantifier": "all element sizes, alignments (powers of two), counts, all behaviours of the system allocator within its contract", "why_tests_cant": "Counts at which sizes wrap around cannot be allocated in a test, and the system allocator usually over-aligns so a wrong request goes unnoticed.", "anchors": ["include/cista/aligned_alloc.h: to_next_multiple, CISTA_ALIGNED_ALLOC", "include/cista/aligned_allocator.h: aligned_allocator::allocate, max_size", "include/cista/containers/hash_storage.h: initialize_entries", "include/cista/serialization.h: copy_from_potentially_unaligned"]}
{"id": "C49", "title": "A handle to a deserialized object owns its memory", "statement": "cista::wrapped<T> keeps the memory of its object (mapped file, buffer, byte vector or heap object) alive as long as the handle lives, wherever it is moved, accesses always reach that object, and the memory is released exactly once, when the last handle keeping it is dropped, overwritten or reset.", "quantifier": "all histories of constructions, moves, resets, accesses and destructions over any number of handles of all memory kinds", "why_tests_cant": "Use after free, double free and leaks depend on the history of moves and resets; a test sees one history and often no visible effect.", "anchors": ["include/cista/memory_holder.h: wrapped, memory_holder, reset", "include/cista/containers/unique_ptr.h: basic_unique_ptr::reset, operator=", "include/cista/buffer.h: buffer"]}
{"id": "C50", "title": "Hash maps are independent of each other and release their memory", "statement": "Copying, moving, assigning, destroying and loading (deserializing) hash maps and sets leaves each of them with exactly its own entries: later changes to one never show in another, a map loaded from a buffer can be modified and grow, the buffer is never freed by it, every block is freed exactly once, and a failed allocation leaves the map as it was.", "quantifier": "all histories over any number of maps, all key types with equality and hash, all sizes", "why_tests_cant": "Leaks and double frees depend on the combination of growth, moves and origin of the memory over a whole history; allocation failure cannot be provoked in a unit test.", "anchors": ["include/cista/containers/hash_storage.h: hash_storage(hash_storage&&), hash_storage(hash_storage const&), operator=, clear, resize, initialize_entries, reset, partial_reset"]}
{"id": "C51", "title": "Iterators and references into a hash map stay valid until it grows", "statement": "Erasing entries while iterating over a hash map visits every entry and leaves exactly the entries not erased; an iterator or reference to an entry keeps denoting it through every operation that does not remove that entry, as long as the map does not grow; and a map only grows when an entry with a new key is added.", "quantifier": "all histories, all predicates, all collision patterns and tombstones", "why_tests_cant": "Whether an entry moves or is skipped depends on hash collisions and on where erased entries left tombstones: unboundedly many table states.", "anchors": ["include/cista/containers/hash_storage.h: iterator, operator++, skip_empty_or_deleted, erase(iterator), erase_meta_only, prepare_insert, find_or_prepare_insert"]}
{"id": "C52", "title": "Reflection lists every member of a struct exactly once", "statement": "For every aggregate struct, iterating its fields (as serialization, hashing, equality, type hash and printing do) visits each data member exactly once in the order of declaration, or the program does not compile; member_index returns the position of the member; printing shows each member once with its name.", "quantifier": "all struct types (members of any kind, C arrays of any size, base classes), all objects, all member positions, all lists of names", "why_tests_cant": "tests instantiate the templates for a handful of structs; which members are found depends on how every possible member type can be initialized", "anchors": ["include/cista/reflection/arity.h: arity_impl, arity", "include/cista/reflection/to_tuple.h: to_tuple", "include/cista/reflection/for_each_field.h", "include/cista/reflection/member_index.h", "include/cista/reflection/printable.h"]}
{"id": "C53", "title": "Failed allocations and throwing copies leave vectors and strings usable", "statement": "When an allocation fails or copying an element throws inside a vector or string operation, the container stays valid: later operations are defined and work as documented, push_back/resize/reserve/single insertion change nothing, and every constructed element is destroyed exactly once when the container is destroyed.", "quantifier": "all histories of operations, all sets of allocations and copies that fail, all element values and positions", "why_tests_cant": "tests would have to inject a failure at every allocation and copy of every history of operations", "anchors": ["include/cista/containers/vector.h: reserve, push_back, resize, insert, set, destructor", "include/cista/containers/string.h: set_owning, reset", "include/cista/containers/cstring.h: set_owning, reset"]}
{"id": "C54", "title": "Serialization is reproducible", "statement": "The bytes serialize produces depend only on the contents of the object graph: not on where its objects are in memory, in which order they were allocated, how much spare capacity they have, whether they are owned, whether raw or offset pointers are used, or which byte order the host has. So equal data give equal files and equal checksums.", "quantifier": "all types, all object graphs, all pairs of memories holding the same graph, all modes", "why_tests_cant": "tests compare images produced in one process on one host; address layouts, leftovers in memory and hosts cannot be enumerated", "anchors": ["include/cista/serialization.h: serialize, serialization_context::resolve_pointer, offsets_, vector_ranges_, pending_", "include/cista/targets/buf.h"]}
{"id": "C55", "title": "Serializing a loaded image again reproduces it byte for byte", "statement": "Load an image written by serialize() anywhere in memory (mmap, buffer, file) on a host with the byte order of the image, and call serialize() on the object that deserialize() returned, in the same mode: the result is the very same byte sequence, header, checksum and padding included. Images are fixed points, so copying a data set by loading and storing it again never changes it, its checksum or its size.", "quantifier": "all types built from the supported members, all object graphs (raw or offset pointers, either byte order, any addresses, spare capacity, pointers to anywhere), all writer modes, all load addresses", "why_tests_cant": "A test stores a few graphs twice; the claim is about every type, graph, address and mode, and hinges on the layout, alignment and pending-pointer order of the second run being those of the first.", "anchors": ["include/cista/serialization.h: serialize, serialization_context, deserialize", "include/cista/targets/buf.h: buf::write", "include/cista/containers/ptr.h"]}
{"id": "C56", "title": "Every way to call deserialize sees the same object", "statement": "deserialize and unchecked_deserialize called with two pointers, with a start only, with constant memory, with a container or a string view, and in mode CAST, return the same object for the same buffer; on constant memory nothing is written; an empty input is refused.", "quantifier": "every byte string, every type, every mode, every host byte order, raw and offset pointers", "why_tests_cant": "the agreement has to hold for all buffers and all combinations of modes; tests use few", "anchors": ["include/cista/serialization.h: deserialize (all overloads), unchecked_deserialize, check", "include/cista/mode.h: CAST, _CONST"]}
{"id": "C57", "title": "Writing through a loaded object changes exactly that value", "statement": "After a buffer was loaded, assigning to an integer, floating point number or non-owning pointer reached from the root through members, optionals, variants, unique pointers, vectors and hash tables changes that value and no other, for any sequence of such assignments; the header of the file is never written. If the file has no integrity hash, was loaded in its own byte order and uses offset pointers, the changed buffer is again a valid file with the new contents for every host.", "quantifier": "every object graph, every type, every sequence of assignments and access paths, every host byte order, raw and offset pointers", "why_tests_cant": "non-interference has to hold for every pair of members in every graph and for every history of changes; it depends on no byte being shared by two members in any image the serializer can produce", "anchors": ["include/cista/serialization.h: serialize, deserialize", "include/cista/containers/offset_ptr.h: operator=, get", "include/cista/containers/vector.h: operator[]", "include/cista/containers/unique_ptr.h: operator*, operator->", "include/cista/containers/optional.h: value", "include/cista/containers/variant.h: get", "include/cista/containers/hash_storage.h: iterator"]}
{"id": "C58", "title": "A hash map stays usable when code of the user throws", "statement": "If the constructor of an entry, the hash function or the comparison of keys throws inside an operation of a hash map or set, the program can catch the exception and go on: the operation has had no effect, and every later operation answers as if the failed ones had not been called. Without such exceptions no operation throws.", "quantifier": "every history of operations, every choice of calls of user code that throw, every hash function with collisions, every key and value type", "why_tests_cant": "an exception can come from any of the calls of user code in any operation of any history, and what it leaves behind depends on the probe sequence, the control bytes and whether the table was just growing", "anchors": ["include/cista/containers/hash_storage.h: emplace, operator[], find_or_prepare_insert, prepare_insert, resize, rehash, erase, find, copy constructor", "include/cista/hashing.h: hashing"]}
{"id": "C59", "title": "Vectors own their memory and leave loaded buffers alone", "statement": "Vectors take memory from malloc and give each block back exactly once, when they grow, are assigned to by move or are destroyed; no freed block is used, and the memory of a loaded buffer is never passed to free. At any time each block has exactly one vector as its owner, after the last vector is destroyed no block is left, and elements of the vectors are destroyed. A buffer changes only through the vector that was loaded from it.", "quantifier": "every history of operations on any number of vectors, new and loaded from buffers, every element type and size type", "why_tests_cant": "which vector owns which block depends on the whole history of growth, copies, moves and loads; a double free or a freed buffer need one particular combination of them", "anchors": ["include/cista/containers/vector.h: reserve, deallocate, reset, operator=(basic_vector&&), operator=(basic_vector const&), ~basic_vector, self_allocated_"]}
{"id": "C60", "title": "An interrupted save is refused", "statement": "If the program stops at any point while it saves a graph with a checksum (between two writes to the target or in the middle of one), the file left behind is refused by the checked load, unless it is the complete file: no half-written graph is ever returned.", "quantifier": "every graph, every crash point including the middle of a write, files written with write calls and through memory maps (with unused zero space at the end), readers of either byte order", "why_tests_cant": "the number of crash points grows with the graph, and each one leaves another file; tests write complete files only", "anchors": ["include/cista/serialization.h: serialize, check", "include/cista/targets/file.h: write", "include/cista/mmap.h: write, resize"]}
{"id": "C61", "title": "Nested vectors own their memory", "statement": "Vectors whose elements are vectors, to any depth, behave as values: a copy shares nothing with its source, a move leaves the source empty, and writing inside one never changes another. Every memory block in use belongs to exactly one element of exactly one variable, and when the variables go out of scope each block is freed exactly once and nothing remains allocated.", "quantifier": "all programs of push_back, insert, erase, pop_back, clear, resize, reserve, assignments and writes at any depth of any number of variables, all element nestings, all sizes up to half of the range of the size type", "why_tests_cant": "leaks and double frees of inner blocks depend on the history of the capacities at every depth; tests with trivially destructible elements and a few operations never see them", "anchors": ["include/cista/containers/vector.h: basic_vector, operator=, set, deallocate, reserve, push_back, insert, erase, pop_back, clear, resize"]}
{"id": "C62", "title": "Buffers own their memory and keep their address when moved", "statement": "A buffer has exactly one owner: moving it hands over the same address with the same bytes and leaves the source empty, moving it to itself changes nothing, moving over another buffer frees the other's memory. A construction that cannot get memory throws and changes nothing. Every block is freed exactly once, by free, by being moved over or at the end of the lifetime, and none remains.", "quantifier": "all programs of constructions (by size, from C strings, from bytes, by default), moves, frees, reads, writes and ends of lifetimes on any number of buffers, and all outcomes of the allocations", "why_tests_cant": "double frees and leaks depend on the history of moves between the variables and on which allocations fail; tests see a few histories in which malloc always succeeds", "anchors": ["include/cista/buffer.h: buffer, operator=, reset, free, data, size, operator[]"]}
{"id": "C63", "title": "Iterators over buckets behave as positions in the list of buckets", "statement": "An iterator over the buckets of a vecvec, a paged_vecvec or an nvec (at any depth) is a position between begin() and end(): ++, --, += and -= move it by the given number of buckets, + and - give moved copies, two iterators are equal exactly if they are at the same bucket, the difference of two iterators is the number of buckets between them with its sign, and reading gives the bucket at that position. Binary search with these iterators finds the partition point.", "quantifier": "all contents reached by any history of the container's operations, all index types of 8, 16, 32 or 64 bits, and all programs of iterator operations on any number of iterators that stay between begin() and end()", "why_tests_cant": "the arithmetic mixes unsigned positions with signed offsets of another width, so that its result depends on the index type and on the order of the two iterators; tests use one index type and forward loops", "anchors": ["include/cista/containers/vecvec.h: basic_vecvec::bucket, const_bucket, begin, end", "include/cista/containers/paged_vecvec.h: bucket, const_bucket, begin, end", "include/cista/containers/nvec.h: bucket, const_bucket, meta_bucket, const_meta_bucket, begin, end"]}
{"id": "C64", "title": "Nested containers work up to the limit of their index type", "statement": "A vecvec, fws_multimap or nvec whose index values have 8, 16, 32 or 64 bits gives the same answers as one with unbounded indices, as long as after every operation the number of elements and the number of buckets (at each level) is less than two to the number of bits. One element more and a bucket is read as empty, with other elements, or outside of the container.", "quantifier": "all element types, all index types of 8, 16, 32 or 64 bits and all histories of operations that keep the counts below the limit", "why_tests_cant": "the limit lies at four billion elements for the default index types, and whether every intermediate index value fits depends on the whole history", "anchors": ["include/cista/containers/vecvec.h: basic_vecvec::emplace_back, add_back_sized, resize, size, back, bucket::push_back, grow, size, at", "include/cista/containers/fws_multimap.h: fws_multimap::finish_key, finish_map, current_key, begin, end", "include/cista/containers/nvec.h: basic_nvec::emplace_back, add, size"]}
{"id": "C65", "title": "An R-tree in files can be closed and reopened", "statement": "If every process calls write_meta after its last change to an mm_rtree, then a later process that opens the file of nodes and calls read_meta finds the same entries, and inserts, deletes, searches and size() behave as if the tree had never been closed, also if the earlier process was killed. After changes without write_meta, searches still see the latest entries as long as the root node is the same; otherwise even entries that were saved can get lost.", "quantifier": "all histories of inserts, deletes, searches, write_meta (complete or interrupted) and restarts, all coordinates, values, numbers of dimensions and node sizes, and all contents of the reserved rest of the file", "why_tests_cant": "the tree is spread over two files written at different times, so what a reopened tree contains depends on where in the history the process ended and which nodes were split or freed since", "anchors": ["include/cista/containers/rtree.h: mm_rtree, basic_rtree::write_meta, read_meta, meta, node_new, add_to_free_list", "include/cista/containers/mmap_vec.h: basic_mmap_vec", "include/cista/io.h: write, read"]}
{"id": "C66", "title": "Elements of a nested container can be added to it again", "statement": "Passing an element or a bucket of a vecvec, mutable_fws_multimap, paged_vecvec or nvec to one of that container's own functions (push_back, grow, insert, emplace_back) has the same effect as passing a copy of it, and does not change the element or bucket it was taken from.", "quantifier": "all histories that lead to the container, all buckets and positions of the argument and of the target, all amounts of memory the data vector has left", "why_tests_cant": "whether the argument is still valid when it is read depends on the capacity of the data vector, on which pages are free, and on where argument and target lie, all of which follow from the whole history", "anchors": ["include/cista/containers/vecvec.h: bucket::push_back, bucket::grow, emplace_back", "include/cista/containers/vector.h: insert, reserve", "include/cista/containers/mutable_fws_multimap.h: push_back, insert, prepare_insert, grow_bucket", "include/cista/containers/paged_vecvec.h: push_back, insert, emplace_back", "include/cista/containers/paged.h: resize_page, free_page", "include/cista/containers/nvec.h: emplace_back, add, meta_bucket"]}
{"id": "C67", "title": "Iterators over the keys of a multimap are positions in the list of keys", "statement": "Iterators over a finished fws_multimap and over a mutable_fws_multimap behave like positions in the list of keys: ++, --, +=, -=, +, -, differences, the six comparisons, * and [] give what the same operations on positions give, as long as a program stays between begin() and end().", "quantifier": "all histories that lead to the map, all programs with any number of iterator variables that stay between begin() and end(), keys of 32 and 64 bits", "why_tests_cant": "algorithms combine the operators in programs of any length over maps of any size, and the mixture of signed distances with unsigned positions wraps only at certain sizes and directions", "anchors": ["include/cista/containers/fws_multimap.h: fws_multimap_iterator, begin, end, operator[]", "include/cista/containers/mutable_fws_multimap.h: bucket_iterator, begin, end, at"]}
{"id": "C68", "title": "Containers survive a file in every state", "statement": "A vecvec, fws_multimap (finished or not), mutable_fws_multimap, paged_vecvec, nvec, flat_matrix, bitvec, hash_map or hash_set that is saved in any state its operations can reach is loaded in the same state, also in another byte order, and all further operations on the loaded container answer as they would have on the original.", "quantifier": "all histories before saving and after loading, all element types (integers for paged_vecvec), all modes and byte orders of writer and reader, all load addresses", "why_tests_cant": "free lists, spare pages and half-finished keys are part of the state and only matter for operations long after loading; which of them exist depends on the whole history", "anchors": ["include/cista/serialization.h: serialize, deserialize", "include/cista/containers/vecvec.h: data_, bucket_starts_", "include/cista/containers/fws_multimap.h: data_, index_, current_start_, complete_", "include/cista/containers/mutable_fws_multimap.h: index_, data_, free_buckets_, element_count_", "include/cista/containers/paged.h: free_list_, node::push, node::pop, read, write", "include/cista/containers/nvec.h: cista_members", "include/cista/containers/flat_matrix.h", "include/cista/containers/bitvec.h: size_, blocks_, cista_members", "include/cista/containers/hash_storage.h: entries_, ctrl_, size_, capacity_, growth_left_"]}
{"id": "C69", "title": "A failed allocation loses nothing", "statement": "When an allocation inside a call of vecvec, fws_multimap, mutable_fws_multimap, paged_vecvec, flat_matrix or nvec fails, the call throws std::bad_alloc and leaves the container as it was: all other calls, before and after, answer as if the failed call had never been made.", "quantifier": "all clients (they may react to every answer and every exception, for example by trying again), all choices of the allocations that fail, all element values, all bucket and page size limits", "why_tests_cant": "every allocation of every call is a possible point of failure and a test would have to inject each of them in each state; the damage of a failure shows only in later calls", "anchors": ["include/cista/containers/vector.h: reserve", "include/cista/containers/vecvec.h: emplace_back, add_back_sized, resize, bucket::push_back, bucket::grow", "include/cista/containers/fws_multimap.h: push_back, finish_key, finish_map", "include/cista/containers/mutable_fws_multimap.h: grow_bucket, release_bucket, erase, operator[], get_or_create", "include/cista/containers/paged.h: create_page, resize_page", "include/cista/containers/paged_vecvec.h: emplace_back, insert, resize, bucket::push_back", "include/cista/containers/flat_matrix.h: resize, make_flat_matrix", "include/cista/containers/nvec.h: emplace_back, add"]}
{"id": "C70", "title": "Values of a hash map can be passed back to it", "statement": "Passing a value of a hash_map to a function of the same map by reference, as in m[m.at(k)], m[k] = m.at(j), m.emplace(k, m.at(j)), m.erase(m.at(k)) and m.insert(m.begin(), m.end()), has the same effect and result as passing a copy of that value.", "quantifier": "all programs that mix these calls with all other functions of the map, all key and value types, all hash functions and equivalences that agree with each other, all ways to use a value as a key", "why_tests_cant": "the calls differ only if the map grows between the moment the argument is evaluated and the moment it is read, which depends on the whole history of the map and on the hash values; and reading freed memory usually still finds the old value", "anchors": ["include/cista/containers/hash_storage.h: operator[], bracket_operator_impl, find_or_prepare_insert, prepare_insert, resize, emplace, insert, erase_impl, at_impl"]}
{"id": "C71", "title": "Elements of a vector can be added to it again", "statement": "Passing an element of a vector to a function of the same vector, as in v.push_back(v[i]), v.emplace_back(v[i]), v.insert(it, v[i]), v.insert(it, n, v[i]), v.push_back(std::move(v[i])) and v.set(v.begin() + a, v.begin() + b), has the same effect and result as passing a copy of that element. After v.reserve(n) this holds as long as the vector has at most n elements.", "quantifier": "all vectors reached by any history of calls, all sequences of such calls, all positions and counts, all element types and widths of the size type", "why_tests_cant": "the calls differ only if the vector grows between the call and the moment the argument is read, which depends on the capacity left by the whole history; and reading freed memory usually still finds the old value", "anchors": ["include/cista/containers/vector.h: push_back, emplace_back, insert, set, reserve"]}
