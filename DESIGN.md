# Formal model of cista in Coq 8.16.1 — design

The properties are in `properties.jsonl`, the theorems proved for each are listed
in `MANIFEST.json`, mutation tests of the theorems in `seeded/LOG.jsonl`.

## Layout of `rocq/theories`

Every component `X` of the library is a group of files:

| file            | contents |
|-----------------|----------|
| `XModel.v`      | executable Gallina model, every definition cites file:lines in /repo. No proofs. |
| `XSpec.v`       | the small mathematical specification the property is stated against (finite map, list, bit vector, ...). Knows nothing about the model's helpers. |
| `XProofs.v`     | lemmas. |
| `XProps.v`      | only `Theorem … exact lemma.`, `Print Assumptions`, and the non-vacuity `Example`s. |

`Base.v` holds machine words and list utilities (`wrap w x = x mod 2^w`, list update,
byte (de)composition).

## Modelling conventions

* Machine words are `N` (or `Z` where signed) with explicit wrap-around wherever the C++
  arithmetic can wrap and the property depends on it. Lengths/indices of in-memory
  containers that the property bounds are `nat`.
* Outcomes: operations that can go wrong return `res A := Ok a | Throw | UB | Fuel`:
  `Throw` = the C++ code throws, `UB` = the C++ code would do an out-of-bounds access,
  use after free, shift by >= width, ..., `Fuel` = the model's recursion budget is used up
  (unbounded recursion/loop in C++). `UB` and `Fuel` are never identified with success.
* Element types, hash functions and key equality are universally quantified Section
  variables (they become arguments of the theorems), never axioms.
* Threads: small-step interleaving semantics at the granularity of single atomic
  machine operations (sequentially consistent); schedules are arbitrary lists of thread ids.
* Crash points: prefixes of the list of file-system effects.

## Plan per property

| id | model | theorem shape |
|----|-------|---------------|
| C01 | `Ser*`: deeply embedded type universe (ints, structs with C++ layout, arrays, optional, variant, string, vector, unique_ptr, pointer, hash_storage), source memory `Z -> byte`, serializer function by function (write/patch/recurse), deserializer on bytes at a base address | refinement: observation of target = observation of source |
| C02 | same model: `offsets_`, `vector_ranges_`, `pending_` | simulation relation between source addresses and buffer offsets, pointers related by it |
| C03 | observation function on buffer at base B | equality for all B, B' |
| C04 | checked deserializer on arbitrary bytes | soundness: `Ok` implies inductively defined validity predicate; never `UB` |
| C05 | same, `Fuel` outcome | expected false for recursive types in offset mode (self-owning unique_ptr): `_refuted`; `_partial` for non-recursive types |
| C06 | `Fnv*`: FNV-1a on 64-bit words, `check` | injectivity of the step in state and byte, induction over payload |
| C07 | `check` on arbitrary buffer | decision rule iff |
| C08 | `integrity_start`, `data_start`, root write | equality for alignment <= 8; expected false for alignment 16 with only one header word: `_refuted` |
| C09 | byte lists of words | algebraic laws |
| C10 | `OffsetPtr*`: 64-bit wrap arithmetic | algebraic laws, one address excluded (offset INT64_MIN) |
| C11 | `Hs*`: swiss table with control bytes, groups (SWAR on u64), probe sequence, growth | refinement to finite map over op lists, hash function arbitrary |
| C12 | same | invariant: an EMPTY slot exists in every probe order, triangular probing visits all groups |
| C13 | same, iterator | iteration list is a permutation of bindings |
| C14 | `Vec*`: allocation as list of cells (uninit/live), sizes u32 | refinement to list; wrap of next_power_of_two is `_refuted` |
| C15 | comparisons | iff with lexicographic order |
| C16/C17 | `Bitset*`, `Bitvec*`: list of 64-bit blocks | refinement to `nat -> bool`/`list bool`; known suspicious spots (`reset` vs size, `next_set_bit` in last block) proved `_refuted` |
| C18/C19/C20 | interleaving semantics of CAS loops/fetch ops | invariant over all schedules |
| C21/C22 | `Str*`, `CStr*`: tagged union, heap blocks | refinement to byte list, heap accounting |
| C23–C28 | flat containers, free lists | refinement to list of lists/map |
| C29 | `Rtree*`: nodes, split, delete | refinement to multiset of entries |
| C30/C31 | tagged unions, ownership heap | refinement + exactly-once destruction |
| C32 | offsets of element list | layout inequalities for all type lists |
| C33 | words | laws for all words |
| C34/C38/C39 | targets as byte lists, file system effects | equality of outputs, crash prefixes |
| C35 | Z with bounds | exactness iff |
| C36/C37 | value/type universe, symbolic token stream | congruence; C37 expected false (no closing tokens, vector size type ignored) |
| C40 | hash_storage check_state on bytes | accept own tables; `_refuted` for hostile tables |
| C41 | `Conv*`: deserialization in place: raw pointers, byte order, checked and unchecked | every reachable word converted exactly once |
| C42/C43 | `Conv*` on arbitrary bytes | safety and termination of the first pass |
| C44/C45 | `Deep*`: the second pass of DEEP_CHECK | acceptance iff everything reachable is well formed; safety, termination |
| C46 | `Strong*`: integer promotion, conversion, wrap per width (LP64) | exactness modulo 2^width, exact-or-undefined for signed |
| C47 | `Ord*`: comparison operators on nested values | six operators = one lexicographic strict total order |
| C48 | `Align*`: aligned allocation, layout of the block of a hash table | alignment and room, for every system allocator within its contract |
| C49 | `Hold*`: wrapped objects over several kinds of memory | refinement to ownership, memory accounting |
| C50 | `Hmem*`: several hash maps with blocks and buffers | refinement to independent finite maps, memory accounting |
| C51 | `Hiter*`: iterators as slot numbers | erase while iterating, validity until growth |
| C52 | `Refl*`: aggregate initialization with probes, structured bindings, printing | all members, none, or does not compile; `_refuted` for members without default constructor |
| C53 | `Exc*`: vector and string operations with oracles for failing allocations and copies | histories in which exceptions are caught: defined, what remains is listed; `_refuted` for leaks and lost values |
| C54 | `Twin*`: two runs of the serializer of `SerialModel` side by side | simulation: buffers agree but for bytes still to be overwritten; `_refuted` for padding and unused bytes of short strings |
| C55 | `Idem*`: `serialize` of `SerialModel` applied to its own output; no new model | the graph in the image is the source graph in the sense of C54: contents by C01, pointers by C02, and a frame lemma (`ser_pads`): bytes the serializer does not patch are copies of the source bytes. Also C54 restated with contents (`graph_at`) |
| C56 | `EntryModel`: all overloads on top of `convert`, CAST, default end | equality of the overloads by computation; an unconverted buffer is never written (induction over the reader); CAST against C01; refutations by witness |
| C57 | `MutModel`: access paths (members, optional, variant, unique_ptr, vector, hash entries) and assignment of integers, raw bytes and pointers in a loaded buffer | a part of a graph is decoded on its own and can be exchanged (induction over the path); induction over the assignments; images of `serialize` share no bytes and start behind the header; shared bytes and integrity hashes as `_refuted` |
| C58 | `HexModel`: the functions of hash_storage.h with an oracle that lets any call of a constructor, `Hash{}` or `Eq{}` throw, and the table each exception leaves behind | simulation of `HashModel.step`: each operation runs like the one without exceptions or leaves the table as it was; then C11 on the operations that did not throw; throwing placement constructors, moves and hashes during growth as `_refuted` |
| C59 | `VmemModel`: the operations of `VecModel` on a heap of blocks and on loaded buffers; freeing twice, freeing a buffer and using a freed block are UB | simulation of `VecModel` with the invariant that each block in use has exactly one owner; then C14's history theorem; frame theorem for buffers; elements of loaded vectors and `reset()` as `_refuted` |
| C60 | `CrashModel`: the writer of `SerialModel` with a log of its writes; `CrashSpec`: what is left in a file or a map after a prefix of them | erasing the log gives `serialize`; invariant: the eight checksum bytes stay zero until the last write, and a part of the last write reads as the checksum only if it is complete; data with checksum 0 and saves without checksum as `_refuted` |
| C61 | `DmemModel`: a heap of blocks with objects (scalars, or vectors with members of their own), constructors, assignments and destructors of elements run at every depth; `DmemSpec`: values as trees, and which blocks belong to a value | every operation at a place is specified by what it changes and which blocks it takes and gives back; path lemmas for one place and for two places put the changed places back into the whole value; invariant over all variables, by induction over the program; then the destructors. Copying over or shrinking vectors of vectors with elements (leak) and `x.push_back(x[0])` (reads freed memory) as `_refuted` |
| C62 | `BufModel`: a heap of byte blocks by address, buffer variables with address and size, the address that malloc returns (or null) as part of each allocating operation; `BufSpec`: a value is an address with bytes and has one owner | invariant over all variables, preserved by each operation, by induction over the program; then the ends of all lifetimes leave no block. `reset()` (leak) and buffers of no bytes where malloc(0) is null (throws) as `_refuted` |
| C63 | `BiterModel`: positions of w bits with the conversions of C++ in `i_ += n` and `a.i_ - b.i_`, programs with iterator variables, on top of `FlatModel` and `PagedModel`; `BiterSpec`: positions in the list of buckets | simulation of iterator programs by positions (begin() of an inner container may be any position), composed with the representation relations of C23, C26 and C27. Differences of 32-bit positions with the first iterator before the second as `_refuted` |
| C64 | `NarrowModel`: the operations of `FlatModel` with every stored index value and size() reduced modulo 2^w; `NarrowSpec`: the specifications of C23, C25 and C27 with the condition that counts stay below 2^w | simulation: while the counts are small no index value changes when it is stored, so every step equals the one of `FlatModel`; composed with C23, C25 and C27. What happens at the limit as `_refuted` with 8-bit indices |
| C65 | `RtpModel`: an rtree of `RtModel` with a second file for its meta data, write_meta (also interrupted), and restarts that combine the saved meta data with the current nodes and any unused nodes; `RtpSpec`: a collection of entries and whether it is saved | invariant of C29 kept under adding unused nodes; induction over histories in which a process only ends when saved. Search after unsaved changes depends only on root and nodes. Lost entries after an unsaved root split, an old list of free nodes and an interrupted write_meta as `_refuted` |
| C66 | `AliasModel`: the functions of `FlatModel`, `MmModel` and `PagedModel` with a position in the data vector as argument, read at the moment the code reads it; the capacity of the vector is given, growing beyond it makes the position dangle | equal to the plain function with a copy, for every state reached by a history (invariants of C24-C26: other buckets' pages and the old page are not written), given memory; without it every such call reads a dangling reference (`_when_partial`). Dangling arguments, moved-out elements, the wrong element inserted, and the link written over the argument as `_refuted` |
| C67 | `KiterModel`: an iterator is a number of 32 or 64 bits, programs create and change iterator variables; reading is `fw_get`/`mm_at` of the map that a history gives | simulation of programs: each variable is a position (0 to the number of keys), wrap-around of unsigned numbers and conversions to `int` excluded by fewer than 2^31 keys. `it - n` of fws_multimap, `--it` of mutable_fws_multimap and maps that are not finished as `_refuted` |
| C68 | `SaveModel`: the members of each container with their offsets as a type of the serializer's type universe, and their contents for a state of `FlatModel`, `MmModel`, `PagedModel`, `BitModel`, `HashModel`; links of free pages as bytes inside elements | C01 gives the same contents after loading, contents determine the state (injectivity), and the simulations of C11, C17, C23-C28 continue from there. The layouts are proved well formed for all parameters. Links of free pages and sizes of bit vectors in the other byte order as `_refuted` |
| C69 | `OomModel`: the steps of `FlatModel` (vecvec, fws_multimap, flat_matrix, nvec), `MmModel`, `PagedModel` with a choice of the growth point that finds no memory, and the state each failure leaves; clients as decision trees over answers and exceptions | simulation against the specifications of C23-C26 extended by failed calls (`OomSpec`: `legal`, `explains`); `C69_struck`: the failed calls can be struck from the history. What vecvec, erase(key), flat_matrix resize and nvec do instead as `_refuted`, and their exact behaviour as `_partial` |
| C70 | `HownModel`: the calls with a slot of `HashModel`'s table as argument, read at the moment the code reads it; a changed capacity makes the slot dangle. `HownSpec`: the finite map with a copy of the value | equal to the call with a copy for every table reached by a program (invariant of C11), unless the copy's call changes the capacity; `operator[]` and assignment from an own value then dangle: `_refuted` |
| C71 | `VownModel`: the calls with an element of `VecModel`'s block as argument, read at the moment the code reads it; a new block makes the reference dangle. `VownSpec`: insertion of copies into a list | for every vector reached by a history (invariant of C14) and every sequence of calls: as with copies if the result fits into the block, else UB; after `reserve(n)` as with copies up to n elements; `set` to a part of itself, `_refuted` from the front for elements with constructors |

## Trusted base

* Coq 8.16.1 kernel (and `coqc`); `vm_compute` is used for closed examples and witnesses,
  so its reduction machine is trusted too.
* `Print Assumptions` of every theorem in `*Props.v` is printed during the build. All of
  them print "Closed under the global context": no axiom, not even of the standard library.
  (`coqchk -o` additionally lists the library-internal `Coq.ssr.ssrunder.Under_rel.*`, which come
  with loading `ssreflect` and which no theorem uses.)
* The reading of the C++ source: the model was written by reading /repo as text. Each
  definition cites the lines it models and says where it simplifies.
* The specifications (`XSpec.v`, and the definitions the statements in `XProps.v` use).

## What is modelled, and how far

Everywhere: templates and overloads resolved by hand; natural alignment layout; Windows
branches and the XXH3/WYHASH hash variants left out; atomics are sequentially consistent,
one step per atomic operation on one location.

* Serialization (C01–C03, C08, C40): source memory is total, images are below 2^62 bytes; CAST
  and the other overloads are in `Entry*` (C56). UNCHECKED, raw pointers and byte order are in `Conv*` (C41–C43),
  DEEP_CHECK in `Deep*` (C44, C45). There, a read behind capacity + 9 control bytes is undefined, and
  the set of visited pointers keys on type and address.
* Vectors (C14, C15): allocation succeeds, rotate is one step.
* Bit sets (C16, C17): index arithmetic without wrap at 32 bits.
* Flat containers, multimaps, paged containers (C23–C28): built on sequence-valued vectors, which
  C14 justifies; positions below 2^32. `nvec::at` with three or more levels and row iteration of
  `flat_matrix` do not compile. `NvModel`/`NvSpec`: programs over an nvec that also read and write elements.
* Strings (C21, C22): external buffers do not change, no views into inline buffers; the
  implicit copy of `generic_cstring` is shallow.
* Sums (C30, C31): variants with 16 or more alternatives do not compile. Tuples (C32): sizes unbounded.
* Files, maps (C34, C38, C39): sizes unbounded, a shared mapping is the file, mapping and growing
  succeed; `mmap_vec` counts below 2^32; only FNV composes over file blocks.
* Hash keys (C36): `std::hash` is an argument of the theorem; `char const*` as a stored key is not modelled.
* Type hash (C37): symbolic tokens; `indexed<T>` is transparent.
* R-tree (C29): see the header of `RtModel.v`; no NaN coordinates.
* Strong types (C46): LP64, bool not modelled. Order (C47): a float is NaN or a rank; no pointers.
* Aligned memory (C48): the `std::aligned_alloc` branch, the system call is an argument.
* wrapped (C49): one object per memory; what the object owns is not modelled; self-move excluded.
* Several hash maps (C50): one block per table, growth seen by the changed capacity, a loaded map is an exact
  copy in a buffer, elements own nothing.
* Reflection (C52): no bit fields, anonymous unions or reference members.
* Exceptions (C53): vectors and strings only; moving, swapping and destroying elements do not throw; sizes do not wrap around (C15 does that).
* Writing through loaded objects (C57): no allocation (push_back, reset, emplace) on a loaded graph.
* Exceptions in hash maps (C58): memory blocks left out (C50 has them); assigning a value and destroying do not throw.
* Memory of vectors (C59): malloc succeeds; a buffer is kept as long as vectors loaded from it; vectors inside of vectors are elements without memory of their own.
* Interrupted saves (C60): the process stops and the operating system keeps what was written, in order (a crash of the system, which may lose earlier writes, is not modelled); a write through a memory map of at most eight bytes happens at once.
* Nested vectors (C61): the objects of the elements lie in heap blocks and their special members run; the element type at the bottom is a scalar; std::swap and std::rotate are modelled as exchanges of objects; malloc succeeds; neither of source and target of an operation lies in the other (they may be elements of the same vector, and a place may be assigned to itself).
* Buffers (C62): all of buffer.h; bytes are numbers, bytes that were never written are unknown and must not be read; malloc is an oracle that returns null or an address not in use.
* Iterators over buckets (C63): the iterator operators of vecvec.h, paged_vecvec.h and nvec.h for integer keys. std::lower_bound, a caller, is modelled after the standard library. The iterators have no `<`, no postfix `++` and no `it[n]` in the sense of random access iterators, so standard algorithms that need these do not compile; the asserts that both iterators belong to one container are not modelled.
* Index types (C64): vecvec, fws_multimap and nvec with index values of w bits. paged_vecvec keeps pages, whose widths are those of C26; multimaps with one allocation per entry have no such index. The size types of the vectors themselves are those of C14.
* R-trees in files (C65): rtree.h with mmap_vec, write_meta and read_meta at the level of nodes and meta data; the bytes of the two files are those of C39, C01 and C60. Crashes of the whole system (pages not yet written back) are not modelled.
* Arguments inside the container (C66): vecvec, mutable_fws_multimap, paged_vecvec, nvec (`NvModel`: `nv_add_own`). fws_multimap's push_back is the vector's (C14). Rvalue arguments (`std::move(v[i][j])`) are modelled for vecvec's push_back.
* A hash map's own values as arguments (C70): `operator[]`, assignment through it, `emplace`, `erase`. Own keys as arguments are always found, so nothing is added for them. The order of evaluation is C++17's; values of built-in types are read before the left side is evaluated, so the assignment concerns class types only.
* A vector's own elements as arguments (C71): `push_back`, `emplace_back`, `insert` of one element and of n copies, moving an element to the end, `set` from an own range. `insert` of an own range of iterators is not modelled: `std::vector` forbids it as well. `resize(n, x)` takes `x` by value. The same calls of `mmap_vec` are in C39.
* Iterators over keys (C67): all operators of both iterators. Iterators of different maps are not compared; `operator->` and conversion from iterator to const iterator (same number) are not modelled.
* Containers in files (C68): vectors with 32 bit sizes, element types of the type universe; paged_vecvec for unsigned integers of 1, 2, 4, 8 bytes. That a loaded vector, which does not own its memory, changes like any other is C59. R-trees in files are C65. Hash tables with tombstones are not accepted (C40).
* Failed allocations (C69): trivially copyable elements; a vector that cannot grow is left alone (vector.h reserve allocates first). Capacities are not modelled, so every growth point may fail. flat_matrix and nvec are included (for nvec only emplace_back, with the growth points counted as they are met); vectors, strings and hash maps are C53 and C58.
* Not modelled at all: CUDA helpers, fmt support, `std::` container
  adapters, weak memory orders, the operating system beyond the file effects above.

## Results that contradict the English property

A property that fails outright in some case is stated in full in `properties.jsonl`; the failing case is a
theorem `Cxx_…_refuted` with a concrete witness, the rest a theorem that states the extra
hypothesis. `MANIFEST.json` names both and says in its note what is missing.

## Mutation tests

`seeded/LOG.jsonl` has one line per wrong program. `lemmas_failed` is where the build
stopped: the first lemma of each file whose proof no longer goes through. `theorems_failed` was
generated by a script and works on whole files: it lists every property theorem in a `Props` file that
imports, directly or not, a file that stopped building. It is an upper bound. Theorems of the same file
that do not concern the edited function are listed too (a change of `k_dec` for
`mutable_fws_multimap` lists the `fws_multimap` theorems of C67), and theorems after the first failing
lemma were not tried one by one. A failure says that the proof as written breaks; it does not by itself
show that the statement is false of the edited program. That a claim is false under an edit is what
`claim_broken` asserts, judged by reading, not proved. So the log shows reliably which edits
went unnoticed, and less reliably which theorem noticed the others. An entry without
failed theorems is an edit under which every claim stays true; its note says why.
