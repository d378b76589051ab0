# Machine-checked model of microsoft/STL in Rocq (Coq 8.16.1)

The library is header code; there is no single state machine. The development is therefore a set of
*areas*. Every area has

* `theories/<Area>/<X>Model.v`  – executable Gallina transcription of the C++ functions (no proofs). Each
  definition cites file:lines in /repo and states its simplifications.
* `theories/<Area>/<X>Spec.v`   – (when the specification is not a one-liner) the vocabulary of the property
  statements, independent of the model.
* `theories/<Area>/<X>Proofs.v` – lemmas, loop invariants.
* `theories/Props/<X>Props.v`   – only property theorems (closed by `exact`), the `Print Assumptions` of each,
  and `Example`s showing that the hypotheses are satisfiable by non-trivial data.

## Modelling conventions (theories/Base)

* **Outcome monad** `res A := Ok a | UB | Fuel`. `UB` is every C++ undefined or out-of-contract action the code could
  commit: dereference outside the array, decrement below the start, read of a moved-from or
  uninitialised element, signed overflow, bad shift, failed precondition. `Fuel` is exhaustion of an explicit
  loop bound. A theorem `wp (f x) Q` means: `f x = Ok r` with `Q r`; so it also proves absence
  of UB and termination. C++ exceptions are modelled, where a property needs them, as ordinary values.
* **Memory of element ranges**: `list (option A)`; `None` is a moved-from/unconstructed cell and
  reading it is `UB`; `std::move` out of a cell leaves `None`. Iterators are indices.
* **Loops** are `loop fuel body s` with `body : S -> res (S + R)`; the fuel passed by the model is proved sufficient.
* **Comparators** are pure `A -> A -> bool` functions; properties assume `StrictWeakOrder` (the contract in the
  C++ standard). Elements have unspecified type; copying does not throw.
* **Machine integers** are `Z` with explicit wrap (`mod 2^N`) wherever the property is about width; lengths and
  indices of containers are `nat`.
* **Concurrency**: a transition system whose atomic steps are the individual atomic accesses of the
  code (sequentially consistent interleavings; weak-memory effects are not modelled). Properties are invariants
  over every reachable state of every number of threads.

## Trusted base

* Coq 8.16.1 kernel (and `vm_compute` where used for closed Examples and finite sweeps).
* Print Assumptions: recorded per theorem in the build log; see the table at the end of this file.
* The reading of the C++ source (no extraction from C++ exists).
* Not modelled unless a definition says otherwise: debug-only checks (`_ITERATOR_DEBUG_LEVEL`, `_STL_VERIFY`), iterator
  wrapping/unwrapping, `if constexpr` vectorised and `memmove` fast paths, exceptions thrown by user code, allocator failure.

## What is modelled, per area (code in /repo/stl/inc unless said otherwise)

| Properties | Files of the model | Code modelled | Not modelled / assumptions |
|---|---|---|---|
| C01, C08 | Alg/SearchModel, PartitionModel | lower/upper_bound, equal_range, binary_search, partition_point, partition, stable_partition | iterator categories other than the ones named in the definitions |
| C02–C05 | Alg/HeapModel, SortModel, NthModel, MergeModel, StableSortProofs | heaps, introsort, partial_sort, nth_element, merge, inplace_merge, stable_sort with the temporary buffer as a parameter | throwing comparators; memmove fast paths |
| C06, C07, C09–C12, C40 | Alg/RotateModel, PermModel, SetOpModel, SubseqModel, Text/StringSearch* | rotate, reverse, shuffles of ranges, permutations, set operations, search, find_end, Boyer-Moore(-Horspool) | vectorised variants |
| C13–C15, C17 | Num/* | bit operations, byteswap, gcd/lcm/midpoint, ratio | CPU-specific intrinsics; the portable code is modelled |
| C18, C19 | Chrono/* | duration arithmetic, calendar conversions | parsing and formatting, time zones |
| C20, C25, C26 | Cont/TreeModel | xtree: lookups, insertion with and without hint, erase, clear, iterator moves | iterator debugging, max_size, throwing comparators, merge, copy, node handles |
| C21, C22 | Text/CharconvModel | integer to_chars / from_chars | floating-point |
| C23 | Cont/ObjMem, VectorModel | vector growth and modifiers with object lifetimes and throwing element operations | iterator debugging, constexpr paths |
| C24 | Cont/ObjMem, DequeModel, DequeOps | deque: map growth, both ends, insert/emplace/erase/resize/assign/append/prepend/shrink_to_fit/clear with their rollback guards, every block size | iterator debugging, allocator propagation, copy/move/swap of whole deques |
| C38, C39 | Path/PathModel | filesystem::path, wchar_t text: _Find_root_name_end with the drive, device, server forms (the 32-bit drive-letter trick included), all decomposition functions, iterators ++/--, compare, hash_value (FNV step abstract), operator/=, operator/, += , make_preferred, remove/replace_filename, replace_extension, lexically_normal, `p /= p` aliasing | code-page conversions, string reallocation other than in the aliasing case, file-system access |
| C43 | Rand/LcgModel, EngineModel | linear_congruential_engine (all five arithmetic paths, seeding from a number and a seed sequence, discard incl. the squaring path), _Circ_buf, subtract_with_carry_engine, mersenne_twister_engine (array cells may be uninitialised; both refill halves, tempering, seeding, ==, saved state), discard_block_engine with its int/size_t counter; histories of operations in Rand/EngineHist | formatting/parsing of the printed numbers, seed_seq::generate (any function producing 32-bit words), the 128-bit product is taken exact (Int128 is C07's subject), independent_bits_engine, shuffle_order_engine |
| C35 | Rand/UniformModel | _Rng_from_urng_v2 (bit count, multi-call assembly, Lemire rejection, _Get_all_bits) over a generator given as the tape of its results; uniform_int_distribution::_Eval/_Adjust; std::shuffle and ranges::shuffle; std::sample and ranges::sample on forward iterators. Uniformity (Rand/UniformSpec) counts, for each n, the sequences of n results that yield each value | reservoir sampling from input iterators; termination with probability one; the real-valued distributions |
| C32 | Text/StringModel | basic_string over a memory of regions with addresses and possibly uninitialised cells: small buffer/heap union, growth, every modifying member incl. self-aliasing arguments, constructors, substr, copy/move, swap, operator+, reserve, shrink_to_fit, destructor; any access outside a live region, overlapping memcpy, wrapping size computation, mismatched deallocation or use of the inactive union member is undefined behaviour in the model | ASan annotations, iterator debugging, constant evaluation, fancy pointers, allocator propagation / unequal allocators, search members (C40), streams |
| C44 | Unicode/UtfModel, GraphemeModel, UcdTables | the three _Decode_utf, _Unicode_codepoint_iterator, the three property tables and their lookup, the automata of GB9c and GB11, operator++ of the grapheme cluster iterator with all rules GB3-GB13, _Unicode_width_estimate with its table, _Measure_string_prefix; proof: declarative decode tables, automaton states characterised by regular contexts, parity of regional indicators | legacy code pages (_Fmt_codec), _Is_printable and escaping, parsing of the format string; upper_bound is taken as the count of entries <= the key (C09) |
| C37 | Mem/PoolModel | unsynchronized_pool_resource: _Setup_options, release, do_allocate, do_deallocate, _Pool::_Allocate/_Deallocate/_Increase_capacity/_Clear, _Chunk, _Allocate_oversized/_Deallocate_oversized, _Prepare_oversized, _Find_pool, _Size_for_capacity, all arithmetic modulo 2^(8A); the memory word holding each block's owner pointer is modelled (clients may overwrite what is theirs), chunk and oversized headers and free links are records and lists, with a theorem that their bytes overlap no live allocation; upstream is an oracle that returns fresh disjoint aligned blocks or throws; invariant proof over histories | memory of the vector of pools (its growth throws by oracle); the mutex of synchronized_pool_resource; do_is_equal |
| C41 | Conc/FutureModel | `_Associated_state` (set, wait, get, wait_for, reference count), promise (get_future, set_value, set_exception, destructor), future and shared_future (wait, wait_for, get, share, copy, destroy), async(launch::deferred), as a transition system: any number of operations interleave freely, `_Mtx` critical sections are atomic, notify_all and spurious wake-ups | at_thread_exit functions, packaged_task, launch::async (PPL task), reference count overflow, operations on futures without state |
| C42 | Alg/StrideModel | stride_view and chunk_view over forward ranges: iterator ++, --, +=, -=, ==, <, -, dereference, end(), size(), and ranges::advance (both overloads used, sized and unsized, random access or not); base iterators are positions, leaving the range and overflow of difference_type are undefined | input ranges, debug checks |
| C48 | Alg/CartesianModel | cartesian_product_view iterator: _Next, _Prev, _Advance, _Is_end, _Distance_from, ==, <=>, begin, end, size, dereference; base iterators are positions, leaving a range and overflow of difference_type are undefined | first ranges that are not sized or not common, debug checks, iter_move, iter_swap |
| C46 | Cont/FlatModel | flat_map, flat_multimap, flat_set, flat_multiset over sequence containers as lists: _Try_emplace, _Emplace_hint, _Emplace_exact, _Insert_range with _Restore_invariants (sort, inplace_merge, unique of Alg/), _Establish_invariants, erase by range/key/predicate, lookups, at, operator[], insert_or_assign, replace, construction; an oracle decides for every step whether it throws and what a throwing modification leaves behind; _Clear_guard | heterogeneous lookup, copy, move, swap, extract, iterators as pairs; that flat_set without the guard (vector, deque, string: _Has_guaranteed_single_insertion) inserts all-or-nothing is assumed, as the code does (see Findings) |
| C16 | Num/Int128Model | __msvc_int128.hpp: every arithmetic, comparison, bitwise, shift and conversion operator of _Unsigned128/_Signed128, _UMul128, _UDiv128, _Knuth_4_3_1_D, _Divide/_Modulo/_Div_ceil with both intrinsic selections | the x64/arm64 intrinsics themselves (assumed to compute what the fallback code computes), mixed-type overloads that only forward, numeric_limits/common_type |
| C27 | Cont/HashModel, HashLoad | xhash: every modifier and lookup of the unordered containers, node handles, merge, rehash; float load factor | throwing hashers (the _Clear_guard), max_size, copy/move/swap, iterator debugging; overflow of float to infinity |
| C28, C45 | Cont/BitsetModel, MdspanModel | bitset, mdspan layouts and extents | string conversions of bitset |
| C29 | Cont/ListModel | list: modifiers, splice, sort, merge, unique, remove_if, reverse | iterator debugging, max_size, throwing element operations, assign/resize |
| C30–C34 | Conc/* | shared_ptr counts, mutex/timed_mutex/shared_timed_mutex/condition_variable, semaphores, latch, barrier, stop_token, _Locked_pointer | sequentially consistent interleavings only; the kernel wait queue, SRWLOCK and condition-variable primitives are modelled by their contracts; client preconditions (e.g. unlock only by the owner) are guards of the steps; in C34 the locked pointer of stop_token is abstracted to a flag and reference counts of the stop state are left out |
| C36 | Mem/MonoModel | monotonic_buffer_resource | the upstream resource by its contract; block headers live in modelled memory; alignments 4 and 8 of the header |

The comment of every definition gives file and line and the simplification made, if any.

## Findings recorded as Examples

* **C33** `condition_variable::wait_until` (mutex:573-587): after an early timeout of the operating system call (the 24 h clamp of thread:187-198) the loop waits
  again without testing the predicate, so a notification in between is lost: `C33_early_timeout_loses_wakeup`.
* **C16** `_Signed128 / T` negates the built-in divisor in its own type (__msvc_int128.hpp:1408): signed overflow for `INT_MIN`/`INT64_MIN`, and a wrong quotient for `short(-32768)`
  or `signed char(-128)` on targets without division intrinsics: `C16_min_divisor_finding`.
* **C27** `unordered_*::merge` (xhash:1398) computes the bucket of the *source* container with the hasher of the *destination*. If the two hashers
  differ (other Hash type or state, both allowed by the standard) the source's bucket vector keeps a pointer to the moved node: `C27_merge_other_hasher`.

* **C38** `p /= p` (filesystem:705-764) reads `_Other` through pointers taken before `_Text` is changed: with p = "/abc" the result is "\0abc", and
  with a full buffer the pointers dangle: `C38_self_append_finding`.
* **C39** `lexically_normal` (filesystem:1186-1305) can turn a filename into a root name: "./c:." gives "c:.", and that gives "c:"
  (`C39_not_idempotent`); "/??//x" gives "\\??\\x" (`C39_root_changes`). `C39_result` states the condition under which this cannot happen.
* **C43** linear_congruential_engine<unsigned short, 65535, c, 0> multiplies in int and overflows (`C43_finding_lcg_u16`); modulus exactly 2^32 consumes
  two seed words where the standard asks for one (`C43_finding_lcg_words`); subtract_with_carry_engine with a 64-bit type and w <= 32 asks the seed
  sequence for twice the words (`C43_finding_swc_words`); mersenne_twister_engine shifts by the full width when u, s, t or l = w
  (`C43_finding_mt_shift`) and its seeding overflows int for unsigned short (`C43_finding_mt_u16`); discard_block_engine with p = INT_MAX overflows `_Nx++`
  (excluded by hypothesis).
* **C32** `_Replace` growing in place (xstring:3191-3219): if the source is part of the string, begins before the replaced range, ends inside it and is longer than it,
  `_Count - _Ptr_shifted_after` wraps and memcpy gets a huge length, e.g. `s.replace(2, 2, s.data(), 3)` for s = "123456" with spare capacity: `C32_finding_replace_self`.
* **C37** unsynchronized_pool_resource: a zero-size pooled allocation that is deallocated, allocated and deallocated again reads a lost owner pointer, because the free-list link and the owner
  pointer share the block's only word: `C37_finding_zero_size`. With alignment 2^30 on 32 bits `_Size_for_capacity` wraps and the block returned lies outside the 28 bytes upstream gave:
  `C37_finding_huge_alignment`. Chunk ids are size_t and would wrap after 2^w chunks (only reachable on 32 bits), hence `nups tr < W` in `ps_alloc`. With max_blocks_per_chunk = 1 empty chunks are kept until release.
* **C48** `_Distance_from` (ranges:8925-8944): for a product that is empty because a later range is empty, `begin() - default_sentinel` multiplies the earlier sizes first; if that product does
  not fit difference_type the debug check aborts although the distance is 0: `C48_finding_overflow`.
* **C41** (by reading, not modelled) after set_value_at_thread_exit, destroying the promise before the thread ends makes ~promise (future:1069-1075) call `_Set_exception`, because `_Ready`
  is still false; this throws promise_already_satisfied out of the noexcept destructor and terminates. packaged_task calls `_Abandon`, which tests `_Has_stored_result`.
* **C44** `_Grapheme_break_property_iterator2::operator++` (format:561-566) applies GB9c without testing that the right character is InCB=Consonant: no boundary in
  U+0915 U+094D | U+0061: `C44_finding_gb9c`. `_GB11_LeftHand_regex::_Match` (format:447-449) leaves state _ExtPic on a second pictographic character, so
  U+1F600 U+1F469 U+200D U+1F680 gets a boundary inside the ZWJ sequence: `C44_finding_gb11`. tests/std's run_unicode_test_data_utf32 does not notice (it never checks that all breaks occurred).
* **C46** flat_set on vector or deque inserts without _Clear_guard (flat_set:617-627, xmemory:2780), relying on "no effects" of a throwing single insertion, which
  vector and deque do not give for an insertion in the middle when a move throws: `C46_finding_no_guard`.
* **C24** `deque::insert(pos, 0, val)` (deque:1423-1485) self-move-assigns every element of the shorter side, which leaves them in the
  moved-from state for types whose self-move is not a no-op: `C24_insert_zero`. `assign(n, val)` (deque:853-869) counts its reuse counter down to 0 before using it and so
  always erases and re-appends (correct, only slower).

## Print Assumptions

Every theorem in theories/Props prints "Closed under the global context", except the ones below, which use the real numbers of the
standard library (through Flocq, which adds no axioms of its own):

| Theorem | Axioms (all from Coq's standard library) |
|---|---|
| C27_load_factor_float, C27_reserve_float | ClassicalDedekindReals.sig_not_dec, ClassicalDedekindReals.sig_forall_dec, FunctionalExtensionality.functional_extensionality_dep, Classical_Prop.classic |

## Plan per property
(The section below is regenerated as areas get finished; status is in MANIFEST.json.)

* C01 model xutility lower_bound/upper_bound, algorithm equal_range/binary_search/partition_point over lists; loop invariant "everything left of First is in, everything right of First+Count is out".
* C02 model __msvc_heap_algorithms.hpp on cell arrays with an explicit hole; invariants: filled array is a permutation, heap except along the hole.
* C03 model introsort incl. unguarded inner loop, ninther and three-way partition; total correctness by wp.
* C04/C05 model buffered merge sort with buffer capacity as a parameter; refinement to the stable-sort function on lists.
* C06–C12 model each algorithm on lists/arrays, functional specifications on lists (Permutation, sub-sequence, lexicographic order, multiset counts).
* C13–C17 arithmetic on Z with explicit wrap; loop invariants, Euclid/Knuth-D lemmas.
* C18–C19 calendar formulas on Z with C++ truncating division and unsigned wrap; proof by linear arithmetic over eras.
* C21–C22 charconv: digit loops on byte lists, numeral semantics as independent specification.
* C23–C24, C27–C29, C46 containers: state record + step function, abstraction to list/map, refinement by induction over operation histories.
* C25–C26 red-black tree: zipper transcription of the parent-pointer loops; invariants black height/no red-red/in-order.
* C30–C34 labelled transition systems with unbounded thread sets, inductive invariants.
* C36 allocator state machine with interval disjointness invariant.
* C38–C39 path parsing on lists of code units.
* C40 string search on lists. C43 engines on Z. C45 layouts on lists of extents.
