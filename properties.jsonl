{"id": "C01", "title": "Binary search is exact on partitioned ranges", "statement": "For a range partitioned with respect to the probe, lower_bound returns the first position whose element is not less than the probe, upper_bound the first position whose element is greater, equal_range the pair of both, binary_search answers whether an equivalent element exists, partition_point returns the boundary; no element outside the range is read.", "quantifier": "every sequence length, every element type, comparator and probe for which the range is partitioned (heterogeneous comparison allowed)", "why_tests_cant": "the claim covers all lengths and all comparators; off-by-one errors in the halving only show at particular lengths", "anchors": ["stl/inc/xutility: lower_bound, upper_bound", "stl/inc/algorithm: equal_range, binary_search, partition_point, ranges::_Lower_bound_unchecked"]}
{"id": "C02", "title": "Heap algorithms preserve the multiset and the heap order", "statement": "push_heap turns a heap [f,l-1) plus one element into a heap of the same multiset; pop_heap moves a maximal element to the back and leaves a heap; make_heap makes any range a heap; sort_heap sorts a heap; is_heap_until returns the longest heap prefix. Elements outside the range are untouched, no out-of-range or moved-from element is read.", "quantifier": "every element type, every strict weak ordering, every range inside every array", "why_tests_cant": "unbounded input lengths and arbitrary comparators", "anchors": ["stl/inc/__msvc_heap_algorithms.hpp: _Push_heap_by_index, _Pop_heap_hole_by_index, _Make_heap_unchecked, pop_heap", "stl/inc/algorithm: sort_heap, is_heap_until"]}
{"id": "C03", "title": "std::sort sorts", "statement": "sort(first,last,pred) terminates and leaves a permutation of the range that is sorted; it never reads outside [first,last), never reads a moved-from element and touches nothing outside the range.", "quantifier": "every element type, every strict weak ordering, every length and every initial permutation, including those that exhaust the introsort depth budget", "why_tests_cant": "quadratic-case fallback and pivot partitioning only trigger on adversarial inputs; n! orders", "anchors": ["stl/inc/algorithm: _Insertion_sort_unchecked, _Med3_unchecked, _Guess_median_unchecked, _Partition_by_pivot_unchecked, _Sort_unchecked, sort"]}
{"id": "C04", "title": "std::stable_sort sorts stably whatever temporary buffer it obtains", "statement": "stable_sort leaves the unique sorted permutation that keeps equivalent elements in original order, for every temporary-buffer capacity the allocator happens to grant (including zero).", "quantifier": "every element type, every strict weak ordering, every length and every buffer capacity", "why_tests_cant": "buffer capacity depends on run-time memory; all lengths", "anchors": ["stl/inc/algorithm: stable_sort, _Stable_sort_unchecked, _Buffered_merge_sort_unchecked, _Chunked_merge_unchecked, _Merge_move_unchecked"]}
{"id": "C05", "title": "inplace_merge and merge are stable merges", "statement": "Merging two sorted ranges yields the sorted stable interleaving (ties from the first range first) for every buffer capacity.", "quantifier": "every element type, every strict weak ordering, all sorted inputs and buffer capacities", "why_tests_cant": "unbounded inputs, run-time memory dependent paths", "anchors": ["stl/inc/algorithm: inplace_merge, _Buffered_inplace_merge_unchecked, _Inplace_merge_buffer_left, _Inplace_merge_buffer_right, merge"]}
{"id": "C06", "title": "nth_element and partial_sort place order statistics", "statement": "After nth_element(first,nth,last) the element at nth is the one a full sort would put there, nothing before it is greater and nothing after is less; partial_sort leaves the smallest mid-first elements sorted in front; both permute.", "quantifier": "every element type, every strict weak ordering, every length and position", "why_tests_cant": "all inputs and positions", "anchors": ["stl/inc/algorithm: nth_element, partial_sort"]}
{"id": "C07", "title": "partition and stable_partition", "statement": "partition moves all elements satisfying the predicate before all others and returns the boundary; stable_partition additionally keeps relative order in both groups.", "quantifier": "every range, predicate, buffer capacity", "why_tests_cant": "all inputs", "anchors": ["stl/inc/algorithm: partition, stable_partition"]}
{"id": "C08", "title": "remove_if and unique keep exactly the right elements in order", "statement": "remove_if returns the new end of the compacted subsequence of elements not satisfying the predicate, in order; unique keeps the first of each run of elements equal to the last kept element.", "quantifier": "every sequence and predicate", "why_tests_cant": "all inputs", "anchors": ["stl/inc/xutility: remove_if", "stl/inc/algorithm: unique"]}
{"id": "C09", "title": "rotate, reverse, shift_left and shift_right permute exactly", "statement": "rotate exchanges the two blocks and returns the new position of the first element; reverse reverses; shift_left/shift_right move elements by n and return the surviving range.", "quantifier": "every range and split point", "why_tests_cant": "all lengths and split points", "anchors": ["stl/inc/xutility: reverse, rotate", "stl/inc/algorithm: shift_left, shift_right"]}
{"id": "C10", "title": "next_permutation enumerates lexicographically", "statement": "next_permutation replaces the range by the lexicographically least permutation greater than it and returns true, or by the sorted range returning false when it was the greatest; prev_permutation is the mirror image.", "quantifier": "every element type, every strict weak ordering, every sequence", "why_tests_cant": "n! permutations of every length", "anchors": ["stl/inc/algorithm: next_permutation, prev_permutation"]}
{"id": "C11", "title": "Set operations on sorted ranges have multiset semantics", "statement": "On sorted inputs set_union / set_intersection / set_difference / set_symmetric_difference output sorted ranges with max(m,n) / min(m,n) / max(m-n,0) / |m-n| copies of each equivalence class taken from the right input; includes decides multiset inclusion.", "quantifier": "every element type, every strict weak ordering, all pairs of sorted sequences", "why_tests_cant": "all inputs", "anchors": ["stl/inc/algorithm: set_union, set_intersection, set_difference, set_symmetric_difference, includes"]}
{"id": "C12", "title": "Subsequence search finds the right occurrence", "statement": "search returns the first, find_end the last occurrence of a needle, search_n the first run of n equal elements; the Boyer-Moore searchers agree with search.", "quantifier": "all haystacks and needles over any alphabet", "why_tests_cant": "all inputs; shift-table errors only show for particular patterns", "anchors": ["stl/inc/algorithm: search, find_end, search_n", "stl/inc/functional: boyer_moore_searcher, boyer_moore_horspool_searcher"]}
{"id": "C13", "title": "gcd and lcm", "statement": "gcd(m,n) is the mathematical greatest common divisor of the magnitudes and lcm the least common multiple whenever representable; no intermediate overflow changes the result.", "quantifier": "all pairs of values of any integer width", "why_tests_cant": "2^128 input pairs", "anchors": ["stl/inc/numeric: gcd, lcm", "stl/inc/__msvc_bit_utils.hpp"]}
{"id": "C14", "title": "midpoint never overflows and rounds toward the first argument", "statement": "midpoint(a,b) equals a plus half the difference rounded toward a, for all values including extremes; the pointer overload likewise.", "quantifier": "all pairs of values, every width, signed and unsigned", "why_tests_cant": "2^128 input pairs", "anchors": ["stl/inc/numeric: midpoint"]}
{"id": "C15", "title": "duration_cast, floor, ceil, round of durations", "statement": "duration_cast truncates toward zero; floor is the greatest representable not above; ceil the least not below; round the nearest with ties to even.", "quantifier": "all tick counts and all period ratios for which the result is representable", "why_tests_cant": "all tick counts", "anchors": ["stl/inc/__msvc_chrono.hpp: duration_cast, floor, ceil", "stl/inc/chrono: round"]}
{"id": "C16", "title": "128-bit integer arithmetic is exact modulo 2^128", "statement": "_Unsigned128/_Signed128 addition, subtraction, multiplication, shifts, comparison, division and remainder agree with integer arithmetic modulo 2^128.", "quantifier": "all 2^256 operand pairs", "why_tests_cant": "input space 2^256", "anchors": ["stl/inc/__msvc_int128.hpp: _Base128, _Unsigned128, _Signed128"]}
{"id": "C17", "title": "<bit> functions compute their mathematical definition", "statement": "countl_zero, countr_zero, popcount, bit_width, bit_ceil, bit_floor, has_single_bit, rotl, rotr, byteswap fallbacks agree with the bit-level definition for every width.", "quantifier": "all values and widths, all rotation counts including negative", "why_tests_cant": "2^64 values times all shifts", "anchors": ["stl/inc/bit", "stl/inc/__msvc_bit_utils.hpp"]}
{"id": "C18", "title": "Gregorian calendar conversion is a bijection", "statement": "Converting sys_days to year_month_day and back is the identity, year_month_day to sys_days and back is the identity on valid dates, consecutive days map to consecutive calendar dates.", "quantifier": "every day number / every valid date in the range of year", "why_tests_cant": "all days; leap rules interact at 4/100/400 year boundaries", "anchors": ["stl/inc/chrono: year_month_day, _Civil_from_days, _Days_from_civil, _Last_day, year::is_leap"]}
{"id": "C19", "title": "Calendar month and weekday arithmetic", "statement": "month + months wraps modulo 12 for any (also negative) count; weekday + days wraps modulo 7; weekday(sys_days) advances by one each day and differences invert addition.", "quantifier": "all counts", "why_tests_cant": "all counts incl. negative extremes", "anchors": ["stl/inc/chrono: month, weekday, year_month"]}
{"id": "C21", "title": "Integer to_chars/from_chars round-trip", "statement": "to_chars writes the canonical base-b numeral of the value when it fits and value_too_large otherwise without writing outside the buffer; from_chars of that text returns the value.", "quantifier": "all values, widths, signedness, bases 2..36, buffer sizes", "why_tests_cant": "2^64 values x 35 bases x buffers", "anchors": ["stl/inc/charconv: _Integer_to_chars, _Integer_from_chars"]}
{"id": "C22", "title": "from_chars detects overflow exactly and consumes the maximal numeral", "statement": "from_chars stores the denoted value iff representable, otherwise result_out_of_range leaving the value untouched, ptr past the longest digit run; invalid_argument iff no digit.", "quantifier": "all byte strings of any length, all bases and widths", "why_tests_cant": "all strings", "anchors": ["stl/inc/charconv: _Integer_from_chars"]}
{"id": "C23", "title": "vector refines an abstract sequence", "statement": "Any history of push_back, insert, erase, resize, reserve, shrink_to_fit, assign, clear gives the same contents as a mathematical list; size <= capacity; growth is geometric (1.5x) and never exceeds max_size; reserve'd capacity prevents reallocation.", "quantifier": "all operation histories", "why_tests_cant": "unbounded histories", "anchors": ["stl/inc/vector: _Calculate_growth, _Emplace_reallocate, insert, erase, _Resize, reserve"]}
{"id": "C24", "title": "deque behaves as a sequence, with stable references and exception guarantees", "statement": "Every history of push/emplace/pop at both ends, insert (one, n copies, range), erase, resize, assign, clear, append/prepend and shrink_to_fit leaves exactly the elements the list operation gives, each element in a live object at its own address; operator[] and iterators reach the i-th element; push and pop at the ends never move, copy or relocate the other elements; a throwing single-element insertion at an end, or any growth at an end, has no effect; every other throw leaves a valid deque and leaks nothing; no operation touches memory outside its blocks; after shrink_to_fit every block in use holds an element.", "quantifier": "all element types' move/copy/nothrow traits, block sizes, allocation-failure and constructor-throw points, operation histories and arguments, including arguments that alias elements", "why_tests_cant": "unbounded histories, wrap-around states of the circular block map, every throw point", "anchors": ["stl/inc/deque: _Growmap, push_back, push_front, _Emplace_back_internal, _Getblock, _Insert_n, _Insert_range, insert, erase, emplace, resize, assign, shrink_to_fit, _Tidy, _Subscript, _Restore_old_size_guard"]}
{"id": "C20", "title": "map/set lookup, counting and iteration", "statement": "find, contains, count, lower_bound, upper_bound and equal_range answer exactly as a linear scan of the ordered elements would; ++/-- visit the elements in order, -- of end() is the last element; every root-to-node path has at most 2*log2(n+1) nodes.", "quantifier": "every element type, every strict weak ordering, all trees, keys and positions", "why_tests_cant": "pointer structure depends on history; every key position", "anchors": ["stl/inc/xtree: _Find_lower_bound, _Find_upper_bound, _Eqrange, _Find, count, operator++, operator--"]}
{"id": "C25", "title": "map/set insertion keeps a red-black search tree", "statement": "After any insertion the tree is ordered, black-balanced, has no red-red edge, and in-order contents are the old ones plus the new element at its upper/lower bound; multi containers keep equivalent keys in insertion order.", "quantifier": "every element type, every strict weak ordering, all insertion histories", "why_tests_cant": "rebalancing cases depend on history", "anchors": ["stl/inc/xtree: _Insert_node, _Lrotate, _Rrotate, _Find_lower_bound, _Find_upper_bound"]}
{"id": "C26", "title": "map/set erasure keeps a red-black search tree", "statement": "Erasing any element removes exactly that element, preserving order, balance and colour invariants.", "quantifier": "every element type, every strict weak ordering, all trees reachable by any history", "why_tests_cant": "rebalancing cases depend on history", "anchors": ["stl/inc/xtree: _Extract, erase"]}
{"id": "C27", "title": "unordered containers refine an abstract (multi)map", "statement": "Any history of insert, erase, find, rehash, clear answers like a finite map; bucket ranges stay contiguous and consistent; load factor bound is kept by insertion.", "quantifier": "all histories, hash functions and equality predicates that agree", "why_tests_cant": "hash collisions and rehash points", "anchors": ["stl/inc/xhash: _Hash, _Find_last, _Insert_new_node_before, _Forced_rehash, _Erase_bucket"]}
{"id": "C28", "title": "bitset operations are exact bitwise operations", "statement": "set, reset, flip, &,|,^,~,<<,>>,count,all,any,none,test,==,to_ullong agree with the abstract bit function; padding bits stay zero.", "quantifier": "all sizes N and all contents and shift counts", "why_tests_cant": "2^N states", "anchors": ["stl/inc/bitset"]}
{"id": "C29", "title": "list operations refine sequence operations and never invalidate nodes", "statement": "splice, merge, sort, reverse, remove_if, unique on list give the specified sequence with the same nodes; the links stay a consistent circular doubly linked list.", "quantifier": "every element type, every strict weak ordering, all lists", "why_tests_cant": "all histories", "anchors": ["stl/inc/list: splice, merge, sort, _Unique, reverse"]}
{"id": "C30", "title": "shared_ptr destroys the object exactly once under any interleaving", "statement": "For any number of threads copying, dropping, locking weak_ptrs, the managed object is destroyed exactly when the last owner goes, the control block exactly after the last weak reference; weak_ptr::lock never returns a destroyed object.", "quantifier": "all interleavings and histories", "why_tests_cant": "schedules", "anchors": ["stl/inc/memory: _Ref_count_base, _Incref_nz, _Decref, _Decwref, weak_ptr::lock"]}
{"id": "C31", "title": "counting_semaphore, latch and barrier counting", "statement": "Acquires never exceed initial plus releases; latch wait returns only after the count reached zero; barrier phases: no thread leaves a phase before all expected arrivals, completion runs exactly once per phase.", "quantifier": "all interleavings", "why_tests_cant": "schedules", "anchors": ["stl/inc/semaphore", "stl/inc/latch", "stl/inc/barrier"]}
{"id": "C33", "title": "The mutex classes exclude and wake correctly", "statement": "For mutex, recursive_mutex, timed_mutex, recursive_timed_mutex and shared_timed_mutex, in every interleaving: at most one exclusive owner, and never a reader together with a writer; lock depth accounting is exact; a lock attempt fails only when some other thread owns the mutex or is in the middle of a call (or, recursive, the maximum depth is reached); no wake-up is lost: if all threads are outside or asleep and some thread sleeps after having tested the mutex, some thread owns it.", "quantifier": "all interleavings of any number of threads, spurious wake-ups and timeouts included", "why_tests_cant": "schedules", "anchors": ["stl/inc/mutex: mutex, recursive_mutex, timed_mutex, recursive_timed_mutex, condition_variable", "stl/inc/shared_mutex: shared_timed_mutex", "stl/src/mutex.cpp: mtx_do_lock, _Mtx_unlock"]}
{"id": "C34", "title": "stop_token callbacks run exactly once", "statement": "request_stop succeeds exactly once; each registered callback runs exactly once or is deregistered; destructor of a running callback waits.", "quantifier": "all interleavings", "why_tests_cant": "schedules", "anchors": ["stl/inc/stop_token"]}
{"id": "C36", "title": "monotonic_buffer_resource hands out disjoint aligned blocks", "statement": "Every allocation is aligned, inside an upstream or initial buffer, and disjoint from all earlier live allocations; release returns every upstream block exactly once.", "quantifier": "all allocation histories", "why_tests_cant": "unbounded histories", "anchors": ["stl/inc/memory_resource: monotonic_buffer_resource"]}
{"id": "C38", "title": "path: decomposition, iteration, append, comparison, hash", "statement": "Every text has exactly one decomposition into root name, root directory and filenames; root_name, root_directory, relative_path, parent_path, filename, stem, extension and is_absolute return the parts and the parts concatenate to the path; begin..end visits root name, root directory, filenames and a final empty element, and -- undoes ++; operator/= follows [fs.path.append] and operator/ agrees with it; compare is the element-wise order, paths that differ only in separators are equal, and equal paths have equal hashes; remove_filename, replace_filename and replace_extension rebuild the path from these parts.", "quantifier": "all texts of wchar_t code units, all pairs of paths", "why_tests_cant": "all strings; Windows root-name forms (drive, device, server) interact with every separator run", "anchors": ["stl/inc/filesystem: _Find_root_name_end, _Parse_root_name, _Find_filename, _Find_extension, path::operator/=, operator/, path::compare, hash_value, _Path_iterator"]}
{"id": "C39", "title": "lexically_normal computes the normal form", "statement": "lexically_normal(p) is the normalisation of [fs.path.generic]: no dot, dot-dot only in front and never under a root directory, no separator after a last dot-dot, '.' if nothing is left; it leads to the same place from every directory in a file system without links; it keeps root name and root directory and is idempotent unless a filename could be read as a root name.", "quantifier": "all texts", "why_tests_cant": "all strings and arbitrarily long dot-dot chains", "anchors": ["stl/inc/filesystem: path::lexically_normal"]}
{"id": "C40", "title": "string search functions return the specified position", "statement": "find, rfind, find_first_of, find_last_of, find_first_not_of, find_last_not_of return the extremal matching position or npos for every start offset.", "quantifier": "all strings, needles and offsets", "why_tests_cant": "all inputs", "anchors": ["stl/inc/__msvc_string_view.hpp: _Traits_find, _Traits_rfind, _Traits_find_first_of"]}
{"id": "C43", "title": "random engines follow the standard's recurrences and equality is state equality", "statement": "linear_congruential_engine returns (a*x+c) mod m exactly for every width and template argument; discard(n) equals n calls; seeding from a number or a seed sequence gives the standard's initial state. Any history of seeding, calls, discards and state restorations of subtract_with_carry_engine and mersenne_twister_engine, starting from an object with an uninitialised array, never reads an uninitialised cell and returns the standard's sequence; the saved state is the standard's state and two engines compare equal iff their states are equal. discard_block_engine returns the first r of every p values.", "quantifier": "all template arguments, seeds, seed sequences, states and histories", "why_tests_cant": "unbounded histories; every parameter choice", "anchors": ["stl/inc/random"]}
{"id": "C45", "title": "mdspan layouts are injective and in bounds", "statement": "layout_left/right/stride map distinct in-range multidimensional indices to distinct offsets below required_span_size.", "quantifier": "all ranks, extents, strides and indices", "why_tests_cant": "all shapes", "anchors": ["stl/inc/mdspan"]}
{"id": "C46", "title": "flat_map, flat_multimap, flat_set, flat_multiset keep keys ordered and in step with values, whatever throws", "statement": "After any history of insertions (single, hinted, range, sorted range), assignments, erasures and replacements the keys are sorted (strictly, for the unique containers) and there are as many values as keys; lookups return the positions the keys define; at, operator[], insert_or_assign, erase behave like a map from key classes to values; an inserted range is merged with existing entries first. If the comparator, a predicate, an element operation or an allocation throws at any point, the container is left valid: unchanged, or empty (or, for an assignment to the value of an existing key, with only that value changed).", "quantifier": "every element type, every strict weak ordering, all keys, values, histories, hints, and all points at which exceptions may be thrown with any partial effect", "why_tests_cant": "unbounded histories and every exception point", "anchors": ["stl/inc/flat_map: _Flat_map_base::_Try_emplace, _Emplace_hint, _Emplace_exact, _Insert_range, _Restore_invariants, _Establish_invariants, _Erase_key, _Erase_if, _Find, _Equal_range, _Count, _Contains, _At, operator[]", "stl/inc/flat_set: _Flat_set_base::_Emplace, _Emplace_hint, _Insert_range, _Restore_invariants, _Erase_key, _Erase_if, _Find, _Equal_range"]}
{"id": "C47", "title": "std::ratio arithmetic is exact", "statement": "ratio<n,d> stores lowest terms; ratio_add, ratio_subtract, ratio_multiply, ratio_divide denote the exact rational result in lowest terms; multiply and divide compile exactly when that result is representable; ratio_less and ratio_equal compare the exact values even when cross products exceed 64 bits.", "quantifier": "all ratios whose terms fit intmax_t", "why_tests_cant": "2^256 operand pairs; overflow in cross products", "anchors": ["stl/inc/ratio: _Gcd, _Safe_mult, _Ratio_add, _Ratio_multiply, _Ratio_divide, _Big_multiply, _Ratio_less"]}
{"id": "C35", "title": "uniform_int_distribution, shuffle and sample are exactly uniform", "statement": "uniform_int_distribution(lo, hi) returns every value of [lo, hi] equally often over the generator's result sequences and nothing else; shuffle makes all arrangements of distinct elements equally likely; sample makes all order-preserving samples of min(count, n) elements equally likely; ranges::sample draws the same sample with no more generator calls. No sequence of generator results leads to undefined behaviour.", "quantifier": "all integer types, bounds, generators (any range), element sequences and result sequences", "why_tests_cant": "uniformity is a statement about all result sequences; a bias of one in 2^32 is invisible to tests", "anchors": ["stl/inc/algorithm: _Rng_from_urng_v2, _Random_shuffle1, sample", "stl/inc/random: uniform_int_distribution"]}
{"id": "C32", "title": "basic_string: a null-terminated sequence of characters whatever the aliasing, growth and exceptions", "statement": "Every modifying member (append, assign, insert, replace, erase, push_back, pop_back, resize, resize_and_overwrite, clear, operator=, swap) leaves exactly the characters the call describes, followed by a null character, even if the characters given are part of the string itself; capacity only changes when needed, grows geometrically and otherwise data() stays the same; out_of_range, length_error and bad_alloc are thrown exactly when documented and leave everything unchanged; nothing else in memory is changed, no block leaks, sizes passed to the allocator match and no access is out of bounds. Moves and swap hand over the heap block. Constructors, substr and operator+ produce the described characters.", "quantifier": "all character types, small capacities, allocation masks, allocators (any failure pattern, any addresses and over-allocation), contents, positions, counts, own or foreign source pointers, and all sequences of calls", "why_tests_cant": "self-aliasing combined with in-place or reallocating growth at every size, address and allocator failure", "anchors": ["stl/inc/xstring: basic_string::append, assign, insert, replace, _Replace, erase, push_back, pop_back, resize, resize_and_overwrite, reserve, shrink_to_fit, swap, _Take_contents, _Construct, _Reallocate_for, _Reallocate_grow_by, _Calculate_growth, _Become_small, _Tidy_deallocate, operator+"]}
{"id": "C44", "title": "Unicode text in std::format: decoding, grapheme clusters, width and precision", "statement": "Decoding UTF-8, UTF-16 or UTF-32 reports a scalar value exactly when its encoding is at the current position and otherwise consumes the maximal ill-formed subpart as one replacement character; iterating over any text ends, loses nothing and returns the encoded code points. The text is cut into the extended grapheme clusters of UAX #29, the estimated width of a cluster is 2 or 1 according to the table, and a width limit or precision takes the largest number of whole clusters that fits and reports their exact width (saturating at INT_MAX without a limit).", "quantifier": "all sequences of code units (well-formed or not), all limits, all property tables", "why_tests_cant": "ill-formed sequences at every truncation point and clusters of unbounded length; the existing Unicode test does not notice missing or extra breaks", "anchors": ["stl/inc/format: _Decode_utf, _Unicode_codepoint_iterator, _GB9c_regex, _GB11_LeftHand_regex, _Grapheme_break_property_iterator2, _Unicode_width_estimate, _Measure_string_prefix", "stl/inc/__msvc_format_ucd_tables.hpp: _Get_property_for_codepoint, the tables"]}
{"id": "C37", "title": "Pool memory resources: disjoint aligned memory, returned once, reused", "statement": "unsynchronized_pool_resource returns memory that is aligned as requested, lies inside an upstream block not yet given back and overlaps no allocation in use; the resource keeps its own data out of live allocations; upstream->deallocate is called exactly with the arguments of an outstanding block, never while an allocation in it is in use, and release() (and destruction) gives every block back. allocate never loops or follows a bad pointer: it returns memory or throws with nothing requested from upstream; a deallocated block is reused by the next request of its size; options() are sanitised and bound the size of chunks.", "quantifier": "all histories of allocate, deallocate, release and client writes to client memory, all sizes and alignments, all options, every upstream resource (throwing at will), 32 and 64 bits", "why_tests_cant": "overlap and double free depend on the order of many allocations and deallocations of mixed sizes, on chunk exhaustion and on where upstream memory lies", "anchors": ["stl/inc/memory_resource: unsynchronized_pool_resource (allocate, deallocate, release, options, _Pool, _Chunk, _Oversized_header, _Find_pool, _Setup_options)"]}
{"id": "C41", "title": "promise and future: one result, delivered to every waiter, never lost", "statement": "At most one result is ever stored: set_value and set_exception throw promise_already_satisfied exactly when there already is one. get() of a future or shared_future returns the stored value or throws the stored exception and nothing else; wait() returns only when there is a result; wait_for reports ready, timeout or deferred truthfully; once there is a result no thread stays blocked and every wait or get under way can finish; a deferred function runs at most once; get_future succeeds once; destroying a promise without a result stores broken_promise and throws nothing; the shared state is destroyed exactly once, when no object or operation refers to it any more.", "quantifier": "all interleavings of any number of threads calling any of these operations, all values and exceptions, spurious wake-ups, all copies and destructions of futures", "why_tests_cant": "lost wake-ups, double sets and premature destruction depend on the schedule", "anchors": ["stl/inc/future: promise, future, shared_future, _Associated_state, _State_manager, _Promise, _Deferred_async_state, async(launch::deferred)"]}
{"id": "C42", "title": "views::stride and views::chunk: iterators show every k-th element, or consecutive pieces, wherever they are moved", "statement": "An iterator moved in any way (++, --, +=, -=) over the elements of a stride view or chunk view, from begin() or from end(), shows the element it was moved to: every k-th element of the range, or the range cut into pieces of k elements, the last one perhaps shorter. It equals the end exactly at the end; comparisons, differences, distances to the sentinel and size() are those of the element indices; no move takes an iterator of the underlying range out of that range.", "quantifier": "all ranges (forward, bidirectional, random access, with or without sized sentinel), all lengths, all steps, all sequences of moves", "why_tests_cant": "the last element is short by an amount that depends on length modulo step and must be remembered when moving back from the end", "anchors": ["stl/inc/ranges: stride_view, chunk_view (their _Iterator, begin, end, size), _Div_ceil", "stl/inc/xutility: ranges::advance"]}
{"id": "C48", "title": "views::cartesian_product: iterators enumerate all tuples in lexicographic order, wherever they are moved", "statement": "An iterator moved in any way (++, --, +=, -=) over the product of any number of ranges, from begin() or from end(), shows the tuple it was moved to, the last range varying fastest; it equals the end exactly after the last tuple, also when a range is empty; ==, <=>, differences and the distance to the sentinel are those of the tuple indices; size() is the number of tuples; no move takes an iterator of an underlying range out of that range or overflows.", "quantifier": "any number of ranges of any lengths (including empty ones), all sequences of moves", "why_tests_cant": "carries and borrows over several ranges at once, for negative offsets with C++ truncating division, and empty ranges", "anchors": ["stl/inc/ranges: cartesian_product_view (_Iterator: _Next, _Prev, _Advance, _Is_end, _Distance_from, _End_tuple, operator<=>; begin, end, size)"]}
