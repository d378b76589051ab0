{
 "claims": [
  {
   "property": "C01",
   "status": "proved",
   "theorems": [
    "C01_lower_bound",
    "C01_upper_bound",
    "C01_partition_point",
    "C01_equal_range",
    "C01_binary_search",
    "C01_result_unique",
    "C01_sorted_is_partitioned"
   ],
   "note": "lower_bound, upper_bound, partition_point, equal_range, binary_search; also that sorted ranges satisfy the hypotheses and the result is unique"
  },
  {
   "property": "C02",
   "status": "proved",
   "theorems": [
    "C02_push_heap",
    "C02_pop_heap",
    "C02_make_heap",
    "C02_sort_heap",
    "C02_is_heap_until",
    "C02_is_heap"
   ],
   "note": "push_heap, pop_heap, make_heap, sort_heap, is_heap_until, is_heap over any sub-range of an array; UB (out-of-range or moved-from access) is a distinct outcome excluded by the theorems"
  },
  {
   "property": "C03",
   "status": "proved",
   "theorems": [
    "C03_sort"
   ],
   "note": "introsort incl. median guess, three-way partition, heap fallback and insertion sort"
  },
  {
   "property": "C04",
   "status": "proved",
   "theorems": [
    "C04_stable_sort",
    "C04_buffer_independent"
   ],
   "note": "every buffer capacity; random-access iterators, exceptions not modelled"
  },
  {
   "property": "C05",
   "status": "proved",
   "theorems": [
    "C05_merge",
    "C05_inplace_merge"
   ],
   "note": "every buffer capacity for inplace_merge"
  },
  {
   "property": "C06",
   "status": "proved",
   "theorems": [
    "C06_nth_element",
    "C06_partial_sort"
   ],
   "note": "nth_element incl. the median-of-medians fallback; partial_sort"
  },
  {
   "property": "C07",
   "status": "proved",
   "theorems": [
    "C07_partition",
    "C07_partition_forward",
    "C07_stable_partition"
   ],
   "note": "partition (bidirectional and forward branches), stable_partition for every buffer capacity"
  },
  {
   "property": "C08",
   "status": "proved",
   "theorems": [
    "C08_remove_if",
    "C08_unique",
    "C08_unique_no_adjacent"
   ],
   "note": "vectorised remove/unique paths not modelled"
  },
  {
   "property": "C09",
   "status": "proved",
   "theorems": [
    "C09_reverse",
    "C09_rotate",
    "C09_rotate_bidirectional",
    "C09_rotate_forward",
    "C09_shift_left",
    "C09_shift_right"
   ],
   "note": "shift_right: random-access branch; memmove/vectorised fast paths not modelled"
  },
  {
   "property": "C10",
   "status": "proved",
   "theorems": [
    "C10_next_permutation",
    "C10_prev_permutation"
   ],
   "note": ""
  },
  {
   "property": "C11",
   "status": "proved",
   "theorems": [
    "C11_set_union",
    "C11_set_intersection",
    "C11_set_difference",
    "C11_set_symmetric_difference",
    "C11_includes",
    "C11_result_unique"
   ],
   "note": "vectorised includes path not modelled"
  },
  {
   "property": "C12",
   "status": "proved",
   "theorems": [
    "C12_search",
    "C12_find_end",
    "C12_search_n",
    "C12_boyer_moore",
    "C12_boyer_moore_horspool",
    "C12_first_unique",
    "C12_searchers_agree"
   ],
   "note": "Boyer-Moore tables are modelled for the hashed (unordered_map) delta_1; the vectorised search/find_end/search_n paths are not modelled"
  },
  {
   "property": "C13",
   "status": "proved",
   "theorems": [
    "C13_gcd",
    "C13_lcm",
    "C13_lcm_checked"
   ],
   "note": "gcd and lcm for all standard integer type pairs, both with and without the debug precondition check, parametrised by the selected countr_zero"
  },
  {
   "property": "C14",
   "status": "proved",
   "theorems": [
    "C14_midpoint",
    "C14_midpoint_ptr",
    "C14_midpoint_between"
   ],
   "note": "integer and pointer overloads; the floating-point overload is not modelled"
  },
  {
   "property": "C15",
   "status": "proved",
   "theorems": [
    "C15_duration_cast",
    "C15_floor",
    "C15_ceil",
    "C15_round",
    "C15_compare",
    "C15_add",
    "C15_sub",
    "C15_abs",
    "C15_divmod"
   ],
   "note": "integral representations; floating-point durations not modelled"
  },
  {
   "property": "C16",
   "status": "proved",
   "theorems": [
    "C16_values_are_exact",
    "C16_add_sub",
    "C16_unary",
    "C16_multiply_unsigned",
    "C16_multiply_signed",
    "C16_divide_unsigned",
    "C16_divide_signed",
    "C16_div_ceil",
    "C16_divide_by_builtin",
    "C16_divide_signed_by_builtin",
    "C16_min_divisor_finding",
    "C16_long_division",
    "C16_shifts",
    "C16_compare",
    "C16_bitwise",
    "C16_conversions"
   ],
   "note": "Both algorithm selections (intrinsics flags); every operator of _Unsigned128/_Signed128 modelled; signed division by a built-in divisor excludes the most negative value of its type, where the code overflows (finding)."
  },
  {
   "property": "C17",
   "status": "proved",
   "theorems": [
    "C17_countl_zero",
    "C17_countr_zero",
    "C17_countl_one",
    "C17_countr_one",
    "C17_popcount",
    "C17_has_single_bit",
    "C17_bit_width",
    "C17_bit_floor",
    "C17_bit_ceil",
    "C17_rotl",
    "C17_rotr",
    "C17_byteswap"
   ],
   "note": "compile-time paths and every runtime selection; CPU instructions by documented meaning; runtime rotl/rotr/byteswap intrinsics not modelled"
  },
  {
   "property": "C18",
   "status": "proved",
   "theorems": [
    "C18_days_roundtrip",
    "C18_date_roundtrip",
    "C18_next_day",
    "C18_epoch",
    "C18_ok",
    "C18_last_day",
    "C18_leap"
   ],
   "note": "All days of the supported range; characterised by epoch, successor and round trips."
  },
  {
   "property": "C19",
   "status": "proved",
   "theorems": [
    "C19_weekday_of_days",
    "C19_calculate_weekday",
    "C19_weekday_add",
    "C19_weekday_sub",
    "C19_weekday_diff",
    "C19_month_add",
    "C19_month_add_int_min_refuted",
    "C19_month_sub",
    "C19_month_diff",
    "C19_year_month_add",
    "C19_year_month_sub",
    "C19_year_month_diff",
    "C19_nth_weekday",
    "C19_ymwd_roundtrip",
    "C19_last_weekday",
    "C19_make12_make24"
   ],
   "note": "All counts except INT_MIN, for which month + months is proved to overflow (C19_month_add_int_min_refuted); also year_month, year_month_weekday and 12/24 hour conversions."
  },
  {
   "property": "C21",
   "status": "proved",
   "theorems": [
    "C21_text_unique",
    "C21_to_chars",
    "C21_roundtrip"
   ],
   "note": "Both the 64-bit and the chunked 32-bit base-ten path; every built-in width, base 2..36, any buffer."
  },
  {
   "property": "C22",
   "status": "proved",
   "theorems": [
    "C22_from_chars"
   ],
   "note": "All byte strings, widths, bases. char signedness abstracted (bytes as unsigned char values)."
  },
  {
   "property": "C23",
   "status": "proved",
   "theorems": [
    "C23_step",
    "C23_history",
    "C23_program"
   ],
   "note": "Every modifier as C++ writes it over an object-lifetime memory with exceptions at any point: contents, returned iterator, growth policy, strong/basic guarantees, aliasing arguments, no leak, no UB, over all histories. Assumes 0 < max_size < 2^63; iterator-debug hooks, ASan annotations and allocator propagation are not modelled."
  },
  {
   "property": "C24",
   "status": "proved",
   "theorems": [
    "C24_step",
    "C24_access",
    "C24_history",
    "C24_program",
    "C24_construct",
    "C24_shrink"
   ],
   "note": "Every modifier as C++ writes it over the object-lifetime memory with exceptions at any point: contents, surviving references, strong/basic guarantees, aliasing arguments, no leak, no UB, over all histories and every block size; element access; shrink_to_fit. insert(pos, n, val) is stated for n >= 1 (see C24_insert_zero for what the code does with n = 0). Iterator-debug hooks and allocator propagation are not modelled."
  },
  {
   "property": "C20",
   "status": "proved",
   "theorems": [
    "C20_find",
    "C20_contains",
    "C20_lower_bound",
    "C20_upper_bound",
    "C20_equal_range",
    "C20_count",
    "C20_begin",
    "C20_increment",
    "C20_decrement",
    "C20_decrement_end",
    "C20_depth"
   ],
   "note": "All lookups and iterator moves over every well-formed tree; logarithmic depth from the red-black invariant."
  },
  {
   "property": "C25",
   "status": "proved",
   "theorems": [
    "C25_insert_unique",
    "C25_insert_unique_node",
    "C25_inserted_iff_absent",
    "C25_insert_multi",
    "C25_hint_unique",
    "C25_hint_multi",
    "C25_set_history",
    "C25_multiset_history",
    "C25_empty_ok"
   ],
   "note": "Insertion (both emplace paths, with and without hint, unique and multi), plus whole-history theorems from the empty container."
  },
  {
   "property": "C26",
   "status": "proved",
   "theorems": [
    "C26_erase",
    "C26_erase_range",
    "C26_erase_key",
    "C26_clear",
    "C26_no_leak"
   ],
   "note": "erase by iterator, range and key, clear; nothing leaked, all other nodes keep address and value."
  },
  {
   "property": "C27",
   "status": "proved",
   "theorems": [
    "C27_load_factor_float",
    "C27_reserve_float",
    "C27_empty",
    "C27_iterate",
    "C27_find",
    "C27_contains",
    "C27_count",
    "C27_equal_range",
    "C27_bucket",
    "C27_bucket_size",
    "C27_bucket_iteration",
    "C27_rehash",
    "C27_reserve",
    "C27_reserve_no_rehash",
    "C27_insert_multi",
    "C27_insert_unique",
    "C27_load_factor",
    "C27_erase",
    "C27_erase_range",
    "C27_erase_key",
    "C27_clear",
    "C27_extract",
    "C27_extract_key",
    "C27_insert_node",
    "C27_merge_multi",
    "C27_merge_unique",
    "C27_history"
   ],
   "note": "unordered containers over an explicit node heap: lookup, buckets, insertion (all emplace paths, hints), rehash, erase (iterator, range, key), clear, node handles, merge, histories; load factor in IEEE single precision (the two _float theorems use the standard library's real-number axioms). Merge is proved for equal hashers; C27_merge_other_hasher shows the source container is corrupted otherwise (xhash:1398). Throwing hashers, max_size, copy/move and iterator debugging are not modelled."
  },
  {
   "property": "C28",
   "status": "proved",
   "theorems": [
    "C28_default",
    "C28_from_number",
    "C28_from_string",
    "C28_and",
    "C28_or",
    "C28_xor",
    "C28_not",
    "C28_shl",
    "C28_shr",
    "C28_set_reset_all",
    "C28_set",
    "C28_reset",
    "C28_flip",
    "C28_test",
    "C28_count",
    "C28_any_none_all",
    "C28_eq",
    "C28_to_ullong",
    "C28_to_ulong",
    "C28_to_string"
   ],
   "note": "Every N and shift count; string construction and to_string as the scalar loops (the vectorised kernels they fall back from are not modelled); stream operators not modelled."
  },
  {
   "property": "C29",
   "status": "proved",
   "theorems": [
    "C29_forward",
    "C29_backward",
    "C29_insert",
    "C29_push_front",
    "C29_push_back",
    "C29_insert_range",
    "C29_erase",
    "C29_pop_front",
    "C29_pop_back",
    "C29_erase_range",
    "C29_clear",
    "C29_splice_all",
    "C29_splice_one",
    "C29_splice_range",
    "C29_splice_one_same_later",
    "C29_splice_one_same_earlier",
    "C29_splice_range_same_later",
    "C29_splice_range_same_earlier",
    "C29_sort",
    "C29_merge",
    "C29_merge_self",
    "C29_reverse",
    "C29_remove_if",
    "C29_unique",
    "C29_history"
   ],
   "note": "std::list over an explicit node heap: insert, push/pop, range insert/erase, clear, all splice overloads (other list and same list), sort, merge (incl. self-merge), reverse, remove_if, unique, and arbitrary histories over two lists. Iterator debugging, max_size, throwing element operations and comparators, assign/resize are not modelled."
  },
  {
   "property": "C30",
   "status": "proved",
   "theorems": [
    "C30_safety",
    "C30_alive",
    "C30_released",
    "C30_destroy_last",
    "C30_free_after_destroy",
    "C30_lock"
   ],
   "note": "Every interleaving of any number of threads over any number of shared_ptr/weak_ptr objects and control blocks: construction, copy/move/alias construction and assignment, swap, reset, destruction, lock, converting weak copies, use_count, with destructors that run arbitrary further pointer operations. Counter overflow and allocation failure not modelled; client data-race freedom is a guard."
  },
  {
   "property": "C31",
   "status": "proved",
   "theorems": [
    "C31_semaphore_safety",
    "C31_semaphore_exact",
    "C31_semaphore_no_lost_wakeup",
    "C31_binary_semaphore_safety",
    "C31_binary_semaphore_exact",
    "C31_binary_semaphore_no_lost_wakeup",
    "C31_latch_wait",
    "C31_latch_stays_open",
    "C31_latch_safety",
    "C31_latch_no_lost_wakeup",
    "C31_barrier_completion",
    "C31_barrier_arrivals",
    "C31_barrier_wait",
    "C31_barrier_safety",
    "C31_barrier_no_lost_wakeup"
   ],
   "note": "Every interleaving of any number of threads of counting_semaphore, binary_semaphore, latch and barrier as sequences of atomic steps (sequentially consistent), with timeouts and spurious wake-ups; includes no-lost-wakeup theorems. Kernel wait queue (WaitOnAddress) by contract; client preconditions are guards."
  },
  {
   "property": "C33",
   "status": "proved",
   "theorems": [
    "C33_mutex_exclusion",
    "C33_mutex_depth",
    "C33_mutex_fail",
    "C33_mutex_progress",
    "C33_timed_mutex_exclusion",
    "C33_timed_mutex_depth",
    "C33_timed_mutex_fail",
    "C33_timed_mutex_no_lost_wakeup",
    "C33_timed_mutex_untimed_waiters",
    "C33_shared_timed_mutex_exclusion",
    "C33_shared_timed_mutex_exact",
    "C33_shared_timed_mutex_fail",
    "C33_shared_timed_mutex_no_lost_wakeup"
   ],
   "note": "SC interleavings; SRWLOCK and condition variable contracts assumed. Finding: a timed waiter put back to sleep by condition_variable::wait_until after an early (clamped) timeout can miss a wake-up; shown by Example C33_early_timeout_loses_wakeup, so the no-lost-wakeup theorems exclude such waiters."
  },
  {
   "property": "C34",
   "status": "proved",
   "theorems": [
    "C34_one_winner",
    "C34_loser",
    "C34_stop_requested",
    "C34_run_requested",
    "C34_at_most_once",
    "C34_run_registered",
    "C34_exactly_once",
    "C34_not_after_destruction",
    "C34_destructor_waits",
    "C34_destructor_wakes",
    "C34_lock_holder_runs",
    "C34_checks",
    "C34_lock_exclusion",
    "C34_lock_value",
    "C34_lock_wakes"
   ],
   "note": "All interleavings of any number of threads and callbacks: one winner, at-most-once, exactly-once when registered, destructor waits for a running callback and is woken, never run after destruction, internal checks hold; the _Locked_pointer lock is modelled and verified separately and abstracted to a flag in the stop_token model. Sequentially consistent memory; token reference counts not modelled."
  },
  {
   "property": "C36",
   "status": "proved",
   "theorems": [
    "C36_aligned",
    "C36_contained",
    "C36_disjoint",
    "C36_stays_valid",
    "C36_frees_match",
    "C36_release_frees_all",
    "C36_release_safe",
    "C36_throw",
    "C36_uses_buffer",
    "C36_geometric_growth",
    "C36_requests_aligned"
   ],
   "note": "Every history of allocate (any size, any power-of-two alignment), throwing upstream, release and client writes, for 32- and 64-bit pointers with all unsigned wrap-around; upstream is any resource meeting its contract. The resource's own headers live in modelled memory and are shown never to be overwritten."
  },
  {
   "property": "C38",
   "status": "proved",
   "theorems": [
    "C38_parse",
    "C38_decompose",
    "C38_iterate",
    "C38_append",
    "C38_compare",
    "C38_hash",
    "C38_modify"
   ],
   "note": "All lexical queries, iterators, comparison, hashing and modifiers on the native text, for every text and every Windows root form. Code-page conversion and file-system access are not modelled."
  },
  {
   "property": "C39",
   "status": "proved",
   "theorems": [
    "C39_normal",
    "C39_empty",
    "C39_result"
   ],
   "note": "Normal form, meaning, root and idempotence; idempotence and root preservation under the condition that no filename reads as a root name when it comes first, with the two counterexamples shown."
  },
  {
   "property": "C40",
   "status": "proved",
   "theorems": [
    "C40_find",
    "C40_find_ch",
    "C40_rfind",
    "C40_rfind_ch",
    "C40_find_first_of",
    "C40_find_last_of",
    "C40_find_first_not_of",
    "C40_find_last_not_of",
    "C40_find_first_not_of_ch",
    "C40_find_last_not_of_ch",
    "C40_compare",
    "C40_equal",
    "C40_starts_with",
    "C40_ends_with",
    "C40_starts_ends_with_ch",
    "C40_contains",
    "C40_contains_ch",
    "C40_length"
   ],
   "note": "All find/rfind/find_*_of variants, compare, ==, starts_with, ends_with, contains, char_traits::length; every offset, character type, bitmap or serial path. Vectorised kernels not modelled."
  },
  {
   "property": "C43",
   "status": "proved",
   "theorems": [
    "C43_lcg_next",
    "C43_lcg_discard",
    "C43_lcg_seed",
    "C43_swc",
    "C43_swc_eq",
    "C43_mt",
    "C43_mt_eq",
    "C43_discard_block"
   ],
   "note": "linear congruential, subtract-with-carry, Mersenne twister, discard_block; hypotheses exclude the undefined or non-conforming corner cases recorded as findings."
  },
  {
   "property": "C45",
   "status": "proved",
   "theorems": [
    "C45_layout_left",
    "C45_layout_right",
    "C45_required_span_size",
    "C45_strides",
    "C45_layout_stride",
    "C45_stride_required_span_size",
    "C45_stride_is_exhaustive",
    "C45_convert_to_stride",
    "C45_extents",
    "C45_extents_eq",
    "C45_mdspan_access",
    "C45_mdspan_access_left_right"
   ],
   "note": "extents, layout_left/right/stride mappings and element access, every rank, extents, strides, index type; index arithmetic done in the C++ promoted types with overflow as UB. Two corner cases where required_span_size overflows (narrow or signed index types, with a zero extent) are excluded by explicit hypotheses and exhibited as refuted Examples."
  },
  {
   "property": "C46",
   "status": "proved",
   "theorems": [
    "C46_lookup",
    "C46_positions",
    "C46_at",
    "C46_emplace",
    "C46_hint",
    "C46_insert_or_assign",
    "C46_subscript",
    "C46_insert_range",
    "C46_merged",
    "C46_construct",
    "C46_replace",
    "C46_erase_range",
    "C46_erase_key",
    "C46_erase_if",
    "C46_history",
    "C46_set_lookup",
    "C46_set_emplace",
    "C46_set_hint",
    "C46_set_insert_range",
    "C46_set_construct",
    "C46_set_replace",
    "C46_set_erase_range",
    "C46_set_erase_key",
    "C46_set_erase_if",
    "C46_set_history"
   ],
   "note": "Sequence containers are lists; the algorithms are the proved models of Alg/. Exceptions: an oracle chooses the throwing step and what a throwing modification leaves behind. Not modelled: heterogeneous lookup, copy/move/swap, extract, iterator debugging; vector single-element insertion at the end-or-nothing guarantee (_Has_guaranteed_single_insertion) is taken as the code assumes it."
  },
  {
   "property": "C47",
   "status": "proved",
   "theorems": [
    "C47_ratio",
    "C47_add",
    "C47_add_defined",
    "C47_subtract",
    "C47_subtract_defined",
    "C47_multiply",
    "C47_divide",
    "C47_less",
    "C47_equal"
   ],
   "note": "all of <ratio> except the ratio_not_equal/less_equal/greater aliases, which are negations/swaps"
  },
  {
   "property": "C35",
   "status": "proved",
   "theorems": [
    "C35_uniform_int",
    "C35_index",
    "C35_shuffle",
    "C35_shuffle_any",
    "C35_sample",
    "C35_sample_any",
    "C35_ranges_sample"
   ],
   "note": "uniformity by counting result sequences per number of values consumed; termination with probability one is not stated (no sequence is undefined, and every outcome is reachable); reservoir sampling from input iterators not modelled."
  },
  {
   "property": "C32",
   "status": "proved",
   "theorems": [
    "C32_append",
    "C32_append_n",
    "C32_assign",
    "C32_assign_n",
    "C32_copy_assign",
    "C32_push_back",
    "C32_pop_back",
    "C32_erase",
    "C32_erase_from",
    "C32_clear",
    "C32_resize",
    "C32_insert",
    "C32_insert_n",
    "C32_replace",
    "C32_replace_n",
    "C32_reserve",
    "C32_reserve0",
    "C32_shrink_to_fit",
    "C32_resize_and_overwrite",
    "C32_at",
    "C32_index",
    "C32_construct_n",
    "C32_construct",
    "C32_copy_construct",
    "C32_substr",
    "C32_concat",
    "C32_destroy",
    "C32_move_construct",
    "C32_move_assign",
    "C32_swap",
    "C32_self",
    "C32_other_strings",
    "C32_history"
   ],
   "note": "replace carries one more precondition, without which the code has undefined behaviour (finding); propagating or unequal allocators, operator+ with two rvalues, substr of an rvalue, search members and iterator debugging are not covered."
  },
  {
   "property": "C44",
   "status": "proved",
   "theorems": [
    "C44_decode",
    "C44_roundtrip",
    "C44_codepoints",
    "C44_property_lookup",
    "C44_graphemes",
    "C44_graphemes_any_tables",
    "C44_width",
    "C44_measure_prefix"
   ],
   "note": "agreement with UAX #29 is proved for texts without the two patterns on which the implemented GB9c and GB11 differ from it (findings, both shown by Examples); width and prefix measuring for the clusters the iterator produces in all cases. Legacy (non-UTF-8) code pages not modelled."
  },
  {
   "property": "C37",
   "status": "proved",
   "theorems": [
    "C37_aligned",
    "C37_contained",
    "C37_disjoint",
    "C37_stays_valid",
    "C37_frees_match",
    "C37_no_free_in_use",
    "C37_release_frees_all",
    "C37_own_data",
    "C37_alloc_total",
    "C37_dealloc_total",
    "C37_throw",
    "C37_reuse",
    "C37_chunk_bound",
    "C37_requests",
    "C37_options"
   ],
   "note": "requests of positive size; pooled alignment at most 1/8 of the address space (counterexamples otherwise, Examples C37_finding_zero_size and C37_finding_huge_alignment); fewer than 2^w chunks created in total, because chunk ids are size_t (matters on 32-bit only). synchronized_pool_resource is the same code under a mutex, which is not modelled."
  },
  {
   "property": "C41",
   "status": "proved",
   "theorems": [
    "C41_set_once",
    "C41_already_satisfied",
    "C41_get",
    "C41_get_exception",
    "C41_wait",
    "C41_wait_for",
    "C41_deferred_once",
    "C41_get_future_once",
    "C41_never",
    "C41_broken_promise",
    "C41_no_lost_wakeup",
    "C41_returns",
    "C41_lifetime",
    "C41_no_leak",
    "C41_destroyed_once"
   ],
   "note": "one shared state, sequentially consistent critical sections (the code holds _Mtx). Not modelled: the at_thread_exit functions (finding by reading in DESIGN.md), packaged_task, launch::async (a PPL task), operations on futures without state."
  },
  {
   "property": "C42",
   "status": "proved",
   "theorems": [
    "C42_stride_exists",
    "C42_chunk_exists",
    "C42_stride_moves",
    "C42_chunk_moves",
    "C42_stride_deref",
    "C42_chunk_deref",
    "C42_compare",
    "C42_stride_compare",
    "C42_chunk_compare",
    "C42_size"
   ],
   "note": "the length of the range plus the step must be a value of difference_type (otherwise begin() + size() overflows: Example C42_finding_overflow). Not modelled: the views of input ranges, iter_move, debug checks, the conversion of iterators to const."
  },
  {
   "property": "C48",
   "status": "proved",
   "theorems": [
    "C48_moves",
    "C48_deref",
    "C48_compare",
    "C48_size"
   ],
   "note": "random access common ranges; the product of the sizes of the first ranges must fit difference_type, also if a later range is empty (Example C48_finding_overflow). Not modelled: forward-only or unsized first range, debug checks, iter_move and iter_swap."
  }
 ]
}
