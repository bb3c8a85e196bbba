{
 "claims": [
  {
   "property": "C08",
   "status": "proved",
   "theorems": [
    "C08_sse2_group_scans",
    "C08_portable_group_scans"
   ],
   "note": "GroupOK is the mask-free specification; both implementations satisfy it for every window."
  },
  {
   "property": "C09",
   "status": "proved",
   "theorems": [
    "C09_probe_covers_once"
   ],
   "note": ""
  },
  {
   "property": "C01",
   "status": "proved",
   "theorems": [
    "C01_map_refinement",
    "C01_throws_only_out_of_memory"
   ],
   "note": "All operation sequences over emplace/insert_or_assign/find/erase/clear/rehash(n>0)/reserve(n>0)/size/traversal, both group implementations, any hash consistent with equality. rehash(0)/reserve(0) are C04, wrapping sizes C50."
  },
  {
   "property": "C02",
   "status": "proved",
   "theorems": [
    "C02_size_and_iteration"
   ],
   "note": ""
  },
  {
   "property": "C03",
   "status": "proved",
   "theorems": [
    "C03_lookup_terminates"
   ],
   "note": ""
  },
  {
   "property": "C04",
   "status": "partial",
   "theorems": [
    "C04_rehash0_hangs_refuted",
    "C04_rehash0_usable_refuted",
    "C04_rehash0_partial"
   ],
   "note": "False of the code: rehash(0) with 15 elements (width 16) makes a full table on which find of an absent key never returns. The partial theorem gives the sizes for which it holds."
  },
  {
   "property": "C05",
   "status": "partial",
   "theorems": [
    "C05_reserve_ignores_tombstones_refuted",
    "C05_reserve_no_move_partial"
   ],
   "note": "False of the code when the table has tombstones and the reserve keeps the capacity; proved otherwise."
  },
  {
   "property": "C06",
   "status": "proved",
   "theorems": [
    "C06_capacity_discipline"
   ],
   "note": ""
  },
  {
   "property": "C07",
   "status": "proved",
   "theorems": [
    "C07_erase_moves_nothing"
   ],
   "note": ""
  },
  {
   "property": "C12",
   "status": "partial",
   "theorems": [
    "C12_throwing_constructor_refuted",
    "C12_throwing_constructor_elements_partial",
    "C12_histories_partial",
    "C12_histories_without_erase_partial",
    "C12_failures_use_memory_refuted",
    "C12_histories_refuted"
   ],
   "note": "False of the code for size(): prepare_insert increments it before the constructor runs. Over whole histories with any number of failures the map itself is unharmed as long as size() stays within the bucket count, in particular when nothing is erased; beyond that a lookup can run forever."
  },
  {
   "property": "C50",
   "status": "partial",
   "theorems": [
    "C50_huge_reserve_refuted",
    "C50_unsatisfiable_rehash_partial"
   ],
   "note": "False of the code when the allocation size wraps modulo 2^64."
  },
  {
   "property": "C10",
   "status": "proved",
   "theorems": [
    "C10_C11_C49_programs",
    "C10_copy",
    "C10_equality"
   ],
   "note": "Programs over any number of maps and node handles; each operation changes only the maps it names."
  },
  {
   "property": "C11",
   "status": "proved",
   "theorems": [
    "C10_C11_C49_programs",
    "C11_merge"
   ],
   "note": "extract and node insertion are steps of the program theorem; merge also on its own."
  },
  {
   "property": "C22",
   "status": "partial",
   "theorems": [
    "C22_dump_load",
    "C22_parallel_dump_load",
    "C22_truncated_file_refuted",
    "C22_missing_file_refuted"
   ],
   "note": "Round trip proved at byte level (also for parallel containers); the failure-reporting half is false of the code: truncated and missing files load with answer true."
  },
  {
   "property": "C49",
   "status": "proved",
   "theorems": [
    "C49_erase_if_hash",
    "C10_C11_C49_programs",
    "C49_erase_if_parallel",
    "btree_erase_if_exact",
    "btree_refines_sorted_list"
   ],
   "note": "Hash, parallel and B-tree containers, the latter for function objects with a state, which fixes the calls of the predicate."
  },
  {
   "property": "C23",
   "status": "partial",
   "theorems": [
    "C23_programs_refine_bool_lists",
    "C23_nothing_beyond_size",
    "C23_contains_partial",
    "C23_contains_narrower_refuted"
   ],
   "note": "Every valid program over any number of bit vectors (construct, copy, single bits, whole vector and view operations, resize, shifts, queries, text) answers as lists of booleans and never leaves the words. contains with a narrower operand is refuted: it reads past the operand."
  },
  {
   "property": "C24",
   "status": "partial",
   "theorems": [
    "C24_count",
    "C24_count_view",
    "C24_find_first",
    "C24_find_next_partial",
    "C24_find_view_exact",
    "C24_find_next_refuted",
    "C24_find_view_refuted"
   ],
   "note": "count is exact everywhere, find_first of a whole vector too. find_next and find_first of a view are refuted; what they return is characterised exactly for every view."
  },
  {
   "property": "C25",
   "status": "partial",
   "theorems": [
    "C25_resize_false",
    "C25_resize_true_partial",
    "C25_resize_true_refuted"
   ],
   "note": "resize(n) with false is exact; resize(n, true) is refuted when growing a vector whose size is not a multiple of 64, proved otherwise."
  },
  {
   "property": "C26",
   "status": "partial",
   "theorems": [
    "C26_view_fill",
    "C26_view_combine",
    "C26_combine_same_vector_partial",
    "C26_combine_overlap_refuted",
    "C23_programs_refine_bool_lists",
    "C28_shifts"
   ],
   "note": "Exact for fills, flips, shifts and combining with another vector at any alignment; combining with an overlapping view of the same vector that starts earlier is refuted."
  },
  {
   "property": "C27",
   "status": "partial",
   "theorems": [
    "C27_assign_partial",
    "C27_assign_overlap_refuted",
    "C27_assign_direction_refuted",
    "C27_store_partial",
    "C27_store_straddle_refuted"
   ],
   "note": "Exact between different vectors; within one vector only when the source does not start before the target. The other cases, and storing an integer across a word boundary, are refuted."
  },
  {
   "property": "C28",
   "status": "proved",
   "theorems": [
    "C28_shifts",
    "C23_programs_refine_bool_lists"
   ],
   "note": "Every shift count, every view, bits outside unchanged."
  },
  {
   "property": "C29",
   "status": "proved",
   "theorems": [
    "C29_equality",
    "C29_equal_hash",
    "C29_text_determines_bits",
    "C29_text"
   ],
   "note": "std::hash is modelled for 64-bit size_t."
  },
  {
   "property": "C37",
   "status": "partial",
   "theorems": [
    "C37_sequence",
    "C37_program",
    "C37_size_capacity",
    "C37_shrink_to_fit_refuted"
   ],
   "note": "All programs over any number of vectors, all element types (trivially copyable or not, throwing or not, move-only or not). Missing: shrink_to_fit of a move-only type with a throwing move constructor (refuted), calls whose byte counts exceed 2^64 (C40) and emplace of an own element before the end (C39)."
  },
  {
   "property": "C38",
   "status": "proved",
   "theorems": [
    "C38_lifetimes",
    "C38_no_leak",
    "C38_exceptions",
    "C38_all_freed"
   ],
   "note": "Exceptions from any constructor, assignment or allocation, at any point of any program."
  },
  {
   "property": "C39",
   "status": "partial",
   "theorems": [
    "C39_own_element",
    "C39_emplace_partial",
    "C39_emplace_refuted",
    "C39_emplace_destroyed_refuted"
   ],
   "note": "push_back, insert, insert n, resize and assign proved; emplace proved at the end and when the vector has to grow, refuted otherwise."
  },
  {
   "property": "C40",
   "status": "partial",
   "theorems": [
    "C40_reserve_partial",
    "C40_push_within_capacity",
    "C40_geometric_growth",
    "C40_reserve_refuted",
    "C40_constructor_refuted"
   ],
   "note": "reserve and the constructor proved while n * sizeof(T) < 2^64, refuted beyond: the byte count wraps."
  },
  {
   "property": "C41",
   "status": "proved",
   "theorems": [
    "C41_sort",
    "C41_any_stable_sort",
    "C41_insert"
   ],
   "note": "Every column type; comparator a strict weak order."
  },
  {
   "property": "C44",
   "status": "partial",
   "theorems": [
    "C44_search_partial",
    "C44_search_refuted",
    "C44_double_partial",
    "C44_double_negative_refuted",
    "C44_double_mixed_refuted"
   ],
   "note": "Integer ranges not wider than INT_MAX and non-negative doubles proved; wider ranges overflow and negative doubles never terminate (refuted)."
  },
  {
   "property": "C45",
   "status": "partial",
   "theorems": [
    "C45_clz64",
    "C45_clz32",
    "C45_ctz64",
    "C45_ctz32",
    "C45_de_bruijn",
    "C45_popcount",
    "C45_bswap",
    "C45_bswap_involution",
    "C45_ntoh_hton",
    "C45_store",
    "C45_load_store",
    "C45_store_load",
    "C45_apple_bswap_refuted"
   ],
   "note": "All words, all portable fallbacks and both byte orders proved; only the Apple byte-swap branch is wrong (refuted)."
  },
  {
   "property": "C46",
   "status": "proved",
   "theorems": [
    "C46_mix_injective",
    "C46_pair_injective",
    "C46_tuple_injective",
    "C46_int_injective",
    "C46_double_equal",
    "C46_float_equal",
    "C46_double_injective",
    "C46_umul_mix_collides"
   ],
   "note": "The umul128 mixer is not injective (a colliding pair is exhibited); the property only claims injectivity for the others."
  },
  {
   "property": "C42",
   "status": "proved",
   "theorems": [
    "C42_safe",
    "C42_use_count",
    "C42_deleted_iff_unowned",
    "C42_no_leak",
    "C42_counter_wrap_refuted"
   ],
   "note": "All programs with fewer than 2^32 owners, objects owning each other included; beyond, the 32-bit counter wraps (refuted). Freeing at the end needs the ownership graph to be acyclic, as for any reference counting."
  },
  {
   "property": "C43",
   "status": "proved",
   "theorems": [
    "C43_safe",
    "C43_deleted_after_last_release",
    "C43_deleted_exactly_once",
    "C43_unsafe_counter_refuted"
   ],
   "note": "All schedules of any number of threads, sequentially consistent memory (the atomics use the default order)."
  },
  {
   "property": "C47",
   "status": "partial",
   "theorems": [
    "C47_cat",
    "C47_map",
    "C47_slice_partial",
    "C47_slice_stride_refuted",
    "C47_negative_index_refuted",
    "C47_negative_stride_refuted",
    "C47_out_of_range_refuted"
   ],
   "note": "cat and map proved; slice proved when the stride divides the range, otherwise it drops the last element (refuted); negative strides and Python's negative indices refuted."
  },
  {
   "property": "C48",
   "status": "proved",
   "theorems": [
    "C48_set_value",
    "C48_guard",
    "C48_set_unset",
    "C48_lifo",
    "C48_replace_change",
    "C48_newest",
    "C48_most_recent",
    "C48_alias_refuted"
   ],
   "note": "All nestings with exceptions; timestamps for fewer than 2^64 ticks. Passing the variable itself as the new value reads a moved-from value (refuted as a corner case)."
  },
  {
   "property": "C13",
   "status": "partial",
   "theorems": [
    "C13_programs",
    "C13_same_answers_as_one_map",
    "C13_rehash_small_refuted",
    "C13_copy_strong_guarantee_refuted"
   ],
   "note": "All programs (many containers, node handles, merge, erase_if, copy, swap) on 2^lg submaps refine one map; excluded: rehash(n) with n below the number of submaps (hangs) and the strong guarantee of a throwing copy assignment, both refuted."
  },
  {
   "property": "C17",
   "status": "partial",
   "theorems": [
    "C17_guards_report_ownership_partial",
    "C17_owns_iff_held_partial",
    "C17_release_is_safe_partial",
    "C17_destroying_releases_partial",
    "C17_try_to_lock_refuted",
    "C17_try_to_lock_then_lock_refuted"
   ],
   "note": "All programs over guards except the try_to_lock constructors, for which the property is false."
  },
  {
   "property": "C14",
   "status": "proved",
   "theorems": [
    "C14_linearizable",
    "C14_no_data_race",
    "C14_shared_mutex_partial"
   ],
   "note": "Any number of threads, calls and interleavings, sequentially consistent; exclusive mutex. The accesses under a lock are single steps. With std::shared_mutex everything but the answers of erase / erase_if (see C15)."
  },
  {
   "property": "C15",
   "status": "partial",
   "theorems": [
    "C15_exclusive_mutex_partial",
    "C15_two_winners_refuted",
    "C15_erase_if_two_winners_refuted"
   ],
   "note": "False with std::shared_mutex (two concurrent erases of one element both return 1); proved for exclusive mutexes."
  },
  {
   "property": "C16",
   "status": "partial",
   "theorems": [
    "C16_single_key_calls_progress",
    "C16_no_deadlock_partial",
    "C16_merge_and_single_locks",
    "C16_every_schedule_ends",
    "C16_swap_deadlock_refuted",
    "C16_self_swap_refuted",
    "C16_self_comparison_refuted",
    "C16_shared_comparison_deadlock_refuted"
   ],
   "note": "Single-lock calls and merge never deadlock; swap and shared == only if all callers agree on an order of the containers; otherwise refuted."
  },
  {
   "property": "C18",
   "status": "proved",
   "theorems": [
    "C18_refines",
    "C18_bound",
    "C18_get_latest",
    "C18_evicts_least_recent",
    "C18_keeps_recent",
    "C18_linearizable",
    "C18_threads_finish",
    "C18_shrink_refuted",
    "C18_shared_mutex_race_refuted"
   ],
   "note": "All programs from one thread, and all interleavings of threads with std::mutex. As corner cases outside the statement: lowering the size does not shrink the cache, and a shared mutex makes get() race."
  },
  {
   "property": "C19",
   "status": "partial",
   "theorems": [
    "C19_copy_refuted"
   ],
   "note": "False: get or insert of any key that a copied cache holds is undefined behaviour, for every cache and key."
  },
  {
   "property": "C20",
   "status": "proved",
   "theorems": [
    "C20_once",
    "C20_finish",
    "C20_recursive"
   ],
   "note": "Pure f; any number of threads, calls and interleavings, std::mutex and std::shared_mutex. Recursive mode: results only (the statement claims no more)."
  },
  {
   "property": "C21",
   "status": "partial",
   "theorems": [
    "C21_result",
    "C21_bound",
    "C21_retention_partial",
    "C21_retention_refuted",
    "C18_linearizable"
   ],
   "note": "Results and bound proved; retention holds for n/2^N - 1 arguments per submap instead of n/2^N (refuted)."
  },
  {
   "property": "C30",
   "status": "proved",
   "theorems": [
    "btree_refines_sorted_list",
    "btree_map_is_finite_map",
    "btree_find"
   ],
   "note": "All clients of Api.v, all strict weak orders, node capacities >= 3, bool and three-way comparators, linear and binary search. Constructors do not throw and memory does not run out (see C52)."
  },
  {
   "property": "C31",
   "status": "proved",
   "theorems": [
    "btree_multi_insert_after_equivalents",
    "btree_multi_insertion_order",
    "btree_count_and_erase_key",
    "btree_refines_sorted_list",
    "btree_multi_hint",
    "btree_multi_hint_nearest_refuted",
    "btree_find_first_of_equivalents_refuted"
   ],
   "note": "As a corner case outside the statement: insert(hint, v) with a hint far before the equivalents puts v behind them, and find need not give the first equivalent."
  },
  {
   "property": "C32",
   "status": "proved",
   "theorems": [
    "btree_iterates_sorted",
    "btree_iterators_step"
   ],
   "note": "All reachable trees, all positions."
  },
  {
   "property": "C33",
   "status": "proved",
   "theorems": [
    "btree_erase_returns_successor",
    "btree_erase_range_returns_successor"
   ],
   "note": "All reachable trees, positions and ranges."
  },
  {
   "property": "C34",
   "status": "proved",
   "theorems": [
    "btree_stays_balanced",
    "btree_iterates_sorted"
   ],
   "note": "For all histories, with erasures too: size() + 1 >= 2^height."
  },
  {
   "property": "C35",
   "status": "proved",
   "theorems": [
    "btree_bounds",
    "btree_find",
    "btree_searches_agree"
   ],
   "note": "All reachable trees and keys."
  },
  {
   "property": "C51",
   "status": "proved",
   "theorems": [
    "btree_set_merge_conserves",
    "btree_set_merge_exact",
    "btree_multi_merge",
    "btree_copy_equal",
    "btree_equality",
    "btree_less"
   ],
   "note": "Two different containers; merging a container with itself is not modelled."
  },
  {
   "property": "C36",
   "status": "partial",
   "theorems": [
    "C36_insert_own_partial",
    "C36_insert_own_refuted",
    "C36_insert_own_rebalancing_refuted",
    "C36_growing_root_reads_freed_memory",
    "C36_split_destroys_the_argument",
    "C36_rebalancing_inserts_another_element"
   ],
   "note": "False of the code as soon as the insertion has to make room: a growing root copies from freed memory (every element of every such container), a split from a destroyed slot, a rebalanced leaf a different element, which leaves the container unsorted. Proved while the leaf has room."
  },
  {
   "property": "C53",
   "status": "proved",
   "theorems": [
    "C53_emplace",
    "C53_rebalance_right_to_left",
    "C53_rebalance_left_to_right",
    "C53_split",
    "C53_merge",
    "C53_erase_same_node",
    "C53_delete",
    "C53_emplace_root",
    "C53_left_emplace",
    "C53_right_emplace",
    "C53_split_emplace"
   ],
   "note": "For values whose moves, assignments and destructors do not throw; a constructor that throws is C52."
  },
  {
   "property": "C52",
   "status": "partial",
   "theorems": [
    "C52_insert_partial",
    "C52_insert_multi_partial",
    "C52_throw_at_end",
    "C52_throw_in_the_middle_refuted",
    "C52_first_insert_leaks_refuted",
    "C52_throw_after_split_refuted",
    "C52_bad_alloc_leaks_refuted"
   ],
   "note": "False of the code: a throwing constructor leaves holes, empty leaves or a leaked root, and a failed root split can leak. Proved for every reachable tree and every point of failure: after bad_alloc, and after a throw before values were moved, the elements and size are kept, and the container behaves like any other if no node is without values."
  },
  {
   "property": "C54",
   "status": "proved",
   "theorems": [
    "C54_layout",
    "C54_no_waste",
    "C54_hash_table"
   ],
   "note": "For layouts of any number of arrays and any element types, and for every hash table a program can build. The allocator is assumed to return blocks aligned as asked."
  },
  {
   "property": "C55",
   "status": "proved",
   "theorems": [
    "C55_node_values",
    "C55_max_count",
    "C55_leaf_memory",
    "C55_internal_memory"
   ],
   "note": "For every element type below 2^30 bytes and every target node size below 2^16 (256 in the library), on a platform with 8-byte pointers."
  },
  {
   "property": "C56",
   "status": "proved",
   "theorems": [
    "C56_lifetimes"
   ],
   "note": "For every program over any number of maps and node handles; elements whose constructors and hash do not throw (see C12, C57, C58 for those that do). rehash(0) and reserve(0) are excluded, see C04."
  },
  {
   "property": "C57",
   "status": "partial",
   "theorems": [
    "C57_copy_throws_refuted",
    "C57_copy_partial"
   ],
   "note": "False of the code: the copy constructor marks a slot full before it constructs the element, so an exception makes the destructor of the unfinished copy destroy raw memory. Proved for every table and every failing element; if nothing throws the copy is right."
  },
  {
   "property": "C58",
   "status": "partial",
   "theorems": [
    "C58_hash_throws_partial",
    "C58_hash_throws_growing_refuted",
    "C58_hash_throws_in_place_refuted"
   ],
   "note": "False of the code when the hash throws inside a rehash: elements are lost and leaked. Harmless if it throws when the key is hashed; the insertion is that of C56 if no call throws."
  },
  {
   "property": "C59",
   "status": "partial",
   "theorems": [
    "C59_recursive",
    "C59_lazy_partial",
    "C59_size_refuted",
    "C59_memoize_lru_refuted"
   ],
   "note": "Proved for the recursive mode. In the other mode every answer is right and the threads always finish, but size() counts the exceptions. False for memoize_lru: failed calls can wear out a submap until a call never returns."
  },
  {
   "property": "C60",
   "status": "proved",
   "theorems": [
    "C60_whole_container_calls",
    "C60_no_data_race_progress",
    "C60_untouched_key_seen_once",
    "C60_for_each_snapshot_refuted"
   ],
   "note": "For both kinds of mutex, with and without writer preference. The stronger reading, that for_each sees the contents of one moment, is false (C60_for_each_snapshot_refuted). The versions with an execution policy are not modelled."
  },
  {
   "property": "C61",
   "status": "partial",
   "theorems": [
    "C60_size_race_refuted",
    "C60_size_value_refuted"
   ],
   "note": "False of the code: size() takes no lock, so it races with insertions, and the sum of the sizes of the submaps can be a number the container never had. What remains is the single-threaded size() of C13."
  },
  {
   "property": "C62",
   "status": "partial",
   "theorems": [
    "C62_not_recursive_partial",
    "C62_deep_recursion_refuted",
    "C62_shallow_recursion_refuted",
    "C62_self_lock_refuted"
   ],
   "note": "False of the code. A recursion as deep as the table has room for writes to memory that was given back, for every hash function and function; with colliding keys even one recursive call loses an entry and miscounts size(); with std::mutex a recursive call in the same submap locks a mutex its thread owns. What holds: functions that do not call the cache are answered as in C20 and C21."
  },
  {
   "property": "C63",
   "status": "proved",
   "theorems": [
    "C63_contents",
    "C63_addresses",
    "C63_no_sharing",
    "C63_answers",
    "C63_nodes",
    "C63_args_leak_refuted",
    "C63_ctor_throws_refuted"
   ],
   "note": "Allocation of the tables may fail, allocation of nodes does not. C63_nodes counts the nodes that are never given back: exactly one for each emplace of an element built first that threw (C63_args_leak_refuted shows one). If the constructor of an element throws, the memory of its node is not given back (C63_ctor_throws_refuted)."
  },
  {
   "property": "C64",
   "status": "proved",
   "theorems": [
    "C64_amortised",
    "C64_stays"
   ],
   "note": "A counting version of every function on the insertion path, proved to compute the same tables and answers; a potential argument bounds the total of all rehash loop iterations over every program. Probe lengths are not counted."
  },
  {
   "property": "C65",
   "status": "proved",
   "theorems": [
    "C65_programs",
    "C65_same_calls",
    "C65_move_unequal",
    "C65_tests_needed"
   ],
   "note": "The null-pointer variant of each function is proved to compute what the default-allocator function computes on the corresponding table. C65_tests_needed shows that lookup without the test would be undefined."
  },
  {
   "property": "C66",
   "status": "partial",
   "theorems": [
    "C66_programs",
    "C66_all_or_nothing_partial",
    "C66_all_or_nothing_refuted",
    "C66_reservation_lost_refuted"
   ],
   "note": "Contents and answers are proved for all programs. All or nothing holds for containers from which nothing was erased and is false otherwise (reserve ignores tombstones). Inserting an empty sized range into an empty container gives its memory back: reserve and the bucket count of the constructor are lost. Ranges take less than 2^60 bytes."
  },
  {
   "property": "C67",
   "status": "partial",
   "theorems": [
    "C67_lookup",
    "C67_multi_count_erase",
    "C67_unique_count_erase",
    "C67_same_as_key",
    "C67_count_refuted",
    "C67_erase_refuted",
    "C67_lower_bound_refuted"
   ],
   "note": "Everything is proved for the multi containers and for keys that stand for one key. For btree_set and btree_map with several values equivalent to q, count(q) is 1 and erase(q) removes only one (what they do instead is proved in C67_unique_count_erase), and lower_bound(q) is not the first equivalent value when the comparator returns an ordering and the search is binary: refuted."
  },
  {
   "property": "C68",
   "status": "proved",
   "theorems": [
    "C68_lookup",
    "C68_same_as_key",
    "C68_hashes_must_agree"
   ],
   "note": "For reachable tables of C01. C68_hashes_must_agree shows that the hypothesis on the hash functions is needed."
  },
  {
   "property": "C69",
   "status": "partial",
   "theorems": [
    "C69_old_file_partial",
    "C69_old_small_file_refuted",
    "C69_failed_load_refuted"
   ],
   "note": "Old files of tables of at least 15 (SSE2) or 7 buckets and of empty tables are proved to load. Those of smaller tables never do: the loop over the control bytes runs past their end. After std::bad_alloc size() and the capacity are those of the file but the control bytes are the static empty group, which the destructor gives to the allocator."
  },
  {
   "property": "C70",
   "status": "partial",
   "theorems": [
    "C70_calls",
    "C70_range",
    "C70_append",
    "C70_hint",
    "C70_merge",
    "C70_multi_merge_partial",
    "C70_multi_merge_refuted",
    "C70_multi_merge_order_refuted"
   ],
   "note": "Everything is proved but the merge of multisets and multimaps: they move the values one after the other and clear the source at the end, so an exception leaves the moved values in both containers (C70_multi_merge_partial says exactly what is left; C70_multi_merge_refuted: more values than before; C70_multi_merge_order_refuted: if moving a key changes it the source is no longer sorted and a value in it is not found)."
  },
  {
   "property": "C71",
   "status": "partial",
   "theorems": [
    "C71_any_comparator",
    "C71_range_ordered",
    "C71_less_equal_refuted",
    "C71_nan_set_refuted",
    "C71_nan_erase_refuted",
    "C71_nan_subscript_refuted"
   ],
   "note": "Proved for every comparator, except count(key) and erase(key) of multisets and multimaps, which are proved for comparators that are functions and never order two keys both ways (so also for < of floating-point numbers with NaN). For the others it is false (C71_less_equal_refuted: with <= both walk over the end of the container). The remaining three show what a NaN does to the meaning of the calls."
  },
  {
   "property": "C72",
   "status": "partial",
   "theorems": [
    "C72_programs_partial",
    "C72_insert_strong_refuted",
    "C72_sort_moves_refuted",
    "C72_copy_refuted"
   ],
   "note": "The full statement is false. Proved for programs that, after an insert, resize or assignment threw, only read the old rows until they clear, cut down or assign the soa (and do not read it at all after an assignment or a throwing move in a sort); reserves, and sorts whose comparator or allocation throws, change nothing. Refuted: insert that throws at a later column leaves unequal columns (rows that were never inserted), sort_by_field with throwing moves loses values, copy assignment that throws mixes the rows of two soas."
  },
  {
   "property": "C73",
   "status": "proved",
   "theorems": [
    "C73_any_hash_calls",
    "C73_any_hash_programs",
    "C73_agrees_with_C01",
    "C73_find_inserted_refuted",
    "C73_erase_listed_refuted"
   ],
   "note": "C73_agrees_with_C01: with two functions as objects, this model gives the tables and answers of the model of C01. The refuted theorems show what is lost: with a hash that changes a key just inserted need not be found and can be inserted twice; with an equality that is not reflexive erase(key) removes another key. Objects that throw are not part of this property."
  },
  {
   "property": "C74",
   "status": "proved",
   "theorems": [
    "C74_partial_equality",
    "C74_copy_equal_refuted"
   ],
   "note": "C74_copy_equal_refuted: a container with such a key equals neither its copy nor itself. The invariant of C01 is proved for partial equivalences; C01 is the case of reflexive ones."
  },
  {
   "property": "C75",
   "status": "proved",
   "theorems": [
    "C75_programs",
    "C75_insert_input",
    "C75_no_leak",
    "C75_append",
    "C75_keeps_elements_refuted",
    "C75_insert_middle_refuted"
   ],
   "note": "C75_insert_middle_refuted: an insertion of one element before the end whose copy throws loses the elements behind the position, too. C75_keeps_elements_refuted: when a constructor throws, the elements behind the position are lost, not only moved from."
  },
  {
   "property": "C76",
   "status": "proved",
   "theorems": [
    "C76_any_hash_containers",
    "C76_moves_conserve",
    "C76_self_equal_refuted"
   ],
   "note": "C76_self_equal_refuted: with a hash that changes from call to call a container need not equal itself; the property does not claim it."
  },
  {
   "property": "C77",
   "status": "proved",
   "theorems": [
    "C77_any_hash_parallel",
    "C77_parallel_conserves",
    "C77_copy_submaps",
    "C77_erase_count_refuted"
   ],
   "note": "One thread; 2^lg submaps, lg at most 12. Two ways in which submaps show are in the specification because the code behaves so: a copying assignment that throws leaves the first submaps assigned, and erase(key) under a read-write lock answers 1 without erasing when the second lookup fails (C77_erase_count_refuted). insert_or_assign calls the hash object twice, once for the control byte and once for the place."
  },
  {
   "property": "C78",
   "status": "proved",
   "theorems": [
    "C78_any_comparators",
    "C78_nothing_lost",
    "C78_moved_from_refuted"
   ],
   "note": "The move assignment between unequal allocators leaves in the source what the moves leave of its values (in the specification because the code behaves so); C78_moved_from_refuted shows that the source of a btree_set is then a set with equal keys. A merge of multisets that throws leaves such values too (see C70)."
  },
  {
   "property": "C79",
   "status": "proved",
   "theorems": [
    "C79_calls",
    "C79_one_owner",
    "C79_handover",
    "C79_order",
    "C79_no_spare",
    "C79_nan_refuted",
    "C79_attach_cleared_refuted"
   ],
   "note": "attach is given the pointer, size and capacity of storage that relinquish took, and a vector without storage, as its comment asks; C79_attach_cleared_refuted shows that an empty vector is not enough. C79_nan_refuted shows that <= and >= both hold between vectors with NaN elements that are not equal."
  },
  {
   "property": "C80",
   "status": "proved",
   "theorems": [
    "C80_callbacks",
    "C80_every_schedule_ends",
    "C80_same_key_refuted",
    "C80_two_containers_refuted",
    "C80_two_keys_refuted",
    "C80_readers_refuted"
   ],
   "note": "The numbering is needed: a callback that calls its own container with a key of the same submap locks a mutex its thread holds (C80_same_key_refuted, also for read-only callbacks), callbacks in opposite directions deadlock, between two containers and between two keys of one (C80_two_containers_refuted, C80_two_keys_refuted), and with std::shared_mutex that prefers writers even read-only callbacks do (C80_readers_refuted)."
  },
  {
   "property": "C81",
   "status": "proved",
   "theorems": [
    "C81_search",
    "C81_fuel",
    "C81_ordered",
    "C81_debug_same",
    "C81_asserts",
    "C81_int",
    "C81_bad_middle_refuted",
    "C81_debug_refuted"
   ],
   "note": "A middle function that answers an end of the interval makes the search endless (C81_bad_middle_refuted), and a predicate with a state can change its answer or abort in a build with assertions, which call it too (C81_debug_refuted)."
  },
  {
   "property": "C82",
   "status": "proved",
   "theorems": [
    "C82_hash_self_merge",
    "C82_btree_self_merge",
    "C82_multi_refuted",
    "C82_hash_nan_refuted"
   ],
   "note": "C82_multi_refuted: btree_multiset::merge and btree_multimap::merge insert while they walk and then clear, so merging with itself is undefined behaviour for every container that is not empty. C82_hash_nan_refuted: a key that does not equal itself is inserted again into the table that is walked."
  },
  {
   "property": "C83",
   "status": "proved",
   "theorems": [
    "C83_lookup",
    "C83_try_emplace",
    "C83_hashes_must_agree"
   ],
   "note": "C83_hashes_must_agree: a transparent hash that differs only in the bits that choose the submap still finds the key in one table and loses it in the parallel container."
  },
  {
   "property": "C84",
   "status": "proved",
   "theorems": [
    "C84_equal_range",
    "C84_parallel"
   ],
   "note": "For reachable tables of C01 and containers of C13, from one thread."
  },
  {
   "property": "C85",
   "status": "proved",
   "theorems": [
    "C85_policy"
   ],
   "note": "Calls of the callback are atomic steps; a callback that changes state shared between submaps has to synchronise it itself. Calls of other threads on the container are in C60."
  },
  {
   "property": "C86",
   "status": "proved",
   "theorems": [
    "C86_erase_range",
    "C86_parallel"
   ],
   "note": "An iterator of a single table is a slot number; that of a parallel container a submap and a slot number, as in C13."
  },
  {
   "property": "C87",
   "status": "proved",
   "theorems": [
    "C87_partition",
    "C87_independent",
    "C87_clear_submap"
   ],
   "note": "Calls are atomic steps in the order given (C14 is about threads). A callback of with_submap_m that inserts a key of another submap is outside: the container would not find it."
  },
  {
   "property": "C88",
   "status": "proved",
   "theorems": [
    "C88_table",
    "C88_parallel"
   ],
   "note": "Iterators are slot numbers, for parallel containers with the submap; insertion of node handles is in C11 and C13."
  },
  {
   "property": "C89",
   "status": "proved",
   "theorems": [
    "C89_insert",
    "C89_construct"
   ],
   "note": "The bucket count of the constructor goes to every submap, so that the container has num_tables times as many buckets (C89_construct, C89_example). Single tables are in C66."
  }
 ]
}