{"id": "C01", "title": "flat/node hash maps behave as finite maps", "statement": "Starting from a default-constructed gtl hash map, after any sequence of insert / emplace / try_emplace / insert_or_assign / operator[] / erase(key) / erase(iterator) / clear / reserve(n) / rehash(n>0), find(k) returns exactly the value an ideal finite map would hold for k (or end()), and every insertion/erasure return value (inserted?, erased count) is the one of the ideal map.", "quantifier": "all key/value types, all hash functions consistent with key equality (any collision pattern), all finite operation sequences, any size", "why_tests_cant": "the behaviour depends on the interplay of collisions, tombstones, group wrap-around and growth; only finitely many collision patterns and sequences can be tested", "anchors": ["include/gtl/phmap.hpp:raw_hash_set::find_impl", "include/gtl/phmap.hpp:raw_hash_set::find_or_prepare_insert", "include/gtl/phmap.hpp:raw_hash_set::prepare_insert", "include/gtl/phmap.hpp:raw_hash_set::erase_meta_only", "include/gtl/phmap.hpp:raw_hash_set::resize", "include/gtl/phmap.hpp:raw_hash_set::drop_deletes_without_resize", "include/gtl/phmap.hpp:raw_hash_map::try_emplace_impl"]}
{"id": "C02", "title": "hash table size and iteration are exact", "statement": "In every state reachable through the public API, size() equals the number of distinct keys present, and a traversal begin()..end() visits every live element exactly once and nothing else.", "quantifier": "all reachable tables, all hash functions", "why_tests_cant": "requires an invariant over all histories of insert/erase/rehash", "anchors": ["include/gtl/phmap.hpp:raw_hash_set::iterator::skip_empty_or_deleted", "include/gtl/phmap.hpp:raw_hash_set::begin", "include/gtl/phmap.hpp:raw_hash_set::size"]}
{"id": "C03", "title": "every lookup terminates", "statement": "In every state reachable through insert/erase/clear/reserve(n)/rehash(n>0), find/contains/insert terminate for every key, present or absent: the probe sequence meets an empty slot after at most capacity/width+1 groups.", "quantifier": "all reachable tables, all keys, all hash functions", "why_tests_cant": "non-termination shows up only in specific (size, capacity, tombstone) configurations; a passing test says nothing about others", "anchors": ["include/gtl/phmap.hpp:probe_seq", "include/gtl/phmap.hpp:raw_hash_set::find_impl", "include/gtl/phmap.hpp:raw_hash_set::find_first_non_full", "include/gtl/phmap.hpp:CapacityToGrowth"]}
{"id": "C04", "title": "rehash(0)/reserve(0) keep the table usable", "statement": "rehash(0) (and reserve(0)) may shrink the table but keeps all elements, and afterwards lookups of absent keys terminate and the load factor bound still holds.", "quantifier": "all reachable tables (any size), all keys", "why_tests_cant": "fails only for particular sizes (those between the growth limit of a capacity and that capacity)", "anchors": ["include/gtl/phmap.hpp:raw_hash_set::rehash", "include/gtl/phmap.hpp:raw_hash_set::reserve", "include/gtl/phmap.hpp:NormalizeCapacity", "include/gtl/phmap.hpp:raw_hash_set::reset_growth_left", "include/gtl/phmap.hpp:parallel_hash_set::rehash"]}
{"id": "C05", "title": "reserve(n) prevents rehashing", "statement": "After reserve(n) on a table, inserting new keys while size() <= n never reallocates: no element present in the table is moved, so pointers and iterators obtained after the reserve remain valid (provided no erase intervenes).", "quantifier": "all n, all reachable tables, all insertion sequences", "why_tests_cant": "a bound over all n and all insertion orders; an off-by-one in the growth arithmetic only shows at particular n", "anchors": ["include/gtl/phmap.hpp:raw_hash_set::reserve", "include/gtl/phmap.hpp:GrowthToLowerboundCapacity", "include/gtl/phmap.hpp:CapacityToGrowth", "include/gtl/phmap.hpp:raw_hash_set::prepare_insert"]}
{"id": "C06", "title": "hash table load factor and capacity discipline", "statement": "In every reachable table bucket_count() is 0 or 2^k-1, size() never exceeds the 7/8 growth limit for that capacity, at least one slot is always empty for tables at least one group wide, and small tables (narrower than a group) never contain tombstones.", "quantifier": "all reachable tables", "why_tests_cant": "arithmetic invariant across all histories (insert, erase, tombstone reuse, in-place rehash)", "anchors": ["include/gtl/phmap.hpp:IsValidCapacity", "include/gtl/phmap.hpp:NormalizeCapacity", "include/gtl/phmap.hpp:CapacityToGrowth", "include/gtl/phmap.hpp:raw_hash_set::rehash_and_grow_if_necessary", "include/gtl/phmap.hpp:raw_hash_set::erase_meta_only"]}
{"id": "C07", "title": "erase never moves other elements", "statement": "erase(iterator) / erase(key) on a hash table removes only the designated element: every other element stays in the same slot, so references, pointers and iterators to other elements remain valid, and bucket_count() is unchanged.", "quantifier": "all reachable tables, all keys", "why_tests_cant": "must hold for every table layout", "anchors": ["include/gtl/phmap.hpp:raw_hash_set::erase", "include/gtl/phmap.hpp:raw_hash_set::erase_meta_only", "include/gtl/phmap.hpp:raw_hash_set::set_ctrl"]}
{"id": "C08", "title": "SSE2 and portable group scans are interchangeable", "statement": "For every 8/16-byte window of control bytes, the group scan operations find exactly the empty bytes, exactly the empty-or-deleted bytes, and all bytes equal to the searched 7-bit tag; the portable implementation may report extra tag candidates but only at positions holding a full slot. The observable results of the container are therefore the same with either implementation.", "quantifier": "all control-byte windows and all tags", "why_tests_cant": "2^64/2^128 windows; SWAR borrow/carry artefacts appear only on specific byte adjacencies", "anchors": ["include/gtl/phmap.hpp:GroupSse2Impl", "include/gtl/phmap.hpp:GroupPortableImpl", "include/gtl/phmap.hpp:BitMask"]}
{"id": "C09", "title": "probing visits every slot", "statement": "For every hash value and every table at least one group wide, the groups inspected during the first (capacity+1)/width probes cover every slot of the table exactly once.", "quantifier": "all capacities 2^k-1 (k with 2^k >= width), all start offsets", "why_tests_cant": "quantifies over unbounded k and all offsets", "anchors": ["include/gtl/phmap.hpp:probe_seq"]}
{"id": "C10", "title": "copy, move, swap and equality of hash tables", "statement": "A copy holds exactly the same key/value associations and later operations on either do not affect the other; swap exchanges contents; operator== holds iff the two tables hold the same associations, whatever their insertion histories, capacities and tombstones.", "quantifier": "all pairs of reachable tables", "why_tests_cant": "equality must be insensitive to layout/history, which is unbounded", "anchors": ["include/gtl/phmap.hpp:raw_hash_set::raw_hash_set", "include/gtl/phmap.hpp:raw_hash_set::swap", "include/gtl/phmap.hpp:operator==", "include/gtl/phmap.hpp:raw_hash_set::has_element"]}
{"id": "C11", "title": "merge / extract / node insertion move elements without loss", "statement": "a.merge(b) moves to a exactly those elements of b whose key is absent from a and leaves the others in b; extract(k) removes exactly the element k; inserting the extracted node puts it back. No element is lost or duplicated.", "quantifier": "all pairs of reachable tables, all keys", "why_tests_cant": "conservation law over all states", "anchors": ["include/gtl/phmap.hpp:raw_hash_set::merge", "include/gtl/phmap.hpp:raw_hash_set::extract", "include/gtl/phmap.hpp:raw_hash_set::insert"]}
{"id": "C12", "title": "a throwing element constructor leaves the hash table unchanged", "statement": "If constructing the new element throws during insert/emplace/try_emplace/lazy_emplace, the table afterwards has the same size() and the same elements as before.", "quantifier": "all reachable tables, all insertions, any throwing constructor", "why_tests_cant": "crash-point property: the throw can occur at any insertion", "anchors": ["include/gtl/phmap.hpp:raw_hash_set::prepare_insert", "include/gtl/phmap.hpp:raw_hash_set::emplace_decomposable", "include/gtl/phmap.hpp:raw_hash_set::lazy_emplace", "include/gtl/phmap.hpp:raw_hash_map::try_emplace_impl"]}
{"id": "C13", "title": "a parallel map behaves as one map", "statement": "Used from one thread, parallel_flat_hash_map with 2^N submaps gives for any operation sequence the same results as a single map: every key is always routed to the same submap, size() is the total, iteration visits every element exactly once.", "quantifier": "all N, all hash functions, all operation sequences", "why_tests_cant": "routing must be consistent for every hash value and history", "anchors": ["include/gtl/phmap.hpp:parallel_hash_set::subidx", "include/gtl/phmap.hpp:parallel_hash_set::size", "include/gtl/phmap.hpp:parallel_hash_set::find", "include/gtl/phmap.hpp:parallel_hash_set::iterator::skip_empty"]}
{"id": "C14", "title": "concurrent per-key operations are linearizable (exclusive mutex)", "statement": "With a std::mutex-like lock, any number of threads concurrently calling try_emplace_l / lazy_emplace_l / insert / insert_or_assign / erase / erase_if / if_contains / modify_if / contains obtain results equal to those of the same calls executed one at a time in some order compatible with real time, and the final contents are those of that order.", "quantifier": "all thread counts, all programs, all interleavings", "why_tests_cant": "interleavings cannot be enumerated by tests", "anchors": ["include/gtl/phmap.hpp:parallel_hash_set::lazy_emplace_l", "include/gtl/phmap.hpp:parallel_hash_set::modify_if", "include/gtl/phmap.hpp:parallel_hash_set::if_contains", "include/gtl/phmap.hpp:parallel_hash_set::erase_if_impl", "include/gtl/phmap.hpp:parallel_hash_map::try_emplace_l", "include/gtl/phmap.hpp:LockableImpl"]}
{"id": "C15", "title": "concurrent erase reports success to exactly one caller", "statement": "With a std::shared_mutex lock, if several threads concurrently call erase(k) (or erase_if with an always-true predicate) for a key inserted once, at most one of the calls returns 1/true.", "quantifier": "all interleavings of any number of erase calls", "why_tests_cant": "depends on a window between releasing the shared lock and acquiring the unique lock", "anchors": ["include/gtl/phmap.hpp:parallel_hash_set::erase_if_impl", "include/gtl/phmap.hpp:ReadWriteLock::switch_to_unique"]}
{"id": "C16", "title": "no deadlock between container operations", "statement": "Concurrent calls to the member functions of parallel containers never deadlock: single-key operations hold at most one submap lock at a time, and whole-container operations on two containers (swap, merge, ==) called concurrently in either argument order always make progress.", "quantifier": "all interleavings", "why_tests_cant": "deadlock needs a precise interleaving", "anchors": ["include/gtl/phmap.hpp:parallel_hash_set::swap", "include/gtl/phmap.hpp:parallel_hash_set::merge", "include/gtl/phmap.hpp:LockableImpl", "include/gtl/phmap.hpp:WriteLocks"]}
{"id": "C17", "title": "lock guards release what they acquired", "statement": "Every lock guard object of the library (WriteLock, ReadLock, ReadWriteLock), constructed in blocking, deferred or try mode and used through any sequence of lock/unlock/try_lock/switch_to_unique calls, owns the mutex iff owns_lock() says so and releases it on destruction.", "quantifier": "all guard call sequences, all outcomes of try_lock", "why_tests_cant": "state machine property over all call sequences", "anchors": ["include/gtl/phmap.hpp:WriteLock", "include/gtl/phmap.hpp:ReadLock", "include/gtl/phmap.hpp:ReadWriteLock"]}
{"id": "C18", "title": "LRU cache bounds its size and evicts the least recently used", "statement": "For every sequence of insert/get/exists, a submap of lru_cache never keeps more than its configured maximum of entries, get(k) returns the value most recently stored for k since it was last evicted, and the entry evicted by an insertion is the one least recently inserted or successfully read.", "quantifier": "all operation sequences, all cache sizes, all key distributions", "why_tests_cant": "history property over unbounded sequences", "anchors": ["include/gtl/lru_cache.hpp:lru_cache_impl::insert", "include/gtl/lru_cache.hpp:lru_cache_impl::get"]}
{"id": "C19", "title": "a copied LRU cache is independent of its source", "statement": "Copying (or moving) an lru_cache yields a cache whose later get/insert operations are well defined and do not depend on the life or contents of the source object.", "quantifier": "all caches, all later operation sequences", "why_tests_cant": "dangling references are invisible to most tests", "anchors": ["include/gtl/lru_cache.hpp:lru_cache_impl", "include/gtl/phmap.hpp:parallel_hash_set::parallel_hash_set"]}
{"id": "C20", "title": "memoize returns the function's value and calls it once per argument", "statement": "mt_memoize(f)(x) returns f(x) for every call, and in the non-recursive thread-safe mode f is evaluated at most once per distinct argument tuple, whatever the number of threads and their interleaving.", "quantifier": "all pure functions f, all argument sequences, all interleavings", "why_tests_cant": "at-most-once is a property of all schedules", "anchors": ["include/gtl/memoize.hpp:mt_memoize", "include/gtl/phmap.hpp:parallel_hash_set::lazy_emplace_l"]}
{"id": "C21", "title": "memoize_lru is correct and bounded", "statement": "mt_memoize_lru(f, n)(x) always returns f(x), and each shard retains at most n/num_submaps (n for one shard) results; a result computed for one of the n most recently used arguments is not recomputed.", "quantifier": "all call sequences, all n", "why_tests_cant": "history property", "anchors": ["include/gtl/memoize.hpp:mt_memoize_lru"]}
{"id": "C22", "title": "dump/load round trip", "statement": "For every reachable table of trivially copyable values, phmap_load of the bytes produced by phmap_dump yields a table with the same associations, size and capacity that behaves identically under all later operations; loading a truncated or foreign file is reported as failure.", "quantifier": "all reachable tables, all later operation sequences, all byte strings", "why_tests_cant": "all tables and all corrupt inputs", "anchors": ["include/gtl/phmap_dump.hpp:phmap_dump", "include/gtl/phmap_dump.hpp:phmap_load", "include/gtl/phmap_dump.hpp:BinaryInputArchive"]}
{"id": "C23", "title": "bit_vector is a sequence of booleans", "statement": "For every size, set/reset/flip/operator[]/whole-vector |= &= ^= -= or_not ~, ==, any/every/none, contains, disjoint give exactly the results of the same operations on a sequence of size() booleans, and no operation makes a bit beyond size() observable.", "quantifier": "all sizes, all contents, all indices, all operation sequences", "why_tests_cant": "slot boundaries and partial last slots: unbounded sizes", "anchors": ["include/gtl/bit_vector.hpp:vec", "include/gtl/bit_vector.hpp:storage::update_bit", "include/gtl/bit_vector.hpp:storage::visit_all"]}
{"id": "C24", "title": "count and bit scanning are exact", "statement": "count() equals the number of set bits; find_first()/find_next(i) return the smallest set index (> = 0 / >= i) or npos, for whole vectors and for views at any offset.", "quantifier": "all vectors, all views [first,last), all start positions", "why_tests_cant": "2^64 words and unbounded offsets", "anchors": ["include/gtl/bit_vector.hpp:_popcount64", "include/gtl/bit_vector.hpp:countr_zero", "include/gtl/bit_vector.hpp:_view::count", "include/gtl/bit_vector.hpp:_view::find_first", "include/gtl/bit_vector.hpp:_view::find_next"]}
{"id": "C25", "title": "bit_vector resize", "statement": "resize(n, v) keeps bits 0..min(old,n)-1 unchanged and sets every new bit to v.", "quantifier": "all old sizes, new sizes, contents, v", "why_tests_cant": "depends on the old size modulo 64", "anchors": ["include/gtl/bit_vector.hpp:storage::resize", "include/gtl/bit_vector.hpp:vec::resize"]}
{"id": "C26", "title": "view operations affect exactly the view", "statement": "Setting, resetting, flipping, shifting or combining through view(first,last) changes the bits inside [first,last) exactly as the operation on a boolean subsequence and leaves all bits outside unchanged.", "quantifier": "all vectors, all views, all operands", "why_tests_cant": "alignment of view ends relative to 64-bit slots: unbounded combinations", "anchors": ["include/gtl/bit_vector.hpp:storage::visit", "include/gtl/bit_vector.hpp:_view::bin_assign", "include/gtl/bit_vector.hpp:bit_sequence"]}
{"id": "C27", "title": "view assignment copies the source bits", "statement": "v1 = v2 for two views of equal size makes v1's bits equal to the previous bits of v2 and changes nothing else, including when both are views of the same vector; view = uint64 stores the low bits.", "quantifier": "all vectors, all pairs of equal-size views, all integers", "why_tests_cant": "overlap/alignment combinations unbounded", "anchors": ["include/gtl/bit_vector.hpp:_view::operator="]}
{"id": "C28", "title": "bit shifts", "statement": "v <<= n and v >>= n (and << >>) on vectors and views move every bit by n positions (towards lower resp. higher indices as documented), fill with zeros, for every n including n >= size() and n >= 64.", "quantifier": "all vectors, views, shift counts", "why_tests_cant": "carry propagation between slots for unbounded sizes", "anchors": ["include/gtl/bit_vector.hpp:_view::operator<<=", "include/gtl/bit_vector.hpp:_view::operator>>="]}
{"id": "C29", "title": "bit_vector equality agrees with hash and string conversions", "statement": "Two bit_vectors compare equal iff they have the same size and bits; equal vectors have equal std::hash; the hexadecimal string conversion determines the bits of a vector of given size.", "quantifier": "all pairs of vectors", "why_tests_cant": "all pairs; depends on unused bits of the last slot being kept clear", "anchors": ["include/gtl/bit_vector.hpp:vec::operator==", "include/gtl/bit_vector.hpp:std::hash<gtl::bit_vector>", "include/gtl/bit_vector.hpp:_view::append_to_string"]}
{"id": "C30", "title": "btree_map/btree_set behave as ordered maps/sets", "statement": "For any sequence of insert/emplace/insert(hint)/try_emplace/operator[]/erase(key)/erase(iterator)/clear, a btree container's contents, return values and find results are those of an ideal sorted map.", "quantifier": "all strict weak orders, all node capacities >= 3, all operation sequences", "why_tests_cant": "splits, merges and rebalances at every level for unbounded sizes", "anchors": ["include/gtl/btree.hpp:btree::insert_unique", "include/gtl/btree.hpp:btree::internal_emplace", "include/gtl/btree.hpp:btree::rebalance_or_split", "include/gtl/btree.hpp:btree::erase", "include/gtl/btree.hpp:btree::try_merge_or_rebalance"]}
{"id": "C31", "title": "btree multi-containers keep duplicates in insertion order", "statement": "btree_multiset/multimap insert(x) places x after all elements equivalent to it; count(k) is the number of equivalents; erase(k) removes all and returns that number.", "quantifier": "all orders, all sequences", "why_tests_cant": "unbounded duplicates spanning several nodes", "anchors": ["include/gtl/btree.hpp:btree::insert_multi", "include/gtl/btree.hpp:btree::erase_multi", "include/gtl/btree.hpp:btree::count_multi"]}
{"id": "C32", "title": "btree iteration is sorted and bidirectional", "statement": "Iterating from begin() to end() yields all elements in comparator order, exactly size() of them; decrementing from end() yields the reverse; ++ and -- are inverse on valid positions.", "quantifier": "all reachable trees", "why_tests_cant": "tree shapes unbounded", "anchors": ["include/gtl/btree.hpp:btree_iterator::increment_slow", "include/gtl/btree.hpp:btree_iterator::decrement_slow"]}
{"id": "C33", "title": "btree erase returns the successor", "statement": "erase(it) removes exactly the element at it and returns an iterator to the element that followed it (or end()); erase(first,last) removes exactly the elements of the range and returns the element that followed the range.", "quantifier": "all reachable trees, all positions/ranges", "why_tests_cant": "position tracking through merges/rebalances at several levels", "anchors": ["include/gtl/btree.hpp:btree::erase", "include/gtl/btree.hpp:btree::rebalance_after_delete", "include/gtl/btree.hpp:btree::erase_same_node"]}
{"id": "C34", "title": "btree stays balanced", "statement": "In every reachable btree all leaves are at the same depth, every non-root node holds at least one value and at most its capacity, values are sorted across nodes and size() is exact, hence height is logarithmic in size for insert-only histories.", "quantifier": "all reachable trees", "why_tests_cant": "structural invariant over all histories", "anchors": ["include/gtl/btree.hpp:btree::internal_verify", "include/gtl/btree.hpp:btree::try_shrink", "include/gtl/btree.hpp:btree_node::split", "include/gtl/btree.hpp:btree_node::merge"]}
{"id": "C35", "title": "btree lower_bound / upper_bound / equal_range", "statement": "lower_bound(k) is the first element not less than k, upper_bound(k) the first greater than k, equal_range(k) delimits exactly the equivalents of k; linear and binary node searches agree.", "quantifier": "all reachable trees, all keys, both bool and three-way comparators", "why_tests_cant": "unbounded trees and keys", "anchors": ["include/gtl/btree.hpp:btree::internal_lower_bound", "include/gtl/btree.hpp:btree::internal_upper_bound", "include/gtl/btree.hpp:btree_node::binary_search_impl", "include/gtl/btree.hpp:btree_node::linear_search_impl"]}
{"id": "C36", "title": "btree insertion of a reference into itself", "statement": "ms.insert(*it) on a btree_multiset/multimap inserts a copy of the element designated by it, whatever rebalancing the insertion triggers.", "quantifier": "all reachable trees, all positions", "why_tests_cant": "aliasing bug appears only for some node fill levels", "anchors": ["include/gtl/btree.hpp:btree_multiset_container::insert", "include/gtl/btree.hpp:btree::internal_emplace", "include/gtl/btree.hpp:btree_node::emplace_value"]}
{"id": "C37", "title": "gtl::vector behaves as a sequence", "statement": "For any sequence of push_back/emplace_back/pop_back/insert/erase/resize/assign/reserve/shrink_to_fit/clear/swap, a gtl::vector holds exactly the elements of an ideal sequence under the same operations, and size() <= capacity().", "quantifier": "all element types, all operation sequences", "why_tests_cant": "reallocation and element shifting for unbounded sizes", "anchors": ["include/gtl/vector.hpp:vector::emplace_back_aux", "include/gtl/vector.hpp:vector::do_real_insert", "include/gtl/vector.hpp:vector::erase", "include/gtl/vector.hpp:vector::resize"]}
{"id": "C38", "title": "gtl::vector manages element lifetimes correctly", "statement": "Every element is constructed exactly once before use and destroyed exactly once; no operation reads, assigns or destroys an unconstructed slot, and the destructor leaves no live element.", "quantifier": "all operation sequences", "why_tests_cant": "lifetime errors are silent in tests", "anchors": ["include/gtl/vector.hpp:vector::make_window", "include/gtl/vector.hpp:vector::wrap_frame", "include/gtl/vector.hpp:vector::relocate_move", "include/gtl/vector.hpp:vector::D_destroy_range_a"]}
{"id": "C39", "title": "gtl::vector insertion of its own elements", "statement": "v.push_back(v[i]), v.insert(pos, v[i]), v.insert(pos, n, v[i]) and v.emplace(pos, v[i]) insert the value v[i] had before the call.", "quantifier": "all vectors, all i, all positions, with or without spare capacity", "why_tests_cant": "only specific capacity/position combinations expose it", "anchors": ["include/gtl/vector.hpp:vector::emplace", "include/gtl/vector.hpp:vector::insert", "include/gtl/vector.hpp:vector::dataIsInternalAndNotVT"]}
{"id": "C40", "title": "gtl::vector capacity contract", "statement": "After reserve(n) capacity() >= n or an exception was thrown; pushing up to capacity() elements does not reallocate; growth is geometric so n push_backs cause O(log n) reallocations.", "quantifier": "all n up to SIZE_MAX", "why_tests_cant": "overflow arithmetic at extreme n; asymptotic claim", "anchors": ["include/gtl/vector.hpp:vector::reserve", "include/gtl/vector.hpp:vector::computePushBackCapacity"]}
{"id": "C41", "title": "soa sort keeps rows together and is stable", "statement": "sort_by_field<c>() permutes the rows of a soa: afterwards column c is sorted, rows with equivalent c values keep their order, and every row contains the same tuple as some row before (each exactly once).", "quantifier": "all row counts, all contents, all columns, all strict weak orders", "why_tests_cant": "all permutations/cycle structures", "anchors": ["include/gtl/soa.hpp:soa::reorder", "include/gtl/soa.hpp:soa::sort_by_field"]}
{"id": "C42", "title": "intrusive_ptr reference counting", "statement": "In any program using intrusive_ptr copy/move/assign/reset/swap/detach on objects derived from intrusive_ref_counter, use_count() equals the number of owners, the object is deleted exactly when the last owner disappears, exactly once, and never accessed afterwards.", "quantifier": "all sequences of pointer operations over any number of pointers and objects", "why_tests_cant": "history property", "anchors": ["include/gtl/intrusive.hpp:intrusive_ptr", "include/gtl/intrusive.hpp:intrusive_ref_counter"]}
{"id": "C43", "title": "thread-safe reference counting deletes exactly once", "statement": "With thread_safe_counter, any number of threads copying and dropping their own intrusive_ptr to a shared object delete it exactly once, after all have released it.", "quantifier": "all interleavings of atomic increments/decrements", "why_tests_cant": "schedule property", "anchors": ["include/gtl/intrusive.hpp:thread_safe_counter", "include/gtl/intrusive.hpp:intrusive_ptr_release"]}
{"id": "C44", "title": "generic binary search", "statement": "binary_search(middle<T>{}, pred, l, r) with pred(l)=false and pred(r)=true terminates and returns adjacent (a,b), b=a+1, with pred(a)=false, pred(b)=true, within [l,r], evaluating pred only strictly inside (l,r).", "quantifier": "all integral ranges, all predicates (monotone or not)", "why_tests_cant": "all ranges and predicates; signed overflow at extremes", "anchors": ["include/gtl/adv_utils.hpp:binary_search", "include/gtl/adv_utils.hpp:middle"]}
{"id": "C45", "title": "bit tricks compute what they claim", "statement": "CountLeadingZeros64/32, CountTrailingZerosNonZero64/32 (portable versions), the SWAR popcount, the De Bruijn trailing-zero count and the byte-swap fallbacks equal their mathematical definition for every input word; byte swapping is an involution and big-endian load/store round-trips.", "quantifier": "all 2^64 (2^32, 2^16) words", "why_tests_cant": "2^64 inputs", "anchors": ["include/gtl/bits.hpp:CountLeadingZeros64Slow", "include/gtl/bits.hpp:CountTrailingZerosNonZero64Slow", "include/gtl/bits.hpp:gbswap_64", "include/gtl/bit_vector.hpp:countr_zero", "include/gtl/bit_vector.hpp:_popcount64"]}
{"id": "C46", "title": "hash mixing loses no information and respects equality", "statement": "phmap_mix<8> (portable) is injective on 64-bit values, the pair/tuple hash combiner is injective in each component for fixed others, and values that compare equal (including 0.0 and -0.0) hash equally.", "quantifier": "all 64-bit values, all pairs", "why_tests_cant": "2^128 pairs", "anchors": ["include/gtl/phmap_utils.hpp:phmap_mix", "include/gtl/phmap_utils.hpp:Combiner", "include/gtl/phmap_utils.hpp:Hash<double>"]}
{"id": "C47", "title": "cat / slice / map on vectors", "statement": "cat returns the concatenation, map applies f to each element in order, slice(v, first, last, stride) returns the Python-like slice (every stride-th element of [first,last), negative indices counted from the end).", "quantifier": "all vectors, all indices and strides", "why_tests_cant": "unbounded lengths and index combinations", "anchors": ["include/gtl/vec_utils.hpp:cat", "include/gtl/vec_utils.hpp:slice", "include/gtl/vec_utils.hpp:map"]}
{"id": "C48", "title": "scope guards restore, timestamps order", "statement": "scoped_set_value / scoped_set_unset / scoped_guard, nested in any way and dismissed or not, restore the variable to its value before the guard (run the exit action exactly once) unless dismissed; timestamps created or touched later are strictly newer, | returns the most recent.", "quantifier": "all nestings, all operation sequences", "why_tests_cant": "history property", "anchors": ["include/gtl/utils.hpp:scoped_set_value", "include/gtl/utils.hpp:scoped_guard", "include/gtl/utils.hpp:timestamp"]}
{"id": "C49", "title": "erase_if removes exactly the matching elements", "statement": "erase_if(container, pred) on hash and btree containers removes exactly the elements satisfying pred, keeps all others, calls pred exactly once per element and returns the number removed (hash containers).", "quantifier": "all reachable containers, all predicates", "why_tests_cant": "iteration while erasing over all layouts", "anchors": ["include/gtl/phmap.hpp:erase_if", "include/gtl/btree.hpp:erase_if", "include/gtl/phmap.hpp:parallel_hash_set::erase_if_impl"]}
{"id": "C50", "title": "an unsatisfiable reserve/rehash throws and changes nothing", "statement": "reserve(n) / rehash(n) with an n whose table does not fit in memory throws and leaves the map exactly as it was, for every n representable in size_t; it never accesses memory it did not obtain.", "quantifier": "all n in [1, 2^64), all reachable tables", "why_tests_cant": "the interesting n are astronomically large and wrap-around dependent", "anchors": ["include/gtl/phmap.hpp:reserve", "include/gtl/phmap.hpp:rehash", "include/gtl/phmap.hpp:initialize_slots", "include/gtl/gtl_base.hpp:Layout::AllocSize"]}
{"id": "C51", "title": "btree merge, copy and comparison", "statement": "a.merge(b) on btree sets/maps moves exactly the elements whose key a lacks and leaves the others in b; on multi containers it moves all; nothing is lost or duplicated even if b has another comparator. A copy has the same elements; == and < compare the sequences of elements.", "quantifier": "all pairs of reachable trees, all orders", "why_tests_cant": "two unbounded trees mutated in lockstep", "anchors": ["include/gtl/btree.hpp:btree_set_container::merge", "include/gtl/btree.hpp:btree_multiset_container::merge", "include/gtl/btree.hpp:btree::copy_or_move_values_in_order", "include/gtl/btree.hpp:operator=="]}
{"id": "C52", "title": "btree insertion survives exceptions", "statement": "If constructing the element or allocating a node throws during insert/emplace, the btree container keeps its elements and can be used and destroyed, and no memory is leaked.", "quantifier": "all reachable trees, all points of failure", "why_tests_cant": "fault points inside splits and shifts are many and size dependent", "anchors": ["include/gtl/btree.hpp:btree::internal_emplace", "include/gtl/btree.hpp:btree_node::emplace_value", "include/gtl/btree.hpp:btree::insert_unique", "include/gtl/btree.hpp:btree::rebalance_or_split"]}
{"id": "C53", "title": "element lifetimes inside btree nodes", "statement": "Inserting into, removing from, splitting, merging and rebalancing the nodes of a btree never reads, assigns or destroys a slot without a value, never constructs over a value, and keeps every value and every child in exactly one place, each child with the right parent and position; deleting a node destroys each of its values once.", "quantifier": "all node capacities, all fill levels, all positions and numbers of values moved", "why_tests_cant": "lifetime errors in overlapping moves are silent and depend on the fill levels", "anchors": ["include/gtl/btree.hpp:btree_node::emplace_value", "include/gtl/btree.hpp:btree_node::rebalance_right_to_left", "include/gtl/btree.hpp:btree_node::rebalance_left_to_right", "include/gtl/btree.hpp:btree_node::split", "include/gtl/btree.hpp:btree_node::merge", "include/gtl/btree.hpp:btree_node::swap", "include/gtl/btree.hpp:btree::erase_same_node"]}
{"id": "C54", "title": "objects in a container's memory block are inside it, aligned and disjoint", "statement": "For every element type and capacity, the block of memory a hash table obtains holds all its control bytes and slots: each lies inside the block, at an address suitable for its type, and no two share a byte; the block is not larger than needed beyond padding, and its size is the same when it is given back.", "quantifier": "all element sizes and alignments, all capacities, all reachable tables", "why_tests_cant": "alignment and padding combinations are unbounded and an overlap corrupts memory silently", "anchors": ["include/gtl/gtl_base.hpp:Layout", "include/gtl/gtl_base.hpp:Align", "include/gtl/gtl_base.hpp:Allocate", "include/gtl/gtl_base.hpp:Deallocate", "include/gtl/phmap.hpp:MakeLayout", "include/gtl/phmap.hpp:initialize_slots"]}
{"id": "C55", "title": "btree nodes can always be split and their fields hold their counts", "statement": "For every element type, a btree node has room for at least three elements and for as many as fit the target node size; the counts and positions stored in a node read back unchanged, leaves are told from internal nodes, the fields, elements and child pointers of a node lie inside its memory, aligned and disjoint, and the size given back to the allocator is the size obtained.", "quantifier": "all element sizes and alignments, all target node sizes below 64K, all numbers of values in a leaf root", "why_tests_cant": "element types are unbounded; truncated counts only show for particular sizes", "anchors": ["include/gtl/btree.hpp:btree_node::SizeWithNValues", "include/gtl/btree.hpp:btree_node::NodeTargetValues", "include/gtl/btree.hpp:btree_node::LeafLayout", "include/gtl/btree.hpp:btree_node::InternalLayout", "include/gtl/btree.hpp:btree_node::max_count", "include/gtl/btree.hpp:common_params"]}
{"id": "C56", "title": "memory and element lifetimes of hash tables", "statement": "Whatever a program does with hash maps (insert, assign, erase, clear, rehash, reserve, copy, move, swap, merge, extract, node insertion, erase_if), no element is constructed over another, destroyed twice, or used after its destruction, and no memory is used after it was given back or given back with another size; at every moment the live elements are exactly those of the maps and each map holds at most one block; when the maps are destroyed every element has been destroyed and every block given back.", "quantifier": "all programs over any number of maps and node handles, all hash functions, all points where the allocator fails", "why_tests_cant": "leaks and double destructions depend on the interleaving of growth, erasure and moves over unbounded histories", "anchors": ["include/gtl/phmap.hpp:resize", "include/gtl/phmap.hpp:drop_deletes_without_resize", "include/gtl/phmap.hpp:destroy_slots", "include/gtl/phmap.hpp:clear", "include/gtl/phmap.hpp:raw_hash_set(const raw_hash_set&)", "include/gtl/phmap.hpp:merge", "include/gtl/phmap.hpp:extract", "include/gtl/phmap.hpp:emplace_decomposable"]}
{"id": "C57", "title": "copying a hash table survives exceptions", "statement": "If constructing an element throws while a hash table is copied, the exception reaches the caller, the partial copy is destroyed, nothing is leaked and the source is unchanged.", "quantifier": "all reachable tables, all elements at which the exception occurs", "why_tests_cant": "fault points depend on the number and placement of elements", "anchors": ["include/gtl/phmap.hpp:raw_hash_set(const raw_hash_set&, const allocator_type&)", "include/gtl/phmap.hpp:set_ctrl", "include/gtl/phmap.hpp:emplace_at", "include/gtl/phmap.hpp:destroy_slots"]}
{"id": "C58", "title": "a throwing hash function does not damage the table", "statement": "If the hash function throws during an insertion, the table keeps its elements, its size() is right, and nothing is leaked.", "quantifier": "all reachable tables, all calls of the hash function at which the exception occurs", "why_tests_cant": "the interesting calls happen inside rehashing, at histories that trigger it", "anchors": ["include/gtl/phmap.hpp:resize", "include/gtl/phmap.hpp:drop_deletes_without_resize", "include/gtl/phmap.hpp:prepare_insert", "include/gtl/phmap.hpp:emplace_decomposable"]}
{"id": "C59", "title": "exceptions of memoized functions", "statement": "If a memoized function throws for an argument, the exception reaches the caller, nothing is cached for that argument, and every later call from any thread behaves as if the failed call had not been made, size() included.", "quantifier": "all functions, which may call themselves through the cache and catch exceptions; all call sequences, all interleavings", "why_tests_cant": "damage from a failed call only shows after long histories of failures", "anchors": ["include/gtl/memoize.hpp:mt_memoize::operator()", "include/gtl/memoize.hpp:mt_memoize_lru::operator()", "include/gtl/phmap.hpp:lazy_emplace_l", "include/gtl/phmap.hpp:prepare_insert"]}
{"id": "C60", "title": "for_each, for_each_m and clear beside other threads", "statement": "On a parallel container, for_each, for_each_m and clear may run while other threads make any calls: there is no data race and no deadlock, and for every key the callback of for_each / for_each_m gets exactly the element the key had at one moment during the call (once, or not at all if it had none), for_each_m replaces it at that same moment, and clear() removes it at one moment during the call; a key nobody changes is visited exactly once.", "quantifier": "all hash functions, numbers of submaps and threads, all calls, all interleavings, exclusive and shared mutexes", "why_tests_cant": "which elements a visitor meets depends on the schedule", "anchors": ["include/gtl/phmap.hpp:parallel_hash_set::for_each", "include/gtl/phmap.hpp:parallel_hash_set::for_each_m", "include/gtl/phmap.hpp:parallel_hash_set::clear"]}
{"id": "C61", "title": "size() beside other threads", "statement": "size() of a parallel container with a mutex may be called while other threads insert and erase, and returns the number of elements at one moment during the call.", "quantifier": "all hash functions, numbers of submaps and threads, all calls, all interleavings", "why_tests_cant": "a wrong sum needs a particular schedule", "anchors": ["include/gtl/phmap.hpp:parallel_hash_set::size", "include/gtl/phmap.hpp:parallel_hash_set::empty"]}
{"id": "C62", "title": "memoize_lru and mt_memoize_lru of a recursive function return the function's values", "statement": "Let f compute its result by calling its own memoized version. Then every call of memoize_lru(f) and mt_memoize_lru(f) returns the value of f, whatever the depth of the recursion, the cache size and the hash function, and afterwards contains() and size() agree with what was cached.", "quantifier": "all recursive functions, depths of recursion, cache sizes and hash functions", "why_tests_cant": "the effect depends on the depth of the recursion relative to the capacity of the table, and on collisions", "anchors": ["include/gtl/memoize.hpp:mt_memoize_lru::operator()", "include/gtl/phmap.hpp:parallel_hash_set::lazy_emplace_l", "include/gtl/phmap.hpp:lazy_emplace_at"]}
{"id": "C63", "title": "elements of node containers keep their address", "statement": "In node_hash_map and node_hash_set an element keeps its address and its value from its insertion until it is erased, whatever else is inserted or erased, through growth, rehash, reserve, swap, move, merge, extract and insert(node); only insert_or_assign of its key changes its value. Insertions and lookups answer with that address, two elements never share a node, the answers are otherwise those of the flat containers, and every node is given back exactly once when its element is erased or its container or handle destroyed, except the element that emplace built before it failed to get memory.", "quantifier": "all programs over any number of node containers and node handles, all hash functions, all points where the allocator fails", "why_tests_cant": "pointer stability must survive every history of growth and transfers; a dangling pointer rarely crashes a test", "anchors": ["include/gtl/phmap.hpp:NodeHashSetPolicy::new_element", "include/gtl/phmap.hpp:NodeHashMapPolicy::new_element", "include/gtl/phmap.hpp:node_hash_policy::transfer", "include/gtl/phmap.hpp:node_hash_policy::element", "include/gtl/phmap.hpp:raw_hash_set::emplace", "include/gtl/phmap.hpp:raw_hash_set::extract", "include/gtl/phmap.hpp:raw_hash_set::merge"]}
{"id": "C64", "title": "The cost of automatic rehashing is amortised", "statement": "Apart from explicit rehash() and reserve() calls, the rehashing that insertions trigger in a flat hash container - growing it, or sweeping out erased slots in place - takes a constant number of steps per insertion in total: from any container a program can build, at most 3*bucket_count() plus 6 per insertion that succeeds, whatever erasures, clears and lookups come in between. Only insertions of new keys rehash; a call that did not rehash leaves bucket_count() and the place of every remaining element unchanged.", "quantifier": "every program without rehash/reserve from every reachable table, every hash and equality function, both group widths, every allocation limit", "why_tests_cant": "Amortised bounds quantify over all interleavings of insertions and erasures; a test cannot exclude a sequence that rehashes on every insertion (thrashing at a threshold).", "anchors": ["include/gtl/phmap.hpp:rehash_and_grow_if_necessary", "include/gtl/phmap.hpp:prepare_insert", "include/gtl/phmap.hpp:resize", "include/gtl/phmap.hpp:drop_deletes_without_resize"]}
{"id": "C65", "title": "Containers with a custom allocator behave like those with the default one", "statement": "With an allocator type other than the default, a container that owns no memory has no control bytes at all. Every program of lookups, insertions, erasures, clear, reserve, rehash, iteration, copy, move, swap, merge, extract, node insertion, == and erase_if on such containers is defined and gives the answers of ideal finite maps. Moving a container into one whose allocator is not equal either throws and leaves the source as it was, or gives the new container exactly the source's elements, while the source keeps its keys.", "quantifier": "all key and value types, hash functions and equalities, all numbers of containers, all programs, all effects of moving a value, all memory limits", "why_tests_cant": "A missing test for the null control pointer shows only in the state without memory, which is reached by construction, by clear of a large table, by rehash(0), by being moved from and by swap; a test with the default allocator never sees it.", "anchors": ["include/gtl/phmap.hpp:EmptyGroup", "include/gtl/phmap.hpp:find_impl", "include/gtl/phmap.hpp:prepare_insert", "include/gtl/phmap.hpp:skip_empty_or_deleted", "include/gtl/phmap.hpp:raw_hash_set(raw_hash_set&&, const allocator_type&)"]}
{"id": "C66", "title": "Building from and inserting ranges", "statement": "insert(first, last), insert({...}) and the constructors from a range, an initializer list or a bucket count behave like inserting the elements one by one: the first element with a key wins, elements already present win, and if std::bad_alloc is thrown a prefix of the range has been inserted (a constructor leaves nothing behind). For iterators that can be subtracted the insertion is all or nothing and grows the table at most once; inserting nothing changes nothing, in particular not bucket_count().", "quantifier": "all programs of map operations, range insertions and range constructions, all ranges with repeated keys, all bucket counts, hash functions and memory limits", "why_tests_cant": "Depends on the history (tombstones, reservations), on duplicates inside the range and on where an allocation fails.", "anchors": ["include/gtl/phmap.hpp:raw_hash_set::insert(InputIt, InputIt)", "include/gtl/phmap.hpp:raw_hash_set(size_t bucket_cnt)", "include/gtl/phmap.hpp:raw_hash_set(InputIter, InputIter, size_t)"]}
{"id": "C67", "title": "Ordered lookups with keys of another type", "statement": "With a transparent comparator, lower_bound(q), upper_bound(q), equal_range(q), find(q), contains(q), count(q) and erase(q) of the B-tree containers for a q of another type treat the values as split into those before q, those equivalent to q and those after q: the bounds enclose exactly the equivalent values, find gives one of them or end(), count(q) is their number and erase(q) removes exactly them. If q stands for one key every call does what it does with that key.", "quantifier": "all containers that a program can reach, all node sizes, comparators (bool or ordering, linear or binary search) and all keys of another type that split the values into three runs", "why_tests_cant": "Depends on how the equivalent values are spread over the nodes of the tree, and on which of them the binary search in each node meets first.", "anchors": ["include/gtl/btree.hpp:btree_node::lower_bound", "include/gtl/btree.hpp:btree::internal_lower_bound", "include/gtl/btree.hpp:btree::internal_find", "include/gtl/btree.hpp:btree_set_container::count", "include/gtl/btree.hpp:btree_set_container::erase"]}
{"id": "C68", "title": "Hash lookups with keys of another type", "statement": "With a transparent hash function and equality that agree with those of the keys, find(q), contains(q), count(q) and erase(q) with a q of another type find, count or remove the one element whose key equals q, and no other; if there is none (even if no key at all can equal q) they terminate and answer end(), false, 0. try_emplace(q, v) does what it does with the key constructed from q.", "quantifier": "all containers that a program can reach, all hash functions, equalities and keys of another type whose hash agrees with the hash of the equal keys", "why_tests_cant": "Depends on the whole history of the table (tombstones, collisions, growth), and the termination of an unsuccessful search for something that cannot be a key is not implied by the tests with keys.", "anchors": ["include/gtl/phmap.hpp:raw_hash_set::find(const key_arg<K>&)", "include/gtl/phmap.hpp:raw_hash_set::contains", "include/gtl/phmap.hpp:raw_hash_set::erase(const key_arg<K>&)", "include/gtl/phmap.hpp:raw_hash_map::try_emplace_impl"]}
{"id": "C69", "title": "Old and unloadable files", "statement": "phmap_load of a file in the older format (size, capacity, control bytes, slots; no version word, no growth counter) gives a map with the elements, size() and bucket_count() of the map that was dumped, which behaves like any other map. If the table of a file does not fit in memory, phmap_load throws std::bad_alloc and leaves a container that can be used or at least destroyed.", "quantifier": "all maps that a program can reach, all trivially copyable element types, all files (honest or damaged) whose header asks for more memory than there is", "why_tests_cant": "Nothing writes the older format any more, so no round-trip test reaches that branch, and the answer depends on the size and history of the map; running out of memory cannot be arranged for every size.", "anchors": ["include/gtl/phmap_dump.hpp:raw_hash_set::phmap_load", "include/gtl/phmap.hpp:raw_hash_set::drop_deletes_without_resize", "include/gtl/phmap.hpp:raw_hash_set::destroy_slots"]}
{"id": "C70", "title": "Comparisons: how many, and comparators that throw", "statement": "On a B-tree container of n values a lookup, an erasure by key or an insertion calls the comparator at most log2(n+1) times the comparisons of one node (the node size with linear search, its binary length otherwise) plus a small constant; an insertion with a right hint needs at most two comparisons whatever n is, and a sorted range that follows the values of the container one for each value. If a call of the comparator throws, a call on one value leaves the container as it was, the insertion of a range leaves exactly a part of the range from its front inserted, and merge leaves every value in exactly one of the two containers.", "quantifier": "all containers that a program can reach, all node sizes, search modes, values, hints and ranges, and every call of the comparator as the first that throws", "why_tests_cant": "The number of comparisons depends on the shape of the tree, which depends on the whole history; the exception may come at any comparison of any call.", "anchors": ["include/gtl/btree.hpp:btree::internal_locate", "include/gtl/btree.hpp:btree::insert_hint_unique", "include/gtl/btree.hpp:btree::insert_hint_multi", "include/gtl/btree.hpp:btree::insert_iterator_unique", "include/gtl/btree.hpp:btree_set_container::merge", "include/gtl/btree.hpp:btree_multiset_container::merge"]}
{"id": "C71", "title": "Comparators that are not an order", "statement": "Whatever the comparator of a B-tree container answers (NaN keys, <= instead of <, answers that change from call to call) and whenever it throws, no call does anything undefined and the container stays a container: an insertion adds the given value at one place or adds nothing, an erasure removes a contiguous part or nothing, every iterator that is returned is valid, iteration and size() agree, and a call that throws changes nothing (a range: a part from its front is inserted).", "quantifier": "all programs of calls from the empty container, every call with its own arbitrary comparator that may answer differently each time and throw at any comparison, all node sizes and search modes", "why_tests_cant": "The answers of the comparator are an arbitrary function of the history of the calls; tests use orders.", "anchors": ["include/gtl/btree.hpp:btree_node::linear_search", "include/gtl/btree.hpp:btree_node::binary_search", "include/gtl/btree.hpp:btree::internal_locate", "include/gtl/btree.hpp:btree::insert_unique", "include/gtl/btree.hpp:btree::insert_hint_multi", "include/gtl/btree.hpp:btree::erase_multi", "include/gtl/btree.hpp:btree::count_multi"]}
{"id": "C72", "title": "A soa whose calls throw is still a list of rows", "statement": "A call on a soa that throws (memory, a copy, a comparator, a move) leaves the rows it had, and the soa stays a table of rows for later calls: size(), a[i], view, insert, resize, clear, reserve, sort_by_field, copy and move assignment behave as for a list of rows.", "quantifier": "all programs over several soas that react to the results of their calls, all numbers of columns, all contents, all comparators that are strict weak orders, each call throwing at any point or not at all", "why_tests_cant": "needs every point at which a call can throw, in every history", "anchors": ["include/gtl/soa.hpp:soa::insert_impl", "include/gtl/soa.hpp:soa::sort_by_field", "include/gtl/soa.hpp:soa::reorder", "include/gtl/soa.hpp:soa::resize"]}
{"id": "C73", "title": "A hash table whose hash and equality objects answer anything is still a container", "statement": "Whatever the hash and equality objects answer (answers that change from call to call, an equality that is no equivalence, equal keys with different hashes), each call of emplace, insert_or_assign, find, erase by key or by iterator, clear, reserve and rehash with a non-zero argument that does not overflow, copy, size and traversal ends, without undefined behaviour; no element is lost, duplicated or altered except the one the call inserts, overwrites or erases, and an element is taken for the key only if the equality object said so during that call; size() is the number of elements a traversal shows; a call that throws bad_alloc changes nothing.", "quantifier": "all programs (that may choose each call by what happened before), all answers of the two objects, numbered over the whole program, all table layouts of both group widths", "why_tests_cant": "needs every answer of the user's objects at every call, in every history", "anchors": ["include/gtl/phmap.hpp:raw_hash_set::find", "include/gtl/phmap.hpp:raw_hash_set::resize", "include/gtl/phmap.hpp:raw_hash_set::drop_deletes_without_resize", "include/gtl/phmap.hpp:raw_hash_set::prepare_insert"]}
{"id": "C74", "title": "Keys that do not equal themselves do not disturb the others", "statement": "With an equality that is symmetric and transitive, with equal hashes for equal keys, but under which some keys do not equal themselves (floating-point numbers that are not numbers), a hash map is an ideal map for the keys that equal themselves, whatever is done with the others; an element with one of the others is inserted by each insertion, is found and erased by no key, stays until clear(), and is counted by size() and shown by a traversal.", "quantifier": "all programs of public calls, all such equalities and hashes, all table layouts of both group widths", "why_tests_cant": "needs every history and every equality", "anchors": ["include/gtl/phmap.hpp:raw_hash_set::find", "include/gtl/phmap.hpp:raw_hash_set::emplace_decomposable", "include/gtl/phmap.hpp:raw_hash_set::erase", "include/gtl/phmap.hpp:raw_hash_set::operator=="]}
{"id": "C75", "title": "Input iterators: insert puts a single-pass range where it belongs", "statement": "Inserting a range of input iterators (which can be read only once) puts its elements at the position and keeps the others in order, whatever the capacity. If a constructor or an allocation throws, no object or memory is leaked or used after its end, other vectors keep their elements, and so does the vector before the position if its elements can be copied or move without exceptions. For such elements, any other insertion at the end that throws changes nothing.", "quantifier": "all programs over any number of vectors, all ranges, positions and capacities, all points at which a call may throw, all kinds of element types", "why_tests_cant": "needs every history and every point of failure", "anchors": ["include/gtl/vector.hpp:vector::insert(input_iterator_tag)", "include/gtl/vector.hpp:vector::M_destroy_range_e", "include/gtl/vector.hpp:vector::emplace_back", "include/gtl/vector.hpp:vector::do_real_insert"]}
{"id": "C76", "title": "Several hash containers with objects that answer anything: merge, swap, node handles", "statement": "Whatever the hash objects, the equality objects and operator== of the elements answer, merge, swap, copy and move assignment, ==, erase_if, extract and the insertion of nodes end, touch no dead object and leave proper containers. merge moves some elements in order and leaves the others in order, and each element left behind was said to equal one of the destination, unless the call threw; erase_if asks about each element once; == answers true only for containers of equal size. Calls that only move elements about neither lose nor duplicate one, even if they throw bad_alloc.", "quantifier": "all programs over any number of containers and node handles, all answers of the objects at each of their calls", "why_tests_cant": "no test tries every inconsistent hash, equality and predicate at every call of every history", "anchors": ["include/gtl/phmap.hpp:raw_hash_set::merge", "include/gtl/phmap.hpp:raw_hash_set::InsertSlot", "include/gtl/phmap.hpp:raw_hash_set::extract", "include/gtl/phmap.hpp:raw_hash_set::insert(node_type&&)", "include/gtl/phmap.hpp:raw_hash_set::has_element", "include/gtl/phmap.hpp:operator==", "include/gtl/phmap.hpp:priv::erase_if"]}
{"id": "C77", "title": "Parallel hash containers used by one thread stay containers whatever the hash and equality objects answer", "statement": "Take parallel hash containers and node handles used by one thread, with hash objects, equality objects and element operator== that may answer anything, differently at each call. Every call (insert, insert_or_assign, find, erase by key or iterator, clear, rehash, reserve, copy, size, traversal, merge, swap, moving and copying assignment, ==, erase_if, extract, insertion of a node) ends, without undefined behaviour. Its answer and the contents a traversal then shows are what the call means for a bag of elements: an insertion adds exactly one element or none, an erasure removes one, a merge moves elements of the source to the destination and leaves the others in order. Calls that only move elements lose and duplicate none, also when they throw.", "quantifier": "every number of submaps, both kinds of mutex, every sequence of calls on any number of containers and nodes, every sequence of answers of the objects", "why_tests_cant": "Tests use consistent hash and equality objects; the answers range over all functions of the call number, and with them the submap and slot an element ends up in.", "anchors": ["include/gtl/phmap.hpp: parallel_hash_set::emplace_decomposable_with_hash", "include/gtl/phmap.hpp: parallel_hash_map::insert_or_assign_impl", "include/gtl/phmap.hpp: parallel_hash_set::erase_if_impl", "include/gtl/phmap.hpp: parallel_hash_set::merge", "include/gtl/phmap.hpp: parallel_hash_set::iterator::skip_empty", "include/gtl/phmap.hpp: parallel_hash_set::operator=", "include/gtl/phmap.hpp: parallel_hash_set::rehash", "include/gtl/phmap.hpp: parallel_hash_set::insert(node_type&&)"]}
{"id": "C78", "title": "Several B-tree containers stay containers and lose no value whatever the comparators answer", "statement": "Take B-tree sets and multisets (maps and multimaps) and a node handle, with comparators that may answer anything, differently at each call, and throw at any call. merge, swap, copy and move assignment, extract, insertion of a node with and without hint, and the calls of C71 under its condition end without undefined behaviour, and iteration and size() then show what the call means for sequences: a merge into a set moves some values of the source and leaves the others in their order, a merge into a multiset moves all, a node is inserted or stays in the handle. A call that throws keeps what is stated for it. Calls that only move values (merge into sets, merge into multisets that does not throw, swap, extract, insertion of nodes, lookups) lose and double no value.", "quantifier": "every number of containers, of any mixture of kinds, every program of calls from empty containers, every sequence of answers and exceptions of the comparators, all node sizes and search modes", "why_tests_cant": "The answers of the comparator are an arbitrary function of the history of the calls, and with them the split of the values between the containers; tests use orders.", "anchors": ["include/gtl/btree.hpp:btree_set_container::merge", "include/gtl/btree.hpp:btree_multiset_container::merge", "include/gtl/btree.hpp:btree::operator=", "include/gtl/btree.hpp:btree::swap", "include/gtl/btree.hpp:btree::copy_or_move_values_in_order", "include/gtl/btree.hpp:btree_container::extract", "include/gtl/btree.hpp:btree_set_container::insert"]}
{"id": "C79", "title": "Comparisons of vectors and hand-over of their storage", "statement": "Comparing two vectors reads only live elements, changes nothing, also when a comparison of elements throws, and answers what the sequences say: == if they are as long and equal element by element, < in lexicographical order, the others from these two. If < is a strict weak ordering of the elements that == agrees with, exactly one of a < b, a == b, a > b holds, a <= b means a < b or a == b, and < is transitive. erase(v, value) removes exactly the elements equal to value, also if value is an element of v; compactResize resizes and, like shrink_to_fit, leaves no spare capacity unless something throws inside it. Storage taken from a vector with relinquish and given to a vector without storage with attach keeps its address, size, capacity and elements; every block in use has exactly one owner, a vector or the program, so nothing leaks and nothing is freed twice.", "quantifier": "every number of vectors, every program of these calls and those of C37, every choice of operations that throw, every element type and operators == and < of the elements (for the ordering: strict weak orderings)", "why_tests_cant": "Programs, sequences and the operators of the elements are unbounded; a hand-over in one state of the capacity says nothing about the others.", "anchors": ["include/gtl/vector.hpp:vector::operator==", "include/gtl/vector.hpp:vector::operator<", "include/gtl/vector.hpp:vector::operator<=", "include/gtl/vector.hpp:relinquish", "include/gtl/vector.hpp:attach", "include/gtl/vector.hpp:compactResize", "include/gtl/vector.hpp:erase"]}
{"id": "C80", "title": "Callbacks that call parallel containers do not deadlock if their calls go up in some numbering", "statement": "A callback given to modify_if, if_contains, lazy_emplace_l, try_emplace_l, erase_if, with_submap, with_submap_m, for_each or for_each_m runs while a lock of the container is held, and may call containers again. If the containers can be numbered so that every call made in a callback only locks containers with a higher number than those whose callbacks it runs in (or later submaps of the same container), then no thread locks a mutex it holds, some thread can always go on until all calls have returned, and from every state all calls can return. If no call uses std::lock, every schedule ends, and ends with all calls returned.", "quantifier": "every number of containers, submaps and threads, every list of calls with callbacks nested to any depth, every schedule, std::mutex and std::shared_mutex with and without writer preference, every numbering", "why_tests_cant": "Schedules and the nesting of callbacks are unbounded; a deadlock shows only in the schedules in which each thread is already inside a callback.", "anchors": ["include/gtl/phmap.hpp:modify_if", "include/gtl/phmap.hpp:if_contains", "include/gtl/phmap.hpp:erase_if", "include/gtl/phmap.hpp:lazy_emplace_l", "include/gtl/phmap.hpp:try_emplace_l", "include/gtl/phmap.hpp:for_each", "include/gtl/phmap.hpp:for_each_m", "include/gtl/phmap.hpp:with_submap", "include/gtl/phmap.hpp:with_submap_m"]}
{"id": "C81", "title": "Binary search with any middle function and predicates that answer anything or throw", "statement": "binary_search with any type and any middle function whose points shrink the interval ends, whatever the predicate answers: it returns the last point at which the predicate answered false and the last at which it answered true (or the ends of the range), and the middle function has no point between them; or the predicate or the middle function threw and the exception reaches the caller. On an ordered type with a predicate false at the left end and true at the right one, it returns a < b in the range with the predicate false at a and true at b, the place where a monotone predicate switches, evaluates only points strictly inside the range, and assertions change nothing; if the predicate is true at the left end or false at the right one, a build with assertions aborts. For 2^n integers it evaluates at most n points, whatever the predicate answers.", "quantifier": "all types and orders, all middle functions and predicates, with state and exceptions, all ranges (integers: whose width does not overflow), with and without assertions", "why_tests_cant": "Types, user functions and ranges are arbitrary; a predicate with a state may answer differently at every call.", "anchors": ["include/gtl/adv_utils.hpp:binary_search", "include/gtl/adv_utils.hpp:middle"]}
{"id": "C82", "title": "Merging a container with itself changes nothing", "statement": "a.merge(a) of a hash set or map (in a build without assertions), and of a btree_set or btree_map, returns and leaves the container exactly as it was: no element is erased, inserted, moved from or copied, and no memory is requested. (Not so for btree_multiset and btree_multimap, and for hash tables with keys that do not equal themselves.)", "quantifier": "every hash table and every B-tree container without duplicates that any program can build, every lawful hash, equality and order", "why_tests_cant": "The loop walks the container it inserts into; whether an insertion ever happens depends on every history of the container, with its tombstones and node splits.", "anchors": ["include/gtl/phmap.hpp:merge", "include/gtl/btree.hpp:merge"]}
{"id": "C83", "title": "Calls on parallel containers with a key of another type find the equal element", "statement": "With a transparent hash and equality that agree with those of the keys, find, contains, count, erase, erase_if, extract, modify_if and try_emplace of a parallel hash set or map, called with a key q of another type, act on the one element that equals q if there is one (removing or changing that element only) and otherwise report its absence and change nothing, also when q equals no key at all. try_emplace(q, v) does what it does with the key constructed from q.", "quantifier": "every parallel container that a single-threaded program over several containers can build, for every number of submaps, every lawful hash and equality, every q of any type, every callback", "why_tests_cant": "The submap and the place in it are both chosen by the transparent hash; whether the equal element is there depends on every history of the container.", "anchors": ["include/gtl/phmap.hpp:parallel_hash_set::find", "include/gtl/phmap.hpp:parallel_hash_set::erase_if_impl", "include/gtl/phmap.hpp:parallel_hash_set::modify_if_impl", "include/gtl/phmap.hpp:parallel_hash_map::try_emplace_impl_with_hash"]}
{"id": "C84", "title": "equal_range of hash containers is the range of the equal elements", "statement": "The loop for (it = r.first; it != r.second; ++it) over r = equal_range(k) of a hash set or map, single or parallel, visits exactly the elements that equal k, in the order of a traversal (one element or none), and ends; if no element equals k, r.first is end(). The same holds with a key of another type when hash and equality are transparent.", "quantifier": "every hash table and every parallel container that any program can build, for every number of submaps, every lawful hash and equality, every key of any type", "why_tests_cant": "The second iterator is found by skipping the free slots and, in a parallel container, the empty submaps behind the element; where it ends up depends on every history of the container.", "anchors": ["include/gtl/phmap.hpp:raw_hash_set::equal_range", "include/gtl/phmap.hpp:parallel_hash_set::equal_range", "include/gtl/phmap.hpp:parallel_hash_set::iterator"]}
{"id": "C85", "title": "for_each with an execution policy visits every element once, in any interleaving", "statement": "for_each(policy, f) and for_each_m(policy, f) of a parallel container, when no other thread changes it: however the policy interleaves the submaps, f is given every element exactly once, those of one submap in the order of a traversal, and for_each_m leaves the container that the sequential for_each_m leaves.", "quantifier": "every parallel container that a program over several containers can build, for every number of submaps, every interleaving of the tasks, every callback that changes the mapped value it is given", "why_tests_cant": "The number of interleavings grows exponentially with the number of elements, and a test observes only those that its scheduler happens to choose.", "anchors": ["include/gtl/phmap.hpp:parallel_hash_set::for_each", "include/gtl/phmap.hpp:parallel_hash_set::for_each_m"]}
{"id": "C86", "title": "erase(first, last) of hash containers removes exactly the range", "statement": "For two iterators of a hash container, single or parallel, the second reached from the first by incrementing, erase(first, last) removes the elements that a traversal visits from first up to but not including last, and no others. The rest stays in the same order, size() drops by the number of elements removed, and the iterator returned is last, which is still the position of the same element. Iterators stay valid while the elements before them are erased.", "quantifier": "every hash container that a program over one or several containers can build, single or parallel with any number of submaps, every pair of positions a <= b, ranges within and across submaps", "why_tests_cant": "Whether incrementing after an erasure still finds the next element depends on the layout of the control bytes and of the submaps; tests erase a few ranges of small tables.", "anchors": ["include/gtl/phmap.hpp:raw_hash_set::erase", "include/gtl/phmap.hpp:parallel_hash_set::erase"]}
{"id": "C87", "title": "The submaps of a parallel container partition its keys and do not influence each other", "statement": "subidx(hash(k)) is always the number of a submap, below subcnt(). with_submap(i) shows exactly the elements whose key has subidx i, and a lookup there agrees with the container's own; a key of another submap is not found. clear(i) removes exactly the elements whose key has subidx i. Calls with keys of different submaps are independent: any two orders of the same calls that agree within each submap leave the same container and give the same answers, and so does making the calls of each submap on the embedded table through with_submap_m, in any order of the submaps.", "quantifier": "every parallel container that a program can build with up to 4096 submaps, every hash function, every two sequences of insertions, assignments, lookups and erasures with the same calls per submap, every order of the submaps", "why_tests_cant": "Programs that hand each thread its own submaps rely on this for all interleavings of their calls and all hash functions; tests run a few.", "anchors": ["include/gtl/phmap.hpp:parallel_hash_set::subidx", "include/gtl/phmap.hpp:parallel_hash_set::subcnt", "include/gtl/phmap.hpp:parallel_hash_set::with_submap", "include/gtl/phmap.hpp:parallel_hash_set::with_submap_m", "include/gtl/phmap.hpp:parallel_hash_set::clear"]}
{"id": "C88", "title": "erase(position) and extract(position) of hash containers take out one element and disturb no other iterator", "statement": "For an iterator of a hash container, single or parallel, that is not end(): erase(it) and extract(it) remove the element at it and no other; extract gives that element to the node handle, erase returns the iterator of the element that followed (or end()). The rest stays in the same order, size() drops by one, and every iterator to another element taken before the call still gives that element.", "quantifier": "every hash container that a program over one or several containers can build, single or parallel with any number of submaps, every position in it, every other iterator", "why_tests_cant": "The next element may be in another group or another submap, depending on the layout; tests try a few positions and rarely keep other iterators.", "anchors": ["include/gtl/phmap.hpp:raw_hash_set::erase", "include/gtl/phmap.hpp:raw_hash_set::extract", "include/gtl/phmap.hpp:parallel_hash_set::erase", "include/gtl/phmap.hpp:parallel_hash_set::extract"]}
{"id": "C89", "title": "Building parallel containers from ranges and inserting ranges", "statement": "insert(first, last), insert({...}) and the constructors from a range, an initializer list or a bucket count of parallel containers behave like inserting the elements one by one: the first element with a key wins and elements already present win. If std::bad_alloc is thrown during an insertion, exactly the elements before one that was not present have been inserted; a constructor that throws leaves nothing. After construction with a bucket count and no elements every submap has at least that many buckets.", "quantifier": "every parallel container that a program can build, with any number of submaps, all ranges with repeated keys, all bucket counts without overflow, hash functions and memory limits", "why_tests_cant": "Depends on how the keys spread over the submaps, on the history of each submap and on where an allocation fails.", "anchors": ["include/gtl/phmap.hpp:parallel_hash_set::insert", "include/gtl/phmap.hpp:parallel_hash_set::parallel_hash_set"]}
