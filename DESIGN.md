# Formal model of greg7mdp/gtl in Rocq (Coq 8.16.1)

`/repo` is read as text only.  Nothing here runs the C++ code: the tie between the theorems and the
code is the reading recorded in the comments of the model files (every definition cites file:lines).

## Layout

* `rocq/theories/<Area>/Model*.v`   – executable Gallina models, no proofs
* `rocq/theories/<Area>/Proof*.v`   – lemmas
* `rocq/theories/<Area>/Props*.v`   – property theorems only, each closed by `exact lemma`, with
  `Print Assumptions` beneath and `Example`s showing that the hypotheses are met by non-trivial cases.

Areas: Bits (bits.hpp, hash mixing), BitVec (bit_vector.hpp), Swiss (phmap.hpp raw_hash_set,
phmap_dump.hpp), Par (parallel_hash_set, locks, lru_cache, memoize), BTree (btree.hpp),
Vec (vector.hpp), Misc (soa, intrusive, adv_utils, utils, vec_utils).

## Modelling conventions

* Undefined behaviour is a distinct outcome (`UB`/`None`), never a totalised default.
* Unbounded C++ loops carry fuel; running out of fuel is a distinct outcome (`Loop`), and theorems
  exclude it in their conclusion (so termination is part of the claim).
* 64-bit arithmetic is on `N` with explicit `mod 2^64` wherever wrap-around can matter.
* User-supplied functions (hash, equality, comparators, constructors, predicates) are Section variables
  with their documented requirements as explicit hypotheses of the theorems.
* Findings: where the faithful model violates the property a theorem `..._refuted` exhibits a witness, and
  a companion theorem proves the strongest version found that does hold.

## Plan per property

| Prop | Modelled | Proof |
|---|---|---|
| C01 C02 C06 C07 | control bytes, slots, size, growth_left; find/insert/erase/clear/resize/drop_deletes as functions over lists; width 8 or 16 a parameter | representation invariant + refinement to association map, induction on op lists |
| C03 | find/insert as fuelled probe loops | fuel (capacity+1)/width+1 suffices under the invariant |
| C04 | rehash(0) | `_refuted` witness (15 elements, width 16) + theorem under size <= growth limit |
| C05 | growth arithmetic | no-resize theorem for insertion sequences after reserve |
| C08 | SSE2 group as per-byte predicates, portable group as 64-bit SWAR arithmetic | byte-carry induction for all words |
| C09 | probe_seq | triangular numbers are a permutation mod 2^k (induction) |
| C10 C11 C49 | copy/swap/==/merge/extract/erase_if loops over the table model | from the refinement |
| C12 | insertion with a throwing constructor oracle; histories with any number of such insertions (Swiss/Failing) | `_refuted` + what does hold, by an invariant in which size() and growth_left() are only bounded by the elements and tombstones |
| C13 | array of 2^N tables + subidx | refinement to one map |
| C14 C15 C16 | small-step interleaving semantics of threads executing lock/critical-section programs | linearizability by simulation at the unlock; `_refuted` for shared_mutex erase and swap/swap |
| C17 | guard state machine over abstract mutex | invariant over call sequences; `_refuted` for try_to_lock ctors |
| C18 C19 | list+map with iterators as ids | invariant + refinement to recency list; `_refuted` for copies |
| C20 C21 | memoize over map model, threads interleaved | induction on traces |
| C22 | byte-level archive of the table | round-trip; `_refuted` for truncated input |
| C23-C29 | vector of 64-bit words, visit/bit_sequence/update_bit as written | refinement to nat -> bool; `_refuted` for resize(true), find_first on views, view copy overlap |
| C53 | slot arrays of a node, its right sibling and their parent (BTree/Slots) | each function maps arrays that hold given lists to arrays that hold the lists the function should produce |
| C54 C55 | sizes, offsets and addresses as 64-bit words (Mem/Layout) | arithmetic on powers of two, induction on the arrays of the layout and on the search for the number of values |
| C56 | heap of blocks with raw and live slots under the operations of Swiss (Swiss/Life) | simulation of each operation by the table model; every block owned by exactly one table |
| C57 C58 | the same heap, with a constructor or hash function that throws after n calls (Swiss/LifeThrow) | `_refuted` + what does hold |
| C59 | threads running mt_memoize of a function that may throw (Cache/MemoThrow), memoize_lru from one thread | rely/guarantee per submap; linearization plus the invariant of Failing; `_refuted` for size() and memoize_lru |
| C60 C61 | threads calling for_each, for_each_m, clear beside single-key calls (Par/ConcWhole): each submap's turn is one critical section; size() without a lock | linearizability of the parts (ConcProof), order of a thread's parts, frame from submap to map; `_refuted` for a snapshot and for size() |
| C62 | mt_memoize_lru::operator() of functions that ask the cache (Cache/Recurse): the calls inside run between prepare_insert and the construction of the element | `_refuted`, for every hash function and every chain of keys: induction on the room left in the table; `_refuted` for collisions and for the mutex; `_partial`: functions that do not ask |
| C63 | node_hash_map / node_hash_set (Swiss/Node): the table of Swiss with pointers in its slots, over a heap of nodes that are raw, alive or given back; calls on several containers and node handles | one-step lemma from tables to lists of pointers (`p_step`), with the invariant that the pointers of containers, handles and lost nodes are exactly the live nodes, each once; from there to contents and to addresses by cases on the call; induction on programs |
| C64 | the insertion path of Swiss once more, counting the iterations of the loops of resize and drop_deletes_without_resize and the blocks allocated (Swiss/Amortized) | the counting functions forget to the model functions; potential 3*(CapacityToGrowth - 2*growth_left): a rehash leaves it at 0 and costs at most what it was, an insertion adds at most 6, erase and clear never raise it |
| C65 | the branches for allocators other than the default one: an empty control list where the default allocator has the static group, the tests for it, moving between unequal allocators (Swiss/NullCtrl) | every function simulates the default-allocator one through the map from tables of capacity 0 to the null table, so the program theorem of C10, C11 and C49 carries over; loop invariant for the element-wise move: no allocation after reserve |
| C30-C36 C51 C52 | functional B-tree, iterators as paths, split/merge/rebalance as written | balanced+sorted invariant, refinement to sorted list |
| C37-C40 | memory cells (unconstructed / value) + size + capacity | refinement to list, lifetime accounting; `_refuted` for emplace aliasing and reserve overflow |
| C41 | stable index sort + cycle-following reorder | permutation cycles |
| C42 C43 | heap of counters, pointer ops; atomic interleavings | invariant over op lists / schedules |
| C44 C48 C47 | direct functions | induction |
| C45 C46 | word functions on N | bit-level lemmas, inverse functions |
| C66 | insert(first, last) with and without reserve, constructors with bucket counts and ranges (Swiss/Range) | induction over the range on top of the single-insertion theorem; after reserve no growth as long as there are no tombstones; `_refuted` for tombstones and for empty ranges |
| C67 | the searches of nodes and trees with a key of another type (BTree/Hetero), over the tree and node model of C30 | the same descent invariants with two predicates instead of one order; `_refuted` for count, erase and lower_bound of sets |
| C68 | find_impl, _find_key, count, erase(key), try_emplace with a key of another type (Swiss/HFind), over the table model of C01 | if q equals some stored key the search is literally that of the key; otherwise the probe of the invariant ends at an empty slot whatever the hash is |
| C69 | the old format as phmap_load reads it; the object that a throwing load leaves behind (Swiss/PropsOldDump) | round trip of C22 up to growth_left, then the theorem on drop_deletes_without_resize; `_refuted` for small tables and for loads that throw |
| C70 | the searches and insertions with a counter of the comparator calls that are left; the next one throws (BTree/Compare) | each counted call equals the ordinary one after a cost that does not depend on the counter, composed bind by bind; the height bound gives the logarithm; merge loops by induction |
| C71 | the counted searches of BTree/Compare with a comparator that is another function at every call (BTree/AnyFacts) | a Hoare logic for the counted calls: every search stays inside its node and every position inside the tree; the lower bound is not behind the upper bound by a common induction over both descents |
| C72 | the members of soa with a number of throw points that a call passes; programs as trees that depend on results; scratch memory of sort_by_field shared and left as exceptions leave it; any std::stable_sort meeting its contract | refinement to lists of rows with a flag for soas on which a call threw; refuted for insert, throwing moves and copy assignment |
| C73 | the functions of Swiss/Model that call the hash or the equality object, with the n-th call answered by an arbitrary oracle | an invariant that relates control bytes to slots but not to hashes, kept by every call; termination of probing from the empty byte every window sequence reaches; equality with the model of C01 for functions |
| C74 | the model of C01 with an equality that need not be reflexive | the refinement of C01, whose invariant never uses reflexivity; the ideal map is split into the elements with ordinary keys and the others |
| C75 | the vector model with the local vector of the call as a further register | Hoare logic of the vector model; the invariant of C37 after each of the four phases |
| C76 | the functions of Swiss/Multi with the n-th call of the hash, equality or operator== answered by an arbitrary oracle (Swiss/AnyMulti) | the weak invariant of C73 for every container; induction over the traversed slots |
| C77 | parallel containers of one thread with numbered answers of the objects; submaps are the tables of C73 and C76 | weak invariant of every submap; positions of iterators as a front and a back of the traversal |
| C78 | variables of B-tree containers and a handle over BTree/Compare and BTree/AnyFacts (BTree/AnyMulti) | induction over the values of the source of a merge, with the relation of C71 for both containers; the multiset of all values is an invariant |
| C79 | comparisons, erase(value), compactResize, relinquish and attach over the memory of Vec/Model (Vec/Handover) | weakest preconditions over the invariant of C38; relinquish and attach exchange two owners; order by induction on sequences |
| C80 | calls with callbacks as trees, flattened to the locking steps of Par/Deadlock (Par/Nested) | the locks of a thread go up in the rank (number of the container, index of the submap), by induction on the tree; then the deadlock and completion theorems of C16, generalised to std::lock with locks held |
| C81 | binary_search over any type with a program state passed through the middle function and the predicate, exceptions and the assertion (Misc/SearchAny) | induction on the recursion depth with the measure of the interval; the log of evaluations gives the result |
| C82 | the loops of merge with one container in both roles; a successful insertion is undefined behaviour, since the loop goes on with its iterators (Swiss/PropsSelf, BTree/PropsSelf) | induction over the walk: every element is found, and insertion of a present key returns the same container |
| C83 | find, contains, count, erase, erase_if, extract, modify_if and try_emplace of the parallel containers with a key of another type (Par/PropsHSeq) | the routing invariant of C13 puts an element equal to q in the submap that hash(q) chooses; there the lemmas of C68 apply |
| C84 | equal_range of raw_hash_set and parallel_hash_set and a caller's loop over it (Par/PropsEqualRange) | the next iterator lies strictly behind the element, in the same or a later submap; distinct keys make the filtered traversal one element |
| C85 | one task per submap with its own iterator, and a schedule that chooses the task for every call of the callback (Par/PropsPolicy) | invariant for every task: what it has visited and what is left make up the submap; permutation of the log |
| C86 | the loop of erase(first, last) over the iterator models, single and parallel (Par/PropsEraseRange) | invariant: what a traversal visits from first is the range still to be erased followed by what it visits from last; an erasure keeps that of every later iterator |
| C87 | with_submap and with_submap_m over the submaps of Par/Seq, calls made in two orders or submap by submap (Par/PropsSubmap) | a run factors into one run per submap, by induction on the calls; equal factors give equal containers |
| C88 | erase(iterator) and extract(iterator) over the iterator models (Par/PropsAt) | the invariant of C86 for one erasure, and that the erasure changes one slot |
| C89 | the loops of insert(first, last) and the constructors over Par/Seq (Par/PropsRange) | induction on the range with the step lemma of C13; the specification is that of C66 |

## Trusted base

* Coq 8.16.1's kernel (and `coqchk`), including its `vm_compute` reduction, which the `Example`s and `_refuted` witnesses use.
* `Print Assumptions` stands beneath every property theorem.  Unless the section "Axioms" below lists the theorem, it prints
  "Closed under the global context".
* The reading of the C++ recorded in the model files.  Nothing checks that reading mechanically.
* The C++ language and library: `std::vector`, `std::list`, `std::mutex` and friends, allocation and object lifetime behave as
  the standard says.  They appear in the models as lists, abstract mutexes, and so on.

### Axioms

None: every property theorem is closed under the global context.  `coqchk` lists axioms of Coq's ssr library
(and of the libraries std++ loads) only because those files are loaded; no theorem depends on them.

## What is modelled and what is not

| Area | Modelled | Not modelled |
|---|---|---|
| Swiss | `raw_hash_set` control bytes, groups (SSE2 and portable), probing, find/insert/erase/clear/rehash/reserve/resize/drop_deletes, copy, swap, ==, merge, extract, node handles, erase_if, dump/load at byte level | allocators (see NullCtrl), lookups with keys of another type (see HFind), infoz sampling, iterator tags, exceptions other than from element construction and allocation |
| BitVec | `bit_vector` storage, visit, views, every operation on them, text, hash | stream output (it prints the text form), 32-bit `size_t` |
| Vec | vector.hpp over blocks of raw and live cells: construction, copy and move, assign, reserve, shrink_to_fit, resize, push_back, emplace, insert (one, n, forward range), erase, erase_if, access; every constructor, assignment and allocation may throw (an oracle decides). Outcome `Wrong` is undefined behaviour: any access to a cell in the wrong state, a leak or a double free | insertion of input iterators (1528-1541, see Vec/InputInsert), comparisons and relinquish/attach (see Vec/Handover), allocator propagation, `reallocate in place` (jemalloc only), steal_data (does not compile) |
| Bits | bits.hpp count/byte-swap/endian fallbacks, the SWAR popcount and De Bruijn count of bit_vector.hpp, the mixers, Hash specialisations for integers and floating point, the pair/tuple combiner of phmap_utils.hpp, all on N modulo 2^w | compiler intrinsics (assumed to agree with the fallbacks), Hash of strings and user types |
| Misc/Search | `binary_search` of adv_utils.hpp over int and over the bit patterns of doubles | predicates that throw or have side effects, other middle functions (see Misc/SearchAny) |
| Misc/Soa | soa.hpp: columns as lists, sort_by (stable index sort, cycle-following reorder), insert, erase-free operations | allocation failure, thread_local reuse of the scratch buffers by a re-entrant comparator |
| Misc/Intrusive | intrusive_ptr and intrusive_ref_counter, single-threaded: heap of objects with counters and members, constructors, assignments, reset, swap, detach, adoption, casts | comparison and hashing of pointers, user-defined add_ref/release |
| Misc/Refcount | the atomic and the plain counter policy under arbitrary interleaving of threads | weak memory (the code uses sequentially consistent atomics only) |
| Misc/VecUtils | cat, slice, map over lists, iterator arithmetic with UB | element copies that throw |
| Misc/Scope | scoped_set_value, scoped_guard, scoped_set_unset, dismiss, exceptions through nested blocks, change, replace, timestamp | exit actions that throw (std::terminate), copies that throw |
| Par/Seq | parallel_hash_set and parallel_hash_map from one thread: routing by subidx, iteration over submaps, size, clear, rehash, reserve, copy, move, swap, ==, merge, erase_if, node handles | the aux_ member of lru caches (see Lru), `with_submap` (see Par/PropsSubmap) |
| Par/Locks | WriteLock, ReadLock, ReadWriteLock: every constructor, move, swap, lock, unlock, try_lock, lock_shared, unlock_shared, switch_to_unique, destructor; one thread's holdings, outcomes of tries given by the environment | lock_for/try_lock_until, AbslMutex (its try_lock returns void, so try_lock of a guard does not compile) |
| Par/Conc, Par/ConcMap | threads calling insert, insert_or_assign, try_emplace_l / lazy_emplace_l (without auxiliary container), if_contains, modify_if, contains, erase, erase_if on one parallel container; each lock, unlock, probe, construction, control-byte write and assignment is one step, arbitrary interleaving; std::mutex and std::shared_mutex, with and without writer preference | weak memory (a data race would be undefined behaviour; absence of races is proved), iterators returned by find / insert and used after the lock is released, size() and capacity(), which read without locking, move/copy/destruction concurrent with calls |
| Par/Deadlock | the sequences of lock operations of all member functions of parallel containers, std::lock with retries, self-deadlock as undefined behaviour | callbacks that call containers again (Par/Nested) |
| Cache/Lru, Cache/MtLru | lru_cache, mt_lru_cache and mt_memoize_lru: constructor, get, insert, exists, operator(), contains, size, reserve, set_cache_size, copy and move; list nodes are ids owned by a list, so that an iterator of another list is a dangling one; threads calling get/insert/exists/operator()/contains | clear() (does not compile: parallel_hash_set::clear reads inner->aux_, phmap.hpp:3581), throwing f, set_cache_size and size() concurrent with calls (unprotected) |
| Cache/Memo | mt_memoize in both modes, memoize: operator(), contains, reserve, recursive functions given by their recursion through the memoized function; threads | functions with side effects, functions that throw (see MemoThrow), clear() concurrent with calls |
| Cache/MemoThrow | mt_memoize in both modes and memoize of functions that throw, threads; mt_memoize_lru::operator() of functions that throw, one thread | exceptions of copying keys and values; clear() of lru_cache and memoize_lru does not compile (`inner->aux_` on a struct, phmap.hpp:3581) |
| Cache/Recurse | mt_memoize_lru::operator() of functions that call it: one submap with NullMutex (memoize_lru); threads and std::mutex up to the self-lock | with the mutex, hits do not reorder the list and nothing is evicted (neither matters for the self-lock) |
| BTree/Tree, BTree/Search, BTree/Ops, BTree/Api | btree.hpp: node searches (linear, binary, bool, three-way), iterators, begin/end/++/--, lower/upper_bound, equal_range, find, count, insert with and without hint, ranges, growing root, split, rebalance, merge, shrink, erase of positions, ranges and keys, erase_if, clear, copy, merge, extract, ==, <, height, and the map calls operator[], at, try_emplace; as whole clients | allocator propagation, move assignment between unequal allocators (it leaves the source full of moved-from keys), verify(), bytes_used, lookups with keys of another type (see Hetero), btree_set_container(init, alloc) and btree_container::erase(key) (neither compiles), merging a container with itself (see PropsSelf) |
| BTree/Slots | btree.hpp btree_node: emplace_value, remove_value(s), rebalance_right_to_left, rebalance_left_to_right, split, merge, swap of leaves, erase_same_node, growth of a leaf root, over arrays of raw or live slots and child pointers with parent and position fields; arguments that refer to a slot; constructors that throw | throwing moves; swap of internal nodes (no caller); sanitizer poisoning |
| BTree/Throw | btree.hpp insert_unique, insert_multi, internal_emplace, rebalance_or_split with a number of allocations that succeed and a constructor that may throw; what clear and the destructor free | the other callers of internal_emplace (hinted and range insertion, node handles), throwing comparators, throwing moves |
| Mem/Layout | gtl_base.hpp Align, Layout (Offset, AllocSize, Alignment, Pointer), Allocate and Deallocate as a number of units; phmap.hpp MakeLayout; btree.hpp node_count_type, SizeWithNValues, NodeTargetValues, kNodeValues, LeafLayout, InternalLayout, GetField, leaf(), max_count() | layouts with Aligned<T, N> whose N does not divide the size, partial layouts, platforms with other pointer sizes; the table model (Swiss) compares AllocSize with the memory available without the rounding to units |
| Swiss/Failing | histories of the calls of Swiss/History in which the constructor of the inserted element may throw | other throwing calls (hash, comparison, copy: Swiss/LifeThrow) |
| Swiss/Life, Swiss/LifeThrow | the operations of Swiss again on a heap of blocks: initialize_slots, resize, drop_deletes_without_resize, prepare_insert, emplace, assignment, erase, clear, destroy_slots, rehash, copy, merge, extract, erase_if, copy and move assignment, swap, destructors; copy constructor with throwing elements; insertion with a throwing hash | trivially destructible elements (destructors skipped), nodes of node_hash_* as separate allocations, throwing moves during resize |
| Par/ConcWhole | for_each, for_each_m (iterator loop under the lock: begin, dereference, callback, increment), clear, size of a parallel container, called by threads beside the calls of Par/ConcMap | the overloads with an execution policy; callbacks that throw or call the container; for_each callbacks are modelled by what they are given, for_each_m callbacks by a function on mapped values |
| Swiss/Node | phmap.hpp NodeHashSetPolicy, NodeHashMapPolicy, node_hash_policy (new_element, delete_element, element, value, transfer by pointer), raw_hash_set emplace with arguments that do not show the key (2097-2106, InsertSlot<true>), and the calls of Swiss/Multi again over nodes, destructors | the key of a node is kept beside the pointer in the slot (the proofs show they agree); allocation of nodes never fails; space_used not modelled; an address is never reused |
| Swiss/Amortized | phmap.hpp resize, drop_deletes_without_resize, rehash_and_grow_if_necessary, prepare_insert and their callers, with a step counter | the number of probes inside find and find_first_non_full, the control bytes touched when a block is set up or cleared |
| Swiss/NullCtrl | phmap.hpp EmptyGroup, skip_empty_or_deleted, find_impl, _find_key, prepare_insert, destroy_slots for a custom allocator; raw_hash_set(raw_hash_set&&, const allocator_type&) and move_assign with unequal allocators | propagation traits choose between the modelled cases; fancy pointers; copies with another allocator are those of Swiss/Multi |
| Swiss/Range | phmap.hpp insert(first, last) both overloads, insert(initializer_list), raw_hash_set(bucket_cnt, ...), raw_hash_set(first, last, bucket_cnt, ...), the initializer-list constructors | elements that are not decomposable (those of C63); iterators that throw or end late |
| BTree/Hetero | btree.hpp lower_bound, upper_bound, equal_range, find, contains, count, erase templates over a key of another type; node searches linear and binary, bool and three-way | keys of another type in the inserting members (they convert first) |
| Swiss/HFind | phmap.hpp find, contains, count, erase, try_emplace templates over key_arg<K> | the parallel versions (see Par/PropsHSeq) |
| Swiss/PropsOldDump | phmap_dump.hpp phmap_load of files without a version word; its state when initialize_slots throws; destroy_slots of trivially destructible elements | parallel containers in the old format (each submap is such a file) |
| BTree/Compare | btree.hpp every call of the comparator in lookups, insertions (plain, hint, range), erasures by key, extract and merge, with the state that an exception leaves | exceptions from other user code (BTree/Throw) |
| BTree/AnyFacts | btree.hpp all calls with an arbitrary comparator | comparators that change the container (merge is in BTree/AnyMulti) |
| Misc/SoaThrow | soa.hpp 66-121, 141-208: insert, resize, clear, reserve, size, operator[], view, sort_by_field with sort_tmp, implicit copy and move assignment, exceptions | std::vector (push_back, resize, reserve strong, assignment basic guarantee assumed), columns of different types, a comparator that sorts soas of the same type (sort_tmp is shared), print |
| Swiss/AnyHash | phmap.hpp 1817-1830, 2187-2260, 2338-2355, 2413-2424, 2491-2552, 2670-2769, 2838-2881, 3139-3167 with hash and equality objects that answer anything | objects that throw, merge, swap, node handles, heterogeneous lookup; rehash(0) |
| Swiss/PropsNan | the model of Swiss with a partial equivalence | merge and node handles with such keys |
| Vec/InputInsert | vector.hpp insert for input iterators 1526-1541, construction from move iterators 799-803 | the last insert() of the call leaves the local vector's elements unmoved (they are destroyed right after) |
| Swiss/AnyMulti | phmap.hpp merge, swap, copy and move assignment, operator==, has_element, erase_if, extract, insert(node) with arbitrary answers | objects that throw; allocators that differ; self-merge and self-move-assignment are excluded |
| Par/AnyParSpec, Par/AnyPar | phmap.hpp 3190-4706, one thread, hash, equality and element == that may answer anything | locks, auxiliary containers, objects that throw |
| BTree/AnyMulti | btree.hpp merge 3418-3431, 3646-3649, swap 2712-2728, operator= 2470-2516 with equal and unequal allocators, copy_or_move_values_in_order 2300-2321, extract 3233-3242, insert(node) 3371-3393, 3604-3619 with arbitrary comparators that may throw | allocation failure and throwing values in these calls; the comparator objects that assignments copy; merge of a container with itself |
| Vec/Handover, Vec/Quiet | vector.hpp operators == != < > <= >= 1547-1561, compactResize 1588-1592, relinquish 1617-1622, attach 1624-1630, erase(v, value) 1638-1641 | attach of storage on the stack or of another allocator; == that throws inside std::remove; comparison of bytes by memcmp in the standard library |
| Par/Nested | phmap.hpp callbacks of modify_if, if_contains, erase_if, lazy_emplace_l, try_emplace_l, with_submap, with_submap_m, for_each, for_each_m 3855-4035, 4612-4640: the locks held while they run | what callbacks do to values (C15, C17); for_each with an execution policy, whose callbacks run in other threads |
| Misc/SearchAny | adv_utils.hpp binary_search 51-63 with its assertion, any middle function and predicate | functors whose && and & call operators differ (std::forward at each call); assertions inside user code |
| Swiss/PropsSelf, BTree/PropsSelf | phmap.hpp merge 2283-2291 and btree.hpp merge 3418-3426, 3646-3649 with src = *this | the assertion of phmap.hpp:2284 (a build with assertions aborts); what a walk over a changing container does (undefined behaviour) |
| Par/PropsHSeq | phmap.hpp 3882-3934, 4050-4054, 4120-4124, 4164-4232, 4380-4394, 4688-4706 with key_arg<K> | threads; a callback of erase_if that changes the element it then keeps; the iterator returned by find is represented by its element |
| Par/PropsEqualRange | phmap.hpp 2436-2449, 4234-4249, operator== of the iterators 3326-3328 | threads |
| Par/PropsPolicy | phmap.hpp for_each and for_each_m with an execution policy 3996-4010 | the implementation of std::for_each with a policy (any interleaving of the submaps is assumed); callbacks that throw (std::terminate) |
| Par/PropsEraseRange | phmap.hpp erase(first, last) of raw_hash_set 2272-2277 with _erase 2255-2260, of parallel_hash_set 4090-4095 with _erase 4074-4077 | locks in the parallel version (it takes none) |
| Par/PropsSubmap | phmap.hpp with_submap, with_submap_m 4019-4033, clear(submap_index) 3587-3593, subidx and subcnt 4421-4423 | the locks (C16); callbacks that put a key into a submap where it does not belong |
| Par/PropsAt | phmap.hpp erase(iterator) and extract(iterator) of raw_hash_set 2265-2270, 2298-2302 and of parallel_hash_set 4084-4088, 4116-4118 | the element object moving into the node handle (C56) |
| Par/PropsRange | phmap.hpp parallel_hash_set constructors 3402-3411, 3422-3431 and initializer lists, Inner(Params) 3245-3246, insert(first, last) 3652-3663 | the order of destruction when a constructor throws; the aux_ member |

## Findings (each is a `_refuted` theorem)

| Theorem | Where | What happens |
|---|---|---|
| `C04_…_refuted` | phmap.hpp rehash(0) | shrinking picks a capacity whose growth limit is below size() |
| `C05_…_refuted` | phmap.hpp reserve | with tombstones present, n insertions after reserve(n) can still rehash |
| `C12_throwing_constructor_refuted` | phmap.hpp prepare_insert | size() is incremented before the element's constructor runs; if it throws, size() is one too large |
| `C22_truncated_file_refuted`, `C22_missing_file_refuted` | phmap_dump.hpp | load answers true for truncated and missing files |
| `C50_huge_reserve_refuted` | phmap.hpp | the allocation size wraps modulo 2^64 for a huge reserve |
| `C23_contains_narrower_refuted` | bit_vector.hpp contains | a narrower operand is accepted, then read past its end |
| `C24_find_next_refuted`, `C24_find_view_refuted` | bit_vector.hpp find_first | the shift of the first partial word is applied again in the last partial word: wrong index or npos |
| `C25_resize_true_refuted` | bit_vector.hpp resize | growing with true leaves the rest of the old last word false |
| `C26_combine_overlap_refuted` | bit_vector.hpp view `\|=` etc. | overlapping operand of the same vector is read after being overwritten |
| `C27_assign_overlap_refuted` | bit_vector.hpp view assignment | same, for assignment |
| `C27_assign_direction_refuted` | bit_vector.hpp view assignment | disjoint views of one vector, source first: the copy goes from target to source |
| `C27_store_straddle_refuted` | bit_vector.hpp view = integer | a view across a word boundary shifts by a negative amount |
| `C37_shrink_to_fit_refuted` | vector.hpp shrink_to_fit | exceptions of element moves are swallowed: a move-only type with a throwing move is left with moved-from elements, and the call returns normally |
| `C39_emplace_refuted`, `C39_emplace_destroyed_refuted` | vector.hpp emplace | with spare capacity, an argument inside the vector is moved before it is read: a wrong value or a destroyed object is inserted |
| `C40_reserve_refuted` | vector.hpp reserve | n * sizeof(T) wraps: reserve(2^62+1) of ints returns with capacity 1 |
| `C40_constructor_refuted` | vector.hpp vector(n) | same wrap: vector<int>(2^62+1) writes past a block of one element |
| `C44_search_refuted` | adv_utils.hpp binary_search | a range wider than INT_MAX overflows `r - l` |
| `C44_double_negative_refuted`, `C44_double_mixed_refuted` | adv_utils.hpp binary_search for double | searches starting at a negative double never terminate; -1.0..1.0 first probes +inf |
| `C45_apple_bswap_refuted` | bits.hpp, Apple branch | the 64- and 32-bit swaps call OSSwapInt16 |
| `C46_umul_mix_collides` | phmap_utils.hpp phmap_mix<8> with umul128 | the default mixer maps two different words to one |
| `C42_counter_wrap_refuted` | intrusive.hpp | with 2^32 + 1 owners the counter is 1 and the object is deleted under the others |
| `C43_unsafe_counter_refuted` | intrusive.hpp thread_unsafe_counter | (documented) sharing it between threads loses counts |
| `C47_slice_stride_refuted` | vec_utils.hpp slice | the number of elements is rounded down: slice(5 elements, 0, -1, 2) has 2 elements, not 3 |
| `C47_negative_index_refuted` | vec_utils.hpp slice | index -1 is the end, not the last element |
| `C47_negative_stride_refuted` | vec_utils.hpp slice | a negative stride throws length_error or returns nothing |
| `C47_out_of_range_refuted` | vec_utils.hpp slice | indices are not clamped: undefined behaviour |
| `C48_alias_refuted` | utils.hpp scoped_set_value, replace | an argument that is the variable itself is read after being moved from |
| `C13_rehash_small_refuted` | phmap.hpp parallel_hash_set::rehash | rehash(n) with 0 < n < number of submaps runs rehash(0) on each submap: full tables, lookups hang as in C04 |
| `C13_copy_strong_guarantee_refuted` | phmap.hpp parallel_hash_set copy assignment | bad_alloc in a later submap leaves the earlier submaps already overwritten |
| `C17_try_to_lock_refuted` | phmap.hpp WriteLock, ReadLock (try_to_lock constructors) | the result of the try is dropped: a successful try leaves the mutex locked for ever while owns_lock() is false |
| `C15_two_winners_refuted` | phmap.hpp parallel_hash_set::erase_if_impl | with std::shared_mutex the element may disappear between unlock_shared and lock; the code then returns 1 ("if (it == set.end()) return 1"), so two erases of one element both report success |
| `C15_erase_if_two_winners_refuted` | same | erase_if returns true without having called its predicate |
| `C16_swap_deadlock_refuted` | phmap.hpp parallel_hash_set::swap | locks this, then that: a.swap(b) and b.swap(a) in two threads deadlock |
| `C16_self_swap_refuted` | same | a.swap(a) locks each mutex twice |
| `C16_self_comparison_refuted` | phmap.hpp parallel_hash_set operator== | a == a locks each mutex twice (std::lock(m, m), or lock_shared twice) |
| `C16_shared_comparison_deadlock_refuted` | phmap.hpp ReadLocks | the two shared locks are taken one after the other: a == b, b == a and two waiting writers deadlock under writer preference |
| `C18_shrink_refuted` | lru_cache.hpp set_cache_size | lowering the maximum does not shrink a full cache: every insert evicts one entry, size() stays at the old maximum for ever |
| `C18_shared_mutex_race_refuted` | lru_cache.hpp get 63-70 | get() splices the recency list inside if_contains, which holds a shared lock when Mutex is a shared mutex: a data race |
| `C19_copy_refuted` | lru_cache.hpp (defaulted copies) | the map of a copy holds iterators into the list of the original: get and insert of a cached key on the copy are undefined behaviour |
| `C21_retention_refuted` | memoize.hpp mt_memoize_lru | a cache of n results keeps n - 1 (per submap n/2^N - 1): the n-th most recently used argument is recomputed |
| (not a theorem) | lru_cache.hpp:97, memoize.hpp clear | clear() does not compile: parallel_hash_set::clear (phmap.hpp:3581) uses `inner->aux_`, Inner has no such member |
| `btree_multi_hint_nearest_refuted` | btree.hpp insert_hint_multi | insert(hint, v) with a hint before the last value less than v puts v behind all its equivalents, not at the nearest place (std: as close as possible to the hint) |
| `btree_find_first_of_equivalents_refuted` | btree.hpp internal_locate_impl | with a three-way comparator find(k) on a multi container need not give the first equivalent (allowed by std, but lower_bound and find disagree) |
| `C36_insert_own_refuted`, `C36_growing_root_reads_freed_memory` | btree.hpp internal_emplace 2961-2973 | `ms.insert(*it)` on a multi container whose root leaf is full and small (1, 2, 4, ... elements) copies the element after its node has been freed |
| `C36_insert_own_rebalancing_refuted`, `C36_rebalancing_inserts_another_element`, `C36_split_destroys_the_argument` | btree.hpp internal_emplace, rebalance_or_split | `ms.insert(*it)` into a full leaf: after rebalancing with the left sibling another element is inserted and the container is no longer sorted; after a split the argument may be a destroyed slot |
| `C52_throw_in_the_middle_refuted` | btree.hpp btree_node::emplace_value 1955-1967 | a constructor that throws when inserting anywhere but at the end of a leaf leaves a slot below count() without a value: reading that element and destroying the container are undefined |
| `C52_first_insert_leaks_refuted` | btree.hpp insert_unique 2364, insert_multi 2426, clear 2702 | a constructor that throws in the first insertion: the root leaf stays, size() is 0, and neither clear() nor the destructor nor the next insertion frees it |
| `C52_throw_after_split_refuted` | btree.hpp rebalance_or_split, internal_emplace | a constructor that throws after a full leaf was split before its first value leaves an empty first leaf: `*begin()` reads a slot without a value |
| `C52_bad_alloc_leaks_refuted` | btree.hpp rebalance_or_split 2816-2838, try_shrink | std::bad_alloc for the second node of a root split leaves a root without values; once all elements are erased one by one both nodes are leaked |
| `C57_copy_throws_refuted` | phmap.hpp copy constructor | the control byte is set before the element is constructed; if the constructor throws (or the allocation of a node in node_hash_*), the destructor of the unfinished copy destroys an object that does not exist |
| `C58_hash_throws_growing_refuted` | phmap.hpp resize | a hash function that throws while the table grows loses the elements not yet moved: the old block is neither owned nor given back, size() still counts them |
| `C58_hash_throws_in_place_refuted` | phmap.hpp drop_deletes_without_resize | a hash function that throws while the table is rehashed in place leaves elements marked as erased: they cannot be found and are never destroyed |
| `C12_histories_refuted` | phmap.hpp prepare_insert, resize, reset_growth_left | failed insertions that would reuse a tombstone keep raising size() without using up growth_left; once size() exceeds the limit of the new capacity, growth_left() wraps around in the next resize, the table fills up completely and a lookup of an absent key never ends |
| `C12_failures_use_memory_refuted` | phmap.hpp prepare_insert | n insertions that fail make an empty table as large as n insertions that succeed |
| `C59_size_refuted` | memoize.hpp mt_memoize::operator(), phmap.hpp lazy_emplace_l | the memoized function runs after prepare_insert; each exception raises size() by one for ever |
| `C59_memoize_lru_refuted` | memoize.hpp mt_memoize_lru::operator() | evictions leave tombstones, failed calls raise size() on them, growth_left() wraps around, the submap fills up and the next call never returns (holding the lock) |
| `C60_for_each_snapshot_refuted` | phmap.hpp parallel_hash_set::for_each | locks one submap at a time, so the elements visited need not be the contents at any moment |
| `C60_size_race_refuted`, `C60_size_value_refuted` | phmap.hpp parallel_hash_set::size, empty | no lock is taken: data race with every insertion and erasure, and the sum may be a number of elements the container never had (0 though it was never empty) |
| `C62_deep_recursion_refuted` | memoize.hpp mt_memoize_lru::operator(), phmap.hpp lazy_emplace_at | `slots_ + idx` is computed before the memoized function runs; when recursive calls make the table grow, the element is constructed in memory that was given back. Any recursion as deep as the reserved table has room for does it |
| `C62_shallow_recursion_refuted` | phmap.hpp lazy_emplace_l | the slot chosen for the outer call is still marked empty while the inner call runs: colliding keys get the same slot, the inner entry is overwritten and size() counts both |
| `C62_self_lock_refuted` | memoize.hpp mt_memoize_lru with std::mutex | the submap's lock is held while the function runs; a recursive call in the same submap locks it again |
| `C63_args_leak_refuted` | phmap.hpp emplace (2097-2106) with InsertSlot<true> (2571-2588) | emplace with arguments that do not show the key constructs the element first; if growing the table then throws std::bad_alloc, the slot object is never destroyed: a node container leaks the node and its element (a flat one leaks what the element owns) |
| `C63_ctor_throws_refuted` | phmap.hpp new_element (4851-4858, 4889-4896) | no guard between allocation and construction: when the constructor of the element throws, the memory of the node is never given back |
| `C66_all_or_nothing_refuted` | phmap.hpp insert(first, last) 2007-2012 | reserve(size() + n) ignores tombstones: after erasures a range insertion can throw std::bad_alloc in the middle although the reserve succeeded |
| `C66_reservation_lost_refuted` | phmap.hpp insert(first, last) 2007-2012, constructors 1731-1740, 1778-1792 | an empty range makes an empty container call reserve(0), which gives the memory back: `m.reserve(1000); m.insert(v.begin(), v.end());` and `Map m(v.begin(), v.end(), 1000);` with an empty v leave bucket_count() = 0 |
| `C67_count_refuted` | btree.hpp count 3335-3338, count_unique 1652-1659 | btree_set/btree_map::count(q) is at most 1 although equal_range(q) spans several values that a transparent comparator makes equivalent to q (std::set counts all) |
| `C67_erase_refuted` | btree.hpp erase 3394-3397, erase_unique 2676-2685 | btree_set/btree_map::erase(q) removes one of the equivalent values only: contains(q) can stay true |
| `C67_lower_bound_refuted` | btree.hpp binary search 1125-1131 | with a comparator that returns an ordering the binary search in a set stops at the first equivalent value that it meets: lower_bound(q) and equal_range(q) may skip earlier ones |
| `C69_old_small_file_refuted` | phmap_dump.hpp phmap_load 101-103, phmap.hpp 1038 | a file in the older format of a table of 1 to 7 buckets (SSE2) makes drop_deletes_without_resize overwrite memory past the control bytes (assert(!is_small()) in debug builds) |
| `C69_failed_load_refuted` | phmap_dump.hpp phmap_load 86-94 | if the table does not fit in memory (for instance because the header is damaged) std::bad_alloc leaves size_ and capacity_ of the file with the static empty group: size() is wrong and the destructor deallocates static memory |
| `C70_multi_merge_refuted` | btree.hpp merge 3646-3649 | btree_multiset/btree_multimap::merge moves all values and then clears the source: if the comparator throws, the values moved so far are in both containers |
| `C70_multi_merge_order_refuted` | btree.hpp merge 3646-3649 | if moving a key changes it (a string), the source is then not sorted: contains() misses values that it holds |
| `C71_less_equal_refuted` | btree.hpp count_multi 1654-1658, erase_multi 2687-2700 | with <= as the comparator of a multiset the lower bound of a key is behind its upper bound: count and erase walk over the end() of the container (a violated precondition, which nothing detects) |
| `C71_nan_set_refuted` | btree.hpp insert_unique 2361-2385 | a btree_set<double> that holds a NaN takes no other number and says that it contains every number |
| `C71_nan_erase_refuted` | btree.hpp erase_multi 2687-2700 | a btree_multiset<double> that holds a NaN: erase(9) erases 7 too |
| `C71_nan_subscript_refuted` | btree.hpp operator[] 3501-3502 | m[NaN] = x overwrites the value of another key |
| `C72_insert_strong_refuted` | soa.hpp insert_impl 157-159 | if push_back of a column other than the first throws, the columns have different lengths: size() counts a row that cannot be read, and the next insert completes it with its own fields, giving a row that nobody inserted |
| `C72_sort_moves_refuted` | soa.hpp reorder 179-202 | a move that throws loses the value held in ci and leaves the columns in different orders |
| `C72_copy_refuted` | soa.hpp (implicit operator=) | a copy assignment that throws leaves the first columns of the source with the last ones of the target |
| `C74_copy_equal_refuted` | phmap.hpp operator== 2464-2475 | a set or map with a key that does not equal itself is not equal to itself (as for std::unordered_set) |
| `C75_insert_middle_refuted` | vector.hpp 1388-1460, undo_window | insert of one element before the end: if its copy throws, the elements behind the position are destroyed (the basic guarantee only) |
| `C75_keeps_elements_refuted` | vector.hpp 1526-1541 | an exception while a range of input iterators is inserted destroys all elements behind the position |
| `C76_self_equal_refuted` | phmap.hpp 2464-2475 | with a hash that is not a function, `a == a` can be false |
| `C77_erase_count_refuted` | parallel_hash_set::erase(key) | With a shared mutex, erase looks the key up, locks again and looks it up again. If the second lookup fails it answers 1 although nothing was erased. One thread sees this only with an inconsistent equality object |
| `C78_moved_from_refuted` | btree.hpp operator=(btree&&) 2503-2511 | with unequal allocators the values are moved one by one and the source is not cleared: a moved-from btree_set holds equal keys (for instance empty strings), erase(key) answers 1 and contains(key) is still true |
| `C79_nan_refuted` | vector.hpp 1559-1561 | `a <= b` is `!(b < a)`: with a NaN among the elements both `a <= b` and `a >= b` hold though a != b |
| `C79_attach_cleared_refuted` | vector.hpp 1624-1630 | attach to a vector that is empty but has capacity (after clear()) leaks its storage in a release build; only the assertion and the comment exclude it |
| `C80_same_key_refuted` | phmap.hpp 3863-4035 | a callback of modify_if, if_contains, for_each .. that calls its own container with a key of the same submap, even only to read, locks a mutex its thread holds: undefined behaviour |
| `C80_two_keys_refuted` | phmap.hpp 3883-3900 | two threads whose modify_if callbacks look up each other's key in the same container deadlock |
| `C80_two_containers_refuted`, `C80_readers_refuted` | phmap.hpp 3883-3900, 3979-3985 | callbacks that use a second container, in opposite directions, deadlock; read-only ones too if the mutex prefers writers |
| `C81_debug_refuted` | adv_utils.hpp 55 | the assertion evaluates the predicate at both ends in every recursion: a predicate that depends on its number of calls gives another result, or aborts, in builds with assertions |
| `C82_multi_refuted` | btree.hpp 3646-3649 | merging a btree_multiset or btree_multimap with itself inserts while it walks, then clears: undefined behaviour unless it is empty (std::multiset leaves it unchanged) |
| `C82_hash_nan_refuted` | phmap.hpp 2283-2291 | merging a hash set that holds a NaN with itself inserts into the table that is walked |
