{"id": "C01", "title": "vector: every history of operations behaves like a sequence", "statement": "Starting from an empty vector, after any finite sequence of push_back_nothrow, emplace_back_nothrow, insert_nothrow(end), reserve_nothrow, shrink_to_fit_nothrow, resize_nothrow and assign_nothrow calls, under any pattern of allocation and element-construction failures, size() and operator[] report exactly the sequence obtained by applying to a plain list the calls that reported success (and, for resize/assign/insert-range calls that failed, the documented prefix); no call reads, constructs over, destroys or frees memory it must not; capacity() >= size().", "quantifier": "all finite histories of calls whose requested byte counts fit size_t, all element values, all allocation/construction failure schedules, all allocator address choices", "why_tests_cant": "The number of histories and failure schedules is unbounded; tests exercise a handful with no failures injected.", "anchors": ["nestl/implementation/vector.hpp: push_back_nothrow, emplace_back_nothrow, insert_value, insert_range, reserve_nothrow, do_reserve, grow, shrink_to_fit_nothrow, do_resize, assign_nothrow"]}
{"id": "C02", "title": "vector: push_back/emplace_back give the strong guarantee", "statement": "If push_back_nothrow or emplace_back_nothrow reports an error (allocation failed, copying old elements to new storage failed, or constructing the new element failed), the vector holds exactly the elements it held before and no memory or object is leaked; if it reports none, the new element is appended.", "quantifier": "all vectors, all values, all failure schedules", "why_tests_cant": "A failure can strike at any of size()+2 points of a call; every size and every failure point must be covered.", "anchors": ["nestl/implementation/vector.hpp: push_back_nothrow, emplace_back_nothrow, insert_value, grow, do_reserve", "nestl/detail/uninitialised_copy.hpp: uninitialised_copy", "nestl/detail/destroy.hpp: destruction_scoped_guard, deallocation_scoped_guard"]}
{"id": "C03", "title": "vector: insert at a position", "statement": "insert_nothrow(err, pos, x) that reports success turns [a0..ai-1, ai..] into [a0..ai-1, x, ai..] where i is the index of pos and returns an iterator to x; if storage allocation or relocation fails the contents are unchanged and end() is returned.", "quantifier": "all vectors, all positions, all values, all failure schedules in which element copies made while shifting do not fail", "why_tests_cant": "Every size, position and spare-capacity situation must be covered.", "anchors": ["nestl/implementation/vector.hpp: insert_nothrow, insert_value"]}
{"id": "C04", "title": "vector: a failing insert leaves a destructible vector", "statement": "If insert_nothrow in the middle of a vector reports an error, the vector can still be used and destroyed: every slot in [begin,end) holds a live object and no live object is outside it.", "quantifier": "all vectors, positions and failure schedules", "why_tests_cant": "Needs a failure injected in the middle of the shifting loop for every size/position.", "anchors": ["nestl/implementation/vector.hpp: insert_value (lines 699-739)"]}
{"id": "C05", "title": "vector: inserting an element that lives in the same vector", "statement": "push_back_nothrow(err, v[i]), insert_nothrow(err, pos, v[i]) and resize_nothrow(err, n, v[i]) insert a copy of the value v[i] had before the call.", "quantifier": "all vectors, all i, all positions, with and without spare capacity", "why_tests_cant": "Whether the reference dangles depends on the capacity and on the relative order of i and pos; tests never pass self references.", "anchors": ["nestl/implementation/vector.hpp: push_back_nothrow, insert_value, do_resize, assign_nothrow"]}
{"id": "C06", "title": "vector: reserve", "statement": "reserve_nothrow(n) that reports success leaves the contents unchanged and capacity() >= n; with n <= capacity() it does nothing at all; when it reports an error contents and capacity are unchanged and nothing is leaked. The storage obtained really has room for capacity() elements.", "quantifier": "all vectors, all n in the range of size_t, all element sizes, all failure schedules", "why_tests_cant": "Includes the size_t boundary, where n*sizeof(T) wraps; cannot be enumerated.", "anchors": ["nestl/implementation/vector.hpp: reserve_nothrow, do_reserve, max_size", "nestl/allocator.hpp: allocator::allocate"]}
{"id": "C07", "title": "vector: growth is geometric", "statement": "Appending n elements one by one to an empty vector allocates at most O(log n) times: after k allocations the capacity is at least 2*(3/2)^k - 2.", "quantifier": "all n, all values; platforms whose largest allocation is below 2^64/3 bytes", "why_tests_cant": "An asymptotic statement about unbounded n.", "anchors": ["nestl/implementation/vector.hpp: grow, insert_value"]}
{"id": "C08", "title": "vector: resize", "statement": "resize_nothrow(n, x) that succeeds truncates to the first n elements or appends copies of x up to n; shrinking never fails; when it reports an error the vector holds the old contents followed by k < n - size() copies of x, remains valid, and nothing is leaked.", "quantifier": "all vectors, n with n*sizeof(T) representable in size_t, x, failure schedules", "why_tests_cant": "All sizes and all failure points.", "anchors": ["nestl/implementation/vector.hpp: resize_nothrow, do_resize"]}
{"id": "C09", "title": "vector: reserve() prevents later reallocation", "statement": "After reserve_nothrow(n), operations that keep size() <= n (push_back_nothrow, insert_nothrow, resize_nothrow) do not allocate, so cannot fail with bad_alloc and do not move elements.", "quantifier": "all vectors and all n", "why_tests_cant": "Needs every combination of size, capacity and operation.", "anchors": ["nestl/implementation/vector.hpp: insert_value, do_resize, grow"]}
{"id": "C10", "title": "vector: assign and copy", "statement": "assign_nothrow(n, x), assign_nothrow(first,last) and copy_nothrow(other) that succeed replace the contents by n copies of x / the range / a copy of other, and leave other unchanged; when they report an error the vector holds a prefix of the requested contents and nothing is leaked. They are correct even if x or the range refers to elements of the destination, and v.copy_nothrow(err, v) leaves v's contents unchanged.", "quantifier": "all vectors, ranges, n with n*sizeof(T) representable in size_t, x, failure schedules, including aliasing", "why_tests_cant": "All sizes and failure points; aliasing safety depends on the order of swap and destruction.", "anchors": ["nestl/implementation/vector.hpp: assign_nothrow, assign_iterator, copy_nothrow, swap"]}
{"id": "C11", "title": "vector (exceptions enabled): copy construction and copy assignment", "statement": "In the exception-enabled flavour, copy construction either yields an equal vector or throws and leaks nothing; copy assignment either makes the destination equal to the source or throws and leaves the destination unchanged; push_back either appends or throws and leaves the vector unchanged.", "quantifier": "all vectors, all failure schedules", "why_tests_cant": "All failure points.", "anchors": ["nestl/has_exceptions/vector.hpp: vector(const vector&), operator=(const vector&), push_back"]}
{"id": "C12", "title": "vector: move construction, move assignment and swap transfer ownership", "statement": "Move construction leaves the source empty and the new vector with exactly the source's elements at the same addresses, allocating nothing and copying nothing; swap exchanges contents; move assignment destroys the destination's old elements exactly once and leaves the source empty; self-move leaves a valid vector.", "quantifier": "all pairs of vectors", "why_tests_cant": "All sizes; exactly-once destruction is not observable by sampling.", "anchors": ["nestl/implementation/vector.hpp: vector(vector&&), operator=(vector&&), move_assign, swap, swap_data"]}
{"id": "C13", "title": "vector: no leak, no double free", "statement": "After any history of operations followed by destruction, every block obtained from the allocator has been returned exactly once and every constructed element destroyed exactly once, whatever failures occurred (mid-vector insert with failing element copies excepted).", "quantifier": "all histories and failure schedules", "why_tests_cant": "Universally quantified over histories and failure points.", "anchors": ["nestl/implementation/vector.hpp: ~vector, do_reserve, assign_nothrow, do_resize", "nestl/detail/destroy.hpp: destroy, deallocation_scoped_guard"]}
{"id": "C14", "title": "vector: elements do not move while capacity suffices", "statement": "push_back_nothrow with size() < capacity() neither allocates nor moves: data() and all element addresses are unchanged.", "quantifier": "all vectors with spare capacity", "why_tests_cant": "All sizes/capacities.", "anchors": ["nestl/implementation/vector.hpp: insert_value"]}
{"id": "C15", "title": "vector: equality", "statement": "operator== on vectors is true exactly when both have the same length and pairwise equal elements, and it is therefore an equivalence whenever element equality is; it modifies nothing.", "quantifier": "all pairs of vectors", "why_tests_cant": "All lengths and contents.", "anchors": ["nestl/implementation/vector.hpp: operator==, operator!=", "nestl/algorithm.hpp: equal"]}
{"id": "C16", "title": "err must be clear on entry", "statement": "A _nothrow operation leaks nothing; in particular calling it with an error object that already reports an error from an earlier call leaks nothing.", "quantifier": "all containers, all entry values of the error object", "why_tests_cant": "Tests always pass a fresh error object.", "anchors": ["nestl/implementation/vector.hpp: do_reserve", "nestl/implementation/list.hpp: create_node", "nestl/implementation/detail/red_black_tree.hpp: m_create_node", "nestl/implementation/shared_ptr.hpp: make_shared_a_nothrow"]}
{"id": "C17", "title": "list: every history of operations behaves like a sequence", "statement": "Starting from empty, after any finite sequence of push_back_nothrow, push_front_nothrow, insert_nothrow, erase, pop_back, pop_front, clear, assign_nothrow calls under any failure schedule, iterating the list yields exactly the sequence obtained by applying the successful calls to a plain list.", "quantifier": "all finite histories, values, positions and failure schedules", "why_tests_cant": "Unbounded histories and failure points.", "anchors": ["nestl/implementation/list.hpp: push_back_nothrow, push_front_nothrow, emplace_nothrow, erase, pop_back, pop_front, clear, assign_nothrow, list_node_base::inject, list_node_base::remove"]}
{"id": "C18", "title": "list: failing insertion has the strong guarantee", "statement": "If insert_nothrow/emplace_nothrow/push_* reports an error (node allocation or element construction), the list is unchanged, the returned iterator is end(), and nothing is leaked.", "quantifier": "all lists, positions, values, failure schedules", "why_tests_cant": "All failure points and sizes.", "anchors": ["nestl/implementation/list.hpp: emplace_nothrow, create_node"]}
{"id": "C19", "title": "list: iterators and references stay valid", "statement": "Insertion, splice, merge, sort and swap never move or copy existing elements: an iterator to an element keeps designating the same element with the same value; erase invalidates only iterators to the erased element.", "quantifier": "all lists, all operations, all element addresses", "why_tests_cant": "Address stability must hold for every element of every list.", "anchors": ["nestl/implementation/list.hpp: inject, remove, transfer, splice, merge, sort, swap_data, erase"]}
{"id": "C20", "title": "list: insert of a range", "statement": "insert_nothrow(err, pos, first, last) inserts the elements of [first,last) before pos in order.", "quantifier": "all lists, positions, ranges (also of other lists and of the list itself)", "why_tests_cant": "Order must be right for every length of the range.", "anchors": ["nestl/implementation/list.hpp: insert_nothrow (lines 937-949)"]}
{"id": "C21", "title": "list: insert of n copies", "statement": "insert_nothrow(err, pos, n, x) that succeeds inserts exactly n copies of x before pos; on error some k < n copies are in place and the list is valid.", "quantifier": "all lists, positions, n, failure schedules", "why_tests_cant": "Unbounded n and failure points.", "anchors": ["nestl/implementation/list.hpp: insert_nothrow (lines 920-932)"]}
{"id": "C22", "title": "list: splice", "statement": "splice(pos, other), splice(pos, other, it) and splice(pos, other, first, last) move the designated elements before pos, preserving order, removing them from other, without allocating, copying or failing; within one list, pos may be any position outside the moved range, including it/next(it) and last.", "quantifier": "all pairs of lists, all positions and ranges, same-list and two-list cases", "why_tests_cant": "All combinations of position and range including adjacent ones.", "anchors": ["nestl/implementation/list.hpp: splice, transfer, list_node_base::transfer"]}
{"id": "C23", "title": "list: merge", "statement": "If both lists are sorted w.r.t. comp, merge leaves *this with the sorted, stable merge (equal elements of *this first) of both and other empty, without allocating or copying.", "quantifier": "all pairs of sorted lists, all strict weak orders", "why_tests_cant": "Unbounded lists and arbitrary comparators.", "anchors": ["nestl/implementation/list.hpp: merge"]}
{"id": "C24", "title": "list: sort", "statement": "sort(comp) leaves a list that is sorted, is a permutation of the original elements (the same nodes), and keeps the relative order of equivalent elements; it allocates nothing and terminates.", "quantifier": "all lists of fewer than 2^64 elements, all strict weak orders", "why_tests_cant": "Unbounded sizes; the 64-bin bottom-up merge must be right for every length.", "anchors": ["nestl/implementation/list.hpp: sort, merge, splice, swap"]}
{"id": "C25", "title": "list: forward and backward traversal agree", "statement": "After any history of operations the sequence seen from rbegin to rend is the reverse of the one seen from begin to end, and size() is its length.", "quantifier": "all histories", "why_tests_cant": "Doubly-linked consistency must hold in every reachable state.", "anchors": ["nestl/implementation/list.hpp: list_iterator::operator++, operator--, rbegin, rend, size"]}
{"id": "C26", "title": "list: assign and copy", "statement": "assign_nothrow(n,x), assign_nothrow(first,last) and copy_nothrow(other) that succeed replace the contents by the requested ones, leaving other unchanged; on error the list holds a prefix of the requested contents; nothing is leaked. l.copy_nothrow(err, l) leaves l unchanged.", "quantifier": "all lists, ranges, failure schedules, including self copy", "why_tests_cant": "All sizes, failure points and aliasing.", "anchors": ["nestl/implementation/list.hpp: assign_nothrow, copy_nothrow, swap"]}
{"id": "C27", "title": "list: move, swap, destruction and absence of leaks", "statement": "swap exchanges the contents of two lists; move construction leaves the source empty; clear and destruction return every node exactly once and destroy every element exactly once.", "quantifier": "all lists (including empty ones on either side)", "why_tests_cant": "list_node_base::swap has four emptiness cases; exactly-once destruction is not observable by sampling.", "anchors": ["nestl/implementation/list.hpp: swap, swap_data, list_node_base::swap, list(list&&), ~list, clear, destroy_list_content"]}
{"id": "C28", "title": "list: nodes are returned to the allocator that produced them", "statement": "With stateful allocators, every node is deallocated by an allocator equal to the one that allocated it, for all operations (assign, swap, splice, merge).", "quantifier": "all histories with stateful allocators", "why_tests_cant": "No test uses list with a stateful allocator across swap/assign.", "anchors": ["nestl/implementation/list.hpp: swap, assign_nothrow, swap_data"]}
{"id": "C29", "title": "list (exceptions enabled): copy construction and copy assignment", "statement": "Copy construction yields an equal list or throws and leaks nothing; copy assignment makes the destination equal to the source or throws and leaves it unchanged; self-assignment is harmless; push_back appends or throws and leaves the list unchanged.", "quantifier": "all lists, failure schedules", "why_tests_cant": "All failure points.", "anchors": ["nestl/has_exceptions/list.hpp: list(const list&), operator=(const list&), push_back"]}
{"id": "C30", "title": "set: every history of operations behaves like a finite set", "statement": "Starting from empty, after any finite sequence of insert_nothrow, erase(key), erase(iterator), clear and find calls under any failure schedule, find succeeds exactly on the keys inserted and not since erased, size() is their number, insert_nothrow reports whether the key was new and an iterator to it, and erase(key) reports 0 or 1 accordingly.", "quantifier": "all finite histories, all strict weak orders, all failure schedules", "why_tests_cant": "Unbounded histories; rebalancing has many rarely-hit cases.", "anchors": ["nestl/implementation/set.hpp: insert_nothrow, erase, find, clear, size", "nestl/implementation/detail/red_black_tree.hpp: m_insert_unique, rb_tree_insert_and_rebalance, rb_tree_rebalance_for_erase, find, erase"]}
{"id": "C31", "title": "set: iteration is strictly ascending and complete", "statement": "In every reachable state begin()..end() enumerates every element exactly once in strictly ascending comparator order, begin() is the minimum, and decrementing from end() enumerates them in reverse.", "quantifier": "all reachable states, all strict weak orders", "why_tests_cant": "Tree-walking through parent pointers must be right for every tree shape.", "anchors": ["nestl/implementation/detail/red_black_tree.hpp: rb_tree_increment, rb_tree_decrement, begin, end, m_leftmost, m_rightmost"]}
{"id": "C32", "title": "set: the tree stays balanced", "statement": "In every reachable state a tree of n elements has height at most 2*log2(n+1); a red node has no red child and all root-to-leaf paths have equally many black nodes.", "quantifier": "all histories of insertions and erasures", "why_tests_cant": "Balance violations only show as slow-downs.", "anchors": ["nestl/implementation/detail/red_black_tree.hpp: rb_tree_insert_and_rebalance, rb_tree_rebalance_for_erase"]}
{"id": "C33", "title": "set: lookups are logarithmic", "statement": "find, lower_bound and the search phase of insert perform at most 2*log2(n+1)+1 loop iterations on a set of n elements.", "quantifier": "all reachable sets and keys", "why_tests_cant": "Worst case over all histories.", "anchors": ["nestl/implementation/detail/red_black_tree.hpp: m_lower_bound, m_upper_bound, m_get_insert_unique_pos, find"]}
{"id": "C34", "title": "set: failing insert leaves the set unchanged", "statement": "If insert_nothrow reports an error the set is unchanged, nothing is leaked, and the returned pair does not claim that an element was inserted.", "quantifier": "all sets, keys, failure schedules", "why_tests_cant": "All failure points.", "anchors": ["nestl/implementation/detail/red_black_tree.hpp: m_insert_unique, m_insert_, m_create_node"]}
{"id": "C35", "title": "set: erase(iterator) removes exactly that element and returns its successor", "statement": "erase(pos) removes the designated element and no other and returns an iterator to the next larger element (or end()).", "quantifier": "all reachable sets, all valid iterators", "why_tests_cant": "Every tree shape and node position, including the two-children relinking case.", "anchors": ["nestl/implementation/detail/red_black_tree.hpp: erase, m_erase_aux, rb_tree_rebalance_for_erase"]}
{"id": "C36", "title": "set: iterators and references stay valid", "statement": "Insert and erase never move or copy other elements: iterators to them keep designating the same element.", "quantifier": "all reachable sets, operations and elements", "why_tests_cant": "Must hold for every node under every rebalancing case.", "anchors": ["nestl/implementation/detail/red_black_tree.hpp: rb_tree_insert_and_rebalance, rb_tree_rebalance_for_erase"]}
{"id": "C37", "title": "set: bounds queries", "statement": "lower_bound(k) is the first element not less than k, upper_bound(k) the first element greater than k, equal_range(k) the pair of both and count(k) the number of elements equivalent to k.", "quantifier": "all reachable sets, keys and comparators", "why_tests_cant": "All tree shapes and key positions.", "anchors": ["nestl/implementation/detail/red_black_tree.hpp: m_lower_bound, m_upper_bound, equal_range, count"]}
{"id": "C38", "title": "set: copy", "statement": "copy_nothrow(other) that succeeds leaves *this with the same elements as other in nodes of its own, and other unchanged; on error *this is empty, valid, and nothing is leaked; self copy changes nothing.", "quantifier": "all sets, failure schedules", "why_tests_cant": "The recursive copy can fail at any node.", "anchors": ["nestl/implementation/detail/red_black_tree.hpp: copy_nothrow, m_copy, m_clone_node, m_erase"]}
{"id": "C39", "title": "set: move construction, clear and destruction", "statement": "Move construction transfers all elements without allocation and leaves the source empty and usable; clear and destruction return every node and destroy every element exactly once.", "quantifier": "all sets", "why_tests_cant": "Header relinking must be right for every tree; exactly-once destruction is not observable by sampling.", "anchors": ["nestl/implementation/detail/red_black_tree.hpp: rb_tree(rb_tree&&), move_data, clear, m_erase, ~rb_tree"]}
{"id": "C40", "title": "tree: hinted insertion equals plain insertion", "statement": "For every hint iterator, hinted unique insertion has the same effect on the element set and returns the same element as unhinted insertion.", "quantifier": "all reachable trees, all hints (valid iterators), all keys", "why_tests_cant": "Every relation between hint and key, every shape.", "anchors": ["nestl/implementation/detail/red_black_tree.hpp: m_get_insert_hint_unique_pos, m_insert_unique_at, m_emplace_hint_unique"]}
{"id": "C41", "title": "shared_ptr: use_count equals the number of owners", "statement": "In every history of creating, copying, moving, assigning, swapping, resetting and destroying shared_ptr handles, use_count() of a handle equals the number of live handles that own the same object.", "quantifier": "all finite histories over any number of handles and objects", "why_tests_cant": "Unbounded histories with aliasing between handles.", "anchors": ["nestl/implementation/shared_ptr.hpp: shared_ptr constructors, operator=, reset, swap, use_count, shared_count_base"]}
{"id": "C42", "title": "shared_ptr: the object is destroyed exactly once, with its last owner", "statement": "A managed object is alive as long as some shared_ptr owns it, get() of an owner points to a live object, and it is destroyed exactly once, when the last owner goes away.", "quantifier": "all finite histories of handle operations other than lock() on an expired weak_ptr", "why_tests_cant": "Exactly-once destruction over all histories.", "anchors": ["nestl/implementation/shared_ptr.hpp: shared_count_base::release, destroy_value"]}
{"id": "C43", "title": "shared_ptr/weak_ptr: the control block is freed exactly once, after its last handle", "statement": "The control block stays allocated while any shared_ptr or weak_ptr refers to it, and is freed exactly once when the last one goes; nothing is leaked when all handles are gone.", "quantifier": "all finite histories of shared_ptr and weak_ptr operations (with lock() only on non-expired pointers and without weak move-assignment)", "why_tests_cant": "All interleavings of strong and weak handle lifetimes.", "anchors": ["nestl/implementation/shared_ptr.hpp: release, weak_release, destroy_self, weak_ptr"]}
{"id": "C44", "title": "weak_ptr: lock() on an expired pointer", "statement": "lock() returns an owning shared_ptr to the live object if one still has an owner, and an empty shared_ptr otherwise.", "quantifier": "all histories", "why_tests_cant": "Depends on the lifetime state of the object.", "anchors": ["nestl/implementation/shared_ptr.hpp: weak_ptr::lock, expired"]}
{"id": "C45", "title": "weak_ptr: assignment keeps exactly one weak reference per handle", "statement": "Copy- and move-assignment of weak_ptr release the old target once, make the destination refer to the source's target, and leave every later destruction safe, including self-assignment.", "quantifier": "all handles and histories", "why_tests_cant": "Reference-count errors show up only at a later destruction.", "anchors": ["nestl/implementation/shared_ptr.hpp: weak_ptr::operator="]}
{"id": "C46", "title": "make_shared: success and failure", "statement": "make_shared_nothrow that succeeds returns a unique owner (use_count 1) of a newly constructed object; when allocation or construction fails it reports the error, returns an empty pointer and leaks nothing.", "quantifier": "all failure schedules", "why_tests_cant": "All failure points.", "anchors": ["nestl/implementation/shared_ptr.hpp: make_shared_a_nothrow, type_stored_by_value::initialize"]}
{"id": "C47", "title": "shared_ptr: objects owning other objects", "statement": "Destroying the last owner of an object that itself holds shared_ptrs/weak_ptrs destroys the whole unreachable structure, each object once and each control block once.", "quantifier": "all ownership graphs without ownership cycles, of any depth", "why_tests_cant": "Unbounded recursive structures (chains, trees with weak back pointers).", "anchors": ["nestl/implementation/shared_ptr.hpp: release, weak_release"]}
{"id": "C48", "title": "shared_ptr: assignment from a handle stored inside the currently owned object", "statement": "p = p->next and p = std::move(p->next) are safe and make p own the next object, destroying the old one once.", "quantifier": "all ownership graphs", "why_tests_cant": "Depends on the order of release and read in assignment.", "anchors": ["nestl/implementation/shared_ptr.hpp: operator=(const shared_ptr&), operator=(shared_ptr<Y>&&)"]}
{"id": "C49", "title": "algorithm: copy and copy_if", "statement": "copy (copy_if) assigns the (selected) source elements in order to consecutive destination positions; when an element assignment fails it stops there, reports the error, and exactly the elements before the failing one have been assigned; positions past the end are untouched.", "quantifier": "all ranges, predicates, failure schedules", "why_tests_cant": "All lengths and failure points.", "anchors": ["nestl/algorithm.hpp: copy, copy_if"]}
{"id": "C50", "title": "algorithm: equal and lexicographical_compare", "statement": "equal decides pointwise equality of the ranges; lexicographical_compare decides the lexicographic order induced by the comparator, which is a strict weak order whenever the comparator is.", "quantifier": "all ranges and comparators", "why_tests_cant": "All lengths.", "anchors": ["nestl/algorithm.hpp: equal, lexicographical_compare"]}
{"id": "C51", "title": "two-phase construction leaves no half-built object", "statement": "Constructing an element (directly or by default construction followed by two-phase initialisation) either reports success and leaves one live object with the requested value, or reports an error and leaves the storage raw.", "quantifier": "all element kinds and failure schedules", "why_tests_cant": "All failure points.", "anchors": ["nestl/class_operations.hpp: construct", "nestl/detail/destroy.hpp: destruction_scoped_guard"]}
{"id": "C52", "title": "uninitialised_copy is all-or-nothing", "statement": "Copying a range into raw storage either constructs all elements or reports an error and leaves the target storage entirely raw; the source is unchanged.", "quantifier": "all ranges and failure schedules", "why_tests_cant": "All lengths and failure points.", "anchors": ["nestl/detail/uninitialised_copy.hpp: uninitialised_copy", "nestl/detail/destroy.hpp: destruction_scoped_guard"]}
{"id": "C53", "title": "allocator: a successful allocation has room for n objects", "statement": "allocate(err, n) that reports success returns storage for n objects; otherwise it reports bad_alloc and returns null.", "quantifier": "all n in the range of size_t and all object sizes", "why_tests_cant": "The whole 64-bit range including wrap-around of n*sizeof(T).", "anchors": ["nestl/allocator.hpp: allocator::allocate"]}
{"id": "C54", "title": "vector: shrink_to_fit", "statement": "shrink_to_fit_nothrow that succeeds leaves the contents unchanged and capacity() == size(); when it reports an error the vector is unchanged and nothing is leaked.", "quantifier": "all vectors and failure schedules", "why_tests_cant": "Every size, capacity and failure point.", "anchors": ["nestl/implementation/vector.hpp: shrink_to_fit_nothrow, do_reserve"]}
{"id": "C55", "title": "list: equality", "statement": "a == b is true exactly when both lists have the same length and equal elements at every position; comparing changes neither; a == a holds when element equality is reflexive.", "quantifier": "all pairs of lists and element equalities", "why_tests_cant": "All lengths and contents.", "anchors": ["nestl/implementation/list.hpp: operator=="]}
{"id": "C56", "title": "make_shared_a: the allocator argument is used", "statement": "make_shared_a(err, alloc, ...) takes the storage of object and control block from the given allocator and returns it there.", "quantifier": "all allocators", "why_tests_cant": "All allocator values; observable only with stateful allocators.", "anchors": ["nestl/implementation/shared_ptr.hpp: make_shared_a_nothrow"]}
{"id": "C57", "title": "shared_ptr/weak_ptr: value semantics of the operations", "statement": "A copy refers to what its source refers to; a move takes the target over and empties the source; swap exchanges; reset empties; assignment makes the destination refer to the source's target. Every other handle, and every object still owned, stays as it was.", "quantifier": "all states of any number of handles and objects, all pairs of handles including the same one twice and members of owned objects", "why_tests_cant": "All aliasing patterns and ownership graphs.", "anchors": ["nestl/implementation/shared_ptr.hpp: shared_ptr, weak_ptr: constructors, operator=, swap, reset"]}
{"id": "C58", "title": "list, set, shared_ptr, algorithms: errors are exact", "statement": "Called with a clear error object, an operation reports an error exactly when one of the allocations, element constructions or element assignments it performed failed: no failure is swallowed and none is invented. The throwing flavour throws in exactly these cases. Operations of smart pointers other than make_shared never touch an error object.", "quantifier": "all operations, states, arguments and failure schedules", "why_tests_cant": "Every failure point of every operation in every state, and the absence of errors on every other path.", "anchors": ["nestl/implementation/list.hpp: all *_nothrow operations", "nestl/implementation/set.hpp: all *_nothrow operations", "nestl/implementation/shared_ptr.hpp: make_shared_a_nothrow", "nestl/algorithm.hpp: copy, copy_if", "nestl/has_exceptions/list.hpp: list, operator=, push_back"]}
{"id": "C59", "title": "vector: errors are exact up to size limits", "statement": "Called with a clear error object, a vector operation that performs a failing allocation, construction or assignment reports an error, and one that performs none reports no error other than length_error or bad_alloc for a request beyond the size limits. The throwing flavour throws in exactly these cases.", "quantifier": "all operations, states, arguments and failure schedules", "why_tests_cant": "Every failure point of every operation in every state, and the absence of errors on every other path.", "anchors": ["nestl/implementation/vector.hpp: all *_nothrow operations", "nestl/has_exceptions/vector.hpp: vector, operator=, push_back"]}
{"id": "C60", "title": "list: erase removes exactly what was designated", "statement": "erase(it) removes and destroys the element it designates and no other, returns the position of the element after it, and releases its node; erase(first, last) removes exactly the elements of the range and returns last; pop_front and pop_back remove the first and last element. None of them allocates, copies an element or can fail, and all other elements keep their nodes.", "quantifier": "all lists, positions and ranges", "why_tests_cant": "Every position and range in lists of every length.", "anchors": ["nestl/implementation/list.hpp: erase, pop_front, pop_back"]}
{"id": "C61", "title": "list: move assignment hands over the elements", "statement": "a = std::move(b) destroys a's old elements, leaves a holding b's elements (the same nodes, in order) and b empty, allocates nothing, copies nothing and cannot fail; moving a list onto itself leaves it empty but valid.", "quantifier": "all pairs of lists, including the same list twice", "why_tests_cant": "All lengths and the self-move alias.", "anchors": ["nestl/implementation/list.hpp: operator=(list&&), list(list&&), swap"]}
{"id": "C62", "title": "vector: elements are contiguous and access is checked", "statement": "data(), begin() + i and &v[i] designate the same place and the i-th element is there; end() is begin() + size(); in builds with assertions v[i] with i >= size(), front(), back(), data() of an empty vector, and insertion at a position behind end() fail an assertion instead of touching memory.", "quantifier": "all vectors and indices", "why_tests_cant": "All sizes, capacities and indices, including those between size() and capacity().", "anchors": ["nestl/implementation/vector.hpp: operator[], front, back, data, begin, end"]}
{"id": "C63", "title": "vector: get_allocator", "statement": "get_allocator() returns the allocator given at construction after any sequence of operations on the vector; swap exchanges the allocators.", "quantifier": "all histories and allocators", "why_tests_cant": "All histories under all failure schedules; observable only with stateful allocators.", "anchors": ["nestl/implementation/vector.hpp: get_allocator, assign_nothrow, copy_nothrow, swap, operator="]}
{"id": "C64", "title": "tree: insertion that keeps equal values", "statement": "On a tree that keeps equal values, emplacing (or inserting) a value adds exactly one new node, which is returned, behind all equal elements; inserting in front goes before all of them; inserting with a hint goes to a place as close to the hint as the order permits. Every other element keeps its node and its place. Values emplaced one after another stay, among equals, in the order of their insertion. If the allocation or the construction fails, the error is reported, end() is returned and the tree is unchanged.", "quantifier": "all trees, values (also references to elements), strict weak orders, hints and failure schedules", "why_tests_cant": "All tree shapes, all runs of equal elements and all hints, in combination with failures.", "anchors": ["nestl/implementation/detail/red_black_tree.hpp: m_emplace_equal, m_emplace_hint_equal, m_insert_equal, m_insert_equal_lower, m_insert_equal_, m_get_insert_equal_pos, m_get_insert_hint_equal_pos"]}
{"id": "C65", "title": "tree with equal values: iteration and lookup", "statement": "Iteration visits all elements, equal ones included, in ascending order, and backwards in the reverse order; lower_bound and upper_bound delimit exactly the elements equal to the key, equal_range returns both, count their number, and find the first of them or end() if there is none. None changes anything.", "quantifier": "all trees with equal values, keys and strict weak orders", "why_tests_cant": "All tree shapes: equal elements lie anywhere along a path, not in one subtree.", "anchors": ["nestl/implementation/detail/red_black_tree.hpp: begin, end, size, lower_bound, upper_bound, equal_range, count, find"]}
{"id": "C66", "title": "tree with equal values: removal, copies and moves", "statement": "Erasing by key removes all elements equal to the key and returns their number, erasing a position or a range removes exactly what was designated; clear and destruction free everything; a copy holds the same values in the same order in nodes of its own, or is left empty and valid if it fails; move assignment and swap exchange the nodes without copying.", "quantifier": "all trees with equal values, positions, ranges, keys and failure schedules", "why_tests_cant": "All tree shapes and all runs of equal elements.", "anchors": ["nestl/implementation/detail/red_black_tree.hpp: erase, clear, ~rb_tree, copy, operator=, swap"]}
{"id": "C67", "title": "tree: comparison operators", "statement": "Two trees are equal exactly if they have the same number of elements and the elements are pairwise equal in order; < is the lexicographic order of the element sequences; exactly one of a < b, b < a, or element-wise equivalence holds; !=, >, <=, >= agree with these two; a copy is equal to its original. None changes anything, allocates or fails.", "quantifier": "all pairs of trees, with and without equal values, all element equalities and strict weak orders", "why_tests_cant": "All pairs of sequences of all lengths, including one being a prefix of the other, held in trees of different shapes.", "anchors": ["nestl/implementation/detail/red_black_tree.hpp: operator==, operator<, operator!=, operator>, operator<=, operator>=", "nestl/algorithm.hpp: equal, lexicographical_compare"]}
{"id": "C68", "title": "tree: a wrong comparison function cannot corrupt memory", "statement": "Whatever the comparison function answers, even if it is not a strict weak order, every lookup ends and returns a position of the tree, every insertion without a hint adds one node somewhere or finds an existing element, every erasure by key removes a contiguous run of elements and returns its length, and all other elements keep their nodes. Any sequence of such calls from construction to destruction frees exactly what it allocated.", "quantifier": "all (pure) comparison functions, trees, values, histories and failure schedules", "why_tests_cant": "All comparison functions and all histories; a search that relies on the order for termination or for valid positions shows only for particular shapes.", "anchors": ["nestl/implementation/detail/red_black_tree.hpp: m_insert_unique, m_emplace_unique, m_insert_equal, m_insert_equal_lower, m_emplace_equal, find, count, lower_bound, upper_bound, equal_range, erase", "nestl/implementation/set.hpp: insert_nothrow, find, erase", "nestl/implementation/detail/red_black_tree.hpp: count"]}
{"id": "C69", "title": "vector: how many elements an insertion constructs", "statement": "Appending n elements one by one to a new vector constructs at most 4n elements in total, the moves into larger storage included; while the capacity suffices, appending n elements constructs n. One insertion constructs at most one element, plus one for each element behind the position, plus, only if the capacity is exhausted, one for each element of the vector. reserve constructs at most one for each element.", "quantifier": "all vectors, values, positions and numbers of elements, for histories whose calls succeed", "why_tests_cant": "Growth by a constant amount instead of by a factor passes every functional test; the linear bound is about all lengths.", "anchors": ["nestl/implementation/vector.hpp: push_back_nothrow, insert_nothrow, insert_value, grow, reserve_nothrow"]}
{"id": "C70", "title": "vector: histories over several vectors", "statement": "After any sequence of calls on several vectors - copies, ranges and elements of one passed to another, copy assignment with exceptions, moves, swaps, self-assignment and self-moves included - each vector holds what the same calls on plain sequences give; a call does not touch vectors it does not change, whose elements stay at their addresses; destroying all of them at the end frees exactly what was allocated.", "quantifier": "all finite histories over any number of vectors, all values and all failure schedules; elements of a vector are not passed to its own push_back, insert and resize (C05), allocators are default constructed (C12, C63)", "why_tests_cant": "Sharing of storage between two vectors after some sequence of copies, moves and failures shows only in histories over several objects.", "anchors": ["nestl/implementation/vector.hpp: copy_nothrow, operator=, swap, assign_nothrow, insert_nothrow, push_back_nothrow, resize_nothrow", "nestl/has_exceptions/vector.hpp: operator="]}
{"id": "C71", "title": "tree with equal values: histories over several trees", "statement": "After any sequence of calls on several trees that keep equal values - insertions behind, in front of and near a hint, emplacements, removals by key, position and range, copies, moves, swaps and lookups, with elements of one tree passed to another - each tree holds what the same calls on plain sequences give, every call returns what they give, elements that no call removed keep their nodes, and destroying all trees frees exactly what was allocated. Inserting values one after another amounts to a stable sort of those whose insertion succeeded.", "quantifier": "all finite histories over any number of trees, all values, strict weak orders and failure schedules", "why_tests_cant": "All interleavings of calls: equal elements end up in tree shapes that depend on the whole history.", "anchors": ["nestl/implementation/detail/red_black_tree.hpp: m_insert_equal, m_insert_equal_lower, m_insert_equal_, m_emplace_equal, m_emplace_hint_equal, erase, clear, copy, operator=, swap, find, lower_bound, upper_bound, equal_range, count"]}
{"id": "C72", "title": "tree: the built-in consistency check", "statement": "The tree's consistency check accepts every set and every tree with equal values that a program can build. On any properly linked nodes it terminates, changes nothing, and accepts exactly if the recorded size is zero just when there are no nodes, no red node has a red child, no child is on the wrong side of its parent, and equally many black nodes lead to every node without children and to the leftmost node. Where the recorded size is not zero, it also rejects whenever the recorded first or last node (of which the first is one of the nodes) is not the first or the last node. So a red child of a red node, a misplaced child or a badly coloured leaf is always reported; a wrong nonzero size and some unbalanced trees are not.", "quantifier": "all histories of the set and tree calls with all failure schedules, for acceptance; all shapes, colours, values and sizes of properly linked nodes, for the exact verdict", "why_tests_cant": "All tree shapes: a check that rejects a rare good shape, or accepts a rare bad one, passes tests on small trees.", "anchors": ["nestl/implementation/detail/red_black_tree.hpp: __rb_verify, rb_tree_black_count"]}
{"id": "C73", "title": "vector: vectors of vectors", "statement": "Vectors may hold vectors, to any depth. After any sequence of calls on such variables and on the vectors inside them - appending plain elements or whole vectors, resizing, reserving, shrinking, clearing, copying, assigning ranges, assigning with exceptions, moving and swapping - each variable holds the nested value that the same calls on nested sequences give; a call that fails deep inside leaves what is stated for it and nothing else behind. A copy shares nothing with its original: whatever is done to the original afterwards, the copy keeps its value. Destroying the variables frees every block at every level, once.", "quantifier": "all nesting depths, numbers of variables, index paths, values, finite histories and failure schedules (allocations and element copies at every level); both ways of copying a vector as an element (throwing copy constructor, two-phase initialisation); the source of a call may be anywhere, except that appending and resizing do not get an element of the vector they change", "why_tests_cant": "All depths and all crash points: which of the nested copies is half built when an allocation fails depends on the whole history.", "anchors": ["nestl/implementation/vector.hpp: push_back_nothrow, resize_nothrow, reserve_nothrow, shrink_to_fit_nothrow, clear, copy_nothrow, assign_nothrow, insert_nothrow, operator=, swap, ~vector, two_phase_initializator", "nestl/has_exceptions/vector.hpp: vector(const vector&), operator=", "nestl/class_operations.hpp: construct", "nestl/detail/uninitialised_copy.hpp: uninitialised_copy", "nestl/detail/destroy.hpp: destroy"]}
{"id": "C74", "title": "list and shared_ptr: builds with assertions stop misuse", "statement": "In builds with assertions, front() and back() of a list without elements, merging a list with itself, and dereferencing a pointer whose get() is null end in a failing assertion instead of undefined behaviour; dereferencing a shared_ptr whose get() is not null always yields the object.", "quantifier": "all lists, pointers and histories of calls with all failure schedules; for pointers, programs whose objects have shared_ptr members only", "why_tests_cant": "Whether the check is reached before the first wrong access depends on the state; tests that provoke a failing assertion abort.", "anchors": ["nestl/implementation/list.hpp: front, back, merge", "nestl/implementation/shared_ptr.hpp: operator*, operator->, get"]}
{"id": "C75", "title": "list and set: number of comparisons", "statement": "sort() of a list of n elements is settled by n*(log2 n + 1) answers of the comparator, merge() of a and b elements by a+b-1. With h = 2*log2(n+1) for a tree of n elements, lower_bound and upper_bound are settled by h answers, find by h+1, equal_range, count and erase by key by 2h, insertion by h+2, insertion with any hint by h+5, and by 4 if the hint is next to the place of the value or at an equivalent element; a range of ascending values behind the present elements costs at most 4 answers each. Comparators that give the same answers to these questions give the same outcome, whatever they would say to others.", "quantifier": "all lists, trees, values, hints, comparators (also ones that are not orders) and failure schedules", "why_tests_cant": "Tests count comparisons for the inputs they try; a bound needs all sizes, shapes and answers of the comparator.", "anchors": ["nestl/implementation/list.hpp: merge, sort", "nestl/implementation/detail/red_black_tree.hpp: lower_bound, upper_bound, equal_range, find, m_insert_unique, m_insert_unique_at, m_emplace_hint_unique, m_insert_equal", "nestl/implementation/set.hpp: insert_nothrow, find, erase"]}
{"id": "C76", "title": "tree: inserting a range of values", "statement": "Inserting a range into a set adds, for every kind of value not there yet, the first value of the range of that kind, keeps the present elements in their nodes and allocates exactly one node for each new element; when an insertion fails, the error is reported and exactly the values before it have been dealt with. With all elements of another set the result is the union, and the other set stays as it is; a range of the set itself changes nothing.", "quantifier": "all sets, ranges of values (with repetitions), of elements of another set and of the set itself, comparators that are strict weak orders, failure schedules", "why_tests_cant": "The combination of repetitions, present values and the point of failure is unbounded.", "anchors": ["nestl/implementation/detail/red_black_tree.hpp: m_insert_unique (range), m_insert_unique_at"]}
{"id": "C77", "title": "tree: every loop takes logarithmically many rounds", "statement": "Whatever calls a program makes on sets and on trees that keep equal values, with c headers and nodes in existence when a loop starts: every search, every step of an iterator, every rebalancing after an insertion or a removal and every search for the smallest or largest element goes round at most 2*log2(c)+1 times, and the recursions of copying and clearing are at most that deep. A program whose loops are cut off there gives the same answers, reports the same errors and ends in the same state.", "quantifier": "all finite histories over any number of sets or trees, with iteration in both directions and destruction at the end; all values, strict weak orders, starting heaps and failure schedules", "why_tests_cant": "A rebalancing that loses the balance for rare shapes passes every functional test; the bound is about all sizes and histories.", "anchors": ["nestl/implementation/detail/red_black_tree.hpp: s_minimum, s_maximum, rb_tree_increment, rb_tree_decrement, insert_and_rebalance, rebalance_for_erase, m_lower_bound, m_upper_bound, m_get_insert_unique_pos, m_get_insert_equal_pos, m_copy, m_erase", "nestl/implementation/set.hpp: insert_nothrow, erase, find, copy_nothrow, clear"]}
{"id": "C78", "title": "containers and pointers: who calls the allocator, and how often", "statement": "A call that adds n elements to a list, or n values to a tree that keeps equal values, makes one allocation and one construction for each, or stops at the first that fails. Inserting into a set makes one of each for a value that is not there and none for one that is, with every hint; copying a list or a set makes one of each per element. A vector asks for at most one block in reserve, shrink_to_fit, insert, push_back, emplace_back and resize, for at most one per element when it is given an input range, and for exactly one in assign and in copying. make_shared makes one allocation and one construction. Everything else - looking, searching, iterating, comparing, erasing, clearing, destroying, moving, swapping, merging, splicing, sorting, and all other uses of pointers - makes no allocation and no construction and leaves the error object as it is.", "quantifier": "all states of the memory and all arguments (for copying, for assign and for inserting into a set: all containers in a valid state), all failure schedules, kinds of elements and comparators", "why_tests_cant": "Tests count requests for the calls they make; that an operation never allocates is a statement about all states and arguments.", "anchors": ["nestl/implementation/vector.hpp: reserve_nothrow, shrink_to_fit_nothrow, insert_nothrow, push_back_nothrow, emplace_back_nothrow, resize_nothrow, assign_nothrow, copy_nothrow, clear, swap, operator==", "nestl/implementation/list.hpp: insert_nothrow, emplace_nothrow, push_back_nothrow, push_front_nothrow, assign_nothrow, copy_nothrow, erase, clear, swap, merge, splice, sort", "nestl/implementation/set.hpp: insert_nothrow, copy_nothrow, erase, find, clear", "nestl/implementation/detail/red_black_tree.hpp: m_emplace_unique, lower_bound, upper_bound, swap", "nestl/implementation/detail/red_black_tree.hpp: m_insert_unique, m_insert_equal, m_emplace_unique, m_emplace_equal", "nestl/implementation/shared_ptr.hpp: make_shared_nothrow, shared_ptr, weak_ptr"]}
{"id": "C79", "title": "shared_ptr: handles of one object in several threads", "statement": "Threads that copy, drop, lock and use shared_ptr and weak_ptr handles of their own, some of which refer to the same objects, leave the counters equal to the numbers of handles, destroy every object once, when its last owner goes, and never touch a destroyed one.", "quantifier": "all numbers of threads, programs of the threads, objects and interleavings of the individual counter accesses", "why_tests_cant": "The schedules that go wrong are rare, and all of them together are unboundedly many; running threads shows a few.", "anchors": ["nestl/implementation/shared_ptr.hpp: add_ref, release, weak_add_ref, weak_release, destroy_value, destroy_self, ~shared_ptr, ~weak_ptr, lock, expired, operator*"]}
{"id": "C80", "title": "containers and pointers: different objects in different threads, and readers of one object", "statement": "Threads that each create containers of their own, make any calls on them, read them out and destroy them never disturb each other: however their single memory accesses and allocator calls interleave, there is no undefined behaviour, every thread gets the answers and elements that the meaning of its own calls allows, and when all have finished the memory is as before. Several threads may also make calls that only look at one container (size, empty, element access, iteration, find, bounds, count, ==): each gets the right answer and the memory stays as it is. The same holds for shared_ptr and weak_ptr: threads whose objects are their own see the counts they would see alone, and use_count, unique, bool, get and dereferencing may be called by several threads on the same pointers. Threads that keep getting turns finish.", "quantifier": "all numbers of threads, histories of calls of each thread, numbers of containers, failure schedules of each thread and schedules of the threads, at the granularity of single memory accesses", "why_tests_cant": "Interleavings of single accesses are unboundedly many and the ones that go wrong are rare; a hidden static or a const member that writes would show in few of them.", "anchors": ["nestl/implementation/vector.hpp: push_back_nothrow, insert_nothrow, resize_nothrow, assign_nothrow, copy_nothrow, swap, size, operator[], operator==", "nestl/implementation/list.hpp: insert_nothrow, erase, splice, merge, sort, copy_nothrow, size, front, back, begin, end", "nestl/implementation/set.hpp: insert_nothrow, erase, copy_nothrow, find", "nestl/implementation/detail/red_black_tree.hpp: lower_bound, upper_bound, count", "nestl/implementation/detail/red_black_tree.hpp: m_insert_unique, m_insert_equal, find, rb_tree_increment", "nestl/allocator.hpp: allocate, deallocate"]}
{"id": "C81", "title": "all containers: vectors, lists, sets and shared_ptrs used side by side", "statement": "Vectors, lists, sets, trees that keep equal values, and shared_ptrs with different element types, allocators and comparison functions, used side by side in one memory, do not disturb each other. However the memory accesses of the parts of a program that use them alternate, there is no undefined behaviour, every part gets the answers and elements the meaning of its own calls allows, with its own failures, and when all have destroyed their objects the memory is as before.", "quantifier": "all numbers and kinds of parts, histories of calls of each, failure schedules of each and interleavings of single memory accesses", "why_tests_cant": "Tests use one container at a time; an access outside a container's own storage that happens to hit another container is found only in certain layouts.", "anchors": ["nestl/implementation/vector.hpp: push_back_nothrow, insert_nothrow, resize_nothrow, assign_nothrow, copy_nothrow, swap, ~vector", "nestl/implementation/list.hpp: insert_nothrow, erase, splice, merge, sort, copy_nothrow, ~list", "nestl/implementation/set.hpp: insert_nothrow, erase, copy_nothrow, find", "nestl/implementation/detail/red_black_tree.hpp: ~rb_tree", "nestl/implementation/detail/red_black_tree.hpp: m_insert_unique, m_insert_equal, m_erase", "nestl/implementation/shared_ptr.hpp: make_shared_nothrow, shared_ptr, weak_ptr, operator=, ~shared_ptr", "nestl/allocator.hpp: allocate, deallocate"]}
{"id": "C82", "title": "containers: handed from thread to thread", "statement": "A program may work in rounds: threads run at the same time, each with containers of its own, and when all have finished the containers are passed on, in the state they are in, to the threads of the next round. In every round, however the single memory accesses interleave, there is no undefined behaviour, every thread gets the answers that the meaning of its calls gives for the contents its containers had when they came to it, and the next round finds exactly what the calls left. Between rounds the containers may be dealt out anew in any way; destroying all of them at the end gives back all memory.", "quantifier": "all numbers of rounds and threads, ways of dealing out the containers, histories of calls of each thread, failure schedules and schedules of the threads", "why_tests_cant": "A container that keeps something about the thread or the address it was used from, or memory that is still used after the round, shows only for certain schedules and hand-overs.", "anchors": ["nestl/implementation/vector.hpp: push_back_nothrow, insert_nothrow, resize_nothrow, assign_nothrow, copy_nothrow, swap, ~vector", "nestl/implementation/list.hpp: insert_nothrow, erase, splice, merge, sort, copy_nothrow", "nestl/implementation/set.hpp: insert_nothrow, erase, copy_nothrow, find", "nestl/implementation/detail/red_black_tree.hpp: m_insert_equal, m_insert_equal_lower, m_insert_equal_at, m_emplace_equal, erase", "nestl/allocator.hpp: allocate, deallocate"]}
{"id": "C83", "title": "set/tree: iterating takes linear time", "statement": "Iterating over a set from begin() to end(), or back, with n elements takes at most 2n rounds of the loops inside ++ and -- in all, although a single step may go up or down the whole height of the tree. m steps from any element take at most 2m rounds and a number that grows with the logarithm of n. The same holds with equal keys.", "quantifier": "all sets and multisets, element types, comparison functions, start positions and numbers of steps", "why_tests_cant": "A bound on the total number of steps for trees of every size and shape needs an amortised argument; tests measure single sizes and shapes.", "anchors": ["nestl/implementation/detail/red_black_tree.hpp: rb_tree_increment, rb_tree_decrement, s_minimum, s_maximum", "nestl/implementation/set.hpp: begin, end, iterator"]}
{"id": "C84", "title": "all functions that take a range: any iterators, also of another kind of container", "statement": "The iterators of a vector, list or set, pointers into an array, and the reverse iterators of each, run over the elements in order, and backwards for reverse iterators; iterators of a set run over them in ascending order. Vector and list assign(first, last), the tree's range insertion, copy, copy_if, equal and lexicographical_compare treat a range of any such iterators alike: they use exactly the elements of the range, in order, each once, and do not change the container they belong to. So assigning a set to a vector gives its elements in ascending order. If something fails, an initial part of the range has been used.", "quantifier": "all kinds of iterators that run over a sequence, ranges, element types, destination contents and failure schedules", "why_tests_cant": "The functions are templates; a test instantiates them with a few iterator types, and the claim is about every type that behaves as an iterator.", "anchors": ["nestl/implementation/vector.hpp: assign_nothrow, assign_iterator, begin, rbegin", "nestl/implementation/list.hpp: assign_nothrow, list_iterator, rbegin", "nestl/implementation/detail/red_black_tree.hpp: m_insert_unique, rb_tree_iterator, rbegin", "nestl/algorithm.hpp: copy, copy_if, equal, lexicographical_compare"]}
{"id": "C85", "title": "lists, sets and trees with equal values: the outcome depends on which requests are refused, not on addresses", "statement": "A program that makes any calls on lists, on sets, or on trees that keep equal values, observes the same in every run in which the same requests (number so-and-so for storage or for the construction of an element) are refused: every call reports the same error and gives the same answer, and the same elements are visited afterwards, wherever the allocator places the nodes and whatever else is in memory, and also when other threads run at the same time. In particular a list call that adds several elements (insert, assign, copy) and fails has added exactly those elements that were complete before the first refused request, and its error says whether storage or a construction was refused; inserting a value that a set already holds makes no request. (For list sort, sets and trees the comparison function has to be a strict weak order.)", "quantifier": "all histories of calls, numbers of lists, sets or trees, element types and kinds, comparison functions, memory contents, choices of addresses and failure schedules, and for threads all schedules", "why_tests_cant": "The addresses an allocator hands out are not under the control of a test; code that compares addresses or reads a stale node gives different results only for certain placements.", "anchors": ["nestl/implementation/list.hpp: push_back_nothrow, push_front_nothrow, insert_nothrow, emplace_nothrow, assign_nothrow, copy_nothrow, create_node, merge, sort, splice, erase", "nestl/implementation/set.hpp: insert_nothrow, copy_nothrow, erase, find", "nestl/implementation/detail/red_black_tree.hpp: create_node, m_insert_unique, m_emplace_unique, m_insert_equal, m_insert_equal_lower, m_insert_equal_at, m_emplace_equal, m_copy", "nestl/allocator.hpp: allocate"]}
