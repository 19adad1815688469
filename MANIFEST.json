{
 "claims": [
  {
   "property": "C01",
   "status": "proved",
   "theorems": [
    "C01_vector_history"
   ],
   "note": "All histories of twelve operations under all failure schedules refine the sequence specification in VecHistSpec.v; insert in the middle is included for elements whose copy cannot fail."
  },
  {
   "property": "C02",
   "status": "proved",
   "theorems": [
    "C02_emplace_back_default",
    "C02_push_back_strong"
   ],
   "note": "Strong guarantee of push_back/emplace_back, argument outside the vector; emplace_back() without arguments."
  },
  {
   "property": "C03",
   "status": "proved",
   "theorems": [
    "C03_insert"
   ],
   "note": "Insert at a position, all failure schedules without element-copy failure during shifting."
  },
  {
   "property": "C04",
   "status": "partial",
   "theorems": [
    "C04_insert_destructible_partial",
    "C04_insert_destructible_refuted",
    "C04_insert_outcomes_partial",
    "C04_damaged_destroy_refuted"
   ],
   "note": "The full statement is false: the refuted theorem gives a schedule after which destruction is undefined behaviour. The partial theorems cover element types whose construction cannot fail and storage failures, and say exactly in which state any failed insertion leaves the vector; destroying a vector in the damaged state is always undefined behaviour."
  },
  {
   "property": "C05",
   "status": "partial",
   "theorems": [
    "C05_self_insert_full",
    "C05_self_push_back_full",
    "C05_self_insert_same",
    "C05_self_insert_behind",
    "C05_self_resize",
    "C05_self_insert_partial",
    "C05_self_push_back_partial",
    "C05_self_push_back_refuted",
    "C05_self_insert_refuted",
    "C05_self_resize_refuted"
   ],
   "note": "The full statement is false: three refuted theorems (push_back and resize with reallocation, insert without). The partial theorems cover the aliases that are safe. The aliases outside that range are covered by C05_self_*: they say for each what the code does instead (for two-phase elements insert(p, *p) inserts a default value)."
  },
  {
   "property": "C06",
   "status": "partial",
   "theorems": [
    "C06_reserve_overflow",
    "C06_reserve_partial",
    "C06_reserve_overflow_refuted"
   ],
   "note": "True when n*sizeof(T) fits size_t; the refuted theorem shows the wrap-around. C06_reserve_overflow says what every reserve beyond that limit does."
  },
  {
   "property": "C07",
   "status": "proved",
   "theorems": [
    "C07_growth"
   ],
   "note": ""
  },
  {
   "property": "C08",
   "status": "proved",
   "theorems": [
    "C08_resize_default",
    "C08_resize"
   ],
   "note": "With a value and without (resize(n))."
  },
  {
   "property": "C09",
   "status": "partial",
   "theorems": [
    "C09_resize_allocates",
    "C09_reserved_push_insert_partial",
    "C09_reserve_then_push_partial",
    "C09_resize_within_capacity_refuted"
   ],
   "note": "True of push_back and insert; resize within capacity reallocates (refuted). C09_resize_allocates: every growing resize allocates, whatever the capacity."
  },
  {
   "property": "C10",
   "status": "proved",
   "theorems": [
    "C10_assign_n",
    "C10_assign_input",
    "C10_assign_range",
    "C10_copy"
   ],
   "note": "assign(n,x), assign over input ranges and over (sub-)ranges of any vector including itself, copy including self copy."
  },
  {
   "property": "C11",
   "status": "proved",
   "theorems": [
    "C11_copy_ctor",
    "C11_copy_assign",
    "C11_push_back"
   ],
   "note": "Copy construction, copy assignment, push_back of the exception-enabled vector."
  },
  {
   "property": "C12",
   "status": "partial",
   "theorems": [
    "C12_move_assign_unequal",
    "C12_move_ctor",
    "C12_swap",
    "C12_move_assign_partial",
    "C12_self_move",
    "C12_move_assign_allocator_refuted"
   ],
   "note": "Move construction, swap, self move in full; move assignment for equal allocators (partial). With unequal stateful allocators move assignment keeps the wrong allocator (refuted). C12_move_assign_unequal gives the result for all unequal allocators."
  },
  {
   "property": "C13",
   "status": "proved",
   "theorems": [
    "C13_no_leak"
   ],
   "note": ""
  },
  {
   "property": "C14",
   "status": "proved",
   "theorems": [
    "C14_no_move"
   ],
   "note": ""
  },
  {
   "property": "C15",
   "status": "proved",
   "theorems": [
    "C15_equality"
   ],
   "note": ""
  },
  {
   "property": "C16",
   "status": "partial",
   "theorems": [
    "C16_stale_push_back",
    "C16_stale_list",
    "C16_stale_list_leaks",
    "C16_stale_list_run",
    "C16_stale_set",
    "C16_stale_make_shared",
    "C16_clear_list_partial",
    "C16_clear_set_partial",
    "C16_stale_list_assign",
    "C16_stale_multiset",
    "C16_stale_set_copy",
    "C16_stale_reserve",
    "C16_stale_resize",
    "C16_stale_assign_n",
    "C16_stale_assign",
    "C16_stale_copy",
    "C16_stale_shrink_to_fit",
    "C16_stale_insert",
    "C16_clear_err_no_leak_partial",
    "C16_stale_err_leaks_refuted"
   ],
   "note": "Nothing leaks when the error object is clear on entry (partial); with a stale error storage leaks (refuted). C16_stale_push_back, C16_stale_insert, C16_stale_reserve, C16_stale_shrink_to_fit, C16_stale_resize, C16_stale_assign_n, C16_stale_assign, C16_stale_copy, C16_stale_list, C16_stale_list_assign, C16_stale_multiset, C16_stale_set_copy, C16_stale_set and C16_stale_make_shared give the leak for every call with a stale error that adds an element or asks for storage; assign and copy also lose the old contents of the target."
  },
  {
   "property": "C17",
   "status": "proved",
   "theorems": [
    "C17_list_history"
   ],
   "note": "Histories of 20 operations over any number of lists (also splice, merge, sort, swap, copy), with arguments that may refer to elements, under all failure schedules."
  },
  {
   "property": "C18",
   "status": "proved",
   "theorems": [
    "C18_emplace_default",
    "C18_insert_strong",
    "C18_push_strong"
   ],
   "note": "insert, push_back, push_front, emplace without arguments."
  },
  {
   "property": "C19",
   "status": "proved",
   "theorems": [
    "C19_elements_stay"
   ],
   "note": "All 20 operations of the history language."
  },
  {
   "property": "C20",
   "status": "partial",
   "theorems": [
    "C20_insert_any_partial",
    "C20_insert_range_partial",
    "C20_insert_range_refuted",
    "C20_insert_nodes_partial",
    "C20_insert_own_nodes_partial",
    "C20_insert_self_refuted"
   ],
   "note": "False: the refuted theorem gives a range that arrives reversed; the partial theorems say exactly what every insertion of a range does, also of a range of the list itself, which is read on into the copies just made when it lies around pos (the C++ standard forbids such a range)."
  },
  {
   "property": "C21",
   "status": "proved",
   "theorems": [
    "C21_insert_n"
   ],
   "note": ""
  },
  {
   "property": "C22",
   "status": "partial",
   "theorems": [
    "C22_splice_range_behind",
    "C22_lost_range_leaks",
    "C22_splice_all",
    "C22_splice_one",
    "C22_splice_range",
    "C22_splice_one_self",
    "C22_splice_range_self_partial",
    "C22_splice_range_self_refuted",
    "C22_splice_range_self_release_refuted"
   ],
   "note": "Two lists: all positions and ranges. One list: all except the position right behind a moved range, where the refuted theorems show a failing assertion (debug) and a lost range (release). C22_splice_range_behind describes that case for all lists."
  },
  {
   "property": "C23",
   "status": "proved",
   "theorems": [
    "C23_merge"
   ],
   "note": ""
  },
  {
   "property": "C24",
   "status": "proved",
   "theorems": [
    "C24_sort"
   ],
   "note": ""
  },
  {
   "property": "C25",
   "status": "proved",
   "theorems": [
    "C25_traversals_agree"
   ],
   "note": ""
  },
  {
   "property": "C26",
   "status": "partial",
   "theorems": [
    "C26_assign_own_end",
    "C26_self_copy",
    "C26_assign_n",
    "C26_assign_range",
    "C26_copy",
    "C26_assign_part",
    "C26_assign_own_part_partial",
    "C26_self_copy_refuted"
   ],
   "note": "All but self copy, which is undefined behaviour (refuted). Lists whose allocator equals a default constructed one; otherwise see C28. C26_assign_own_end and C26_self_copy describe those for all lists."
  },
  {
   "property": "C27",
   "status": "proved",
   "theorems": [
    "C27_swap",
    "C27_swap_self",
    "C27_move_construct",
    "C27_clear_destroy"
   ],
   "note": ""
  },
  {
   "property": "C28",
   "status": "partial",
   "theorems": [
    "C28_assign_unequal",
    "C28_swap_unequal",
    "C28_one_list_partial",
    "C28_equal_allocators_partial",
    "C28_swap_refuted",
    "C28_assign_refuted"
   ],
   "note": "False for stateful allocators: swap and assign (refuted). Partial: equal allocators, and single-list operations with any allocator. C28_assign_unequal and C28_swap_unequal: every assignment to a non-empty list and every swap with unequal allocators goes wrong."
  },
  {
   "property": "C29",
   "status": "proved",
   "theorems": [
    "C29_copy_construct",
    "C29_copy_assign",
    "C29_self_assign",
    "C29_push_back"
   ],
   "note": ""
  },
  {
   "property": "C30",
   "status": "proved",
   "theorems": [
    "C30_set_history",
    "C30_find_exact"
   ],
   "note": "Histories of 16 operations over any number of sets (also hinted, ranged and emplacing insertion, range erase, copy, move, swap), arguments may refer to elements, under all failure schedules; C30_find_exact is the reading for one set."
  },
  {
   "property": "C31",
   "status": "proved",
   "theorems": [
    "C31_iteration",
    "C31_reachable"
   ],
   "note": ""
  },
  {
   "property": "C32",
   "status": "proved",
   "theorems": [
    "C32_reachable",
    "C32_depth",
    "C32_red_black"
   ],
   "note": "C32_reachable: the hypothesis of the other two holds after every history."
  },
  {
   "property": "C33",
   "status": "proved",
   "theorems": [
    "C33_lookup_logarithmic"
   ],
   "note": "The search loops are run with the stated number of rounds as their budget; also upper_bound."
  },
  {
   "property": "C34",
   "status": "partial",
   "theorems": [
    "C34_emplace_default",
    "C34_insert_strong_partial",
    "C34_emplace_strong",
    "C34_failure_claims_insertion_refuted"
   ],
   "note": "Nothing changes and nothing leaks (partial; in full for emplace); but a failed insert_nothrow returns {end(), true} (refuted)."
  },
  {
   "property": "C35",
   "status": "proved",
   "theorems": [
    "C35_erase",
    "C35_erase_key",
    "C35_erase_range",
    "C35_erase_keys"
   ],
   "note": "Also erase by key and by range."
  },
  {
   "property": "C36",
   "status": "proved",
   "theorems": [
    "C36_elements_stay"
   ],
   "note": "All 16 operations of the history language."
  },
  {
   "property": "C37",
   "status": "proved",
   "theorems": [
    "C37_bounds",
    "C37_find"
   ],
   "note": "Also find."
  },
  {
   "property": "C38",
   "status": "proved",
   "theorems": [
    "C38_copy",
    "C38_self_copy"
   ],
   "note": ""
  },
  {
   "property": "C39",
   "status": "proved",
   "theorems": [
    "C39_move_ctor",
    "C39_clear",
    "C39_destroy",
    "C39_move_assign",
    "C39_swap"
   ],
   "note": "Also move assignment and swap."
  },
  {
   "property": "C40",
   "status": "proved",
   "theorems": [
    "C40_hint"
   ],
   "note": ""
  },
  {
   "property": "C41",
   "status": "partial",
   "theorems": [
    "C41_use_count",
    "C41_use_count_weak_partial",
    "C41_use_count_any_partial"
   ],
   "note": "Programs over any number of variables and of objects with members (11 kinds of statements). The _weak theorem: programs in which a weak member leads back to its own object only while another weak_ptr to it stays (C47). The _any theorem: any program whatsoever either reads a freed control block or has all counts right."
  },
  {
   "property": "C42",
   "status": "partial",
   "theorems": [
    "C42_object_lifetime",
    "C42_object_lifetime_weak_partial",
    "C42_object_lifetime_any_partial"
   ],
   "note": "As C41; lock() on an expired pointer excluded, see C44."
  },
  {
   "property": "C43",
   "status": "partial",
   "theorems": [
    "C43_no_leak",
    "C43_no_leak_weak_partial",
    "C43_no_leak_any_partial"
   ],
   "note": "As C41. Empty memory at the end needs the absence of ownership cycles, as for any reference counting."
  },
  {
   "property": "C44",
   "status": "partial",
   "theorems": [
    "C44_lock_expired",
    "C44_lock_partial",
    "C44_lock_expired_refuted"
   ],
   "note": "False: lock() on an expired weak_ptr returns a non-null pointer to a destroyed object (refuted); partial: non-expired pointers. C44_lock_expired: null and expired weak_ptrs, for all states."
  },
  {
   "property": "C45",
   "status": "partial",
   "theorems": [
    "C45_self_assign_last",
    "C45_move_assign",
    "C45_weak_assign_partial",
    "C45_self_assign_refuted",
    "C45_move_assign_refuted"
   ],
   "note": "Self copy-assignment of the last expired weak_ptr reads freed memory and move assignment counts one reference twice (both refuted); partial: copy assignment otherwise. C45_self_assign_last and C45_move_assign describe the two for all states."
  },
  {
   "property": "C46",
   "status": "proved",
   "theorems": [
    "C46_make_shared_default",
    "C46_make_shared",
    "C46_unique_owner"
   ],
   "note": "Error object clear on entry, members of the object default constructed."
  },
  {
   "property": "C47",
   "status": "partial",
   "theorems": [
    "C47_drop_partial",
    "C47_weak_back_reference_refuted",
    "C47_unwatched_refuted"
   ],
   "note": "Partial: a weak member leads back to its object only if another weak_ptr stays. The refuted theorems: a two-object example, and in general an object whose weak_ptrs are all in objects that go with it cannot be destroyed without reading freed memory."
  },
  {
   "property": "C48",
   "status": "partial",
   "theorems": [
    "C48_move_from_member",
    "C48_assign_from_member_partial",
    "C48_move_from_member_refuted"
   ],
   "note": "Copy assignment in full (partial theorem); p = std::move(p->next) reads freed memory (refuted). C48_move_from_member: it does so whenever p is the only owner, and works otherwise."
  },
  {
   "property": "C49",
   "status": "proved",
   "theorems": [
    "C49_copy",
    "C49_copy_if"
   ],
   "note": "For raw-pointer ranges; the destination may precede the source in the same array; a failed assignment may leave any value at its position."
  },
  {
   "property": "C50",
   "status": "proved",
   "theorems": [
    "C50_equal",
    "C50_lexicographical_compare",
    "C50_lexicographic_order"
   ],
   "note": "For raw-pointer ranges."
  },
  {
   "property": "C51",
   "status": "proved",
   "theorems": [
    "C51_default",
    "C51_resize_default",
    "C51_emplace_default_events",
    "C51_construct"
   ],
   "note": "With an argument (read by the initialiser after the default construction) and without. Without arguments one failure point per element, in every container: C51_default, C51_resize_default, C51_emplace_default_events."
  },
  {
   "property": "C52",
   "status": "proved",
   "theorems": [
    "C52_uninitialised_copy"
   ],
   "note": ""
  },
  {
   "property": "C53",
   "status": "partial",
   "theorems": [
    "C53_allocate_room",
    "C53_allocate_partial",
    "C53_allocate_overflow_refuted"
   ],
   "note": "True when n*sizeof(T) fits size_t; wrap-around is refuted. C53_allocate_room gives the room obtained for every n."
  },
  {
   "property": "C54",
   "status": "proved",
   "theorems": [
    "C54_shrink_to_fit"
   ],
   "note": ""
  },
  {
   "property": "C55",
   "status": "proved",
   "theorems": [
    "C55_equality",
    "C55_equality_self"
   ],
   "note": ""
  },
  {
   "property": "C56",
   "status": "partial",
   "theorems": [
    "C56_argument_ignored",
    "C56_make_shared_allocator_partial",
    "C56_make_shared_allocator_refuted"
   ],
   "note": "False: the argument is ignored (refuted); partial: the default constructed allocator. C56_argument_ignored: the default constructed one is used whatever is passed."
  },
  {
   "property": "C57",
   "status": "proved",
   "theorems": [
    "C57_copy",
    "C57_weak_from_shared",
    "C57_move",
    "C57_swap",
    "C57_reset",
    "C57_assign",
    "C57_move_assign"
   ],
   "note": "Copy/move construction, weak from shared, swap, reset, copy assignment; move assignment from a variable; same condition on weak back references as C47. Weak assignment is C45, move assignment from a member C48."
  },
  {
   "property": "C58",
   "status": "proved",
   "theorems": [
    "C58_list",
    "C58_set",
    "C58_multi",
    "C58_make_shared",
    "C58_pointers",
    "C58_algorithms",
    "C58_list_throwing"
   ],
   "note": "All operations of the history languages of list and set (whose calls have no undefined behaviour, see C17 and C30), make_shared, copy, copy_if and the throwing wrappers of list."
  },
  {
   "property": "C59",
   "status": "proved",
   "theorems": [
    "C59_vector",
    "C59_vector_copy",
    "C59_vector_throwing"
   ],
   "note": "All operations of the history language of vector, copy and assign from a range, and the throwing wrappers."
  },
  {
   "property": "C60",
   "status": "proved",
   "theorems": [
    "C60_erase",
    "C60_erase_range",
    "C60_pop"
   ],
   "note": ""
  },
  {
   "property": "C61",
   "status": "proved",
   "theorems": [
    "C61_move_assign",
    "C61_self_move"
   ],
   "note": ""
  },
  {
   "property": "C62",
   "status": "proved",
   "theorems": [
    "C62_contiguous",
    "C62_checked"
   ],
   "note": ""
  },
  {
   "property": "C63",
   "status": "partial",
   "theorems": [
    "C63_assigned",
    "C63_allocator_kept_partial",
    "C63_swap_move_partial",
    "C63_assign_refuted"
   ],
   "note": "Proved for histories without assignment and for default constructed allocators (partial); assign and copy_nothrow replace a stateful allocator by a default constructed one (refuted). C63_assigned: after every successful assignment the allocator is the default one."
  },
  {
   "property": "C64",
   "status": "proved",
   "theorems": [
    "C64_emplace_default",
    "C64_insert_last",
    "C64_emplace_last",
    "C64_insert_first",
    "C64_insert_hint",
    "C64_emplace_hint",
    "C64_emplace_in_order"
   ],
   "note": "m_insert_equal and m_insert_equal_ with a hint call m_insert_ without its error parameter and do not compile when instantiated; they are modelled with the error object passed on, as their unique counterparts do. The emplace functions are modelled as written."
  },
  {
   "property": "C65",
   "status": "proved",
   "theorems": [
    "C65_iteration",
    "C65_bounds"
   ],
   "note": ""
  },
  {
   "property": "C66",
   "status": "proved",
   "theorems": [
    "C66_erase_key",
    "C66_erase_keys",
    "C66_erase",
    "C66_erase_range",
    "C66_clear",
    "C66_destroy",
    "C66_copy",
    "C66_move_assign",
    "C66_swap"
   ],
   "note": ""
  },
  {
   "property": "C67",
   "status": "proved",
   "theorems": [
    "C67_sets_too",
    "C67_equality",
    "C67_order",
    "C67_trichotomy",
    "C67_copy_equal"
   ],
   "note": "The equality of elements and the comparison are parameters; equality only has to be reflexive for the statement about copies."
  },
  {
   "property": "C68",
   "status": "partial",
   "theorems": [
    "C68_insert",
    "C68_emplace",
    "C68_insert_equal",
    "C68_lookup",
    "C68_erase_key",
    "C68_iteration",
    "C68_history",
    "C68_program",
    "C68_hint_refuted",
    "C68_moody_history",
    "C68_moody_program"
   ],
   "note": "Within one call the comparison function is a pure function of the two values; between calls it may change (C68_moody_history, C68_moody_program). The insertions that take a hint do not have this property (refuted): they are members of the tree that set does not expose."
  },
  {
   "property": "C69",
   "status": "proved",
   "theorems": [
    "C69_insert",
    "C69_reserve",
    "C69_append",
    "C69_append_reserved"
   ],
   "note": "Constructions are counted by the model's counter of constructor calls. The bounds are stated for calls that succeed only."
  },
  {
   "property": "C70",
   "status": "proved",
   "theorems": [
    "C70_history",
    "C70_no_leak",
    "C70_others"
   ],
   "note": "Insertion in front of existing elements only for element types whose copy cannot fail, as in C01 (see C04)."
  },
  {
   "property": "C71",
   "status": "proved",
   "theorems": [
    "C71_history",
    "C71_elements_stay",
    "C71_insertion_order"
   ],
   "note": "The insertions that do not compile when instantiated are modelled as in C64."
  },
  {
   "property": "C72",
   "status": "proved",
   "theorems": [
    "C72_accepts_multi",
    "C72_accepts_set",
    "C72_accepts_reachable",
    "C72_accepts_multi_reachable",
    "C72_exact_header",
    "C72_exact"
   ],
   "note": "rb_tree_black_count is declared but not defined in the repository; modelled as in libstdc++, from which the file is derived."
  },
  {
   "property": "C73",
   "status": "proved",
   "theorems": [
    "C73_history",
    "C73_no_leak",
    "C73_copy",
    "C73_insert"
   ],
   "note": "The specialisation of two_phase_initializator for vector names its function construct, not init as its user class_operations expects; it is modelled as if it were named init. A vector copied as an element is put into place when complete. Insertion in front of existing elements is stated for one call (C73_insert), because its failure can damage the vector as in C04."
  },
  {
   "property": "C74",
   "status": "proved",
   "theorems": [
    "C74_list_checked",
    "C74_pointer_checked"
   ],
   "note": ""
  },
  {
   "property": "C75",
   "status": "proved",
   "theorems": [
    "C75_merge",
    "C75_sort",
    "C75_lookup",
    "C75_insert",
    "C75_insert_equal",
    "C75_hint",
    "C75_ascending_range"
   ],
   "note": "Comparators have no state in the model, so calls are not counted directly: settled says how many answers of the comparator determine the outcome. A repetition of the same question is not noticed."
  },
  {
   "property": "C76",
   "status": "proved",
   "theorems": [
    "C76_insert_range",
    "C76_insert_nodes",
    "C76_union",
    "C76_own_range"
   ],
   "note": "The range overload is a member of the tree; set does not expose it. A range of set iterators is read while elements are inserted."
  },
  {
   "property": "C77",
   "status": "proved",
   "theorems": [
    "C77_set_rounds",
    "C77_multi_rounds"
   ],
   "note": "The limit is a parameter of the tree model (class limit in RbModel.v); the other properties use a linear one. The number of cells counts all sets, not only the one that is searched; the climb after an insertion goes two levels per round and needs about half."
  },
  {
   "property": "C78",
   "status": "proved",
   "theorems": [
    "C78_list_adds",
    "C78_list_nothing",
    "C78_list_copy",
    "C78_vector_adds",
    "C78_vector_nothing",
    "C78_vector_assign",
    "C78_make_shared",
    "C78_pointers_nothing",
    "C78_set_adds",
    "C78_set_insert",
    "C78_multi_adds",
    "C78_set_nothing",
    "C78_set_copy"
   ],
   "note": "The counters of the machine count calls of allocate() and of element constructors, failed ones included."
  },
  {
   "property": "C79",
   "status": "partial",
   "theorems": [
    "C79_locked_members_partial",
    "C79_locked_any_partial",
    "C79_race_free_partial",
    "C79_locked_partial",
    "C79_separate_partial",
    "C79_end",
    "C79_alone",
    "C79_use_after_destroy_refuted",
    "C79_double_destroy_refuted",
    "C79_leak_refuted",
    "C79_lock_race_refuted"
   ],
   "note": "False: the counters are plain integers (four refuted theorems: use after destruction, double destruction even if every increment and decrement is indivisible, leak, and lock() of an object whose last owner goes after expired() was tested). Partial: schedules in which no two threads are inside operations on one control block, in particular a lock around every operation, or no object with handles in two threads; with a lock around every statement also handles that the threads share and objects with handle members (C79_locked_members_partial, C79_locked_any_partial). Objects with handle members, each used by one thread: C80_shared_ptrs."
  },
  {
   "property": "C80",
   "status": "proved",
   "theorems": [
    "C80_threads",
    "C80_ends",
    "C80_programs",
    "C80_readers",
    "C80_list_steps",
    "C80_lists",
    "C80_list_const",
    "C80_list_equal_const",
    "C80_list_readers",
    "C80_set_steps",
    "C80_multi_steps",
    "C80_sets",
    "C80_multisets",
    "C80_set_const",
    "C80_set_bounds_const",
    "C80_set_readers",
    "C80_sp_steps",
    "C80_shared_ptrs",
    "C80_sp_plain",
    "C80_sp_const",
    "C80_wp_const",
    "C80_sp_readers",
    "C80_vec_steps",
    "C80_vectors",
    "C80_vec_const",
    "C80_vec_equal_const",
    "C80_vec_readers"
   ],
   "note": "Memory is sequentially consistent in the model and operator new is one step. One kind of container and one type of elements per run; C81 mixes them. Loop bounds of the model (no code) are computed from the cells the thread can see. Examples show schedules with undefined behaviour or lost elements when a writer shares its container (C80_vec_race, C80_list_race, C80_set_race, C80_sp_race). shared_ptr: members are shared_ptrs (C47); nothing is left at the end if there is no cycle of owners."
  },
  {
   "property": "C81",
   "status": "proved",
   "theorems": [
    "C81_mixed",
    "C81_steps",
    "C81_ends"
   ],
   "note": "Five element types, one for each kind; configurations and comparison functions differ from part to part. The parts create their objects themselves and do not pass them on to each other. Requirements of each kind as in C70, C30, C71 and C43 (no cycle of owners)."
  },
  {
   "property": "C82",
   "status": "proved",
   "theorems": [
    "C82_vec_round",
    "C82_vec_ends",
    "C82_vec_rounds",
    "C82_list_round",
    "C82_list_ends",
    "C82_list_rounds",
    "C82_multi_round",
    "C82_multi_ends",
    "C82_multi_rounds",
    "C82_set_round",
    "C82_set_ends",
    "C82_set_rounds"
   ],
   "note": "For vectors, lists, sets and trees that keep equal values. Between rounds the containers are dealt out anew in any way; a thread gets the cells that can be reached from its containers. A round has ended when every thread has returned and its local objects are gone. Memory is sequentially consistent, and the end of a round orders everything before it. The moments of return of two threads of a round are ordered by nothing else."
  },
  {
   "property": "C83",
   "status": "proved",
   "theorems": [
    "C83_meter",
    "C83_all",
    "C83_some",
    "C83_equal_keys"
   ],
   "note": "Counts the rounds of the loops in ++ and --; the metered functions equal those of the model (C83_meter), so the count does not depend on the bound. Everything outside these loops takes a constant number of steps per call."
  },
  {
   "property": "C84",
   "status": "proved",
   "theorems": [
    "C84_list_iterators",
    "C84_set_iterators",
    "C84_vector_iterators",
    "C84_pointers",
    "C84_reverse_iterators",
    "C84_vector_assign",
    "C84_list_assign",
    "C84_tree_insert",
    "C84_copy_if",
    "C84_copy",
    "C84_equal",
    "C84_lexicographical_compare",
    "C84_set_to_vector",
    "C84_vector_to_list"
   ],
   "note": "List insertion of any range is C20_insert_any_partial (it reverses the range, the finding of C20). The range lies in a memory of its own; ranges of the changed container itself are C10, C20, C26 and C76."
  },
  {
   "property": "C85",
   "status": "proved",
   "theorems": [
    "C85_list_adds",
    "C85_lists",
    "C85_list_threads",
    "C85_multi_adds",
    "C85_multi_emplace_all",
    "C85_multis",
    "C85_multi_threads",
    "C85_set_adds",
    "C85_sets",
    "C85_set_threads"
   ],
   "note": "C85_list_adds gives the number of added elements and the error in terms of the first refused request (SameSpec.v); C85_lists compares two runs of the same program; C85_list_threads adds the other threads of C80. C85_set_adds, C85_sets and C85_set_threads are the same for sets, C85_multi_adds, C85_multis and C85_multi_threads for trees that keep equal values. In C85_set_adds and C85_multi_adds only the report is compared with the answers of the environment (what a call adds is in C34, C38 and C64); C85_multi_emplace_all also says which elements are in the tree."
  }
 ]
}