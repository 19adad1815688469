# Formal model of nestl in Rocq (Coq 8.16.1)

nestl is a header-only C++11 container library (vector, list, set, shared_ptr/weak_ptr, a few
algorithms) whose fallible operations report failures through an error object (`OperationError&`)
instead of exceptions. This directory holds a model of that code written as total, computable
Gallina functions and theorems about it.

## Modelling approach

* **Machine.** Every operation is a function in a state-and-fault monad over a machine state: a heap
  (finite map from addresses to blocks/nodes), a failure/address oracle, and the caller's error
  object. Operations return `Done (result, state)` or `Fault reason`. A fault is the model of
  undefined behaviour (use after free, read of raw storage, construction over a live object,
  destruction of raw storage, free of a live/unknown/wrong-allocator block, null dereference,
  out-of-bounds pointer), of a failing `assert`, or of running out of fuel (non-termination).
  So "returns `Done`" in a theorem says: no undefined behaviour, no failing assertion, terminates.
* **Oracle.** Allocation success, the address handed out (any unused one), and element
  construction success are decided by a list of events in the state. Theorems quantify over all states,
  hence over all failure schedules and address choices.
* **Element types.** Element values are an arbitrary type; elements are constructed either directly
  (one failure point) or two-phase (default construction, then initialisation; two failure points).
* **Object lifetime.** A storage slot is raw or holds a live object. Construction requires raw,
  destruction and reading require live, freeing a block requires all slots raw. Exact heap equalities in
  the theorems then state absence of leaks.
* **Pointers.** list and red-black tree are modelled at pointer level: next/prev,
  parent/left/right/color fields and in-object header nodes are cells of the heap, and every assignment of the C++ code
  is one heap update. Vector pointers are (block, offset) pairs.
* **Loops** use fuel computed from the heap size; running out is a fault. For trees the fuel is a parameter (C77).

## Plan per property

Every property of `properties.jsonl` is stated as one or more theorems named `Cxx_...` in a
`Prop*.v` file; what the words in the statement mean is defined in a small specification file that does not
depend on any proof.

| property | what is modelled | how it is proved | statement in / vocabulary in |
|---|---|---|---|
| C01 | twelve vector operations as a client language, run on the model | one specification lemma per operation, induction over the history | `PropVector.v` / `VecHistSpec.v` |
| C02-C06, C08-C12, C54 | each vector member function | representation relation `vec_owns` (vector + exact heap fragment = sequence), loop lemmas by induction on the remaining range; findings by computation of a concrete run | `PropVector.v` / `VecSpec.v` |
| C07 | `grow` in wrapped 64-bit arithmetic | arithmetic on N with the bound from `cfg_ok` | `PropVector.v` |
| C13, C14 | histories, followed by destruction | consequence of the exact heap in C01; address arithmetic | `PropVector.v` |
| C15, C50, C55 | comparison loops | induction over the range | `PropVector.v`, `PropAlgo.v`, `PropList.v` |
| C16 | stale error objects | computation (refuted), lemma for clear ones; one theorem per container for set ones | `PropVector.v`, `PropExactVec.v`, `PropStale.v`, `PropStaleVec.v`, `PropStaleList.v`, `PropStaleSet.v` |
| C17-C29, C55, C60, C61 | list at the level of next/prev fields of heap cells, 20-operation client language over several lists | ring-of-links representation; `transfer`, `inject`, `remove`, `swap` as link replacement; merge/sort by induction on sequences | `PropList.v` / `ListSpec.v`, `ListHistSpec.v` |
| C30-C40 | the red-black tree at the level of parent/left/right/colour fields, 16-operation client language over several sets | annotated trees and zippers; rotation and relinking lemmas; red-black invariants; refinement to sorted lists | `PropSet.v` / `RbSpec.v`, `RbHistSpec.v`, `Order.v` |
| C41-C48, C56, C57 | heap of control blocks, handles in variables and inside owned objects, recursive destruction | counting invariant (strong/weak counters = number of handles); induction over histories and over the recursive destruction, once for graphs in which weak back references are watched from outside and once for all graphs (success or a read of freed memory) | `PropSp.v` / `SpSpec.v`, `SpHistSpec.v` |
| C49, C50 | `copy`, `copy_if`, `equal`, `lexicographical_compare` on pointer ranges | induction over ranges | `PropAlgo.v` / `AlgoSpec.v` |
| C51-C53 | two-phase construction, `uninitialised_copy`, `allocator::allocate` | case analysis, loop induction, 64-bit arithmetic | `PropVector.v`, `PropDefault.v`, `PropDefaultMore.v`, `PropDefaultSet.v` |
| C58, C59 | every modelled function, as a transformer of error object and environment | compositional predicate `honest`, proved function by function | `PropErrors.v` / `Errors.v` |
| C62, C63 | element addresses, checked access, allocator identity | representation relation; a predicate transported through all operations | `PropVector.v` |
| C64–C66 | trees that keep equal values | the tree invariant of C30 with the order "not greater"; place of insertion as first, last or nearest fitting position | `RbMultiSpec.v`, `PropMulti.v` |
| C67 | comparison operators of the tree | the two loops by induction on the remaining elements, against plain recursive definitions on lists | `PropCmp.v` |
| C68 | the same member functions with an arbitrary comparison function | the tree invariant of C30 without the order; each search loop returns a place on its path whose last comparison agrees with its side | `RbAnySpec.v`, `PropAny.v`, `PropAnyMore.v` |
| C69 | the constructor counter of the vector model over the same member functions | a cost predicate composed over the monadic code, and a potential argument for the growth factor | `VecCost.v`, `PropCost.v` |
| C70 | the member functions of C01, C10-C12 on a row of vectors | refinement to a row of plain lists; each vector owns a disjoint part of the heap | `VecRowSpec.v`, `VecRow.v`, `PropRow.v` |
| C71 | the tree functions of C64-C66 on a row of trees with equal values | refinement to a row of plain lists ; insertion of a sequence is a stable sort by induction on it | `RbMultiHistSpec.v`, `PropMultiHist.v` |
| C72 | `__rb_verify` with `rb_tree_black_count` as libstdc++ defines it (rbt.hpp:2218-2269) | the loop computes a Boolean function of the shape, whose meaning is `checked`; red-black trees satisfy it by induction | `RbVerSpec.v`, `PropVer.v` |
| C73 | the vector functions once more, over arbitrary element construction and destruction, closed over nesting depth (`NestModel.v`) | separation style: an object of depth d owns a heap fragment; the element operations satisfy `cons_ok`/`des_ok`, every vector function preserves ownership given those, so depth d+1 satisfies them; client paths by induction | `NestSpec.v`, `NestHistSpec.v`, `PropNest.v` |
| C74 | the assertions of list and shared_ptr | from the history theorems C17 and C41 and the assertion at the head of each function | `PropList.v`, `PropSp.v` |
| C75 | the comparator as a parameter of every list and tree function; `settled`: n questions whose answers determine the outcome (`CountSpec.v`) | rules for sequencing and branching (`Count.v`); descents by induction on the tree with the height bound of C32; merge by induction on both lists; sort by a potential over the bins (each merge into bin i costs at most its size, so each element pays once for each level) | `CountSpec.v`, `PropCountList.v`, `PropCountSet.v` |
| C76 | the range overload of m_insert_unique | induction on the range over the hinted insertion of C40; reading through iterators gives the same values because the other tree is not touched | `PropRange.v`, `PropRangeIter.v` |
| C77 | the number of rounds of loops as a parameter of the tree model, `limit` | all tree proofs hold for every limit that allows 2*log2(cells)+1 rounds, by the height of red-black trees; programs under a tighter limit either stop or agree (`RbUpto.v`, one congruence lemma per function) | `PropRounds.v` |
| C78 | the counters of allocations and constructions in the machine, ticked by every call whether it succeeds or not | rules for sequencing calls that ask for nothing, for n things or at most for n blocks (`Asks.v`), on top of the generated frame lemmas `Honest*.v`; the state-dependent cases on top of the specifications of C10, C29 and C40 | `PropAsks.v`, `PropAsksSet.v`, `PropAsksRest.v` |
| C79 | threads that interleave single accesses to the counters (`SpThrModel.v`), with vocabulary for handles, owners, races and locks in `SpThrSpec.v` | an invariant of the program counters of all threads (`SpThr.v`) kept by every step without a race; `C79_alone` ties an uninterrupted statement to the sequential model `SpModel.v`; refutations: a lost increment (use after destruction), a repeated test of the counter (the object is destroyed twice, also with atomic counters), a lost decrement (leak), an object that expires between expired() and lock(); with a lock around every statement the schedules are sequential programs of `SpHistSpec.v` on common variables, to which the invariant of C41 applies (`PropLocked.v`) | `PropThreads.v`, `PropLocked.v` |
| C80 | programs cut into single accesses to memory, allocator calls and failures (`prog` in `ConcModel.v`), threads with private stacks that take turns on one memory; jobs, compatible jobs, schedules in `ConcSpec.v` | every function of the vector, list, tree and shared_ptr models is shown to be such a program (`ConcVec.v`, `ConcList.v`, `ConcSet.v`, `ConcMulti.v`, `ConcSp.v`), const members one that only reads; an invariant relates each thread to a run of its job alone in its own part of the memory, with the addresses it was given replayed (`Conc.v`); then the one-thread theorems C70, C17, C30, C71, C43 apply | `PropConc.v`, `PropConcVec.v`, `PropConcList.v`, `PropConcSet.v`, `PropConcSp.v` |
| C81 | the cell types of the four models joined into one (`ucell`); a program on one cell type becomes a program on all (`lift` in `ConcMix.v`) | lifting commutes with execution (`exec_lift`); then the invariant of C80 applies to programs of different kinds | `PropMixed.v` |
| C82 | rounds of threads of C80 with the containers and their cells passed on at the end of a round (`rounds` in `Handover.v`) | induction over the rounds; within a round the invariant of C80 together with the separation of the parts; dealing out containers anew splits and joins the parts (`deal_anew`) | `PropHandover.v`, `PropHandoverList.v`, `PropHandoverSet.v`, `PropHandoverMulti.v` |
| C83 | ++ and -- with a meter for the rounds of their loops (`MeterSpec.v`), proved equal to the functions of `RbModel.v` | amortised: the right turns minus the left turns on the way from the root change by what a step takes beyond two rounds (`Meter.v`) | `PropMeter.v` |
| C84 | the templates for any record of iterator operations, the range in a second memory (`IterModel.v`); what it means that iterators run over a sequence (`IterSpec.v`) | for the values read the loops equal those of the models for given values (`IterProofs.v`); the operations of each container's iterators satisfy the record | `PropIter.v` |
| C85 | two runs of one client program in worlds with different memory and addresses but the same refused requests; the outcome of a call as a function of the answers of the environment (`SameSpec.v`, `ListDet.v`, `ListDetHist.v`, `RbDet.v`, `RbDetHist.v`, `RbDetMulti.v`) | induction over the loops with the exact answers, uniqueness of the meaning of a history (a stable sorted arrangement is unique; so is an ascending one, and the place closest to a hint), `C80_programs` for threads | `PropSame.v`, `PropSameSet.v`, `PropSameMulti.v` |
| partial properties | the cases outside the range of a `_partial` theorem | for each such case a theorem that says what the code does instead, by symbolic execution to the fault or the wrong result (`Stops.v`: a program stops with a given undefined behaviour or returns) | `PropExactVec.v`, `PropExactList.v`, `PropExactSp.v` |

Properties that are false of the code are kept in view: the theorem for the part that holds is
suffixed `_partial`, and a theorem suffixed `_refuted` gives a machine-checked counterexample.
No property was found that cannot be expressed in the model; what the model leaves out is listed below.

## Trusted base

1. **Coq's kernel** (8.16.1) and its `vm_compute` machine, which is used in examples and refutations.
2. **Assumptions.** `Print Assumptions` follows every property theorem. Each of them reports
   `Closed under the global context`: no axiom, neither own nor from the standard library, is used.
   (A scan of the loaded libraries lists seven constants `Coq.ssr.ssrunder.Under_rel.*`. They are the parameters
   of a module type in Coq's own ssreflect plugin, loaded by std++, and no theorem here depends on them.)
   std++ is used for finite maps, lists and tactics; it is axiom-free.
3. **The model is a faithful reading of the C++ text.** Nothing checks this mechanically: the code cannot be
   built here. Every definition cites the lines it models and the simplifications it makes.
4. **The environment is an oracle.** `operator new`, element constructors, element assignment and
   `two_phase_initializator::init` succeed or fail, and pick addresses, as a list of events says. All theorems
   quantify over that list.
5. **Element types are regular**: a copy has the value of the original, a destructor has no effect outside the object
   (for shared_ptr: destroys the members of the object, which are handles), comparators and predicates are pure functions.

## What is modelled

* `Base.v`: the machine; `class_operations.hpp` (direct, nothrow and two-phase construction of both build modes), error objects as
  "clear or one error", `assert`.
* `VecDefault.v`: `resize(n)` and `emplace_back()`, which construct elements without arguments (one failure point also for two-phase elements).
* `VecModel.v`: `implementation/vector.hpp` (all members except those listed below), `allocator.hpp`,
  `detail/uninitialised_copy.hpp`, `detail/destroy.hpp`, and the throwing wrappers of `has_exceptions/vector.hpp`.
  Sizes are computed in wrapped 64-bit arithmetic; an allocation request that wrapped gets the smaller block.
* `ListModel.v`: `implementation/list.hpp` (nodes, hooks, all insertions, erasures, assignments, splice, merge, sort, swap, moves,
  comparison) and `has_exceptions/list.hpp`; `ListIter.v`: insertion of a range given by list iterators, read while nodes are inserted.
* `RbModel.v`: `implementation/detail/red_black_tree.hpp` and `implementation/set.hpp`: increment/decrement, rotations, rebalancing after
  insertion and erasure, unique insertion (plain, hinted, ranged, emplacing), all lookups, all erasures, copy, move, swap, clear, destruction; `RbIter.v`: insertion of a range given by iterators of a tree.
* `RbMultiModel.v`: the insertion functions of the tree that keep equal values (plain, in front, hinted, emplacing). No container in the
  repository uses them, but they are public members of the tree. The range version of `m_insert_equal` is not modelled (it does not compile).
* `RbCmpModel.v`: the comparison operators of the tree (`==`, `<` and those derived from them) over `equal` and `lexicographical_compare`.
* `RbVerModel.v`: the tree's consistency check `__rb_verify`.
* `NestModel.v`: the functions of `VecModel.v` again, with the construction and the destruction of elements as parameters, and their instances for
  elements that are vectors, to any depth. With plain elements they are the functions of `VecModel.v` (lemmas `plain_...`, by computation).
* `SpModel.v`: `implementation/shared_ptr.hpp`: control block, counters, `shared_ptr` and `weak_ptr` with all constructors, assignments, `reset`,
  `swap`, `lock`, `make_shared`, `make_shared_a`.
* `SpThrModel.v`: the counter operations of the same file (`add_ref`, `release`, `weak_add_ref`, `weak_release`, `expired`, `lock`, dereferencing)
  cut into single accesses, interleaved between threads; sequentially consistent memory, handles private to their thread, objects without members.
* `ConcModel.v`: no code of its own; it gives the functions of the other models a semantics in which threads interleave between any two accesses to memory
* `AlgoModel.v`: `algorithm.hpp` on raw-pointer ranges. `IterModel.v` has the same functions, and the members of the containers that take a range, for any iterators (C84). The loops only use
  `*`, `++` and `!=`.

## What is not modelled

* Templates and overload resolution: the model is of the instantiated code. Members that do not compile when instantiated are modelled as they would behave
  after the smallest repair, and each is listed under findings.
* Concurrency: the code contains no threads and no synchronisation.  C79 (handles of `shared_ptr` in several threads) and C80 (containers and pointers in several threads) model threads with sequentially consistent memory; all other theorems are about one thread.  Weak memory, data races on one word that tear it, and thread-local or static data (the code has none) are not modelled.
* Alignment, `string.hpp` (an alias of `std::basic_string`), `type_traits.hpp`, compiler configuration headers.
* What a two-phase `init()` does with an argument that is the object under initialisation is up to the user's function; the model reads the default value and assigns it.
* std::reverse_iterator is not in the repository; `rev_iter` (`IterModel.v`) models it through `--`. Const iterators are identified with iterators.
* The text of error objects. `exception_ptr_error` and `errc_based_error` are "clear or set"; see the last finding.
* `sizeof(T)` is between 1 and 2^61 and no block is larger than 2^63-1 bytes (`cfg_ok`).

## Findings

Each of the following is a claim a user would expect that is false of the code; those with a theorem are machine-checked.

| what happens | theorem |
|---|---|
| vector: an insertion in the middle that fails while shifting leaves a hole; destroying the vector is undefined behaviour | `C04_insert_destructible_refuted`, `C04_damaged_destroy_refuted` |
| vector: `v.push_back(v[0])`, `v.insert(p, v[i])`, `v.resize(n, v[0])` read a moved or freed element | `C05_*_refuted` |
| vector: `reserve(n)` with n*sizeof(T) >= 2^64 gets a smaller block than it believes | `C06_reserve_overflow_refuted`, `C53_allocate_overflow_refuted` |
| vector: `resize` within the capacity reallocates | `C09_resize_within_capacity_refuted` |
| vector: move assignment swaps the storage but not a stateful allocator | `C12_move_assign_allocator_refuted` |
| vector: `assign` and `copy_nothrow` replace a stateful allocator by a default constructed one | `C63_assign_refuted` |
| a set error object on entry makes a successful allocation leak | `C16_stale_err_leaks_refuted`, `C16_stale_push_back`, `C16_stale_list_leaks`, `C16_stale_set`, `C16_stale_multiset`, `C16_stale_make_shared` |
| assigning or copying to a vector, a list or a set with an error object that is set empties the target; except for the set, storage leaks | `C16_stale_assign_n`, `C16_stale_assign`, `C16_stale_copy`, `C16_stale_list_assign`, `C16_stale_set_copy` |
| inserting into a vector with spare capacity and an error object that is set can leave an object behind the last element, which no destructor ends | `C16_stale_insert`, `C16_stale_push_back` |
| list: inserting a range reverses it; a range of the list itself in front of its own end arrives twice | `C20_insert_range_refuted`, `C20_insert_self_refuted` |
| list: splicing a range to its own end loses it | `C22_splice_range_self_refuted`, `..._release_refuted` |
| list: self copy is undefined behaviour | `C26_self_copy_refuted` |
| list: swap and assign free nodes with the wrong stateful allocator | `C28_swap_refuted`, `C28_assign_refuted` |
| set: a failed insertion returns `{end(), true}` | `C34_failure_claims_insertion_refuted` |
| weak_ptr: `lock()` on an expired pointer returns a pointer to a destroyed object | `C44_lock_expired_refuted` |
| weak_ptr: self assignment of the last expired handle reads freed memory; move assignment counts a reference twice | `C45_self_assign_refuted`, `C45_move_assign_refuted` |
| destroying an object whose weak_ptrs all go with it (parent and child with a weak_ptr back): release() reads freed memory | `C47_weak_back_reference_refuted`, `C47_unwatched_refuted` |
| `p = std::move(p->next)` reads freed memory | `C48_move_from_member_refuted` |
| counters are not synchronised: handles of one object in two threads lead to use after destruction, double destruction or a leak (the double destruction stays with atomic counters, because `release` reads the counter again) | `C79_use_after_destroy_refuted`, `C79_double_destroy_refuted`, `C79_leak_refuted`, `C79_lock_race_refuted` |
| tree: with a comparison function such as `<=`, an insertion with a hint overwrites a link and loses a node | `C68_hint_refuted` |
| `make_shared_a` ignores its allocator argument | `C56_make_shared_allocator_refuted` |

Found by reading, outside the model (they do not compile when instantiated):

* `vector::clear()` passes three arguments to `destroy`; `NESTL_ASSERT` in the range insertion of vector is not defined.
* the `two_phase_initializator` of vector (vector.hpp:211-221) calls its function `construct` where `class_operations` (and the one of list) use `init`,
  so without exceptions a vector cannot be an element that is copied.
* `list::erase(first, last)` returns a node pointer; `has_exceptions::list::operator=(list&&)`.
* `list::remove`, `reverse` and `unique` are declared but not defined (list.hpp:578-588).
* tree: `m_insert_equal` and `m_insert_equal_at` call `m_insert_` without the error argument; `rb_tree_black_count` is declared but not defined;
  `max_size`, `swap`, `copy_nothrow` and `operator=(&&)` need an allocator_traits specialisation that is not there.
* without exceptions, `class_operations::assign` is only enabled if `is_nothrow_assignable<T, Y>` holds, with `T` instead of `T&`; that is false for
  every scalar type, so for instance the operations of `vector<int>` that assign elements do not instantiate.
* `errc_based_error(0)` is an error object that converts to false: an operation that fails with code 0 looks successful.

## Tests of the theorems against wrong programs

`seeded/LOG.jsonl` has one line per attempt: the definition that was edited in a scratch copy, the edit, the claim it breaks and
what failed. How far each field can be relied on:

* `first_failing_proofs` is observed: these are the proofs that the rebuild of the edited copy rejected. Files that import a rejected one
  were not built, so the list stops at the first failures.
* `theorems_failed` is computed, not observed: the property theorems whose proofs, in the sources as they are now, use (directly or not) a
  proof that was rejected. It is found by name in the text of the files, so it can name a theorem that does not really need the rejected proof, and
  because the log is regenerated it also names theorems written after the edit was tried. None of them was shown false one by one.
* `witness` says what is known beyond a rejected proof script. In about 280 entries (the edits made by hand) it is the first violation found by
  extracting the edited model and running it on random histories against an independent reading of the statements in Python, or a reason
  written by hand. In about 880 entries (edits made by a program, `auto.`, and the runs for single properties other than `same.`) it only says which kind of proof was
  rejected: there the statement of the rejected lemma describes the effect of the edited function, but nothing was run, so a rejected
  script whose statement is still true is not excluded.
* In the `same.` entries (C85) a case was computed on the edited model that contradicts the theorem named, so there `theorems_failed` is just the theorem the
  case refutes. One of these edits turned out to be an equivalent program.
* Entries whose witness is `control` or `equivalent program` break no claim.
