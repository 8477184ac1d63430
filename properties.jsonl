{"id": "C01", "title": "indirect (C++20): no undefined behaviour in any client history", "statement": "If a client only uses live indirect objects, dereferences only non-valueless ones and swaps only when the allocators propagate on swap or compare equal, then no sequence of operations on indirect objects dereferences a null/dangling/uninitialised pointer, destroys or frees anything twice, frees a block with the wrong allocator or type, frees a block that still holds a live object, constructs over a live object or reaches unreachable().", "quantifier": "every client history (finite sequence of constructions, copies, moves, assignments, value assignments, swaps, in-place mutations, observations and destructions over any number of objects), every allocator (any combination of the propagate/always-equal traits, any sound ==), every value type, every schedule of exceptions thrown by the allocator or by the value type, and every choice (including reuse) of block addresses", "why_tests_cant": "Tests run a few dozen fixed sequences with at most one throwing operation; the space of histories x allocators x exception points is infinite.", "anchors": ["/repo/indirect.h: indirect (all constructors, operator=, swap, ~indirect, reset, construct_from, destroy_with)"]}
{"id": "C02", "title": "polymorphic (C++20): no undefined behaviour in any client history", "statement": "Same as C01 for polymorphic<T>, including type-erased clone/move/destroy through the control block for any set of derived types.", "quantifier": "every client history (finite sequence of constructions, copies, moves, assignments, value assignments, swaps, in-place mutations, observations and destructions over any number of objects), every allocator (any combination of the propagate/always-equal traits, any sound ==), every value type, every schedule of exceptions thrown by the allocator or by the value type, and every choice (including reuse) of block addresses, and every assignment of dynamic types to objects", "why_tests_cant": "Same as C01; additionally the set of derived types is open.", "anchors": ["/repo/polymorphic.h: polymorphic, control_block, direct_control_block (clone, move, destroy), create_control_block"]}
{"id": "C03", "title": "indirect_cxx14: no undefined behaviour in any client history", "statement": "Same as C01 for the C++14 header.", "quantifier": "every client history (finite sequence of constructions, copies, moves, assignments, value assignments, swaps, in-place mutations, observations and destructions over any number of objects), every allocator (any combination of the propagate/always-equal traits, any sound ==), every value type, every schedule of exceptions thrown by the allocator or by the value type, and every choice (including reuse) of block addresses", "why_tests_cant": "Same as C01.", "anchors": ["/repo/indirect_cxx14.h: indirect"]}
{"id": "C04", "title": "polymorphic_cxx14: no undefined behaviour in any client history", "statement": "Same as C02 for the C++14 header.", "quantifier": "every client history (finite sequence of constructions, copies, moves, assignments, value assignments, swaps, in-place mutations, observations and destructions over any number of objects), every allocator (any combination of the propagate/always-equal traits, any sound ==), every value type, every schedule of exceptions thrown by the allocator or by the value type, and every choice (including reuse) of block addresses", "why_tests_cant": "The C++14 tests use the same few allocators; the failure needs a stateful allocator with propagate_on_container_copy_assignment and an allocator-extended move between unequal instances.", "anchors": ["/repo/polymorphic_cxx14.h: polymorphic (allocator-extended move constructor, lines 332-351)"]}
{"id": "C05", "title": "No leaks, ever", "statement": "At every point of every history the number of live heap blocks equals the number of live non-valueless objects, each block being owned by exactly one of them; when all objects have been destroyed no block remains. This holds also after operations that exited by an exception.", "quantifier": "every client history (finite sequence of constructions, copies, moves, assignments, value assignments, swaps, in-place mutations, observations and destructions over any number of objects), every allocator (any combination of the propagate/always-equal traits, any sound ==), every value type, every schedule of exceptions thrown by the allocator or by the value type, and every choice (including reuse) of block addresses", "why_tests_cant": "A leak on one particular exception path in one particular history is invisible unless that exact path is executed.", "anchors": ["/repo/indirect.h: construct_from, reset, operator=", "/repo/polymorphic.h: create_control_block, clone, move, reset", "/repo/indirect_cxx14.h", "/repo/polymorphic_cxx14.h"]}
{"id": "C06", "title": "Exactly-once lifecycle of every block and owned object", "statement": "In the log of allocator and value-type calls, every allocated block is deallocated at most once, only after it was allocated, with the same type and an allocator of the same resource; every successfully constructed owned object is destroyed exactly once, between its construction and the deallocation of its block; no construct/destroy/assign ever touches a block that is not currently allocated.", "quantifier": "every client history (finite sequence of constructions, copies, moves, assignments, value assignments, swaps, in-place mutations, observations and destructions over any number of objects), every allocator (any combination of the propagate/always-equal traits, any sound ==), every value type, every schedule of exceptions thrown by the allocator or by the value type, and every choice (including reuse) of block addresses", "why_tests_cant": "It is a statement about the whole log of an unbounded execution.", "anchors": ["/repo/indirect.h: construct_from, destroy_with", "/repo/polymorphic.h: direct_control_block::destroy"]}
{"id": "C07", "title": "indirect behaves as a value (refinement)", "statement": "Observed only through its public API, a program using indirect objects behaves exactly like a program in which each object holds either an independent T value or the valueless state, plus an allocator: no aliasing between objects is ever observable, and each operation has the effect given in the normative wording of DRAFT.md.", "quantifier": "every client history (finite sequence of constructions, copies, moves, assignments, value assignments, swaps, in-place mutations, observations and destructions over any number of objects), every allocator (any combination of the propagate/always-equal traits, any sound ==), every value type, every schedule of exceptions thrown by the allocator or by the value type, and every choice (including reuse) of block addresses", "why_tests_cant": "Requires comparing against an ideal semantics on all programs.", "anchors": ["/repo/indirect.h: indirect", "/repo/indirect_cxx14.h: indirect", "/repo/DRAFT.md: X.Y.3-X.Y.7"]}
{"id": "C08", "title": "polymorphic behaves as a value of dynamic type (refinement)", "statement": "As C07 for polymorphic, where the abstract value is a pair (dynamic type, value): copies, moves and assignments preserve the dynamic type and never slice.", "quantifier": "every client history (finite sequence of constructions, copies, moves, assignments, value assignments, swaps, in-place mutations, observations and destructions over any number of objects), every allocator (any combination of the propagate/always-equal traits, any sound ==), every value type, every schedule of exceptions thrown by the allocator or by the value type, and every choice (including reuse) of block addresses, and every dynamic type", "why_tests_cant": "Requires comparing against an ideal semantics on all programs and all derived types.", "anchors": ["/repo/polymorphic.h: polymorphic", "/repo/polymorphic_cxx14.h: polymorphic", "/repo/DRAFT.md: X.Z.3-X.Z.6"]}
{"id": "C09", "title": "Independence of distinct objects", "statement": "An operation that does not name an object x leaves x completely unchanged: same valueless state, same owned object at the same address, same value, same allocator. In particular mutating a copy never changes the original and conversely.", "quantifier": "every client history (finite sequence of constructions, copies, moves, assignments, value assignments, swaps, in-place mutations, observations and destructions over any number of objects), every allocator (any combination of the propagate/always-equal traits, any sound ==), every value type, every schedule of exceptions thrown by the allocator or by the value type, and every choice (including reuse) of block addresses, and every object not named by the operation", "why_tests_cant": "Unit tests check independence for one copy of one value.", "anchors": ["/repo/indirect.h", "/repo/polymorphic.h", "/repo/indirect_cxx14.h", "/repo/polymorphic_cxx14.h"]}
{"id": "C10", "title": "Copy construction", "statement": "Copy construction from a non-valueless object yields a non-valueless object owning a new object at a fresh address whose value is a copy of the source's (same dynamic type), allocated and constructed with select_on_container_copy_construction of the source's allocator (or the given allocator); copying from valueless yields valueless without allocating; the source is unchanged.", "quantifier": "all reachable states, all allocators, all values and dynamic types", "why_tests_cant": "Universal over states, allocators and values.", "anchors": ["/repo/indirect.h: lines 129-135, 185-195", "/repo/polymorphic.h: lines 189-193, 240-248", "/repo/indirect_cxx14.h", "/repo/polymorphic_cxx14.h"]}
{"id": "C11", "title": "Move construction steals", "statement": "If the allocators compare equal (or are always equal), move construction transfers the owned object without any allocation, deallocation or operation on the value type, the new object owns the very same address, and the source becomes valueless.", "quantifier": "all reachable states, allocators and values", "why_tests_cant": "Universal over states; 'no operation on the value type at all' is a statement about the complete call log.", "anchors": ["/repo/indirect.h: lines 137-139, 197-216", "/repo/polymorphic.h: lines 195-197, 250-267", "/repo/indirect_cxx14.h", "/repo/polymorphic_cxx14.h"]}
{"id": "C12", "title": "Allocator-extended move construction leaves the source valueless", "statement": "DRAFT.md X.Y.3 paragraph 14 and the move-assignment wording: after an allocator-extended move construction, the source object is valueless.", "quantifier": "all allocators, including unequal ones", "why_tests_cant": "The tests only record what the implementation does for two tagged allocators; conformance to the wording is about all allocators.", "anchors": ["/repo/indirect.h: lines 197-216", "/repo/indirect_cxx14.h: lines 215-231", "/repo/DRAFT.md: X.Y.3 allocator-extended move constructor"]}
{"id": "C13", "title": "Move assignment: effects and valueless source", "statement": "Move assignment from a non-valueless source makes the target own the source's value; with equal allocators no allocation or value operation other than destruction of the target's previous object happens, the address is transferred and the source becomes valueless; with unequal allocators the value is moved into storage of the proper allocator. DRAFT.md X.Y.5 paragraph 7 also promises that the source is valueless afterwards.", "quantifier": "all reachable states, allocators, values", "why_tests_cant": "Universal over states and allocators.", "anchors": ["/repo/indirect.h: lines 260-292", "/repo/polymorphic.h: lines 305-337", "/repo/indirect_cxx14.h", "/repo/polymorphic_cxx14.h", "/repo/DRAFT.md: X.Y.5"]}
{"id": "C14", "title": "Self-assignment is a no-op", "statement": "x = x and x = std::move(x) (through any alias) change nothing: neither value, address, allocator nor valueless state, and perform no allocator or value-type call.", "quantifier": "all reachable states and all allocators (even ones that do not compare equal to themselves)", "why_tests_cant": "Universal over states and allocators.", "anchors": ["/repo/indirect.h: lines 231, 265", "/repo/polymorphic.h: lines 280, 308", "/repo/indirect_cxx14.h", "/repo/polymorphic_cxx14.h"]}
{"id": "C15", "title": "swap exchanges owned objects without touching them", "statement": "swap(x, y) exchanges owned objects (addresses) and valueless states, never throws, makes no allocator or value-type call, exchanges allocators exactly when propagate_on_container_swap, and swapping twice restores the original state.", "quantifier": "all reachable states, all allocators, including x and y the same object", "why_tests_cant": "Universal over states.", "anchors": ["/repo/indirect.h: lines 351-371", "/repo/polymorphic.h: lines 373-393", "/repo/indirect_cxx14.h", "/repo/polymorphic_cxx14.h"]}
{"id": "C16", "title": "Exact preconditions", "statement": "swap is undefined exactly when propagate_on_container_swap is false and the allocators compare unequal; operator* and operator-> are undefined exactly when the object is valueless; every other operation on live objects is defined in every state.", "quantifier": "all reachable states and allocators", "why_tests_cant": "A test can only observe that some calls do not crash.", "anchors": ["/repo/indirect.h: lines 311-366", "/repo/polymorphic.h: lines 343-388", "/repo/indirect_cxx14.h", "/repo/polymorphic_cxx14.h"]}
{"id": "C17", "title": "Valueless only by moving", "statement": "An object can be valueless only if it was moved from, or its state was copied, moved, assigned or swapped from an object that could itself be valueless. In a history without moves no object is ever valueless, whatever exceptions are thrown.", "quantifier": "every client history (finite sequence of constructions, copies, moves, assignments, value assignments, swaps, in-place mutations, observations and destructions over any number of objects), every allocator (any combination of the propagate/always-equal traits, any sound ==), every value type, every schedule of exceptions thrown by the allocator or by the value type, and every choice (including reuse) of block addresses", "why_tests_cant": "It is an invariant of all histories including all exception points.", "anchors": ["/repo/indirect.h", "/repo/polymorphic.h", "/repo/DRAFT.md: X.Y.1 paragraph 1"]}
{"id": "C18", "title": "Failed construction leaves no trace", "statement": "If any constructor exits by an exception then no object comes into existence, every block allocated on the way has been deallocated, every other object is unchanged (for moves: up to what the value type's own throwing move does to its source) and the exception is the one thrown by the allocator or the value type.", "quantifier": "all constructors, all states, all exception points", "why_tests_cant": "Every exception point of every constructor under every state.", "anchors": ["/repo/indirect.h: construct_from", "/repo/polymorphic.h: create_control_block, clone, move", "/repo/indirect_cxx14.h", "/repo/polymorphic_cxx14.h"]}
{"id": "C19", "title": "Copy assignment exception guarantee", "statement": "If copy assignment exits by an exception, polymorphic is completely unchanged (strong guarantee); indirect is completely unchanged unless the exception came from the value type's own assignment, in which case it still owns the same object at the same address with the same allocator and only the object's value is whatever the value type's assignment left.", "quantifier": "all states, allocators, exception points", "why_tests_cant": "Every exception point under every state and allocator configuration.", "anchors": ["/repo/indirect.h: lines 228-258", "/repo/polymorphic.h: lines 279-303", "/repo/indirect_cxx14.h", "/repo/polymorphic_cxx14.h", "/repo/DRAFT.md: X.Y.5 paragraph 4, X.Z.5 paragraph 4"]}
{"id": "C20", "title": "Move assignment exception guarantee", "statement": "If move assignment exits by an exception, the target is completely unchanged and the source still owns the same object at the same address, changed at most as the value type's own throwing move constructor changes its source.", "quantifier": "all states, allocators, exception points", "why_tests_cant": "Every exception point under every state and allocator configuration.", "anchors": ["/repo/indirect.h: lines 260-292", "/repo/polymorphic.h: lines 305-337", "/repo/DRAFT.md: X.Y.5 paragraph 9, X.Z.5 paragraph 8"]}
{"id": "C21", "title": "noexcept operations never terminate the program", "statement": "No operation declared noexcept (move construction, move assignment, swap, destruction, accessors, under the conditions given in their exception specifications) lets an exception escape, i.e. none calls std::terminate.", "quantifier": "all traits, allocators, states and exception schedules", "why_tests_cant": "Needs a throwing allocator or value type with exactly the right traits; the tests have no such combination.", "anchors": ["/repo/indirect.h: lines 260-262", "/repo/polymorphic.h: lines 305-307", "/repo/indirect_cxx14.h: lines 270-272", "/repo/polymorphic_cxx14.h: lines 353, 384-386"]}
{"id": "C22", "title": "Allocator propagation", "statement": "An object's allocator is replaced only by copy assignment when POCCA, by move assignment when POCMA and by swap when POCS (never by self-assignment or a failed assignment); otherwise it is the one given at construction (default, supplied, SOCCC of the source, or the moved-from source's).", "quantifier": "every client history (finite sequence of constructions, copies, moves, assignments, value assignments, swaps, in-place mutations, observations and destructions over any number of objects), every allocator (any combination of the propagate/always-equal traits, any sound ==), every value type, every schedule of exceptions thrown by the allocator or by the value type, and every choice (including reuse) of block addresses", "why_tests_cant": "Universal over histories and trait combinations.", "anchors": ["/repo/indirect.h", "/repo/polymorphic.h", "/repo/indirect_cxx14.h", "/repo/polymorphic_cxx14.h", "/repo/DRAFT.md: X.Y.1 paragraph 4"]}
{"id": "C23", "title": "Owned storage belongs to the object's allocator", "statement": "At every point of every history the block owned by an object was allocated from the same memory resource as the object's current allocator, so it can always be returned through it.", "quantifier": "every client history (finite sequence of constructions, copies, moves, assignments, value assignments, swaps, in-place mutations, observations and destructions over any number of objects), every allocator (any combination of the propagate/always-equal traits, any sound ==), every value type, every schedule of exceptions thrown by the allocator or by the value type, and every choice (including reuse) of block addresses", "why_tests_cant": "Invariant over all histories and trait combinations; a single wrong trait test (as in the C++14 polymorphic) breaks it only for unusual allocators.", "anchors": ["/repo/indirect.h", "/repo/polymorphic.h", "/repo/indirect_cxx14.h", "/repo/polymorphic_cxx14.h: line 336"]}
{"id": "C24", "title": "Reference and pointer stability", "statement": "A reference obtained by operator* or operator-> stays valid, and keeps denoting an object holding the same value unless assigned through, across every operation that does not name its owner; it survives a move construction, an equal-allocator move assignment and swap of its owner (following the owned object to its new owner), and in-place value assignment.", "quantifier": "every client history (finite sequence of constructions, copies, moves, assignments, value assignments, swaps, in-place mutations, observations and destructions over any number of objects), every allocator (any combination of the propagate/always-equal traits, any sound ==), every value type, every schedule of exceptions thrown by the allocator or by the value type, and every choice (including reuse) of block addresses", "why_tests_cant": "Universal over histories.", "anchors": ["/repo/indirect.h", "/repo/polymorphic.h", "/repo/DRAFT.md"]}
{"id": "C25", "title": "Exact allocation and value-operation costs", "statement": "Each operation performs exactly the allocator and value-type calls the design promises: equal-allocator moves and swaps none; copies one allocation and one copy; assignment to an engaged indirect with equal allocators one assignment and no allocation; destruction of an engaged object one destroy and one deallocate; valueless objects none.", "quantifier": "all reachable states, allocators and values", "why_tests_cant": "Statement about the complete call log for all states.", "anchors": ["/repo/indirect.h", "/repo/polymorphic.h", "/repo/indirect_cxx14.h", "/repo/polymorphic_cxx14.h"]}
{"id": "C26", "title": "Value assignment to indirect", "statement": "x = u assigns to the owned object in place (same address, no allocation) when x is engaged, constructs a new owned object with x's allocator when x is valueless, leaves the allocator unchanged, forwards u with its value category, and is well behaved when u refers to x's own object.", "quantifier": "all reachable states, value categories and aliasings", "why_tests_cant": "Universal over states and aliasings.", "anchors": ["/repo/indirect.h: lines 294-305", "/repo/indirect_cxx14.h: lines 303-315"]}
{"id": "C27", "title": "Perfect forwarding and exception identity", "statement": "Constructors hand their argument to the value type with its value category: lvalue arguments are copied from, rvalue arguments moved from, exactly once; any exception thrown by the allocator or the value type reaches the caller unchanged.", "quantifier": "all constructors, arguments and exception points", "why_tests_cant": "Universal over states, value types and exception points.", "anchors": ["/repo/indirect.h: construct_from", "/repo/polymorphic.h: create_control_block, direct_control_block", "/repo/indirect_cxx14.h", "/repo/polymorphic_cxx14.h"]}
{"id": "C28", "title": "Copying does not modify the source", "statement": "Copy construction and copy assignment take their source by const reference and never modify the source's owned object, for every value type.", "quantifier": "all value types with a copy constructor, including those with additional constructors taking a non-const lvalue", "why_tests_cant": "Needs a value type whose non-const-lvalue constructor differs from its copy constructor; none of the tests uses one.", "anchors": ["/repo/indirect.h: lines 249", "/repo/polymorphic.h: lines 85-95, 295", "/repo/indirect_cxx14.h: copy assignment", "/repo/polymorphic_cxx14.h: clone", "/repo/DRAFT.md: X.Z.3 copy constructor"]}
{"id": "C29", "title": "Equality laws", "statement": "== on indirect objects is defined for valueless operands and lifts the value type's ==: reflexive, symmetric and transitive whenever that of the value type is; two valueless objects are equal, a valueless and an engaged one never are; != is its negation.", "quantifier": "all states of both operands, all value types, heterogeneous T/U", "why_tests_cant": "Laws over all values and states.", "anchors": ["/repo/indirect.h: lines 377-398", "/repo/indirect_cxx14.h: lines 375-394"]}
{"id": "C30", "title": "Ordering laws", "statement": "<=> on indirect objects is consistent with ==, lifts the value type's ordering (partial, weak or strong, synthesised from < if there is no <=>), places valueless strictly below every engaged object and equivalent to valueless, and is transitive, antisymmetric and (for strong/weak value types) total, so that indirect can be used as an ordered-container key.", "quantifier": "all states, all value types", "why_tests_cant": "Laws over all triples of values and states.", "anchors": ["/repo/indirect.h: synth_three_way, lines 400-408", "/repo/indirect_cxx14.h: lines 395-428"]}
{"id": "C31", "title": "Comparison with plain values, both operand orders", "statement": "Comparing an indirect with a plain value u behaves as comparing its owned object with u if engaged; a valueless object is unequal to and less than every u; swapping the operands gives the mirrored result.", "quantifier": "all states, values and value types", "why_tests_cant": "Universal over values, states and operator rewriting.", "anchors": ["/repo/indirect.h: lines 389-398, 410-425", "/repo/indirect_cxx14.h: lines 430-544"]}
{"id": "C32", "title": "C++14 and C++20 comparison operators agree", "statement": "For every pair of operands the six C++14 relational operators give the same result as the expressions built from the C++20 == and <=> by operator rewriting, for every value type whose own operators are mutually consistent (including partial orders).", "quantifier": "all states, all values, all consistent value types", "why_tests_cant": "Equivalence of two implementations over all inputs.", "anchors": ["/repo/indirect.h: lines 377-425", "/repo/indirect_cxx14.h: lines 375-544"]}
{"id": "C33", "title": "Hash is consistent with equality", "statement": "Objects that compare equal hash equal, engaged objects hash as their owned value, valueless objects all hash to the same value, and hashing a valueless object is defined.", "quantifier": "all states and value types with a consistent hash", "why_tests_cant": "Universal over values.", "anchors": ["/repo/indirect.h: lines 474-483", "/repo/indirect_cxx14.h: lines 584-592"]}
{"id": "C34", "title": "Const operations are data-race free", "statement": "Any number of threads may concurrently copy from, compare, hash, dereference for reading and query shared const objects while each thread also freely modifies, creates and destroys its own objects: in every interleaving no two threads make conflicting accesses, nothing is undefined, and every thread obtains the results it would have obtained running alone.", "quantifier": "all programs of all threads, all interleavings of their elementary accesses", "why_tests_cant": "All schedules.", "anchors": ["/repo/indirect.h", "/repo/polymorphic.h"]}
{"id": "C35", "title": "C++14 and C++20 headers implement the same class", "statement": "For every history, the C++14 header produces the same observable results, exceptions and sequence of allocator and value-type calls as the C++20 header.", "quantifier": "every client history (finite sequence of constructions, copies, moves, assignments, value assignments, swaps, in-place mutations, observations and destructions over any number of objects), every allocator (any combination of the propagate/always-equal traits, any sound ==), every value type, every schedule of exceptions thrown by the allocator or by the value type, and every choice (including reuse) of block addresses", "why_tests_cant": "Equivalence of two implementations over all programs.", "anchors": ["/repo/indirect.h", "/repo/indirect_cxx14.h", "/repo/polymorphic.h", "/repo/polymorphic_cxx14.h"]}
{"id": "C36", "title": "initializer_list construction creates the requested dynamic type", "statement": "polymorphic(in_place_type<U>, ilist, args...) owns an object of dynamic type U constructed from ilist and args.", "quantifier": "all derived types U different from T", "why_tests_cant": "The C++14 test only uses U equal to T, for which the defect is invisible.", "anchors": ["/repo/polymorphic.h: lines 229-238", "/repo/polymorphic_cxx14.h: lines 229-241"]}
{"id": "C37", "title": "Recursive data structures", "statement": "For value types that themselves contain indirect/polymorphic members (trees of any shape and depth), copying yields a structurally equal tree sharing no block with the source, destroying the root frees every block exactly once, and an exception at any point of a deep copy frees every block copied so far and leaves the source unchanged.", "quantifier": "all finite trees, all exception points at any depth", "why_tests_cant": "Structural induction over trees and all exception points.", "anchors": ["/repo/indirect.h", "/repo/polymorphic.h", "/repo/README.md"]}
{"id": "C38", "title": "Assignment from a sub-object of the assigned-to object", "statement": "x = x->child and x = std::move(x->child), where child is an object of the same indirect/polymorphic type nested in x's own owned object (e.g. popping the head of a list), are well defined and make x hold child's former value.", "quantifier": "all trees, all positions of the child", "why_tests_cant": "The tests do not contain recursive types.", "anchors": ["/repo/indirect.h: lines 228-292", "/repo/polymorphic.h: lines 279-337", "/repo/DRAFT.md: X.Y.5 paragraph 6"]}
{"id": "C39", "title": "Composite classes get correct special members", "statement": "A class with any number of indirect/polymorphic members gets from the compiler a copy constructor that copies all members and, if any copy throws, releases exactly the copies already made and leaves the source unchanged; a destructor that frees every member; and memberwise assignment that never leaks.", "quantifier": "any number of members, any exception point", "why_tests_cant": "Universal over number of members and exception points.", "anchors": ["/repo/indirect.h", "/repo/polymorphic.h", "/repo/README.md"]}
{"id": "C40", "title": "Allocation counters of TrackingAllocator balance", "statement": "With TrackingAllocator, at every point of every history in which no allocation failed, the allocation counter minus the deallocation counter (in unsigned arithmetic) equals the number of non-valueless objects using those counters; equality of TrackingAllocator and TaggedAllocator is an equivalence preserved by rebinding.", "quantifier": "all histories, all numbers of allocations (counter wrap-around included)", "why_tests_cant": "Counter wrap-around and arbitrary histories.", "anchors": ["/repo/tracking_allocator.h: allocate, deallocate, operator==", "/repo/tagged_allocator.h: operator=="]}
{"id": "C41", "title": "exploration wrapper is safe to copy and assign", "statement": "xyz::wrapper (exploration/wrapper.h) can be default constructed, copied, assigned and destroyed in any order without double deletion.", "quantifier": "all histories of wrapper operations", "why_tests_cant": "No test assigns a wrapper.", "anchors": ["/repo/exploration/wrapper.h: wrapper"]}
{"id": "C42", "title": "Programs over nested values have value semantics", "statement": "Take any program whose variables are indirect/polymorphic objects of any of the four headers, whose values have members that are such objects, to any depth, and which constructs, copies, moves, assigns, swaps, mutates, observes and destroys these variables and any objects inside their values, through operator->. Between operands that do not contain one another, or are the same object, or are copy assigned by making a copy: no operation is undefined, whatever throws; each has the effect of the same operation on plain nested values and changes nothing else; results do not depend on addresses; a variable the program does not name keeps its value at all levels; and when the variables have been destroyed no block is left.", "quantifier": "all programs (branching on results and exceptions), all shapes and depths of values, all mixtures of the four classes, all exception points", "why_tests_cant": "Composition of operations at arbitrary depth with arbitrary exception points; the tests contain no recursive types.", "anchors": ["/repo/indirect.h", "/repo/indirect_cxx14.h", "/repo/polymorphic.h", "/repo/polymorphic_cxx14.h", "/repo/README.md"]}
{"id": "C43", "title": "Comparison and hashing of nested values are deep", "statement": "For a class with a value and a fixed number of indirect members that compares and hashes memberwise (so that its operators call those of indirect, which call its own, to any depth): == is always defined, also with valueless members anywhere, and is true exactly if the two operands hold equal data or are both valueless at every position, independent of addresses and allocators; != is its negation; == is an equivalence if that of the data is; <=> is decided by the first difference in pre-order, valueless before any value, and is converse-symmetric, transitive and consistent with == if the data's is; equal values hash equally; a copy equals its source and hashes the same; exceptions of the data's operators are passed on unchanged and there is no undefined behaviour.", "quantifier": "all shapes and depths, all positions of valueless members, all data operators, both headers", "why_tests_cant": "Recursion through the operators to arbitrary depth; the tests compare flat values only.", "anchors": ["/repo/indirect.h: lines 377-425, 474-483", "/repo/indirect_cxx14.h: lines 375-391, 584-592"]}
{"id": "C44", "title": "Calls select the intended constructor and assignment operator", "statement": "For every value type T, allocator and argument list, overload resolution over the declarations of each header selects the constructor the draft intends or none, never an ambiguity: an expression of the same wrapper type always copies or moves (never the forwarding constructor, even if T is constructible from anything), tags select in-place and initializer-list construction, other single arguments are values if T (or a class derived from it) can be made from them. Delegating constructors reach the allocator-extended constructor of their own kind. An expression of the same wrapper type assigned to a wrapper is copied or moved, never treated as a value. No value converts to a wrapper implicitly.", "quantifier": "all value types and their constructibility, all allocators, all argument lists of any length", "why_tests_cant": "Quantifies over types; each test instantiates a few.", "anchors": ["/repo/indirect.h: lines 96-216, 228-305", "/repo/indirect_cxx14.h: lines 116-235, 239-308", "/repo/polymorphic.h: lines 156-270, 279, 305", "/repo/polymorphic_cxx14.h: lines 199-355, 359, 384", "/repo/DRAFT.md: constraints of constructors and assignment"]}
{"id": "C45", "title": "Assigning to, or swapping with, a wrapper nested in its own value", "statement": "x->child = x, x->child = std::move(x) and swap(x, x->child), where child is an object of the same class at any position inside the value that x owns, are well defined, give the child x's former value, and leak nothing.", "quantifier": "all trees, all positions of the child, all allocators, all exception points", "why_tests_cant": "The tests contain no recursive types.", "anchors": ["/repo/indirect.h: lines 228-292, 351-372", "/repo/indirect_cxx14.h: lines 239-308, 353-374", "/repo/polymorphic.h: lines 279-337, 373-393", "/repo/polymorphic_cxx14.h: lines 359-418, 443-464", "/repo/DRAFT.md: X.Y.5 paragraph 6"]}
{"id": "C46", "title": "Value semantics compose with any value type that keeps its promises", "statement": "Let the value type have any special member functions and member functions, hand-written ones included, that keep the usual promises: they touch only the object and what it owns, copying leaves the source alone, destructors do not throw, and what remains after an exception is a valid object. Then every operation of the four class templates does to wrappers what the class's own operation does to values, or hands the very same object over; changes nothing else, whatever throws; leaks nothing; and any program over such wrappers has no undefined behaviour and sees only what the specification on values allows. A class with wrapper members over such a type keeps the same promises, so the argument repeats to any depth.", "quantifier": "all value types (special member functions are arbitrary programs under a contract), all programs, all exception points, all four headers", "why_tests_cant": "Quantifies over the code of the value type; each test instantiates a few types.", "anchors": ["/repo/indirect.h", "/repo/indirect_cxx14.h", "/repo/polymorphic.h", "/repo/polymorphic_cxx14.h", "/repo/DRAFT.md"]}
{"id": "C47", "title": "Threads may share wrappers over any value type whose const means const", "statement": "Let the value type keep the promises of C46 and write nothing through const access. Let threads run arbitrary programs over variables that are wrappers of any of the four headers owning such values, each thread modifying only its own variables and copying from, observing and calling const member functions of shared ones. Then under every schedule, whatever throws: no data race and no undefined behaviour; shared variables and all they own are never modified; every thread sees only what its program run alone may see; and when all are done memory holds exactly the variables, each with the value its own thread gave it. Copying inside the class templates (including polymorphic's copy through a virtual clone) adds no write to shared data.", "quantifier": "all value types under the contract, all numbers of threads, all programs, all schedules, all exception points, all four headers", "why_tests_cant": "Quantifies over schedules and over the code of the value type; no test is concurrent.", "anchors": ["/repo/indirect.h", "/repo/indirect_cxx14.h", "/repo/polymorphic.h", "/repo/polymorphic_cxx14.h", "/repo/README.md: value semantics, const propagation"]}
{"id": "C48", "title": "Assigning a value to a wrapper does to the value what the class's own assignment does", "statement": "Let the value type keep the promises of C46, and its assignments from lvalues, rvalues and other arguments keep the like. Then x = *y, x = std::move(*y) and x = arg, for an indirect x and an indirect or polymorphic y, assign to the value x owns, or construct one if x is valueless; x keeps its allocator; after x = std::move(*y) y still owns an object, which is what the class leaves of it; after an exception x has a value the class allows or is still valueless, and y is untouched by the copying form; nothing else changes and nothing leaks; the program ends only if the value's own noexcept move assignment ends it. Programs mixing these with all operations of C46 have no undefined behaviour and see only what the specification on values allows. Classes with wrapper members assign memberwise and keep the same promises, to any depth.", "quantifier": "all value types under the contract, all programs, all exception points, all headers", "why_tests_cant": "Quantifies over the code of the value type; the tests assign values of a few types.", "anchors": ["/repo/indirect.h: lines 294-305", "/repo/indirect_cxx14.h: lines 303-315", "/repo/DRAFT.md: indirect, operator=(U&&)"]}
{"id": "C49", "title": "Comparison expressions select one operator and mean the same at every depth", "statement": "For operands that are values or indirects nested to any depth, also to different depths and with different allocators, overload resolution over the comparison operators (friends found by argument-dependent lookup, with C++20 rewritten and reversed candidates) finds exactly one best operator. The expression unwraps both operands as far as they are wrapped: valueless compares equal to valueless at the same depth of unwrapping only and before everything else. Both headers give the same result; equality across types is symmetric and transitive; comparing an indirect<T> with a T is comparing the owned T; objects of classes derived from indirect compare like indirects.", "quantifier": "all types built from values, indirects and classes derived from them, all six operators, all values, both headers", "why_tests_cant": "Quantifies over types and nesting; the tests compare indirect<int> and a few mixed pairs.", "anchors": ["/repo/indirect.h: lines 49-80, 377-425", "/repo/indirect_cxx14.h: lines 99-103, 375-544", "/repo/DRAFT.md: indirect, relational operators and comparisons with T"]}
{"id": "C50", "title": "Deduction guides name the intended class", "statement": "indirect(x) without template arguments is indirect<X> for a value x of type X, and a copy (not a wrapper around x) if x is an indirect; indirect(allocator_arg, alloc, x) is an indirect of X whose allocator is alloc's type rebound to X, or a copy if x is an indirect. No other argument list deduces a class, and none is ambiguous.", "quantifier": "all argument lists of any length, all value types including indirects nested to any depth, all allocators, lvalues and rvalues", "why_tests_cant": "Quantifies over types; the tests deduce from int and two allocators.", "anchors": ["/repo/indirect.h: lines 129-139, 185-220, 464-470", "/repo/indirect_cxx14.h: lines 198-235, 573-580", "/repo/DRAFT.md: indirect, deduction guides"]}
{"id": "C51", "title": "Containers of wrappers relocate, erase and permute without touching the values", "statement": "When a std::vector of wrappers reallocates (constructing each element in new storage from std::move_if_noexcept of the old one, destroying what was made if one throws, then destroying the old ones), no value is copied, moved, made or freed, every element keeps its value, allocator and address, and nothing can throw. Erasing an element move-assigns the later ones down: between equal allocators it cannot throw, the values close up, the erased value is destroyed. Any sequence of exchanges of elements permutes the values without touching memory that holds one. Holds over any value type that keeps the promises of C46; where elements are copied instead, a failure changes nothing and leaks nothing.", "quantifier": "all value types under the contract, all numbers of elements, all four headers, all allocators, all exception points", "why_tests_cant": "The tests put a few wrappers with std::allocator into a vector; the outcome depends on the exception specification and the allocator's traits.", "anchors": ["/repo/indirect.h: lines 137-139, 260-292, 351-372", "/repo/indirect_cxx14.h: lines 233-235, 270-301, 353-374", "/repo/polymorphic.h: lines 195-198, 305-337, 373-393", "/repo/polymorphic_cxx14.h: lines 353-355, 384-414, 443-464", "/repo/DRAFT.md: indirect(indirect&&) noexcept (line 964), polymorphic(polymorphic&&) noexcept (line 1466)"]}
{"id": "C52", "title": "Values built with their owner's allocator stay in its memory resource", "statement": "Let the allocator pass itself to the objects it constructs (uses-allocator construction, as std::pmr::polymorphic_allocator does) and let the classes hand it on to their members, which are wrappers of any of the four headers, to any depth. Then in every program over wrappers of such classes, whatever throws, all memory a wrapper owns, directly or through nested wrappers, comes from the resource of its allocator: constructors put the whole new value there wherever the source lives, assignments and moves between resources copy or move the values over, and when no variable's allocator uses a resource, no memory of it is in use. With polymorphic_allocator's traits no program terminates. Without handing on the allocator this fails.", "quantifier": "all classes with wrapper members handing on their allocator, over any value type that keeps to its resource; all programs, all exception points, all allocators, all four headers", "why_tests_cant": "Quantifies over programs and nesting; the tests use tracking and tagged allocators on one level.", "anchors": ["/repo/indirect.h: lines 144-220, 245-292, 440-455 (allocator-extended constructors, assignments, construct)", "/repo/indirect_cxx14.h: line 559", "/repo/polymorphic.h: lines 77-105, 130-145", "/repo/polymorphic_cxx14.h: lines 131-160", "/repo/DRAFT.md: lines 745-760 (namespace pmr)"]}
{"id": "C53", "title": "Comparing and hashing wrappers call the value type's operators, whatever these do, and change nothing", "statement": "Let the value type's operators be arbitrary code (they may allocate, throw, compare further wrappers) that reads its operands and leaves memory as it was. Then each of the six relations between two indirect objects, between one and a value in either order, and std::hash, returns what the value type's operators return for the owned values, or throws what they throw; valueless objects are equal to each other and less than any value, and hash to size_t(-1); memory is left as it was, nothing is undefined. A class with indirect members and memberwise operators again has such operators, to any depth; if the bottom type's operators mean a total order, all six relations mean the lexicographic order of the nested values, in both headers alike. Programs that mix comparisons with all other operations see exactly that.", "quantifier": "all value types and operators under the contract, all nestings, all programs, all exception points, both headers of indirect", "why_tests_cant": "Quantifies over the operators' code, the nesting and the programs; the tests compare indirect<int>, a floating type and one class without <=>.", "anchors": ["/repo/indirect.h: lines 49-80, 377-425, 474-483", "/repo/indirect_cxx14.h: lines 375-544, 584-592"]}
{"id": "C54", "title": "Threads may compare and hash shared wrappers concurrently", "statement": "Several threads run arbitrary programs over wrappers (as in C47) that also compare and hash: each thread compares and hashes its own indirect objects and the shared ones, with each other and with owned values, while other threads do the same and copy the shared ones. If the value type's const functions, its operators among them, do not modify their operands, then under every schedule and whatever throws there is no data race and nothing undefined; each thread sees exactly what its program alone may see; no exception leaves a thread other than to its program; shared objects stay as they were at all times; and when all are done memory holds exactly the variables. A value type whose operator writes a mutable member of its operand, even the value it has, makes two comparisons race.", "quantifier": "all value types and operators under the contract, all numbers of threads, all programs, all schedules, all exception points, both headers of indirect (the other variables may be of any of the four headers)", "why_tests_cant": "The tests are single-threaded; the claim quantifies over schedules and over the operators' code.", "anchors": ["/repo/indirect.h: lines 377-425, 474-483", "/repo/indirect_cxx14.h: lines 375-544, 584-592", "/repo/README.md: value semantics, const propagation"]}
{"id": "C55", "title": "Algorithms over wrappers do what they do to values, and touch none", "statement": "Any algorithm that compares, swaps and moves the elements of a range (sort, stable_sort, rotate, partition, heaps: it decides by the results of comparisons, uses temporaries, moves only onto moved-from elements (or an element onto itself) and destroys only moved-from ones) does to wrappers with equal allocators exactly what it does to plain values, while no value is copied, moved, made, freed or changed: only pointers move. It throws only what the value type's operators throw, and then too no value is lost or doubled. In particular insertion sort stably sorts a range of indirects, valueless ones first, if the value type's operators mean a total order. Algorithms that overwrite or destroy elements (remove, unique, erase) free the memory of the values they give up and touch no other value; in particular unique with erasure leaves of each run of equal indirects the first.", "quantifier": "all algorithms of this form, all ranges, all value types and operators under the contract, all exception points; comparing: both headers of indirect; all else: all four headers", "why_tests_cant": "Quantifies over algorithms, ranges and exceptions of comparisons; the tests run no algorithm over wrappers.", "anchors": ["/repo/indirect.h: lines 137-139, 260-292, 351-372, 377-425", "/repo/indirect_cxx14.h: lines 233-235, 270-301, 353-374, 375-544", "/repo/polymorphic.h: lines 195-198, 305-337, 373-393", "/repo/polymorphic_cxx14.h: lines 353-355, 384-414, 443-464"]}
