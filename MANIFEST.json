{
 "claims": [
  {
   "property": "C01",
   "status": "proved",
   "theorems": [
    "C01_no_ub"
   ],
   "note": ""
  },
  {
   "property": "C02",
   "status": "proved",
   "theorems": [
    "C02_no_ub"
   ],
   "note": ""
  },
  {
   "property": "C03",
   "status": "proved",
   "theorems": [
    "C03_no_ub"
   ],
   "note": ""
  },
  {
   "property": "C04",
   "status": "partial",
   "theorems": [
    "C04_exclusion_necessary",
    "C04_no_ub_partial",
    "C04_refuted"
   ],
   "note": "Refuted as stated (C04_refuted): the C++14 polymorphic's allocator-extended move constructor rebinds by POCCA and leads to a deallocation with the wrong allocator. Proved for all clients that do not meet that case; the exclusion is shown to be necessary."
  },
  {
   "property": "C05",
   "status": "proved",
   "theorems": [
    "C05_all_destroyed",
    "C05_blocks_are_engaged_objects",
    "C05_unique_owner"
   ],
   "note": ""
  },
  {
   "property": "C06",
   "status": "proved",
   "theorems": [
    "C06_assign_to_object",
    "C06_balance",
    "C06_construct_in_empty_block",
    "C06_dealloc_matches_alloc",
    "C06_destroy_matches_construct",
    "C06_sources_alive"
   ],
   "note": ""
  },
  {
   "property": "C07",
   "status": "proved",
   "theorems": [
    "C07_C08_nothrow",
    "C07_exact",
    "C07_exact_any_value_type",
    "C07_refines"
   ],
   "note": ""
  },
  {
   "property": "C08",
   "status": "proved",
   "theorems": [
    "C07_C08_nothrow",
    "C08_exact",
    "C08_exact_any_value_type",
    "C08_refines"
   ],
   "note": ""
  },
  {
   "property": "C09",
   "status": "proved",
   "theorems": [
    "C09_independence",
    "C09_independence_programs"
   ],
   "note": ""
  },
  {
   "property": "C10",
   "status": "proved",
   "theorems": [
    "C10_copy_engaged",
    "C10_copy_valueless"
   ],
   "note": ""
  },
  {
   "property": "C11",
   "status": "proved",
   "theorems": [
    "C11_move_steals",
    "C11_same_address"
   ],
   "note": ""
  },
  {
   "property": "C12",
   "status": "partial",
   "theorems": [
    "C12_refuted",
    "C12_source_valueless_iff_partial",
    "C12_unequal"
   ],
   "note": "Refuted as stated; the exact condition for a valueless source is proved."
  },
  {
   "property": "C13",
   "status": "partial",
   "theorems": [
    "C13_equal_allocators",
    "C13_refuted",
    "C13_source_valueless_iff_partial",
    "C13_unequal_allocators",
    "C13_valueless_source"
   ],
   "note": "Everything but the draft's 'other is valueless' is proved; that part is refuted, with the exact condition proved."
  },
  {
   "property": "C14",
   "status": "proved",
   "theorems": [
    "C14_self_assignment"
   ],
   "note": ""
  },
  {
   "property": "C15",
   "status": "proved",
   "theorems": [
    "C15_swap",
    "C15_swap_twice"
   ],
   "note": ""
  },
  {
   "property": "C16",
   "status": "proved",
   "theorems": [
    "C16_deref_valueless",
    "C16_exact_precondition",
    "C16_swap_unequal"
   ],
   "note": ""
  },
  {
   "property": "C17",
   "status": "proved",
   "theorems": [
    "C17_no_moves_no_valueless",
    "C17_valueless_only_by_moving"
   ],
   "note": ""
  },
  {
   "property": "C18",
   "status": "proved",
   "theorems": [
    "C18_failed_construction"
   ],
   "note": ""
  },
  {
   "property": "C19",
   "status": "proved",
   "theorems": [
    "C19_copy_assignment_throws",
    "C19_polymorphic_strong"
   ],
   "note": ""
  },
  {
   "property": "C20",
   "status": "proved",
   "theorems": [
    "C20_move_assignment_throws"
   ],
   "note": ""
  },
  {
   "property": "C21",
   "status": "partial",
   "theorems": [
    "C21_does_terminate",
    "C21_never_throws",
    "C21_noexcept_partial",
    "C21_refuted",
    "C21_termination_exact"
   ],
   "note": "Refuted for move assignment with POCMA and unequal allocators; proved for everything else, and the set of terminating programs is characterised exactly."
  },
  {
   "property": "C22",
   "status": "proved",
   "theorems": [
    "C22_allocator_after"
   ],
   "note": ""
  },
  {
   "property": "C23",
   "status": "partial",
   "theorems": [
    "C23_refuted",
    "C23_storage_resource"
   ],
   "note": "Refuted for the C++14 polymorphic's allocator-extended move constructor with POCCA; proved otherwise."
  },
  {
   "property": "C24",
   "status": "proved",
   "theorems": [
    "C24_stability"
   ],
   "note": ""
  },
  {
   "property": "C25",
   "status": "proved",
   "theorems": [
    "C25_exact_cost"
   ],
   "note": ""
  },
  {
   "property": "C26",
   "status": "proved",
   "theorems": [
    "C26_in_place",
    "C26_valueless"
   ],
   "note": ""
  },
  {
   "property": "C27",
   "status": "proved",
   "theorems": [
    "C27_exception_identity",
    "C27_forwarding"
   ],
   "note": ""
  },
  {
   "property": "C28",
   "status": "partial",
   "theorems": [
    "C28_copy_source_partial",
    "C28_indirect_copy_constructors",
    "C28_refuted"
   ],
   "note": "Refuted for value types with a constructor from a non-const lvalue; proved for all others, and unconditionally for indirect's copy constructors."
  },
  {
   "property": "C29",
   "status": "proved",
   "theorems": [
    "C29_meaning",
    "C29_negation",
    "C29_reflexive",
    "C29_symmetric",
    "C29_transitive"
   ],
   "note": ""
  },
  {
   "property": "C30",
   "status": "proved",
   "theorems": [
    "C30_consistent_with_equality",
    "C30_relations",
    "C30_reversed",
    "C30_strict_weak_order",
    "C30_three_way",
    "C30_total",
    "C30_transitive"
   ],
   "note": ""
  },
  {
   "property": "C31",
   "status": "proved",
   "theorems": [
    "C31_left",
    "C31_mirrored",
    "C31_right"
   ],
   "note": ""
  },
  {
   "property": "C32",
   "status": "partial",
   "theorems": [
    "C32_agree_partial",
    "C32_agree_values_partial",
    "C32_refuted",
    "C32_without_three_way"
   ],
   "note": "Refuted for value types with operator< but without <=> whose order is partial: <= and >= then differ between the generations (C32_refuted). Proved for all types with <=>, and for all types whose < is consistent."
  },
  {
   "property": "C33",
   "status": "proved",
   "theorems": [
    "C33_consistent",
    "C33_meaning"
   ],
   "note": ""
  },
  {
   "property": "C34",
   "status": "proved",
   "theorems": [
    "C34_join",
    "C34_needs_copy_requirement",
    "C34_no_race",
    "C34_results",
    "C34_shared_unchanged"
   ],
   "note": "For value types meeting the copy-constructible requirement (a copy from an lvalue does not modify it); C34_needs_copy_requirement shows a race without it. Comparisons and hash are sequences of the const operations valueless_after_move and operator*."
  },
  {
   "property": "C35",
   "status": "partial",
   "theorems": [
    "C35_indirect",
    "C35_polymorphic_partial",
    "C35_polymorphic_same_code",
    "C35_refuted"
   ],
   "note": "Proved for indirect. For polymorphic refuted by the C++14 allocator-extended move constructor with POCCA and the initializer_list constructors; proved for clients avoiding these."
  },
  {
   "property": "C36",
   "status": "partial",
   "theorems": [
    "C36_cxx14_partial",
    "C36_cxx14_wrong_type",
    "C36_refuted",
    "C36_requested_type"
   ],
   "note": "Refuted for the C++14 polymorphic's initializer_list constructors, which construct T; proved for all other constructors and headers."
  },
  {
   "property": "C37",
   "status": "proved",
   "theorems": [
    "C37_assign",
    "C37_copy",
    "C37_copy_a",
    "C37_copy_destroy",
    "C37_copy_equal",
    "C37_depth",
    "C37_destroy",
    "C37_exists"
   ],
   "note": "Trees of any shape and depth over the four headers' wrappers (Tree.v models the compiler-generated special members of a class with wrapper members). C37_copy/_copy_a: complete success or memory exactly as before; C37_copy_equal: equal data at every path, no shared block; C37_destroy: frees exactly the tree; C37_assign: assignment between separate trees. C37_exists and C37_ex_*: the hypotheses are met."
  },
  {
   "property": "C38",
   "status": "partial",
   "theorems": [
    "C38_copy_assign",
    "C38_copy_assign_list",
    "C38_copy_last_member",
    "C38_copy_made",
    "C38_copy_member_undefined",
    "C38_copy_propagating_undefined",
    "C38_copy_refuted",
    "C38_move_propagating_undefined",
    "C38_move_refuted",
    "C38_move_undefined",
    "C38_move_unequal"
   ],
   "note": "False as stated of the faithful model, and characterised completely for all trees and positions. Copy: C38_copy_assign says for every position, header and allocator traits when assignment is defined (no propagation, and every member through which an in-place assignment descends is the last of its node; polymorphic and copying indirect never descend), that it is then correct at every path, and that it is undefined otherwise unless an operation throws; C38_copy_made, C38_copy_last_member, C38_copy_member_undefined, C38_copy_propagating_undefined, C38_copy_assign_list are special cases with sharper conclusions. Move: correct between unequal allocators without propagation (C38_move_unequal), undefined between equal allocators (C38_move_undefined) and, or terminated, with propagation (C38_move_propagating_undefined). C38_move_refuted / C38_copy_refuted: concrete witnesses."
  },
  {
   "property": "C39",
   "status": "proved",
   "theorems": [
    "C39_copy",
    "C39_copy_assign",
    "C39_destroy",
    "C39_move_assign"
   ],
   "note": "Any number of members of any headers, each owning a tree of any shape; every exception point. Copy, destruction, memberwise copy and move assignment. The implicit special members are modelled by make_members/destroy_members/assign_members (Tree.v)."
  },
  {
   "property": "C40",
   "status": "proved",
   "theorems": [
    "C40_all_destroyed",
    "C40_counters",
    "C40_failed_allocations",
    "C40_tagged_equality",
    "C40_tracking_equality"
   ],
   "note": "C40_failed_allocations shows what happens without the proviso that no allocation failed."
  },
  {
   "property": "C41",
   "status": "partial",
   "theorems": [
    "C41_assignment_double_delete",
    "C41_assignment_leaks",
    "C41_clean_histories",
    "C41_copy",
    "C41_refuted",
    "C41_safe_partial",
    "C41_values_partial"
   ],
   "note": "Refuted: the implicit copy assignment copies the pointer. Histories that end cleanly are exactly those without real assignments (C41_clean_histories)."
  },
  {
   "property": "C42",
   "status": "proved",
   "theorems": [
    "C42_client",
    "C42_determined",
    "C42_no_leak",
    "C42_no_termination",
    "C42_nothrow",
    "C42_scope",
    "C42_unnamed"
   ],
   "note": "Clients are interaction trees (TreeClient.v): the next operation may depend on results and exceptions. The specification is a function on forests (maps from variables to trees). Hypotheses: the implicit special members of the value types do what the compiler generates (Tree.v), a type has a fixed number of members, allocator requirements, reflexive allocator equality; operands of assignment and swap are the same object or do not contain one another, except that in copy assignment the source may contain the target, or with POCCA false be contained in it, where the class makes a copy rather than assign in place (the other cases of containing operands are C38, C45); not the F3 case. Termination is possible only in move assignment with POCMA (F2). C42_scope: automatic variables, any exception. Examples mix_*: a client mixing the classes, all traits, all headers."
  },
  {
   "property": "C43",
   "status": "proved",
   "theorems": [
    "C43_copy",
    "C43_equal",
    "C43_equivalence",
    "C43_hash",
    "C43_order",
    "C43_order_laws",
    "C43_throw"
   ],
   "note": "The class's operators and those of indirect call each other; the recursion is followed to any depth at least that of the operands. Specification on observations at paths (TreeEqLaws.v: agree, compare_at, first_difference, before), independent of the tree functions. <=> is C++20 only. Class with members of the same indirect type for both operands; the data's operators are arbitrary functions of the data. polymorphic has no comparison operators. Example: five trees, all pairs."
  },
  {
   "property": "C44",
   "status": "partial",
   "theorems": [
    "C44_assign",
    "C44_assign14",
    "C44_assign14_refuted",
    "C44_assign_self",
    "C44_braces",
    "C44_braces14",
    "C44_braces14_refuted",
    "C44_copy_move",
    "C44_delegate",
    "C44_delegate_polymorphic",
    "C44_delegate_polymorphic14",
    "C44_delegate_polymorphic14_refuted",
    "C44_forward",
    "C44_forward_polymorphic14",
    "C44_implicit",
    "C44_implicit_copy",
    "C44_indirect",
    "C44_indirect14",
    "C44_indirect14_values_refuted",
    "C44_indirect_braces_refuted",
    "C44_polymorphic",
    "C44_polymorphic14",
    "C44_polymorphic_lists_refuted",
    "C44_polymorphic_tags_refuted"
   ],
   "note": "Proved: copies and moves are never hijacked in any header; C++20 headers select what DRAFT.md intends for all argument lists (indirect: except one braced shape, refuted; polymorphic: unless T tells lvalue from rvalue initializer lists or is an in_place_type_t, refuted); C++14 headers select according to their own narrower rules (difference refuted); delegation and forwarding of the arguments; no implicit conversions from values. Refuted: indirect_cxx14.h assignment from a non-const lvalue of the same type is taken as a value if T is constructible and assignable from it (exact condition: C44_assign14); C++14 constructors that are not explicit (C44_braces14). Model of overload resolution: Overload.v; types converting to tag types, conversion functions returning references, empty or one-element braces and heterogeneous braces are not modelled. Specification: OverloadSpec.v."
  },
  {
   "property": "C45",
   "status": "partial",
   "theorems": [
    "C45_copy",
    "C45_copy_refuted",
    "C45_copy_wrong",
    "C45_move_deep_leaks",
    "C45_move_leaks",
    "C45_move_member",
    "C45_swap_leaks"
   ],
   "note": "False as stated; characterised exactly for every tree, position and header. Copy assignment is always defined, leaks nothing and changes only the child (C45_copy); where a copy is made the child gets x's value; where indirect assigns in place it does not (C45_copy_wrong, C45_copy_refuted). Move assignment between equal allocators always leaks the node of x (C45_move_leaks); between unequal ones it is correct to a direct member (C45_move_member) and leaks to a deeper one (C45_move_deep_leaks). Swap always leaks (C45_swap_leaks). Missing: nothing of the three operations; the property holds only in the stated cases. Hypotheses as for C37/C38."
  },
  {
   "property": "C46",
   "status": "proved",
   "theorems": [
    "C46_contract_needed",
    "C46_copy",
    "C46_copy_alloc",
    "C46_copy_assign",
    "C46_copy_only",
    "C46_destroy",
    "C46_flat",
    "C46_handle",
    "C46_independent",
    "C46_make",
    "C46_members",
    "C46_move",
    "C46_move_alloc",
    "C46_move_assign",
    "C46_no_leak",
    "C46_programs",
    "C46_swap",
    "C46_towers"
   ],
   "note": "T : TP E (the special member functions) is arbitrary; K : Cls E gives the meaning of the class as relations, Honest T K is the contract (Contract.v). C46_programs: clients as interaction trees over variables that are wrappers of any header, with calls of arbitrary member functions under contract (Method). The specification is a relation on maps from variables to values. Instances proved: flat value types, classes with wrapper members and towers of them (closure, C46_members), a class without a move constructor, a class with hand-written constructor and copy-and-swap assignment (C46_handle; needs pocs). C46_contract_needed: an auto_ptr-like class for which copying changes the source. Operands of assignment and swap own disjoint memory or are the same variable; constructors of the class take arguments that are not wrappers of the program (members moved into place are in C42). Value assignment (operator=(U&&)) is C48."
  },
  {
   "property": "C47",
   "status": "proved",
   "theorems": [
    "C47_const_needed",
    "C47_copy_only",
    "C47_flat",
    "C47_handle",
    "C47_join",
    "C47_no_escape",
    "C47_no_race",
    "C47_results",
    "C47_scoped",
    "C47_shared_unchanged",
    "C47_towers"
   ],
   "note": "Shareable T K = Honest (contract of C46), Tidy (subobjects are created in storage that exists and gone when it is freed), Polite (static: the code writes nothing shared and stores no pointer to it), Sealed (an object owns what its members point to); all in ContractConc.v. Interleaving semantics of Conc.v, race = two threads about to perform conflicting accesses; a configuration in which std::terminate is called has no further steps. CopyReq: copying an opaque value through a non-const lvalue leaves it as it is. gclients_ok is a condition on each thread's specification alone (gok). C47_flat, C47_towers, C47_copy_only, C47_handle: the classes of C46 are Shareable (towers: members are not constructed from arguments). C47_scoped: so are the classes of C52, which construct their members with their owner's allocator (no C++14 polymorphic members with POCCA). C47_const_needed: a class that keeps the contract of C46 but whose copy constructor writes the source (a mutable member): a race is reached."
  },
  {
   "property": "C48",
   "status": "proved",
   "theorems": [
    "C48_args",
    "C48_can_terminate",
    "C48_copy",
    "C48_copy_only",
    "C48_flat",
    "C48_handle",
    "C48_members",
    "C48_move",
    "C48_no_leak",
    "C48_programs",
    "C48_towers",
    "C48_zero"
   ],
   "note": "V : Asg K gives the meaning of the class's assignments as relations, Assignable T K V says the code keeps them (ContractValue.v). C48_copy/C48_move/C48_args: one operation; the operand *y is the value of another wrapper of any header. C48_programs: the clients of C46 with the three assignments. Instances: flat values (assigning an lvalue must not modify it), classes with wrapper members and towers of them (memberwise copy and move assignment), copy-only classes, copy-and-swap handles (rvalues are copied), and a class with only a user-written constructor (C48_zero). C48_can_terminate: the ending case of C48_move is reached (member with propagating, unequal allocator; its move assignment is noexcept and making the object throws). x and y are different variables; x = *x is not covered here (C07 has it for flat values)."
  },
  {
   "property": "C49",
   "status": "partial",
   "theorems": [
    "C49_derived_ambiguous",
    "C49_derived_refuted",
    "C49_equal",
    "C49_headers_agree",
    "C49_not_equal",
    "C49_order",
    "C49_symmetric",
    "C49_transitive",
    "C49_unique",
    "C49_unordered_refuted",
    "C49_value_partial",
    "C49_value_refuted"
   ],
   "note": "Proved for both headers: one best operator (C49_unique); meaning of ==, != and, for totally ordered values, all six operators at any nesting (C49_equal, C49_not_equal, C49_order). False as stated in three places: if T is itself an indirect, x == v for a T v does not compare the owned T (C49_value_refuted; true for T not an indirect, C49_value_partial); two objects of derived classes cannot be compared, and a derived object is treated as a value (C49_derived_ambiguous, C49_derived_refuted); for partially ordered values nested wrappers give another <= in C++20 (C49_unordered_refuted). Simplifications: operators of the value types take no wrappers; constraints on return types are met."
  },
  {
   "property": "C50",
   "status": "partial",
   "theorems": [
    "C50_allocator",
    "C50_allocator_copy",
    "C50_allocator_copy_refuted",
    "C50_allocator_nests",
    "C50_one",
    "C50_other"
   ],
   "note": "Exact result for every argument list (C50_one, C50_allocator, C50_allocator_copy, C50_allocator_nests, C50_other). False in one case: indirect(allocator_arg, alloc, x) with x an indirect and alloc of another type than x's allocator (e.g. std::allocator<std::byte>) is an indirect of an indirect (C50_allocator_copy_refuted). Model: guides of both headers (identical), implicit guides, copy deduction candidate, partial ordering. Simplifications: no arrays or functions as values, no braces. polymorphic has no guides."
  },
  {
   "property": "C51",
   "status": "partial",
   "theorems": [
    "C51_erase",
    "C51_exchange",
    "C51_grow_copies",
    "C51_grow_moves_partial",
    "C51_grow_refuted"
   ],
   "note": "False as stated: the draft declares the move constructors noexcept, but indirect.h, indirect_cxx14.h and polymorphic.h only if all allocators are equal (they never throw, C46_move), so with other allocators reallocation copies every value and can fail (C51_grow_refuted). Proved: reallocation moves if the constructor is declared noexcept (always in polymorphic_cxx14.h; always-equal allocators elsewhere) (C51_grow_moves_partial); else it copies, with the strong guarantee (C51_grow_copies); erase between equal allocators (C51_erase); exchanges (C51_exchange). The container's code is a model of what the standard prescribes, not of code in /repo; elements are not inside one another's values."
  },
  {
   "property": "C52",
   "status": "proved",
   "theorems": [
    "C52_contract",
    "C52_copy",
    "C52_keeps",
    "C52_pmr",
    "C52_programs",
    "C52_release",
    "C52_release_refuted"
   ],
   "note": "A class that hands on its allocator keeps the contract of C46 (C52_contract) and keeps to its resource (C52_keeps), to any depth; one copy (C52_copy); whole programs (C52_programs, C52_release); polymorphic_allocator's traits (C52_pmr). C52_release_refuted: a class that keeps the contract but does not hand on the allocator leaves memory of a resource in use after the last variable of that resource is gone. The classes are the users' (Arena.v), not code of /repo. polymorphic_cxx14.h members need allocators that do not propagate on copy assignment (else its move constructor takes over memory of another resource, F3). The headers define no pmr aliases. std::scoped_allocator_adaptor with a different inner allocator is not covered."
  },
  {
   "property": "C53",
   "status": "proved",
   "theorems": [
    "C53_classes",
    "C53_functions",
    "C53_hash",
    "C53_operators",
    "C53_order",
    "C53_programs",
    "C53_scoped",
    "C53_scoped_order",
    "C53_value_operators"
   ],
   "note": "The operators (C53_operators, C53_value_operators, C53_hash) over any operators that keep their promise (Compares); classes with members keep it again (C53_classes; C53_scoped for the classes of C52); over a total order all relations are the lexicographic order (C53_order, C53_scoped_order); programs (C53_programs); over operators that are functions the programs compute the functions of Compare.v (C53_functions), so C29 to C33 speak of the same code. The classes' memberwise operators are the users' (the defaulted == and <=>, or a hand-written < in C++14), not code of /repo. Operands of one type and one allocator type; mixed operand types are in C49 only. Wrappers are compared with wrappers of the same header."
  },
  {
   "property": "C54",
   "status": "proved",
   "theorems": [
    "C54_classes",
    "C54_const_needed",
    "C54_join",
    "C54_no_escape",
    "C54_no_race",
    "C54_results",
    "C54_scoped",
    "C54_shared_unchanged"
   ],
   "note": "The threads of C47 with the operations of C53. C54_no_race, C54_results, C54_no_escape, C54_shared_unchanged, C54_join over any Shareable class whose operators keep their promise (Compares) and for which const means const (Quiet); C54_classes: classes with indirect members and memberwise comparison meet all three again, to any depth; C54_scoped: so do the classes of C52, which construct their members. C54_const_needed: without Quiet two comparisons may race, although every other hypothesis holds. Sequential consistency at the granularity of primitive actions, as in C39/C47; a data race is two threads about to perform conflicting actions."
  },
  {
   "property": "C55",
   "status": "proved",
   "theorems": [
    "C55_algorithms",
    "C55_removing",
    "C55_sort",
    "C55_unique"
   ],
   "note": "C55_algorithms: every decision tree over comparing, swapping, move-constructing temporaries, move-assigning and destroying refines the same tree over plain values; the memory blocks are equal before and after, and the contents are permuted. C55_sort: insertion sort with a temporary, as standard libraries write it; sorted, stable, a permutation. C55_removing: the same without the restriction to moved-from targets: blocks are only freed, the values left are among those there were, none copied. C55_unique: std::unique and erasure. The algorithms are client code, not code of /repo; self-swaps and self-moves are outside the form; only indirect has comparison operators."
  }
 ]
}