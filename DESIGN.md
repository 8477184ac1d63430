# Formal model of jbcoe/value_types — design

Sources modelled (pinned commit, read as text, never built): `/repo/indirect.h`, `/repo/polymorphic.h`,
`/repo/indirect_cxx14.h`, `/repo/polymorphic_cxx14.h`, `/repo/tagged_allocator.h`, `/repo/tracking_allocator.h`,
`/repo/exploration/wrapper.h`.
The text the code is meant to implement is `/repo/DRAFT.md`; specifications are taken from it.

## 1. The machine (`Lang.v`)

* A *program* is a free-monad tree of primitive actions (`prog X := Ret | Throw | Act prim k`).  A C++
  member function becomes one such program, statement by statement.
* Primitive actions are the things the headers do: `allocate`, `deallocate`, `construct`,
  `destroy`, assignment of an owned object, reading/writing the members `p_`/`cb_` and `alloc_`,
  creating/ending the lifetime of a wrapper object, control-block header accesses, reading/writing an owned
  object through a reference, `unreachable()`, `std::terminate`.
* `exec` gives each action its meaning on a store: heap blocks (allocator that allocated it, type it was
  allocated for, control-block header, object state raw/live/dying), wrapper objects (`p_` may be
  indeterminate, null or an address; `alloc_`), client-owned objects, an *oracle* and a log of
  allocator/value-type calls.
* Undefined behaviour is a distinct outcome (`OUB reason`): null/dangling/indeterminate pointers, double destroy,
  double free, wrong allocator resource, wrong block type, freeing a block with a live object in it,
  constructing over a live object, using a dead wrapper, `unreachable()`.
  `std::terminate` (exception leaving a `noexcept` function) is another distinct outcome (`OTerm`).
* The oracle decides, for every allocation, construction and assignment, whether it throws (and which
  exception), and which address an allocation returns (any address not currently allocated: addresses may be
  reused).  A theorem quantified over the store is therefore quantified over every exception schedule.
* The environment `Env` holds everything the templates are parameterised by: the allocator type with its
  `==`, memory resource, `select_on_container_copy_construction` and traits
  (`POCCA`, `POCMA`, `POCS`, `is_always_equal`), and the value type's operations: construction from
  arguments, from a const lvalue, a non-const lvalue, an rvalue (each may change its non-const source), assignment,
  and what each leaves behind when it throws.  All are arbitrary functions; requirements the
  standard imposes (e.g. `a == b` implies interchangeable deallocation) are explicit hypotheses
  (`AllocReq`, `CopyReq`).
* The value type's operations are themselves passed as programs (`TP`), so the same class model
  is used with opaque values (`flatTP`: one primitive each) and with values that contain further wrapper objects
  (`nodeTP`: the memberwise operations a compiler generates, which call back into the class model).

## 2. Files

| file | content |
|------|---------|
| `Lang.v` | The abstract machine on which the class templates are modelled. |
| `Common.v` | C++ idioms shared by the four class models. |
| `Indirect20.v` | Model of class template [xyz::indirect], C++20 header /repo/indirect.h. |
| `Indirect14.v` | Model of class template [xyz::indirect], C++14 header /repo/indirect_cxx14.h. |
| `Polymorphic20.v` | Model of class template [xyz::polymorphic], C++20 header /repo/polymorphic.h. |
| `Polymorphic14.v` | Model of class template [xyz::polymorphic], C++14 header /repo/polymorphic_cxx14.h. |
| `Client.v` | Client programs: the operations a user can perform on wrapper objects, and client programs built from them. |
| `Spec.v` | Specification: wrapper objects as plain values. |
| `Rep.v` | The ownership invariant and its elementary transitions. |
| `Effect.v` | Exact effects of operations, with addresses and logs. |
| `RunLemmas.v` | Running the building blocks that all class models share. |
| `RunOps.v` | Effects of the program fragments out of which the member functions are built: constructor bodies and the tails of the assignment operators. |
| `RunInd.v` | Every operation of [indirect] (C++20 header) has the specified effect. |
| `RunPoly.v` | Every operation of [polymorphic] (C++20 header) has the specified effect. |
| `Refine.v` | The exact effects erase to the value specification. |
| `Headers.v` | The C++14 headers against the C++20 headers. |
| `SpecRun.v` | Client programs on the specification. |
| `Hist.v` | Client programs: safety and refinement for all four headers. |
| `LogSpec.v` | What a correct log of allocator and value-type calls looks like. |
| `LogProof.v` | Every execution that is not undefined leaves a correct log. |
| `OpSpec.v` | Small specifications of single aspects of the operations. |
| `OpFacts.v` | Allocators, costs, addresses and values after each operation. |
| `Taint.v` | Objects become valueless only by moving. |
| `Draft.v` | The code's copies against the draft's copies. |
| `OpProps.v` | Operation-level properties: proofs. |
| `OpProps2.v` | Operation-level properties, continued: exact preconditions, exceptions, termination, stability, costs, value assignment, forwarding. |
| `OpProps3.v` | Operation-level properties, continued: independence, allocators, stability, costs, value assignment, forwarding, sources of copies. |
| `OpProps4.v` | Constructor arguments and assigned values, in plain terms: proofs. |
| `Poly14.v` | The C++14 [polymorphic]: what its deviations from the C++20 header mean. |
| `Ex.v` | A concrete environment and concrete clients, for the examples beside the theorems and for the witnesses of refutations. |
| `Complete.v` | The specification is exact: every behaviour it allows can happen. |
| `ClientProps.v` | Client-level properties: proofs. |
| `HeaderProps.v` | The C++14 headers against the C++20 headers: lemmas. |
| `PropsSafety.v` | Safety, ownership and refinement: the theorems. |
| `PropsOps.v` | The operations one by one: the theorems. |
| `PropsHeaders.v` | C++14 against C++20: the theorems. |
| `Wrong.v` | Wrong programs. |
| `Compare.v` | Model of the comparison operators and hash of [indirect]. |
| `CompareProps.v` | Comparison operators: specification and lemmas. |
| `PropsCompare.v` | Comparison and hashing of indirect: the theorems. |
| `Balance.v` | Accounting per memory resource. |
| `Tracking.v` | The two allocators that come with the library. |
| `TrackingProps.v` | Lemmas for C40. |
| `PropsAlloc.v` | The allocators supplied with the library (C40). |
| `Wrapper.v` | exploration/wrapper.h: an approximation of indirect without allocators. |
| `WrapperProps.v` | Lemmas for C41. |
| `PropsWrapper.v` | exploration/wrapper.h (C41). |
| `Conc.v` | Threads. |
| `ConcStatic.v` | What the operations write, by inspection of their programs. |
| `ConcExec.v` | Single actions: dependence on the environment's answers, on other threads' memory. |
| `ConcProps.v` | Threads do not disturb each other. |
| `PropsConc.v` | Threads: the theorems. |
| `Tree.v` | Recursive value types. |
| `TreeProps.v` | Copying and destroying trees. |
| `TreeAssign.v` | Assigning and moving trees. |
| `TreeAssignC.v` | Copy assignment of trees. |
| `TreeMove.v` | Moving trees. |
| `TreeMoveAssign.v` | Move assignment of trees. |
| `TreeSub.v` | Assignment from a wrapper nested in the assigned-to wrapper's own value. |
| `TreeClient.v` | Client programs over nested values. |
| `TreePlace.v` | Places in values: taking one or two wrappers out of memory and putting back others. |
| `TreeForest.v` | Places in forests: taking one or two wrappers out of memory and putting back others. |
| `TreeOps.v` | Construction from arguments, allocator-extended move construction and swap of nested values. |
| `TreeStep.v` | One operation of a client over nested values. |
| `TreeScope.v` | Scopes: clients that destroy their variables, whatever throws. |
| `TreeCalm.v` | Programs throw only if the environment does. |
| `TreeSubUB.v` | Assignment from a nested wrapper: what goes wrong. |
| `TreeComposite.v` | Memberwise move assignment. |
| `TreeObs.v` | What can be observed of a tree by following members from a wrapper, in the store. |
| `TreeEx.v` | Concrete trees, for the examples beside the theorems and for the witnesses of refutations: every tree of the right shape can be laid out in memory. |
| `TreeSubMem.v` | Copy assignment of an indirect from a direct member of its own value, [x = x->m_i], where the objects are assigned in place: the common part, and when it is undefined. |
| `TreeSubLast.v` | Copy assignment of an indirect from the last member of its own value (such as popping the head of a list), where the objects are assigned in place: it is defined. |
| `TreeAsgObs.v` | The value seen at each path after copy assignment. |
| `TreeSubDeep.v` | Copy assignment of a wrapper from a wrapper at any depth of its own value: exactly when it is defined, and what it then does. |
| `TreeUp.v` | Assigning a wrapper to, or swapping it with, a wrapper nested in its own value. |
| `TreeUpIn.v` | Copy assignment in place to a wrapper nested in the source's own value. |
| `TreeUpMove.v` | Move assignment of a wrapper to, and swap with, a wrapper nested in its own value. |
| `PropsTree.v` | Recursive and composite value types: the theorems. |
| `PropsTreeSub.v` | Assignment between trees, and from a part of the assigned-to tree: the theorems. |
| `PropsTreeUp.v` | Assigning to, and swapping with, a wrapper nested in the other's value: the theorems. |
| `PropsTreeClient.v` | Client programs over nested values: the theorems. |
| `TreeEq.v` | Comparison and hashing of nested values. |
| `TreeEqProps.v` | Comparison and hashing of nested values: lemmas. |
| `TreeEqLaws.v` | Comparison of nested values, described by paths. |
| `PropsTreeEq.v` | Comparing and hashing nested values: the theorems. |
| `Overload.v` | Which constructor or assignment operator a call selects. |
| `OverloadSpec.v` | Which constructor a call is meant to select, read off the constraints in DRAFT.md. |
| `OverloadProps.v` | Lemmas about overload resolution; copies, moves, assignment and delegation. |
| `OverloadInd.v` | The constructors of both [indirect] headers select what is intended. |
| `OverloadPoly.v` | The constructors of both [polymorphic] headers select what is intended. |
| `PropsOverload.v` | Which constructor and which assignment operator a call selects: the theorems. |
| `Contract.v` | Value types with arbitrary special member functions. |
| `ContractProps.v` | The class templates over a value type that keeps its contract. |
| `ContractOps.v` | The operations of the class templates over a value type that keeps its contract. |
| `ContractMove.v` | Moving and swapping wrappers over a value type that keeps its contract. |
| `ContractNode.v` | Classes with wrapper members keep the contract if the members' value type does. |
| `ContractClient.v` | Client programs over any value type that keeps its contract. |
| `ContractClientProps.v` | Client programs over value types that keep their contract: proofs. |
| `ContractUser.v` | Value types written by users of the class templates. |
| `ContractUserProps.v` | Value types written by users of the class templates: they keep the contract. |
| `ContractTidy.v` | Tidy programs: subobjects are created in allocated storage and gone when it is freed. |
| `ContractTidyProps.v` | The operations of the class templates are tidy if the value type is. |
| `ContractTidyNode.v` | Classes with wrapper members are tidy if the members' value type is. |
| `PropsContract.v` | Value semantics over any value type that keeps its contract: the theorems. |
| `ConcPar.v` | Threads over wrappers that own wrappers. |
| `ContractConcNode.v` | What user-written classes write, by inspection of their programs. |
| `ContractConc.v` | Threads whose variables own values of any class that keeps its contract. |
| `ContractConcProps.v` | Threads over values of any class that keeps its contract: proofs. |
| `ContractConcJoin.v` | Threads over values of any class that keeps its contract: all threads together. |
| `ContractConcUser.v` | Classes whose objects threads may share: proofs. |
| `ContractConcScoped.v` | Classes constructed with their owner's allocator may be shared by threads: proofs. |
| `PropsContractConc.v` | Threads over any value type that keeps its contract: the theorems. |
| `ContractValue.v` | Assignment of values to wrappers, over value types with arbitrary special member functions. |
| `ContractValueProps.v` | Assignment of values to wrappers over a value type that keeps its contract. |
| `ContractValueUser.v` | Classes that keep the contract of value assignment. |
| `ContractValueClient.v` | Programs that assign values to wrappers, over any value type. |
| `ContractValueClientProps.v` | Programs that assign values to wrappers, over any value type: what they do. |
| `PropsContractValue.v` | Assignment of values to wrappers, over any value type that keeps its contract: the theorems. |
| `CompareSelect.v` | Which comparison operator an expression means, and comparisons of nested wrappers. |
| `CompareSelectProps.v` | Which comparison operator an expression means: proofs. |
| `PropsCompareSelect.v` | Which comparison operator an expression means: the theorems. |
| `Deduction.v` | Class template argument deduction for [indirect]. |
| `PropsDeduction.v` | Class template argument deduction for [indirect]: the theorems. |
| `Vector.v` | Wrappers as elements of containers. |
| `VectorProps.v` | Wrappers as elements of containers: proofs. |
| `PropsVector.v` | Wrappers as elements of containers: the theorems. |
| `Arena.v` | Memory resources: value types constructed with their owner's allocator. |
| `ArenaProps.v` | Memory resources: proofs. |
| `ArenaHome.v` | Memory resources: what lives where, proofs. |
| `PropsArena.v` | Memory resources: the theorems. |
| `ContractCompare.v` | Comparison and hashing of wrappers, over value types whose operators are arbitrary code. |
| `ContractCompareProps.v` | Comparison and hashing of wrappers over any value type: proofs. |
| `PropsContractCompare.v` | Comparison and hashing of wrappers, over value types whose operators are arbitrary code: the theorems. |
| `ContractCompareConc.v` | Threads that compare and hash wrappers. |
| `ContractCompareConcProps.v` | Threads that compare and hash wrappers: proofs. |
| `PropsContractCompareConc.v` | Threads that compare and hash wrappers: the theorems. |
| `Algorithm.v` | Algorithms over ranges of wrappers. |
| `AlgorithmProps.v` | Algorithms over ranges of wrappers: proofs. |
| `PropsAlgorithm.v` | Algorithms over ranges of wrappers: the theorems. |

`Props*.v` contain the property theorems (named by property id), each followed by `Print Assumptions`, and the
examples showing that their hypotheses are met.  The files before them contain lemmas.

## 3. What is modelled of each file, and what is not

| source | modelled | not modelled |
|--------|----------|--------------|
| `indirect.h` | all constructors (default, value, in-place, initializer-list, each with and without allocator), copy/move construction, destructor, copy/move/value assignment, `operator*`/`->` (const and non-const; ref-qualified forms return the same object), `valueless_after_move`, `get_allocator`, member and free `swap`, `reset`, `construct_from`, `destroy_with`; `==`, `<=>` (incl. `synth_three_way`), mixed comparisons, `std::hash`; constraints and `explicit` of constructors and assignment, and which of them a call selects (`Overload.v`); which comparison operator an expression selects (`CompareSelect.v`); deduction guides (`Deduction.v`) | `static_assert`s, constraints of other functions, `constexpr`; fancy pointers (`pointer` is `T*`) |
| `polymorphic.h` | the same set of members (no comparisons exist); control block class (`cb_ctor`, `create_control_block`, `clone`, `move`, `destroy`) with its virtual calls dispatched on the dynamic type | as above; base-to-derived pointer adjustment (the owned object is identified with its block) |
| `indirect_cxx14.h`, `polymorphic_cxx14.h` | the same, separately, as their text differs from the C++20 headers; `unreachable` fallbacks | `alloc_base` empty-base optimisation (layout only), feature macros |
| `tracking_allocator.h` | counters, rebind constructor, equality, allocate/deallocate on top of the machine's log | the underlying `std::allocator` |
| `tagged_allocator.h` | tag, rebind constructor, equality, traits | the underlying `std::allocator` |
| `exploration/wrapper.h` | the whole class (separate small machine, `Wrapper.v`) | — |
| `*_test.cc`, `benchmarks`, `compile_checks`, `cmake`, `exploration/incomplete_types*`, `exploration/traits_and_concepts.cc`, `feature_check.h`, `test_helpers.h`, `indirect.cc` etc. (only includes) | — | tests and build files; compile-time matters only |

Other simplifications, all visible in comments beside the definitions:

* `assert(!valueless_after_move())` is not a separate outcome; violating it is modelled as the undefined behaviour that
  follows when assertions are off.
* Allocation returns a block for one object; sizes and alignment are represented by the type of the block.
* Allocators' copy constructor, move constructor, assignment and `==` do not throw (a Cpp17Allocator requirement).
* Destructors of value types do not throw (required by the draft).  A value type's operations are atomic actions
  in `flatTP` (no re-entrancy into the wrapper); re-entrant ones are the subject of the tree model.
* In the tree model a class's own data is an opaque value and its wrapper members are constructed, copied, assigned and
  destroyed in order by the compiler-generated functions.  User-written special members are arbitrary programs under a contract in
  `Contract.v` (C46), which the compiler-generated ones are shown to keep.
  `nodeTP n` follows the recursion to depth `n`; theorems require `fits n` (`C37_depth`: some `n` always fits),
  and running out of depth is undefined behaviour, so no theorem holds because of it.
* Threads (`Conc.v`): sequentially consistent interleaving of primitive actions, plus a definition of data race on conflicting
  accesses; race freedom is proved, so weaker memory models add nothing for race-free programs.

## 4. Specifications

Independent of the class models: `Spec.v` (abstract machine mapping each object to
`option (dynamic type * value)` and an allocator, one step function per operation transcribed from
DRAFT.md), `OverloadSpec.v` (which constructor the draft's constraints mean, by matching on the arguments), `SpecRun.v`, `LogSpec.v` (a checker over the event log alone), `OpSpec.v` (tables: objects named, cost,
allocator), `Draft.v`, `CompareProps.v` (functions on optional values and laws of relations), `Tree.v`
(`tree`, `wrap_heap`, `copy_tree`: what memory a tree occupies and what a copy of it is), `TreeObs.v` (what is observed
by following members in the store).  `Complete.v` shows the specification exact: every behaviour it allows can happen.

## 5. Properties, how they are proved, and status

| id | title | status | method |
|----|-------|--------|--------|
| C01 | indirect (C++20): no undefined behaviour in any client history | proved | invariant (unique ownership, no indeterminate pointer, resource match) preserved by every operation for every oracle; every client history by induction |
| C02 | polymorphic (C++20): no undefined behaviour in any client history | proved | as C01 |
| C03 | indirect_cxx14: no undefined behaviour in any client history | proved | as C01 |
| C04 | polymorphic_cxx14: no undefined behaviour in any client history | partial | as C01; false of polymorphic_cxx14.h with POCCA: refuted, conditional theorem |
| C05 | No leaks, ever | proved | part of the invariant |
| C06 | Exactly-once lifecycle of every block and owned object | proved | log checker; every history |
| C07 | indirect behaves as a value (refinement) | proved | refinement of Spec.v |
| C08 | polymorphic behaves as a value of dynamic type (refinement) | proved | refinement of Spec.v, exceptional exits |
| C09 | Independence of distinct objects | proved | frame/propagation/stability theorem on histories |
| C10 | Copy construction | proved | per-operation theorem from every reachable state |
| C11 | Move construction steals | proved | per-operation theorem from every reachable state |
| C12 | Allocator-extended move construction leaves the source valueless | partial | per-operation theorem from every reachable state |
| C13 | Move assignment: effects and valueless source | partial | per-operation theorem from every reachable state |
| C14 | Self-assignment is a no-op | proved | per-operation theorem from every reachable state |
| C15 | swap exchanges owned objects without touching them | proved | per-operation theorem from every reachable state |
| C16 | Exact preconditions | proved | per-operation theorem from every reachable state |
| C17 | Valueless only by moving | proved | per-operation theorem from every reachable state |
| C18 | Failed construction leaves no trace | proved | per-operation theorem from every reachable state |
| C19 | Copy assignment exception guarantee | proved | per-operation theorem from every reachable state |
| C20 | Move assignment exception guarantee | proved | per-operation theorem from every reachable state |
| C21 | noexcept operations never terminate the program | partial | per-operation theorem from every reachable state |
| C22 | Allocator propagation | proved | frame/propagation/stability theorem on histories |
| C23 | Owned storage belongs to the object's allocator | partial | frame/propagation/stability theorem on histories |
| C24 | Reference and pointer stability | proved | frame/propagation/stability theorem on histories |
| C25 | Exact allocation and value-operation costs | proved | per-operation theorem from every reachable state |
| C26 | Value assignment to indirect | proved | per-operation theorem from every reachable state |
| C27 | Perfect forwarding and exception identity | proved | per-operation theorem from every reachable state |
| C28 | Copying does not modify the source | partial | per-operation theorem from every reachable state |
| C29 | Equality laws | proved | operators as programs, equal to pure functions on optional values, laws of those |
| C30 | Ordering laws | proved | as C29 |
| C31 | Comparison with plain values, both operand orders | proved | as C29 |
| C32 | C++14 and C++20 comparison operators agree | partial | as C29 |
| C33 | Hash is consistent with equality | proved | as C29 |
| C34 | Const operations are data-race free | proved | interleavings; locality of primitives; race freedom for every schedule |
| C35 | C++14 and C++20 headers implement the same class | partial | program/run equality between headers; refuted where they differ |
| C36 | initializer_list construction creates the requested dynamic type | partial | program/run equality between headers; refuted where they differ |
| C37 | Recursive data structures | proved | induction on depth over the tree instance |
| C38 | Assignment from a sub-object of the assigned-to object | partial | characterisation per class and position; refuted as stated |
| C39 | Composite classes get correct special members | proved | induction on the list of members |
| C40 | Allocation counters of TrackingAllocator balance | proved | counters computed from the log |
| C41 | exploration wrapper is safe to copy and assign | partial | separate model; refuted for assignment, proved without |
| C42 | Programs over nested values have value semantics | proved | step theorem per operation on forests, induction on the client |
| C43 | Comparison and hashing of nested values are deep | proved | run lemma per operator by induction on depth; equivalence with observations at paths |
| C44 | Calls select the intended constructor and assignment operator | partial | overload resolution as a function over the declarations; equality with a specification on all argument lists by case analysis and lemmas on packs; refuted where the headers deviate |
| C45 | Assigning to, or swapping with, a wrapper nested in its own value | partial | induction on the position; frame of the in-place assignment; refuted as stated, characterised per operation |
| C46 | Value semantics compose with any value type that keeps its promises | proved | contract on the special member functions as Hoare triples with footprints; run theorem per operation; closure under member composition; induction on the client |
| C47 | Threads may share wrappers over any value type whose const means const | proved | invariant over all schedules: each thread runs as if alone on the memory it can see (simulation); static confinement of the code; join of the threads' heaps |
| C48 | Assigning a value to a wrapper does to the value what the class's own assignment does | proved | contract on the assignments of the value type as Hoare triples with footprints; run theorem per operation and client, closure under member composition |
| C49 | Comparison expressions select one operator and mean the same at every depth | partial | overload resolution as a function over the candidates; induction on the sum of the sizes of the operand types |
| C50 | Deduction guides name the intended class | partial | overload resolution over the guides; case analysis on argument lists |
| C51 | Containers of wrappers relocate, erase and permute without touching the values | partial | induction on the elements over the run theorems of C46 |
| C52 | Values built with their owner's allocator stay in its memory resource | proved | invariant on the values (every member lives in its owner's resource), preserved by every step of the specification of C46, transferred by its simulation; induction on depth for the classes |
| C53 | Comparing and hashing wrappers call the value type's operators, whatever these do, and change nothing | proved | a calculus of programs that leave memory as it was; induction on members and depth; the simulation of C46 extended by comparisons |
| C54 | Threads may compare and hash shared wrappers concurrently | proved | the per-thread invariant of C47, now for any programs with a confinement and a simulation lemma; a static analysis shows that comparisons write nothing shared |
| C55 | Algorithms over wrappers do what they do to values, and touch none | proved | induction on the decision tree over the run theorems of C46, C51 and C53; the sort by induction on the range |

Details and the exact theorem names are in `MANIFEST.json`.

### Findings about the code

Each is a theorem named `..._refuted` (or stated positively) with a witness.

* F1 (C12, C13) Moving between unequal allocators leaves the source holding a moved-from object, not valueless.
* F2 (C21) Move assignment is `noexcept` when `POCMA`, but with unequal allocators it allocates and may throw: `std::terminate`.
* F3 (C04, C23, C35) `polymorphic_cxx14.h`: the allocator-extended move constructor consults `POCCA` and can pair a block with an allocator that did not allocate it.
* F4 (C36) `polymorphic_cxx14.h`: the initializer-list constructor makes a `T` rather than the requested type.
* F5 (C38) `x = std::move(x->child)` with equal allocators is undefined for every tree and position:
  `std::swap(p_, other.p_); other.reset();` makes the child own, and destroy, the node it is a member of.
  `x = x->p` for `indirect` assigning in place is undefined unless every member through which the assignment
  descends (`descends`) is the last member of its node, in which case it is correct.
  With propagating allocators `other.alloc_` is read after `other` was destroyed.
* F8 (C08) What a throwing move assignment leaves in the source is up to the value type.
* F9 Allocators whose `==` is not reflexive are excluded by hypothesis where needed.
* F10 (C28) `clone` and copy assignment pass a non-const lvalue to the value type's constructor.
* F11 (C40) `TrackingAllocator` counts an allocation that then fails.
* F12 (C41) `exploration/wrapper.h`: implicit copy assignment is shallow: double delete.
* F13 (C32) C++20 `<=` on `indirect` is derived from `synth_three_way` and can disagree with the value type's own `<=`.
* F14 (C44) `indirect_cxx14.h`: `operator=(U&&)` excludes the class by `std::remove_cv_t<U>`, which does not remove the reference:
  for a non-const lvalue `y` and a `T` constructible and assignable from the wrapper (like `std::any`), `x = y` assigns `y` as a value.
* F15 (C44) Smaller differences from the draft: `indirect_cxx14.h` takes as values only `T` itself; many C++14
  constructors are not explicit; `polymorphic.h` tests an rvalue initializer list but passes an lvalue, and does not exclude `in_place_type_t` values;
  `indirect.h` has an allocator-extended in-place constructor that accepts braces where the draft has none; `polymorphic_cxx14.h`
  value constructors accept arguments for which their own delegation is ill-formed.
* F16 (C45) Assigning a wrapper to one nested in its own value.  `x->left = x` for `indirect` assigning in place gives a wrong value;
  `x->left = std::move(x)` with equal allocators, for every class, tree and position, leaks the whole node and leaves `x` valueless
  (the node becomes owned by its own member), as does `swap(x, x->left)`; with unequal allocators the move is correct
  to a direct member and leaks for any deeper one.
* F17 (C49) If `T` is itself an `indirect`, `x == v` for a `v` of type `T` compares two wrappers, not the owned `T` with `v`:
  `x == *x` can be false, and `x == v` true although `x` owns nothing.
* F18 (C49) Two objects of classes derived from `indirect` cannot be compared (ambiguous); a derived object compared with
  an `indirect` is taken as a value, so a valueless one differs from a valueless `indirect`.
* F19 (C49) For partially ordered values `indirect.h` gives `x <= nan` true for `indirect<indirect<double>>`, false for `indirect<double>`.
* F20 (C50) `indirect(std::allocator_arg, alloc, x)` for an `indirect` `x` is a copy only if `alloc` has exactly the type of `x`'s allocator;
  with e.g. `std::allocator<std::byte>` it is an `indirect` of an `indirect`.
* F21 (C51) The draft declares the move constructors `noexcept`; `indirect.h`, `indirect_cxx14.h` and `polymorphic.h` declare them
  `noexcept(is_always_equal)` although they cannot throw.  A `std::vector` of wrappers with any other allocator
  therefore copies all values when it grows, and growing can fail.

## 6. Trusted base

* Coq 8.16.1's kernel, including its `vm_compute` conversion (used in examples and witnesses).
* Coq's standard library and std++ as ordinary Coq code.  No axioms of our own, no kernel check disabled.
* Axioms per theorem, as reported by `Print Assumptions`:
  every theorem of the `Props*.v` files is *"Closed under the global context"* (no axioms at all).  The list:

  - `PropsAlgorithm.v`: `C55_algorithms`, `C55_removing`, `C55_sort`, `C55_unique`.
  - `PropsAlloc.v`: `C40_counters`, `C40_failed_allocations`, `C40_all_destroyed`, `C40_tracking_equality`, `C40_tagged_equality`.
  - `PropsArena.v`: `C52_contract`, `C52_keeps`, `C52_copy`, `C52_programs`, `C52_release`, `C52_pmr`, `C52_release_refuted`.
  - `PropsCompare.v`: `contents_exist`, `observers_do_not_write`, `C29_meaning`, `C29_reflexive`, `C29_symmetric`, `C29_transitive`, `C29_negation`, `C30_three_way`, `C30_relations`, `C30_reversed`, `C30_transitive`, `C30_total`, `C30_consistent_with_equality`, `C30_strict_weak_order`, `C31_right`, `C31_mirrored`, `C31_left`, `C32_agree_partial`, `C32_agree_values_partial`, `C32_without_three_way`, `C32_refuted`, `C33_meaning`, `C33_consistent`.
  - `PropsCompareSelect.v`: `C49_unique`, `C49_equal`, `C49_not_equal`, `C49_order`, `C49_headers_agree`, `C49_symmetric`, `C49_transitive`, `C49_value_partial`, `C49_value_refuted`, `C49_derived_ambiguous`, `C49_derived_refuted`, `C49_unordered_refuted`.
  - `PropsConc.v`: `C34_no_race`, `C34_results`, `C34_shared_unchanged`, `C34_join`, `C34_needs_copy_requirement`.
  - `PropsContract.v`: `C46_make`, `C46_copy`, `C46_copy_alloc`, `C46_move`, `C46_move_alloc`, `C46_copy_assign`, `C46_move_assign`, `C46_swap`, `C46_destroy`, `C46_programs`, `C46_no_leak`, `C46_independent`, `C46_flat`, `C46_members`, `C46_towers`, `C46_copy_only`, `C46_handle`, `C46_contract_needed`.
  - `PropsContractCompare.v`: `C53_operators`, `C53_value_operators`, `C53_hash`, `C53_classes`, `C53_order`, `C53_scoped`, `C53_scoped_order`, `C53_programs`, `C53_functions`.
  - `PropsContractCompareConc.v`: `C54_no_race`, `C54_results`, `C54_no_escape`, `C54_shared_unchanged`, `C54_join`, `C54_classes`, `C54_scoped`, `C54_const_needed`.
  - `PropsContractConc.v`: `C47_no_race`, `C47_results`, `C47_no_escape`, `C47_shared_unchanged`, `C47_join`, `C47_flat`, `C47_towers`, `C47_copy_only`, `C47_handle`, `C47_scoped`, `C47_const_needed`.
  - `PropsContractValue.v`: `C48_copy`, `C48_move`, `C48_args`, `C48_programs`, `C48_no_leak`, `C48_flat`, `C48_members`, `C48_towers`, `C48_copy_only`, `C48_handle`, `C48_zero`, `C48_can_terminate`.
  - `PropsDeduction.v`: `C50_one`, `C50_allocator`, `C50_allocator_copy`, `C50_allocator_nests`, `C50_allocator_copy_refuted`, `C50_other`.
  - `PropsHeaders.v`: `C35_indirect`, `C35_polymorphic_partial`, `C35_polymorphic_same_code`, `C35_refuted`, `C36_requested_type`, `C36_cxx14_partial`, `C36_cxx14_wrong_type`, `C36_refuted`.
  - `PropsOps.v`: `C10_copy_valueless`, `C10_copy_engaged`, `C11_move_steals`, `C11_same_address`, `C12_refuted`, `C12_source_valueless_iff_partial`, `C12_unequal`, `C13_equal_allocators`, `C13_valueless_source`, `C13_unequal_allocators`, `C13_refuted`, `C13_source_valueless_iff_partial`, `C14_self_assignment`, `C15_swap`, `C15_swap_twice`, `C16_exact_precondition`, `C16_deref_valueless`, `C16_swap_unequal`, `C18_failed_construction`, `C19_copy_assignment_throws`, `C19_polymorphic_strong`, `C20_move_assignment_throws`, `C21_noexcept_partial`, `C21_does_terminate`, `C21_refuted`, `C21_termination_exact`, `C21_never_throws`, `C24_stability`, `C25_exact_cost`, `C26_in_place`, `C26_valueless`, `C27_forwarding`, `C27_exception_identity`, `C28_copy_source_partial`, `C28_indirect_copy_constructors`, `C28_refuted`.
  - `PropsOverload.v`: `C44_copy_move`, `C44_indirect`, `C44_indirect_braces_refuted`, `C44_indirect14`, `C44_indirect14_values_refuted`, `C44_polymorphic`, `C44_polymorphic_lists_refuted`, `C44_polymorphic_tags_refuted`, `C44_polymorphic14`, `C44_assign`, `C44_assign_self`, `C44_assign14`, `C44_assign14_refuted`, `C44_implicit`, `C44_implicit_copy`, `C44_braces`, `C44_braces14`, `C44_braces14_refuted`, `C44_delegate`, `C44_delegate_polymorphic`, `C44_forward`, `C44_forward_polymorphic14`, `C44_delegate_polymorphic14`, `C44_delegate_polymorphic14_refuted`.
  - `PropsSafety.v`: `owns_meaning`, `valueless_meaning`, `absent_meaning`, `always_settled`, `abs_meaning`, `C01_no_ub`, `C02_no_ub`, `C03_no_ub`, `C04_refuted`, `C04_no_ub_partial`, `C04_exclusion_necessary`, `C05_blocks_are_engaged_objects`, `C05_unique_owner`, `C05_all_destroyed`, `C06_dealloc_matches_alloc`, `C06_destroy_matches_construct`, `C06_construct_in_empty_block`, `C06_assign_to_object`, `C06_sources_alive`, `C06_balance`, `C07_refines`, `C07_exact`, `C07_exact_any_value_type`, `C08_refines`, `C08_exact`, `C08_exact_any_value_type`, `C07_C08_nothrow`, `C09_independence`, `C09_independence_programs`, `C17_valueless_only_by_moving`, `C17_no_moves_no_valueless`, `C22_allocator_after`, `C23_storage_resource`, `C23_refuted`.
  - `PropsTree.v`: `C37_depth`, `C37_exists`, `C37_copy`, `C37_copy_a`, `C37_copy_equal`, `C37_destroy`, `C37_copy_destroy`, `C39_copy`, `C39_destroy`, `C39_copy_assign`, `C39_move_assign`.
  - `PropsTreeClient.v`: `C42_client`, `C42_no_termination`, `C42_no_leak`, `C42_unnamed`, `C42_determined`, `C42_nothrow`, `C42_scope`.
  - `PropsTreeEq.v`: `C43_equal`, `C43_equivalence`, `C43_hash`, `C43_order`, `C43_order_laws`, `C43_throw`, `C43_copy`.
  - `PropsTreeSub.v`: `C37_assign`, `C38_copy_made`, `C38_copy_assign`, `C38_copy_assign_list`, `C38_copy_last_member`, `C38_copy_member_undefined`, `C38_copy_propagating_undefined`, `C38_move_unequal`, `C38_move_undefined`, `C38_move_propagating_undefined`, `C38_move_refuted`, `C38_copy_refuted`.
  - `PropsTreeUp.v`: `C45_copy`, `C45_copy_wrong`, `C45_move_leaks`, `C45_move_member`, `C45_move_deep_leaks`, `C45_swap_leaks`, `C45_copy_refuted`.
  - `PropsVector.v`: `C51_grow_moves_partial`, `C51_grow_copies`, `C51_erase`, `C51_exchange`, `C51_grow_refuted`.
  - `PropsWrapper.v`: `C41_safe_partial`, `C41_copy`, `C41_values_partial`, `C41_refuted`, `C41_assignment_double_delete`, `C41_assignment_leaks`, `C41_clean_histories`.

  The seven `Coq.ssr.ssrunder.Under_rel.*` constants that a scan of loaded libraries reports are the parameters of a
  module type in Coq's own ssreflect library, loaded through std++; no theorem here depends on them.
* The faithfulness of the hand-written model to the headers: nothing is extracted from the C++ text.  The link is the comment
  above each definition, which cites file and lines, and the correspondence is statement by statement.
* The semantics given to C++ in `Lang.v` (object lifetime, exceptions, `noexcept`), for the fragment used.

## 7. Testing the theorems

`seeded/LOG.jsonl` records deliberate errors introduced into a scratch copy of the model (one per line), which theorems then
failed, and theorems that were tightened because an error survived.
