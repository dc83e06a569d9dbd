# Formal model of Boost.Variant in Rocq

The model covers the headers in `/repo/include/boost/variant` at the pinned commit.
It is written for Coq 8.16.1 with std++ and the Iris proof mode.
Nothing of `/repo` is built or run: the tie between model and code is the line citation on every model definition.

## Trusted base

* Coq's kernel (8.16.1), as re-run by `coqchk`.
* `Print Assumptions`.  Every file of properties (`Props*.v`) ends with one tuple of all its theorems and prints the
  assumptions of the tuple, which are those of all its components.  All print "Closed under the global context".
* Axioms present in loaded libraries but used by no theorem (`coqchk -o` lists them): the seven of
  `Coq.ssr.ssrunder.Under_rel` (`Under_rel`, `Under_rel_from_rel`, `Under_relE`, `Over_rel`, `over_rel`, `over_rel_done`,
  `under_rel_done`), which belong to a sealed module of the ssreflect tactic library.  The development has no axiom.
* The reading of the C++ code that the model definitions record in their comments.
* The C++ language rules that the model hard-wires: lifetime of automatic objects and of `new` expressions, order of
  member construction, overload ranking between a `long` and an `int` tag, `noexcept` calling `std::terminate`,
  two's complement wrap-around of the conversion to a narrower signed type; for C50 and C52 deduction of parameter
  packs, partial ordering and the conditional operator, as cited in `Compile.v`; for C54 deduction of a base class; for C55 binding of
  references to temporaries and hiding of functions by using-declarations.
* Boost.MPL and Boost.TypeTraits are not on this machine.  `iter_fold`, `iter_fold_if`, `transform`,
  list iteration, `aligned_storage` are modelled from their documentation.  C16 and C43 lean on what argument
  `iter_fold_if` passes to its predicate and returns as its state; the code's own first predicate dereferences its
  argument, which shows that it gets an iterator.
* `boost/detail/reference_content.hpp` is not on this machine either.  C55 relies on what its documentation says: it is
  constructed from a reference, copied by copying the reference, not assignable, and does nothing on destruction.
* Type traits are truthful: a type whose `has_nothrow_copy` (and so on) is true does not throw there.
  User destructors do not throw (the documented requirement of the BoundedType concept).

## The model

| file | what it models |
|------|----------------|
| `Base.v` | machine: memory, lifetimes, exceptions (with the operation and type that threw), oracle, trace |
| `Types.v` | configuration, traits of bounded types, fallback search, `use_fallback`/`never_uses_backup` flags, overload resolution |
| `Dispatch.v` | the unrolled switch of visitation, for any unrolling limit |
| `Variant.v` | `recursive_wrapper`, `backup_holder`, the variant class: constructors, all assignment strategies, swap, visitation, get, comparison |
| `Sem.v` | operations of user classes with member variants, in levels |
| `Client.v` | programs: commands on named variants and objects |
| `Queries.v` | all comparison operators, hash, output, `type()`, `empty()`, `apply_visitor` with n arguments of any value category, `visitor_ptr`, polymorphic get |
| `GetTypes.v` | get and polymorphic_get as type-level functions on cv-qualified, reference, pointer and wrapped types |
| `Layout.v` | `which_t`, discriminator encoding, size and alignment of the storage |
| `Substitute.v` | `recursive_variant_` substitution on type expressions |
| `Alias.v` | assignment from a part of the target |
| `Compile.v` | overloads of `apply_visitor`, constraints of the converting constructors, result type deduction; with the rules of template argument deduction, overload ranking and the conditional operator they need |
| `Nested.v` | what the compiler decides for construction from variants when bounded types may be variants, and classes may be derived from variants |
| `Comparison.v` | which comparison expressions compile: the variant's operators, the templates that refuse foreign types, operators of the user; and what their bodies need |
| `Requires.v` | which operations of user types each operation of a variant instantiates, with every visitor compiled for every type it may be applied to; const and reference types left out |
| `Wrappers.v` | programs whose variables may also be recursive_wrappers |
| `Places.v` | programs that hold references to member variants, at any depth |
| `Programs.v` | client programs with scopes, try blocks, loops, visitors that are programs |
| `Sizes.v` | sizes and alignments of types built from recursive variants | variant.hpp 1105-1203, recursive_wrapper.hpp 35 |
| `Calls.v` | functions that call themselves and each other, with variants by reference; a call is its body with the arguments for the parameters |
| `Delayed.v` | `apply_visitor(visitor)`: a function object with a reference to the visitor |
| `RefQueries.v` | `get`, `type()`, comparison for variants with bounded reference types |
| `References.v` | bounded reference types in the machine: overload resolution with references, construction, copy, move, conversion, destruction, visitation |

* Memory is a finite map from addresses to cells.  A cell is a variant object (its `which_` and its raw storage), a heap
  block or a stack slot.  Storage is raw or holds one live object: a user object, a `recursive_wrapper` (a pointer), a
  `backup_holder` (a pointer that may be null), or the MPL iterator that the fallback defect constructs (C43).
* Code is a computable function in a state monad with three outcomes: normal, exception, fault.  Undefined behaviour,
  failed assertions, `std::terminate`, use of a dead object, construction over a live object, reading one type as
  another, double free and the unreachable branch of visitation are *faults*, a distinct outcome.
* User types are described by traits (nothrow default/copy/move/assign, kind of default initialisation, blank, member
  variants, a `swap` of its own or `std::swap`).  An oracle in the state decides, at each potentially throwing user operation and at each `operator new`,
  whether it throws, and which value a moved-from or half-assigned object is left with.  Theorems quantify over all
  oracles.
* Every construction, destruction, allocation and release is recorded in a trace.  Reading an indeterminate value sets a
  flag.
* A user type may contain variants as members, to any depth.  Its operations are those of level `n` of a fixpoint;
  `Levels.v` shows that a higher level gives the same answer, so theorems speak of `yields` (all sufficiently high
  levels agree) or of every level.
* `fb_deref` is a switch in the configuration: false is the code as it is (the fallback object has the type of the MPL
  iterator), true is the repaired code.  Theorems hold for both where the statement does not say otherwise.

## Specification

* `Values.v`, `Observe.v`: value trees, and how to read them off memory, independently of the library's visitation.
* `Spec.v`: for every command the permitted outcomes and next abstract states (names to type list, index, value tree),
  for normal return and for a throw.  It mentions no memory and none of the model's helper functions.
* Guards.  `good_env`: conditions on user classes (a class's traits are no better than its members').  `typed`: the
  command compiles.  `good_tys`: excludes the lists for which C14 and C43 refute the guarantees, and, on demand (`st`,
  `nb`), lists that may leave indeterminate values (C17) or use backups (C11).  `unparked`: excludes assigning out of a
  parked variant (C15), unless the target is parked with the same index; where `swap` swaps member variants, both sides count.  `Lax.v` has histories without the guards on type lists, for the refutations.
* `Trace.v`, `Owned.v`, `Reach.v`, `Ask.v`, `GetSpec.v`, `LayoutSpec.v`, `SubstSpec.v`, `WrapSpec.v`,
  `VisitSpec.v`, `CompileSpec.v`, `NestedSpec.v`, `ReferencesSpec.v`, `SwapSpec.v`, `PlaceSpec.v`, `ConstSpec.v`, `CostSpec.v`, `ComparisonSpec.v`, `OriginSpec.v`, `RequiresSpec.v`, `BuildSpec.v`, `AnswerSpec.v`, `WrappersSpec.v`, `PlacesSpec.v`, `AlikeSpec.v`, `DepthSpec.v`, `ProgramsSpec.v`, `SizesSpec.v`, `PlacesAlikeSpec.v`, `MeaningSpec.v`, `CallsSpec.v`, `CallsMeaningSpec.v`, `BlameSpec.v`, `TidySpec.v`, `GuardsSpec.v`, `EndingSpec.v`, `DelayedSpec.v`, `RefQueriesSpec.v`: vocabulary of the property statements.

## How it is proved

`Heap.v` instantiates the Iris proof mode with plain (linear) heap predicates over the model's memory; `Wp.v` is a weakest
precondition for the monad with both postconditions and the frame rule built in; faults are excluded by definition, and
the invariant about the trace is part of it.  `Rep.v` gives ownership predicates, `Spec*.v` one lemma per function,
`World.v`/`ClientProof.v` one per command.  `HistoryProof.v` is the induction over histories.  Queries may look at the same
variant twice and are treated by plain computation over the memory that ownership guarantees (`SpecQuery.v`,
`QueryFacts.v`).  The `Props*.v` files contain statements, with a one-line proof each, and the Examples.

## Per property

| id | modelled | how it is proved |
|----|----------|------------------|
| C01 | core model, whole client histories | refinement of `Spec` by induction over the history; guards in the statement |
| C02, C03, C45 | trace and memory of the core model | global invariant (trace replays to memory) plus the exact memory footprint of each variable |
| C04–C10, C12, C13, C41, C42 | constructors and assignment, all strategies | one `wp` lemma per strategy; corollaries of the refinement |
| C11 | trace of allocations | no backup allocation under the static condition |
| C14, C15, C17, C18, C43 | same model | false of the code: `_refuted` theorems with concrete runs; positive part under the stated guard |
| C16 | fallback search, MPL iterators kept apart from types | characterisation of the chosen index for all lists; `_refuted` for the documented preference |
| C19 | `noexcept` combinator turns an escaping exception into a fault | part of the refinement (no fault); explicit no-throw lemmas |
| C20–C22 | constructors, overload resolution by conversion ranks | `wp` lemmas; resolution characterised as the unique best candidate |
| C23 | `swap` | `wp` lemma, both strategies |
| C24 | the unrolled switch | induction over chunks, any limit L ≥ 1; the address passed is tied to where the content is stored (`stored_at`) |
| C25, C40, C46 | queries | equality of query results over both states; queries are read-only computations |
| C26, C44 | `apply_visitor` with n arguments | `C26_many`: `wp` lemma by induction over the argument list, after splitting the nested calls into preparation, call, clean-up; C44 refutes that rvalues are passed themselves |
| C27–C29, C48, C49 | run-time get, type-level get | case analysis on content and types; `_refuted` for the failing static assertions |
| C30–C32, C47 | comparison, hash, output over contents | algebra over arbitrary element relations |
| C33, C34 | `Layout.v`, any widths and layouts | arithmetic (wrap-around, lcm, maximum) |
| C35, C36 | `recursive_wrapper` and levels in the core model | ownership of every reachable state; move assignment by direct computation; induction over levels |
| C37, C38 | type expressions | structural induction; `_refuted` for missed positions |
| C39 | `visitor_ptr` | case analysis |
| C50–C53 | `Compile.v`: overloads of `apply_visitor`, constructor constraints, result type deduction, arguments of visitors | case analysis on arity, induction over the alternatives; `_refuted` where the code falls short |
| C54 | `Nested.v`: type terms with nested variants, constructor and helper overloads | induction over type terms; `_refuted` for derived classes and nested sources |
| C55 | `References.v`, in the machine of `Base.v`; commands on both kinds of variants, in any order | separation logic with the reference cells as frame; overload resolution by a characterisation; `_refuted` for conversion from rvalues and for converted operands |
| C56 | `swap` of equal alternatives, with the content's own `swap` | corollaries of the refinement; in-place by a step-by-step analysis of the computation; `_refuted` for wrappers and for different alternatives |
| C57 | addresses in the core model; programs that do not mention a variable | frame of each command's footprint by induction; for the operations in place, `wp` lemmas that fix the path to the content and hide the rest; `_refuted` for moved wrappers and for parked targets |
| C58 | memory of const operands in the core model | a set of addresses that the rest of memory does not point to: no function of the model, from the primitives up, writes there or obtains a pointer into it to write through (`Keeps.v`); the ownership forest shows that the memory of const operands is such a set |
| C59 | event counts in the core model | memory is summed up over the representation predicate and compared with the value's parts; the event trace is balanced against memory by C02/C03's invariants; constructors only add constructions and allocations, destructors the converse (`Cost.v`) |
| C60 | overload model of the comparison operators (`Comparison.v`), types of C54 | candidates as a list against a relation; resolution is unique; induction on the type for what comparison of contents needs |
| C61 | exceptions carry the operation and the type they come from (`Base.v`, `Sem.v`) | compositional predicate over computations, graded by operations and by a set of types closed under members; by content: evaluation up to the strategy that is chosen |
| C62 | `Requires.v`: instantiated operations; the machine for what is executed | case analysis on traits over the list of visited types; executed operations: compositional predicate over computations, for a relation closed under member variants; `_refuted` for move-only types |
| C63 | the machine, for two configurations that differ in `lim` and `ndebug` | a computation refines another if it equals it wherever it does not fault, compositional over the machine (`BuildFacts.v`); no history faults (C01), so both directions hold |
| C64 | programs with wrapper variables, which extend those of C01 (`C64_conservative`) | separation logic as for C01 (`WrappersProof.v`); uniqueness of abstract states, then as for C02, C03, C04, C61 (`WrappersFacts.v`) |
| C65 | programs with references into contents, which extend those of C01 (`C65_conservative`) | separation logic: a variable whose members are referred to is split into a shell and member variants, and put together again (`PlacesProof.v`); names and histories (`PlacesFacts.v`) |
| C66 | runs from two states in which some names stand for the same values | every definition of the model preserves correspondence of addresses between two memories (a Kripke logical relation, `Alike.v`), also on faulty runs; the same values in two reachable states give corresponding memories (`AlikeFacts.v`) |
| C67 | levels of the core model as nested calls | from above: the triple of every operation with the other variables framed off (`DepthFacts.v`); from below: a partial-correctness triple per operation, that returning implies a bound on the depth (`DepthProof.v`), by induction over levels; a tower of values by induction |
| C68 | `Programs.v` over `Places.v` | typing gives permission, since without backups no value is parked (`looks`, `checks_admissible` in `ProgramsFacts.v`); induction over programs, carrying the environment and reachability; monotone in nested calls and in rounds (`prun_grow`); `only_parked` is the same induction with the condition of C15 on the commands issued (`issues`) |
| C69 | `Sizes.v` over `Substitute.v`, `Layout.v` | a bounded type is unchanged, hence smaller, or a pointer; well-founded induction over what is inside what (`SizesFacts.v`) |
| C70 | programs of C68 from two states in which some names stand for the same values | the correspondence of C66 extended to references to members and to programs, by induction over fuel and program (`AlikePlaces.v`); commuting: each program does after the other what it does first, because the other leaves its variables alone (`AlikePlacesFacts.v`) |
| C71 | programs of C68, against big steps over values (`MeaningSpec.v`) | induction over programs; each command by C65; what is set aside keeps its shell while a visitor runs, so closing the references puts the members back into it (`MeaningFacts.v`) |
| C72 | `Calls.v` over `Programs.v` | a program with functions, unrolled to any depth, compiles (`unroll_compiles` in `CallsFacts.v`: typing is preserved by renaming that keeps names apart), so C68 applies; termination by induction over the depth of values, then over the program, with C71 for what is left alone in between |
| C73 | `Calls.v` over `Programs.v` | C71 for the unrolled program, then its meaning is that of the program with calls, seen through the renaming (`means_calls` in `CallsMeaningFacts.v`, by induction over depth and program); mirroring by induction over values |
| C74 | `Programs.v`, `Calls.v` | `follows` (exceptions newly in the list of those thrown are due to choices in between) for each function of the model in `Blame.v`, then for programs in `BlameFacts.v`; mirroring from C73 |
| C75 | `Programs.v`, `Calls.v` | every step over values (`astep`, `rstep`) that does not throw keeps contents out of backups; without failures only get throws, before it has changed anything (from C74); then C68_only_parked and C71_unparked apply |
| C76 | `Programs.v`, `Calls.v` | every step over values (`astep`, `rstep`), successful or not, keeps all but the named variables out of backups; by induction on the program over `means` (C71), so that every command that is executed is allowed; then C68_only_parked and C71_unparked apply |
| C77 | `Programs.v`, `Calls.v` | the induction of C72 on the nesting of the first argument, with the condition that no operand of an executed command is in a backup; the condition comes from C76 (no try blocks) or C75 (nothing fails); the list function by induction on the nesting over `fmeans` (C73) |
| C78 | `Delayed.v` | what compiles by cases; variables stay bound until they are dropped, so the visitor is an object (`meanwhile_binding` in `DelayedFacts.v`); when it is dropped its address is not used again (`still_dead`, from `Keeps.v`); contents by the lemma of C26 |
| C79 | `RefQueries.v` over `References.v` | what visitation passes (`gives_apply` in `RefQueriesFacts.v`, from C55), then cases |

## Mutation testing

`seeded/LOG.jsonl` has one line per wrong model tried.  Each was built in a scratch copy.  Two things were looked at:
which proofs break, and (because a broken proof alone does not show that a *statement* became false) which property
statements are violated by concrete programs run on the wrong model, with the statements turned into executable checks.
Where a wrong model violated no statement, either a theorem was added, or the line says why the change is permitted or
has no effect.

## Not modelled

* Threads, volatile objects, alignment of real addresses beyond the arithmetic of `Layout.v`, object representation.
* Bounded reference types (`variant<T&>`) in the state machine other than in `References.v` (C55).  There: `get` and comparison
  (`RefQueries.v`, C79) not as commands of programs, no values in the programs' variables that hold references otherwise (`C55_no_references` ties values to the main model).
* Compile-time failure other than where a property is about it (strict get, ambiguous conversion, C50, C51, C54).  The state
  machine admits conversion from a variant whose alternatives all convert, also where the constraint of C51 rejects it.
* Compiler workarounds (`BOOST_WORKAROUND` branches) and pre-C++11 emulation.
* A user-supplied `swap` (found by argument dependent lookup) that does anything but exchange data and members, one by one.
* Visitors that replace the variant they visit and go on using references into it. The visitor of a delayed visitation (C78) is an object of a user type; its state is not told apart from its value.
* In C72: functions with results, and arguments that are the same variable twice.
* In C65: use of a variable while references to its members are in scope; `x = get<U>(x)`.
* Boost.Serialization.
