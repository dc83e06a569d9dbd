{"id": "C01", "title": "Never-empty guarantee over whole histories", "statement": "After any sequence of constructions, copies, moves, assignments, swaps, visits and destructions of variants, in which any potentially throwing user operation (and operator new) may throw at any point, every live variant still holds exactly one live object of one of its bounded types: which() is in [0, number of types), visiting reaches that object, and no operation in the history has undefined behaviour. Guards stated with the theorem: the static type condition that excludes C14, and no assignment from (or swap with) a variant whose own last assignment failed, unless its types never need a backup (C15).", "quantifier": "all type lists, all finite operation histories, all choices of which user operations throw and of the values left behind by moves and failed assignments", "why_tests_cant": "The throw points multiply along a history and the type lists are unbounded; a test suite checks a few type lists, a few throw points and short histories.", "anchors": ["include/boost/variant/variant.hpp: variant::assigner, move_assigner, backup_assigner, destroy_content, which, swap", "include/boost/variant/detail/backup_holder.hpp: backup_holder", "doc/design.xml: never-empty guarantee"]}
{"id": "C02", "title": "Every object is destroyed exactly once", "statement": "In every history every object of a bounded type that the library constructs (contents, temporaries, heap backups, recursive_wrapper pointees) is destroyed exactly once, no later than its variant, and never used outside its lifetime. At the end of the history the number of constructions minus destructions at each address is one for the objects owned by live variants and zero elsewhere.", "quantifier": "all histories, throw points and type lists as in C01", "why_tests_cant": "A leak or double destruction on one particular exceptional path shows only if that path is forced and instrumented; the paths are not enumerable.", "anchors": ["include/boost/variant/variant.hpp: destroyer, destroy_content, backup_assigner, assigner::assign_impl, variant::~variant"]}
{"id": "C03", "title": "No heap leak and no dangling heap block", "statement": "In every history the heap blocks alive are exactly those owned by live variants: one per recursive_wrapper content and one per variant in backup state; every delete is matched by exactly one new.", "quantifier": "all histories, throw points (including a failing operator new) and type lists", "why_tests_cant": "Same as C02, plus failing allocation inside exceptional paths.", "anchors": ["include/boost/variant/variant.hpp: backup_assigner::backup_assign_impl", "include/boost/variant/recursive_wrapper.hpp: recursive_wrapper", "include/boost/variant/detail/backup_holder.hpp"]}
{"id": "C04", "title": "Copy construction copies index and value", "statement": "variant(const variant&) yields which() and value equal to the source's, also when the source is in backup state; the source is unchanged; the two share no storage; when it throws nothing is left behind.", "quantifier": "all type lists, all source states, all throw points", "why_tests_cant": "Needs all states of the source, including the backup state that tests rarely reach.", "anchors": ["include/boost/variant/variant.hpp: copy_into, variant(const variant&)"]}
{"id": "C05", "title": "Move construction transfers the value and leaves the source valid", "statement": "variant(variant&&) yields the index and value the source had; the source keeps its index and stays valid with an unspecified value of the same type.", "quantifier": "all type lists, source states, throw points", "why_tests_cant": "Needs all source states including backup, and recursive_wrapper sources, whose move constructor must leave a non-null pointer.", "anchors": ["include/boost/variant/variant.hpp: move_into, variant(variant&&)", "include/boost/variant/recursive_wrapper.hpp: recursive_wrapper(recursive_wrapper&&)"]}
{"id": "C06", "title": "Successful assignment makes the target equal to the source", "statement": "If `a = b` returns normally then a has the index and value b had, and b is unchanged (copy) or keeps its index with an unspecified value (move). Self copy-assignment leaves the value unchanged.", "quantifier": "all type lists, all pairs of states, all throw points of inner operations that are recovered from", "why_tests_cant": "Four implementation strategies selected by traits, times same-index/different-index, times backup states.", "anchors": ["include/boost/variant/variant.hpp: variant_assign, assign_storage, move_storage, assigner, move_assigner"]}
{"id": "C07", "title": "What a failed assignment may leave behind", "statement": "If `a = b` throws, a holds either its old value unchanged, or (same index) a value of the same type left by the failed user assignment, or (only if some bounded type is nothrow default constructible) a default constructed value of the fallback type; nothing else. b keeps its index and, for copy assignment, its value.", "quantifier": "all type lists, states and throw points", "why_tests_cant": "The set of possible outcomes over all throw points cannot be established by sampling.", "anchors": ["include/boost/variant/variant.hpp: assigner, move_assigner, backup_assigner, assign_storage"]}
{"id": "C08", "title": "Strong guarantee when the new content is nothrow copyable or movable", "statement": "If the index changes and the source's content type is nothrow copy constructible or nothrow move constructible, a throwing assignment leaves the target exactly as it was.", "quantifier": "all type lists and states with that trait on the source's content type, all throw points", "why_tests_cant": "Universal over throw points.", "anchors": ["include/boost/variant/variant.hpp: assigner::assign_impl overloads 1 and 2, move_assigner::assign_impl"]}
{"id": "C09", "title": "Failed assignment with a fallback type", "statement": "If the index changes, the source content type may throw on both copy and move, and some bounded type is nothrow default constructible, then a throwing assignment leaves the target holding a default constructed object of the fallback type with the matching which().", "quantifier": "all type lists with a nothrow default constructible type, all states", "why_tests_cant": "Universal over type lists: index bookkeeping of the fallback depends on its position.", "anchors": ["include/boost/variant/variant.hpp: assigner::construct_fallback, find_fallback_type, fallback_type_result_"]}
{"id": "C10", "title": "Failed assignment without a fallback keeps the old value", "statement": "If no bounded type is nothrow default constructible and the index changes, a throwing assignment leaves the target with its previous index and value (kept in, or moved back from, a backup).", "quantifier": "all type lists without a nothrow default constructible type (and outside C14), all states, throw points", "why_tests_cant": "Backup creation, destruction, failed construction and restoration interleave with throws.", "anchors": ["include/boost/variant/variant.hpp: backup_assigner, indicate_backup_which"]}
{"id": "C11", "title": "Documented single-storage guarantee: no heap use", "statement": "If some bounded type is nothrow default constructible, or all bounded types are nothrow copy or nothrow move constructible, then no operation of the variant allocates dynamically on behalf of the variant itself (recursive_wrapper contents excepted).", "quantifier": "all such type lists, all histories", "why_tests_cant": "Absence of allocation over all histories and throw points.", "anchors": ["include/boost/variant/variant.hpp: assigner, move_assigner, backup_assigner, never_uses_backup_flag", "doc/design.xml: single storage"]}
{"id": "C12", "title": "Failure never swallows or replaces the user's exception", "statement": "If a user operation throws inside a variant operation, then either the operation rethrows that very exception, or it completes with its success effect; a variant operation throws only exceptions raised by user operations or operator new inside it.", "quantifier": "all operations, states, throw points, exception values", "why_tests_cant": "Universal over throw points and nested recovery.", "anchors": ["include/boost/variant/variant.hpp: backup_assigner, assigner::assign_impl"]}
{"id": "C13", "title": "Recovered assignments are atomic for observers", "statement": "Variants not named in an operation are unaffected by it, whether it succeeds or throws: index, value and backup state of every other variant are unchanged.", "quantifier": "all histories and all other variants", "why_tests_cant": "Frame property over unbounded numbers of other objects.", "anchors": ["include/boost/variant/variant.hpp: all operations"]}
{"id": "C14", "title": "Type confusion for nothrow-copy, throwing-move types (defect)", "statement": "Claimed by the documentation: a bounded type with nothrow copy constructor never needs backup handling, so visitation after a failed assignment reaches the value. This is false: with a type T that is nothrow copyable but has a throwing move, in a variant without fallback together with a type R that may throw on copy and move, a failed assignment puts T into a heap backup while visitation treats the storage as a T.", "quantifier": "existence of a type list and a three step history", "why_tests_cant": "Needs a rare trait combination and a throw at one point; undefined behaviour can go unnoticed by a test.", "anchors": ["include/boost/variant/variant.hpp: backup_assigner::backup_assign_impl overload 3", "include/boost/variant/detail/visitation_impl.hpp: visitation_impl_invoke"]}
{"id": "C15", "title": "Assigning from a variant in backup state (defect)", "statement": "Expected: after a failed assignment the variant can be used like any other as the right-hand side of an assignment or in a swap. This is false: if the left-hand side has another index, the assigner is instantiated with the backup holder itself and either fails an assertion or stores a null holder under a non-backup index.", "quantifier": "existence of a type list and a short history", "why_tests_cant": "Requires a particular order: failed assignment, then use as source against another index.", "anchors": ["include/boost/variant/variant.hpp: assigner::internal_visit, move_assigner::internal_visit, convert_copy_into", "include/boost/variant/detail/backup_holder.hpp: backup_holder(const backup_holder&)"]}
{"id": "C16", "title": "Preference for boost::blank as fallback (defect)", "statement": "The documentation's implementation note says boost::blank is preferred as the fallback type when present. The search for it applies its predicate to iterators instead of types, so the first nothrow default constructible type is always chosen.", "quantifier": "all type lists (what is chosen); existence (where it differs from the documentation)", "why_tests_cant": "Observable only on a failed assignment of a doubly throwing type with blank not first.", "anchors": ["include/boost/variant/variant.hpp: find_fallback_type"]}
{"id": "C17", "title": "Fallback values are determinate (defect)", "statement": "Expected: a failed assignment never leaves the target with an indeterminate value. This holds when the fallback type has a user-provided default constructor but fails when it is a scalar, because the fallback is default- rather than value-initialised.", "quantifier": "all type lists and histories (positive part); existence (negative part)", "why_tests_cant": "An indeterminate read usually yields a plausible number in a test.", "anchors": ["include/boost/variant/variant.hpp: assigner::construct_fallback"]}
{"id": "C18", "title": "Assigning from a part of the target (defect)", "statement": "Expected of a recursive variant: `v = get<Node>(v).child` yields the child's value. This is false when the child's content has another index and its type is nothrow copyable: the target's content, and with it the source, is destroyed before it is read; `v = std::move(get<Node>(v).child)` fails also for types that are nothrow movable. It holds for copy assignment when the child's content has another index and a type that may throw on copy but not on move, since that is copied to a temporary first.", "quantifier": "existence of a recursive type and state; positive part: all reachable states", "why_tests_cant": "Use after free need not be visible without a sanitizer.", "anchors": ["include/boost/variant/variant.hpp: assigner::assign_impl overload 1, assigner::internal_visit"]}
{"id": "C19", "title": "noexcept claims are honest", "statement": "An operation declared noexcept (destructor, move construction and move assignment with the stated trait conditions, default construction of a nothrow default constructible first type, and the internal noexcept helper functions) never has an exception escape it, so std::terminate is never reached.", "quantifier": "all type lists satisfying the declared conditions, all states including backup, all throw points", "why_tests_cant": "noexcept violations need the throwing path to be reached; conditions range over all type lists.", "anchors": ["include/boost/variant/variant.hpp: variant_move_noexcept..., is_variant_move_noexcept_constructible, assigner::assign_impl, ~variant"]}
{"id": "C20", "title": "Default construction", "statement": "A default constructed variant has which() == 0 and holds a value-initialised object of the first bounded type; if that constructor throws no object exists and nothing leaks.", "quantifier": "all type lists, throw points", "why_tests_cant": "Includes recursive_wrapper first types and failing allocation.", "anchors": ["include/boost/variant/variant.hpp: variant::variant()"]}
{"id": "C21", "title": "Construction and assignment from a value select the best bounded type", "statement": "Constructing or assigning from a value of type T stores the conversion of that value into the unique best matching bounded type chosen by overload resolution, with which() its position; assigning to a variant that already holds exactly T assigns in place.", "quantifier": "all type lists, all conversion rank tables, all values, all states", "why_tests_cant": "Universal over overload sets and positions.", "anchors": ["include/boost/variant/detail/initializer.hpp: make_initializer_node", "include/boost/variant/variant.hpp: convert_construct, assign, move_assign, direct_assigner"]}
{"id": "C22", "title": "Conversion between different variant types", "statement": "Constructing or assigning a variant from a variant of other bounded types visits the source's content and converts it by overload resolution; index and value of the result depend only on the content of the source, whether or not the source is in backup state.", "quantifier": "all pairs of type lists, all source states", "why_tests_cant": "Two unbounded type lists and all states.", "anchors": ["include/boost/variant/variant.hpp: convert_copy_into, convert_move_into, convert_construct_variant"]}
{"id": "C23", "title": "swap exchanges", "statement": "a.swap(b) that returns normally exchanges index and value; swapping twice restores both; if it throws both variants stay valid and every type condition of C07 holds for each of them.", "quantifier": "all type lists, all pairs of states, all throw points", "why_tests_cant": "Same-index and different-index strategies, three inner moves each of which may throw.", "anchors": ["include/boost/variant/variant.hpp: variant::swap, swap_with, move_swap"]}
{"id": "C24", "title": "Visitation dispatches to the content's type", "statement": "apply_visitor calls the visitor exactly once, on the current content seen at the bounded type with index which(); the unreachable branch is never reached. This holds for any number of types and any unrolling limit of the generated switch.", "quantifier": "all numbers of types, all unrolling limits, all indices", "why_tests_cant": "The switch is unrolled in chunks generated by the preprocessor; off-by-one at chunk borders depends on both numbers.", "anchors": ["include/boost/variant/detail/visitation_impl.hpp: visitation_impl, visitation_impl_step"]}
{"id": "C25", "title": "Visitation sees backups transparently", "statement": "Visiting, get, which, type, comparison and hashing give the same result for a variant in backup state as for one holding the same value in its own storage.", "quantifier": "all type lists, all states", "why_tests_cant": "Backup states are rare; the property ranges over all visitors.", "anchors": ["include/boost/variant/variant.hpp: invoke_visitor, known_get, which, using_backup", "include/boost/variant/detail/visitation_impl.hpp: visitation_impl_invoke_impl"]}
{"id": "C26", "title": "Multi-visitation passes every content in its place", "statement": "apply_visitor(f, v1, ..., vn) calls f exactly once with the contents of v1 to vn in that order, whatever the contents; lvalue arguments are passed as lvalues and rvalue arguments as rvalues.", "quantifier": "all n, all type lists of the n variants, all states, all value categories", "why_tests_cant": "Arity and the product of type lists are unbounded.", "anchors": ["include/boost/variant/detail/multivisitors_cpp11_based.hpp: one_by_one_visitor_and_value_referer, tuple_tail", "include/boost/variant/detail/apply_visitor_binary.hpp"]}
{"id": "C27", "title": "get returns the content exactly when types match", "statement": "get<U>(&v) is non-null iff the content's type is U (seen through recursive_wrapper and backup), and then points to the content, so writes through it are what later reads see; the reference form throws bad_get iff the pointer form is null. A null variant pointer gives null.", "quantifier": "all type lists including repeated types, all states, all U", "why_tests_cant": "Universal over U, states and type lists.", "anchors": ["include/boost/variant/get.hpp: get_visitor, relaxed_get, strict_get"]}
{"id": "C28", "title": "Strict get is relaxed get restricted to bounded types", "statement": "For types without volatile and a non-reference U: relaxed_get<U> is non-null iff the content has type U up to added const; strict_get<U> compiles iff there is a bounded type, also seen through recursive_wrapper and as a reference, whose values relaxed_get<U> finds, and then behaves as relaxed_get<U>. (With volatile or reference arguments see C48.)", "quantifier": "all type lists with const-qualified, wrapped and reference types, all U, const and non-const variants", "why_tests_cant": "A compile-time rejection set ranges over all types.", "anchors": ["include/boost/variant/get.hpp: strict_get", "include/boost/variant/detail/element_index.hpp: holds_element, element_iterator_impl"]}
{"id": "C29", "title": "polymorphic_get", "statement": "polymorphic_get<B>(&v) is non-null iff the content's type is B or derives from B, and points to the content; the reference form throws otherwise. The static assertion of polymorphic_strict_get<B> holds iff some bounded type does, for unqualified types.", "quantifier": "all type lists, all inheritance relations, all states", "why_tests_cant": "Universal over hierarchies.", "anchors": ["include/boost/variant/polymorphic_get.hpp: get_polymorphic_visitor, holds_element_polymorphic"]}
{"id": "C30", "title": "Equality", "statement": "v == w iff which() agrees and the contents are equal under the type's ==; it is an equivalence relation whenever each bounded type's == is one, and copies compare equal to their source.", "quantifier": "all type lists, all states, all element equalities", "why_tests_cant": "Algebraic law over all values.", "anchors": ["include/boost/variant/variant.hpp: operator==, comparer, equal_comp"]}
{"id": "C31", "title": "Ordering", "statement": "v < w iff which() is smaller, or equal with smaller content; it is a strict weak order whenever each bounded type's < is one, and >, <=, >= are derived consistently.", "quantifier": "all type lists, states and element orders", "why_tests_cant": "Algebraic law over all values.", "anchors": ["include/boost/variant/variant.hpp: operator<, operator>, operator<=, operator>=, comparer, less_comp"]}
{"id": "C32", "title": "Hash is consistent with equality", "statement": "If v == w then hash_value(v) == hash_value(w), provided each bounded type's hash respects its ==; the std::hash specialisation gives the same number.", "quantifier": "all type lists, states, element hashes and hash_combine functions", "why_tests_cant": "Universal over values.", "anchors": ["include/boost/variant/detail/hash_variant.hpp: hash_value", "include/boost/variant/detail/std_hash.hpp"]}
{"id": "C33", "title": "Discriminator encoding", "statement": "For every number of types the stored discriminator represents every index in both normal and backup form, without overflow of its integer type and without two different (index, backup) pairs sharing a representation; which() recovers the index.", "quantifier": "all numbers of types (with and without BOOST_VARIANT_MINIMIZE_SIZE), all indices", "why_tests_cant": "The narrow discriminator overflows only at type counts that are impractical to test.", "anchors": ["include/boost/variant/variant.hpp: which_t, which_, indicate_which, indicate_backup_which, using_backup, which"]}
{"id": "C34", "title": "Storage is large and aligned enough", "statement": "The storage is at least as large as every bounded type and the backup holder, and every address aligned for it is aligned for each of them; the size is a multiple of the alignment.", "quantifier": "all lists of sizes and alignments", "why_tests_cant": "Platform sizes are unbounded parameters.", "anchors": ["include/boost/variant/variant.hpp: make_storage, max_value, add_alignment"]}
{"id": "C35", "title": "recursive_wrapper is never null and copies deeply", "statement": "A recursive_wrapper always owns exactly one heap object; copy construction and assignment are deep; move construction keeps the source usable; move assignment swaps pointees and never throws.", "quantifier": "all sequences of operations, throw points", "why_tests_cant": "Deep copies and throw points in nested structures of any depth.", "anchors": ["include/boost/variant/recursive_wrapper.hpp"]}
{"id": "C36", "title": "Recursive variants of any depth", "statement": "Copying, assigning, moving and destroying variants whose alternatives contain variants again, to any depth, satisfy C01 to C10 at every depth: deep copies are independent of the original, destruction releases the whole tree.", "quantifier": "all depths, all trees, all throw points inside", "why_tests_cant": "Depth and shape unbounded.", "anchors": ["include/boost/variant/recursive_variant.hpp", "include/boost/variant/recursive_wrapper.hpp", "include/boost/variant/variant.hpp"]}
{"id": "C37", "title": "Recursive type substitution", "statement": "make_recursive_variant replaces the placeholder recursive_variant_ by the variant itself in every supported position (pointers, references, const, function types, template arguments to any depth), with the placeholder's qualifiers, and leaves other types alone.", "quantifier": "all type expressions in the supported grammar", "why_tests_cant": "Type expressions are unbounded.", "anchors": ["include/boost/variant/detail/substitute.hpp: substitute", "include/boost/variant/detail/enable_recursive.hpp"]}
{"id": "C38", "title": "Substitution misses some positions (defect)", "statement": "Expected: the placeholder is replaced wherever it occurs. This is false for const-qualified template instances, arrays and some other positions.", "quantifier": "existence of type expressions", "why_tests_cant": "Corner cases of partial specialisation.", "anchors": ["include/boost/variant/detail/substitute.hpp"]}
{"id": "C39", "title": "visitor_ptr", "statement": "A visitor_ptr made from a function taking U calls it on the content iff the content has type U, and throws bad_visit for any other content without calling it.", "quantifier": "all type lists, states, U", "why_tests_cant": "Universal over types.", "anchors": ["include/boost/variant/visitor_ptr.hpp: visitor_ptr_t"]}
{"id": "C40", "title": "type() and empty()", "statement": "empty() is always false and type() is the type_info of the bounded type with index which(), recursive_wrapper removed, in every reachable state.", "quantifier": "all reachable states", "why_tests_cant": "Over all histories.", "anchors": ["include/boost/variant/variant.hpp: empty, type, reflect"]}
{"id": "C41", "title": "Moved-from and failed variants can be reused", "statement": "A variant that was moved from, or whose assignment failed, can be assigned a new value, visited, compared, copied and destroyed, with the same guarantees as any other variant.", "quantifier": "all reachable states", "why_tests_cant": "Over all histories.", "anchors": ["include/boost/variant/variant.hpp"]}
{"id": "C42", "title": "A second failure does not lose the backup", "statement": "If an assignment to a variant already in backup state fails again, the old value is still there; if it succeeds the backup is released. (The source is not itself in backup state with the same index; then assignment happens in place, inside the backups.)", "quantifier": "all type lists, states with a backup, all throw points", "why_tests_cant": "Needs two failures in a row at chosen points.", "anchors": ["include/boost/variant/variant.hpp: backup_assigner::backup_assign_impl overload 1"]}
{"id": "C43", "title": "The fallback object has the fallback type (defect)", "statement": "Expected: when a failed assignment falls back, the storage afterwards holds a default constructed object of the fallback type that which() names. This is false for every fallback type with a non-trivial default constructor: `fallback_type_` is declared as the MPL iterator that find_fallback_type returns, not as the type it points to, so `new (storage) internal_T` constructs an object of the iterator type.", "quantifier": "all type lists with a fallback type, all failing assignments that take the fallback path; the refutation exhibits one", "why_tests_cant": "For scalar and empty fallback types (the ones used in the tests) the effect is invisible.", "anchors": ["include/boost/variant/variant.hpp:1146-1149 fallback_type_", "include/boost/variant/variant.hpp:155-220 find_fallback_type", "include/boost/variant/variant.hpp:1726-1735 construct_fallback"]}
{"id": "C44", "title": "Rvalue arguments of three-way visitation (defect)", "statement": "Expected: apply_visitor(f, v1, ..., vn) with rvalue variants passes the contents themselves, so that contents which the visitor leaves alone keep their values. This is false for n >= 3: the holder's unwrap returns by value, so the rvalue content is move-constructed into a temporary before f is called.", "quantifier": "all n >= 3, all positions of rvalue arguments; the refutation exhibits one", "why_tests_cant": "Tests look at what the visitor receives, not at what is left in the arguments when it does not take it.", "anchors": ["include/boost/variant/detail/multivisitors_cpp11_based.hpp:31-86", "include/boost/variant/detail/multivisitors_cpp14_based.hpp"]}
{"id": "C45", "title": "Ownership is a forest", "statement": "In every reachable state every address in use belongs to exactly one program variable or is stored in exactly one object (member variant, recursive_wrapper, backup holder): no sharing, no dangling and no null pointer; and every pointer leads to an object of the type its holder stands for.", "quantifier": "all histories, all throw points, all reachable memory cells", "why_tests_cant": "Aliasing that is not exercised by the test's later operations stays invisible.", "anchors": ["include/boost/variant/recursive_wrapper.hpp:27-126", "include/boost/variant/variant.hpp: backup_holder 385-470"]}
{"id": "C46", "title": "Queries change nothing", "statement": "which(), type(), get, visitation with a reading visitor and the comparison operators leave memory, allocations and the lifetime trace as they were, and every variable shows the same afterwards.", "quantifier": "all reachable states, all queries", "why_tests_cant": "Tests compare chosen observations, not all of memory.", "anchors": ["include/boost/variant/variant.hpp: internal_apply_visitor 2180-2330, which 2050-2062"]}
{"id": "C47", "title": "Output", "statement": "operator<< writes to the stream exactly what the content's operator<< writes, and changes nothing.", "quantifier": "all type lists, all reachable states, all printing functions, all previous outputs", "why_tests_cant": "Tests print a few contents; the content may also be in a backup after a failed assignment, at any nesting depth.", "anchors": ["include/boost/variant/detail/variant_io.hpp:37-79"]}
{"id": "C48", "title": "Assertion of strict_get with volatile or reference arguments (defect)", "statement": "Expected: strict_get<U> compiles iff relaxed_get<U> can succeed. This is false for volatile types and for a reference U with a const variant: code that compiles but always returns null or throws bad_get, and code that is rejected although relaxed_get would succeed.", "quantifier": "existence of type lists and template arguments", "why_tests_cant": "A static assertion that is too strict or too lenient shows only for the very combination of qualifiers; the tests have none with volatile.", "anchors": ["include/boost/variant/get.hpp:74-97, 118-152, 212-301", "include/boost/variant/detail/element_index.hpp:25-58"]}
{"id": "C49", "title": "Assertion of polymorphic_strict_get (defect)", "statement": "Expected: polymorphic_strict_get<U> compiles whenever polymorphic_relaxed_get<U> can succeed. This is false for base classes of bounded reference types, and for const bounded non-class types of a const variant.", "quantifier": "existence of type lists, inheritance relations and template arguments", "why_tests_cant": "As for C48.", "anchors": ["include/boost/variant/polymorphic_get.hpp:64-84, 92-130, 218-284"]}
{"id": "C50", "title": "Which calls of apply_visitor compile", "statement": "A visitor with a member type result_type can visit any number of variants, as const lvalue, non-const lvalue or temporary. Expected of generic visitors (C++14): the same. This is false: one to three variants compile, four or more never do, since the parameter pack is not last and is deduced empty. A temporary generic visitor is non-const where it is called for one variant, but const for two or three.", "quantifier": "all numbers of variants, all kinds of visitor arguments, with and without C++14", "why_tests_cant": "Overload resolution is a property of every arity; the tests stop at three variants for generic visitors, just where it still works.", "anchors": ["include/boost/variant/detail/multivisitors_cpp14_based.hpp:106-147", "include/boost/variant/detail/multivisitors_cpp11_based.hpp:173-207", "include/boost/variant/detail/apply_visitor_unary.hpp:43-59, 112-121", "include/boost/variant/detail/apply_visitor_binary.hpp:142-167, 258-284"]}
{"id": "C51", "title": "Constraints of the converting constructors", "statement": "A value that overload resolution can convert to a bounded type is accepted by the constraint of the converting constructors and assignments. Expected for a variant: accepted iff each of its bounded types has an unambiguous conversion (doc/reference/variant.xml). This is false: a recursive_wrapper is not taken off, so variant<int, X> cannot be made from variant<int, recursive_wrapper<X>>, although the constructor's body would work; exactly those with a wrapper that the new variant lacks are rejected. The constraint also accepts explicit conversions, for which the body does not compile.", "quantifier": "all lists of bounded types, all conversion relations", "why_tests_cant": "Tests instantiate a few type lists; a constraint that is too strict shows as a compile error only for the missing combination.", "anchors": ["include/boost/variant/variant.hpp:261-315, 1108-1122, 1431-1630, 2002-2027"]}
{"id": "C52", "title": "Result type of visitation with a generic visitor", "statement": "If the visitor returns the same type for all alternatives, visitation returns that type; if visitation returns an lvalue reference, the visitor returned one to the same object. If it returns lvalue references to one type, visitation returns one to that type, const if one of them is; likewise for rvalue references. Arithmetic types combine by the usual arithmetic conversions, from the last alternative to the first. Whatever the visitor returns becomes the result by implicit conversions, and of two types returned by value, one of which is a class, the result is the one to which the other converts but not back; otherwise the call does not compile. Expected: visitation never returns a reference to something that the visitor returned by value. This is false: X&& for one alternative and X for a later one give X&&, a dangling reference; by the letter of the standard so do X, X, const X&. It holds if the visitor returns no rvalue references and the compiler does not count binding to a temporary as direct.", "quantifier": "all numbers of alternatives, all return types, all class hierarchies and conversions", "why_tests_cant": "A dangling reference usually still shows the right value; and the type depends on the order of the alternatives.", "anchors": ["include/boost/variant/detail/apply_visitor_unary.hpp:69-121"]}
{"id": "C53", "title": "The argument that a visitor gets", "statement": "Visitation passes the content as const and as much of an rvalue as the variant is, without recursive_wrapper; the result type with a generic visitor is looked up for exactly that argument. Expected for a bounded reference type: the referent is passed as an lvalue, as it is not part of the variant. This is false for rvalue variants: the referent is passed as an rvalue, and may be moved from.", "quantifier": "all bounded types with cv-qualifiers, references and wrappers; const and non-const, lvalue and rvalue variants", "why_tests_cant": "The tests visit no rvalue variant with a bounded reference type.", "anchors": ["include/boost/variant/variant.hpp:985-1055, 2230-2260", "include/boost/variant/detail/apply_visitor_unary.hpp:69-93"]}
{"id": "C54", "title": "Construction from variants that are bounded types, nested, or base classes", "statement": "A variant that is itself one of the bounded types (also in a recursive_wrapper) is stored as that type, whatever its alternatives convert to; the content of any other variant is converted to the best match for its type; a class that is a bounded type is stored as such. Expected also for classes derived from a variant. This is false: if such a class is a bounded type and the base variant's alternatives can be stored too, or the base is the variant itself, two overloads of convert_construct are equally good and construction does not compile. Expected: what the constraint of the constructors accepts compiles. This is false for nested variants: the constraint looks into them, the constructor does not.", "quantifier": "all type lists with variants nested to any depth and wrapped or not, all base classes and conversions", "why_tests_cant": "The claim is about which programs compile, for type lists of unbounded size and nesting.", "anchors": ["include/boost/variant/variant.hpp:257-316, 1288-1656", "include/boost/variant/detail/initializer.hpp:54-123", "doc/reference/variant.xml:200-235"]}
{"id": "C55", "title": "Variants with bounded references", "statement": "A variant constructed from an lvalue that a bounded reference takes refers to that very object; a copy or a moved variant refers to the same object; visitation passes that object; destruction leaves it alone; none of this disturbs or creates any object, and whatever is done to other variants, references stay what they are. A reference to non-const is made from a non-const lvalue of exactly that type only. Construction of another variant from such a variant does what construction from the object does; an alternative that is no reference is passed and converted as const as the variant is. Expected: from an rvalue variant, too, the objects it refers to are left alone. This is false: the object is moved from, if the reference is not to const. Expected: a variant constructed from a living object can be read. This is false for a const reference to another type, to which the operand converts: it refers to a temporary that is gone.", "quantifier": "all lists of bounded types with references, all operands, all programs that mix commands on variants with and without references, in any order", "why_tests_cant": "Programs, type lists and conversions are unbounded; a dangling reference may well appear to work.", "anchors": ["include/boost/variant/variant.hpp:1006-1055, 1128-1136, 1288-1469, 1589-1656", "include/boost/variant/detail/initializer.hpp:54-123"]}
{"id": "C56", "title": "Swap uses the content's own swap", "statement": "If both variants hold the same alternative, variant::swap swaps the two contents where they are, by the swap of their type: the type's own if it has one, otherwise std::swap. So it throws only if that swap may throw, whatever the type's other operations may throw, and then both keep their alternative and where it is stored. If the type has a swap of its own that exchanges data, nothing anywhere is constructed, destroyed, allocated, released or moved to another address, even if it throws; pointers to the contents stay valid. Expected: for recursive_wrapper alternatives the wrapper's swap is used, which exchanges two pointers and cannot throw. This is false: the visitor gets the wrapped objects. Expected: if no alternative's swap can throw, neither can swap. This is false for different alternatives: the contents are moved.", "quantifier": "all type lists, user types with or without a swap of their own, reachable states, oracles (which operation throws)", "why_tests_cant": "User types, nesting and throw points are unbounded.", "anchors": ["include/boost/variant/variant.hpp:856-887, 2046-2062, 2290-2301", "include/boost/variant/detail/move.hpp:38-43", "include/boost/variant/recursive_wrapper.hpp:70-76, 146-154"]}
{"id": "C57", "title": "Where contents live", "statement": "A pointer or reference to the content of a variant stays valid while the program does not mention the variant: everything the variant owns, inside or on the heap, stays at its address with its contents, whatever the program does otherwise. It also survives, even if something throws: copy assignment from a variant in the same alternative (both parked in heap backups or both not), swap with such a variant (values are exchanged, not places), move assignment in the same plain alternative, assignment of an object of exactly the content's type, assignment through get, and assignment to a member of the content. Move assignment in the same recursive_wrapper alternative exchanges the two heap objects between the variants. Expected: assignment between variants in the same alternative keeps contents in place. This is false for moves of recursive_wrapper alternatives: a reference obtained from the target then refers into the source and dies with it. Expected: copy assignment between variants with equal which() keeps contents in place. This is false if the target is parked in a heap backup: its content is replaced and the reference dangles.", "quantifier": "all type lists, reachable states, commands, oracles (which operation throws)", "why_tests_cant": "Programs, nesting and throw points are unbounded; a dangling reference often still reads the old value.", "anchors": ["include/boost/variant/variant.hpp:496-590, 1927-1959, 1963-1997, 2046-2062", "include/boost/variant/recursive_wrapper.hpp:58-83, 141-144", "include/boost/variant/get.hpp:118-188"]}
{"id": "C58", "title": "Const operands are not written to", "statement": "An operand that an operation takes by reference to const is not written to, and neither is anything it owns on the heap, at any depth, whether the operation succeeds or throws: same addresses, same contents, nothing added, nothing removed. The const operands are the sources of copy construction, copy assignment and conversion from lvalues, objects assigned through get, the new value of a member variant, and the operands of queries and comparisons. Operations with const operands only change no memory that existed before. So pointers into a variant stay valid while it is only read and copied from, and operations on distinct targets that share const operands do not race.", "quantifier": "all type lists, reachable states, commands and sequences of commands, oracles (which operation throws)", "why_tests_cant": "Tests compare values, not memory: a write that stores an equal value, or moves a heap block, passes them. Programs, nesting and throw points are unbounded.", "anchors": ["include/boost/variant/variant.hpp:1231-1246, 1636-1651, 1927-1959, 2123-2146", "include/boost/variant/recursive_wrapper.hpp:83-100", "include/boost/variant/get.hpp:118-188"]}
{"id": "C59", "title": "What operations cost", "statement": "Counted exactly, per type: constructing a variable (default, copy, move, from an object of a bounded type, from members) constructs exactly the objects its value consists of, once each, allocates exactly one heap block per recursive_wrapper in the value at every depth, destroys and releases nothing, makes no temporaries; if it throws, everything constructed is destroyed and every block released. Destruction is the exact converse. In every reachable state objects constructed minus destroyed, and blocks allocated minus released, are those that the values of the variables (with parked backups) consist of. Move assignment in the same recursive_wrapper alternative, and assignment in the same alternative of a type without member variants, construct, destroy, allocate and release nothing. Not so: that moving a variant is cheaper than copying it (recursive_wrapper's move constructor allocates, at every level), and that assigning an object of another alternative moves it once (it goes through a temporary variant).", "quantifier": "all type lists, values of any depth, reachable states, oracles (which operation throws)", "why_tests_cant": "Depth, programs and throw points are unbounded; tests check instance counts for a few values at the end of a scope, not the exact number of constructions and allocations of each operation.", "anchors": ["include/boost/variant/recursive_wrapper.hpp:70-137", "include/boost/variant/variant.hpp:1259-1284, 1636-1651, 1944-1997", "include/boost/variant/detail/backup_holder.hpp:27-87"]}
{"id": "C60", "title": "Which comparisons compile", "statement": "A comparison x op y compiles exactly if overload resolution among the variant's comparing operator, the refusing template beside it and the user's operators selects one that compares, and everything that it calls in turn compiles. Two operands of one variant type: exactly if every bounded type, through nested variants, has == (for == and !=) or < (for the four others). Any other right operand is refused, even one that converts to the variant or is derived from it; so is a foreign left operand. A user's operator for exactly these operands is called; one for the variant type itself makes the comparison ambiguous. Not so: that objects of classes derived from a variant compare like variants (d == v compiles, v == d and d == d do not, nor do comparisons of variants with such a bounded type), and that such a class can add its own == beside the variant's.", "quantifier": "all type lists (nested, with recursive_wrapper), classes, conversions, user operators, the six operators", "why_tests_cant": "That something does not compile is not seen by tests that run; test/variant_comparison_test.cpp compares variants of one type only.", "anchors": ["include/boost/variant/variant.hpp:909-975, 2081-2180"]}
{"id": "C61", "title": "Where exceptions come from", "statement": "Whatever a command throws is bad_alloc, bad_get from get, or an exception from one of the operations of user types listed for that command, not declared noexcept, of a type the command is about or of a part of it. Exactly: copy and move construction throw from the copy or move constructor of what the source contains; default construction from the default constructor of the first type; conversion from the conversion or the constructor of the selected type; assignment in place from that content's assignment; copy assignment across alternatives from the copy constructor of what the source contains, or of what the target contains where the library makes a backup; move assignment across alternatives from the move constructor if there is a fallback type and from copy constructors only if there is none. Not so: the documented Throws clauses that copy assignment throws only from the contained type of rhs, that assignment between equal contained types throws only from assignment, that move assignment throws only from move constructors, and that assignment of an rvalue throws only from its conversion.", "quantifier": "all type lists, values, histories, commands, points of failure", "why_tests_cant": "Tests check that an exception arrives, not that no other operation can be its source; the documented clauses are about every type and every failure point.", "anchors": ["include/boost/variant/variant.hpp:718-840, 1664-1959", "doc/reference/variant.xml"]}
{"id": "C62", "title": "Which operations a variant asks of its bounded types", "statement": "An operation of a variant compiles iff the user operations it instantiates exist. Default construction: the first type is default constructible. Copy and move construction: every bounded type has the constructor. Copy assignment: every bounded type is Assignable, as documented. Move assignment: every bounded type is move assignable, and a type that may throw on copy and on move has, if there is no fallback type, a copy constructor, else a move constructor. Swap: that, and move constructible and swappable. Construction from a value: the constructor of the selected type; assignment of a value: that, move assignment, and the assignment of the value's type if the variant may contain it. Every operation that a command executes and that throws is among those instantiated, or needed by a class for its member variants; where all variants involved have fallback types, move assignment and swap throw from no copy operation. Not so: the documented 'MoveAssignable if and only if every bounded type is', nor that swap and assignment of rvalues need only MoveAssignable types.", "quantifier": "all type lists, all sets of available operations, all operations; for the executed operations, all histories and points of failure", "why_tests_cant": "A compilation test checks one list of types; which operations a visitor instantiates depends on all alternatives and on the traits of all of them.", "anchors": ["include/boost/variant/variant.hpp:416-1000, 1685-2062", "include/boost/variant/detail/visitation_impl.hpp:97-257", "doc/reference/concepts.xml:25-60", "doc/reference/variant.xml:280-460"]}
{"id": "C63", "title": "The unrolling limit and NDEBUG are unobservable", "statement": "Programs behave the same whatever BOOST_VARIANT_VISITATION_UNROLLING_LIMIT (at least 1), and with BOOST_ASSERT compiled in or out: the same histories lead to the same states, every command has the same outcome and leaves the same memory, trace and exceptions. Visitation of any number of variants by any visitor, hashing and output give the same results in any state in which they are defined. Not so outside the guard of C15: a command that compiles fails an assertion with one setting and succeeds with the other.", "quantifier": "all configurations, all limits above zero, all histories, all points of failure, all visitors", "why_tests_cant": "A test suite is built with one limit and one setting of NDEBUG.", "anchors": ["include/boost/variant/detail/visitation_impl.hpp:44-56, 97-257", "include/boost/variant/detail/backup_holder.hpp:60-84"]}
{"id": "C64", "title": "recursive_wrapper as a variable of its own", "statement": "Programs with variables of type recursive_wrapper<T> beside variants and objects: no permitted command has undefined behaviour, and each does what the specification says. Every wrapper always has a live heap object that no other owns, everything is freed in the end, lifetimes and allocations balance. Swap and move assignment exchange the two pointers and do nothing else; copy assignment and assignment from a T are exactly T's assignment on the object pointed to, which stays where it is, also if T's assignment throws. Exceptions come from operator new and from those operations of T that the Throws clauses name; swap, move assignment, destruction and get do not throw.", "quantifier": "all type environments, all programs that mix wrappers, variants and objects, all points of failure", "why_tests_cant": "The tests use recursive_wrapper inside variants only, with types that do not throw.", "anchors": ["include/boost/variant/recursive_wrapper.hpp:37-153", "include/boost/variant/recursive_wrapper_fwd.hpp:26-90"]}
{"id": "C65", "title": "References into contents, at any depth", "statement": "Programs that hold references to the member variants of the objects inside variants, at any depth and in nested scopes, and use them as variants: assign, swap, move, convert, visit them, construct and assign from get<U>(y) directly. No permitted command has undefined behaviour, and each does what the specification says: when the scope ends, the enclosing variable holds the object with what was done to its members. During the scope the references refer to the members of the object that the variable contains, also after exceptions; no two names stand for the same place. Taking references and ending their scope is unobservable; assigning to a reference is assigning through get.", "quantifier": "all type environments, all programs with any number of references at any depth, all points of failure", "why_tests_cant": "Whether a reference obtained with get stays valid depends on everything that happens to all other variables meanwhile; tests hold a reference across one or two statements.", "anchors": ["include/boost/variant/get.hpp:154-188", "include/boost/variant/variant.hpp:1431-1469", "include/boost/variant/variant.hpp:1963-2044"]}
{"id": "C66", "title": "What a program does depends only on the values it names", "statement": "Two programs that have come to states in which the names N stand for the same values, and in which the same operations will fail from now on, are told the same by any further commands on these names, permitted or not: the same results, exceptions or faults, the same lifetimes of objects and heap blocks in the same order at corresponding addresses, the same failing-capable operations, and the same resulting values. Neither the addresses nor other variables nor the history matter, and commands leave variables alone that they do not name. What a client can see of the values is not enough, because a variant in the heap-backup state behaves differently (refuted).", "quantifier": "all type environments, all pairs of reachable states, all sequences of commands, all points of failure", "why_tests_cant": "It relates every two runs in arbitrary memory layouts and histories; a test observes one layout and one history.", "anchors": ["include/boost/variant/variant.hpp:1236-1469", "include/boost/variant/variant.hpp:1963-2044", "include/boost/variant/recursive_wrapper.hpp", "include/boost/variant/detail/apply_visitor_unary.hpp"]}
{"id": "C67", "title": "Operations recurse exactly as deep as their operands are nested", "statement": "Every permitted command completes with as many calls of operations of user types in progress at once as objects are nested in the operands it names, whatever else the program holds. Destroying, visiting and, when they succeed, copying and moving into a new variable need exactly that many, and there is no bound: programs build values whose destructor nests deeper than any given number (a bound is refuted). Move assignment between variants that hold the same recursive_wrapper alternative needs none, however deep the values are.", "quantifier": "all type environments, all reachable states, all commands, all numbers of nested calls, all points of failure", "why_tests_cant": "A test that does not overflow the stack says nothing about deeper values; the exact need for every depth and the absence of a bound quantify over all depths.", "anchors": ["include/boost/variant/recursive_wrapper.hpp:38-106", "include/boost/variant/recursive_wrapper.hpp:70-83", "include/boost/variant/variant.hpp:1251-1262", "include/boost/variant/variant.hpp:1636-1654", "include/boost/variant/variant.hpp:2037-2044"]}
{"id": "C68", "title": "Well-typed programs do not go wrong", "statement": "Client programs with nested scopes, try blocks, loops and visitors that are programs themselves, over variants whose alternatives never need a heap backup: if the program passes a check of names and types alone, it never has undefined behaviour, whichever user operations and allocations throw. It ends, normally or by an exception, or stays in a loop of its own; every library call returns. A visitor runs the branch for the type of the content, may replace what the visited variant holds, or hold references into it. When the whole program has ended, also by an uncaught exception, every object constructed has been destroyed once and every block released. For alternatives that may need a backup the claim is refuted: a program that passes the check fails an assertion. That is the only way: with such alternatives too, a program that passes the check and issues no command with a parked operand has no undefined behaviour.", "quantifier": "all type environments, all programs that compile, all reachable starting states, all numbers of loop rounds and nested calls, all points of failure", "why_tests_cant": "It is a statement about every program a client can write and every combination of exceptions in it; tests run some programs with some exceptions.", "anchors": ["include/boost/variant/variant.hpp:1200-2270", "include/boost/variant/detail/apply_visitor_unary.hpp:40-108", "include/boost/variant/get.hpp:74-188", "include/boost/variant/recursive_wrapper.hpp:38-106"]}
{"id": "C69", "title": "Recursive variants have a finite layout", "statement": "No type is stored inside itself, whatever types are passed to make_recursive_variant and wherever the result is used: nesting ends after finitely many steps, every type has one size and alignment, and all that is inside fits and is aligned. A bounded type that mentions the variant itself takes the room of one pointer. The recursive_wrappers are what it takes: without them a recursive variant can be inside itself and then has no layout.", "quantifier": "all lists of type expressions, all type expressions over them, all platforms, all layouts of user classes and templates", "why_tests_cant": "Type expressions nest without bound; a test instantiates some of them on one platform.", "anchors": ["include/boost/variant/variant.hpp:118-152, 318-363, 1105-1162, 1209-1210", "include/boost/variant/detail/enable_recursive.hpp:50-80", "include/boost/variant/recursive_variant.hpp:138-149", "include/boost/variant/recursive_wrapper.hpp:28-37"]}
{"id": "C70", "title": "Programs with visitors depend only on the values they name, and commute if they share no names", "statement": "Two programs that have come to states in which the names N stand for the same values, and in which the same operations will fail, and which continue with the same code on these names - with blocks, exception handlers, loops, visitors and references to members, whether it compiles or not - end in the same way: normally, by the same exception, with the same fault, or are still in a loop. On the way they issue the same commands and are told the same. Variables that are not named keep their values and addresses. If nothing fails, programs that have no name in common may be run in either order; if something fails this is refuted.", "quantifier": "all type environments, all pairs of reachable states, all programs, all points of failure", "why_tests_cant": "It relates every two runs, in arbitrary memory layouts and histories, of arbitrary programs; a test observes one program in one layout.", "anchors": ["include/boost/variant/variant.hpp:1236-1469", "include/boost/variant/variant.hpp:1963-2044", "include/boost/variant/detail/visitation_impl.hpp", "include/boost/variant/detail/apply_visitor_unary.hpp", "include/boost/variant/get.hpp", "include/boost/variant/recursive_wrapper.hpp"]}
{"id": "C71", "title": "Programs do to the values of their variables what they say", "statement": "A program that compiles - with blocks, exception handlers, loops, visitors and references to members - and that ends, normally or by an exception, has done to the values of its variables what a specification says that knows variables and values but not memory: a visitor for the type of the content works on the members of the content as on variables, and they are in their places again when it ends, also by exception. Variables that it does not mention keep their values. What every round of a loop preserves holds at its end. Example: swapping two variants by three moves swaps their values, whatever they are, if nothing throws.", "quantifier": "all type environments without heap backups (and all others if no operand is parked), all reachable states, all programs that compile, all points of failure", "why_tests_cant": "It gives the meaning of arbitrary programs on arbitrary values, compositionally; a test runs one program on some values.", "anchors": ["include/boost/variant/variant.hpp:1236-1469", "include/boost/variant/variant.hpp:1963-2044", "include/boost/variant/detail/visitation_impl.hpp", "include/boost/variant/detail/apply_visitor_unary.hpp", "include/boost/variant/get.hpp", "include/boost/variant/recursive_wrapper.hpp"]}
{"id": "C72", "title": "Recursive visitors do not go wrong, and structural recursion terminates", "statement": "Programs with functions that call themselves and each other, with variants as arguments by reference, such as visitors that apply themselves to the members of the content, do not go wrong if each function compiles by itself, whatever throws and however deep the recursion is; they end with the variables they had, and a whole program leaves nothing behind. If every function calls others only for members of the content of its first argument, or members of these, every program that calls them terminates, for all values, with no more nested calls than variants are nested in the value. Recursion that is not structural need not end (C72_endless_refuted).", "quantifier": "all type environments without heap backups, all sets of functions that compile, all programs that call them, all reachable states, all depths of recursion, all points of failure", "why_tests_cant": "It is about all recursive functions and values of any depth; termination is not observable by a test.", "anchors": ["include/boost/variant/recursive_variant.hpp", "include/boost/variant/recursive_wrapper.hpp", "include/boost/variant/variant.hpp:2180-2262", "include/boost/variant/detail/visitation_impl.hpp", "include/boost/variant/detail/apply_visitor_unary.hpp", "test/recursive_variant_test.cpp:36-90"]}
{"id": "C73", "title": "Recursive visitors do to the values of variants what a specification over values says", "statement": "A program with functions that call themselves and each other, with variants by reference, does to the values of its variables, whether it ends normally or by an exception, what a big-step specification over values says: a function works on the values of its parameters, and at its end its arguments have these values; names, renaming, memory and levels of calls do not occur in the specification. What the bodies of functions do, given that the calls in them do it, the calls do (rule for recursive functions). A function that mirrors trees of any depth by visiting them and swapping their members ends for every value; if nothing throws the variable has the mirror image as its value, and other variables keep theirs in any case.", "quantifier": "all type environments without heap backups, all sets of functions that compile, all programs that call them, all reachable states and values, all depths of recursion, all points of failure", "why_tests_cant": "It is about all recursive functions, values of any depth and exceptions anywhere in the recursion.", "anchors": ["include/boost/variant/recursive_variant.hpp", "include/boost/variant/recursive_wrapper.hpp", "include/boost/variant/variant.hpp:2180-2262", "include/boost/variant/detail/visitation_impl.hpp", "include/boost/variant/detail/apply_visitor_unary.hpp", "test/recursive_variant_test.cpp:36-90"]}
{"id": "C74", "title": "Every exception in a program comes from an operation that failed in it", "statement": "In the run of a program over variants (also with visitors, try blocks, loops, references and recursive functions), every exception, both the one the program ends by and those that are caught in it, was thrown by an operation of a user type or by operator new that failed during this run, or is boost::bad_get; boost::bad_get occurs only if the program uses get<U>(x); boost::bad_visit never does (visitor_ptr, the only code that throws it, is not used by these programs; it is the subject of other properties). So if nothing fails and get is not used, nothing is thrown; in particular a function that mirrors trees of any depth returns normally, with the mirror image, if nothing fails.", "quantifier": "all type environments without heap backups, all programs that compile, all reachable states, all patterns of failure, all sets of recursive functions, all depths", "why_tests_cant": "It is about all programs and all patterns of failure, including exceptions that are caught and so never seen outside.", "anchors": ["include/boost/variant/variant.hpp:484-840", "include/boost/variant/variant.hpp:1293-2262", "include/boost/variant/get.hpp:45-62", "include/boost/variant/bad_visit.hpp:27-38", "include/boost/variant/detail/visitation_impl.hpp", "include/boost/variant/recursive_wrapper.hpp"]}
{"id": "C75", "title": "While nothing fails, heap backups do not matter", "statement": "For variants that may need heap backups as well: as long as no operation of a user type and no operator new fails, a program that compiles does not go wrong, although its assignments move contents to heap backups and back; it does to the values of its variables what the specification over values says; when it has ended no content of any variable, nor of any variant in it, is in a backup; the only exception it may end by is boost::bad_get, and none if it does not use get; a whole program leaves no object and no block. The same with recursive functions. (With one failure it is false: C68_backup_refuted.)", "quantifier": "all type environments, with or without heap backups, all programs that compile, all reachable states in which nothing is in a backup, all sets of recursive functions, all depths", "why_tests_cant": "It is about all programs over all bounded types; the backups that are made and given back within an assignment are not visible from outside.", "anchors": ["include/boost/variant/variant.hpp:484-840", "include/boost/variant/variant.hpp:1293-2262", "include/boost/variant/detail/backup_holder.hpp", "include/boost/variant/get.hpp:45-62", "include/boost/variant/detail/visitation_impl.hpp"]}
{"id": "C76", "title": "A check by names makes heap backups harmless when operations fail", "statement": "For variants that may need heap backups, with failures of any operation at any time: there is a check of the text of a program, which follows only the names of variables, such that a program that compiles and passes it does not go wrong (in particular assigns, moves and swaps from nothing that is in a heap backup), does to the values of its variables what the specification over values says, and when it has ended, normally or by an exception, has in backups only variables that the check names; a whole program leaves no object and no block. Every program without try blocks passes, and so does every set of recursive functions without try blocks. The program of C68_backup_refuted does not pass; with a second attempt in the handler it does.", "quantifier": "all type environments, with or without heap backups, all programs that compile and pass, all placements of failures, all reachable states, all sets of recursive functions without try blocks, all depths", "why_tests_cant": "It is about all programs and all placements of failures; a backup arises only from a failure in the middle of an assignment, and the program goes wrong only later, where the variable is an operand.", "anchors": ["include/boost/variant/variant.hpp:484-840", "include/boost/variant/variant.hpp:1293-2262", "include/boost/variant/detail/backup_holder.hpp", "include/boost/variant/detail/visitation_impl.hpp"]}
{"id": "C77", "title": "Recursive functions over variants that need heap backups end", "statement": "For variants that may need heap backups: a program of calls of structurally recursive functions (each recursive call is on a member of the object in the first argument) without try blocks, started when nothing is in a backup, ends for all sufficiently large bounds on the depth of calls and on the steps with one and the same result, normally or by an exception, whatever operations fail; it does not go wrong, and it does to the values what the specification over values says. With try blocks the same holds while nothing fails. If in the course of the run no operand is in a backup, as many nested calls suffice as variants are nested in the first argument. A function that appends to a list of such variants replaces the last element at any length, or ends by an exception only if something fails or a backup was pending; neither changes any other variable. Without the condition on try blocks the claim is false: a caught failure leaves a member in a backup and the next assignment goes wrong.", "quantifier": "all type environments, with or without heap backups, all sets of structurally recursive functions, all programs without loops that call them, all placements of failures, all reachable states with nothing in a backup, all depths of nesting", "why_tests_cant": "Nesting is unbounded and failures may come at any of the operations of a run; a test fixes a list, a depth and a placement of failures.", "anchors": ["include/boost/variant/variant.hpp:484-840", "include/boost/variant/variant.hpp:1293-2262", "include/boost/variant/detail/backup_holder.hpp", "include/boost/variant/recursive_wrapper_fwd.hpp", "test/recursive_variant_test.cpp:36-90"]}
{"id": "C78", "title": "Delayed visitation refers to the visitor", "statement": "apply_visitor(visitor), without variants, takes every visitor but non-const rvalues (visitors without result_type need C++14); the visitor that the function object refers to is const iff the argument is. Calls of the function object compile for any number of variants (visitors with result_type) or for one to three (others), none of them a non-const rvalue. As long as the visitor's variable is in scope, whatever happens in between, calling the function object calls that visitor with the contents the variants have at the time of the call, in their order; nothing happens before. Once the visitor is gone, calling it is undefined, whatever happens then. A comment in the code says that temporaries are not taken; that is false: a const temporary is taken, and calling the function object later is undefined.", "quantifier": "all kinds of visitors and arguments, all type environments, all reachable states, all sequences of commands between the making of the function object and its call, all lists of variants, all visitors", "why_tests_cant": "What happens between the making and the call is unbounded, and a dead visitor is undefined behaviour, which a test may not notice.", "anchors": ["include/boost/variant/detail/apply_visitor_delayed.hpp", "include/boost/variant/detail/apply_visitor_unary.hpp"]}
{"id": "C79", "title": "Queries of variants with references look at the objects referred to", "statement": "For a variant with bounded reference types: get yields the object that the variant refers to, or contains, itself, iff it has the type asked for and, if it is const, a const one is asked for or the variant is const; otherwise null or bad_get. type() is the object's type. operator== and operator< compare the alternatives' indices and then, if these are equal, the two objects, left with right, wherever they are; in programs, for references to named objects, these are the values the objects have at that time. One would expect get to find in a non-const variant whatever it finds in the same variant as const; that is false for references to const.", "quantifier": "all type environments, all lists of bounded types with references and values, all states in which the variant holds a reference or a value, all types asked for, all comparisons", "why_tests_cant": "The lists of bounded types, combinations of const and states are unbounded.", "anchors": ["include/boost/variant/get.hpp:74-188", "include/boost/variant/variant.hpp:396-413", "include/boost/variant/variant.hpp:890-947", "include/boost/variant/variant.hpp:2075-2147", "test/variant_reference_test.cpp"]}
