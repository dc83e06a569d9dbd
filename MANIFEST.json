{
 "claims": [
  {
   "property": "C01",
   "status": "proved",
   "theorems": [
    "C01_never_empty",
    "C01_no_undefined_behaviour",
    "C01_nested",
    "C01_guard_void"
   ],
   "note": "Under the stated guards (good_env, admissible). C01_guard_void: with the documented single-storage conditions the guard about parked sources is void."
  },
  {
   "property": "C02",
   "status": "proved",
   "theorems": [
    "C02_lifetimes",
    "C02_all_destroyed"
   ],
   "note": ""
  },
  {
   "property": "C03",
   "status": "proved",
   "theorems": [
    "C03_blocks",
    "C03_no_leak",
    "C03_nothing_left"
   ],
   "note": ""
  },
  {
   "property": "C04",
   "status": "proved",
   "theorems": [
    "C04_copy",
    "C04_copy_throws"
   ],
   "note": "Sharing of storage is excluded by C45_pointers; independence of the copy by C13_others."
  },
  {
   "property": "C05",
   "status": "proved",
   "theorems": [
    "C05_move",
    "C05_move_throws"
   ],
   "note": ""
  },
  {
   "property": "C06",
   "status": "proved",
   "theorems": [
    "C06_assign",
    "C06_move_assign",
    "C06_self_move"
   ],
   "note": ""
  },
  {
   "property": "C07",
   "status": "proved",
   "theorems": [
    "C07_assign_throws",
    "C07_move_assign_throws",
    "C07_assign_leaves",
    "C07_move_assign_leaves",
    "C07_self_assign_throws"
   ],
   "note": ""
  },
  {
   "property": "C08",
   "status": "proved",
   "theorems": [
    "C08_assign_strong",
    "C08_move_assign_succeeds"
   ],
   "note": ""
  },
  {
   "property": "C09",
   "status": "proved",
   "theorems": [
    "C09_assign_fallback",
    "C09_move_assign_fallback"
   ],
   "note": "The fallback object is default-initialised (C17)."
  },
  {
   "property": "C10",
   "status": "proved",
   "theorems": [
    "C10_assign_kept",
    "C10_move_assign_kept"
   ],
   "note": ""
  },
  {
   "property": "C11",
   "status": "proved",
   "theorems": [
    "C11_no_backup_allocation",
    "C11_never_parked"
   ],
   "note": ""
  },
  {
   "property": "C12",
   "status": "proved",
   "theorems": [
    "C12_exceptions",
    "C12_answered",
    "C12_calm",
    "C12_once"
   ],
   "note": ""
  },
  {
   "property": "C13",
   "status": "proved",
   "theorems": [
    "C13_others"
   ],
   "note": ""
  },
  {
   "property": "C14",
   "status": "proved",
   "theorems": [
    "C14_type_confusion_refuted"
   ],
   "note": "The claim is false of the code; C14_type_confusion_refuted gives the program. The programs of the other properties are kept away from this case by the hypothesis good_tys."
  },
  {
   "property": "C15",
   "status": "proved",
   "theorems": [
    "C15_assertion_refuted",
    "C15_null_holder_refuted"
   ],
   "note": "The claim is false of the code: an assertion fails (C15_assertion_refuted), or with assertions off a null holder is left (C15_null_holder_refuted)."
  },
  {
   "property": "C16",
   "status": "proved",
   "theorems": [
    "C16_first",
    "C16_blank_preferred_refuted"
   ],
   "note": "What the search really finds is C16_first; the preference for blank is refuted."
  },
  {
   "property": "C17",
   "status": "proved",
   "theorems": [
    "C17_never_read_indeterminate",
    "C17_determinate",
    "C17_indeterminate_refuted"
   ],
   "note": "Positive part: with determinate fallback types nothing indeterminate is held or read. For scalar fallback types the claim is refuted."
  },
  {
   "property": "C18",
   "status": "proved",
   "theorems": [
    "C18_own_part_refuted",
    "C18_copied_first",
    "C18_moved_part_refuted"
   ],
   "note": "The claim is false of the code; C18_own_part_refuted gives the program for both kinds of assignment, C18_moved_part_refuted one where copying works and moving does not. C18_copied_first is the case where it holds."
  },
  {
   "property": "C19",
   "status": "proved",
   "theorems": [
    "C19_destructor",
    "C19_move",
    "C19_move_assign",
    "C19_default",
    "C19_copy",
    "C19_queries"
   ],
   "note": "std::terminate is a fault of the model, excluded by C01_no_undefined_behaviour."
  },
  {
   "property": "C20",
   "status": "proved",
   "theorems": [
    "C20_default",
    "C20_default_value",
    "C20_default_throws",
    "C20_wrapper_value_initialised_refuted"
   ],
   "note": "For a first type recursive_wrapper<scalar> the object is default- rather than value-initialised; this exception is C20_wrapper_value_initialised_refuted and is accounted for in the positive theorems."
  },
  {
   "property": "C21",
   "status": "proved",
   "theorems": [
    "C21_from",
    "C21_from_throws",
    "C21_assign_from",
    "C21_assign_from_throws",
    "C21_overloads"
   ],
   "note": ""
  },
  {
   "property": "C22",
   "status": "proved",
   "theorems": [
    "C22_convert",
    "C22_convert_throws",
    "C22_assign_convert",
    "C22_assign_convert_throws"
   ],
   "note": ""
  },
  {
   "property": "C23",
   "status": "proved",
   "theorems": [
    "C23_swap",
    "C23_swap_self",
    "C23_swap_twice",
    "C23_swap_throws"
   ],
   "note": ""
  },
  {
   "property": "C24",
   "status": "proved",
   "theorems": [
    "C24_visits_content"
   ],
   "note": "For any positive unrolling limit and any number of types."
  },
  {
   "property": "C25",
   "status": "proved",
   "theorems": [
    "C25_unary",
    "C25_binary",
    "C32_hash",
    "C47_prints"
   ],
   "note": "Hashing: C32_hash (the hash depends on the value without backup flags); printing: C47_prints."
  },
  {
   "property": "C26",
   "status": "proved",
   "theorems": [
    "C26_lvalues",
    "C26_one",
    "C26_two",
    "C26_many"
   ],
   "note": "Any number of variables, each as lvalue or rvalue. Up to two rvalues are passed as they are; with three or more, rvalues are moved into temporaries (C26_many says what the visitor gets and what is left; C44 refutes that they are passed themselves). Visitors that change memory are not covered for three or more."
  },
  {
   "property": "C27",
   "status": "proved",
   "theorems": [
    "C27_get",
    "C27_get_reference",
    "C27_write_through"
   ],
   "note": ""
  },
  {
   "property": "C28",
   "status": "proved",
   "theorems": [
    "C28_relaxed",
    "C28_relaxed_reference",
    "C28_strict_exact",
    "C28_state_machine"
   ],
   "note": "strict_get is relaxed_get after a static assertion, so the content of the claim is which calls compile. The state machine uses unqualified types (C28_state_machine)."
  },
  {
   "property": "C29",
   "status": "proved",
   "theorems": [
    "C29_finds",
    "C29_types",
    "C29_strict_exact"
   ],
   "note": ""
  },
  {
   "property": "C30",
   "status": "proved",
   "theorems": [
    "C30_equal",
    "C30_not_equal",
    "C30_equivalence",
    "C30_copy_equal",
    "C30_assigned_equal"
   ],
   "note": ""
  },
  {
   "property": "C31",
   "status": "proved",
   "theorems": [
    "C31_less",
    "C31_derived",
    "C31_strict_weak",
    "C31_trichotomy"
   ],
   "note": ""
  },
  {
   "property": "C32",
   "status": "proved",
   "theorems": [
    "C32_hash",
    "C32_respects"
   ],
   "note": ""
  },
  {
   "property": "C33",
   "status": "proved",
   "theorems": [
    "C33_encoding",
    "C33_injective",
    "C33_state"
   ],
   "note": ""
  },
  {
   "property": "C34",
   "status": "proved",
   "theorems": [
    "C34_holds",
    "C34_least",
    "C34_power_of_two"
   ],
   "note": "boost::aligned_storage is outside the repository; its size and alignment are assumed as stated in Layout.v."
  },
  {
   "property": "C35",
   "status": "proved",
   "theorems": [
    "C35_owns",
    "C35_content",
    "C35_copy_deep",
    "C35_assign_deep",
    "C35_moved_from",
    "C35_move_assign"
   ],
   "note": "For the wrapper of a variant, of a member variant at any depth and in a heap backup. Move assignment is an exact equation between states: nothing but the two pointers changes, whatever the oracle says. Failed operations keep all wrappers whole because C35_owns holds in every reachable state."
  },
  {
   "property": "C36",
   "status": "proved",
   "theorems": [
    "C36_child",
    "C36_set_child"
   ],
   "note": "Member variants of contents at any depth: C01_nested, C36_child, C36_set_child; independence of copies by C13_others and C45_pointers; release of whole trees by C03_nothing_left."
  },
  {
   "property": "C37",
   "status": "proved",
   "theorems": [
    "C37_exact",
    "C37_others",
    "C37_gone",
    "C37_bounded_types",
    "C37_qualifiers"
   ],
   "note": "C37_exact: the supported grammar is exactly where substitution is complete."
  },
  {
   "property": "C38",
   "status": "proved",
   "theorems": [
    "C38_missed_refuted"
   ],
   "note": "The claim is false of the code; seven witnesses."
  },
  {
   "property": "C39",
   "status": "proved",
   "theorems": [
    "C39_visitor_ptr"
   ],
   "note": ""
  },
  {
   "property": "C40",
   "status": "proved",
   "theorems": [
    "C40_which",
    "C40_type",
    "C40_visit",
    "C40_empty"
   ],
   "note": ""
  },
  {
   "property": "C41",
   "status": "proved",
   "theorems": [
    "C41_reuse"
   ],
   "note": ""
  },
  {
   "property": "C42",
   "status": "proved",
   "theorems": [
    "C42_kept_again",
    "C42_released",
    "C42_why"
   ],
   "note": ""
  },
  {
   "property": "C43",
   "status": "proved",
   "theorems": [
    "C43_fallback_object_refuted",
    "C43_repaired"
   ],
   "note": "The claim is false of the code; C43_repaired shows the same program with the iterator dereferenced."
  },
  {
   "property": "C44",
   "status": "proved",
   "theorems": [
    "C44_rvalue_left_alone_refuted"
   ],
   "note": "The claim is false of the code; C44_rvalue_left_alone_refuted gives the program."
  },
  {
   "property": "C45",
   "status": "proved",
   "theorems": [
    "C45_pointers",
    "C45_cells"
   ],
   "note": ""
  },
  {
   "property": "C46",
   "status": "proved",
   "theorems": [
    "C46_queries"
   ],
   "note": ""
  },
  {
   "property": "C47",
   "status": "proved",
   "theorems": [
    "C47_prints"
   ],
   "note": ""
  },
  {
   "property": "C48",
   "status": "proved",
   "theorems": [
    "C48_accepted_never_found_refuted",
    "C48_reference_never_found_refuted",
    "C48_rejected_found_refuted"
   ],
   "note": "The claim is false of the code; three witnesses."
  },
  {
   "property": "C49",
   "status": "proved",
   "theorems": [
    "C49_reference_rejected_refuted",
    "C49_const_rejected_refuted"
   ],
   "note": "The claim is false of the code; two witnesses."
  },
  {
   "property": "C50",
   "status": "proved",
   "theorems": [
    "C50_result_type",
    "C50_generic",
    "C50_any_number_refuted",
    "C50_constness",
    "C50_temporaries_refuted"
   ],
   "note": "C50_any_number_refuted: the claim is false for generic visitors. Template argument deduction and overload ranking are modelled as far as these overloads need them (Compile.v)."
  },
  {
   "property": "C51",
   "status": "proved",
   "theorems": [
    "C51_value",
    "C51_variant",
    "C51_body",
    "C51_variant_refuted",
    "C51_explicit_refuted"
   ],
   "note": "C51_variant_refuted and C51_explicit_refuted: the documented requirement and the constraint differ; C51_variant says exactly where the constraint is too strict."
  },
  {
   "property": "C52",
   "status": "proved",
   "theorems": [
    "C52_same",
    "C52_lvalue",
    "C52_lvalues",
    "C52_xvalues",
    "C52_arithmetic",
    "C52_outlives",
    "C52_outlives_refuted",
    "C52_becomes",
    "C52_two",
    "C52_const_refuted",
    "C52_base_refuted"
   ],
   "note": "C52_outlives_refuted: the claim is false of the code. The conditional operator is modelled after C++14 [expr.cond] without pointers and built-in operator candidates; the two other refutations depend on what counts as direct binding and say so."
  },
  {
   "property": "C53",
   "status": "proved",
   "theorems": [
    "C53_argument",
    "C53_deduced",
    "C53_referent_refuted"
   ],
   "note": "C53_referent_refuted: the claim is false for references in rvalue variants; C53_argument says exactly when it holds."
  },
  {
   "property": "C54",
   "status": "proved",
   "theorems": [
    "C54_construct",
    "C54_bounded_variant",
    "C54_bounded_class",
    "C54_foreign_variant",
    "C54_class",
    "C54_rejected",
    "C54_sliced",
    "C54_derived",
    "C54_ambiguous",
    "C54_bounded_derived_refuted",
    "C54_recursive_derived_refuted",
    "C54_nested_refuted",
    "C54_flat"
   ],
   "note": "C54_bounded_derived_refuted, C54_recursive_derived_refuted and C54_nested_refuted: the two further expectations are false of the code. C54_derived and C54_ambiguous say when the first holds. Not covered: bounded references, recursive_variant_, classes with several variants as bases."
  },
  {
   "property": "C55",
   "status": "proved",
   "theorems": [
    "C55_overloads",
    "C55_exact",
    "C55_no_references",
    "C55_construct",
    "C55_copy",
    "C55_destroy",
    "C55_visit",
    "C55_visit_value",
    "C55_convert_value",
    "C55_convert",
    "C55_convert_rvalue",
    "C55_convert_const",
    "C55_commands",
    "C55_undisturbed",
    "C55_variables",
    "C55_new",
    "C55_same",
    "C55_drop",
    "C55_convert_move_refuted",
    "C55_dangling_refuted"
   ],
   "note": "C55_convert_move_refuted and C55_dangling_refuted: the two further expectations are false of the code. Not covered: comparison and get of variants with references; variables that hold a value in a variant that also has bounded references, in C55_commands and C55_undisturbed."
  },
  {
   "property": "C56",
   "status": "proved",
   "theorems": [
    "C56_nothrow",
    "C56_threw",
    "C56_in_place",
    "C56_address",
    "C56_wrapped_refuted",
    "C56_different_refuted"
   ],
   "note": "C56_wrapped_refuted and C56_different_refuted: the two further expectations are false of the code. C56_in_place is for types without member variants; C23 covers what is exchanged in general."
  },
  {
   "property": "C57",
   "status": "proved",
   "theorems": [
    "C57_untouched",
    "C57_pointer",
    "C57_assign",
    "C57_swap",
    "C57_move_plain",
    "C57_move_wrapped",
    "C57_assign_from",
    "C57_poke",
    "C57_set_child",
    "C57_move_refuted",
    "C57_assign_parked_refuted"
   ],
   "note": "C57_move_refuted and C57_assign_parked_refuted: expectations that fail. Not covered: addresses after assignments between different alternatives and conversions (there contents are replaced)."
  },
  {
   "property": "C58",
   "status": "proved",
   "theorems": [
    "C58_const",
    "C58_reading",
    "C58_pointer",
    "C58_readers"
   ],
   "note": "Compares memory before and after each operation. The proof shows that no primitive of the model writes to the protected memory at any moment; the model has no threads, so the absence of races is an informal consequence. User types' own copy constructors are assumed not to write to their source."
  },
  {
   "property": "C59",
   "status": "proved",
   "theorems": [
    "C59_balance",
    "C59_build",
    "C59_failed",
    "C59_copy",
    "C59_move",
    "C59_from",
    "C59_drop",
    "C59_move_wrapped",
    "C59_assign_simple",
    "C59_move_refuted",
    "C59_assign_from_refuted"
   ],
   "note": "C59_move_refuted and C59_assign_from_refuted: expectations that fail. Exact counts per command for construction, destruction and two kinds of assignment; for all other commands only the difference between constructions and destructions is determined (C59_balance before and after). Elision of copies by the compiler does not occur in what is modelled."
  },
  {
   "property": "C60",
   "status": "proved",
   "theorems": [
    "C60_compiles",
    "C60_basic",
    "C60_foreign",
    "C60_left",
    "C60_user",
    "C60_user_ambiguous",
    "C60_derived",
    "C60_derived_refused",
    "C60_bounded_derived",
    "C60_derived_refuted",
    "C60_hidden_refuted"
   ],
   "note": "C60_derived_refuted and C60_hidden_refuted: expectations that fail. Not modelled: templates among the user's operators, volatile operands, reversed candidates of C++20 (switched off by the variant's operator!=). Types as in C54."
  },
  {
   "property": "C61",
   "status": "proved",
   "theorems": [
    "C61_origin",
    "C61_copy_move",
    "C61_default",
    "C61_from",
    "C61_assign",
    "C61_move_assign",
    "C61_assign_refuted",
    "C61_same_refuted",
    "C61_move_refuted",
    "C61_value_refuted"
   ],
   "note": "The four _refuted theorems are documented Throws clauses that fail. Exact per-content clauses for construction and for assignment of variants; for swap, assignment of values and conversions the operations and types are those of C61_origin."
  },
  {
   "property": "C62",
   "status": "proved",
   "theorems": [
    "C62_default",
    "C62_copy",
    "C62_move",
    "C62_assign",
    "C62_move_assign",
    "C62_swap",
    "C62_from",
    "C62_assign_from",
    "C62_executed",
    "C62_moves",
    "C62_move_assign_refuted",
    "C62_swap_refuted",
    "C62_assign_from_refuted"
   ],
   "note": "The three _refuted theorems are documented requirements that do not suffice: move-only types whose moves may throw, without a fallback type. Operations of user types are available or not, per type; const-qualified and reference types are not in this part of the model."
  },
  {
   "property": "C63",
   "status": "proved",
   "theorems": [
    "C63_histories",
    "C63_commands",
    "C63_visitation",
    "C63_hash",
    "C63_output",
    "C63_assertion_refuted"
   ],
   "note": "C63_assertion_refuted: without the guard of C15 the settings are observable. A limit of 0 is left out."
  },
  {
   "property": "C64",
   "status": "proved",
   "theorems": [
    "C64_defined",
    "C64_programs",
    "C64_conservative",
    "C64_holds",
    "C64_distinct",
    "C64_ownership",
    "C64_nothing_left",
    "C64_lifetimes",
    "C64_blocks",
    "C64_exchange",
    "C64_assign",
    "C64_assign_from",
    "C64_pointer",
    "C64_throws",
    "C64_nothrow"
   ],
   "note": "Operands of type T are variables of the program; assignment to a wrapper from a part of its own object is left out. C64_conservative: programs without wrapper variables are those of the other properties."
  },
  {
   "property": "C65",
   "status": "proved",
   "theorems": [
    "C65_defined",
    "C65_programs",
    "C65_conservative",
    "C65_points",
    "C65_kept",
    "C65_names",
    "C65_distinct",
    "C65_close",
    "C65_round",
    "C65_member",
    "C65_lifetimes",
    "C65_blocks",
    "C65_nothing_left"
   ],
   "note": "A variable is not used itself while references to its members are in scope; x = get<U>(x) and operands that are part of their target are left out (C18 refutes these). C65_conservative: programs without references are those of the other properties."
  },
  {
   "property": "C66",
   "status": "proved",
   "theorems": [
    "C66_runs",
    "C66_commands",
    "C66_others",
    "C66_visible_refuted"
   ],
   "note": "A value of a variant includes whether it is in the heap-backup state; C66_visible_refuted shows that this cannot be left out. Moments of exceptions are counted from the moment of comparison."
  },
  {
   "property": "C67",
   "status": "proved",
   "theorems": [
    "C67_enough",
    "C67_destruction",
    "C67_visitation",
    "C67_construction",
    "C67_wrapped_move",
    "C67_bound_refuted"
   ],
   "note": "Counted are nested calls of operations of user types, one per level of the semantics (Sem.v); stack frames of the library's own functions between two such calls are not counted. Exactness is for destruction, visitation and construction by copying and moving; for the other commands the bound from above."
  },
  {
   "property": "C68",
   "status": "proved",
   "theorems": [
    "C68_sound",
    "C68_always",
    "C68_terminates",
    "C68_rounds",
    "C68_nothing_left",
    "C68_switch",
    "C68_visit",
    "C68_only_parked",
    "C68_backup_refuted"
   ],
   "note": "The static check excludes, beside what does not compile, operands that are part of their targets (C18). Types whose variants may park a value in a backup are excluded by good_env with nb = true; C68_backup_refuted shows the exclusion is needed (C15), and C68_only_parked that nothing else is: it covers those types too, with the condition of C15 on the commands a run issues. A visitor with references into the content does not use the visited variable itself."
  },
  {
   "property": "C69",
   "status": "proved",
   "theorems": [
    "C69_finite",
    "C69_layout",
    "C69_fits",
    "C69_pointer",
    "C69_exactly",
    "C69_unwrapped_refuted"
   ],
   "note": "Layouts are computed in finitely many steps or not at all, as a compiler does. Layout of user classes and templates is a parameter, as is whether a template stores its arguments inside; so is whether a list of bounded types has a fallback type. C69_unwrapped_refuted is about a variant of the library without the wrappers."
  },
  {
   "property": "C70",
   "status": "proved",
   "theorems": [
    "C70_programs",
    "C70_proceeds",
    "C70_commands",
    "C70_others",
    "C70_commute",
    "C70_unsteady_refuted"
   ],
   "note": "Extends C66 from sequences of commands to the programs of C68, which need not compile here. Programs start outside visitors (nothing set aside). C70_commute is for type environments without heap backups, where programs that compile have no faults (C68). C70_unsteady_refuted: an operation that fails does so in whichever program comes first."
  },
  {
   "property": "C71",
   "status": "proved",
   "theorems": [
    "C71_meaning",
    "C71_keeps",
    "C71_loops",
    "C71_unparked",
    "C71_move_swap"
   ],
   "note": "The specification (MeaningSpec.v) is relational: where an exception may be thrown, and what it leaves, is as in Spec.v. C71_unparked is for variants that may need a backup, for runs that do not meet C15."
  },
  {
   "property": "C72",
   "status": "proved",
   "theorems": [
    "C72_sound",
    "C72_depth",
    "C72_terminates",
    "C72_bound",
    "C72_nothing_left",
    "C72_endless_refuted"
   ],
   "note": "Arguments of a call are different variables, by reference; functions leave their results in their arguments. The bound of C72_bound is on calls of functions, not on the levels of the library (C67)."
  },
  {
   "property": "C73",
   "status": "proved",
   "theorems": [
    "C73_meaning",
    "C73_rule",
    "C73_mirror"
   ],
   "note": "As in C72, arguments are different variables, by reference. C73_mirror is for trees with two members."
  },
  {
   "property": "C74",
   "status": "proved",
   "theorems": [
    "C74_blamed",
    "C74_getless",
    "C74_calm",
    "C74_functions",
    "C74_mirror"
   ],
   "note": "Extends C12 from single commands to programs and to exceptions that are caught. For environments without heap backups, as C68."
  },
  {
   "property": "C75",
   "status": "proved",
   "theorems": [
    "C75_sound",
    "C75_meaning",
    "C75_whole",
    "C75_functions"
   ],
   "note": "Extends C68, C71, C73 and C74 to environments with heap backups, for runs in which nothing fails; C68_backup_refuted shows that this is needed."
  },
  {
   "property": "C76",
   "status": "proved",
   "theorems": [
    "C76_sound",
    "C76_meaning",
    "C76_whole",
    "C76_tryless",
    "C76_functions"
   ],
   "note": "The check is sufficient, not necessary. Completes C75 for runs with failures; C76_example_parked derives from C76_whole that the program of C68_backup_refuted does not pass."
  },
  {
   "property": "C77",
   "status": "proved",
   "theorems": [
    "C77_terminates",
    "C77_calm",
    "C77_bound",
    "C77_append",
    "C77_try_refuted"
   ],
   "note": "Extends C72 and C73 to variants that need backups. C77_try_refuted shows that the condition on try blocks is needed."
  },
  {
   "property": "C78",
   "status": "proved",
   "theorems": [
    "C78_visitors",
    "C78_calls",
    "C78_const",
    "C78_later",
    "C78_after",
    "C78_temporary",
    "C78_temporary_refuted"
   ],
   "note": "That temporaries are not taken is refuted (C78_temporary_refuted): const ones are."
  },
  {
   "property": "C79",
   "status": "proved",
   "theorems": [
    "C79_get",
    "C79_get_ref",
    "C79_type",
    "C79_equal",
    "C79_less",
    "C79_programs",
    "C79_const_refuted"
   ],
   "note": "Extends C55. That get finds in a variant what it finds in the variant as const is refuted (C79_const_refuted)."
  }
 ]
}