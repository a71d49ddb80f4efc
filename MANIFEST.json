{
 "claims": [
  {
   "property": "C01",
   "status": "proved",
   "theorems": [
    "C01_orders_total",
    "C01_orders_meaning"
   ],
   "note": "lex, deglex (in fact degree-reverse-lexicographic) and alex."
  },
  {
   "property": "C02",
   "status": "proved",
   "theorems": [
    "C02_multiplicative",
    "C02_unit_minimal",
    "C02_no_infinite_descent"
   ],
   "note": "C02_multiplicative also covers alex."
  },
  {
   "property": "C03",
   "status": "partial",
   "theorems": [
    "C03_alex_multiplicative_partial",
    "C03_alex_infinite_descent_refuted",
    "C03_alex_unit_is_maximal_refuted"
   ],
   "note": "The code violates the full property: alex is multiplicative but 1 is its maximum and x^0 > x^1 > x^2 > ... is an infinite chain (refuted theorems)."
  },
  {
   "property": "C04",
   "status": "proved",
   "theorems": [
    "C04_module_orders_total",
    "C04_module_orders_meaning",
    "C04_module_orders_multiplicative",
    "C04_module_orders_no_infinite_descent",
    "C04_accepted_codes"
   ],
   "note": ""
  },
  {
   "property": "C05",
   "status": "partial",
   "theorems": [
    "C05_three_argument_partial",
    "C05_three_argument_base",
    "C05_second_factor_position_refuted"
   ],
   "note": "Holds when the module position sits on the first factor (as the code's callers arrange for ring elements); refuted when it sits on the second factor: the position of the product is never formed."
  },
  {
   "property": "C06",
   "status": "proved",
   "theorems": [
    "C06_divisible_iff_product",
    "C06_quotient",
    "C06_product_exponents",
    "C06_product_commutative",
    "C06_product_associative",
    "C06_product_unit",
    "C06_gcd_degree",
    "C06_lcm_degree",
    "C06_equality_is_on_exponents"
   ],
   "note": ""
  },
  {
   "property": "C07",
   "status": "proved",
   "theorems": [
    "C07_exponent",
    "C07_unit",
    "C07_variable",
    "C07_copy",
    "C07_times_variable",
    "C07_assign_times_variable",
    "C07_product",
    "C07_in_place_product",
    "C07_power",
    "C07_quotient",
    "C07_quotient_rejects",
    "C07_divisibility_test",
    "C07_equality_test",
    "C07_compare",
    "C07_compare_three",
    "C07_gcd",
    "C07_lcm",
    "C07_product_debug_exact"
   ],
   "note": ""
  },
  {
   "property": "C08",
   "status": "partial",
   "theorems": [
    "C08_python_items",
    "C08_python_list_refuted",
    "C08_python_in_refuted",
    "C08_permutation",
    "C08_positive_size",
    "C08_reachable",
    "C08_permute_monomial",
    "C08_permute_itself_refuted",
    "C08_random_monomial"
   ],
   "note": "Uniform draws are a generator whose results are in range; uniformity is stated as a bijection between in-range draw sequences and permutations. m.permutation(m, p) on itself is refuted. Python (RandPermPyModel.v): indices and reversed() work, but list(p), for and a failing `in` end with an AssertionError, as __getitem__ never raises IndexError."
  },
  {
   "property": "C09",
   "status": "partial",
   "theorems": [
    "C09_history_partial",
    "C09_constant",
    "C09_from_monomial",
    "C09_times_variable",
    "C09_zero_constant_refuted"
   ],
   "note": "Over any sequence of calls whose stated preconditions hold. The code violates the rest: a zero constant, adding a constant to the zero polynomial or under alex (C13), module reducers (C41)."
  },
  {
   "property": "C10",
   "status": "partial",
   "theorems": [
    "C10_heap",
    "C10_add_itself",
    "C10_sub_itself_undefined",
    "C10_sub_itself_refuted",
    "C10_add",
    "C10_sub",
    "C10_minus",
    "C10_times_integer"
   ],
   "note": "Value level plus a heap-level theorem for add/sub. The code violates it for p.sub(p): a freed list node is read for every non-zero p."
  },
  {
   "property": "C11",
   "status": "proved",
   "theorems": [
    "C11_product"
   ],
   "note": "Precondition as in the API: at most one factor is a module element."
  },
  {
   "property": "C12",
   "status": "partial",
   "theorems": [
    "C12_power_partial",
    "C12_power_zero_refuted"
   ],
   "note": "The code violates it for exponent 0 (result 0 instead of 1); every exponent >= 1 proved."
  },
  {
   "property": "C13",
   "status": "partial",
   "theorems": [
    "C13_add_constant_partial",
    "C13_sub_constant_partial",
    "C13_zero_constant_refuted",
    "C13_zero_polynomial_refuted",
    "C13_alex_refuted"
   ],
   "note": "The code violates it for the zero constant, the zero polynomial and the alex order; proved otherwise."
  },
  {
   "property": "C14",
   "status": "proved",
   "theorems": [
    "C14_reduction"
   ],
   "note": ""
  },
  {
   "property": "C15",
   "status": "proved",
   "theorems": [
    "C15_primitive_part",
    "C15_is_primitive"
   ],
   "note": "g is the content up to sign; the sign changes only for a one-term polynomial (its coefficient is set to 1)."
  },
  {
   "property": "C16",
   "status": "proved",
   "theorems": [
    "C16_tail_reduction",
    "C16_reduce_if_present"
   ],
   "note": ""
  },
  {
   "property": "C17",
   "status": "proved",
   "theorems": [
    "C17_nf",
    "C17_nfTail",
    "C17_full_normal_form",
    "C17_nf_any_order",
    "C17_isNf",
    "C17_alex_does_not_end"
   ],
   "note": "Reducers must lie in the component of the reduced monomial (see C41 for what happens otherwise). For alex the loop can run forever (theorem C17_alex_does_not_end)."
  },
  {
   "property": "C18",
   "status": "proved",
   "theorems": [
    "C18_flags_after_any_inserts",
    "C18_debug_build",
    "C18_debug_rejects"
   ],
   "note": "Release build: any distinct monomials. With asserts: whenever no monomial divides another; the assert that fires otherwise is characterised (C18_debug_rejects)."
  },
  {
   "property": "C19",
   "status": "proved",
   "theorems": [
    "C19_find"
   ],
   "note": "Trees built by any insertion sequence of distinct monomials in one module component; trees after build() are covered by C24."
  },
  {
   "property": "C20",
   "status": "partial",
   "theorems": [
    "C20_copy_find_refuted",
    "C20_copy_assert_refuted",
    "C20_copy_subset_partial",
    "C20_copy_exact_partial",
    "C20_copy_one_variable_partial"
   ],
   "note": "The code violates it: copying drops the subtree behind mNextVar of the last node of every degree chain. Proved: copy is a subset, it is exact for one variable, and C20_copy_exact_partial says which elements survive: those for which every variable before their last occurring variable is non-multiplicative."
  },
  {
   "property": "C21",
   "status": "proved",
   "theorems": [
    "C21_disjoint_cones"
   ],
   "note": ""
  },
  {
   "property": "C22",
   "status": "proved",
   "theorems": [
    "C22_flags_and_find",
    "C22_flags_any_comparator",
    "C22_find_any_comparator"
   ],
   "note": "Also proved for the other six comparison functions with the division each induces."
  },
  {
   "property": "C23",
   "status": "proved",
   "theorems": [
    "C23_build_terminates_with_involutive_basis"
   ],
   "note": ""
  },
  {
   "property": "C24",
   "status": "proved",
   "theorems": [
    "C24_build_terminates_with_involutive_basis"
   ],
   "note": "Debug build needs that no pushed monomial divides another, because push asserts find()==nullptr (C18_debug_rejects)."
  },
  {
   "property": "C25",
   "status": "proved",
   "theorems": [
    "C25_binomial",
    "C25_add",
    "C25_sub",
    "C25_mult",
    "C25_isZero",
    "C25_new",
    "C25_setDim",
    "C25_coefficients"
   ],
   "note": "GMP's mpq functions are trusted to return the right value for operands that are not in lowest terms (binomial passes such)."
  },
  {
   "property": "C26",
   "status": "proved",
   "theorems": [
    "C26_inserts",
    "C26_completed",
    "C26_used",
    "C26_empty"
   ],
   "note": "For a tree holding a Janet basis (by inserts) and for the tree completed by MJanet. The empty tree is excluded (assert in the code)."
  },
  {
   "property": "C27",
   "status": "partial",
   "theorems": [
    "C27_blocks",
    "C27_huge_request_refuted"
   ],
   "note": "Client contract: each block is given back at most once, to the allocator that holds it; page size a multiple of 16; requests below 2^62 bytes (a request of 2^64-1 is refuted). Variant built with GINV_UTIL_ALLOCATOR."
  },
  {
   "property": "C28",
   "status": "proved",
   "theorems": [
    "C28_accounting",
    "C28_released",
    "C28_outcomes",
    "C28_limit"
   ],
   "note": "Same client contract as C27. aligned_alloc failure is not checked by the code and is reported as undefined."
  },
  {
   "property": "C29",
   "status": "proved",
   "theorems": [
    "C29_list",
    "C29_clear_tail_refuted",
    "C29_misuse"
   ],
   "note": "Node-level heap model with freed nodes; programs over any number of lists, one iterator and one detached node; an iterator may not be used after its list was changed by other means. clear() through an iterator in the middle asserts in the debug build (refuted). C29_misuse: what calls outside the specification do in either build."
  },
  {
   "property": "C30",
   "status": "proved",
   "theorems": [
    "C30_stack",
    "C30_push",
    "C30_assign",
    "C30_capacity_debug"
   ],
   "note": "Any program on one stack of any initial capacity (capacity 0 asserts in the debug build), plus assignment between stacks. C30_capacity_debug: capacity 0 is refused by the debug build only."
  },
  {
   "property": "C31",
   "status": "proved",
   "theorems": [
    "C31_ordered_set",
    "C31_iteration",
    "C31_sets",
    "C31_next_key_iterator_dangles",
    "C31_present_key_kept_twice"
   ],
   "note": "All programs over any number of trees and one iterator (insert, remove by key or iterator, find/findPrev/findNext, ++/--, copy, assign, swap, clear), debug and release; the specification (sets of keys) says which iterators survive a removal: all but those at the key and at the next key (C31_next_key_iterator_dangles shows the latter can dangle)."
  },
  {
   "property": "C32",
   "status": "proved",
   "theorems": [
    "C32_balanced"
   ],
   "note": ""
  },
  {
   "property": "C33",
   "status": "partial",
   "theorems": [
    "C33_copy",
    "C33_assign_partial",
    "C33_assign_empty_refuted",
    "C33_assign_empty_always_fails"
   ],
   "note": "Copy construction: all sources. Assignment: all non-empty sources; the code dereferences a null pointer when the source is empty (refuted)."
  },
  {
   "property": "C34",
   "status": "partial",
   "theorems": [
    "C34_add_sub",
    "C34_add_sub_into",
    "C34_mult",
    "C34_mult_into",
    "C34_div",
    "C34_div_into",
    "C34_gcd",
    "C34_gcd_into",
    "C34_copy",
    "C34_set",
    "C34_tests",
    "C34_storage",
    "C34_asserts",
    "C34_zero_by_zero_refuted",
    "C34_zero_debug_refuted"
   ],
   "note": "GMP functions are modelled by their contract (exact result, number of limbs they may need). The code violates the property in the debug build only: an operation whose result needs no limbs asserts. C34_zero_by_zero_refuted: the assertion of the exact division lets 0/0 pass."
  },
  {
   "property": "C35",
   "status": "proved",
   "theorems": [
    "C35_get_str",
    "C35_zero",
    "C35_hilbert_zero",
    "C35_hilbert",
    "C35_history"
   ],
   "note": "mpz_sizeinbase and mpz_get_str enter by their documented contract."
  },
  {
   "property": "C36",
   "status": "partial",
   "theorems": [
    "C36_timer",
    "C36_timer_cont",
    "C36_open",
    "C36_stop_twice_refuted"
   ],
   "note": "Exact ticks instead of double. stop without a preceding cont/start counts extra time (refuted)."
  },
  {
   "property": "C37",
   "status": "proved",
   "theorems": [
    "C37_make",
    "C37_product",
    "C37_times_variable",
    "C37_divisible",
    "C37_quotient",
    "C37_quotient_unchecked",
    "C37_compare",
    "C37_order",
    "C37_order_products",
    "C37_order_products_overlap",
    "C37_checked"
   ],
   "note": "Objects are arrays with mSize/mDegree; writing past the array or reading an uninitialised cell would be an Undef outcome, which the theorems exclude. The order is kept by products only with disjoint variables (C37_order_products, _overlap)."
  },
  {
   "property": "C38",
   "status": "proved",
   "theorems": [
    "C38_set",
    "C38_add",
    "C38_mult_variable",
    "C38_mult_monomial",
    "C38_addmult_variable",
    "C38_addmult_monomial",
    "C38_addOne",
    "C38_or",
    "C38_canonicalize",
    "C38_unique",
    "C38_tests",
    "C38_checked"
   ],
   "note": "Per operation, for every polynomial in canonical form; C38_unique: the canonical form is unique. The two operands must be distinct objects. bpoly.cpp does not compile as it stands (ConstIterator assignment, ZDD constructor); the model follows the text."
  },
  {
   "property": "C39",
   "status": "partial",
   "theorems": [
    "C39_basis_in_ideal",
    "C39_calls_are_safe",
    "C39_leads_distinct",
    "C39_module_refuted"
   ],
   "note": "Release build, ring polynomials, lex and deglex; JanetPolyInt::build = algorithmBlockTQ. For submodules the property fails (C39_module_refuted). alex is not a well-order and is excluded."
  },
  {
   "property": "C40",
   "status": "proved",
   "theorems": [
    "C40_normal_form",
    "C40_zero_means_member",
    "C40_one",
    "C40_tq2_normal_form",
    "C40_tq2_zero_means_member"
   ],
   "note": "Release build, ring polynomials, lex and deglex. Termination of nf is part of the theorem.  After algorithmTQ2 nf works with the elements in its tree (C40_tq2_normal_form, C40_tq2_zero_means_member)."
  },
  {
   "property": "C41",
   "status": "partial",
   "theorems": [
    "C41_components_refuted",
    "C41_assert_refuted",
    "C41_ring_reducer_refuted",
    "C41_redMaybe_refuted",
    "C41_one_component_partial"
   ],
   "note": "The code violates it for module elements: asserts reject correct module reductions, and the release build gives wrong results for reducers with several components."
  },
  {
   "property": "C42",
   "status": "partial",
   "theorems": [
    "C42_mult_partial",
    "C42_mult_leak_refuted",
    "C42_mult_leak_size",
    "C42_add",
    "C42_add_constant",
    "C42_reduction",
    "C42_redMaybe",
    "C42_history_partial",
    "C42_lifetime_partial",
    "C42_pow",
    "C42_new",
    "C42_life",
    "C42_allocators",
    "C42_allocators_end",
    "C42_moved_empty"
   ],
   "note": "The code violates it: mult by a one-term polynomial leaks the old terms (C42_mult_leak_refuted, C42_mult_leak_size). All other calls modelled (add, sub, their constant forms, mult, operator=, reduction, redMaybe, clear) are balanced, one by one and over any sequence of calls up to the destructor; so are pow (C42_pow) and the constructors (C42_new), and C42_life accounts for every term over a whole life, constructor to destructor; C42_allocators does so for programs with any number of objects and allocators, with swap, moves and destructors, the lost ones included. Term nodes are counted, not bytes."
  },
  {
   "property": "C43",
   "status": "partial",
   "theorems": [
    "C43_insert",
    "C43_find",
    "C43_insert_assert_refuted"
   ],
   "note": "find is characterised completely for every history, in release builds and in debug builds whose inserts did not abort. Refuted part: in a debug build insert can abort although its own announced precondition find(lm)==nullptr holds, because the tree's own insert asserts a different condition."
  },
  {
   "property": "C44",
   "status": "partial",
   "theorems": [
    "C44_mcompletion_exact_partial",
    "C44_mcompletion_refuted",
    "C44_mjanet_refuted"
   ],
   "note": "The code violates it (use after free in MCompletion unless the duplicate is the largest element; wrong size in MJanet). The exact condition for MCompletion is proved."
  },
  {
   "property": "C45",
   "status": "partial",
   "theorems": [
    "C45_add",
    "C45_sub",
    "C45_mul",
    "C45_incomparable",
    "C45_neg",
    "C45_add_int_partial",
    "C45_int_sub_partial",
    "C45_sub_int_always_wrong",
    "C45_sub_int_refuted",
    "C45_mul_int_partial",
    "C45_zero_int_raises",
    "C45_pow_partial"
   ],
   "note": "poly op poly and unary minus proved in full. poly - int is wrong for every non-zero int (C45_sub_int_refuted: __sub__ calls add). poly +/* int needs a non-zero polynomial (AssertionError otherwise, C45_zero_int_raises), + also a non-zero int and an order other than alex (C13)."
  },
  {
   "property": "C46",
   "status": "partial",
   "theorems": [
    "C46_membership_partial",
    "C46_leading_partial",
    "C46_deglex_refuted",
    "C46_lex_refuted",
    "C46_tq_refuted",
    "C46_tq_lex_refuted",
    "C46_tq1_refuted",
    "C46_homogeneous_refuted",
    "C46_tq2_membership_partial",
    "C46_tq2_leading_partial",
    "C46_tq2_lex_refuted",
    "C46_tq2_deglex_refuted"
   ],
   "note": "Refuted for lex and deglex: elements of mT of degree above the current block are not prolonged again when new non-multiplicative variables appear. Proved: the sound direction (C40_zero_means_member), and the full equivalence for every built basis that passes the local test (all non-multiplicative prolongations have normal form 0), C46_membership_partial, C46_leading_partial.  algorithmTQ and algorithmTQ1 are incomplete as well (C46_tq_refuted, C46_tq_lex_refuted, C46_tq1_refuted). Also for homogeneous polynomials with deglex, for all three algorithms (C46_homogeneous_refuted). algorithmTQ2: C46_tq2_membership_partial, C46_tq2_leading_partial assume that all elements are in the tree and pass the local test; C46_tq2_lex_refuted, C46_tq2_deglex_refuted without these."
  },
  {
   "property": "C47",
   "status": "partial",
   "theorems": [
    "C47_one_is_sound",
    "C47_one_is_complete_refuted",
    "C47_constant_partial",
    "C47_tq2_constant_partial"
   ],
   "note": "isOne() is sound; it is not complete: constants that appear in the loop over equal leading monomials are stored as ordinary basis elements. Under the local test of C46, 1 is in the ideal exactly when the basis contains a constant (C47_constant_partial). C47_tq2_constant_partial: the same after algorithmTQ2 when all elements are in the tree."
  },
  {
   "property": "C48",
   "status": "proved",
   "theorems": [
    "C48_same_ideal"
   ],
   "note": "Release build, ring polynomials, lex and deglex, all histories."
  },
  {
   "property": "C49",
   "status": "partial",
   "theorems": [
    "C49_single_partial",
    "C49_single_again_partial",
    "C49_push_partial",
    "C49_nf_partial",
    "C49_nf2_partial",
    "C49_debug_asserts_refuted",
    "C49_tq_asserts_refuted",
    "C49_content_refuted"
   ],
   "note": "Refuted by a concrete ideal for build, algorithmTQ and algorithmTQ1; C49_content_refuted: for algorithmTQ, algorithmTQ1 and algorithmTQ2 already 2y, 3x fails (content is removed only from reduced elements), while build passes. C49_single_partial: with one polynomial no assertion fails in push, build, algorithmTQ, algorithmTQ1 and algorithmTQ2, and the results are those of the release build; missing: the inputs with more polynomials on which the assertions do hold. C49_push_partial, C49_nf_partial, C49_nf2_partial: push and nf never fail an assertion, whatever was pushed and completed before, so the failures are those of the completion."
  },
  {
   "property": "C50",
   "status": "proved",
   "theorems": [
    "C50_nf",
    "C50_nfTail",
    "C50_zero",
    "C50_isNfTail"
   ],
   "note": "Termination needs the variables of all polynomials to be bounded below (any finite set is)."
  },
  {
   "property": "C51",
   "status": "partial",
   "theorems": [
    "C51_index_partial",
    "C51_index_refuted"
   ],
   "note": "The asserts accept the index dim+1 (C51_index_refuted), one past the array; every other index is handled as stated."
  },
  {
   "property": "C52",
   "status": "partial",
   "theorems": [
    "C52_irreducible_monomials",
    "C52_ideal_partial",
    "C52_ideal_refuted",
    "C52_module_refuted",
    "C52_assertion"
   ],
   "note": "For every history the polynomial counts the monomials without Janet divisor in the basis (C52_irreducible_monomials); these are the monomials that lead no element of the ideal when the basis passes the local test (C52_ideal_partial). Without it the value can be wrong (C52_ideal_refuted); for modules mPos+2 counts one component too many (C52_module_refuted). C52_assertion says when the assertion of buildHP fails."
  },
  {
   "property": "C53",
   "status": "proved",
   "theorems": [
    "C53_tq_same_ideal",
    "C53_tq2_same_ideal"
   ],
   "note": "Release build, ring polynomials, lex and deglex, all histories.  That the calls reach no undefined behaviour is in C39_calls_are_safe.  These algorithms are not called by build."
  },
  {
   "property": "C54",
   "status": "partial",
   "theorems": [
    "C54_multiples_partial",
    "C54_tq2_self_refuted",
    "C54_tq2_leads_refuted",
    "C54_tq2_leads_partial",
    "C54_tq2_multiples_partial",
    "C54_tq2_all_partial"
   ],
   "note": "Proved for every history of push, build, algorithmTQ and algorithmTQ1 (distinct leading monomials: C39_leads_distinct).  Refuted for algorithmTQ2, which deletes the tree after it has inserted the new element when the degree of the queue drops.  For the elements algorithmTQ2 has in its tree at the end both statements are proved (C54_tq2_leads_partial, C54_tq2_multiples_partial); when none is outside these are all elements (C54_tq2_all_partial)."
  },
  {
   "property": "C55",
   "status": "proved",
   "theorems": [
    "C55_total_order",
    "C55_meaning",
    "C55_operators",
    "C55_multiplicative",
    "C55_unit_least",
    "C55_no_infinite_descent",
    "C55_descent_without_bound"
   ],
   "note": "Lex breaks ties left to right, deglex is degree reverse lexicographic. Finitely many unknown functions are needed for termination (C55_descent_without_bound)."
  },
  {
   "property": "C56",
   "status": "partial",
   "theorems": [
    "C56_product",
    "C56_divisible",
    "C56_divisible_true",
    "C56_quotient",
    "C56_prolong",
    "C56_power",
    "C56_lcm_gcd_partial",
    "C56_lcm_loses_function",
    "C56_lcm_refuted",
    "C56_nonmult",
    "C56_expand",
    "C56_gradus",
    "C56_hash"
   ],
   "note": "lcm of two multiples of the same unknown function is built without the function and is a multiple of neither (C56_lcm_refuted, C56_lcm_loses_function); everything else proved in full."
  },
  {
   "property": "C57",
   "status": "partial",
   "theorems": [
    "C57_add",
    "C57_sub",
    "C57_neg",
    "C57_add_int",
    "C57_sub_int",
    "C57_rsub_int_swapped",
    "C57_rsub_int_refuted",
    "C57_mul",
    "C57_mul_fails",
    "C57_mul_int",
    "C57_pow",
    "C57_mult",
    "C57_prolong",
    "C57_unique"
   ],
   "note": "int - p gives p - int for every p (C57_rsub_int_swapped, C57_rsub_int_refuted); everything else proved in full. Values of objects; sharing is C59. Rational and symbolic coefficients and / are not modelled."
  },
  {
   "property": "C58",
   "status": "partial",
   "theorems": [
    "C58_reduction",
    "C58_reduce",
    "C58_pp",
    "C58_NFhead",
    "C58_NFtail",
    "C58_spoly_partial",
    "C58_spoly_module_fails",
    "C58_spoly_refuted"
   ],
   "note": "S works for ring polynomials and fails an assertion for all others (C58_spoly_module_fails, C58_spoly_refuted). Reducers have their leading monomial in the component of the reduced monomial, as the Janet trees of pyginv guarantee."
  },
  {
   "property": "C59",
   "status": "partial",
   "theorems": [
    "C59_value_partial",
    "C59_others_partial",
    "C59_sharing",
    "C59_without_sums",
    "C59_independent_refuted"
   ],
   "note": "Violated (C59_independent_refuted): + and - put the [monomial, coefficient] lists of the left operand into the result, so an in-place method on a sum changes the left operand, and g.NFhead(f) with g = f + e can end with 0 although g is no multiple of f. Proved for objects having no such list in common (C59_value_partial, C59_others_partial); sums and differences are the only source of sharing (C59_sharing, C59_without_sums). NFhead is modelled with a Poly as set of reducers; NFtail, cancel, redRat and NF are not in the object model."
  },
  {
   "property": "C60",
   "status": "proved",
   "theorems": [
    "C60_find",
    "C60_find_position",
    "C60_flags",
    "C60_insert",
    "C60_insert_fails",
    "C60_count",
    "C60_prolongDeg",
    "C60_prolongMonom",
    "C60_prolongAll",
    "C60_degMinProlong"
   ],
   "note": "Janet division is the definition of JanetSpec.v, also used for C++. The Wraps inserted must have no flag nonmult set, as after construction or after update() when the leading monomial changed."
  },
  {
   "property": "C61",
   "status": "proved",
   "theorems": [
    "C61_comb",
    "C61_comb_fails",
    "C61_add",
    "C61_sub",
    "C61_HP",
    "C61_HP_basis"
   ],
   "note": "Numbers of sympy are exact rationals (Q up to ==). The dictionary of CombRepet is left out: it never changes a result."
  },
  {
   "property": "C62",
   "status": "partial",
   "theorems": [
    "C62_find",
    "C62_find_ring",
    "C62_find_outside",
    "C62_flags",
    "C62_insert",
    "C62_insert_fails",
    "C62_insert_ring_refuted",
    "C62_count",
    "C62_degMinProlong",
    "C62_prolongDeg",
    "C62_prolongMonom",
    "C62_prolongAll",
    "C62_HP",
    "C62_HP_basis"
   ],
   "note": "All parts are proved for Wraps with an unknown function. A Wrap whose leading monomial has none is not rejected: Python's self[-1] is the last tree (C62_insert_ring_refuted)."
  },
  {
   "property": "C63",
   "status": "partial",
   "theorems": [
    "C63_total_partial",
    "C63_sound",
    "C63_find",
    "C63_reduced",
    "C63_ideal_partial",
    "C63_complete_partial",
    "C63_normal_form_partial",
    "C63_level0_refuted",
    "C63_lex_refuted",
    "C63_module_refuted"
   ],
   "note": "Integer coefficients, input polynomials sharing no cells. Not proved: termination (the theorems speak of calls that end), generation and completeness when the criteria were used (they need both returned counters 0). These fail in general: level 0, the default, never prolongs (C63_level0_refuted); with TOPlex the normal form of an input polynomial can be non-zero (C63_lex_refuted); with several unknown functions the first criterion discards an equation (C63_module_refuted)."
  },
  {
   "property": "C64",
   "status": "partial",
   "theorems": [
    "C64_total_partial",
    "C64_sound",
    "C64_reduced",
    "C64_constant_refuted",
    "C64_function_refuted"
   ],
   "note": "Integer coefficients, input polynomials sharing no cells. Not proved: termination and completeness. 'No input is left out' is refuted when the queue holds an element of degree 0: the loop takes degree 0 for an empty queue (C64_constant_refuted, C64_function_refuted)."
  },
  {
   "property": "C65",
   "status": "proved",
   "theorems": [
    "C65_add",
    "C65_neg",
    "C65_prolong",
    "C65_df",
    "C65_df_accepts",
    "C65_rejects"
   ],
   "note": "The coefficients are any integral domain with derivations given as a record of operations (hypothesis good_coefs): this is the contract assumed of sympy's arithmetic, in particular that its test for zero is exact. C65_df_accepts: exactly which arguments df accepts; all others fail an assertion. C65_rejects: objects that are not valid do not get through a sum."
  },
  {
   "property": "C66",
   "status": "partial",
   "theorems": [
    "C66_head",
    "C66_tail",
    "C66_nf",
    "C66_single",
    "C66_constant_refuted"
   ],
   "note": "Proved for sets whose find answers with a polynomial whose leading derivative belongs to the function of the derivative asked for (as Forest.find and a single polynomial with unknown function do). Refuted for a single polynomial without unknown function as set: C66_constant_refuted (IndexError)."
  },
  {
   "property": "C67",
   "status": "partial",
   "theorems": [
    "C67_find",
    "C67_again",
    "C67_entries",
    "C67_NFhead",
    "C67_NFtail",
    "C67_module_refuted",
    "C67_differential_refuted"
   ],
   "note": "Proved for polynomials and for one unknown function. Refuted for several unknown functions (C67_module_refuted: an assert fails) and for PolyDiff with coefficients that depend on the variables (C67_differential_refuted: the polynomial is multiplied instead of differentiated)."
  },
  {
   "property": "C68",
   "status": "partial",
   "theorems": [
    "C68_linear",
    "C68_linear_has_value",
    "C68_valid",
    "C68_product_rejected",
    "C68_power_refuted",
    "C68_other_functions_rejected",
    "C68_repeated_refuted"
   ],
   "note": "Linear expressions and the rejection of products are proved. Refuted for powers (C68_power_refuted: u^2 is taken as a coefficient). Expressions with functions such as sin(x) are rejected although linear (C68_other_functions_rejected). A derivative naming a variable twice would be read with its last order only (C68_repeated_refuted)."
  },
  {
   "property": "C69",
   "status": "proved",
   "theorems": [
    "C69_monom",
    "C69_poly",
    "C69_bmonom",
    "C69_bpoly",
    "C69_hilbert",
    "C69_hilbert_zero",
    "C69_py_integer",
    "C69_py_monom",
    "C69_py_poly"
   ],
   "note": "Complete for the modelled texts; numerals are those of the standard library's DecimalString/HexadecimalString."
  },
  {
   "property": "C70",
   "status": "partial",
   "theorems": [
    "C70_value",
    "C70_monom",
    "C70_monom_repr",
    "C70_poly",
    "C70_operators",
    "C70_operators_reject",
    "C70_symbolic_refuted",
    "C70_names_refuted",
    "C70_names_checked",
    "C70_names_good"
   ],
   "note": "Proved for integer coefficients and distinct names. Refuted for symbolic coefficients, which are written without parentheses (C70_symbolic_refuted), and for names shared by a variable and a function, which Monom.init does not reject (C70_names_refuted). What Monom.init checks is that no name is repeated among the variables and none among the functions (C70_names_checked); with disjointness this is exactly what the reading theorems need (C70_names_good)."
  },
  {
   "property": "C71",
   "status": "partial",
   "theorems": [
    "C71_add",
    "C71_neg",
    "C71_sub",
    "C71_times",
    "C71_times_fails",
    "C71_power",
    "C71_truediv",
    "C71_rtruediv_refuted",
    "C71_prolong",
    "C71_mult",
    "C71_mult_zero",
    "C71_diff",
    "C71_reduction",
    "C71_redrat",
    "C71_not_divisible",
    "C71_reduce",
    "C71_S"
   ],
   "note": "Complete but for c/p (c a coefficient, p a polynomial), which returns p/c: C71_rtruediv_refuted. S is stated for leading monomials without unknown functions; with them it fails (C58). The dictionary of __mul__ and its sorted items are as in PyReadModel.v."
  },
  {
   "property": "C72",
   "status": "proved",
   "theorems": [
    "C72_head",
    "C72_tail",
    "C72_nf",
    "C72_single"
   ],
   "note": "Complete. Coefficients are any domain with the operations sympy provides (good_coefs, good_quo); the search for reducers is any procedure that gives valid reducers of the same component, a single polynomial among them (C72_single)."
  },
  {
   "property": "C73",
   "status": "partial",
   "theorems": [
    "C73_T",
    "C73_add",
    "C73_prolong",
    "C73_variable_refuted",
    "C73_inhomogeneous_refuted"
   ],
   "note": "Proved for coefficients that do not depend on the grid point. With coefficients that contain the grid variables, as in the demonstration at the end of polynomial.py, prolong does not shift them: C73_variable_refuted. prolong multiplies the constant term of an inhomogeneous scheme with the variable, after which the scheme cannot be printed: C73_inhomogeneous_refuted."
  },
  {
   "property": "C74",
   "status": "proved",
   "theorems": [
    "C74_ancestor",
    "C74_prolong",
    "C74_update",
    "C74_refresh",
    "C74_isGB",
    "C74_crit1",
    "C74_crit2",
    "C74_criteria",
    "C74_order"
   ],
   "note": "Complete. A Wrap is a record; changing its polynomial from outside (NFhead, reduce, pp, NFtail) is any replacement by a valid polynomial followed by update, or one that keeps the leading monomial."
  },
  {
   "property": "C75",
   "status": "partial",
   "theorems": [
    "C75_zero",
    "C75_zero_refuses",
    "C75_variable",
    "C75_variable_outside",
    "C75_reads",
    "C75_getitem_outside",
    "C75_never_crashes_refuted",
    "C75_product",
    "C75_product_refuses",
    "C75_power",
    "C75_power_refuses",
    "C75_divisiable",
    "C75_quotient",
    "C75_quotient_refuses",
    "C75_quotient_of_views_refuted",
    "C75_quotient_times_divisor",
    "C75_quotient_in_module",
    "C75_compare",
    "C75_setPos",
    "C75_setPos_refuses",
    "C75_permutation",
    "C75_random",
    "C75_empty_object",
    "C75_empty_argument",
    "C75_order_names"
   ],
   "note": "Proved for every call whose index, variable number and arguments are proper, with the exact exceptions otherwise. Refuted: x[-1], variable(n, n, -1), x * None, next() before rand_init and degree overflow are undefined behaviour instead of exceptions; / refuses a const_monom such as lm(); (x / y) * y is refused when both lie in the same module component. Type errors other than those named by the model (floats, strings) are left out."
  },
  {
   "property": "C76",
   "status": "partial",
   "theorems": [
    "C76_careful_programs_partial",
    "C76_view_of_temporary",
    "C76_view_over_polynomial",
    "C76_view_of_reduced",
    "C76_reduced_by_itself",
    "C76_temporary_refuted",
    "C76_reduction_refuted",
    "C76_self_refuted",
    "C76_coefficient_changes_refuted",
    "C76_equal_refuted"
   ],
   "note": "Proved for all programs in which views are looked at only while their polynomial still has a name and is unchanged, and in which no polynomial is reduced by itself: a condition on the text of the program alone (careful). Refuted without it: lm() and lc() hold the bare address of the first term, so (p*q).lm(), lm() before a reduction and p.reduction(p) are undefined behaviour (proved for every program ending so), lc() changes with pp(), and == compares identity. Ring polynomials only; wraps, bases and iterators are left out."
  },
  {
   "property": "C77",
   "status": "partial",
   "theorems": [
    "C77_push",
    "C77_push_other",
    "C77_push_other_refuted",
    "C77_iter",
    "C77_iter_refuted",
    "C77_one",
    "C77_index",
    "C77_index_refuted",
    "C77_find",
    "C77_find_module",
    "C77_find_one",
    "C77_nf",
    "C77_nf_refuted",
    "C77_nf_element",
    "C77_nf_element_refuted",
    "C77_janet",
    "C77_janet_refuted",
    "C77_hilbert",
    "C77_build_keeps"
   ],
   "note": "Proved for objects that are not isOne(), with polynomials of the ring. Refuted: with isOne() polynomials of every ring are accepted, len() is 1 while the iteration is empty, and janet(-1) follows a null pointer; nf() does not use the result of comparable(), so a polynomial with another order becomes an invalid one; NM(i) and build(i) do not check i; nf of an element obtained from the iteration reduces it by itself (proved to be undefined for every element). Timers, draw and the lifetime of the objects that point into the basis are left out."
  },
  {
   "property": "C78",
   "status": "partial",
   "theorems": [
    "C78_copy",
    "C78_destroy",
    "C78_reallocate",
    "C78_no_candidate",
    "C78_isGC",
    "C78_again",
    "C78_settled_refuted",
    "C78_small"
   ],
   "note": "Proved for every class T, given the sizes of the blocks its copy constructor asks for. Refuted: an object may still be a candidate (isGC) directly after reallocate(); then, proved, every further call copies it again and gains nothing; a page (4128 bytes) is larger than the threshold 4096, so this holds for every object below 2/3 of a page. Timers are left out."
  },
  {
   "property": "C79",
   "status": "partial",
   "theorems": [
    "C79_accounting",
    "C79_blocks",
    "C79_released",
    "C79_outcomes",
    "C79_limit",
    "C79_array_undef",
    "C79_array_refuted"
   ],
   "note": "Proved for clients that use dealloc(ptr), destroy(ptr) and dealloc(ptr, n) on arrays of types without a destructor. Refuted, and proved for every such array: destroy(ptr, n) on an array of objects with destructors (the only form offered for them, unused inside the library) passes free a pointer 8 bytes inside the block, because the array begins behind the length the compiler stores. Sizes below 2^62, alignment at most 8; bodies of destructors are left out."
  },
  {
   "property": "C80",
   "status": "partial",
   "theorems": [
    "C80_two_variables_partial",
    "C80_growth_partial",
    "C80_rounds"
   ],
   "note": "Proved: termination with one or two variables; for any number of variables a call that does not end makes the degrees of the leading monomials of the basis exceed every bound (all inner loops end, every round either shrinks the queue or adds elements not Janet-divisible by the basis). Missing: termination with three and more variables, because prolongations of elements above the current degree are deferred. algorithmTQ2 is not covered."
  },
  {
   "property": "C81",
   "status": "partial",
   "theorems": [
    "C81_ascending",
    "C81_build_primitive",
    "C81_tq_primitive_refuted",
    "C81_positive_refuted",
    "C81_deglex_tails",
    "C81_tq_tails",
    "C81_lex_build_tails_refuted",
    "C81_push"
   ],
   "note": "Proved: the order for every history; build keeps the coefficients without common divisor; tails are reduced in deglex after every history, and algorithmTQ/algorithmTQ1 keep them reduced in lex too. Refuted: algorithmTQ and algorithmTQ1 keep a common divisor of the input (2x); build in lex leaves reducible tails (x + y^2 and 3y give y, x + y^2); leading coefficients may be negative. algorithmTQ2 is not covered."
  },
  {
   "property": "C82",
   "status": "partial",
   "theorems": [
    "C82_representative",
    "C82_unique",
    "C82_decides_class",
    "C82_decides_zero",
    "C82_idempotent",
    "C82_sign_refuted",
    "C82_ideal_partial",
    "C82_objects_partial",
    "C82_ideal_refuted",
    "C82_tq2_ideal_partial",
    "C82_tq2_objects_partial",
    "C82_tq2_representative",
    "C82_tq2_decides_class",
    "C82_tq2_decides_zero",
    "C82_tq2_idempotent"
   ],
   "note": "Proved for every history: nf is the irreducible primitive representative of the class, unique up to the sign, decides the class and the rational span, is idempotent. Partial: modulo the ideal, and for two objects with the same ideal, under the local test of C46 (refuted without it). Refuted: the sign is not canonical. C82_tq2_*: the same statements after algorithmTQ2, with the elements in its tree in place of the basis. C82_tq2_ideal_partial, C82_tq2_objects_partial: modulo the ideal, and for objects completed by different algorithms."
  },
  {
   "property": "C83",
   "status": "proved",
   "theorems": [
    "C83_total",
    "C83_gcd",
    "C83_first",
    "C83_empty",
    "C83_principal",
    "C83_involutive",
    "C83_membership",
    "C83_constant",
    "C83_same_ideal"
   ],
   "note": "Proved in full for one variable: total correctness of the three completion algorithms, including the criteria that skip prolongations (which C46 leaves as a hypothesis for more variables). algorithmTQ2 is the subject of C103: it can lose the greatest common divisor."
  },
  {
   "property": "C84",
   "status": "partial",
   "theorems": [
    "C84_isGB",
    "C84_ancestor",
    "C84_generators",
    "C84_groebner",
    "C84_build",
    "C84_minimal_refuted",
    "C84_built_refuted"
   ],
   "note": "Proved for all histories: isGB, ancestor, generators, the Groebner property under the local test (C46), build implies NM. Refuted: minimality of the elements with isGB(), and that every non-multiplicative prolongation has been built at the end."
  },
  {
   "property": "C85",
   "status": "partial",
   "theorems": [
    "C85_maxPos",
    "C85_trees",
    "C85_tree_positions",
    "C85_unit_refuted",
    "C85_criterion_refuted",
    "C85_position_refuted"
   ],
   "note": "Proved for all histories: maxPos() and the trees. The code violates the rest, for TOP and POT: C85_unit_refuted (isOne() after one unit vector), C85_criterion_refuted (product criterion), C85_position_refuted (Wrap::update ignores the position: an element outside of the module enters the basis, a member has normal form not 0)."
  },
  {
   "property": "C86",
   "status": "proved",
   "theorems": [
    "C86_no_dangling",
    "C86_nothing_lost",
    "C86_destructor",
    "C86_tq2"
   ],
   "note": "The model with addresses (OwnModel.v) repeats the loops of build, algorithmTQ, algorithmTQ1 and algorithmTQ2 with new, delete and the dereferences; it is proved to end as the model without addresses in every case. Nodes of the lists and trees are the subject of C13, C20 and C59."
  },
  {
   "property": "C87",
   "status": "partial",
   "theorems": [
    "C87_elements",
    "C87_trees",
    "C87_safe_refuted"
   ],
   "note": "Proved for all programs: when a wrap_poly_int or const_janet can be used (an equivalence), and that elements keep their leading monomial. Refuted: that a name is enough (C87_safe_refuted: after del b, after the basis has become 1, after a polynomial with a larger module position). Addresses are not reused in the model; build() during a running iteration is not modelled."
  },
  {
   "property": "C88",
   "status": "partial",
   "theorems": [
    "C88_same",
    "C88_monotone",
    "C88_balance",
    "C88_bound",
    "C88_reduction",
    "C88_zero",
    "C88_zero_refuted",
    "C88_equal",
    "C88_equal_least",
    "C88_equal_most",
    "C88_criteria",
    "C88_reduction_refuted",
    "C88_taken",
    "C88_tq2_same",
    "C88_tq2_monotone",
    "C88_tq2_elements",
    "C88_tq2_reduction",
    "C88_tq2_taken",
    "C88_tq2_criteria"
   ],
   "note": "Proved for all histories: erasure (C88_same), monotonicity, the exact balance for algorithmTQ1, an inequality for all algorithms, the meaning of reduction() = 0 for algorithmTQ. Refuted with witnesses: the balance for build() and algorithmTQ, reduction() = 0 for build() and algorithmTQ1. The C++ int counters are natural numbers here (no overflow). C88_criteria counts, for one call of the prolongation loop, the prolongations each criterion rejects. C88_taken counts the tail reductions of the elements build() takes. algorithmTQ2: C88_tq2_same, C88_tq2_monotone (maxEqualLm() is never changed), C88_tq2_elements (every non-zero input is in the basis or counted as zero), C88_tq2_reduction, C88_tq2_taken, C88_tq2_criteria."
  },
  {
   "property": "C89",
   "status": "partial",
   "theorems": [
    "C89_ends",
    "C89_crash",
    "C89_ends_refuted",
    "C89_assertion",
    "C89_count_partial",
    "C89_count_refuted",
    "C89_ideal_partial"
   ],
   "note": "The end of algorithmTQ2 (poly_int.cpp:1290-1293 with buildHP) added to the model of C66. Proved: it ends normally unless no polynomial is left, and then always fails; the printed count is right when all elements are in the tree. Refuted with witnesses: the empty basis, and a negative Hilbert polynomial. C89_ideal_partial: under the local test the polynomial printed is that of the ideal."
  },
  {
   "property": "C90",
   "status": "partial",
   "theorems": [
    "C90_text",
    "C90_collections",
    "C90_own",
    "C90_methods",
    "C90_methods_refuted",
    "C90_deleted_refuted",
    "C90_null_refuted"
   ],
   "note": "Proved for all programs: the text of J.timer(), GC_timer(), timer(), and what the methods of J.timer() answer instead. Refuted with witnesses: the methods of J.timer(), its text after del, const_timer(). Clock readings are arbitrary integers (ticks); rounding to double and to two decimals is not modelled; when a completion collects is arbitrary."
  },
  {
   "property": "C91",
   "status": "partial",
   "theorems": [
    "C91_cancel",
    "C91_pp",
    "C91_pp_exact",
    "C91_integers",
    "C91_cancel_pp",
    "C91_pp_refuted",
    "C91_rejects"
   ],
   "note": "Proved for all: what cancel does; that pp multiplies by a non-zero number; exactly when pp gives a primitive polynomial; integer coefficients; cancel followed by pp. Refuted with witness: pp of x + 1/2. gcd and lcm of sympy are modelled for Rational only (gcd of numerators over lcm of denominators), not for symbolic coefficients. C91_rejects: cancel of a list of terms that is not a valid polynomial ends with a failed assertion."
  },
  {
   "property": "C92",
   "status": "proved",
   "theorems": [
    "C92_ends",
    "C92_linear",
    "C92_size",
    "C92_zeros",
    "C92_solvable",
    "C92_solution",
    "C92_unique",
    "C92_involutive",
    "C92_membership",
    "C92_same_ideal",
    "C92_tq2_ends",
    "C92_tq2_zeros",
    "C92_tq2_in_trees",
    "C92_tq2_linear",
    "C92_tq2_size",
    "C92_tq2_solvable",
    "C92_tq2_solution",
    "C92_tq2_unique",
    "C92_tq2_involutive",
    "C92_tq2_membership",
    "C92_tq2_classes",
    "C92_tq2_objects"
   ],
   "note": "Proved in full for the release build and the admissible orderings (lex, deglex): termination, shape, zeros, solvability, solutions, uniqueness, involutivity without hypothesis on the criteria. The C92_tq2 theorems say the same of algorithmTQ2 called last: a linear system never makes it delete its tree, since constants leave nothing to insert."
  },
  {
   "property": "C93",
   "status": "partial",
   "theorems": [
    "C93_ends",
    "C93_basis",
    "C93_size",
    "C93_generators",
    "C93_ideal",
    "C93_nf_lex_refuted",
    "C93_nf_deglex_refuted",
    "C93_tq2_basis",
    "C93_tq2_generators",
    "C93_tq2_ideal",
    "C93_tq2_size",
    "C93_tq2_one_outside",
    "C93_tq2_nf_refuted"
   ],
   "note": "Termination, shape and size of the basis, minimal generators and the description of the ideal are proved in full for the release build with lex and deglex. The last sentence is false of the code: with x^2 and y^3 (lex) or y^2 and x z^3 (deglex) a prolongation is skipped and a monomial of the ideal has a non-zero normal form (C93_nf_lex_refuted, C93_nf_deglex_refuted). The C93_tq2 theorems say the same of the basis algorithmTQ2 leaves (shape, size, generators, ideal); at most one element is outside its tree, and nf may then not even reduce a monomial that was pushed (C93_tq2_nf_refuted). That algorithmTQ2 ends on monomials is not proved."
  },
  {
   "property": "C94",
   "status": "proved",
   "theorems": [
    "C94_ends",
    "C94_basis",
    "C94_zero",
    "C94_nf_ends",
    "C94_nf_divides",
    "C94_nf_classes",
    "C94_one_element",
    "C94_tq2_ends",
    "C94_tq2_basis",
    "C94_tq2_nf_divides",
    "C94_tq2_nf_classes",
    "C94_tq2_one_element"
   ],
   "note": "Proved in full for the release build with lex and deglex and ring polynomials; no assumption about the local test of C46 is left, because a basis with one element has no non-multiplicative variables. The C94_tq2 theorems say the same of algorithmTQ2, called after such a history; there the one element is also in the tree."
  },
  {
   "property": "C95",
   "status": "proved",
   "theorems": [
    "C95_same",
    "C95_find",
    "C95_nodes",
    "C95_insert",
    "C95_basis",
    "C95_forest",
    "C95_forest_sum"
   ],
   "note": "Proved in full. The counted search is a second version of the model of find (JanetCostModel) that is proved to return the same result. Counted are visits of nodes and elements compared, not machine steps; the nodes touched by setNM during an insertion are not counted."
  },
  {
   "property": "C96",
   "status": "proved",
   "theorems": [
    "C96_class",
    "C96_class_nf",
    "C96_homogeneous",
    "C96_weights",
    "C96_binomials",
    "C96_variables",
    "C96_word_nf",
    "C96_word",
    "C96_tq2_word",
    "C96_tq2_class",
    "C96_tq2_class_nf",
    "C96_tq2_homogeneous",
    "C96_tq2_binomials",
    "C96_tq2_variables",
    "C96_tq2_word_nf"
   ],
   "note": "Proved in full, as instances of C96_class and C96_class_nf: any class of polynomials kept by elimination of a term, constant factors and prolongation contains the basis. Release build, lex and deglex, ring polynomials. C96_word assumes, as its statement does, that the basis passes the local test (C46 decides this for a given basis). C96_tq2_*: the same after algorithmTQ2, for all elements it holds and for nf; C96_tq2_word_nf is the part of the word problem that needs no local test. C96_tq2_word: the word problem after algorithmTQ2."
  },
  {
   "property": "C97",
   "status": "partial",
   "theorems": [
    "C97_signs",
    "C97_tq2_signs",
    "C97_order",
    "C97_order_fresh",
    "C97_order_refuted",
    "C97_scale_refuted"
   ],
   "note": "C97_signs is the part about signs in full (both builds, all orders, module terms, asserts and fuel included). The part about the order is proved for equations with different leading monomials (the object itself is then the same) and refuted otherwise: isOne() depends on the order of four equations, and on a factor 2^64 of one of them (the element with the fewest limbs is kept). C97_tq2_signs: the same for programs ending in algorithmTQ2."
  },
  {
   "property": "C98",
   "status": "partial",
   "theorems": [
    "C98_check",
    "C98_order_refuted",
    "C98_count_refuted"
   ],
   "note": "C98_check says exactly what is checked: colours, black heights, and the order of each key and its children. Refuted otherwise: keys further apart can be out of order (then find misses them), and the count is only compared with 0."
  },
  {
   "property": "C99",
   "status": "partial",
   "theorems": [
    "C99_latex",
    "C99_latex_whole",
    "C99_exponent_refuted",
    "C99_latex_inj",
    "C99_function_refuted",
    "C99_underscore_refuted",
    "C99_df",
    "C99_T",
    "C99_unit",
    "C99_op_inj"
   ],
   "note": "What TeX reads is given by a small reader for braces, scripts and control symbols (TexSpec.v). latex() is right exactly up to exponent 9 (C99_latex_whole); refuted beyond (x^12 shows as x^1 2), for functions whose names run into the variables (u y and uy) and for names beginning with _. df_latex and T_latex are right for all monomials, distinct monomials have distinct texts."
  },
  {
   "property": "C100",
   "status": "partial",
   "theorems": [
    "C100_janet",
    "C100_janet_set",
    "C100_empty",
    "C100_forest",
    "C100_rbtree",
    "C100_rbtree_int",
    "C100_rbtree_names_refuted",
    "C100_pyginv",
    "C100_graphviz",
    "C100_graphviz_edges"
   ],
   "note": "The graph library is modelled by what its calls do to a list of named nodes and edges (DrawModel.v); layout and rendering are not modelled. Holds for Janet trees, forests and pyginv, and for RBTree if no text of a key begins with nullptr; refuted for the string key nullptr1, which becomes one node with a missing child. The number of missing children drawn (an int) is not modelled as one. C100_graphviz and C100_graphviz_edges say what any calls give."
  },
  {
   "property": "C101",
   "status": "partial",
   "theorems": [
    "C101_references",
    "C101_calls_have_values",
    "C101_zero_polynomial",
    "C101_zero_argument",
    "C101_sessions",
    "C101_iteration",
    "C101_list_of_temporary",
    "C101_add_itself",
    "C101_sub_itself",
    "C101_reduce_in_loop_refuted",
    "C101_terms_missed_refuted"
   ],
   "note": "Terms carry addresses that are never reused, so that a stale pointer is seen as such (CellModel.v); Python sessions with any number of generators and pairs (CellPyModel.v) are compared with a specification that only knows monomials and values (CellSpec.v). Refuted: a loop over p that reduces p can read freed memory, or miss terms. The pairs of list(q*r) always dangle; p.sub(p) reads a freed term for every p but 0. Operations that replace all terms (nfTail, mult by a polynomial, pow, assignment) are not followed at this level."
  },
  {
   "property": "C102",
   "status": "partial",
   "theorems": [
    "C102_heapify",
    "C102_heappush",
    "C102_heappop",
    "C102_heapsort",
    "C102_order",
    "C102_first",
    "C102_next",
    "C102_block",
    "C102_get_min",
    "C102_whole_block_refuted"
   ],
   "note": "heapq is modelled as CPython implements it (PyQueueModel.v): sift by the smaller child down to a leaf, then up; proved to keep heaps for every weak order. During calls the heap is an invariant of all states (PyHeapqTop.v). Refuted: the block taken by reduceMinDegree need not contain all polynomials of its degree, as d is not set when nothing is to be reduced."
  },
  {
   "property": "C103",
   "status": "partial",
   "theorems": [
    "C103_basis_partial",
    "C103_empty",
    "C103_one_partial",
    "C103_local_partial",
    "C103_gcd_refuted"
   ],
   "note": "The last clause is false of the code (C103_gcd_refuted): x^5+3x^4, x^5+3x^4+x^2+3x and x^5+3x^4+x^3+1 have no common factor, algorithmTQ2 leaves x^2+3x in its tree and x^3+1 outside. It is proved when one element is left (C103_one_partial) and when all elements are in the tree and the local test holds (C103_local_partial). The first two clauses are proved for all histories. For the other algorithms the whole property is C83. Termination of algorithmTQ2 in one variable is not proved."
  },
  {
   "property": "C104",
   "status": "proved",
   "theorems": [
    "C104_push",
    "C104_build",
    "C104_tq",
    "C104_tq2",
    "C104_nf",
    "C104_nf2",
    "C104_history",
    "C104_same_ideal",
    "C104_add",
    "C104_sub",
    "C104_mult",
    "C104_pow",
    "C104_reduction",
    "C104_pp",
    "C104_insert",
    "C104_find",
    "C104_addresses",
    "C104_system_hilbert",
    "C104_tq2_print",
    "C104_permutation",
    "C104_stack",
    "C104_integer_parse",
    "C104_integer_copy",
    "C104_integer_add",
    "C104_integer_sub",
    "C104_integer_mult",
    "C104_integer_div",
    "C104_integer_gcd",
    "C104_allocate",
    "C104_deallocate",
    "C104_reallocate",
    "C104_malloc",
    "C104_malloc_free",
    "C104_malloc_delete",
    "C104_monom_mul",
    "C104_monom_pow",
    "C104_monom_div",
    "C104_monom_compare",
    "C104_monom_compare3",
    "C104_completion",
    "C104_completion_janet",
    "C104_forest",
    "C104_hilbert",
    "C104_bool_add",
    "C104_bool_or",
    "C104_bool_nf",
    "C104_bool_nfTail",
    "C104_rbtree",
    "C104_list"
   ],
   "note": "Proved for every argument, without validity hypotheses. C104_history turns every theorem about release histories into one about debug histories; C104_same_ideal is one such consequence. The other direction fails: C49 has inputs where only the debug build stops. Stacks, integers and both allocators are in Prop_DebugMem.v, addresses of terms, Hilbert polynomials of systems and permutations in Prop_DebugCell.v; timers have no assertions."
  },
  {
   "property": "C105",
   "status": "partial",
   "theorems": [
    "C105_iter",
    "C105_forest_iter",
    "C105_GB",
    "C105_forest_GB",
    "C105_GB_generates",
    "C105_setNonmut_refuted",
    "C105_setNonmut_partial"
   ],
   "note": "Iteration and GB(): proved. setNonmut is refuted (UnboundLocalError on the tree of y alone; elements in the last list are missed); C105_setNonmut_partial: if it returns, only the flags asked for have been set. The hypothesis of C105_GB_generates on ancestors is not derived for the completion algorithms."
  },
  {
   "property": "C106",
   "status": "partial",
   "theorems": [
    "C106_norm",
    "C106_overflow",
    "C106_overflow_refuted",
    "C106_length",
    "C106_minus",
    "C106_pp",
    "C106_choice",
    "C106_choice_tq",
    "C106_add",
    "C106_sub",
    "C106_mult"
   ],
   "note": "C106_norm is an equivalence: norm() answers n exactly if n is the number of words and an int. Otherwise the sum of ints overflows (C106_overflow); C106_overflow_refuted: two coefficients of 2^30+1 words are enough. C106_add, C106_sub and C106_mult bound the norm of sums and products. C106_choice and C106_choice_tq: the completion algorithms choose an element of minimal norm. This choice is modelled with the exact sum, hence for polynomials below that size."
  }
 ]
}