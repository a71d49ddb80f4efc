{
 "C01": {
  "note": "lex, deglex (in fact degree-reverse-lexicographic) and alex."
 },
 "C02": {
  "note": "C02_multiplicative also covers alex."
 },
 "C03": {
  "note": "The code violates the full property: alex is multiplicative but 1 is its maximum and x^0 > x^1 > x^2 > ... is an infinite chain (refuted theorems)."
 },
 "C05": {
  "note": "Holds when the module position sits on the first factor (as the code's callers arrange for ring elements); refuted when it sits on the second factor: the position of the product is never formed."
 },
 "C18": {
  "note": "Release build: any distinct monomials. With asserts: whenever no monomial divides another; the assert that fires otherwise is characterised (C18_debug_rejects)."
 },
 "C19": {
  "note": "Trees built by any insertion sequence of distinct monomials in one module component; trees after build() are covered by C24."
 },
 "C20": {
  "note": "The code violates it: copying drops the subtree behind mNextVar of the last node of every degree chain. Proved: copy is a subset, it is exact for one variable, and C20_copy_exact_partial says which elements survive: those for which every variable before their last occurring variable is non-multiplicative."
 },
 "C22": {
  "note": "Also proved for the other six comparison functions with the division each induces."
 },
 "C24": {
  "note": "Debug build needs that no pushed monomial divides another, because push asserts find()==nullptr (C18_debug_rejects)."
 },
 "C44": {
  "note": "The code violates it (use after free in MCompletion unless the duplicate is the largest element; wrong size in MJanet). The exact condition for MCompletion is proved."
 },
 "C09": {
  "note": "Over any sequence of calls whose stated preconditions hold. The code violates the rest: a zero constant, adding a constant to the zero polynomial or under alex (C13), module reducers (C41)."
 },
 "C10": {
  "note": "Value level plus a heap-level theorem for add/sub. The code violates it for p.sub(p): a freed list node is read for every non-zero p."
 },
 "C11": {
  "note": "Precondition as in the API: at most one factor is a module element."
 },
 "C12": {
  "note": "The code violates it for exponent 0 (result 0 instead of 1); every exponent >= 1 proved."
 },
 "C13": {
  "note": "The code violates it for the zero constant, the zero polynomial and the alex order; proved otherwise."
 },
 "C15": {
  "note": "g is the content up to sign; the sign changes only for a one-term polynomial (its coefficient is set to 1)."
 },
 "C16": {
  "note": ""
 },
 "C17": {
  "note": "Reducers must lie in the component of the reduced monomial (see C41 for what happens otherwise). For alex the loop can run forever (theorem C17_alex_does_not_end)."
 },
 "C41": {
  "note": "The code violates it for module elements: asserts reject correct module reductions, and the release build gives wrong results for reducers with several components."
 },
 "C42": {
  "note": "The code violates it: mult by a one-term polynomial leaks the old terms (C42_mult_leak_refuted, C42_mult_leak_size). All other calls modelled (add, sub, their constant forms, mult, operator=, reduction, redMaybe, clear) are balanced, one by one and over any sequence of calls up to the destructor; so are pow (C42_pow) and the constructors (C42_new), and C42_life accounts for every term over a whole life, constructor to destructor; C42_allocators does so for programs with any number of objects and allocators, with swap, moves and destructors, the lost ones included. Term nodes are counted, not bytes."
 },
 "C08": {
  "note": "Uniform draws are a generator whose results are in range; uniformity is stated as a bijection between in-range draw sequences and permutations. m.permutation(m, p) on itself is refuted. Python (RandPermPyModel.v): indices and reversed() work, but list(p), for and a failing `in` end with an AssertionError, as __getitem__ never raises IndexError."
 },
 "C27": {
  "note": "Client contract: each block is given back at most once, to the allocator that holds it; page size a multiple of 16; requests below 2^62 bytes (a request of 2^64-1 is refuted). Variant built with GINV_UTIL_ALLOCATOR.",
  "status": "partial"
 },
 "C28": {
  "note": "Same client contract as C27. aligned_alloc failure is not checked by the code and is reported as undefined."
 },
 "C30": {
  "note": "Any program on one stack of any initial capacity (capacity 0 asserts in the debug build), plus assignment between stacks. C30_capacity_debug: capacity 0 is refused by the debug build only."
 },
 "C34": {
  "note": "GMP functions are modelled by their contract (exact result, number of limbs they may need). The code violates the property in the debug build only: an operation whose result needs no limbs asserts. C34_zero_by_zero_refuted: the assertion of the exact division lets 0/0 pass.",
  "status": "partial"
 },
 "C35": {
  "note": "mpz_sizeinbase and mpz_get_str enter by their documented contract."
 },
 "C36": {
  "note": "Exact ticks instead of double. stop without a preceding cont/start counts extra time (refuted)."
 },
 "C29": {
  "note": "Node-level heap model with freed nodes; programs over any number of lists, one iterator and one detached node; an iterator may not be used after its list was changed by other means. clear() through an iterator in the middle asserts in the debug build (refuted). C29_misuse: what calls outside the specification do in either build.",
  "status": "proved"
 },
 "C39": {
  "note": "Release build, ring polynomials, lex and deglex; JanetPolyInt::build = algorithmBlockTQ. For submodules the property fails (C39_module_refuted). alex is not a well-order and is excluded."
 },
 "C40": {
  "note": "Release build, ring polynomials, lex and deglex. Termination of nf is part of the theorem.  After algorithmTQ2 nf works with the elements in its tree (C40_tq2_normal_form, C40_tq2_zero_means_member).",
  "status": "proved"
 },
 "C46": {
  "note": "Refuted for lex and deglex: elements of mT of degree above the current block are not prolonged again when new non-multiplicative variables appear. Proved: the sound direction (C40_zero_means_member), and the full equivalence for every built basis that passes the local test (all non-multiplicative prolongations have normal form 0), C46_membership_partial, C46_leading_partial.  algorithmTQ and algorithmTQ1 are incomplete as well (C46_tq_refuted, C46_tq_lex_refuted, C46_tq1_refuted). Also for homogeneous polynomials with deglex, for all three algorithms (C46_homogeneous_refuted). algorithmTQ2: C46_tq2_membership_partial, C46_tq2_leading_partial assume that all elements are in the tree and pass the local test; C46_tq2_lex_refuted, C46_tq2_deglex_refuted without these."
 },
 "C47": {
  "note": "isOne() is sound; it is not complete: constants that appear in the loop over equal leading monomials are stored as ordinary basis elements. Under the local test of C46, 1 is in the ideal exactly when the basis contains a constant (C47_constant_partial). C47_tq2_constant_partial: the same after algorithmTQ2 when all elements are in the tree."
 },
 "C48": {
  "note": "Release build, ring polynomials, lex and deglex, all histories.",
  "status": "proved"
 },
 "C49": {
  "note": "Refuted by a concrete ideal for build, algorithmTQ and algorithmTQ1; C49_content_refuted: for algorithmTQ, algorithmTQ1 and algorithmTQ2 already 2y, 3x fails (content is removed only from reduced elements), while build passes. C49_single_partial: with one polynomial no assertion fails in push, build, algorithmTQ, algorithmTQ1 and algorithmTQ2, and the results are those of the release build; missing: the inputs with more polynomials on which the assertions do hold. C49_push_partial, C49_nf_partial, C49_nf2_partial: push and nf never fail an assertion, whatever was pushed and completed before, so the failures are those of the completion."
 },
 "C31": {
  "note": "All programs over any number of trees and one iterator (insert, remove by key or iterator, find/findPrev/findNext, ++/--, copy, assign, swap, clear), debug and release; the specification (sets of keys) says which iterators survive a removal: all but those at the key and at the next key (C31_next_key_iterator_dangles shows the latter can dangle)."
 },
 "C33": {
  "note": "Copy construction: all sources. Assignment: all non-empty sources; the code dereferences a null pointer when the source is empty (refuted)."
 },
 "C37": {
  "note": "Objects are arrays with mSize/mDegree; writing past the array or reading an uninitialised cell would be an Undef outcome, which the theorems exclude. The order is kept by products only with disjoint variables (C37_order_products, _overlap)."
 },
 "C38": {
  "note": "Per operation, for every polynomial in canonical form; C38_unique: the canonical form is unique. The two operands must be distinct objects. bpoly.cpp does not compile as it stands (ConstIterator assignment, ZDD constructor); the model follows the text."
 },
 "C50": {
  "note": "Termination needs the variables of all polynomials to be bounded below (any finite set is)."
 },
 "C43": {
  "note": "find is characterised completely for every history, in release builds and in debug builds whose inserts did not abort. Refuted part: in a debug build insert can abort although its own announced precondition find(lm)==nullptr holds, because the tree's own insert asserts a different condition."
 },
 "C25": {
  "note": "GMP's mpq functions are trusted to return the right value for operands that are not in lowest terms (binomial passes such)."
 },
 "C26": {
  "note": "For a tree holding a Janet basis (by inserts) and for the tree completed by MJanet. The empty tree is excluded (assert in the code)."
 },
 "C51": {
  "note": "The asserts accept the index dim+1 (C51_index_refuted), one past the array; every other index is handled as stated."
 },
 "C45": {
  "note": "poly op poly and unary minus proved in full. poly - int is wrong for every non-zero int (C45_sub_int_refuted: __sub__ calls add). poly +/* int needs a non-zero polynomial (AssertionError otherwise, C45_zero_int_raises), + also a non-zero int and an order other than alex (C13)."
 },
 "C52": {
  "note": "For every history the polynomial counts the monomials without Janet divisor in the basis (C52_irreducible_monomials); these are the monomials that lead no element of the ideal when the basis passes the local test (C52_ideal_partial). Without it the value can be wrong (C52_ideal_refuted); for modules mPos+2 counts one component too many (C52_module_refuted). C52_assertion says when the assertion of buildHP fails."
 },
 "C53": {
  "note": "Release build, ring polynomials, lex and deglex, all histories.  That the calls reach no undefined behaviour is in C39_calls_are_safe.  These algorithms are not called by build."
 },
 "C54": {
  "note": "Proved for every history of push, build, algorithmTQ and algorithmTQ1 (distinct leading monomials: C39_leads_distinct).  Refuted for algorithmTQ2, which deletes the tree after it has inserted the new element when the degree of the queue drops.  For the elements algorithmTQ2 has in its tree at the end both statements are proved (C54_tq2_leads_partial, C54_tq2_multiples_partial); when none is outside these are all elements (C54_tq2_all_partial)."
 },
 "C55": {
  "note": "Lex breaks ties left to right, deglex is degree reverse lexicographic. Finitely many unknown functions are needed for termination (C55_descent_without_bound)."
 },
 "C56": {
  "note": "lcm of two multiples of the same unknown function is built without the function and is a multiple of neither (C56_lcm_refuted, C56_lcm_loses_function); everything else proved in full."
 },
 "C57": {
  "note": "int - p gives p - int for every p (C57_rsub_int_swapped, C57_rsub_int_refuted); everything else proved in full. Values of objects; sharing is C59. Rational and symbolic coefficients and / are not modelled."
 },
 "C58": {
  "note": "S works for ring polynomials and fails an assertion for all others (C58_spoly_module_fails, C58_spoly_refuted). Reducers have their leading monomial in the component of the reduced monomial, as the Janet trees of pyginv guarantee."
 },
 "C59": {
  "note": "Violated (C59_independent_refuted): + and - put the [monomial, coefficient] lists of the left operand into the result, so an in-place method on a sum changes the left operand, and g.NFhead(f) with g = f + e can end with 0 although g is no multiple of f. Proved for objects having no such list in common (C59_value_partial, C59_others_partial); sums and differences are the only source of sharing (C59_sharing, C59_without_sums). NFhead is modelled with a Poly as set of reducers; NFtail, cancel, redRat and NF are not in the object model."
 },
 "C60": {
  "note": "Janet division is the definition of JanetSpec.v, also used for C++. The Wraps inserted must have no flag nonmult set, as after construction or after update() when the leading monomial changed."
 },
 "C61": {
  "note": "Numbers of sympy are exact rationals (Q up to ==). The dictionary of CombRepet is left out: it never changes a result."
 },
 "C62": {
  "note": "All parts are proved for Wraps with an unknown function. A Wrap whose leading monomial has none is not rejected: Python's self[-1] is the last tree (C62_insert_ring_refuted)."
 },
 "C63": {
  "note": "Integer coefficients, input polynomials sharing no cells. Not proved: termination (the theorems speak of calls that end), generation and completeness when the criteria were used (they need both returned counters 0). These fail in general: level 0, the default, never prolongs (C63_level0_refuted); with TOPlex the normal form of an input polynomial can be non-zero (C63_lex_refuted); with several unknown functions the first criterion discards an equation (C63_module_refuted)."
 },
 "C64": {
  "note": "Integer coefficients, input polynomials sharing no cells. Not proved: termination and completeness. 'No input is left out' is refuted when the queue holds an element of degree 0: the loop takes degree 0 for an empty queue (C64_constant_refuted, C64_function_refuted)."
 },
 "C65": {
  "note": "The coefficients are any integral domain with derivations given as a record of operations (hypothesis good_coefs): this is the contract assumed of sympy's arithmetic, in particular that its test for zero is exact. C65_df_accepts: exactly which arguments df accepts; all others fail an assertion. C65_rejects: objects that are not valid do not get through a sum."
 },
 "C66": {
  "note": "Proved for sets whose find answers with a polynomial whose leading derivative belongs to the function of the derivative asked for (as Forest.find and a single polynomial with unknown function do). Refuted for a single polynomial without unknown function as set: C66_constant_refuted (IndexError)."
 },
 "C67": {
  "note": "Proved for polynomials and for one unknown function. Refuted for several unknown functions (C67_module_refuted: an assert fails) and for PolyDiff with coefficients that depend on the variables (C67_differential_refuted: the polynomial is multiplied instead of differentiated)."
 },
 "C68": {
  "note": "Linear expressions and the rejection of products are proved. Refuted for powers (C68_power_refuted: u^2 is taken as a coefficient). Expressions with functions such as sin(x) are rejected although linear (C68_other_functions_rejected). A derivative naming a variable twice would be read with its last order only (C68_repeated_refuted)."
 },
 "C69": {
  "note": "Complete for the modelled texts; numerals are those of the standard library's DecimalString/HexadecimalString."
 },
 "C70": {
  "note": "Proved for integer coefficients and distinct names. Refuted for symbolic coefficients, which are written without parentheses (C70_symbolic_refuted), and for names shared by a variable and a function, which Monom.init does not reject (C70_names_refuted). What Monom.init checks is that no name is repeated among the variables and none among the functions (C70_names_checked); with disjointness this is exactly what the reading theorems need (C70_names_good)."
 },
 "C71": {
  "note": "Complete but for c/p (c a coefficient, p a polynomial), which returns p/c: C71_rtruediv_refuted. S is stated for leading monomials without unknown functions; with them it fails (C58). The dictionary of __mul__ and its sorted items are as in PyReadModel.v.",
  "status": "partial"
 },
 "C72": {
  "note": "Complete. Coefficients are any domain with the operations sympy provides (good_coefs, good_quo); the search for reducers is any procedure that gives valid reducers of the same component, a single polynomial among them (C72_single)."
 },
 "C73": {
  "note": "Proved for coefficients that do not depend on the grid point. With coefficients that contain the grid variables, as in the demonstration at the end of polynomial.py, prolong does not shift them: C73_variable_refuted. prolong multiplies the constant term of an inhomogeneous scheme with the variable, after which the scheme cannot be printed: C73_inhomogeneous_refuted."
 },
 "C74": {
  "note": "Complete. A Wrap is a record; changing its polynomial from outside (NFhead, reduce, pp, NFtail) is any replacement by a valid polynomial followed by update, or one that keeps the leading monomial."
 },
 "C75": {
  "note": "Proved for every call whose index, variable number and arguments are proper, with the exact exceptions otherwise. Refuted: x[-1], variable(n, n, -1), x * None, next() before rand_init and degree overflow are undefined behaviour instead of exceptions; / refuses a const_monom such as lm(); (x / y) * y is refused when both lie in the same module component. Type errors other than those named by the model (floats, strings) are left out."
 },
 "C76": {
  "note": "Proved for all programs in which views are looked at only while their polynomial still has a name and is unchanged, and in which no polynomial is reduced by itself: a condition on the text of the program alone (careful). Refuted without it: lm() and lc() hold the bare address of the first term, so (p*q).lm(), lm() before a reduction and p.reduction(p) are undefined behaviour (proved for every program ending so), lc() changes with pp(), and == compares identity. Ring polynomials only; wraps, bases and iterators are left out."
 },
 "C77": {
  "note": "Proved for objects that are not isOne(), with polynomials of the ring. Refuted: with isOne() polynomials of every ring are accepted, len() is 1 while the iteration is empty, and janet(-1) follows a null pointer; nf() does not use the result of comparable(), so a polynomial with another order becomes an invalid one; NM(i) and build(i) do not check i; nf of an element obtained from the iteration reduces it by itself (proved to be undefined for every element). Timers, draw and the lifetime of the objects that point into the basis are left out."
 },
 "C78": {
  "note": "Proved for every class T, given the sizes of the blocks its copy constructor asks for. Refuted: an object may still be a candidate (isGC) directly after reallocate(); then, proved, every further call copies it again and gains nothing; a page (4128 bytes) is larger than the threshold 4096, so this holds for every object below 2/3 of a page. Timers are left out."
 },
 "C79": {
  "note": "Proved for clients that use dealloc(ptr), destroy(ptr) and dealloc(ptr, n) on arrays of types without a destructor. Refuted, and proved for every such array: destroy(ptr, n) on an array of objects with destructors (the only form offered for them, unused inside the library) passes free a pointer 8 bytes inside the block, because the array begins behind the length the compiler stores. Sizes below 2^62, alignment at most 8; bodies of destructors are left out."
 },
 "C80": {
  "note": "Proved: termination with one or two variables; for any number of variables a call that does not end makes the degrees of the leading monomials of the basis exceed every bound (all inner loops end, every round either shrinks the queue or adds elements not Janet-divisible by the basis). Missing: termination with three and more variables, because prolongations of elements above the current degree are deferred. algorithmTQ2 is not covered."
 },
 "C81": {
  "note": "Proved: the order for every history; build keeps the coefficients without common divisor; tails are reduced in deglex after every history, and algorithmTQ/algorithmTQ1 keep them reduced in lex too. Refuted: algorithmTQ and algorithmTQ1 keep a common divisor of the input (2x); build in lex leaves reducible tails (x + y^2 and 3y give y, x + y^2); leading coefficients may be negative. algorithmTQ2 is not covered."
 },
 "C82": {
  "note": "Proved for every history: nf is the irreducible primitive representative of the class, unique up to the sign, decides the class and the rational span, is idempotent. Partial: modulo the ideal, and for two objects with the same ideal, under the local test of C46 (refuted without it). Refuted: the sign is not canonical. C82_tq2_*: the same statements after algorithmTQ2, with the elements in its tree in place of the basis. C82_tq2_ideal_partial, C82_tq2_objects_partial: modulo the ideal, and for objects completed by different algorithms."
 },
 "C83": {
  "note": "Proved in full for one variable: total correctness of the three completion algorithms, including the criteria that skip prolongations (which C46 leaves as a hypothesis for more variables). algorithmTQ2 is the subject of C103: it can lose the greatest common divisor."
 },
 "C84": {
  "note": "Proved for all histories: isGB, ancestor, generators, the Groebner property under the local test (C46), build implies NM. Refuted: minimality of the elements with isGB(), and that every non-multiplicative prolongation has been built at the end."
 },
 "C85": {
  "note": "Proved for all histories: maxPos() and the trees. The code violates the rest, for TOP and POT: C85_unit_refuted (isOne() after one unit vector), C85_criterion_refuted (product criterion), C85_position_refuted (Wrap::update ignores the position: an element outside of the module enters the basis, a member has normal form not 0)."
 },
 "C86": {
  "note": "The model with addresses (OwnModel.v) repeats the loops of build, algorithmTQ, algorithmTQ1 and algorithmTQ2 with new, delete and the dereferences; it is proved to end as the model without addresses in every case. Nodes of the lists and trees are the subject of C13, C20 and C59."
 },
 "C87": {
  "note": "Proved for all programs: when a wrap_poly_int or const_janet can be used (an equivalence), and that elements keep their leading monomial. Refuted: that a name is enough (C87_safe_refuted: after del b, after the basis has become 1, after a polynomial with a larger module position). Addresses are not reused in the model; build() during a running iteration is not modelled."
 },
 "C88": {
  "note": "Proved for all histories: erasure (C88_same), monotonicity, the exact balance for algorithmTQ1, an inequality for all algorithms, the meaning of reduction() = 0 for algorithmTQ. Refuted with witnesses: the balance for build() and algorithmTQ, reduction() = 0 for build() and algorithmTQ1. The C++ int counters are natural numbers here (no overflow). C88_criteria counts, for one call of the prolongation loop, the prolongations each criterion rejects. C88_taken counts the tail reductions of the elements build() takes. algorithmTQ2: C88_tq2_same, C88_tq2_monotone (maxEqualLm() is never changed), C88_tq2_elements (every non-zero input is in the basis or counted as zero), C88_tq2_reduction, C88_tq2_taken, C88_tq2_criteria."
 },
 "C89": {
  "note": "The end of algorithmTQ2 (poly_int.cpp:1290-1293 with buildHP) added to the model of C66. Proved: it ends normally unless no polynomial is left, and then always fails; the printed count is right when all elements are in the tree. Refuted with witnesses: the empty basis, and a negative Hilbert polynomial. C89_ideal_partial: under the local test the polynomial printed is that of the ideal."
 },
 "C90": {
  "note": "Proved for all programs: the text of J.timer(), GC_timer(), timer(), and what the methods of J.timer() answer instead. Refuted with witnesses: the methods of J.timer(), its text after del, const_timer(). Clock readings are arbitrary integers (ticks); rounding to double and to two decimals is not modelled; when a completion collects is arbitrary."
 },
 "C91": {
  "note": "Proved for all: what cancel does; that pp multiplies by a non-zero number; exactly when pp gives a primitive polynomial; integer coefficients; cancel followed by pp. Refuted with witness: pp of x + 1/2. gcd and lcm of sympy are modelled for Rational only (gcd of numerators over lcm of denominators), not for symbolic coefficients. C91_rejects: cancel of a list of terms that is not a valid polynomial ends with a failed assertion."
 },
 "C92": {
  "note": "Proved in full for the release build and the admissible orderings (lex, deglex): termination, shape, zeros, solvability, solutions, uniqueness, involutivity without hypothesis on the criteria. The C92_tq2 theorems say the same of algorithmTQ2 called last: a linear system never makes it delete its tree, since constants leave nothing to insert."
 },
 "C93": {
  "note": "Termination, shape and size of the basis, minimal generators and the description of the ideal are proved in full for the release build with lex and deglex. The last sentence is false of the code: with x^2 and y^3 (lex) or y^2 and x z^3 (deglex) a prolongation is skipped and a monomial of the ideal has a non-zero normal form (C93_nf_lex_refuted, C93_nf_deglex_refuted). The C93_tq2 theorems say the same of the basis algorithmTQ2 leaves (shape, size, generators, ideal); at most one element is outside its tree, and nf may then not even reduce a monomial that was pushed (C93_tq2_nf_refuted). That algorithmTQ2 ends on monomials is not proved."
 },
 "C94": {
  "note": "Proved in full for the release build with lex and deglex and ring polynomials; no assumption about the local test of C46 is left, because a basis with one element has no non-multiplicative variables. The C94_tq2 theorems say the same of algorithmTQ2, called after such a history; there the one element is also in the tree."
 },
 "C95": {
  "note": "Proved in full. The counted search is a second version of the model of find (JanetCostModel) that is proved to return the same result. Counted are visits of nodes and elements compared, not machine steps; the nodes touched by setNM during an insertion are not counted."
 },
 "C96": {
  "note": "Proved in full, as instances of C96_class and C96_class_nf: any class of polynomials kept by elimination of a term, constant factors and prolongation contains the basis. Release build, lex and deglex, ring polynomials. C96_word assumes, as its statement does, that the basis passes the local test (C46 decides this for a given basis). C96_tq2_*: the same after algorithmTQ2, for all elements it holds and for nf; C96_tq2_word_nf is the part of the word problem that needs no local test. C96_tq2_word: the word problem after algorithmTQ2."
 },
 "C97": {
  "note": "C97_signs is the part about signs in full (both builds, all orders, module terms, asserts and fuel included). The part about the order is proved for equations with different leading monomials (the object itself is then the same) and refuted otherwise: isOne() depends on the order of four equations, and on a factor 2^64 of one of them (the element with the fewest limbs is kept). C97_tq2_signs: the same for programs ending in algorithmTQ2."
 },
 "C98": {
  "note": "C98_check says exactly what is checked: colours, black heights, and the order of each key and its children. Refuted otherwise: keys further apart can be out of order (then find misses them), and the count is only compared with 0."
 },
 "C99": {
  "note": "What TeX reads is given by a small reader for braces, scripts and control symbols (TexSpec.v). latex() is right exactly up to exponent 9 (C99_latex_whole); refuted beyond (x^12 shows as x^1 2), for functions whose names run into the variables (u y and uy) and for names beginning with _. df_latex and T_latex are right for all monomials, distinct monomials have distinct texts."
 },
 "C100": {
  "note": "The graph library is modelled by what its calls do to a list of named nodes and edges (DrawModel.v); layout and rendering are not modelled. Holds for Janet trees, forests and pyginv, and for RBTree if no text of a key begins with nullptr; refuted for the string key nullptr1, which becomes one node with a missing child. The number of missing children drawn (an int) is not modelled as one. C100_graphviz and C100_graphviz_edges say what any calls give."
 },
 "C101": {
  "note": "Terms carry addresses that are never reused, so that a stale pointer is seen as such (CellModel.v); Python sessions with any number of generators and pairs (CellPyModel.v) are compared with a specification that only knows monomials and values (CellSpec.v). Refuted: a loop over p that reduces p can read freed memory, or miss terms. The pairs of list(q*r) always dangle; p.sub(p) reads a freed term for every p but 0. Operations that replace all terms (nfTail, mult by a polynomial, pow, assignment) are not followed at this level."
 },
 "C102": {
  "note": "heapq is modelled as CPython implements it (PyQueueModel.v): sift by the smaller child down to a leaf, then up; proved to keep heaps for every weak order. During calls the heap is an invariant of all states (PyHeapqTop.v). Refuted: the block taken by reduceMinDegree need not contain all polynomials of its degree, as d is not set when nothing is to be reduced."
 },
 "C103": {
  "note": "The last clause is false of the code (C103_gcd_refuted): x^5+3x^4, x^5+3x^4+x^2+3x and x^5+3x^4+x^3+1 have no common factor, algorithmTQ2 leaves x^2+3x in its tree and x^3+1 outside. It is proved when one element is left (C103_one_partial) and when all elements are in the tree and the local test holds (C103_local_partial). The first two clauses are proved for all histories. For the other algorithms the whole property is C83. Termination of algorithmTQ2 in one variable is not proved."
 },
 "C104": {
  "note": "Proved for every argument, without validity hypotheses. C104_history turns every theorem about release histories into one about debug histories; C104_same_ideal is one such consequence. The other direction fails: C49 has inputs where only the debug build stops. Stacks, integers and both allocators are in Prop_DebugMem.v, addresses of terms, Hilbert polynomials of systems and permutations in Prop_DebugCell.v; timers have no assertions."
 },
 "C105": {
  "note": "Iteration and GB(): proved. setNonmut is refuted (UnboundLocalError on the tree of y alone; elements in the last list are missed); C105_setNonmut_partial: if it returns, only the flags asked for have been set. The hypothesis of C105_GB_generates on ancestors is not derived for the completion algorithms."
 },
 "C106": {
  "note": "C106_norm is an equivalence: norm() answers n exactly if n is the number of words and an int. Otherwise the sum of ints overflows (C106_overflow); C106_overflow_refuted: two coefficients of 2^30+1 words are enough. C106_add, C106_sub and C106_mult bound the norm of sums and products. C106_choice and C106_choice_tq: the completion algorithms choose an element of minimal norm. This choice is modelled with the exact sum, hence for polynomials below that size."
 }
}