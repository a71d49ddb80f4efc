{"id": "C01", "title": "lex and deglex are total orders on exponent vectors", "statement": "For monomials of the same number of variables, a.lex(b) and a.deglex(b) return -1, 0 or 1; they return 0 exactly when all exponents agree, swapping the arguments negates the answer, and the relation 'returns a value > 0' is transitive. The same holds for a.alex(b).", "quantifier": "all numbers of variables, all pairs and triples of monomials", "why_tests_cant": "antisymmetry and transitivity range over all triples of vectors of every length", "anchors": ["ginv/monom.cpp:Monom::lex", "ginv/monom.cpp:Monom::deglex", "ginv/monom.cpp:Monom::alex"]}
{"id": "C02", "title": "lex and deglex are admissible monomial orders", "statement": "lex and deglex comparisons do not change when both sides are multiplied by the same monomial, the unit monomial is the smallest monomial, and no infinite strictly decreasing sequence of monomials exists (so every reduction loop driven by them terminates).", "quantifier": "all numbers of variables, all monomials, all infinite sequences", "why_tests_cant": "well-foundedness is a statement about infinite sequences", "anchors": ["ginv/monom.cpp:Monom::lex", "ginv/monom.cpp:Monom::deglex"]}
{"id": "C03", "title": "Is alex an admissible order?", "statement": "The third order offered by the API (alex) should, like the other two, be compatible with multiplication, have the unit monomial as its minimum and admit no infinite strictly decreasing sequence.", "quantifier": "all numbers of variables, all monomials", "why_tests_cant": "needs an infinite descending chain to refute, or a proof over all chains to confirm", "anchors": ["ginv/monom.cpp:Monom::alex", "ginv/poly.cpp:Poly::setOrder", "cython/ginv.pyx:poly_int.to_monom"]}
{"id": "C04", "title": "TOP/POT module orders are total and compatible with multiplication by ring monomials", "statement": "For each of the six order codes accepted by setOrder the comparison function on module monomials (position, exponents) is a total order, 0 exactly on equal (position, exponents) pairs, and is unchanged by multiplying both arguments with one ring monomial.", "quantifier": "all order codes, all positions >= -1, all exponent vectors", "why_tests_cant": "ranges over all triples of module monomials", "anchors": ["ginv/poly.cpp:Poly::TOPlex", "ginv/poly.cpp:Poly::POTlex", "ginv/poly.cpp:Poly::setOrder"]}
{"id": "C05", "title": "Three-argument comparison equals comparison with the product", "statement": "a.lex(b,c), a.deglex(b,c), a.alex(b,c) and their TOP/POT versions return exactly what the two-argument comparison of a with the product monomial b*c returns, without building the product.", "quantifier": "all monomials a, b, c of equal size with at most one of b, c in a module position", "why_tests_cant": "two independent loops have to agree on all triples", "anchors": ["ginv/monom.cpp:Monom::lex(const Monom&,const Monom&)", "ginv/poly.cpp:Poly::TOPlex2", "ginv/poly.cpp:Poly::POTlex2"]}
{"id": "C06", "title": "Divisibility, product and quotient of monomials are inverse operations", "statement": "a.divisiable(b) holds exactly when a = b*c for some monomial c with a legal position; then a.div(b) has the exponents of that c, multiplying back gives a, multiplication is commutative and associative on exponents with the unit monomial as neutral element, degree is additive, and gcd/lcm return the degrees of the componentwise minimum/maximum.", "quantifier": "all monomials of equal size", "why_tests_cant": "an equivalence with an existential over all cofactors", "anchors": ["ginv/monom.cpp:Monom::divisiable", "ginv/monom.cpp:Monom::div", "ginv/monom.cpp:Monom::mult", "ginv/monom.cpp:Monom::gcd", "ginv/monom.cpp:Monom::lcm"]}
{"id": "C07", "title": "Monomial objects stay valid; arithmetic is exact or flagged", "statement": "Starting from valid monomials every constructor and mutator of Monom yields a valid monomial (stored degree = sum of exponents, exponents >= 0, position >= -1) that represents the mathematical result, provided the exact result's degree fits in a C int; if the degree does not fit, the operation overflows (undefined behaviour) - and no other input overflows. Violated preconditions (sizes, positions, divisibility) are the only other way to fail.", "quantifier": "all operand values, including those near INT_MAX", "why_tests_cant": "overflow boundaries lie at 2^31; all operand pairs are quantified", "anchors": ["ginv/monom.cpp:Monom::Monom", "ginv/monom.cpp:Monom::mult", "ginv/monom.cpp:Monom::div", "ginv/monom.cpp:Monom::assertValid"]}
{"id": "C08", "title": "Random permutations are permutations, whatever the generator returns", "statement": "For every n > 0 and every stream of in-range random draws, after any number of next() calls the object holds a permutation of 0..n-1 and indexes only inside its array; every permutation is reachable by some stream; permuting the variables of a monomial keeps its degree and the multiset of exponents; rand_next yields a valid monomial whose degree is the drawn degree.", "quantifier": "all n, all random streams, any number of calls", "why_tests_cant": "the random stream is universally quantified", "anchors": ["util/randpermutation.cpp:RandPermutation::next", "ginv/monom.cpp:Monom::permutation", "ginv/monom.cpp:Monom::rand_next"]}
{"id": "C09", "title": "Polynomial objects stay canonical", "statement": "Every PolyInt operation applied to canonical polynomials (terms strictly decreasing in the chosen order, coefficients non-zero, terms of the right size) yields a canonical polynomial.", "quantifier": "all operations, all canonical polynomials, all orders", "why_tests_cant": "an invariant over all reachable values", "anchors": ["ginv/poly_int.cpp:PolyInt::assertValid", "ginv/poly_int.cpp:PolyInt::add", "ginv/poly_int.cpp:PolyInt::sub", "ginv/poly_int.cpp:PolyInt::mult", "ginv/poly_int.cpp:PolyInt::reduction"]}
{"id": "C10", "title": "Polynomial addition, subtraction and negation are coefficientwise", "statement": "For canonical p, q: after p.add(q) / p.sub(q) / p.minus() the coefficient of every monomial in p is the sum / difference / negation of the previous coefficients; in particular p.add(p) doubles and p.sub(p) gives zero, and q is unchanged.", "quantifier": "all canonical polynomials and all monomials", "why_tests_cant": "ranges over all pairs of polynomials of any length (merge of two sorted lists)", "anchors": ["ginv/poly_int.cpp:PolyInt::add", "ginv/poly_int.cpp:PolyInt::sub", "ginv/poly_int.cpp:PolyInt::minus"]}
{"id": "C11", "title": "Polynomial multiplication is the convolution product", "statement": "After p.mult(q) the coefficient of every monomial m is the sum over all factorisations m = u*v of coeff_p(u)*coeff_q(v).", "quantifier": "all canonical polynomials and all monomials", "why_tests_cant": "ranges over all pairs of polynomials of any length", "anchors": ["ginv/poly_int.cpp:PolyInt::mult"]}
{"id": "C12", "title": "pow computes the n-fold product", "statement": "After p.pow(n) the polynomial equals the product of n copies of the old p (1 for n = 0).", "quantifier": "all n >= 0, all polynomials", "why_tests_cant": "unbounded exponent", "anchors": ["ginv/poly_int.cpp:PolyInt::pow"]}
{"id": "C13", "title": "Adding or subtracting an integer constant", "statement": "p.add(\"c\") and p.sub(\"c\") change exactly the coefficient of the constant monomial by c and keep p canonical, for every integer c and every order.", "quantifier": "all canonical polynomials, all integer constants, all orders", "why_tests_cant": "corner cases: c = 0, cancellation, p = 0, orders in which 1 is not minimal", "anchors": ["ginv/poly_int.cpp:PolyInt::add(const char*)", "ginv/poly_int.cpp:PolyInt::sub(const char*)"]}
{"id": "C14", "title": "reduction subtracts the right multiple and removes the leading term", "statement": "If lm(f) is divisible by lm(a), f.reduction(a) replaces f by k1*f - k2*m*a for integers k1, k2 with k1 != 0 and m = lm(f)/lm(a); the old leading monomial no longer occurs, all remaining monomials are smaller than it, and f stays canonical.", "quantifier": "all canonical polynomials with divisible leading monomials, lex and deglex", "why_tests_cant": "ranges over all polynomials; integer gcd cofactors", "anchors": ["ginv/poly_int.cpp:PolyInt::reduction"]}
{"id": "C15", "title": "pp returns the primitive part; isPp recognises it", "statement": "p.pp() divides p by the (positive up to sign) greatest common divisor of its coefficients: p_old = g * p_new with integer g, the gcd of the new coefficients is 1; isPp() is true exactly for polynomials whose coefficient gcd is 1.", "quantifier": "all non-zero canonical polynomials", "why_tests_cant": "gcd over all coefficient lists", "anchors": ["ginv/poly_int.cpp:PolyInt::pp", "ginv/poly_int.cpp:PolyInt::isPp"]}
{"id": "C16", "title": "Tail reduction keeps the part above the reduced term", "statement": "Reducing one inner term of f by a replaces f by k1*f - k2*m*a (k1 != 0) where all terms above the reduced one are only scaled by k1, and the reduced monomial disappears.", "quantifier": "all canonical polynomials, all tail positions", "why_tests_cant": "ranges over all polynomials", "anchors": ["ginv/poly_int.cpp:PolyInt::redTail"]}
{"id": "C17", "title": "Normal forms terminate and are congruent to the input", "statement": "For every set of reducers given by a find function that only returns divisors, nf(p) and nfTail(p) terminate (lex, deglex) and return r with k*p - r in the ideal of the reducers for a non-zero integer k; after nf the leading monomial of r has no divisor among the reducers; after nf and nfTail no monomial of r has one; r is canonical.", "quantifier": "all canonical polynomials, all finite reducer sets", "why_tests_cant": "termination needs well-foundedness; congruence ranges over all reducer sequences", "anchors": ["ginv/poly_int.h:PolyInt::nf", "ginv/poly_int.h:PolyInt::nfTail", "ginv/poly_int.h:PolyInt::isNf"]}
{"id": "C18", "title": "The Janet tree maintains the Janet non-multiplicative variables", "statement": "After inserting any set of pairwise different monomials in any order, variable v is marked non-multiplicative for the stored monomial u exactly when some stored w agrees with u on all variables before v and has a larger exponent in v.", "quantifier": "all insertion sequences of distinct monomials, any number of variables", "why_tests_cant": "every history of insertions", "anchors": ["ginv/janet.cpp:Janet::insert", "ginv/janet.cpp:Janet::setMNprec", "ginv/janet.cpp:Janet::Iterator::setNM", "ginv/wrap.h:Wrap::NM"]}
{"id": "C19", "title": "Janet::find returns the Janet divisor if and only if there is one", "statement": "On any tree built by insertions, find(m) returns the stored u that divides m using only multiplicative variables of u, and returns null exactly when no such u exists; it never dereferences null.", "quantifier": "all trees reachable by insertions, all monomials m", "why_tests_cant": "all trees and queries", "anchors": ["ginv/janet.cpp:Janet::find"]}
{"id": "C20", "title": "Copying a Janet tree preserves its elements", "statement": "A Janet tree constructed as a copy of another (as done by the compacting garbage collector) answers find exactly like the original.", "quantifier": "all trees, all queries", "why_tests_cant": "all trees", "anchors": ["ginv/janet.cpp:Janet::build", "ginv/janet.h:Janet::Janet(Allocator*,const Janet&)"]}
{"id": "C21", "title": "Involutive cones are disjoint", "statement": "For every finite set of monomials, no monomial has two different Janet divisors in the set.", "quantifier": "all finite sets of monomials, all monomials", "why_tests_cant": "infinite cones are compared", "anchors": ["ginv/janet.cpp:Janet::find", "ginv/mcompletion.cpp:MCompletion::find"]}
{"id": "C22", "title": "MCompletion (lex) assigns the Janet non-multiplicative variables", "statement": "After any sequence of insertions of pairwise different monomials into MCompletion ordered by lex, NM(v) of each stored monomial is the Janet non-multiplicative predicate, and find(m) returns the unique Janet divisor or null.", "quantifier": "all insertion sequences, all queries", "why_tests_cant": "every history of insertions", "anchors": ["ginv/mcompletion.cpp:MCompletion::insert", "ginv/mcompletion.cpp:MCompletion::find", "ginv/mcompletion.h:MCompletion::lex"]}
{"id": "C23", "title": "MCompletion::build terminates with an involutive basis of the same monomial ideal", "statement": "For every finite list of pushed distinct monomials, build() with the lex comparator terminates; afterwards every monomial divisible by a pushed monomial has exactly one Janet divisor in the result, and every result monomial is divisible by a pushed one.", "quantifier": "all finite input sets, any number of variables", "why_tests_cant": "termination and completeness over infinite cones", "anchors": ["ginv/mcompletion.cpp:MCompletion::build", "ginv/mcompletion.cpp:MCompletion::prolong"]}
{"id": "C24", "title": "MJanet::build terminates with an involutive basis of the same monomial ideal", "statement": "Same as for MCompletion but for the tree based completion: for every finite list of pushed distinct monomials build() terminates, afterwards find(m) is non-null exactly for the monomials m divisible by a pushed monomial, and then it is the unique Janet divisor.", "quantifier": "all finite input sets, all queries", "why_tests_cant": "termination and completeness over infinite cones", "anchors": ["ginv/mcompletion.cpp:MJanet::build", "ginv/mcompletion.cpp:MJanet::prolong", "ginv/mcompletion.h:MJanet::push"]}
{"id": "C25", "title": "Hilbert polynomial arithmetic is exact", "statement": "HilbertPoly::binomial(a,b) stores exactly the coefficients of the polynomial binom(s+a, b) in s, add/sub/mult are exact polynomial operations, for all a and all b not exceeding the dimension.", "quantifier": "all integers a, all b <= dim", "why_tests_cant": "identity of polynomials in s for all a, b", "anchors": ["util/hilbertpoly.cpp:HilbertPoly::binomial", "util/hilbertpoly.cpp:HilbertPoly::add", "util/hilbertpoly.cpp:HilbertPoly::sub"]}
{"id": "C26", "title": "The Hilbert polynomial of a completed tree counts the standard monomials", "statement": "If the tree holds an involutive (Janet) basis of a monomial ideal, the polynomial computed by buildHP, evaluated at any s >= the maximal degree of the basis, is the number of monomials of degree <= s that lie outside the ideal.", "quantifier": "all completed trees, all large s", "why_tests_cant": "counts in infinitely many degrees", "anchors": ["ginv/janet.cpp:Janet::buildHP", "ginv/wrap.h:Wrap::multi"]}
{"id": "C27", "title": "Allocator blocks are in bounds, aligned and never overlap", "statement": "Any two blocks handed out by one Allocator are disjoint, every block lies inside one of the allocator's chunks, its offset is a multiple of 16 and it is at least as large as requested, after every sequence of allocate/deallocate calls.", "quantifier": "all request sequences and sizes", "why_tests_cant": "every history of requests", "anchors": ["util/allocator.cpp:Allocator::allocate", "util/allocator.h:Allocator::deallocate"]}
{"id": "C28", "title": "Allocator accounting is exact", "statement": "After every sequence of calls size() is the sum of the rounded sizes of the live blocks, alloc() the total of the chunks, size() <= alloc(), currMemory() is the sum of alloc() over live allocators and maxMemory() its historical maximum; releasing everything returns size() to 0; exceeding the configured limit terminates the process.", "quantifier": "all histories of several allocators", "why_tests_cant": "every history", "anchors": ["util/allocator.cpp:Allocator::allocate", "util/allocator.h:Allocator::deallocate", "util/allocator.cpp:Allocator::~Allocator"]}
{"id": "C29", "title": "List behaves like a sequence under iterator edits", "statement": "Any sequence of push, pop, insert at / delete at / get at / append via iterators on List has exactly the effect of the corresponding edits on an abstract sequence, the iterator stays at the documented place, elements are never lost or duplicated, and no freed node is accessed.", "quantifier": "all lists, all edit sequences", "why_tests_cant": "every history", "anchors": ["util/list.h:List::Iterator::insert", "util/list.h:List::Iterator::del", "util/list.h:List::push", "util/list.h:List::pop"]}
{"id": "C30", "title": "Stack behaves like a LIFO stack and never writes out of bounds", "statement": "push/pop/top on Stack behave like an abstract LIFO stack for any number of pushes; the growth policy always leaves room for the pushed element and copies the old elements.", "quantifier": "all initial capacities, all operation sequences", "why_tests_cant": "growth arithmetic for all sizes", "anchors": ["util/stack.h:Stack::push", "util/stack.h:Stack::resize"]}
{"id": "C31", "title": "RBTree is an ordered set", "statement": "After any sequence of inserts and removes, find(k) succeeds exactly for the keys present, iteration from minimum() by ++ visits all keys in strictly increasing order, findPrev/findNext return the nearest smaller/larger key and length() is the number of keys.", "quantifier": "all operation sequences over any totally ordered key type", "why_tests_cant": "every history", "anchors": ["util/rbtree.h:RBTree::insert", "util/rbtree.h:RBTree::find", "util/rbtree.h:RBTree::findPrev", "util/rbtree.h:RBTree::findNext"]}
{"id": "C32", "title": "RBTree stays balanced", "statement": "After any sequence of inserts and removes the root is black, no red node has a red child and all root-leaf paths contain the same number of black nodes; hence the height is at most 2*log2(n+1).", "quantifier": "all operation sequences", "why_tests_cant": "every history", "anchors": ["util/rbtree.h:RBTree::insertFixup", "util/rbtree.h:RBTree::deleteFixup", "util/rbtree.h:RBTree::assertValid"]}
{"id": "C33", "title": "Copying or assigning an RBTree yields an equal set", "statement": "After copy construction or assignment both trees contain the same keys and shape, for every source tree including the empty one, and no null pointer is dereferenced.", "quantifier": "all source trees", "why_tests_cant": "all trees", "anchors": ["util/rbtree.h:RBTree::operator=", "util/rbtree.h:RBTree::copy"]}
{"id": "C34", "title": "Big-integer results always fit the storage reserved for them", "statement": "For every operand value the number of limbs Integer reserves before calling GMP (add/sub: max+1, mult: sum, div: difference+1, gcd: minimum) is at least what GMP needs for the exact result, so GMP never re-allocates memory it does not own, and the stored value is the exact mathematical result.", "quantifier": "all integers", "why_tests_cant": "all integers of any length", "anchors": ["util/integer.cpp:Integer::add", "util/integer.cpp:Integer::mult", "util/integer.cpp:Integer::div", "util/integer.cpp:Integer::gcd"]}
{"id": "C35", "title": "The shared conversion buffer is always large enough", "statement": "Integer::get_str grows its static buffer so that it can hold sign, all digits and the terminator for every integer and base 2..62 and never shrinks it.", "quantifier": "all integers, bases 2..62, all call histories", "why_tests_cant": "every history of conversions", "anchors": ["util/integer.cpp:Integer::get_str"]}
{"id": "C36", "title": "Timer accumulates exactly the started intervals", "statement": "After any sequence of start/cont/stop the reported time is the sum of the lengths of the intervals between cont (or the last start) and stop.", "quantifier": "all call sequences, all clock readings", "why_tests_cant": "every history", "anchors": ["util/timer.cpp:Timer::start", "util/timer.cpp:Timer::cont", "util/timer.cpp:Timer::stop"]}
{"id": "C37", "title": "Boolean monomials: product, divisibility and quotient are set operations", "statement": "BMonom product is union of variable sets, divisible is inclusion, div is difference, and the result is always a strictly ordered duplicate-free variable list; comparison is a total order.", "quantifier": "all Boolean monomials", "why_tests_cant": "ranges over all pairs of lists of any length", "anchors": ["ginv/bmonom.cpp:BMonom::BMonom", "ginv/bmonom.cpp:BMonom::divisible", "ginv/bmonom.cpp:BMonom::div"]}
{"id": "C38", "title": "Boolean polynomials: operations agree with evaluation over GF(2)", "statement": "For every assignment of 0/1 to the variables, evaluating the result of BPoly add, mult, addOne and OR equals xor, and, negation and or of the evaluated operands; results are canonical (strictly decreasing).", "quantifier": "all Boolean polynomials, all assignments", "why_tests_cant": "all polynomials and all assignments", "anchors": ["ginv/bpoly.cpp:BPoly::add", "ginv/bpoly.cpp:BPoly::mult", "ginv/bpoly.cpp:BPoly::canonicalize"]}
{"id": "C39", "title": "The polynomial Janet basis consists of ideal members", "statement": "Every polynomial in the basis computed by JanetPolyInt::build, multiplied by some non-zero integer, is a combination of the pushed polynomials with polynomial coefficients.", "quantifier": "all inputs for which build terminates", "why_tests_cant": "ideal membership over all inputs", "anchors": ["ginv/poly_int.cpp:JanetPolyInt::algorithmBlockTQ", "ginv/poly_int.h:JanetPolyInt::push"]}
{"id": "C40", "title": "Normal form modulo the built basis decides membership-by-reduction", "statement": "JanetPolyInt::nf(p) on a built basis returns r with k*p - r in the ideal of the basis, k != 0, and the leading monomial of r has no Janet divisor in the tree.", "quantifier": "all bases, all polynomials", "why_tests_cant": "all polynomials", "anchors": ["ginv/poly_int.h:JanetPolyInt::nf", "ginv/poly_int.h:JanetPolyInt::find"]}
{"id": "C41", "title": "Reductions respect module components", "statement": "Reducing a module element never moves terms between components: the result is k1*f - k2*m*a in the free module, also when the reducer has terms in several components.", "quantifier": "all module elements", "why_tests_cant": "all elements", "anchors": ["ginv/poly_int.cpp:PolyInt::reduction", "ginv/poly_int.cpp:PolyInt::redMaybe"]}
{"id": "C42", "title": "Operations release the memory they replace", "statement": "After multiplying polynomials and destroying them, the allocator's live size returns to its previous value (no leaked terms).", "quantifier": "all polynomials", "why_tests_cant": "all operands", "anchors": ["ginv/poly_int.cpp:PolyInt::mult"]}
{"id": "C43", "title": "GB tree: find returns a divisor if one is stored", "statement": "GB::find(m) returns an inserted monomial dividing m whenever the documented (ansector/degree) structure contains one, and never returns a non-divisor.", "quantifier": "all insertion sequences, all queries", "why_tests_cant": "every history", "anchors": ["ginv/gb.cpp:GB::find", "ginv/gb.cpp:GB::insert"]}
{"id": "C44", "title": "Inserting an already present monomial is harmless", "statement": "Pushing a monomial that is already stored into MCompletion or MJanet leaves the set, its flags and its size unchanged and touches no freed object.", "quantifier": "all states, all duplicates", "why_tests_cant": "every history", "anchors": ["ginv/mcompletion.cpp:MCompletion::insert", "ginv/mcompletion.h:MJanet::push", "ginv/janet.cpp:Janet::insert"]}
{"id": "C45", "title": "Python operators agree with polynomial arithmetic", "statement": "For Python objects wrapping polynomials, p + q, p - q, p * q (q polynomial or int) denote sum, difference and product.", "quantifier": "all polynomials and integers", "why_tests_cant": "all operands", "anchors": ["cython/ginv.pyx:const_poly_int.__add__", "cython/ginv.pyx:const_poly_int.__sub__", "cython/ginv.pyx:const_poly_int.__mul__"]}
{"id": "C46", "title": "The built polynomial basis decides ideal membership", "statement": "After push and build, nf(p) is 0 for every p in the ideal generated by the pushed polynomials (the basis is involutive, hence a Groebner basis).", "quantifier": "all inputs for which build terminates, all members of the ideal", "why_tests_cant": "ranges over all ideals and all their members", "anchors": ["ginv/poly_int.cpp:JanetPolyInt::algorithmBlockTQ", "ginv/poly_int.cpp:JanetPolyInt::prolong", "ginv/poly_int.h:JanetPolyInt::nf"]}
{"id": "C47", "title": "isOne() tells whether the ideal is the whole ring", "statement": "After build, isOne() is true exactly when the constant 1 is, over the rationals, a combination of the pushed polynomials.", "quantifier": "all inputs for which build terminates", "why_tests_cant": "ranges over all ideals", "anchors": ["ginv/poly_int.h:JanetPolyInt::isOne", "ginv/poly_int.cpp:JanetPolyInt::setOne"]}
{"id": "C48", "title": "build loses nothing: the basis generates the ideal of the pushed polynomials", "statement": "After build every pushed polynomial, multiplied by some non-zero integer, is a combination of the elements of the basis with polynomial coefficients.", "quantifier": "all histories of push and build, all inputs for which build terminates", "why_tests_cant": "ideal membership over all histories", "anchors": ["ginv/poly_int.cpp:JanetPolyInt::algorithmBlockTQ", "ginv/poly_int.h:JanetPolyInt::push"]}
{"id": "C49", "title": "The assertions of the polynomial Janet algorithm hold in debug builds", "statement": "In a build with assertions, push and build of valid ring polynomials never stop with a failed assertion.", "quantifier": "all histories of push and build", "why_tests_cant": "every history", "anchors": ["ginv/poly_int.cpp:JanetPolyInt::assertT", "ginv/poly_int.cpp:JanetPolyInt::assertSort", "ginv/poly_int.cpp:JanetPolyInt::algorithmBlockTQ"]}
{"id": "C50", "title": "Boolean normal form terminates and keeps the values on common zeros", "statement": "BPoly nf and nfTail by any set of polynomials terminate, leave a canonical polynomial whose first (resp. other) monomials no element of the set reduces, and do not change the value at any common zero of the set.", "quantifier": "all Boolean polynomials and all sets of them with variables bounded below, all assignments", "why_tests_cant": "termination and every polynomial", "anchors": ["ginv/bpoly.h:BPoly::nf", "ginv/bpoly.h:BPoly::nfTail"]}
{"id": "C51", "title": "HilbertPoly accessors accept exactly the indices 0..dim", "statement": "isZero(k) and operator[](k) return the k-th coefficient for 0 <= k <= dim and, in debug builds, stop with an assertion for every other k.", "quantifier": "all polynomials, all indices", "why_tests_cant": "every index, including those read past the array without a visible failure", "anchors": ["util/hilbertpoly.h:HilbertPoly::isZero", "util/hilbertpoly.cpp:HilbertPoly::operator[]"]}
{"id": "C52", "title": "the Hilbert polynomial of a built polynomial basis counts the standard monomials", "statement": "After build, when isOne() is false and the basis is not empty, buildHP gives a polynomial h with rational coefficients such that for every s from the largest leading degree in the basis on, h(s) is the number of monomials of degree at most s that are not leading monomials of elements of the ideal generated by the pushed polynomials.", "quantifier": "all push/build histories, both build modes, both polynomial orders (lex, deglex), every s", "why_tests_cant": "an equality of counts for every degree and every input system", "anchors": ["ginv/poly_int.cpp:JanetPolyInt::buildHP", "cython/ginv.pyx:basis HilbertPoly"]}
{"id": "C53", "title": "algorithmTQ, algorithmTQ1 and algorithmTQ2 compute a basis of the same ideal", "statement": "When algorithmTQ, algorithmTQ1 or algorithmTQ2 returns, nothing is left to process, every element of the basis is non-zero and, multiplied by some non-zero integer, a combination of the pushed polynomials with polynomial coefficients, and every pushed polynomial is such a combination of the elements of the basis.", "quantifier": "all histories of pushes and earlier runs, lex and deglex, all inputs for which the algorithm terminates", "why_tests_cant": "ideal membership over all histories", "anchors": ["ginv/poly_int.cpp:JanetPolyInt::algorithmTQ", "ginv/poly_int.cpp:JanetPolyInt::algorithmTQ1", "ginv/poly_int.cpp:JanetPolyInt::algorithmTQ2"]}
{"id": "C54", "title": "Multiplicative multiples of basis elements have normal form 0", "statement": "Whatever was pushed and whichever algorithm ran, nf gives 0 for the product of a basis element and any monomial in its multiplicative variables, in particular for the element itself, and no two elements of the basis have the same leading monomial.", "quantifier": "all histories, all elements of the basis, all monomials", "why_tests_cant": "infinitely many multiples for each of infinitely many histories", "anchors": ["ginv/poly_int.h:JanetPolyInt::nf", "ginv/poly_int.h:JanetPolyInt::find", "ginv/poly_int.cpp:JanetPolyInt::algorithmTQ2"]}
{"id": "C55", "title": "The orders of pyginv are monomial orders", "statement": "For each of Monom.POTlex, TOPlex, POTdeglex and TOPdeglex, comparison with <, <=, >, >=, == is the stated total order on monomials, does not change when both sides are multiplied by the same monomial, has the unit as its minimum, and admits no infinite strictly decreasing sequence when finitely many unknown functions are declared.", "quantifier": "all numbers of variables and functions, all monomials, all infinite sequences", "why_tests_cant": "transitivity over all triples and well-foundedness over infinite sequences", "anchors": ["pyginv/monomial.py:Monom.lex", "pyginv/monomial.py:Monom.deglex", "pyginv/monomial.py:Monom.POTlex", "pyginv/monomial.py:Monom.TOPlex", "pyginv/monomial.py:Monom.POTdeglex", "pyginv/monomial.py:Monom.TOPdeglex"]}
{"id": "C56", "title": "Monomial arithmetic of pyginv", "statement": "Monom's *, /, **, prolong, divisible, divisibleTrue, lcm, gcd, nonmult, expand, gradus and hash agree with the arithmetic of exponent vectors and positions: the quotient exists exactly for divisors and inverts the product, lcm is a common multiple, nonmult gives the first variable in which the argument is larger, expand lists each variable as often as its exponent, gradus yields each monomial of the degree exactly once, equal monomials have equal hashes.", "quantifier": "all numbers of variables, all monomials, all degrees", "why_tests_cant": "ranges over all pairs of monomials", "anchors": ["pyginv/monomial.py:Monom.__mul__", "pyginv/monomial.py:Monom.__truediv__", "pyginv/monomial.py:Monom.divisible", "pyginv/monomial.py:Monom.lcm", "pyginv/monomial.py:Monom.nonmult", "pyginv/monomial.py:Monom.expand", "pyginv/monomial.py:Monom.gradus", "pyginv/monomial.py:Monom.__hash__"]}
{"id": "C57", "title": "Polynomial arithmetic of pyginv", "statement": "Poly's +, -, unary -, *, **, prolong and mult, also with an int as left or right operand, give the polynomial with the corresponding coefficients, with monomials strictly decreasing and no zero coefficient, and never fail an assertion unless both factors contain unknown functions.", "quantifier": "all orders, all numbers of variables and functions, all polynomials with integer coefficients, all ints", "why_tests_cant": "ranges over all pairs of polynomials", "anchors": ["pyginv/polynomial.py:Poly.__add__", "pyginv/polynomial.py:Poly.__sub__", "pyginv/polynomial.py:Poly.__rsub__", "pyginv/polynomial.py:Poly.__mul__", "pyginv/polynomial.py:Poly.__pow__", "pyginv/polynomial.py:Poly.mult", "pyginv/polynomial.py:Poly.prolong"]}
{"id": "C58", "title": "Reductions, normal forms, primitive parts and S-polynomials of pyginv", "statement": "reduction removes the chosen monomial by subtracting a multiple of the divisor and does not touch larger monomials other than by a non-zero factor; reduce removes the leading monomial of the argument; pp divides by the content; NFhead and NFtail terminate and give a polynomial congruent to the given one, up to a non-zero factor, whose leading (other) monomials have no reducer; S(p, q) is the difference of the multiples of p and q by which their leading terms cancel.", "quantifier": "all orders, all polynomials with integer coefficients, all sets of reducers", "why_tests_cant": "termination, and all polynomials", "anchors": ["pyginv/polynomial.py:Poly.reduction", "pyginv/polynomial.py:Poly.reduce", "pyginv/polynomial.py:Poly.pp", "pyginv/polynomial.py:Poly.NFhead", "pyginv/polynomial.py:Poly.NFtail", "pyginv/polynomial.py:Poly.S"]}
{"id": "C59", "title": "Poly objects of pyginv do not influence each other", "statement": "After any sequence of method calls on Poly objects, a call gives the value determined by the values of its operands, and changes no object other than the one it is documented to change in place (pp, reduction, reduce, NFhead).", "quantifier": "all orders, all numbers of variables, all sequences of method calls on any number of objects", "why_tests_cant": "ranges over all call histories and all pairs of objects alive at the same time", "anchors": ["pyginv/polynomial.py:Poly.__add__", "pyginv/polynomial.py:Poly.__sub__", "pyginv/polynomial.py:Poly.__mul__", "pyginv/polynomial.py:Poly.__pow__", "pyginv/polynomial.py:Poly.pp", "pyginv/polynomial.py:Poly.reduction", "pyginv/polynomial.py:Poly.NFhead"]}
{"id": "C60", "title": "Janet trees of pyginv", "statement": "In a Janet tree built by calls of insert with fresh Wraps and of the prolong methods, findWrap returns the unique Janet divisor of a monomial or None if there is none; the flags nonmult are the Janet non-multiplicative variables; inserting removes exactly the elements that the new one Janet-divides and rejects a reducible one; count is the number of elements; the prolong methods create each pending prolongation selected exactly once; degMinProlong is the least degree of an element with a pending prolongation.", "quantifier": "all numbers of variables, all monomials, all sequences of calls", "why_tests_cant": "ranges over all histories of insertions and prolongations", "anchors": ["pyginv/janet.py:Janet.findWrap", "pyginv/janet.py:Janet.insert", "pyginv/janet.py:Janet.degMinProlong", "pyginv/janet.py:Janet.prolongDeg", "pyginv/janet.py:Janet.prolongMonom", "pyginv/janet.py:Janet.prolongAll", "pyginv/janet.py:Wrap"]}
{"id": "C61", "title": "Hilbert polynomials of pyginv", "statement": "HP() of a Janet tree is a polynomial whose value at every s not below the degrees of the tree is the number of monomials of degree at most s without Janet divisor; when the leading monomials are a Janet basis of a monomial ideal this is the Hilbert function of the ideal. CombRepet(m+1, d) is the binomial polynomial of degree m in s, += and -= add and subtract.", "quantifier": "all Janet trees obtained by insert and prolong calls, all s, all rational arguments", "why_tests_cant": "an identity between a polynomial and a counting function for infinitely many s and all trees", "anchors": ["pyginv/janet.py:CombRepet", "pyginv/janet.py:HilbertPoly", "pyginv/janet.py:Janet.HP"]}
{"id": "C62", "title": "Forests of Janet trees of pyginv (systems with several unknown functions)", "statement": "findWrap of a Forest returns the unique Janet divisor among the elements with the same unknown function; insert removes exactly the elements that the new one Janet-divides and rejects a reducible one or one whose monomial has no or a foreign unknown function; nonmult, count, degMinProlong and the prolong methods are right for the whole system; HP(verge) is the sum of the Hilbert polynomials of the first verge functions.", "quantifier": "all numbers of variables and of unknown functions, all sequences of calls", "why_tests_cant": "ranges over all histories of insertions and prolongations and all monomials", "anchors": ["pyginv/janet.py:Forest"]}
{"id": "C63", "title": "Janet bases by ginvMin of pyginv", "statement": "ginvMin(pset, invdiv, level) on a Janet tree or a Forest, also called again on the tree of earlier calls, raises no exception and terminates; afterwards the tree generates the ideal (module) of all the input over the rationals, no leading monomial is a Janet divisor of another term of the basis, coefficients are coprime, and the leading monomial of every element of the ideal has a Janet divisor in the tree, so that NFhead decides ideal membership.", "quantifier": "all finite non-empty lists of non-zero integer polynomials in any number of variables and unknown functions, the four orders, both values of level, all sequences of calls", "why_tests_cant": "ranges over all polynomial systems and all elements of an infinite ideal", "anchors": ["pyginv/ginv.py:ginvMin", "pyginv/ginv.py:Q.reduceAll", "pyginv/ginv.py:Q.push"]}
{"id": "C64", "title": "Janet bases by ginvBlockLow of pyginv", "statement": "ginvBlockLow(pset, invdiv) with order TOPdeglex, also after earlier calls on the same tree, raises no exception; every polynomial of the tree lies in the ideal (module) of all the input, find on the tree answers with the Janet divisor, coefficients are coprime and tails are in normal form; no input is left out of the result.", "quantifier": "all finite non-empty lists of non-zero integer polynomials in any number of variables and unknown functions, all sequences of calls", "why_tests_cant": "ranges over all polynomial systems and all histories of the queue and the tree", "anchors": ["pyginv/ginv.py:ginvBlockLow", "pyginv/ginv.py:Q.reduceMinDegree", "pyginv/ginv.py:Q.autoReduce"]}
{"id": "C65", "title": "Sums and derivatives of linear differential polynomials (PolyDiff of pyginv)", "statement": "The sum, the negation and the prolongation prolong(v) of valid PolyDiff objects are valid and stand for the sum, the negative and the derivative with respect to the variable v of the linear differential expression, also when the coefficients are functions of the variables; prolongation differentiates the leading derivative and keeps its coefficient; df(u, x, 2, y, ...) is the derivative of u the arguments ask for.", "quantifier": "all valid differential polynomials in any number of variables and unknown functions, all coefficient domains with derivations, all values of the unknown functions, the four orders", "why_tests_cant": "ranges over all differential polynomials and all functions", "anchors": ["pyginv/polynomial.py:PolyDiff.prolong", "pyginv/polynomial.py:PolyDiff.df", "pyginv/polynomial.py:Poly.__add__", "pyginv/polynomial.py:Poly.__neg__"]}
{"id": "C66", "title": "Normal forms of linear differential polynomials (PolyDiff of pyginv)", "statement": "NFhead, NFtail and NF of a PolyDiff with respect to a set of differential equations terminate without exception and return a valid polynomial which on all solutions of the equations is a non-zero coefficient (for NF: 1) times the original one; the head (the tail, all terms) of the result has no reducer in the set.", "quantifier": "all valid differential polynomials, all sets with a sound search for reducers, all coefficient domains with derivations, all solutions in all spaces of functions, the four orders", "why_tests_cant": "ranges over all systems of linear differential equations and all their solutions", "anchors": ["pyginv/polynomial.py:PolyDiff.NFhead", "pyginv/polynomial.py:PolyDiff.NFtail", "pyginv/polynomial.py:PolyDiff.NF", "pyginv/polynomial.py:Poly.reduction", "pyginv/polynomial.py:Poly.redRat"]}
{"id": "C67", "title": "Normal forms through a JanetCache (pyginv)", "statement": "find of a JanetCache terminates; it answers None exactly for monomials without Janet divisor and otherwise with a polynomial of the ideal of the tree's elements that begins with the monomial asked for and is an element or primitive with irreducible tail; asked again it answers the same and changes nothing; entries of the dictionary stay valid when the tree changes; NFhead and NFtail with a JanetCache terminate and return a normal form modulo the ideal.", "quantifier": "all histories of tree changes and calls of find, all monomials and polynomials, any number of variables, the four orders", "why_tests_cant": "the dictionary carries polynomials from one call to the next: the property ranges over all histories", "anchors": ["pyginv/janet.py:JanetCache.find", "pyginv/polynomial.py:Poly.NFhead", "pyginv/polynomial.py:Poly.NFtail"]}
{"id": "C68", "title": "Reading symbolic linear differential equations (pyginv)", "statement": "diff2poly reads every expression built from coefficients, unknown functions and their derivatives that is linear in the unknown functions, and returns a valid polynomial with the value of the expression; products and powers that are not linear are rejected.", "quantifier": "all expressions, all coefficient domains, all spaces of functions, any number of variables and unknown functions, the four orders", "why_tests_cant": "expressions nest without bound and the meaning quantifies over all functions", "anchors": ["pyginv/polynomial.py:PolyDiff.diff2poly", "pyginv/polynomial.py:Poly.__mul__", "pyginv/polynomial.py:Poly.__add__"]}
{"id": "C69", "title": "Printed objects can be told apart", "statement": "The text written for a monomial, a polynomial, a Boolean monomial or polynomial, a Hilbert polynomial or an integer determines the object: different values are never written alike (Hilbert polynomials up to zero coefficients; the Python class poly_int shows the leading term and nothing else).", "quantifier": "all monomials with at least one variable, polynomials of any length, Boolean polynomials, Hilbert polynomials, integers", "why_tests_cant": "two objects with the same text would have to be found among infinitely many", "anchors": ["ginv/monom.cpp:operator<<", "ginv/poly_int.cpp:operator<<", "ginv/bmonom.cpp:operator<<", "ginv/bpoly.cpp:operator<<", "util/hilbertpoly.cpp:operator<<", "cython/ginv.pyx:__str__, __repr__"]}
{"id": "C70", "title": "Texts of monomials and polynomials (pyginv)", "statement": "The text of a polynomial, read as a Python expression, has the value of the polynomial, and different monomials and polynomials have different texts, in the plain form and in the forms with df, T and .diff.", "quantifier": "all names, all monomials and polynomials over them, all values of the names, integer and symbolic coefficients", "why_tests_cant": "names, exponents and lengths are unbounded, and ambiguity concerns all pairs of polynomials", "anchors": ["pyginv/monomial.py:Monom.__str__, __repr__, df, T, df_sympy, init", "pyginv/polynomial.py:Poly.__str__, PolyDiff.__str__, PolyDiff.df_sympy, PolySchem.__str__"]}
{"id": "C71", "title": "Arithmetic of polynomials over any coefficients (pyginv)", "statement": "Sums, differences, products, powers, quotients by coefficients, products with variables and terms, derivatives of the coefficients, reductions, reduce and S of the Python class Poly give valid polynomials with the value the operation has in every module over the coefficients on which the variables act.", "quantifier": "all domains of coefficients, all modules over them, all monomial orders, numbers of variables and unknown functions, all valid polynomials", "why_tests_cant": "tests evaluate a few polynomials with integer coefficients; the coefficients are arbitrary sympy expressions", "anchors": ["pyginv/polynomial.py:Poly.__add__, __sub__, __neg__, __mul__, __truediv__, __rtruediv__, __pow__, prolong, diff, mult, reduction, redRat, reduce, S"]}
{"id": "C72", "title": "Normal forms over any coefficients (pyginv)", "statement": "NFhead, NFtail and NF of the Python classes Poly and PolySchem end; wherever the polynomials of the given set are 0, in every module and for all grid functions, the result is a non-zero coefficient times the polynomial (NF: the polynomial itself), and the set has no reducer for the monomials concerned.", "quantifier": "all domains of coefficients, orders, search procedures for reducers, valid polynomials, modules and grid functions", "why_tests_cant": "termination and equality on all solutions cannot be observed in finitely many runs", "anchors": ["pyginv/polynomial.py:Poly.NFhead, NFtail, NF, find"]}
{"id": "C73", "title": "Difference schemes act on grid functions (pyginv)", "statement": "T(u, x, 2, y) stands for the grid function u at the point moved by two steps in direction x and one in direction y; sums are pointwise and prolong moves a scheme to the neighbouring point, so that prolongations of a scheme vanish on the solutions of the scheme.", "quantifier": "all domains of coefficients, numbers of variables and functions, argument lists of T, schemes, grid functions and points", "why_tests_cant": "a law about all grid functions at all points of an infinite grid", "anchors": ["pyginv/polynomial.py:PolySchem.T, Poly.prolong, Poly.__add__, PolySchem.__str__"]}
{"id": "C74", "title": "Wraps remember an ancestor (pyginv)", "statement": "In every history of a Wrap (made from a polynomial or as a prolongation, marked, reduced and updated, refreshed) its ancestor divides its leading monomial, which is the one of its polynomial; update restarts it exactly when the leading monomial has changed; refresh hands over an ancestor exactly when it is a proper divisor; isGB, crit1, crit2, < and > have their documented meaning, and where the leading monomial of the other Wrap is a divisor, crit1 implies that the product of the ancestors divides the leading monomial and crit2 that their lcm is a proper divisor of it.", "quantifier": "all numbers of variables and unknown functions, orders, polynomials and histories of calls", "why_tests_cant": "ranges over all histories of prolongations, reductions and refreshes", "anchors": ["pyginv/janet.py:Wrap.__init__, update, refresh, isGB, crit1, crit2, __lt__, __gt__"]}
{"id": "C75", "title": "Monomial objects of the Python module ginv", "statement": "zero, variable, next, *, **, /, permutation and setPos of the classes monom and const_monom return objects with exactly the documented exponents and position, or raise an exception; len, pos, degree, bool, list, [k], divisiable, lex, deglex, alex show the exponents; the order given to to_monom is the one order() tells. Index and variable number out of range, None as an argument and next before rand_init should raise, and any divisor should be accepted by /.", "quantifier": "all ints, all objects made by these calls, in debug and release builds of the library, all drawn random numbers", "why_tests_cant": "ranges over all ints and exponents; memory errors need not show in a test run", "anchors": ["cython/ginv.pyx:const_monom, monom, poly_int.to_monom, const_poly_int.order", "ginv/monom.cpp:Monom"]}
{"id": "C76", "title": "Python programs on polynomials, with names, views and object lifetime", "statement": "A Python program that makes polynomials with to_monom, + - * and unary -, gives them further names, deletes names, calls reduction and pp on them and takes lm() and lc() shows, at every print, what the objects mean: operators make new polynomials, reduction and pp act on the polynomial under all of its names, and leading monomials and coefficients are values that stay what they were.", "quantifier": "all programs, of any length, over any number of names, in debug and release builds of the library", "why_tests_cant": "ranges over all sequences of calls and all patterns of aliasing; reading freed memory often shows the old value in a test", "anchors": ["cython/ginv.pyx:const_poly_int.lm, const_poly_int.lc, poly_int.reduction, poly_int.pp, poly_int.__dealloc__", "ginv/poly_int.cpp:PolyInt::reduction"]}
{"id": "C77", "title": "The Python class janet_poly_int", "statement": "A basis built from Python by push and build shows what it holds: push accepts exactly the polynomials of its ring and order, len() is the number of objects the iteration yields, each of them shows the leading monomial and the non-multiplicative variables of an element, find(m) yields the element whose Janet cone contains m, nf(p) is the normal form of p, janet(-1).size() is len(), HilbertPoly() counts the monomials outside, and a later build removes no element.", "quantifier": "all sequences of push and build over any polynomial ring, all arguments of the methods", "why_tests_cant": "ranges over all histories of the object and over all arguments, including polynomials of other rings, indices that are no variables and elements of the basis itself", "anchors": ["cython/ginv.pyx:janet_poly_int.push, janet_poly_int.build, janet_poly_int.__len__, janet_poly_int.__iter__, janet_poly_int.find, janet_poly_int.nf, janet_poly_int.janet, janet_poly_int.HilbertPoly, wrap_poly_int.NM", "ginv/poly_int.h:JanetPolyInt::comparable, JanetPolyInt::nf"]}
{"id": "C78", "title": "Objects with an allocator of their own: copy, destructor, reallocate()", "statement": "An object of class GC<T> owns exactly the blocks of its allocator. Its destructor gives all of them back and touches no other object. reallocate() keeps the value and the blocks of all other objects, gives the old allocator back, uses afterwards as few bytes as a fresh copy, and fails only when memory or the limit is exceeded; on an object with less than a third unused it does nothing.", "quantifier": "all histories of allocations, deallocations, limits, copies and swaps before the call, all values and sizes of blocks, all page sizes and amounts of memory", "why_tests_cant": "ranges over all fragmentations a history can leave behind and over all points at which memory runs out", "anchors": ["util/allocator.h:GC, GC::reallocate, GC::swap, AllocatorPtr, Allocator::isGC", "ginv/poly_int.h:GCPolyInt"]}
{"id": "C79", "title": "The allocator built without its own pages", "statement": "Built without GINV_UTIL_ALLOCATOR the allocator keeps the same contract: alloc() and size() of an allocator are the bytes of its live objects with 16 more for each, currMemory() is their sum over all allocators, maxMemory() its largest value, setLimitMemory ends the process exactly when the limit is exceeded, every object is one block of malloc that is freed exactly once, and nothing remains when all objects are freed.", "quantifier": "all sequences of new, new[], dealloc, destroy, swap, setLimitMemory, creation and destruction of allocators, all types and lengths of arrays", "why_tests_cant": "ranges over all histories of several allocators and over all points at which memory or the limit is exhausted", "anchors": ["util/allocator.cpp:Allocator::allocate, Allocator::deallocate, Allocator::swap, Allocator::~Allocator", "util/allocator.h:Allocator::dealloc, Allocator::destroy, operator new, operator new[]"]}
{"id": "C80", "title": "Completion ends", "statement": "For all input polynomials a call of build(), algorithmTQ() or algorithmTQ1() on a JanetPolyInt returns; a call that did not return would have to add basis elements of unbounded degree.", "quantifier": "all histories of pushes and completion calls, all numbers of variables, all polynomials, lex and deglex, both position orders", "why_tests_cant": "no finite set of runs shows that a loop ends for every input", "anchors": ["ginv/poly_int.cpp:JanetPolyInt::algorithmBlockTQ, JanetPolyInt::algorithmTQ, JanetPolyInt::algorithmTQ1", "ginv/poly_int.h:JanetPolyInt::build"]}
{"id": "C81", "title": "Shape of a finished basis", "statement": "Iterating over a JanetPolyInt yields the elements with strictly increasing leading monomials; the coefficients of each element have no common divisor; no monomial of an element but the leading one can be reduced by the basis.", "quantifier": "all histories of pushes and completion calls, all numbers of variables, all polynomials, lex and deglex, both position orders", "why_tests_cant": "the elements are moved between lists and rewritten many times during a completion; a test sees the result for a few systems only", "anchors": ["ginv/poly_int.cpp:JanetPolyInt::algorithmBlockTQ, JanetPolyInt::algorithmTQ, JanetPolyInt::algorithmTQ1", "ginv/poly_int.h:JanetPolyInt::begin"]}
{"id": "C82", "title": "The normal form is the canonical representative", "statement": "nf returns the one polynomial, up to the sign, that differs from its argument (up to non-zero factors) by a combination of multiplicative multiples of the basis, has no monomial with a Janet divisor in the basis and no common divisor of its coefficients; so normal forms agree exactly for polynomials of one class, nf of a normal form changes nothing, and for an involutive basis the normal form depends on the ideal only, not on the generators or on the algorithm that completed them.", "quantifier": "all histories of pushes and completion calls, all numbers of variables, all polynomials, pairs of objects for one ideal, lex and deglex, both position orders", "why_tests_cant": "the reductions that lead to a normal form are chosen by the tree and multiply the polynomial by varying factors; a test compares a few results only", "anchors": ["ginv/poly_int.h:JanetPolyInt::nf, PolyInt::nf, PolyInt::nfTail", "ginv/poly_int.cpp:PolyInt::pp, PolyInt::reduction, PolyInt::redTail"]}
{"id": "C83", "title": "In one variable completion computes the greatest common divisor", "statement": "For polynomials in one variable build, algorithmTQ and algorithmTQ1 always end, and when nothing is queued the element of least degree of the basis, which begin() visits first, is a greatest common divisor over the rationals of all polynomials pushed and a combination of them; the basis is empty exactly when only 0 was pushed; the basis passes the local test for involutive bases whatever prolongations the criteria skipped, so nf decides membership in the ideal, a constant in the ideal shows in the basis, and normal forms depend on the ideal only.", "quantifier": "all histories of pushes and completion calls with polynomials in one variable, lex and deglex, both position orders, all degrees and coefficients", "why_tests_cant": "which prolongations are skipped depends on ancestors recorded over the whole history, and polynomials removed from the basis return to the queue; a few inputs cannot show that no skipped prolongation mattered", "anchors": ["ginv/poly_int.cpp:JanetPolyInt::algorithmBlockTQ, JanetPolyInt::algorithmTQ, JanetPolyInt::algorithmTQ1", "ginv/poly_int.h:JanetPolyInt::push", "ginv/wrap.cpp:Wrap::update"]}
{"id": "C84", "title": "Ancestors, isGB and build flags of the elements of a basis", "statement": "Whatever polynomials were pushed and however often completion was called, for every element of the basis isGB() holds exactly when ansector() is lm(), although only degrees are compared; ansector() divides lm() and is the leading monomial of another or the same element that has isGB(); so the elements with isGB() have the same multiples of leading monomials as the whole basis and are a Groebner basis whenever the basis passes the local test; build(v) implies NM(v). The elements with isGB() need not be minimal, and NM(v) does not imply build(v) when completion has ended.", "quantifier": "all histories of pushes and calls of build, algorithmTQ and algorithmTQ1, all numbers of variables, lex and deglex, both position orders", "why_tests_cant": "ancestors are handed down from prolongation to prolongation and reset by reductions over the whole history; no finite set of histories covers the ways in which an ancestor could leave the basis or a flag be lost", "anchors": ["ginv/wrap.h:Wrap::isGB, Wrap::ansector, Wrap::NM, Wrap::build", "ginv/wrap.cpp:Wrap::update", "ginv/poly_int.cpp:JanetPolyInt::prolong", "cython/ginv.pyx:wrap_poly_int"]}
{"id": "C85", "title": "Bases of submodules of free modules", "statement": "Polynomials whose terms have module positions can be pushed into a JanetPolyInt; after completion maxPos() is the largest position pushed and there is a Janet tree for every position up to it; every element of the basis lies in the submodule generated by the pushed elements, and nf(a) is 0 exactly for the elements of the submodule. (The first part holds for all histories. The second fails for both module orders: a unit vector turns the basis into 1, the product criterion is applied to modules, and an element whose leading monomial changed its position only is filed under the old position.)", "quantifier": "all histories of pushes of polynomials with any positions and calls of build, algorithmTQ and algorithmTQ1; existence of counterexamples for the refuted part", "why_tests_cant": "all histories; the shipped tests use polynomials without positions only", "anchors": ["ginv/poly_int.cpp:JanetPolyInt::setPos, JanetPolyInt::setOne, JanetPolyInt::prolong, JanetPolyInt::algorithmBlockTQ", "ginv/wrap.cpp:Wrap::update", "ginv/poly_int.h:JanetPolyInt::maxPos, JanetPolyInt::nf"]}
{"id": "C86", "title": "Basis elements are neither lost nor used after deletion", "statement": "Whatever polynomials are pushed and however push, build, algorithmTQ, algorithmTQ1 and finally algorithmTQ2 are mixed, no operation of JanetPolyInt looks at or deletes an element that was deleted before; the elements alive are exactly those reachable from the object, each reachable once; the Janet trees point to elements of the basis only; and the destructor leaves exactly the objects that existed before the JanetPolyInt was made.", "quantifier": "all histories, polynomials of any kind (also modules), debug and release builds, any heap at construction", "why_tests_cant": "all histories; a dangling pointer or a leak shows in a test only with a memory checker and only on the paths taken", "anchors": ["ginv/poly_int.cpp:JanetPolyInt::setOne, JanetPolyInt::prolong, JanetPolyInt::insert, JanetPolyInt::algorithmBlockTQ, JanetPolyInt::algorithmTQ1, JanetPolyInt::algorithmTQ2, JanetPolyInt::algorithmTQ", "ginv/poly_int.h:JanetPolyInt::push, JanetPolyInt::~JanetPolyInt"]}
{"id": "C87", "title": "Python objects that point into a basis stay usable", "statement": "The objects that list(b), b.find(m) and b.janet(pos) of a janet_poly_int give can be used as long as they have a name, whatever happens to the basis; an element keeps its leading monomial through further push() and build(). (The code violates the first part: the objects are bare C++ addresses. Exactly when they can be used is proved: elements as long as the basis has a name and isOne() has not changed, trees as long as also maxPos() has not grown.)", "quantifier": "all programs of push, build, list, find, janet, del and uses of the objects made, with polynomials of any kind", "why_tests_cant": "all programs; a dangling pointer usually still reads plausible values, so that a test passes", "anchors": ["cython/ginv.pyx:janet_poly_int.__iter__, janet_poly_int.find, janet_poly_int.janet, janet_poly_int.__dealloc__, wrap_poly_int, const_janet", "ginv/poly_int.cpp:JanetPolyInt::setPos, JanetPolyInt::setOne", "ginv/poly_int.h:JanetPolyInt::~JanetPolyInt, JanetPolyInt::find, JanetPolyInt::janet"]}
{"id": "C88", "title": "The statistics of a basis account for every polynomial", "statement": "The counters reduction(), maxEqualLm(), critI(), critII() and isZeroNf() do not influence the computation and never go down. Every polynomial pushed and every prolongation built is in the basis, still waiting, counted by critI()/critII(), or counted by isZeroNf(); and when reduction() is 0, every element of the basis is a monomial times a polynomial that was pushed. (True of algorithmTQ1 for the balance and of algorithmTQ for reduction(); the code violates it otherwise: build() and algorithmTQ never count a polynomial that became zero, build() never sets maxEqualLm(), and build() and algorithmTQ1 do not count the reduction of a leading monomial by an equal one.)", "quantifier": "all histories of push, build, algorithmTQ and algorithmTQ1, all polynomials over any number of variables", "why_tests_cant": "all histories; published benchmark tables are made from these numbers and nothing else shows when one is off", "anchors": ["ginv/poly_int.h:JanetPolyInt::reduction, JanetPolyInt::maxEqualLm, JanetPolyInt::critI, JanetPolyInt::critII, JanetPolyInt::isZeroNf", "ginv/poly_int.cpp:JanetPolyInt::build, JanetPolyInt::algorithmTQ, JanetPolyInt::algorithmTQ1, JanetPolyInt::prolong, JanetPolyInt::tailReduction"]}
{"id": "C89", "title": "The Hilbert polynomial algorithmTQ2 prints is that of its basis", "statement": "algorithmTQ2 ends for every input for which its loop ends, and the Hilbert polynomial it prints counts, in every high degree, the monomials that no element of the basis divides involutively. (The code violates both: when only 0 was pushed it dereferences a null pointer after the loop; and it takes the classes from elements that may be outside of the tree, so for x y^2 + x, x y + 1 it prints a polynomial that is negative in every high degree. The count is right whenever all elements are in the tree.)", "quantifier": "all lists of polynomials over any number of variables, both build configurations", "why_tests_cant": "all inputs; the printed polynomial is not compared with anything", "anchors": ["ginv/poly_int.cpp:JanetPolyInt::algorithmTQ2, JanetPolyInt::buildHP", "ginv/janet.h:Wrap::NM"]}
{"id": "C90", "title": "Timers of the Python interface show the time they are for", "statement": "In every program: str(J.timer()) shows the user, system and real time of the last completion of J that did anything, and userTime(), sysTime(), realTime() agree with it; GC_timer() shows the sum of all garbage collections; a timer() shows what its own start, cont and stop measured. (The code violates it: the methods of J.timer() answer the time of the garbage collections of the whole program; str(J.timer()) reads freed memory after del J and str(const_timer()) dereferences NULL.)", "quantifier": "all programs over the timer classes and any number of bases, every clock", "why_tests_cant": "all programs; a wrong but plausible number of seconds cannot be told from a right one", "anchors": ["cython/ginv.pyx:timer, const_timer, const_timer_GC, janet_poly_int.timer, allocator.GC_timer", "ginv/poly_int.h:JanetPolyInt::timer", "util/allocator.h:Allocator::timer, GC::reallocate"]}
{"id": "C91", "title": "Clearing denominators and primitive parts for rational coefficients (pyginv)", "statement": "For every polynomial of pyginv with rational coefficients: cancel() multiplies it by the least positive integer that makes all coefficients integers; pp() multiplies it by a non-zero number such that the coefficients become integers without common divisor; no assertion fails. (The code violates the second part: pp() of x + 1/2 changes nothing, because it stops at the first coefficient.)", "quantifier": "all non-zero polynomials with rational coefficients, all four orderings, any number of variables and unknown functions", "why_tests_cant": "all polynomials; the failure needs a fraction after coefficients without common divisor", "anchors": ["pyginv/polynomial.py:Poly.cancel, Poly.pp, Poly.assertValid"]}
{"id": "C92", "title": "Linear systems are solved", "statement": "After any sequence of pushes of linear polynomials and completions, build, algorithmTQ, algorithmTQ1 and algorithmTQ2 end; they leave a linear system of at most n + 1 equations with the same rational solutions. The system is unsolvable exactly if a non-zero constant is in the basis; otherwise the variables that are not leading monomials can be chosen freely and the choice determines the solution; the solution is unique exactly if the basis has n elements. The basis is involutive, so nf decides membership in the ideal and its result depends on the ideal only.", "quantifier": "all histories of pushes and completions with linear polynomials, all numbers of variables and coefficients, both orderings lex and deglex, all four algorithms (algorithmTQ2 as the last call)", "why_tests_cant": "all linear systems; in particular no linear system may be found on which a skipped prolongation loses an equation", "anchors": ["poly_int.cpp:JanetPolyInt::push, build, algorithmTQ, algorithmTQ1, nf", "poly_int.h:PolyInt::nf"]}
{"id": "C93", "title": "Systems of monomials", "statement": "After any sequence of pushes of constants times monomials and completions, build, algorithmTQ and algorithmTQ1 end. The basis consists of constants times monomials that are multiples of monomials pushed and whose exponents are not above those pushed for the same variable, so its size is bounded in advance; it contains all minimal monomials pushed, and a polynomial is in the ideal exactly if each of its monomials is a multiple of one in the basis. nf should give 0 for exactly these polynomials.", "quantifier": "all histories of pushes and completions with polynomials of at most one term, all numbers of variables, exponents and coefficients, both orderings lex and deglex, all three algorithms", "why_tests_cant": "all sets of monomials; termination and the exponent bound concern every run", "anchors": ["poly_int.cpp:JanetPolyInt::push, build, algorithmTQ, algorithmTQ1, nf", "poly_int.h:PolyInt::nf"]}
{"id": "C94", "title": "Ideals generated by one polynomial: nf decides divisibility", "statement": "After one non-zero polynomial f was pushed, build, algorithmTQ, algorithmTQ1 and algorithmTQ2 end, and the basis consists of f up to a constant. nf of a polynomial returns, and the result is zero exactly if f divides that polynomial over the rational numbers; two polynomials have the same normal form up to the sign exactly if f divides a combination k a - l b of them with non-zero integers. Whatever was pushed, a finished basis with a single element decides membership in the ideal. Zero polynomials alone leave the basis empty.", "quantifier": "all polynomials f, a, b in all numbers of variables, both orderings lex and deglex, build, algorithmTQ and algorithmTQ1 in any sequence, and algorithmTQ2 after them", "why_tests_cant": "all polynomials of all degrees; the converse (a non-zero normal form means that no quotient exists) is a statement about all quotients", "anchors": ["poly_int.cpp:JanetPolyInt::push, build, algorithmTQ, algorithmTQ1, algorithmTQ2", "poly_int.h:JanetPolyInt::nf", "poly_int.h:PolyInt::nf"]}
{"id": "C95", "title": "Searching a Janet tree costs no more when the tree grows", "statement": "Looking up a monomial m in a Janet tree visits at most deg(m) + n nodes and compares at most n stored elements with m, however many elements the tree has; this holds for trees filled by insert and for the trees of a polynomial basis after any history, and for each tree of a GB forest. A tree with k elements has between k and n k nodes, and an insertion adds at most n.", "quantifier": "all sets of monomials in all numbers of variables, all monomials looked up, all histories of pushes and completions", "why_tests_cant": "a worst-case bound over all trees; a slow case would be a particular shape of tree, not an average one", "anchors": ["janet.cpp:Janet::find, Janet::insert, Iterator::build", "gb.cpp:GB::find", "janet.h:Janet::Node"]}
{"id": "C96", "title": "Completion and normal forms keep the structure of the input", "statement": "Input that is homogeneous (for the usual degree, for any integer weights of the variables, modulo any number, or for any congruence of monomials) gives a basis of homogeneous polynomials, and the normal form of a homogeneous polynomial is homogeneous of the same degree or 0. Input with at most two terms per polynomial gives a basis with at most two terms per polynomial, and nf never increases the number of terms then. Variables that occur in no input polynomial occur in no basis polynomial. For input x^u - x^v (relations of a commutative semigroup) the normal form of a monomial is up to the sign a monomial equal to it in the semigroup, and for a basis that passes the local test two monomials have the same normal form up to the sign exactly when they are equal in the semigroup.", "quantifier": "all input lists, all histories of pushes and completions (build, algorithmTQ, algorithmTQ1), all congruences and weights, all arguments of nf", "why_tests_cant": "an invariant of every reduction and prolongation that completion performs, for infinitely many gradings", "anchors": ["poly_int.cpp:PolyInt::reduction, PolyInt::redMaybe, PolyInt::nf, PolyInt::nfTail, PolyInt::pp", "poly_int.h:JanetPolyInt::build, algorithmTQ, algorithmTQ1, nf", "wrap.h:Wrap"]}
{"id": "C97", "title": "The result does not depend on how the system is written", "statement": "Changing the sign of any of the equations, or replacing any of the variables by their negatives in all equations, changes the basis, isOne(), find() and nf() only by the same signs, and the program ends in the same way. The order in which equations are pushed, equations 0 = 0 among them, and constant factors of equations do not change isOne().", "quantifier": "all programs of pushes and completions (build, algorithmTQ, algorithmTQ1, and algorithmTQ2 as the last call), all sets of variables, all permutations of the pushes, all non-zero factors", "why_tests_cant": "pairs of executions, for all inputs and all ways of writing them; the order of equal leading monomials and the number of 64-bit limbs decide which element is taken", "anchors": ["poly_int.h:JanetPolyInt::push, build, algorithmTQ, algorithmTQ1, isOne, nf", "poly_int.cpp:JanetPolyInt::insert, PolyInt::norm, PolyInt::reduction, PolyInt::pp"]}
{"id": "C98", "title": "The check of a tree in debug builds detects every damaged tree", "statement": "assertValid(), which debug builds call after every operation on an RBTree, returns on every tree in memory and is true exactly for red-black trees with their keys in increasing order and the right length().", "quantifier": "all trees in memory, whatever their keys, colours and counts; all key types and comparison functions", "why_tests_cant": "the check is only ever run on trees that the class built itself; damaged trees come from elsewhere (a comparison that is no order, a stray write)", "anchors": ["util/rbtree.h:RBTree::assertValid, RBTree::countBlack, RBTree::next"]}
{"id": "C99", "title": "The LaTeX texts of monomials show the monomials", "statement": "Read by TeX, latex() of a monomial shows the function and the powers of the variables with their exponents, df_latex() the function with the variables of the derivative as subscript, T_latex() the function with the shifted variables as subscript; different monomials are shown differently.", "quantifier": "all names that are Python identifiers; all monomials, with any exponents and any function", "why_tests_cant": "the texts are never read back by the package, and what TeX makes of them depends on the number of digits of an exponent and on the characters in a name", "anchors": ["pyginv/monomial.py:Monom.latex, Monom.df_latex, Monom.T_latex"]}
{"id": "C100", "title": "Pictures show the trees", "statement": "The graph that draw() of a Janet tree, of a Groebner basis and of an RBTree, and saveImage() of pyginv hand to graphviz has exactly one node for every node of the tree, with its text, shape and colour, and exactly the arrows of the tree, besides the caption.", "quantifier": "all trees and forests with distinct addresses, all contents of the wraps, all sets of keys with distinct texts, any number of pictures drawn before, all levels of detail", "why_tests_cant": "graphviz merges nodes of equal names and arrows with equal ends without a word, and names are built from addresses, texts of keys, a running number and what is left in a stream", "anchors": ["ginv/janet.cpp:Janet::draw", "ginv/janet.h:Janet::draw", "ginv/gb.h:GB::draw", "util/rbtree.h:RBTree::draw, drawLeaf", "pyginv/janet.py:Janet.saveImage"]}
{"id": "C101", "title": "Pointers to the terms of a polynomial that is changed in place", "statement": "A pair obtained by iterating over a polynomial (in C++: a pointer to a term) shows its monomial with the coefficient it has now, as long as all values the polynomial has taken since keep a term with this monomial; iterating yields the terms each once and in order; pairs survive their polynomial no longer than it is there.", "quantifier": "all polynomials, all sequences of in-place operations with permitted operands, all interleavings of generators, pairs, reductions, pp, nf and del in Python", "why_tests_cant": "whether a pointer dangles depends on the whole history of the polynomial, and reading freed memory mostly gives what was there before", "anchors": ["ginv/poly_int.cpp:PolyInt::add, PolyInt::sub, PolyInt::red, PolyInt::mult, PolyInt::reduction, PolyInt::redMaybe, PolyInt::pp", "util/list.h:List::Iterator", "cython/ginv.pyx:const_poly_int.__iter__, poly_int.reduction, pp, nf"]}
{"id": "C102", "title": "The queue of the Python package hands out the smallest polynomials first", "statement": "heapq keeps a heap and sorts; at every moment of ginvMin and ginvBlockLow the first entry of the queue has the smallest leading monomial (then the smallest number); what ginvMin takes from the queue precedes all that is left; what ginvBlockLow takes is a block of one degree, with nothing of a smaller degree left, and autoReduce makes a non-empty block of at most this degree of it.", "quantifier": "all lists and weak orders for heapq; all sequences of calls of ginvMin and ginvBlockLow, all canonical inputs, all four orders of monomials (ginvBlockLow: TOPdeglex), all rounds of the calls", "why_tests_cant": "the heap is changed by pushes, pops and by rewriting its entries in place before heapify; whether its invariant holds at each use depends on the history, and a wrong first entry still gives a basis, only more slowly", "anchors": ["pyginv/ginv.py:Q.push, Q.pop, Q.reduceAll, Q.reduceMinDegree, Q.autoReduce, ginvMin, ginvBlockLow", "pyginv/janet.py:Wrap.__lt__, Wrap.__gt__"]}
{"id": "C103", "title": "One variable: the greatest common divisor after algorithmTQ2", "statement": "For polynomials in one variable the basis algorithmTQ2 leaves has the same greatest common divisors as the polynomials pushed, is empty exactly when only 0 was pushed, and its first element, of least degree, is a greatest common divisor of them.", "quantifier": "all histories of pushes and completions in one variable followed by algorithmTQ2, lex and deglex, both position orders, all degrees and coefficients", "why_tests_cant": "algorithmTQ2 deletes its tree when the degree of the queue drops, so what is left depends on the order in which degrees appear in the queue; small inputs rarely reach that branch", "anchors": ["ginv/poly_int.cpp:JanetPolyInt::algorithmTQ2", "ginv/poly_int.h:JanetPolyInt::push"]}
{"id": "C104", "title": "A debug build that finishes gives the result of a release build", "statement": "Whenever an operation ends without a failed assertion in a build with assertions, the same call in a build without assertions ends with the same result: pushes, the four completion algorithms, normal forms, polynomial and monomial arithmetic, Janet trees, forests, monomial completions, Hilbert polynomials, Boolean polynomials, and programs over red-black trees and lists.", "quantifier": "all arguments and all states of the objects, valid or not; all programs over trees and lists", "why_tests_cant": "assertions call searches and normal-form tests in the middle of updates; agreement of two builds has to hold on every path of every run", "anchors": ["ginv/poly_int.cpp:JanetPolyInt::assertT", "ginv/poly_int.cpp:JanetPolyInt::algorithmBlockTQ", "ginv/janet.cpp:Janet::insert", "util/rbtree.h:RBTree::assertValid", "ginv/monom.cpp:Monom::assertValid"]}
{"id": "C105", "title": "Walking through the elements of a Janet tree (pyginv)", "statement": "Iterating over a Janet or Forest raises no exception and yields every element once, from left to right; GB() yields exactly those that are not prolongations of another one, and their leading monomials divide all others if the ancestors are multiples of elements; setNonmut(m) marks in every element the first variable in which it is below m.", "quantifier": "all trees and forests obtained by insertions and prolongations, any number of variables and unknown functions, all monomials m", "why_tests_cant": "the nested lists have lists and elements side by side; a misplaced one ends a generator with an exception, for some tree shapes only", "anchors": ["pyginv/janet.py:Janet.__iter__", "pyginv/janet.py:Janet.GB", "pyginv/janet.py:Forest.GB", "pyginv/janet.py:Janet.setNonmut", "pyginv/monomial.py:Monom.nonmult"]}
{"id": "C106", "title": "norm() of a polynomial is the size of its coefficients", "statement": "p.norm() answers the total number of 64-bit words of the coefficients of p, at least the number of terms and equal to it if and only if every coefficient fits in one word; it does not depend on signs, does not grow by pp(), and for a sum or difference is at most the sum of the norms. Of the elements with equal leading monomial the completion algorithms keep one of least norm and reduce the others by it.", "quantifier": "all polynomials, in particular coefficients of any size and any number of terms", "why_tests_cant": "the sum is an int: it takes coefficients of gigabytes, or billions of terms, to see it overflow", "anchors": ["ginv/poly_int.cpp:PolyInt::norm", "util/integer.h:Integer::norm", "cython/ginv.pyx:poly_int.norm"]}
