#!/usr/bin/env python3
"""Writes /verif/properties.jsonl from the table below."""
import json, os
P = []
def p(id, title, statement, quantifier, why, *anchors):
    P.append(dict(id=id, title=title, statement=statement, quantifier=quantifier,
                  why_tests_cant=why, anchors=list(anchors)))

p("C01", "lex and deglex are total orders on exponent vectors",
  "For monomials of the same number of variables, a.lex(b) and a.deglex(b) return -1, 0 or 1; they return 0 exactly when all exponents agree, swapping the arguments negates the answer, and the relation 'returns a value > 0' is transitive. The same holds for a.alex(b).",
  "all numbers of variables, all pairs and triples of monomials",
  "antisymmetry and transitivity range over all triples of vectors of every length",
  "ginv/monom.cpp:Monom::lex", "ginv/monom.cpp:Monom::deglex", "ginv/monom.cpp:Monom::alex")
p("C02", "lex and deglex are admissible monomial orders",
  "lex and deglex comparisons do not change when both sides are multiplied by the same monomial, the unit monomial is the smallest monomial, and no infinite strictly decreasing sequence of monomials exists (so every reduction loop driven by them terminates).",
  "all numbers of variables, all monomials, all infinite sequences",
  "well-foundedness is a statement about infinite sequences",
  "ginv/monom.cpp:Monom::lex", "ginv/monom.cpp:Monom::deglex")
p("C03", "Is alex an admissible order?",
  "The third order offered by the API (alex) should, like the other two, be compatible with multiplication, have the unit monomial as its minimum and admit no infinite strictly decreasing sequence.",
  "all numbers of variables, all monomials",
  "needs an infinite descending chain to refute, or a proof over all chains to confirm",
  "ginv/monom.cpp:Monom::alex", "ginv/poly.cpp:Poly::setOrder", "cython/ginv.pyx:poly_int.to_monom")
p("C04", "TOP/POT module orders are total and compatible with multiplication by ring monomials",
  "For each of the six order codes accepted by setOrder the comparison function on module monomials (position, exponents) is a total order, 0 exactly on equal (position, exponents) pairs, and is unchanged by multiplying both arguments with one ring monomial.",
  "all order codes, all positions >= -1, all exponent vectors",
  "ranges over all triples of module monomials",
  "ginv/poly.cpp:Poly::TOPlex", "ginv/poly.cpp:Poly::POTlex", "ginv/poly.cpp:Poly::setOrder")
p("C05", "Three-argument comparison equals comparison with the product",
  "a.lex(b,c), a.deglex(b,c), a.alex(b,c) and their TOP/POT versions return exactly what the two-argument comparison of a with the product monomial b*c returns, without building the product.",
  "all monomials a, b, c of equal size with at most one of b, c in a module position",
  "two independent loops have to agree on all triples",
  "ginv/monom.cpp:Monom::lex(const Monom&,const Monom&)", "ginv/poly.cpp:Poly::TOPlex2", "ginv/poly.cpp:Poly::POTlex2")
p("C06", "Divisibility, product and quotient of monomials are inverse operations",
  "a.divisiable(b) holds exactly when a = b*c for some monomial c with a legal position; then a.div(b) has the exponents of that c, multiplying back gives a, multiplication is commutative and associative on exponents with the unit monomial as neutral element, degree is additive, and gcd/lcm return the degrees of the componentwise minimum/maximum.",
  "all monomials of equal size",
  "an equivalence with an existential over all cofactors",
  "ginv/monom.cpp:Monom::divisiable", "ginv/monom.cpp:Monom::div", "ginv/monom.cpp:Monom::mult", "ginv/monom.cpp:Monom::gcd", "ginv/monom.cpp:Monom::lcm")
p("C07", "Monomial objects stay valid; arithmetic is exact or flagged",
  "Starting from valid monomials every constructor and mutator of Monom yields a valid monomial (stored degree = sum of exponents, exponents >= 0, position >= -1) that represents the mathematical result, provided the exact result's degree fits in a C int; if the degree does not fit, the operation overflows (undefined behaviour) - and no other input overflows. Violated preconditions (sizes, positions, divisibility) are the only other way to fail.",
  "all operand values, including those near INT_MAX",
  "overflow boundaries lie at 2^31; all operand pairs are quantified",
  "ginv/monom.cpp:Monom::Monom", "ginv/monom.cpp:Monom::mult", "ginv/monom.cpp:Monom::div", "ginv/monom.cpp:Monom::assertValid")
p("C08", "Random permutations are permutations, whatever the generator returns",
  "For every n > 0 and every stream of in-range random draws, after any number of next() calls the object holds a permutation of 0..n-1 and indexes only inside its array; every permutation is reachable by some stream; permuting the variables of a monomial keeps its degree and the multiset of exponents; rand_next yields a valid monomial whose degree is the drawn degree.",
  "all n, all random streams, any number of calls",
  "the random stream is universally quantified",
  "util/randpermutation.cpp:RandPermutation::next", "ginv/monom.cpp:Monom::permutation", "ginv/monom.cpp:Monom::rand_next")
p("C09", "Polynomial objects stay canonical",
  "Every PolyInt operation applied to canonical polynomials (terms strictly decreasing in the chosen order, coefficients non-zero, terms of the right size) yields a canonical polynomial.",
  "all operations, all canonical polynomials, all orders",
  "an invariant over all reachable values",
  "ginv/poly_int.cpp:PolyInt::assertValid", "ginv/poly_int.cpp:PolyInt::add", "ginv/poly_int.cpp:PolyInt::sub", "ginv/poly_int.cpp:PolyInt::mult", "ginv/poly_int.cpp:PolyInt::reduction")
p("C10", "Polynomial addition, subtraction and negation are coefficientwise",
  "For canonical p, q: after p.add(q) / p.sub(q) / p.minus() the coefficient of every monomial in p is the sum / difference / negation of the previous coefficients; in particular p.add(p) doubles and p.sub(p) gives zero, and q is unchanged.",
  "all canonical polynomials and all monomials",
  "ranges over all pairs of polynomials of any length (merge of two sorted lists)",
  "ginv/poly_int.cpp:PolyInt::add", "ginv/poly_int.cpp:PolyInt::sub", "ginv/poly_int.cpp:PolyInt::minus")
p("C11", "Polynomial multiplication is the convolution product",
  "After p.mult(q) the coefficient of every monomial m is the sum over all factorisations m = u*v of coeff_p(u)*coeff_q(v).",
  "all canonical polynomials and all monomials",
  "ranges over all pairs of polynomials of any length",
  "ginv/poly_int.cpp:PolyInt::mult")
p("C12", "pow computes the n-fold product",
  "After p.pow(n) the polynomial equals the product of n copies of the old p (1 for n = 0).",
  "all n >= 0, all polynomials",
  "unbounded exponent",
  "ginv/poly_int.cpp:PolyInt::pow")
p("C13", "Adding or subtracting an integer constant",
  "p.add(\"c\") and p.sub(\"c\") change exactly the coefficient of the constant monomial by c and keep p canonical, for every integer c and every order.",
  "all canonical polynomials, all integer constants, all orders",
  "corner cases: c = 0, cancellation, p = 0, orders in which 1 is not minimal",
  "ginv/poly_int.cpp:PolyInt::add(const char*)", "ginv/poly_int.cpp:PolyInt::sub(const char*)")
p("C14", "reduction subtracts the right multiple and removes the leading term",
  "If lm(f) is divisible by lm(a), f.reduction(a) replaces f by k1*f - k2*m*a for integers k1, k2 with k1 != 0 and m = lm(f)/lm(a); the old leading monomial no longer occurs, all remaining monomials are smaller than it, and f stays canonical.",
  "all canonical polynomials with divisible leading monomials, lex and deglex",
  "ranges over all polynomials; integer gcd cofactors",
  "ginv/poly_int.cpp:PolyInt::reduction")
p("C15", "pp returns the primitive part; isPp recognises it",
  "p.pp() divides p by the (positive up to sign) greatest common divisor of its coefficients: p_old = g * p_new with integer g, the gcd of the new coefficients is 1; isPp() is true exactly for polynomials whose coefficient gcd is 1.",
  "all non-zero canonical polynomials",
  "gcd over all coefficient lists",
  "ginv/poly_int.cpp:PolyInt::pp", "ginv/poly_int.cpp:PolyInt::isPp")
p("C16", "Tail reduction keeps the part above the reduced term",
  "Reducing one inner term of f by a replaces f by k1*f - k2*m*a (k1 != 0) where all terms above the reduced one are only scaled by k1, and the reduced monomial disappears.",
  "all canonical polynomials, all tail positions",
  "ranges over all polynomials",
  "ginv/poly_int.cpp:PolyInt::redTail")
p("C17", "Normal forms terminate and are congruent to the input",
  "For every set of reducers given by a find function that only returns divisors, nf(p) and nfTail(p) terminate (lex, deglex) and return r with k*p - r in the ideal of the reducers for a non-zero integer k; after nf the leading monomial of r has no divisor among the reducers; after nf and nfTail no monomial of r has one; r is canonical.",
  "all canonical polynomials, all finite reducer sets",
  "termination needs well-foundedness; congruence ranges over all reducer sequences",
  "ginv/poly_int.h:PolyInt::nf", "ginv/poly_int.h:PolyInt::nfTail", "ginv/poly_int.h:PolyInt::isNf")
p("C18", "The Janet tree maintains the Janet non-multiplicative variables",
  "After inserting any set of pairwise different monomials in any order, variable v is marked non-multiplicative for the stored monomial u exactly when some stored w agrees with u on all variables before v and has a larger exponent in v.",
  "all insertion sequences of distinct monomials, any number of variables",
  "every history of insertions",
  "ginv/janet.cpp:Janet::insert", "ginv/janet.cpp:Janet::setMNprec", "ginv/janet.cpp:Janet::Iterator::setNM", "ginv/wrap.h:Wrap::NM")
p("C19", "Janet::find returns the Janet divisor if and only if there is one",
  "On any tree built by insertions, find(m) returns the stored u that divides m using only multiplicative variables of u, and returns null exactly when no such u exists; it never dereferences null.",
  "all trees reachable by insertions, all monomials m",
  "all trees and queries",
  "ginv/janet.cpp:Janet::find")
p("C20", "Copying a Janet tree preserves its elements",
  "A Janet tree constructed as a copy of another (as done by the compacting garbage collector) answers find exactly like the original.",
  "all trees, all queries",
  "all trees",
  "ginv/janet.cpp:Janet::build", "ginv/janet.h:Janet::Janet(Allocator*,const Janet&)")
p("C21", "Involutive cones are disjoint",
  "For every finite set of monomials, no monomial has two different Janet divisors in the set.",
  "all finite sets of monomials, all monomials",
  "infinite cones are compared",
  "ginv/janet.cpp:Janet::find", "ginv/mcompletion.cpp:MCompletion::find")
p("C22", "MCompletion (lex) assigns the Janet non-multiplicative variables",
  "After any sequence of insertions of pairwise different monomials into MCompletion ordered by lex, NM(v) of each stored monomial is the Janet non-multiplicative predicate, and find(m) returns the unique Janet divisor or null.",
  "all insertion sequences, all queries",
  "every history of insertions",
  "ginv/mcompletion.cpp:MCompletion::insert", "ginv/mcompletion.cpp:MCompletion::find", "ginv/mcompletion.h:MCompletion::lex")
p("C23", "MCompletion::build terminates with an involutive basis of the same monomial ideal",
  "For every finite list of pushed distinct monomials, build() with the lex comparator terminates; afterwards every monomial divisible by a pushed monomial has exactly one Janet divisor in the result, and every result monomial is divisible by a pushed one.",
  "all finite input sets, any number of variables",
  "termination and completeness over infinite cones",
  "ginv/mcompletion.cpp:MCompletion::build", "ginv/mcompletion.cpp:MCompletion::prolong")
p("C24", "MJanet::build terminates with an involutive basis of the same monomial ideal",
  "Same as for MCompletion but for the tree based completion: for every finite list of pushed distinct monomials build() terminates, afterwards find(m) is non-null exactly for the monomials m divisible by a pushed monomial, and then it is the unique Janet divisor.",
  "all finite input sets, all queries",
  "termination and completeness over infinite cones",
  "ginv/mcompletion.cpp:MJanet::build", "ginv/mcompletion.cpp:MJanet::prolong", "ginv/mcompletion.h:MJanet::push")
p("C25", "Hilbert polynomial arithmetic is exact",
  "HilbertPoly::binomial(a,b) stores exactly the coefficients of the polynomial binom(s+a, b) in s, add/sub/mult are exact polynomial operations, for all a and all b not exceeding the dimension.",
  "all integers a, all b <= dim",
  "identity of polynomials in s for all a, b",
  "util/hilbertpoly.cpp:HilbertPoly::binomial", "util/hilbertpoly.cpp:HilbertPoly::add", "util/hilbertpoly.cpp:HilbertPoly::sub")
p("C26", "The Hilbert polynomial of a completed tree counts the standard monomials",
  "If the tree holds an involutive (Janet) basis of a monomial ideal, the polynomial computed by buildHP, evaluated at any s >= the maximal degree of the basis, is the number of monomials of degree <= s that lie outside the ideal.",
  "all completed trees, all large s",
  "counts in infinitely many degrees",
  "ginv/janet.cpp:Janet::buildHP", "ginv/wrap.h:Wrap::multi")
p("C27", "Allocator blocks are in bounds, aligned and never overlap",
  "Any two blocks handed out by one Allocator are disjoint, every block lies inside one of the allocator's chunks, its offset is a multiple of 16 and it is at least as large as requested, after every sequence of allocate/deallocate calls.",
  "all request sequences and sizes",
  "every history of requests",
  "util/allocator.cpp:Allocator::allocate", "util/allocator.h:Allocator::deallocate")
p("C28", "Allocator accounting is exact",
  "After every sequence of calls size() is the sum of the rounded sizes of the live blocks, alloc() the total of the chunks, size() <= alloc(), currMemory() is the sum of alloc() over live allocators and maxMemory() its historical maximum; releasing everything returns size() to 0; exceeding the configured limit terminates the process.",
  "all histories of several allocators",
  "every history",
  "util/allocator.cpp:Allocator::allocate", "util/allocator.h:Allocator::deallocate", "util/allocator.cpp:Allocator::~Allocator")
p("C29", "List behaves like a sequence under iterator edits",
  "Any sequence of push, pop, insert at / delete at / get at / append via iterators on List has exactly the effect of the corresponding edits on an abstract sequence, the iterator stays at the documented place, elements are never lost or duplicated, and no freed node is accessed.",
  "all lists, all edit sequences",
  "every history",
  "util/list.h:List::Iterator::insert", "util/list.h:List::Iterator::del", "util/list.h:List::push", "util/list.h:List::pop")
p("C30", "Stack behaves like a LIFO stack and never writes out of bounds",
  "push/pop/top on Stack behave like an abstract LIFO stack for any number of pushes; the growth policy always leaves room for the pushed element and copies the old elements.",
  "all initial capacities, all operation sequences",
  "growth arithmetic for all sizes",
  "util/stack.h:Stack::push", "util/stack.h:Stack::resize")
p("C31", "RBTree is an ordered set",
  "After any sequence of inserts and removes, find(k) succeeds exactly for the keys present, iteration from minimum() by ++ visits all keys in strictly increasing order, findPrev/findNext return the nearest smaller/larger key and length() is the number of keys.",
  "all operation sequences over any totally ordered key type",
  "every history",
  "util/rbtree.h:RBTree::insert", "util/rbtree.h:RBTree::find", "util/rbtree.h:RBTree::findPrev", "util/rbtree.h:RBTree::findNext")
p("C32", "RBTree stays balanced",
  "After any sequence of inserts and removes the root is black, no red node has a red child and all root-leaf paths contain the same number of black nodes; hence the height is at most 2*log2(n+1).",
  "all operation sequences",
  "every history",
  "util/rbtree.h:RBTree::insertFixup", "util/rbtree.h:RBTree::deleteFixup", "util/rbtree.h:RBTree::assertValid")
p("C33", "Copying or assigning an RBTree yields an equal set",
  "After copy construction or assignment both trees contain the same keys and shape, for every source tree including the empty one, and no null pointer is dereferenced.",
  "all source trees",
  "all trees",
  "util/rbtree.h:RBTree::operator=", "util/rbtree.h:RBTree::copy")
p("C34", "Big-integer results always fit the storage reserved for them",
  "For every operand value the number of limbs Integer reserves before calling GMP (add/sub: max+1, mult: sum, div: difference+1, gcd: minimum) is at least what GMP needs for the exact result, so GMP never re-allocates memory it does not own, and the stored value is the exact mathematical result.",
  "all integers",
  "all integers of any length",
  "util/integer.cpp:Integer::add", "util/integer.cpp:Integer::mult", "util/integer.cpp:Integer::div", "util/integer.cpp:Integer::gcd")
p("C35", "The shared conversion buffer is always large enough",
  "Integer::get_str grows its static buffer so that it can hold sign, all digits and the terminator for every integer and base 2..62 and never shrinks it.",
  "all integers, bases 2..62, all call histories",
  "every history of conversions",
  "util/integer.cpp:Integer::get_str")
p("C36", "Timer accumulates exactly the started intervals",
  "After any sequence of start/cont/stop the reported time is the sum of the lengths of the intervals between cont (or the last start) and stop.",
  "all call sequences, all clock readings",
  "every history",
  "util/timer.cpp:Timer::start", "util/timer.cpp:Timer::cont", "util/timer.cpp:Timer::stop")
p("C37", "Boolean monomials: product, divisibility and quotient are set operations",
  "BMonom product is union of variable sets, divisible is inclusion, div is difference, and the result is always a strictly ordered duplicate-free variable list; comparison is a total order.",
  "all Boolean monomials",
  "ranges over all pairs of lists of any length",
  "ginv/bmonom.cpp:BMonom::BMonom", "ginv/bmonom.cpp:BMonom::divisible", "ginv/bmonom.cpp:BMonom::div")
p("C38", "Boolean polynomials: operations agree with evaluation over GF(2)",
  "For every assignment of 0/1 to the variables, evaluating the result of BPoly add, mult, addOne and OR equals xor, and, negation and or of the evaluated operands; results are canonical (strictly decreasing).",
  "all Boolean polynomials, all assignments",
  "all polynomials and all assignments",
  "ginv/bpoly.cpp:BPoly::add", "ginv/bpoly.cpp:BPoly::mult", "ginv/bpoly.cpp:BPoly::canonicalize")
p("C39", "The polynomial Janet basis consists of ideal members",
  "Every polynomial in the basis computed by JanetPolyInt::build, multiplied by some non-zero integer, is a combination of the pushed polynomials with polynomial coefficients.",
  "all inputs for which build terminates",
  "ideal membership over all inputs",
  "ginv/poly_int.cpp:JanetPolyInt::algorithmBlockTQ", "ginv/poly_int.h:JanetPolyInt::push")
p("C40", "Normal form modulo the built basis decides membership-by-reduction",
  "JanetPolyInt::nf(p) on a built basis returns r with k*p - r in the ideal of the basis, k != 0, and the leading monomial of r has no Janet divisor in the tree.",
  "all bases, all polynomials",
  "all polynomials",
  "ginv/poly_int.h:JanetPolyInt::nf", "ginv/poly_int.h:JanetPolyInt::find")
p("C41", "Reductions respect module components",
  "Reducing a module element never moves terms between components: the result is k1*f - k2*m*a in the free module, also when the reducer has terms in several components.",
  "all module elements",
  "all elements",
  "ginv/poly_int.cpp:PolyInt::reduction", "ginv/poly_int.cpp:PolyInt::redMaybe")
p("C42", "Operations release the memory they replace",
  "After multiplying polynomials and destroying them, the allocator's live size returns to its previous value (no leaked terms).",
  "all polynomials",
  "all operands",
  "ginv/poly_int.cpp:PolyInt::mult")
p("C43", "GB tree: find returns a divisor if one is stored",
  "GB::find(m) returns an inserted monomial dividing m whenever the documented (ansector/degree) structure contains one, and never returns a non-divisor.",
  "all insertion sequences, all queries",
  "every history",
  "ginv/gb.cpp:GB::find", "ginv/gb.cpp:GB::insert")
p("C44", "Inserting an already present monomial is harmless",
  "Pushing a monomial that is already stored into MCompletion or MJanet leaves the set, its flags and its size unchanged and touches no freed object.",
  "all states, all duplicates",
  "every history",
  "ginv/mcompletion.cpp:MCompletion::insert", "ginv/mcompletion.h:MJanet::push", "ginv/janet.cpp:Janet::insert")
p("C45", "Python operators agree with polynomial arithmetic",
  "For Python objects wrapping polynomials, p + q, p - q, p * q (q polynomial or int) denote sum, difference and product.",
  "all polynomials and integers",
  "all operands",
  "cython/ginv.pyx:const_poly_int.__add__", "cython/ginv.pyx:const_poly_int.__sub__", "cython/ginv.pyx:const_poly_int.__mul__")
p("C46", "The built polynomial basis decides ideal membership",
  "After push and build, nf(p) is 0 for every p in the ideal generated by the pushed polynomials (the basis is involutive, hence a Groebner basis).",
  "all inputs for which build terminates, all members of the ideal",
  "ranges over all ideals and all their members",
  "ginv/poly_int.cpp:JanetPolyInt::algorithmBlockTQ", "ginv/poly_int.cpp:JanetPolyInt::prolong", "ginv/poly_int.h:JanetPolyInt::nf")
p("C47", "isOne() tells whether the ideal is the whole ring",
  "After build, isOne() is true exactly when the constant 1 is, over the rationals, a combination of the pushed polynomials.",
  "all inputs for which build terminates",
  "ranges over all ideals",
  "ginv/poly_int.h:JanetPolyInt::isOne", "ginv/poly_int.cpp:JanetPolyInt::setOne")
p("C48", "build loses nothing: the basis generates the ideal of the pushed polynomials",
  "After build every pushed polynomial, multiplied by some non-zero integer, is a combination of the elements of the basis with polynomial coefficients.",
  "all histories of push and build, all inputs for which build terminates",
  "ideal membership over all histories",
  "ginv/poly_int.cpp:JanetPolyInt::algorithmBlockTQ", "ginv/poly_int.h:JanetPolyInt::push")
p("C49", "The assertions of the polynomial Janet algorithm hold in debug builds",
  "In a build with assertions, push and build of valid ring polynomials never stop with a failed assertion.",
  "all histories of push and build",
  "every history",
  "ginv/poly_int.cpp:JanetPolyInt::assertT", "ginv/poly_int.cpp:JanetPolyInt::assertSort", "ginv/poly_int.cpp:JanetPolyInt::algorithmBlockTQ")
p("C50", "Boolean normal form terminates and keeps the values on common zeros",
  "BPoly nf and nfTail by any set of polynomials terminate, leave a canonical polynomial whose first (resp. other) monomials no element of the set reduces, and do not change the value at any common zero of the set.",
  "all Boolean polynomials and all sets of them with variables bounded below, all assignments",
  "termination and every polynomial",
  "ginv/bpoly.h:BPoly::nf", "ginv/bpoly.h:BPoly::nfTail")
p("C51", "HilbertPoly accessors accept exactly the indices 0..dim",
  "isZero(k) and operator[](k) return the k-th coefficient for 0 <= k <= dim and, in debug builds, stop with an assertion for every other k.",
  "all polynomials, all indices",
  "every index, including those read past the array without a visible failure",
  "util/hilbertpoly.h:HilbertPoly::isZero", "util/hilbertpoly.cpp:HilbertPoly::operator[]")

p("C52", "the Hilbert polynomial of a built polynomial basis counts the standard monomials",
  "After build, when isOne() is false and the basis is not empty, buildHP gives a polynomial h with rational coefficients such that for every s from the largest leading degree in the basis on, h(s) is the number of monomials of degree at most s that are not leading monomials of elements of the ideal generated by the pushed polynomials.",
  "all push/build histories, both build modes, both polynomial orders (lex, deglex), every s",
  "an equality of counts for every degree and every input system",
  "ginv/poly_int.cpp:JanetPolyInt::buildHP", "cython/ginv.pyx:basis HilbertPoly")
p("C53", "algorithmTQ, algorithmTQ1 and algorithmTQ2 compute a basis of the same ideal",
  "When algorithmTQ, algorithmTQ1 or algorithmTQ2 returns, nothing is left to process, every element of the basis is non-zero and, multiplied by some non-zero integer, a combination of the pushed polynomials with polynomial coefficients, and every pushed polynomial is such a combination of the elements of the basis.",
  "all histories of pushes and earlier runs, lex and deglex, all inputs for which the algorithm terminates",
  "ideal membership over all histories",
  "ginv/poly_int.cpp:JanetPolyInt::algorithmTQ", "ginv/poly_int.cpp:JanetPolyInt::algorithmTQ1", "ginv/poly_int.cpp:JanetPolyInt::algorithmTQ2")
p("C54", "Multiplicative multiples of basis elements have normal form 0",
  "Whatever was pushed and whichever algorithm ran, nf gives 0 for the product of a basis element and any monomial in its multiplicative variables, in particular for the element itself, and no two elements of the basis have the same leading monomial.",
  "all histories, all elements of the basis, all monomials",
  "infinitely many multiples for each of infinitely many histories",
  "ginv/poly_int.h:JanetPolyInt::nf", "ginv/poly_int.h:JanetPolyInt::find", "ginv/poly_int.cpp:JanetPolyInt::algorithmTQ2")

p("C55", "The orders of pyginv are monomial orders",
  "For each of Monom.POTlex, TOPlex, POTdeglex and TOPdeglex, comparison with <, <=, >, >=, == is the stated total order on monomials, does not change when both sides are multiplied by the same monomial, has the unit as its minimum, and admits no infinite strictly decreasing sequence when finitely many unknown functions are declared.",
  "all numbers of variables and functions, all monomials, all infinite sequences",
  "transitivity over all triples and well-foundedness over infinite sequences",
  "pyginv/monomial.py:Monom.lex", "pyginv/monomial.py:Monom.deglex", "pyginv/monomial.py:Monom.POTlex", "pyginv/monomial.py:Monom.TOPlex", "pyginv/monomial.py:Monom.POTdeglex", "pyginv/monomial.py:Monom.TOPdeglex")
p("C56", "Monomial arithmetic of pyginv",
  "Monom's *, /, **, prolong, divisible, divisibleTrue, lcm, gcd, nonmult, expand, gradus and hash agree with the arithmetic of exponent vectors and positions: the quotient exists exactly for divisors and inverts the product, lcm is a common multiple, nonmult gives the first variable in which the argument is larger, expand lists each variable as often as its exponent, gradus yields each monomial of the degree exactly once, equal monomials have equal hashes.",
  "all numbers of variables, all monomials, all degrees",
  "ranges over all pairs of monomials",
  "pyginv/monomial.py:Monom.__mul__", "pyginv/monomial.py:Monom.__truediv__", "pyginv/monomial.py:Monom.divisible", "pyginv/monomial.py:Monom.lcm", "pyginv/monomial.py:Monom.nonmult", "pyginv/monomial.py:Monom.expand", "pyginv/monomial.py:Monom.gradus", "pyginv/monomial.py:Monom.__hash__")
p("C57", "Polynomial arithmetic of pyginv",
  "Poly's +, -, unary -, *, **, prolong and mult, also with an int as left or right operand, give the polynomial with the corresponding coefficients, with monomials strictly decreasing and no zero coefficient, and never fail an assertion unless both factors contain unknown functions.",
  "all orders, all numbers of variables and functions, all polynomials with integer coefficients, all ints",
  "ranges over all pairs of polynomials",
  "pyginv/polynomial.py:Poly.__add__", "pyginv/polynomial.py:Poly.__sub__", "pyginv/polynomial.py:Poly.__rsub__", "pyginv/polynomial.py:Poly.__mul__", "pyginv/polynomial.py:Poly.__pow__", "pyginv/polynomial.py:Poly.mult", "pyginv/polynomial.py:Poly.prolong")
p("C58", "Reductions, normal forms, primitive parts and S-polynomials of pyginv",
  "reduction removes the chosen monomial by subtracting a multiple of the divisor and does not touch larger monomials other than by a non-zero factor; reduce removes the leading monomial of the argument; pp divides by the content; NFhead and NFtail terminate and give a polynomial congruent to the given one, up to a non-zero factor, whose leading (other) monomials have no reducer; S(p, q) is the difference of the multiples of p and q by which their leading terms cancel.",
  "all orders, all polynomials with integer coefficients, all sets of reducers",
  "termination, and all polynomials",
  "pyginv/polynomial.py:Poly.reduction", "pyginv/polynomial.py:Poly.reduce", "pyginv/polynomial.py:Poly.pp", "pyginv/polynomial.py:Poly.NFhead", "pyginv/polynomial.py:Poly.NFtail", "pyginv/polynomial.py:Poly.S")

p("C59", "Poly objects of pyginv do not influence each other",
  "After any sequence of method calls on Poly objects, a call gives the value determined by the values of its operands, and changes no object other than the one it is documented to change in place (pp, reduction, reduce, NFhead).",
  "all orders, all numbers of variables, all sequences of method calls on any number of objects",
  "ranges over all call histories and all pairs of objects alive at the same time",
  "pyginv/polynomial.py:Poly.__add__", "pyginv/polynomial.py:Poly.__sub__", "pyginv/polynomial.py:Poly.__mul__", "pyginv/polynomial.py:Poly.__pow__", "pyginv/polynomial.py:Poly.pp", "pyginv/polynomial.py:Poly.reduction", "pyginv/polynomial.py:Poly.NFhead")

p("C60", "Janet trees of pyginv",
  "In a Janet tree built by calls of insert with fresh Wraps and of the prolong methods, findWrap returns the unique Janet divisor of a monomial or None if there is none; the flags nonmult are the Janet non-multiplicative variables; inserting removes exactly the elements that the new one Janet-divides and rejects a reducible one; count is the number of elements; the prolong methods create each pending prolongation selected exactly once; degMinProlong is the least degree of an element with a pending prolongation.",
  "all numbers of variables, all monomials, all sequences of calls",
  "ranges over all histories of insertions and prolongations",
  "pyginv/janet.py:Janet.findWrap", "pyginv/janet.py:Janet.insert", "pyginv/janet.py:Janet.degMinProlong", "pyginv/janet.py:Janet.prolongDeg", "pyginv/janet.py:Janet.prolongMonom", "pyginv/janet.py:Janet.prolongAll", "pyginv/janet.py:Wrap")

p("C61", "Hilbert polynomials of pyginv",
  "HP() of a Janet tree is a polynomial whose value at every s not below the degrees of the tree is the number of monomials of degree at most s without Janet divisor; when the leading monomials are a Janet basis of a monomial ideal this is the Hilbert function of the ideal. CombRepet(m+1, d) is the binomial polynomial of degree m in s, += and -= add and subtract.",
  "all Janet trees obtained by insert and prolong calls, all s, all rational arguments",
  "an identity between a polynomial and a counting function for infinitely many s and all trees",
  "pyginv/janet.py:CombRepet", "pyginv/janet.py:HilbertPoly", "pyginv/janet.py:Janet.HP")

p("C62", "Forests of Janet trees of pyginv (systems with several unknown functions)",
  "findWrap of a Forest returns the unique Janet divisor among the elements with the same unknown function; insert removes exactly the elements that the new one Janet-divides and rejects a reducible one or one whose monomial has no or a foreign unknown function; nonmult, count, degMinProlong and the prolong methods are right for the whole system; HP(verge) is the sum of the Hilbert polynomials of the first verge functions.",
  "all numbers of variables and of unknown functions, all sequences of calls",
  "ranges over all histories of insertions and prolongations and all monomials",
  "pyginv/janet.py:Forest")

p("C63", "Janet bases by ginvMin of pyginv",
  "ginvMin(pset, invdiv, level) on a Janet tree or a Forest, also called again on the tree of earlier calls, raises no exception and terminates; afterwards the tree generates the ideal (module) of all the input over the rationals, no leading monomial is a Janet divisor of another term of the basis, coefficients are coprime, and the leading monomial of every element of the ideal has a Janet divisor in the tree, so that NFhead decides ideal membership.",
  "all finite non-empty lists of non-zero integer polynomials in any number of variables and unknown functions, the four orders, both values of level, all sequences of calls",
  "ranges over all polynomial systems and all elements of an infinite ideal",
  "pyginv/ginv.py:ginvMin", "pyginv/ginv.py:Q.reduceAll", "pyginv/ginv.py:Q.push")

p("C64", "Janet bases by ginvBlockLow of pyginv",
  "ginvBlockLow(pset, invdiv) with order TOPdeglex, also after earlier calls on the same tree, raises no exception; every polynomial of the tree lies in the ideal (module) of all the input, find on the tree answers with the Janet divisor, coefficients are coprime and tails are in normal form; no input is left out of the result.",
  "all finite non-empty lists of non-zero integer polynomials in any number of variables and unknown functions, all sequences of calls",
  "ranges over all polynomial systems and all histories of the queue and the tree",
  "pyginv/ginv.py:ginvBlockLow", "pyginv/ginv.py:Q.reduceMinDegree", "pyginv/ginv.py:Q.autoReduce")

p("C65", "Sums and derivatives of linear differential polynomials (PolyDiff of pyginv)",
  "The sum, the negation and the prolongation prolong(v) of valid PolyDiff objects are valid and stand for the sum, the negative and the derivative with respect to the variable v of the linear differential expression, also when the coefficients are functions of the variables; prolongation differentiates the leading derivative and keeps its coefficient; df(u, x, 2, y, ...) is the derivative of u the arguments ask for.",
  "all valid differential polynomials in any number of variables and unknown functions, all coefficient domains with derivations, all values of the unknown functions, the four orders",
  "ranges over all differential polynomials and all functions",
  "pyginv/polynomial.py:PolyDiff.prolong", "pyginv/polynomial.py:PolyDiff.df", "pyginv/polynomial.py:Poly.__add__", "pyginv/polynomial.py:Poly.__neg__")

p("C66", "Normal forms of linear differential polynomials (PolyDiff of pyginv)",
  "NFhead, NFtail and NF of a PolyDiff with respect to a set of differential equations terminate without exception and return a valid polynomial which on all solutions of the equations is a non-zero coefficient (for NF: 1) times the original one; the head (the tail, all terms) of the result has no reducer in the set.",
  "all valid differential polynomials, all sets with a sound search for reducers, all coefficient domains with derivations, all solutions in all spaces of functions, the four orders",
  "ranges over all systems of linear differential equations and all their solutions",
  "pyginv/polynomial.py:PolyDiff.NFhead", "pyginv/polynomial.py:PolyDiff.NFtail", "pyginv/polynomial.py:PolyDiff.NF", "pyginv/polynomial.py:Poly.reduction", "pyginv/polynomial.py:Poly.redRat")

p("C67", "Normal forms through a JanetCache (pyginv)",
  "find of a JanetCache terminates; it answers None exactly for monomials without Janet divisor and otherwise with a polynomial of the ideal of the tree's elements that begins with the monomial asked for and is an element or primitive with irreducible tail; asked again it answers the same and changes nothing; entries of the dictionary stay valid when the tree changes; NFhead and NFtail with a JanetCache terminate and return a normal form modulo the ideal.",
  "all histories of tree changes and calls of find, all monomials and polynomials, any number of variables, the four orders",
  "the dictionary carries polynomials from one call to the next: the property ranges over all histories",
  "pyginv/janet.py:JanetCache.find", "pyginv/polynomial.py:Poly.NFhead", "pyginv/polynomial.py:Poly.NFtail")

p("C68", "Reading symbolic linear differential equations (pyginv)",
  "diff2poly reads every expression built from coefficients, unknown functions and their derivatives that is linear in the unknown functions, and returns a valid polynomial with the value of the expression; products and powers that are not linear are rejected.",
  "all expressions, all coefficient domains, all spaces of functions, any number of variables and unknown functions, the four orders",
  "expressions nest without bound and the meaning quantifies over all functions",
  "pyginv/polynomial.py:PolyDiff.diff2poly", "pyginv/polynomial.py:Poly.__mul__", "pyginv/polynomial.py:Poly.__add__")

p("C69", "Printed objects can be told apart",
  "The text written for a monomial, a polynomial, a Boolean monomial or polynomial, a Hilbert polynomial or an integer determines the object: different values are never written alike (Hilbert polynomials up to zero coefficients; the Python class poly_int shows the leading term and nothing else).",
  "all monomials with at least one variable, polynomials of any length, Boolean polynomials, Hilbert polynomials, integers",
  "two objects with the same text would have to be found among infinitely many",
  "ginv/monom.cpp:operator<<", "ginv/poly_int.cpp:operator<<", "ginv/bmonom.cpp:operator<<", "ginv/bpoly.cpp:operator<<", "util/hilbertpoly.cpp:operator<<", "cython/ginv.pyx:__str__, __repr__")
p("C70", "Texts of monomials and polynomials (pyginv)",
  "The text of a polynomial, read as a Python expression, has the value of the polynomial, and different monomials and polynomials have different texts, in the plain form and in the forms with df, T and .diff.",
  "all names, all monomials and polynomials over them, all values of the names, integer and symbolic coefficients",
  "names, exponents and lengths are unbounded, and ambiguity concerns all pairs of polynomials",
  "pyginv/monomial.py:Monom.__str__, __repr__, df, T, df_sympy, init", "pyginv/polynomial.py:Poly.__str__, PolyDiff.__str__, PolyDiff.df_sympy, PolySchem.__str__")

p("C71", "Arithmetic of polynomials over any coefficients (pyginv)",
  "Sums, differences, products, powers, quotients by coefficients, products with variables and terms, derivatives of the coefficients, reductions, reduce and S of the Python class Poly give valid polynomials with the value the operation has in every module over the coefficients on which the variables act.",
  "all domains of coefficients, all modules over them, all monomial orders, numbers of variables and unknown functions, all valid polynomials",
  "tests evaluate a few polynomials with integer coefficients; the coefficients are arbitrary sympy expressions",
  "pyginv/polynomial.py:Poly.__add__, __sub__, __neg__, __mul__, __truediv__, __rtruediv__, __pow__, prolong, diff, mult, reduction, redRat, reduce, S")
p("C72", "Normal forms over any coefficients (pyginv)",
  "NFhead, NFtail and NF of the Python classes Poly and PolySchem end; wherever the polynomials of the given set are 0, in every module and for all grid functions, the result is a non-zero coefficient times the polynomial (NF: the polynomial itself), and the set has no reducer for the monomials concerned.",
  "all domains of coefficients, orders, search procedures for reducers, valid polynomials, modules and grid functions",
  "termination and equality on all solutions cannot be observed in finitely many runs",
  "pyginv/polynomial.py:Poly.NFhead, NFtail, NF, find")
p("C73", "Difference schemes act on grid functions (pyginv)",
  "T(u, x, 2, y) stands for the grid function u at the point moved by two steps in direction x and one in direction y; sums are pointwise and prolong moves a scheme to the neighbouring point, so that prolongations of a scheme vanish on the solutions of the scheme.",
  "all domains of coefficients, numbers of variables and functions, argument lists of T, schemes, grid functions and points",
  "a law about all grid functions at all points of an infinite grid",
  "pyginv/polynomial.py:PolySchem.T, Poly.prolong, Poly.__add__, PolySchem.__str__")

p("C74", "Wraps remember an ancestor (pyginv)",
  "In every history of a Wrap (made from a polynomial or as a prolongation, marked, reduced and updated, refreshed) its ancestor divides its leading monomial, which is the one of its polynomial; update restarts it exactly when the leading monomial has changed; refresh hands over an ancestor exactly when it is a proper divisor; isGB, crit1, crit2, < and > have their documented meaning, and where the leading monomial of the other Wrap is a divisor, crit1 implies that the product of the ancestors divides the leading monomial and crit2 that their lcm is a proper divisor of it.",
  "all numbers of variables and unknown functions, orders, polynomials and histories of calls",
  "ranges over all histories of prolongations, reductions and refreshes",
  "pyginv/janet.py:Wrap.__init__, update, refresh, isGB, crit1, crit2, __lt__, __gt__")

p("C75", "Monomial objects of the Python module ginv",
  "zero, variable, next, *, **, /, permutation and setPos of the classes monom and const_monom return objects with exactly the documented exponents and position, or raise an exception; len, pos, degree, bool, list, [k], divisiable, lex, deglex, alex show the exponents; the order given to to_monom is the one order() tells. Index and variable number out of range, None as an argument and next before rand_init should raise, and any divisor should be accepted by /.",
  "all ints, all objects made by these calls, in debug and release builds of the library, all drawn random numbers",
  "ranges over all ints and exponents; memory errors need not show in a test run",
  "cython/ginv.pyx:const_monom, monom, poly_int.to_monom, const_poly_int.order", "ginv/monom.cpp:Monom")

p("C76", "Python programs on polynomials, with names, views and object lifetime",
  "A Python program that makes polynomials with to_monom, + - * and unary -, gives them further names, deletes names, calls reduction and pp on them and takes lm() and lc() shows, at every print, what the objects mean: operators make new polynomials, reduction and pp act on the polynomial under all of its names, and leading monomials and coefficients are values that stay what they were.",
  "all programs, of any length, over any number of names, in debug and release builds of the library",
  "ranges over all sequences of calls and all patterns of aliasing; reading freed memory often shows the old value in a test",
  "cython/ginv.pyx:const_poly_int.lm, const_poly_int.lc, poly_int.reduction, poly_int.pp, poly_int.__dealloc__", "ginv/poly_int.cpp:PolyInt::reduction")

p("C77", "The Python class janet_poly_int",
  "A basis built from Python by push and build shows what it holds: push accepts exactly the polynomials of its ring and order, len() is the number of objects the iteration yields, each of them shows the leading monomial and the non-multiplicative variables of an element, find(m) yields the element whose Janet cone contains m, nf(p) is the normal form of p, janet(-1).size() is len(), HilbertPoly() counts the monomials outside, and a later build removes no element.",
  "all sequences of push and build over any polynomial ring, all arguments of the methods",
  "ranges over all histories of the object and over all arguments, including polynomials of other rings, indices that are no variables and elements of the basis itself",
  "cython/ginv.pyx:janet_poly_int.push, janet_poly_int.build, janet_poly_int.__len__, janet_poly_int.__iter__, janet_poly_int.find, janet_poly_int.nf, janet_poly_int.janet, janet_poly_int.HilbertPoly, wrap_poly_int.NM", "ginv/poly_int.h:JanetPolyInt::comparable, JanetPolyInt::nf")

p("C78", "Objects with an allocator of their own: copy, destructor, reallocate()",
  "An object of class GC<T> owns exactly the blocks of its allocator. Its destructor gives all of them back and touches no other object. reallocate() keeps the value and the blocks of all other objects, gives the old allocator back, uses afterwards as few bytes as a fresh copy, and fails only when memory or the limit is exceeded; on an object with less than a third unused it does nothing.",
  "all histories of allocations, deallocations, limits, copies and swaps before the call, all values and sizes of blocks, all page sizes and amounts of memory",
  "ranges over all fragmentations a history can leave behind and over all points at which memory runs out",
  "util/allocator.h:GC, GC::reallocate, GC::swap, AllocatorPtr, Allocator::isGC", "ginv/poly_int.h:GCPolyInt")

p("C79", "The allocator built without its own pages",
  "Built without GINV_UTIL_ALLOCATOR the allocator keeps the same contract: alloc() and size() of an allocator are the bytes of its live objects with 16 more for each, currMemory() is their sum over all allocators, maxMemory() its largest value, setLimitMemory ends the process exactly when the limit is exceeded, every object is one block of malloc that is freed exactly once, and nothing remains when all objects are freed.",
  "all sequences of new, new[], dealloc, destroy, swap, setLimitMemory, creation and destruction of allocators, all types and lengths of arrays",
  "ranges over all histories of several allocators and over all points at which memory or the limit is exhausted",
  "util/allocator.cpp:Allocator::allocate, Allocator::deallocate, Allocator::swap, Allocator::~Allocator", "util/allocator.h:Allocator::dealloc, Allocator::destroy, operator new, operator new[]")

p("C80", "Completion ends",
  "For all input polynomials a call of build(), algorithmTQ() or algorithmTQ1() on a JanetPolyInt returns; a call that did not return would have to add basis elements of unbounded degree.",
  "all histories of pushes and completion calls, all numbers of variables, all polynomials, lex and deglex, both position orders",
  "no finite set of runs shows that a loop ends for every input",
  "ginv/poly_int.cpp:JanetPolyInt::algorithmBlockTQ, JanetPolyInt::algorithmTQ, JanetPolyInt::algorithmTQ1", "ginv/poly_int.h:JanetPolyInt::build")

p("C81", "Shape of a finished basis",
  "Iterating over a JanetPolyInt yields the elements with strictly increasing leading monomials; the coefficients of each element have no common divisor; no monomial of an element but the leading one can be reduced by the basis.",
  "all histories of pushes and completion calls, all numbers of variables, all polynomials, lex and deglex, both position orders",
  "the elements are moved between lists and rewritten many times during a completion; a test sees the result for a few systems only",
  "ginv/poly_int.cpp:JanetPolyInt::algorithmBlockTQ, JanetPolyInt::algorithmTQ, JanetPolyInt::algorithmTQ1", "ginv/poly_int.h:JanetPolyInt::begin")

p("C82", "The normal form is the canonical representative",
  "nf returns the one polynomial, up to the sign, that differs from its argument (up to non-zero factors) by a combination of multiplicative multiples of the basis, has no monomial with a Janet divisor in the basis and no common divisor of its coefficients; so normal forms agree exactly for polynomials of one class, nf of a normal form changes nothing, and for an involutive basis the normal form depends on the ideal only, not on the generators or on the algorithm that completed them.",
  "all histories of pushes and completion calls, all numbers of variables, all polynomials, pairs of objects for one ideal, lex and deglex, both position orders",
  "the reductions that lead to a normal form are chosen by the tree and multiply the polynomial by varying factors; a test compares a few results only",
  "ginv/poly_int.h:JanetPolyInt::nf, PolyInt::nf, PolyInt::nfTail", "ginv/poly_int.cpp:PolyInt::pp, PolyInt::reduction, PolyInt::redTail")

p("C83", "In one variable completion computes the greatest common divisor",
  "For polynomials in one variable build, algorithmTQ and algorithmTQ1 always end, and when nothing is queued the element of least degree of the basis, which begin() visits first, is a greatest common divisor over the rationals of all polynomials pushed and a combination of them; the basis is empty exactly when only 0 was pushed; the basis passes the local test for involutive bases whatever prolongations the criteria skipped, so nf decides membership in the ideal, a constant in the ideal shows in the basis, and normal forms depend on the ideal only.",
  "all histories of pushes and completion calls with polynomials in one variable, lex and deglex, both position orders, all degrees and coefficients",
  "which prolongations are skipped depends on ancestors recorded over the whole history, and polynomials removed from the basis return to the queue; a few inputs cannot show that no skipped prolongation mattered",
  "ginv/poly_int.cpp:JanetPolyInt::algorithmBlockTQ, JanetPolyInt::algorithmTQ, JanetPolyInt::algorithmTQ1", "ginv/poly_int.h:JanetPolyInt::push", "ginv/wrap.cpp:Wrap::update")

p("C84", "Ancestors, isGB and build flags of the elements of a basis",
  "Whatever polynomials were pushed and however often completion was called, for every element of the basis isGB() holds exactly when ansector() is lm(), although only degrees are compared; ansector() divides lm() and is the leading monomial of another or the same element that has isGB(); so the elements with isGB() have the same multiples of leading monomials as the whole basis and are a Groebner basis whenever the basis passes the local test; build(v) implies NM(v). The elements with isGB() need not be minimal, and NM(v) does not imply build(v) when completion has ended.",
  "all histories of pushes and calls of build, algorithmTQ and algorithmTQ1, all numbers of variables, lex and deglex, both position orders",
  "ancestors are handed down from prolongation to prolongation and reset by reductions over the whole history; no finite set of histories covers the ways in which an ancestor could leave the basis or a flag be lost",
  "ginv/wrap.h:Wrap::isGB, Wrap::ansector, Wrap::NM, Wrap::build", "ginv/wrap.cpp:Wrap::update", "ginv/poly_int.cpp:JanetPolyInt::prolong", "cython/ginv.pyx:wrap_poly_int")

p("C85", "Bases of submodules of free modules",
  "Polynomials whose terms have module positions can be pushed into a JanetPolyInt; after completion maxPos() is the largest position pushed and there is a Janet tree for every position up to it; every element of the basis lies in the submodule generated by the pushed elements, and nf(a) is 0 exactly for the elements of the submodule. (The first part holds for all histories. The second fails for both module orders: a unit vector turns the basis into 1, the product criterion is applied to modules, and an element whose leading monomial changed its position only is filed under the old position.)",
  "all histories of pushes of polynomials with any positions and calls of build, algorithmTQ and algorithmTQ1; existence of counterexamples for the refuted part",
  "all histories; the shipped tests use polynomials without positions only",
  "ginv/poly_int.cpp:JanetPolyInt::setPos, JanetPolyInt::setOne, JanetPolyInt::prolong, JanetPolyInt::algorithmBlockTQ", "ginv/wrap.cpp:Wrap::update", "ginv/poly_int.h:JanetPolyInt::maxPos, JanetPolyInt::nf")

p("C86", "Basis elements are neither lost nor used after deletion",
  "Whatever polynomials are pushed and however push, build, algorithmTQ, algorithmTQ1 and finally algorithmTQ2 are mixed, no operation of JanetPolyInt looks at or deletes an element that was deleted before; the elements alive are exactly those reachable from the object, each reachable once; the Janet trees point to elements of the basis only; and the destructor leaves exactly the objects that existed before the JanetPolyInt was made.",
  "all histories, polynomials of any kind (also modules), debug and release builds, any heap at construction",
  "all histories; a dangling pointer or a leak shows in a test only with a memory checker and only on the paths taken",
  "ginv/poly_int.cpp:JanetPolyInt::setOne, JanetPolyInt::prolong, JanetPolyInt::insert, JanetPolyInt::algorithmBlockTQ, JanetPolyInt::algorithmTQ1, JanetPolyInt::algorithmTQ2, JanetPolyInt::algorithmTQ", "ginv/poly_int.h:JanetPolyInt::push, JanetPolyInt::~JanetPolyInt")

p("C87", "Python objects that point into a basis stay usable",
  "The objects that list(b), b.find(m) and b.janet(pos) of a janet_poly_int give can be used as long as they have a name, whatever happens to the basis; an element keeps its leading monomial through further push() and build(). (The code violates the first part: the objects are bare C++ addresses. Exactly when they can be used is proved: elements as long as the basis has a name and isOne() has not changed, trees as long as also maxPos() has not grown.)",
  "all programs of push, build, list, find, janet, del and uses of the objects made, with polynomials of any kind",
  "all programs; a dangling pointer usually still reads plausible values, so that a test passes",
  "cython/ginv.pyx:janet_poly_int.__iter__, janet_poly_int.find, janet_poly_int.janet, janet_poly_int.__dealloc__, wrap_poly_int, const_janet", "ginv/poly_int.cpp:JanetPolyInt::setPos, JanetPolyInt::setOne", "ginv/poly_int.h:JanetPolyInt::~JanetPolyInt, JanetPolyInt::find, JanetPolyInt::janet")

p("C88", "The statistics of a basis account for every polynomial",
  "The counters reduction(), maxEqualLm(), critI(), critII() and isZeroNf() do not influence the computation and never go down. Every polynomial pushed and every prolongation built is in the basis, still waiting, counted by critI()/critII(), or counted by isZeroNf(); and when reduction() is 0, every element of the basis is a monomial times a polynomial that was pushed. (True of algorithmTQ1 for the balance and of algorithmTQ for reduction(); the code violates it otherwise: build() and algorithmTQ never count a polynomial that became zero, build() never sets maxEqualLm(), and build() and algorithmTQ1 do not count the reduction of a leading monomial by an equal one.)",
  "all histories of push, build, algorithmTQ and algorithmTQ1, all polynomials over any number of variables",
  "all histories; published benchmark tables are made from these numbers and nothing else shows when one is off",
  "ginv/poly_int.h:JanetPolyInt::reduction, JanetPolyInt::maxEqualLm, JanetPolyInt::critI, JanetPolyInt::critII, JanetPolyInt::isZeroNf", "ginv/poly_int.cpp:JanetPolyInt::build, JanetPolyInt::algorithmTQ, JanetPolyInt::algorithmTQ1, JanetPolyInt::prolong, JanetPolyInt::tailReduction")

p("C89", "The Hilbert polynomial algorithmTQ2 prints is that of its basis",
  "algorithmTQ2 ends for every input for which its loop ends, and the Hilbert polynomial it prints counts, in every high degree, the monomials that no element of the basis divides involutively. (The code violates both: when only 0 was pushed it dereferences a null pointer after the loop; and it takes the classes from elements that may be outside of the tree, so for x y^2 + x, x y + 1 it prints a polynomial that is negative in every high degree. The count is right whenever all elements are in the tree.)",
  "all lists of polynomials over any number of variables, both build configurations",
  "all inputs; the printed polynomial is not compared with anything",
  "ginv/poly_int.cpp:JanetPolyInt::algorithmTQ2, JanetPolyInt::buildHP", "ginv/janet.h:Wrap::NM")

p("C90", "Timers of the Python interface show the time they are for",
  "In every program: str(J.timer()) shows the user, system and real time of the last completion of J that did anything, and userTime(), sysTime(), realTime() agree with it; GC_timer() shows the sum of all garbage collections; a timer() shows what its own start, cont and stop measured. (The code violates it: the methods of J.timer() answer the time of the garbage collections of the whole program; str(J.timer()) reads freed memory after del J and str(const_timer()) dereferences NULL.)",
  "all programs over the timer classes and any number of bases, every clock",
  "all programs; a wrong but plausible number of seconds cannot be told from a right one",
  "cython/ginv.pyx:timer, const_timer, const_timer_GC, janet_poly_int.timer, allocator.GC_timer", "ginv/poly_int.h:JanetPolyInt::timer", "util/allocator.h:Allocator::timer, GC::reallocate")

p("C91", "Clearing denominators and primitive parts for rational coefficients (pyginv)",
  "For every polynomial of pyginv with rational coefficients: cancel() multiplies it by the least positive integer that makes all coefficients integers; pp() multiplies it by a non-zero number such that the coefficients become integers without common divisor; no assertion fails. (The code violates the second part: pp() of x + 1/2 changes nothing, because it stops at the first coefficient.)",
  "all non-zero polynomials with rational coefficients, all four orderings, any number of variables and unknown functions",
  "all polynomials; the failure needs a fraction after coefficients without common divisor",
  "pyginv/polynomial.py:Poly.cancel, Poly.pp, Poly.assertValid")

p("C92", "Linear systems are solved",
  "After any sequence of pushes of linear polynomials and completions, build, algorithmTQ, algorithmTQ1 and algorithmTQ2 end; they leave a linear system of at most n + 1 equations with the same rational solutions. The system is unsolvable exactly if a non-zero constant is in the basis; otherwise the variables that are not leading monomials can be chosen freely and the choice determines the solution; the solution is unique exactly if the basis has n elements. The basis is involutive, so nf decides membership in the ideal and its result depends on the ideal only.",
  "all histories of pushes and completions with linear polynomials, all numbers of variables and coefficients, both orderings lex and deglex, all four algorithms (algorithmTQ2 as the last call)",
  "all linear systems; in particular no linear system may be found on which a skipped prolongation loses an equation",
  "poly_int.cpp:JanetPolyInt::push, build, algorithmTQ, algorithmTQ1, nf", "poly_int.h:PolyInt::nf")

p("C93", "Systems of monomials",
  "After any sequence of pushes of constants times monomials and completions, build, algorithmTQ and algorithmTQ1 end. The basis consists of constants times monomials that are multiples of monomials pushed and whose exponents are not above those pushed for the same variable, so its size is bounded in advance; it contains all minimal monomials pushed, and a polynomial is in the ideal exactly if each of its monomials is a multiple of one in the basis. nf should give 0 for exactly these polynomials.",
  "all histories of pushes and completions with polynomials of at most one term, all numbers of variables, exponents and coefficients, both orderings lex and deglex, all three algorithms",
  "all sets of monomials; termination and the exponent bound concern every run",
  "poly_int.cpp:JanetPolyInt::push, build, algorithmTQ, algorithmTQ1, nf", "poly_int.h:PolyInt::nf")

p("C94", "Ideals generated by one polynomial: nf decides divisibility",
  "After one non-zero polynomial f was pushed, build, algorithmTQ, algorithmTQ1 and algorithmTQ2 end, and the basis consists of f up to a constant. nf of a polynomial returns, and the result is zero exactly if f divides that polynomial over the rational numbers; two polynomials have the same normal form up to the sign exactly if f divides a combination k a - l b of them with non-zero integers. Whatever was pushed, a finished basis with a single element decides membership in the ideal. Zero polynomials alone leave the basis empty.",
  "all polynomials f, a, b in all numbers of variables, both orderings lex and deglex, build, algorithmTQ and algorithmTQ1 in any sequence, and algorithmTQ2 after them",
  "all polynomials of all degrees; the converse (a non-zero normal form means that no quotient exists) is a statement about all quotients",
  "poly_int.cpp:JanetPolyInt::push, build, algorithmTQ, algorithmTQ1, algorithmTQ2", "poly_int.h:JanetPolyInt::nf", "poly_int.h:PolyInt::nf")

p("C95", "Searching a Janet tree costs no more when the tree grows",
  "Looking up a monomial m in a Janet tree visits at most deg(m) + n nodes and compares at most n stored elements with m, however many elements the tree has; this holds for trees filled by insert and for the trees of a polynomial basis after any history, and for each tree of a GB forest. A tree with k elements has between k and n k nodes, and an insertion adds at most n.",
  "all sets of monomials in all numbers of variables, all monomials looked up, all histories of pushes and completions",
  "a worst-case bound over all trees; a slow case would be a particular shape of tree, not an average one",
  "janet.cpp:Janet::find, Janet::insert, Iterator::build", "gb.cpp:GB::find", "janet.h:Janet::Node")

p("C96", "Completion and normal forms keep the structure of the input",
  "Input that is homogeneous (for the usual degree, for any integer weights of the variables, modulo any number, or for any congruence of monomials) gives a basis of homogeneous polynomials, and the normal form of a homogeneous polynomial is homogeneous of the same degree or 0. Input with at most two terms per polynomial gives a basis with at most two terms per polynomial, and nf never increases the number of terms then. Variables that occur in no input polynomial occur in no basis polynomial. For input x^u - x^v (relations of a commutative semigroup) the normal form of a monomial is up to the sign a monomial equal to it in the semigroup, and for a basis that passes the local test two monomials have the same normal form up to the sign exactly when they are equal in the semigroup.",
  "all input lists, all histories of pushes and completions (build, algorithmTQ, algorithmTQ1), all congruences and weights, all arguments of nf",
  "an invariant of every reduction and prolongation that completion performs, for infinitely many gradings",
  "poly_int.cpp:PolyInt::reduction, PolyInt::redMaybe, PolyInt::nf, PolyInt::nfTail, PolyInt::pp", "poly_int.h:JanetPolyInt::build, algorithmTQ, algorithmTQ1, nf", "wrap.h:Wrap")

p("C97", "The result does not depend on how the system is written",
  "Changing the sign of any of the equations, or replacing any of the variables by their negatives in all equations, changes the basis, isOne(), find() and nf() only by the same signs, and the program ends in the same way. The order in which equations are pushed, equations 0 = 0 among them, and constant factors of equations do not change isOne().",
  "all programs of pushes and completions (build, algorithmTQ, algorithmTQ1, and algorithmTQ2 as the last call), all sets of variables, all permutations of the pushes, all non-zero factors",
  "pairs of executions, for all inputs and all ways of writing them; the order of equal leading monomials and the number of 64-bit limbs decide which element is taken",
  "poly_int.h:JanetPolyInt::push, build, algorithmTQ, algorithmTQ1, isOne, nf", "poly_int.cpp:JanetPolyInt::insert, PolyInt::norm, PolyInt::reduction, PolyInt::pp")

p("C98", "The check of a tree in debug builds detects every damaged tree",
  "assertValid(), which debug builds call after every operation on an RBTree, returns on every tree in memory and is true exactly for red-black trees with their keys in increasing order and the right length().",
  "all trees in memory, whatever their keys, colours and counts; all key types and comparison functions",
  "the check is only ever run on trees that the class built itself; damaged trees come from elsewhere (a comparison that is no order, a stray write)",
  "util/rbtree.h:RBTree::assertValid, RBTree::countBlack, RBTree::next")

p("C99", "The LaTeX texts of monomials show the monomials",
  "Read by TeX, latex() of a monomial shows the function and the powers of the variables with their exponents, df_latex() the function with the variables of the derivative as subscript, T_latex() the function with the shifted variables as subscript; different monomials are shown differently.",
  "all names that are Python identifiers; all monomials, with any exponents and any function",
  "the texts are never read back by the package, and what TeX makes of them depends on the number of digits of an exponent and on the characters in a name",
  "pyginv/monomial.py:Monom.latex, Monom.df_latex, Monom.T_latex")

p("C100", "Pictures show the trees",
  "The graph that draw() of a Janet tree, of a Groebner basis and of an RBTree, and saveImage() of pyginv hand to graphviz has exactly one node for every node of the tree, with its text, shape and colour, and exactly the arrows of the tree, besides the caption.",
  "all trees and forests with distinct addresses, all contents of the wraps, all sets of keys with distinct texts, any number of pictures drawn before, all levels of detail",
  "graphviz merges nodes of equal names and arrows with equal ends without a word, and names are built from addresses, texts of keys, a running number and what is left in a stream",
  "ginv/janet.cpp:Janet::draw", "ginv/janet.h:Janet::draw", "ginv/gb.h:GB::draw", "util/rbtree.h:RBTree::draw, drawLeaf", "pyginv/janet.py:Janet.saveImage")

p("C101", "Pointers to the terms of a polynomial that is changed in place",
  "A pair obtained by iterating over a polynomial (in C++: a pointer to a term) shows its monomial with the coefficient it has now, as long as all values the polynomial has taken since keep a term with this monomial; iterating yields the terms each once and in order; pairs survive their polynomial no longer than it is there.",
  "all polynomials, all sequences of in-place operations with permitted operands, all interleavings of generators, pairs, reductions, pp, nf and del in Python",
  "whether a pointer dangles depends on the whole history of the polynomial, and reading freed memory mostly gives what was there before",
  "ginv/poly_int.cpp:PolyInt::add, PolyInt::sub, PolyInt::red, PolyInt::mult, PolyInt::reduction, PolyInt::redMaybe, PolyInt::pp", "util/list.h:List::Iterator", "cython/ginv.pyx:const_poly_int.__iter__, poly_int.reduction, pp, nf")

p("C102", "The queue of the Python package hands out the smallest polynomials first",
  "heapq keeps a heap and sorts; at every moment of ginvMin and ginvBlockLow the first entry of the queue has the smallest leading monomial (then the smallest number); what ginvMin takes from the queue precedes all that is left; what ginvBlockLow takes is a block of one degree, with nothing of a smaller degree left, and autoReduce makes a non-empty block of at most this degree of it.",
  "all lists and weak orders for heapq; all sequences of calls of ginvMin and ginvBlockLow, all canonical inputs, all four orders of monomials (ginvBlockLow: TOPdeglex), all rounds of the calls",
  "the heap is changed by pushes, pops and by rewriting its entries in place before heapify; whether its invariant holds at each use depends on the history, and a wrong first entry still gives a basis, only more slowly",
  "pyginv/ginv.py:Q.push, Q.pop, Q.reduceAll, Q.reduceMinDegree, Q.autoReduce, ginvMin, ginvBlockLow", "pyginv/janet.py:Wrap.__lt__, Wrap.__gt__")

p("C103", "One variable: the greatest common divisor after algorithmTQ2",
  "For polynomials in one variable the basis algorithmTQ2 leaves has the same greatest common divisors as the polynomials pushed, is empty exactly when only 0 was pushed, and its first element, of least degree, is a greatest common divisor of them.",
  "all histories of pushes and completions in one variable followed by algorithmTQ2, lex and deglex, both position orders, all degrees and coefficients",
  "algorithmTQ2 deletes its tree when the degree of the queue drops, so what is left depends on the order in which degrees appear in the queue; small inputs rarely reach that branch",
  "ginv/poly_int.cpp:JanetPolyInt::algorithmTQ2", "ginv/poly_int.h:JanetPolyInt::push")

p("C104", "A debug build that finishes gives the result of a release build",
  "Whenever an operation ends without a failed assertion in a build with assertions, the same call in a build without assertions ends with the same result: pushes, the four completion algorithms, normal forms, polynomial and monomial arithmetic, Janet trees, forests, monomial completions, Hilbert polynomials, Boolean polynomials, and programs over red-black trees and lists.",
  "all arguments and all states of the objects, valid or not; all programs over trees and lists",
  "assertions call searches and normal-form tests in the middle of updates; agreement of two builds has to hold on every path of every run",
  "ginv/poly_int.cpp:JanetPolyInt::assertT", "ginv/poly_int.cpp:JanetPolyInt::algorithmBlockTQ", "ginv/janet.cpp:Janet::insert", "util/rbtree.h:RBTree::assertValid", "ginv/monom.cpp:Monom::assertValid")

p("C105", "Walking through the elements of a Janet tree (pyginv)",
  "Iterating over a Janet or Forest raises no exception and yields every element once, from left to right; GB() yields exactly those that are not prolongations of another one, and their leading monomials divide all others if the ancestors are multiples of elements; setNonmut(m) marks in every element the first variable in which it is below m.",
  "all trees and forests obtained by insertions and prolongations, any number of variables and unknown functions, all monomials m",
  "the nested lists have lists and elements side by side; a misplaced one ends a generator with an exception, for some tree shapes only",
  "pyginv/janet.py:Janet.__iter__", "pyginv/janet.py:Janet.GB", "pyginv/janet.py:Forest.GB", "pyginv/janet.py:Janet.setNonmut", "pyginv/monomial.py:Monom.nonmult")

p("C106", "norm() of a polynomial is the size of its coefficients",
  "p.norm() answers the total number of 64-bit words of the coefficients of p, at least the number of terms and equal to it if and only if every coefficient fits in one word; it does not depend on signs, does not grow by pp(), and for a sum or difference is at most the sum of the norms. Of the elements with equal leading monomial the completion algorithms keep one of least norm and reduce the others by it.",
  "all polynomials, in particular coefficients of any size and any number of terms",
  "the sum is an int: it takes coefficients of gigabytes, or billions of terms, to see it overflow",
  "ginv/poly_int.cpp:PolyInt::norm", "util/integer.h:Integer::norm", "cython/ginv.pyx:poly_int.norm")

out = os.path.join(os.path.dirname(os.path.abspath(__file__)), "..", "properties.jsonl")
with open(out, "w") as f:
    for x in P:
        f.write(json.dumps(x) + "\n")
print(len(P), "properties")
