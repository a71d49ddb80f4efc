# Formal model of blinkovua/GInv in Coq 8.16.1

## Layout

* `rocq/theories/*Model.v` – executable Gallina models; every definition cites file and lines of
  /repo and states its simplifications.  No proofs.
* `rocq/theories/*Spec.v` – small specifications that do not mention model helpers.
* `rocq/theories/*Proofs.v`, `*Top.v`, `*Examples.v` – lemmas.
* `rocq/theories/Prop_*.v` – only property theorems (`exact lemma`), each followed by
  `Print Assumptions`, and beside them an `Example` instantiating the hypotheses.
* `properties.jsonl` (from `tools/props.py`), `MANIFEST.json` (from `tools/manifest.py` and
  `tools/notes.json`), `seeded/LOG.jsonl` (mutation experiments).

Undefined behaviour, failed `assert`s and process exit are distinct outcomes
(`Outcome.v`: `Ok | AssertFail | Undef | Exit | OutOfFuel`), never default values.  The flag `dbg`
says whether asserts are compiled in (the repository's Release configuration defines NDEBUG).
Loops whose termination is not structural take fuel; `OutOfFuel` is either proved unreachable for
enough fuel (C16, C17, C23, C24, C26, C40, C50 ...) or stated in the theorem (C39_calls_are_safe).

Naming: `Cxx_name` holds for the code as it is; `_partial` covers only a part of the property and
says what is missing; `_refuted` exhibits a case in which the code violates the property.

## Properties: what is modelled and how it is proved

| id | what is modelled | how it is proved |
|----|------------------|------------------|
| C01 | `Monom::lex/deglex/alex` loops over exponent lists | induction on vectors |
| C02 | same | well-foundedness by lexicographic induction on the number of variables; deglex by degree, finitely many vectors per degree |
| C03 | `alex` | multiplicativity proved; minimality / well-foundedness refuted by the chain x^n |
| C04 | the 12 comparison functions of poly.cpp and `setOrder` | case analysis over C01/C02 |
| C05 | 3-argument loops | induction; refuted where the position of the second factor is ignored |
| C06 | divisiable/div/mult/gcd/lcm | induction on vectors |
| C07 | class-level `cmonom` with 32-bit checks, asserts and stored degree | refinement to the abstract monomial |
| C08 | Fisher–Yates with the generator as an arbitrary stream | invariant `Permutation`; reachability by induction |
| C09–C13 | PolyInt term-list operations; add/sub also on a heap of terms | merge inductions, coefficient semantics; aliasing p.sub(p) refuted on the heap |
| C14–C17 | reduction, redTail, redMaybe, pp, nf, nfTail for an arbitrary reducer lookup | coefficient semantics, multiset-style well-founded induction |
| C18–C21 | Janet tree as nested degree chains, wraps by value in the nodes | tree invariant = Janet's definition; copy refuted |
| C22–C24, C44 | MCompletion / MJanet sets and build loops with fuel | box argument for termination; maximal-divisor argument for completeness; duplicates refuted |
| C25–C26, C51 | HilbertPoly coefficient arrays over Q; Janet::buildHP | polynomial identities over Q; counting disjoint cones |
| C27–C28 | Allocator state machine (built with GINV_UTIL_ALLOCATOR) | invariant over all histories |
| C29–C30 | List (heap of nodes, iterators as link addresses) and Stack | refinement to sequences |
| C31–C33 | RBTree on a heap of nodes with parent pointers | heap represents a tree; BST and red-black invariants; refinement to finite sets/maps |
| C34–C35 | limb counts over Z, string buffer | bounds on sums/products/quotients of 2^64 powers |
| C36 | Timer state machine with an arbitrary clock | refinement to a sum of intervals |
| C37–C38, C50 | BMonom / BPoly lists, nf and nfTail | evaluation over GF(2); well-founded induction |
| C39–C40, C46–C49 | JanetPolyInt: push, build = algorithmBlockTQ, find, nf | invariant over all histories: the stored polynomials generate, over Q, the ideal of the pushed ones; tree and list agree. Completeness (C46, C47) and debug asserts (C49) refuted by computed runs; completeness proved for bases that pass the local test (InvolutiveProofs.v: representations by involutive multiples, double well-founded induction); algorithmTQ2 by the same theorems on the object formed by its tree (TQ2Mult.v, TQ2Inv.v) |
| C52 | JanetPolyInt::buildHP | disjoint cones as for C26; the local test identifies the standard monomials of the ideal |
| C53, C54 | JanetPolyInt::algorithmTQ, algorithmTQ1, algorithmTQ2 | the invariant of C39 for their loops; multiples by uniqueness of Janet divisors; TQ2 refuted by computed runs; for the elements in its tree proved by passing to the object made of them (TQ2Mult.v, also nf of C40) |
| C41 | reduction of module elements | one-component case proved, the rest refuted |
| C42 | term allocation balance | counts; refuted for mult by one term |
| C43 | GB forest | invariant over inserts |
| C45 | operators of the Python class poly_int | over C10–C13; `p - int` refuted |
| C55, C56 | pyginv Monom | the orders transported to those of C01–C04 by renumbering positions; exponent vectors |
| C57, C58 | pyginv Poly (values), integer coefficients | as C09–C15, over any of the four orders; `int - p` and S of module elements refuted |
| C59 | pyginv Poly objects: cells [monom, coefficient] on a heap, objects as lists of addresses | each in-place loop writes only cells of its object and new ones; refutation by a computed run and evaluation at x = 1 |
| C60 | pyginv Wrap and Janet: nested lists as a tree type, Wraps as records replaced in place | invariant of the nested lists (length = largest exponent + 1, flags = not the last branch), induction over the depth; Janet division from JanetSpec.v |
| C61 | pyginv CombRepet, HilbertPoly, Janet.HP over Q | value of the coefficient list = binomial polynomial; disjoint cones counted as in C51 |
| C62 | pyginv Forest: list of the trees of C60, Python's negative indices | tree i holds the elements of function i; everything per component by C60, C61; refutation for monomials without function |
| C63 | pyginv ginvMin and class Q: heapq as list operations, the tree of C60/C62, the polynomials of C57 | invariants of the rounds (what was removed is covered by the queue or pending prolongations), involutive criterion; partial where criteria fired, refutations by computed runs |
| C64 | pyginv ginvBlockLow, reduceMinDegree, autoReduce | invariants of the rounds; refutations by computed runs |
| C65 | pyginv PolyDiff: terms with coefficients in any differential ring; __add__, __neg__, prolong, df | values in every space of functions with commuting derivatives; merge induction, derivative of each term |
| C66 | pyginv PolyDiff NFhead, NFtail, NF with reduction and redRat | the reducer differentiated to the derivative; descent along the order; values on solutions |
| C67 | pyginv JanetCache.find, NFhead and NFtail with it; the dictionary as a list of pairs | invariant of the dictionary over histories; well-founded induction on the monomial for the nested calls |
| C68 | pyginv PolyDiff.diff2poly and __mul__ for any coefficients; sympy expressions as a tree type | structural induction; values in every space of functions |
| C69 | the strings written by operator<< and by __str__/__repr__ of ginv.pyx | each text can be read back from the front: unique decomposition of strings |
| C70 | the strings of pyginv: Monom and Poly, PolyDiff, PolySchem; names as strings | derivations in a small grammar of Python expressions with values; unique decomposition; refutations by computed texts |
| C71 | Poly of pyginv over an abstract record of coefficients; values in arbitrary modules on which the variables act | sorted association lists; every operation adds multiples of shifted polynomials; c/p refuted by computation |
| C72 | NFhead, NFtail, NF with an abstract search for reducers | well-founded induction on multisets of monomials; the invariant is a linear combination, read in modules and pointwise on grids |
| C73 | PolySchem: T and the values of schemes at grid points | the same linear combinations pointwise; refutations: factorials, T(u, x) - 1 |
| C74 | Wrap of pyginv as a record; histories as an inductive predicate | invariant of the histories: ancestor divides lm, lm leads the polynomial, lengths of the marks |
| C75 | classes const_monom and monom of cython/ginv.pyx on top of the C++ object model; Python exceptions and conversion of ints as explicit results | refinement lemmas of C07, conversions and asserts by cases |
| C76 | heap of Python objects of ginv.pyx: polynomials owned, lm()/lc() as bare addresses, freeing at the last name; programs as lists of commands | simulation of an ideal world of values, with a static check of the program as third component |
| C77 | classes janet_poly_int and wrap_poly_int of ginv.pyx on top of the JanetPolyInt model; Python asserts as exceptions | invariant of C39 for all sessions; keys of mT along the merge loops |
| C78 | AllocatorPtr and GC<T> of allocator.h on top of the allocator model; T is given by the sizes of the blocks of a copy | the invariant of C27/C28 at every allocate and deallocate of copy and destructor; the blocks of an allocator as a permutation |
| C79 | Allocator of the other configuration (malloc/free with counters), typed dealloc/destroy and operators new | invariant over all histories: counters as sums over the live objects, heap as a permutation of their blocks |
| C80 | main loops of build, algorithmTQ, algorithmTQ1, cut into rounds | each round ends; rounds that add nothing decrease the multiset of leading monomials in the queue; sets without Janet divisors: well-founded for n <= 2, finite below any degree |
| C81 | rounds of build, algorithmTQ, algorithmTQ1 (C80) | invariants of the list of elements over merge and walk (order, content, tails), induction over the rounds and the history; witnesses for the parts that fail |
| C82 | nf, nfTail, pp of C40 with the Janet search | induction over the reductions: each subtracts a multiplicative multiple; combinations of such multiples have a leading monomial with a Janet divisor, so irreducible representatives agree up to a factor; after algorithmTQ2 the polynomials in the tree form such an object (TQ2Normal.v) |
| C83 | the completion loops of C39 and C53 in one variable | invariant over all histories: in every degree filtration of the rational polynomials that contains basis and queue, each prolongation marked as done lies one degree above its element; an ancestor is shared only by consecutive degrees; at the end the filtration by the span of the basis gives the local test, C80 gives termination, division by the first element gives the gcd |
| C84 | the Wrap parts (lm, ancestor, flags) through the loops of C39 and C53, and wrap_poly_int of C77 | structural induction over every function that moves a Wrap, for any outcome that is Ok: wraps in the lists come from wraps, a tree only gains wraps and NM flags; the count kept by the tree and the distinctness of the leading monomials at the end (C39) exclude lost wraps on the way |
| C85 | the model of C39 and C53 with positions (trees per position, setPos, setOne, prolong, update) | the number of trees and the largest position through all loops; counterexamples run in the model, non-membership by a linear functional that vanishes on the submodule |
| C86 | the loops of C39 and C53 again, with an address for every WrapPolyInt, a heap, and Undef for every look at a dead object and every second delete | both programs step together (simulation); the addresses are counted, so that what is alive is what the lists own |
| C87 | programs over a janet_poly_int with views (bare addresses), on top of the heap model of C86; mJanet gets an identity | elements of mT stay in mT with their leading monomials, addresses grow, the array changes with mPos; invariants of one view through all statements |
| C88 | build, algorithmTQ, algorithmTQ1 and algorithmTQ2 once more, carrying the five counters | erasure of the counters gives the models of C51–C64; each loop preserves a balance between elements, waiting list, built marks and counters; multiples of pushed polynomials stay such as long as no reduction is counted |
| C89 | the end of algorithmTQ2: buildHP over the elements of its list | failure exactly for an empty list; with all elements in the tree the classes are those of the tree, so the theorem on Hilbert polynomials of Janet trees applies; witnesses by computation |
| C90 | the timer classes of ginv.pyx, mTimer of each basis and the timer of the allocator, with an arbitrary clock | the state after any program is a function of its commands (induction on programs); witnesses by computation |
| C91 | Poly.cancel and Poly.pp of pyginv for rational coefficients (Qc), with the checks of assertValid | contents of lists of rational numbers as greatest common divisors up to integers; induction over the loop; witness by computation |
| C92 | the completion model (C39) on polynomials of degree at most 1 | degree at most 1 is an invariant of every step, hence termination by C80; all prolongations are sums of multiplicative ones by downward induction over the variables (products of two elements in either order), hence C46, C47, C82; back substitution over Q; for algorithmTQ2 the same invariant without detached elements, the queue gets shorter in each round (LinTQ2.v) |
| C93 | the completion model (C39) on polynomials with at most one term | one term, a multiple of a pushed monomial with bounded exponents, is an invariant of every step (a prolongation by x_i needs an element with a higher exponent of x_i), hence termination by C80; ideals of monomials; witnesses for the incompleteness of nf by evaluation; for algorithmTQ2 the monomials are a closed class in the sense of C96 (MonoTQ2.v), and counting the detached elements gives the size |
| C94 | the completion model (C39) on one polynomial | the first round of each algorithm enters that polynomial, up to a constant, and leaves nothing waiting; the local test of C46 holds for want of non-multiplicative variables, so C46 and C82 apply; members of the ideal of one polynomial are its multiples |
| C95 | Janet::find and GB::find with counters (JanetCostModel.v), proved equal to the model of C19/C43 in their results | within a variable the degrees of the nodes increase, so at most m[v] + 1 nodes of variable v are visited; every node holds an element or leads to one in later variables |
| C96 | the models of C37-C40 (PolyModel.v, JanetPolyModel.v, TQModel.v) | a predicate kept by elimination, factors and prolongation is an invariant of the table and the queue through every round (ClosedProofs.v, ClosedMain.v); congruences, term counts and sets of variables are such predicates (ClosedTop.v); the same invariant through the rounds of algorithmTQ2 (ClosedTQ2.v) |
| C97 | the models of C37-C40 | simulation: the two runs stay related term by term through every function of the completion (SignProofs.v, SignMain.v); insertions of different leading monomials into the queue commute (SignTop.v); witnesses by computation |
| C98 | assertValid of RBModel.v (as in C31), on any tree in memory | the loop accepts exactly when each node is accepted; induction over the tree with the number of black nodes above it (RBCheckProofs.v); witnesses by computation |
| C99 | Monom.latex, df_latex, T_latex (TexModel.v); what TeX reads as an executable reader for braces, ^, _ and control symbols (TexSpec.v) | reading is compositional (TexProofs.v); texts are decoded symbol by symbol for injectivity (TexTop.v, TexTop2.v); witnesses by computation |
| C100 | the calls of graphviz on a list of named nodes and edges (DrawModel.v); Janet::draw, GB::draw (JanetDrawModel.v), RBTree::draw (RBDrawModel.v), saveImage (PyDrawModel.v) | calls with new names only append (DrawProofs.v `run`); names are decoded: address after the last >, running numbers, decimal texts (DrawProofs.v, RBDrawProofs.v, PyDrawProofs.v); witness by computation |
| C101 | in-place operations of PolyInt on terms with addresses (CellModel.v), generators and pairs of the Python binding (CellPyModel.v) | each operation keeps the address of every monomial it keeps and computes what PolyModel.v computes (CellProofs.v, CellEditProofs.v); sessions by simulation with the specification (CellTop.v); witnesses by computation |
| C102 | heapq and class Q of pyginv/ginv.py (PyQueueModel.v, PyGinvModel.v) | sift loops keep a heap except at one place, for any weak order (PyHeapqProofs.v); the heap is an invariant of all states of a call (PyHeapqQueue.v, PyHeapqTop.v); degrees of blocks by an invariant of the loop of reduceMinDegree; witness by computation |
| C103 | algorithmTQ2 (TQModel.v) in one variable | equality of ideals (C53) gives the common divisors of the basis; with the local test division by the element of least degree as for C83; witness by computation, refuted by evaluating at 0 |
| C104 | every definition with a flag dbg in the models of polynomials, Janet trees, completions, forests, monomials, Boolean polynomials, red-black trees, lists, stacks, integers and allocators | simulation: the debug outcome, if it is a value, is the release outcome; one lemma per definition, asserted code is skipped (DebugProofs.v) |
| C105 | traversal of `__iter__` and `GB`, `Forest.GB`, `setNonmut` of pyginv with the exceptions misplaced entries raise (PyWalkModel.v) | structural induction over the nested lists from the tree invariant of C60; `setNonmut` is refuted by two trees |
| C106 | `PolyInt::norm` with overflow of the int sum (SizeModel.v) against a specification by powers of 2 (SizeSpec.v) | induction over the terms; the overflow witness is kept symbolic |

## Trusted base

* Coq 8.16.1: kernel (including the virtual machine used by `vm_compute`) and `coqc`.
* Axioms: none.  `Print Assumptions` under every property theorem answers
  "Closed under the global context".  Only the standard library is imported.
* Faithfulness of the hand-written model to the cited lines.  There is no extraction and no
  mechanical link to the C++ source.
* Contracts taken from outside the repository: GMP (exact results, limb counts, mpq values),
  `std::mersenne_twister`/`uniform_int_distribution` (in-range draws), `getrusage`/`clock`
  (arbitrary readings), the C++ allocation functions (fresh disjoint blocks), Python's `hex` with
  `mpz_set_str` (the standard library's `HexString`), Python's call conventions for operators, sympy's arithmetic
  of coefficients (a commutative ring without zero divisors, exact test for zero, quotients by gcd,
  derivations; the hypotheses `good_coefs` and `good_quo` of C65, C66, C71-C73), graphviz's agnode/agedge
  (find by name or make, DrawModel.v).

## What is modelled and what is not

Modelled: util/{allocator, hilbertpoly, integer, list, randpermutation, rbtree, stack, timer};
ginv/{monom, poly, wrap, janet, mcompletion, gb, poly_int, bmonom, bpoly} apart from the list below;
the classes const_monom and monom, the arithmetic operators of poly_int, janet_poly_int and wrap_poly_int of cython/ginv.pyx; pyginv/{monomial, polynomial, janet, ginv} (classes Monom, Poly,
Wrap, Janet, JanetCache, CombRepet, HilbertPoly, Forest, Q, PolyDiff and PolySchem, functions ginvMin and ginvBlockLow).

Not modelled:

* layout and rendering of pictures (graphviz), debug traces to `std::cerr`;
* where the loops of algorithmTQ2 call `reallocate` (the call itself is C78);
* overflow of `int` in `PolyInt::norm` where the completion algorithms call it (C106 has the call itself), in BMonom degrees and in `HilbertPoly` indices;
  exponents and degrees do have 32-bit checks in the class-level monomial model (C07);
* in pyginv: Poly.pp and Poly.cancel for symbolic coefficients.

## Defects of the code found while modelling

Proved as `_refuted` theorems: C03 (alex is not a well-order), C05 (position of the second factor),
C08 (permutation onto itself; list(p) of a Python permutation always raises AssertionError), C09/C13 (constants), C10 (p.sub(p) reads a freed node), C12 (p^0 = 0),
C20 (copying a Janet tree loses elements), C27 (huge request), C33 (assigning an empty RBTree),
C34 (debug assert on zero results, 0/0 passes the assertion), C36 (stop twice), C39/C41 (modules), C42 (leak in mult),
C43/C49 (debug asserts), C44 (duplicates), C45 (p - int), C46 (basis not complete, also for homogeneous systems),
C47 (isOne not complete), C51 (index dim+1), C52 (buildHP of an incomplete basis; of a submodule), C54 (algorithmTQ2 leaves elements outside its tree), C103 (algorithmTQ2 loses a greatest common divisor), C106 (norm() overflows),
C56/C58 (pyginv: lcm drops the unknown function, so S fails), C57 (pyginv: int - p), C59 (pyginv: sums share terms with the left operand),
C62 (pyginv: a Forest accepts an element without unknown function), C63 (pyginv: ginvMin with the default level never prolongs;
incomplete for TOPlex; loses equations of systems with several unknown functions), C64 (pyginv: ginvBlockLow stops at elements of degree 0),
C66 (pyginv: PolyDiff.NFhead by a constant raises IndexError), C67 (pyginv: JanetCache fails with several unknown
functions and is wrong for differential polynomials), C68 (pyginv: diff2poly takes powers of unknown functions as coefficients),
C70 (pyginv: symbolic coefficients printed without parentheses; a function may have the name of a variable),
C71 (pyginv: c/p returns p/c), C73 (pyginv: prolong of a difference scheme does not shift variable coefficients and multiplies
the constant term with the variable), C75 (ginv.pyx: a negative index, next() before rand_init or a degree overflow is undefined
behaviour instead of an exception), C76 (ginv.pyx: lm() and lc() are bare addresses; (p*q).lm() reads freed memory, == compares
identity), C77 (ginv.pyx: nf of an element of the basis changes the basis; len() is 1 and the iteration empty for isOne()),
C78 (an object may still be due for garbage collection directly after reallocate()), C79 (with the plain allocator,
destroy(ptr, n) frees an address inside the block), C84 (elements with isGB() are not minimal), C85 (JanetPolyInt is wrong for
modules: unit vectors, product criterion, Wrap::update without position), C87 (ginv.pyx: basis elements and trees are bare
addresses that dangle after del, after the basis has become 1, or after a larger module position), C88 (build() and algorithmTQ never count vanishing polynomials, build() never sets
maxEqualLm(), build() and algorithmTQ1 miss reductions between equal leading monomials), C89 (algorithmTQ2 dereferences null for an empty
basis and can print a negative Hilbert polynomial), C90 (ginv.pyx: userTime, sysTime, realTime of J.timer() are those of the allocator,
its text reads freed memory after del J), C91 (pyginv: pp() leaves fractions that follow
coefficients without common divisor), C93 (monomials of a monomial ideal with non-zero normal forms),
C97 (isOne() depends on the order of the equations and on constant factors),
C98 (RBTree::assertValid accepts unordered trees and wrong counts),
C99 (latex() raises only the first digit of an exponent and runs function names into variables),
C100 (RBTree::draw merges a key with the text nullptr1 and a missing child),
C101 (a Python loop over p that reduces p reads freed memory or misses terms; the pairs of list(q*r) dangle; p.sub(p) reads a freed term),
C102 (reduceMinDegree of pyginv does not note the degree of a first irreducible polynomial and returns it alone).

Seen, not stated as theorems: RBTree's move constructor does not compile if instantiated
(`a.allocator`); bpoly.cpp does not compile and is not in CMakeLists.txt; BPoly::ConstIterator's
`==`/`!=` have no return statement; the deglex loop and BMonom::compare form a pointer before the
array; `Monom::lcm` asserts for two module monomials; mpq operands that are not canonical in
`HilbertPoly::binomial`; in ginv.pyx `janet_poly_int.nf` ignores the result of `comparable()` and casts away const
(so nf of a basis element changes the basis).
In pyginv `Janet.setNonmut` passes the wrong variable (`setnm(n)` instead of the last branch): C105; it is not called.
