{"id": "C01", "title": "Prefix agreement is decided exactly", "statement": "agree(a0, a1, ...) answers true exactly when, on every axis of the highest-rank argument, at least one of the arguments that has that axis has a finite length there and all the finite lengths there are equal (unbounded lengths match anything, missing trailing axes match anything). This also holds when the arguments are themselves nested expressions, judged by the lengths of the arrays at their leaves.", "quantifier": "every finite tuple of arguments, every rank and shape (including 0 and unbounded lengths), every nesting of map/pick/reframe expressions", "why_tests_cant": "the space of shapes, ranks and expression nestings is infinite, and a false 'agree' is an out of bounds read that may go unnoticed in a test", "anchors": ["ra/expr.hh: agree, Match::check, Match::len, colen, corank"]}
{"id": "C02", "title": "Element law for expressions (rank extension)", "statement": "Reading an expression at a full index j inside its shape yields the operation applied to each argument read at the leading part of j that the argument has axes for; the read never fails its bounds checks once the shapes agree. Scalars are used as they are.", "quantifier": "every expression tree, every agreeing set of shapes, every index inside the common shape", "why_tests_cant": "the rule has to hold for every combination of ranks and shapes; tests fix a handful", "anchors": ["ra/expr.hh: Map::at, Cell::at, indexer, Reframe::at, Scalar::at"]}
{"id": "C03", "title": "Static-rank traversal visits every element once in row-major order", "statement": "Evaluating an expression of static size (for_each, assignment, ...) runs the operation exactly once for each index of the common shape, in row-major order, on exactly the elements that reading the expression at that index gives, and its final effect is the sequential composition of those steps.", "quantifier": "every agreeing expression of any rank and shape, every (effectful) operation, every initial state of memory", "why_tests_cant": "the loop nest depends on rank, shape and steps of every leaf; only an induction covers all of them", "anchors": ["ra/ply.hh: ply_fixed, subply, for_each"]}
{"id": "C04", "title": "Dynamic-rank traversal visits every element once in row-major order, from a fresh traversal state", "statement": "Evaluating an expression of dynamic size runs the operation exactly once per index of the common shape in row-major order, whichever axes are merged into a single inner loop because the steps of all the leaves allow it; and a traversal that runs to completion leaves the per-thread traversal state as it found it.", "quantifier": "every agreeing expression of any rank and shape, any steps (zero, negative, overlapping), any effectful operation", "why_tests_cant": "axis merging depends on arithmetic relations between the steps and lengths of every leaf; tests sample only a few layouts", "anchors": ["ra/ply.hh: ply_ravel", "ra/expr.hh: Cell::keep, Reframe::keep, Match::keep"]}
{"id": "C05", "title": "Both traversal strategies are observationally equal", "statement": "Whether the size of an expression is known at compile time or not does not change the effect of evaluating it: the two traversal strategies perform the same operations on the same elements in the same order and return the same early-exit value.", "quantifier": "every agreeing expression, every effectful operation, with or without early exit, from a fresh traversal state", "why_tests_cant": "needs equality over all shapes and layouts, not on samples", "anchors": ["ra/ply.hh: ply, ply_ravel, ply_fixed"]}
{"id": "C06", "title": "Early exit returns the first hit and evaluates nothing after it", "statement": "early(e, def) returns the value of the first element in row-major order that is engaged, or def if there is none, and the elements after the hit are not evaluated.", "quantifier": "every expression with optional values, any shape, any position of the hit", "why_tests_cant": "position of the hit, shape and layout are unbounded", "anchors": ["ra/ply.hh: early, ply_ravel, ply_fixed, subply"]}
{"id": "C07", "title": "Traversals do not depend on earlier traversals", "statement": "The result of evaluating an expression depends only on the expression and on the data, not on which expressions of the same type were evaluated before on the same thread, even if those stopped early or threw.", "quantifier": "every history of traversals of one expression type on one thread, including early stops and exceptions", "why_tests_cant": "it is a property of histories: each call is right in isolation, so a test that calls once cannot see it", "anchors": ["ra/ply.hh: ply_ravel (thread_local z), any, every, early"]}
{"id": "C08", "title": "any() and every() are the boolean disjunction and conjunction", "statement": "any(a) is true exactly if some element of a is true, every(a) exactly if all elements are; on an empty array any is false and every is true.", "quantifier": "every boolean expression of any shape and layout, from a fresh traversal state", "why_tests_cant": "all shapes and contents", "anchors": ["ra/ra.hh: any, every"]}
{"id": "C09", "title": "index() returns the first-axis position of the first true element", "statement": "index(a) is -1 if no element of a is true, else it is the first-axis index of the first true element in row-major order; for rank 1 it is the least i such that a(i) is true.", "quantifier": "every boolean expression of rank at least one, of any shape", "why_tests_cant": "all shapes and contents", "anchors": ["ra/ra.hh: index"]}
{"id": "C10", "title": "lexical_compare() is the strict lexicographic order of the row-major elements", "statement": "For arguments of agreeing shape, lexical_compare(a, b) is true exactly if at the first row-major position where the elements differ, the one of a is less; so with a strict total order on elements it is irreflexive, transitive and total on arrays of equal shape.", "quantifier": "all pairs (triples) of arrays of one shape, elements in any strict total order", "why_tests_cant": "order laws quantify over all triples of arrays", "anchors": ["ra/ra.hh: lexical_compare"]}
{"id": "C11", "title": "The STL range of an expression enumerates its elements in row-major order and stops", "statement": "Iterating begin(e)..end(e) yields exactly size(e) elements, the elements of e in row-major order, and then compares equal to end; an empty expression yields none.", "quantifier": "every bounded expression of any rank and shape", "why_tests_cant": "every shape including zero lengths in any position", "anchors": ["ra/ply.hh: STLIterator, begin, end"]}
{"id": "C12", "title": "A container of given shape lays out its elements densely and without overlap", "statement": "For a shape with non-negative lengths the container reserves exactly the product of the lengths, distinct in-range indices are stored at distinct places, every place is the place of some index, and the places follow the row-major order of the indices.", "quantifier": "every rank and every shape of non-negative lengths", "why_tests_cant": "bijection over all indices of all shapes", "anchors": ["ra/expr.hh: filldimv, c_dimv, dimv_size", "ra/arrays.hh: Array::Array, SmallArray"]}
{"id": "C13", "title": "The contiguity test for plain-pointer iteration is exact", "statement": "If a view with static dimensions is accepted for iteration with a plain pointer then the n-th element in row-major order is n places after the first one, for all n; and a view whose elements are in those places is accepted.", "quantifier": "every list of (length, step) pairs with non-negative lengths", "why_tests_cant": "all lengths and steps, including length-one and empty axes", "anchors": ["ra/arrays.hh: c_order, View::begin, View::end"]}
{"id": "C14", "title": "ravel_free() keeps the elements and their order", "statement": "If ravel_free(a) succeeds, the n-th element of the result is the n-th element of a in row-major order.", "quantifier": "every view, any lengths and steps", "why_tests_cant": "depends on arithmetic relations between steps and lengths", "anchors": ["ra/arrays.hh: ravel_free, c_order"]}
{"id": "C15", "title": "reshape() keeps elements in row-major order, or tiles or selects", "statement": "If reshape(a, s) succeeds, the result has shape s and its n-th element in row-major order is the (n modulo size(a))-th element of a in row-major order.", "quantifier": "every view, any lengths and steps, every target shape", "why_tests_cant": "depends on arithmetic relations between steps, lengths and target shape", "anchors": ["ra/arrays.hh: reshape, c_order, filldimv"]}
{"id": "C16", "title": "The placeholder in reshape() is deduced or refused", "statement": "With one placeholder -1 in the target shape, reshape(a, s) either fails a check or replaces the placeholder by the length that makes the sizes equal; there is no undefined behavior.", "quantifier": "every size, every target shape", "why_tests_cant": "corner cases with zero lengths", "anchors": ["ra/arrays.hh: reshape"]}
{"id": "C17", "title": "reverse() mirrors one axis and is an involution", "statement": "Element j of reverse(a, k) is the element of a whose k-th index is len(k)-1-j[k]; reversing twice along an axis gives the original view; reverse along different axes commute; the reverse along an axis is the subscript iota(len, len-1, -1) on that axis.", "quantifier": "every view of any rank, every axis with a bounded length, every index", "why_tests_cant": "all shapes and steps", "anchors": ["ra/arrays.hh: reverse", "ra/ply.hh: fromb"]}
{"id": "C18", "title": "transpose() relocates axes", "statement": "If the axes list s has one destination per axis, transpose(a, s) at index j is a at the index whose k-th entry is j[s[k]]; a destination mentioned several times has the least of the lengths of its sources, one never mentioned is unbounded and does not affect the element. diag(a) of a matrix has the least of the two lengths and at i is a(i, i).", "quantifier": "every view, every destination list without negative entries (repeated, missing and permuted entries), every index in range", "why_tests_cant": "all ranks, all axis maps", "anchors": ["ra/arrays.hh: transpose, transpose_dims, diag"]}
{"id": "C19", "title": "Axis permutations compose and invert", "statement": "Transposing by a permutation and then by another one is transposing by the composition, transposing by a permutation and then by its inverse gives the original view.", "quantifier": "every view, every pair of permutations of its axes", "why_tests_cant": "all ranks and permutations", "anchors": ["ra/arrays.hh: transpose"]}
{"id": "C20", "title": "The length of a merged axis does not depend on the order of the sources", "statement": "When several axes go to one destination in transpose(), the resulting length is the minimum of the bounded source lengths whatever the order in which the sources appear.", "quantifier": "every view including unbounded axes, every destination list", "why_tests_cant": "needs views with unbounded axes in every position", "anchors": ["ra/arrays.hh: transpose_dims"]}
{"id": "C21", "title": "stencil() gives the neighbourhood view and stays inside the array", "statement": "stencil(a, lo, hi) at (i..., j...) is a at (i+j)...; the index ranges are len-lo-hi and lo+hi+1, and each such index is inside a.", "quantifier": "every view, all non-negative bounds that are accepted, every index", "why_tests_cant": "all ranks, lengths, bounds", "anchors": ["ra/arrays.hh: stencil"]}
{"id": "C22", "title": "explode() and collapse() regroup without changing elements, and are inverse", "statement": "Element i of explode<sup>(a) is the sub-array a(i, ...) of the last axes, element (i, j) of collapse<sub>(b) is element j of b(i), and collapse(explode(a)) has the same elements at the same indices as a.", "quantifier": "every view that explode()/collapse() accept, every super type shape", "why_tests_cant": "byte step arithmetic over all shapes", "anchors": ["ra/arrays.hh: explode_dims, explode, collapse"]}
{"id": "C23", "title": "Subscripts select as the outer product of the subscripts", "statement": "A(i0, i1, ...) with scalars, one-axis integer sequences, all, dots<n>, dots<>, and insert<n> in any number and order has the axes documented for each subscript and its element at j is the element of A at the index obtained by replacing each axis by the selected position; omitted trailing subscripts select everything.", "quantifier": "every view, every list of such subscripts, every index in range", "why_tests_cant": "combinations of subscripts are unbounded", "anchors": ["ra/ply.hh: from, fromb, frombrank, fsrc, fdst"]}
{"id": "C24", "title": "Accepted subscripts cannot reach outside the array", "statement": "If a subscript list of scalars, one-axis integer sequences, dots and insert is accepted then every element of the resulting view is an element of the source view.", "quantifier": "every view, every such subscript list (any start, length, positive, negative or zero step), every index", "why_tests_cant": "memory safety must hold for all subscripts", "anchors": ["ra/ply.hh: fromb"]}
{"id": "C25", "title": "Sequences of rank two or more as subscripts", "statement": "Subscripting with an integer sequence of any rank selects, like any other integer array of that rank, the positions that the sequence contains, and is refused if one of them is outside of the axis.", "quantifier": "every rank-n integer sequence used as subscript", "why_tests_cant": "needs n-axis sequences with nonzero start; combinations unbounded", "anchors": ["ra/ply.hh: fromb (is_iota branch), iota"]}
{"id": "C26", "title": "Outer product of expressions", "statement": "from(op, a0, a1, ...) has as shape the concatenation of the shapes of the arguments and its element at (j0, j1, ...) is op(a0(j0), a1(j1), ...).", "quantifier": "any number of arguments of any static rank and shape", "why_tests_cant": "all ranks and shapes", "anchors": ["ra/ply.hh: from, fromu_loop", "ra/expr.hh: Framematch, Verb, Reframe, map_verb"]}
{"id": "C27", "title": "Fancy subscripts agree with direct subscripts", "statement": "Subscripting with an integer expression gives the same elements in the same arrangement as subscripting with an equal one-axis integer sequence.", "quantifier": "every array, every index array/sequence", "why_tests_cant": "the two are implemented by unrelated mechanisms; equality for all inputs is needed", "anchors": ["ra/ply.hh: from, fromu, spacer, fromu_loop, fromb"]}
{"id": "C28", "title": "at() reads the addressed element or refuses", "statement": "at(a, i) with an index that has at least rank(a) entries succeeds exactly if each of the first rank(a) entries is within its axis, and then denotes the element at the row of steps given by i.", "quantifier": "every view, every index tuple of any length", "why_tests_cant": "all indices", "anchors": ["ra/ra.hh: at, at_view", "ra/expr.hh: indexer"]}
{"id": "C29", "title": "Assignment writes exactly the destination", "statement": "After dst = expr with agreeing shapes, where the destination elements are distinct and are not read by expr, each dst(j) equals the value expr had at (the leading part of) j before, and no other place changes.", "quantifier": "every destination view, every expression, every memory", "why_tests_cant": "frame condition over all of memory, all shapes", "anchors": ["ra/expr.hh: RA_ASSIGNOPS_LINE", "ra/arrays.hh: View::operator="]}
{"id": "C30", "title": "Reduction by assignment to a lower rank destination", "statement": "After dst += expr where dst has lower rank than expr, dst(i) has been increased by the sum of expr over all the trailing indices; each element of expr is used once.", "quantifier": "every shape, every element type with associative and commutative addition", "why_tests_cant": "all shapes", "anchors": ["ra/expr.hh: RA_ASSIGNOPS_LINE", "ra/ply.hh: for_each"]}
{"id": "C31", "title": "sum, prod, dot, cdot, reduce_sqrm are the row-major folds", "statement": "sum(a) (prod(a)) is the left fold of addition from 0 (product from 1) over the row-major elements, dot(a, b) is the sum of the products of corresponding elements, cdot uses the conjugate of the first argument, reduce_sqrm the squared magnitudes; on empty arguments they are the neutral element.", "quantifier": "every shape and content", "why_tests_cant": "all shapes", "anchors": ["ra/ra.hh: sum, prod, dot, cdot, reduce_sqrm, maybe_fma"]}
{"id": "C32", "title": "amin/amax/refmin/refmax return extremes", "statement": "amin(a) is less or equal than every element and is an element unless a is empty, in which case it is the greatest value of the type; refmin(a) returns a reference to the first least element; dually for amax and refmax.", "quantifier": "every nonempty/empty array, every total order", "why_tests_cant": "all contents", "anchors": ["ra/ra.hh: amin, amax, refmin, refmax"]}
{"id": "C33", "title": "gemm is the matrix product", "statement": "gemm(a, b, c) adds to c(i, j) the sum over k of a(i, k)*b(k, j), for both implementations; gemm(a, b) returns that sum; if the inner lengths differ the call is refused.", "quantifier": "all matrix sizes including zero, all contents in a ring", "why_tests_cant": "all sizes", "anchors": ["ra/ra.hh: gemm", "ra/ply.hh: from (insert)", "ra/arrays.hh: transpose"]}
{"id": "C34", "title": "gemv and gevm are the matrix-vector products", "statement": "gemv(a, b, c) adds to c(i) the sum over k of a(i, k)*b(k), gevm(a, b, c) adds to c(j) the sum over k of a(k)*b(k, j), for all of their implementations.", "quantifier": "all sizes including zero, all contents in a ring", "why_tests_cant": "all sizes", "anchors": ["ra/ra.hh: gemv, gevm"]}
{"id": "C35", "title": "pick/where evaluate only the selected alternative", "statement": "For each element, pick(i, e0, e1, ...) yields the element of the alternative selected by i and evaluates no other alternative; a selector out of range is refused; where(w, t, f) yields t where w is true, else f.", "quantifier": "every selector array, any number of alternatives of any agreeing shape, effectful alternatives", "why_tests_cant": "all shapes, all evaluation traces", "anchors": ["ra/expr.hh: Pick, pick_star, pick_at", "ra/ra.hh: where"]}
{"id": "C36", "title": "Array && and || short-circuit elementwise", "statement": "a && b (a || b) yields elementwise conjunction (disjunction) and evaluates the element of b only where the element of a is true (false).", "quantifier": "every pair of agreeing boolean expressions, effectful operands", "why_tests_cant": "all shapes, all traces", "anchors": ["ra/ra.hh: operator&&, operator||"]}
{"id": "C37", "title": "Arithmetic on integer sequences", "statement": "The sequence produced when +, -, * or negation is applied to integer sequences and scalars has the same length and the same elements as the elementwise expression.", "quantifier": "all starts, steps, lengths (bounded or statically unbounded), all scalars", "why_tests_cant": "all integer parameters", "anchors": ["ra/ra.hh: opt, RA_BINOP_I", "ra/ply.hh: iota"]}
{"id": "C38", "title": "ra::len in subscripts is the length of the subscripted axis", "statement": "A subscript expression containing len behaves as the expression in which every occurrence of len is replaced by the length of the axis it subscripts; nothing else of the expression changes, and no occurrence remains.", "quantifier": "all expressions, all axes", "why_tests_cant": "all expression trees", "anchors": ["ra/ply.hh: wlen, WLen"]}
{"id": "C39", "title": "Resizable arrays keep their contents through any history", "statement": "Through any sequence of push_back, emplace_back, pop_back, resize of the first axis and resize to a full shape, the store holds exactly the product of the lengths, the layout stays row-major, first-axis operations keep the elements at unchanged indices, and pop_back on an empty array is refused.", "quantifier": "every sequence of operations from every constructed array", "why_tests_cant": "property of unbounded histories", "anchors": ["ra/arrays.hh: Array::resize, push_back, emplace_back, pop_back"]}
{"id": "C40", "title": "Nested brace initializers", "statement": "Building an array from nested braces succeeds exactly if the nesting is rectangular, and then A(i, j, ...) is the item at [i][j]...", "quantifier": "every nesting depth and every list of items", "why_tests_cant": "ragged inputs of any depth", "anchors": ["ra/arrays.hh: braces_shape, Array::Array, View::operator=(braces)"]}
{"id": "C41", "title": "Row-major fill from a flat list", "statement": "Initializing an array of any shape from a flat list succeeds exactly if the sizes are equal, and then the n-th row-major element is the n-th item.", "quantifier": "every shape, every list, every destination layout", "why_tests_cant": "all shapes", "anchors": ["ra/arrays.hh: to_ravel, Array(s, initializer_list)"]}
{"id": "C42", "title": "Printing and reading back is the identity", "statement": "An array of integers printed in the default style and read back with >> into an array of the same type gives the same shape and elements.", "quantifier": "every rank (static or dynamic), every shape including empty, every content", "why_tests_cant": "all strings", "anchors": ["ra/ply.hh: formatter::format, operator>>"]}
{"id": "C43", "title": "Formatted output has the documented structure", "statement": "For every style, output is: the elements in row-major order, each once, enclosed per axis in open/close, with the inner separator on the last axis and the outer separator, repetition and alignment on the others; rank 0 prints the element alone.", "quantifier": "every style, every shape, every content", "why_tests_cant": "all shapes and styles", "anchors": ["ra/ply.hh: formatter::format", "ra/base.hh: format_t"]}
{"id": "C44", "title": "Complex helpers are the algebraic operations", "statement": "fma(a, b, c) = a*b+c, mul_conj(a, b) = conj(a)*b, fma_conj(a, b, c) = conj(a)*b+c, sqrm(a) = a*conj(a), xi(a) = i*a, sqrm(a, b) = sqrm(a-b), over exact arithmetic; rel_error is symmetric, zero exactly on equal arguments, at most 2.", "quantifier": "all complex numbers (exact arithmetic)", "why_tests_cant": "sign mistakes may hide on special values", "anchors": ["ra/ra.hh: RA_FOR_FLOAT, RA_FOR_TYPES"]}
{"id": "C45", "title": "Dual number functions carry the derivative", "statement": "For each function f defined on dual numbers and each differentiable inner function g, f applied to (g(x), g'(x)) is (f(g(x)), (f∘g)'(x)); so any composition of them computes the derivative.", "quantifier": "all reals in the domain, all differentiable inner functions, all compositions", "why_tests_cant": "derivative identities over all reals", "anchors": ["ra/ra.hh: Dual, operator*, inv, cos, sin, cosh, sinh, tan, exp, pow, log, sqrt, fma"]}
{"id": "C46", "title": "binom() is the binomial coefficient in the documented range", "statement": "With 64-bit unsigned arithmetic binom(n, p) is the number of p-subsets of n for every n up to 62 and every p, for (63, p) up to the documented p, and 0 if p>n; the intermediate products do not wrap there.", "quantifier": "all n, p in the documented range; all n, p without wraparound in unbounded arithmetic", "why_tests_cant": "the general identity needs induction", "anchors": ["ra/ra.hh: binom"]}
{"id": "C47", "title": "The basis of K-vectors enumerates each combination once", "statement": "choose<D, O> lists binom(D, O) combinations, each a permutation of a distinct O-subset of 0..D-1, and each subset appears once.", "quantifier": "all D and O<=D", "why_tests_cant": "all dimensions and orders", "anchors": ["ra/base.hh: combs, choose, anticomb, complement_list"]}
{"id": "C48", "title": "Hodge is a plain copy when declared trivial", "statement": "Whenever Hodge<D, O>::trivial holds, the general component shuffle hodgex() is the identity on components, so hodge() may return its argument.", "quantifier": "all D, O", "why_tests_cant": "all dimensions; static evaluation covers a few D", "anchors": ["ra/ra.hh: Hodge, hodgex, hodge", "ra/base.hh: permsign, findcomb, anticomb"]}
{"id": "C49", "title": "Wedge product is bilinear and graded-commutative", "statement": "wedge<D, Oa, Ob>(a, b) is linear in each argument and equals (-1)^(Oa*Ob) wedge<D, Ob, Oa>(b, a); cross(a, a) = 0.", "quantifier": "all D, Oa, Ob with Oa+Ob<=D, all components in a commutative ring", "why_tests_cant": "all dimensions and orders", "anchors": ["ra/ra.hh: Wedge::term, Wedge::prod, cross"]}
{"id": "C50", "title": "swap() exchanges shape and contents", "statement": "swap(a, b) between arrays of the same type or of dynamic and static rank exchanges shapes and elements, and refuses different ranks.", "quantifier": "all pairs of arrays", "why_tests_cant": "all shapes", "anchors": ["ra/arrays.hh: swap"]}
{"id": "C51", "title": "concrete() makes an independent copy", "statement": "concrete(e) has the shape of e and the same elements; later writes to the arrays in e do not change it, and making it does not change them.", "quantifier": "every expression, every later write", "why_tests_cant": "all histories", "anchors": ["ra/arrays.hh: concrete, Array::Array"]}
{"id": "C52", "title": "Compile-time agreement verdicts are sound", "statement": "If the static check of shapes says 'pass' then the shapes agree in every run, if it says 'fail' then they agree in none; so skipping the run time check on 'pass' is safe.", "quantifier": "every combination of static and dynamic lengths and ranks, every run time instance, expressions made of views, scalars and nested maps", "why_tests_cant": "quantifies over all run time instances of a type", "anchors": ["ra/expr.hh: Match::check_s, Match::len_s, validate"]}
{"id": "C53", "title": "Static verdicts remain sound under reframing", "statement": "The previous property also holds for expressions which contain reframed (rank-conjunction, outer product) subexpressions.", "quantifier": "every expression with reframed subexpressions", "why_tests_cant": "as before; the failing combinations are rare", "anchors": ["ra/expr.hh: Reframe::len_s, Match::len_s, validate"]}
{"id": "C54", "title": "Unbounded expressions are never traversed", "statement": "An expression without a bounded length on every axis is refused by every traversal before any element is evaluated.", "quantifier": "every expression", "why_tests_cant": "all expressions", "anchors": ["ra/expr.hh: validate", "ra/ply.hh: ply_ravel, ply_fixed, STLIterator"]}
{"id": "C55", "title": "Allocation size arithmetic", "statement": "With 64-bit lengths, the size reserved by a container equals the mathematical product of its lengths whenever each trailing partial product fits; there is no other condition on the shape.", "quantifier": "all shapes of 64-bit lengths", "why_tests_cant": "wraparound only shows with huge lengths", "anchors": ["ra/expr.hh: filldimv"]}
{"id": "C56", "title": "Cell iteration", "statement": "iter<c>(a) has as frame the leading axes and its item at j is the view a(j) over the c trailing axes; with negative c the frame has -c axes; the ranks are refused if they do not fit.", "quantifier": "every view, every c, every index", "why_tests_cant": "all ranks", "anchors": ["ra/expr.hh: Cell, rank_cell, rank_frame, iter"]}
{"id": "C57", "title": "Rank conjunction matches frames as documented", "statement": "map(wrank<c0, c1, ...>(op), a0, a1, ...) pairs the leading rank(ai)-ci axes of the arguments by prefix, and then the remaining axes by the inner rank specification, using separate axes of the result; no axis of an argument is used twice.", "quantifier": "all argument ranks and verb ranks that are accepted", "why_tests_cant": "all combinations of ranks", "anchors": ["ra/expr.hh: Framematch, wrank, map_verb, Reframe"]}
{"id": "C58", "title": "Index placeholders", "statement": "Inside an expression with agreeing shapes, the placeholder _k has at index j the value j[k].", "quantifier": "all k, all expressions with more than k axes", "why_tests_cant": "all shapes", "anchors": ["ra/arrays.hh: tindex"]}
{"id": "C59", "title": "The format specification parser does not read past its input", "statement": "Parsing any format specification either succeeds or reports an error; it never reads beyond the end of the format string.", "quantifier": "all strings", "why_tests_cant": "all strings, including truncated ones", "anchors": ["ra/ply.hh: formatter::parse"]}
{"id": "C60", "title": "A failed read of the shape leaves the array untouched", "statement": "If reading an array from a stream fails while reading its shape then the array is unchanged; a negative length is refused.", "quantifier": "all input texts", "why_tests_cant": "all strings", "anchors": ["ra/ply.hh: operator>>"]}
{"id": "C61", "title": "A bad axis for reverse() is refused", "statement": "reverse(a, k) with a run-time axis k outside of [0, rank(a)) fails a check, without undefined behavior; with k in range it is refused if and only if the axis is unbounded.", "quantifier": "every view, every axis number", "why_tests_cant": "reading beyond the dimensions usually goes unnoticed", "anchors": ["ra/arrays.hh: reverse"]}
{"id": "C62", "title": "Too many subscripts are refused", "statement": "A(i0, i1, ...) with subscripts that take more axes than A has is refused, at compile time or by a failed check; nothing is read beyond the axes of A.", "quantifier": "every view, every list of subscripts that takes more axes than the rank", "why_tests_cant": "reads beyond the dimensions usually go unnoticed, and the subscript combinations are unbounded", "anchors": ["ra/ply.hh: from, fromb, frombrank"]}
{"id": "C63", "title": "Sequences of different lengths are not combined", "statement": "Adding or subtracting two integer sequences whose lengths do not agree is refused, as it is for the elementwise expression.", "quantifier": "all pairs of sequences, with lengths in the type or not", "why_tests_cant": "the mixed static and run time cases are easily missed", "anchors": ["ra/ra.hh: opt, RA_BINOP_I", "ra/expr.hh: clen, viewptr, validate"]}
{"id": "C64", "title": "Sequence arithmetic with machine integers", "statement": "With machine integers, the sequence produced for an arithmetic operation on sequences and scalars has the same elements as the elementwise expression: if nothing overflows, and also with wraparound for unsigned types; and it has no undefined overflow if the elementwise expression has none.", "quantifier": "all starts, steps, scalars; types of 32 and 64 bits, signed or unsigned, in any combination", "why_tests_cant": "overflow only shows with extreme values, mixed types", "anchors": ["ra/ra.hh: opt, RA_BINOP_I", "ra/expr.hh: Seq"]}
{"id": "C65", "title": "size() of a container that was made", "statement": "For any shape that a container can be made with, size() is the number of elements that were reserved, without overflow.", "quantifier": "all shapes of 64-bit lengths", "why_tests_cant": "needs lengths whose product overflows next to a zero", "anchors": ["ra/expr.hh: dimv_size, filldimv", "ra/arrays.hh: Array::size"]}
{"id": "C66", "title": "A refused operation leaves the container as it was", "statement": "If push_back, pop_back, resize or an assignment to an element is refused (by a check or by an exception) then the container has the same shape and elements as before.", "quantifier": "all containers, all operations and arguments", "why_tests_cant": "only visible if the assertion handler or the exception lets the program go on", "anchors": ["ra/arrays.hh: Array::resize, push_back, pop_back", "ra/expr.hh: filldimv"]}
{"id": "C67", "title": "A container that has been moved from is consistent", "statement": "After moving from a container, the target has the shape and the elements it had, and the source has as many elements as its shape says.", "quantifier": "all containers with static or dynamic rank", "why_tests_cant": "tests do not look at objects that have been moved from", "anchors": ["ra/arrays.hh: Array"]}
{"id": "C68", "title": "permsign is the sign of the permutation", "statement": "permsign<C, R> is +1 or -1 by the number of pairs out of order if C is a permutation of R, and 0 if it is not one; exchanging two consecutive blocks of lengths m and n multiplies it by (-1)^(m*n).", "quantifier": "all lists of distinct indices", "why_tests_cant": "all lengths; the static tests try lists of 3 or 4", "anchors": ["ra/base.hh: permsign, index, take, drop"]}
{"id": "C69", "title": "Hodge twice", "statement": "hodgex<D, D-O>(hodgex<D, O>(a)) is a if O*(D-O) is even and -a if it is odd; every component of the result is written.", "quantifier": "all D and O<=D, all components", "why_tests_cant": "all dimensions; the sign depends on the parity of the orders and on the order of the basis", "anchors": ["ra/ra.hh: Hodge, hodgex"]}
{"id": "C70", "title": "Wedge product on the basis", "statement": "The component of wedge<D, Oa, Ob>(a, b) along x is the sum of eps(e+f, x) a(e) b(f) over the elements e and f of the bases, where eps is the sign of the permutation from e+f to x or 0; so wedge() is associative, and wedge(a, hodge(b)) is the dot product of a and b.", "quantifier": "all D, Oa, Ob, Oc with total up to D; all components in a commutative ring", "why_tests_cant": "all dimensions and orders, and the basis of choose<> is not in lexical order", "anchors": ["ra/ra.hh: Wedge::term, Wedge::prod, hodgex", "ra/base.hh: choose, combs, findcomb"]}
{"id": "C71", "title": "Traversals inside operations", "statement": "If the operation of an expression itself traverses other expressions, also of the same type, every traversal visits each of its own elements once and in order, and nothing else.", "quantifier": "all expressions, operations and depths of nesting", "why_tests_cant": "tests use operations that only work on their arguments; the interference needs two live traversals of one instantiation of ply_ravel, with rows that are not consecutive", "anchors": ["ra/ply.hh: ply_ravel (thread_local z)"]}
{"id": "C72", "title": "at_view gives the cell at an index", "statement": "at_view(a, i) with n indices, n no more than the rank of a, gives a view of the last axes of a which is a(i[0], ..., i[n-1]), and is refused if any index is outside of its axis. If there are more indices than axes it is refused.", "quantifier": "for every array, and every list of indices", "why_tests_cant": "the number of indices chooses the cell rank by a subtraction whose negative results have another meaning, so the cases with too many indices must be tried one by one", "anchors": ["ra/ra.hh:240-250", "ra/expr.hh:228-229", "ra/expr.hh:266-312"]}
{"id": "C73", "title": "shape(a, e) gives the lengths of the axes in e", "statement": "Each element of shape(a, e) is the length of the axis of a given by that element of e, where ra::len stands for the rank of a. If it is not an axis of a, it is refused.", "quantifier": "for every array, and every integer expression with ra::len", "why_tests_cant": "axes computed with ra::len in nested expressions are beyond a list of cases", "anchors": ["ra/ply.hh:297-308", "ra/ply.hh:243-295"]}
{"id": "C74", "title": "Conversion to scalar needs exactly one element", "statement": "An array expression is converted to a scalar only if it has exactly one element, and then to that element. In any other case the conversion is refused, when compiling or when running; in particular if the shapes of its arguments do not agree.", "quantifier": "for every expression and every combination of static and dynamic shapes", "why_tests_cant": "a case where the size in the type hides a mismatch at run time depends on the combination of types", "anchors": ["ra/expr.hh:149-158", "ra/base.hh:391-413", "ra/expr.hh:580-592"]}
{"id": "C75", "title": "at(a, i) with an array of indices", "statement": "at(a, i) has the shape of i and its elements refer to those of a at each index. at(a, i) OP= x applies OP= in row-major order of i, as many times on each element of a as its index is found in i, and leaves the rest of a unchanged. It stops at the first index outside of a, without changing anything else.", "quantifier": "for every array of any rank, array of indices with or without repetitions, and right hand side of agreeing shape", "why_tests_cant": "the result depends on the pattern of repeated indices and on the order of the traversal", "anchors": ["ra/ra.hh:228-238", "ra/expr.hh:164-181", "ra/expr.hh:50-60"]}
{"id": "C76", "title": "Median of the runs of a benchmark", "statement": "Benchmark::median(t) gives the middle element of the sorted t if its size is odd, and half the sum of the two middle elements if it is even, for any order of t.", "quantifier": "for every vector with elements", "why_tests_cant": "the two branches are chosen by a bit operation and the results are plausible times in either case", "anchors": ["ra/test.hh:253-260"]}
{"id": "C77", "title": "Deviation of the runs of a benchmark", "statement": "The mad given by Benchmark::once is the median of the absolute deviations from the median.", "quantifier": "for every number of runs and times", "why_tests_cant": "the times are different in each run, so the value cannot be compared with a fixed one", "anchors": ["ra/test.hh:291-308"]}
{"id": "C78", "title": "TestRecorder counts each test once", "statement": "After any sequence of tests, each with its options skip, expectfail and strict, the recorder has counted each test exactly once by outcome, has listed the positions of those whose outcome was not the expected one, and summary() gives their number. The options given to a test do not change later ones.", "quantifier": "for every sequence of tests and options, given in any order and any number of times", "why_tests_cant": "the test recorder is what the tests use, so its mistakes hide themselves", "anchors": ["ra/test.hh:51-121", "ra/test.hh:218-233"]}
{"id": "C79", "title": "test_eq and others: the verdict", "statement": "test_eq, test_lt etc. without strict succeed iff the shapes of the arguments agree as prefixes and the comparison holds on every pair of elements. With strict, iff the shapes are the same and the comparison holds on every pair. Arguments that do not agree give a failed test and never an error.", "quantifier": "for every pair of expressions, including with static and unbounded lengths", "why_tests_cant": "the verdict on each pair of shapes and types is a different instance", "anchors": ["ra/test.hh:139-164", "ra/expr.hh:639-650"]}
{"id": "C80", "title": "test_abs and test_rel: the verdict", "statement": "test_abs(ref, a, req) succeeds iff every pair of elements differs by at most req; NaN and the infinities match only themselves. test_rel is the same with the difference over the mean of the absolute values, or with req*level if level is given.", "quantifier": "for every pair of arrays of agreeing shapes, with any elements including NaN and infinities, and every req that is not negative", "why_tests_cant": "the combination of NaN, infinities, zeros and early exit in any position is not covered by a few arrays", "anchors": ["ra/test.hh:38-46", "ra/test.hh:179-213", "ra/ra.hh:92"]}
{"id": "C81", "title": "sum and prod evaluate each element once", "statement": "sum(e) and prod(e) evaluate each element of e exactly once and in row-major order, so that operations in e with side effects have each of them once.", "quantifier": "for every expression, with any side effects in its operations", "why_tests_cant": "an extra evaluation does not change the result when the operations have no side effects", "anchors": ["ra/ra.hh:348-362", "ra/expr.hh:136-144"]}
{"id": "C82", "title": "Assignment from the same memory", "statement": "An assignment A op= E is a loop over the indices in row-major order, where for each index the destination and then the element of E are evaluated and then the destination is written, so later elements of E see earlier writes: with slices of one vector, shifting towards the start copies, shifting by d towards the end repeats the first d elements, and v = reverse(v) repeats the second half of v backwards.", "quantifier": "all expressions, with any overlap between source and destination, any side effects and failures; all lengths, shifts and steps of vectors", "why_tests_cant": "the order of reads and writes only shows with overlapping views, and two traversals exist", "anchors": ["ra/expr.hh:50-60", "ra/ply.hh:26-166", "ra/arrays.hh:408-428"]}
{"id": "C83", "title": "Views and arrays as ranges", "statement": "for (auto & x: a) on a view or container goes through each of its elements once, in row-major order, whether it uses pointers or iterators; if an axis is unbounded it is refused.", "quantifier": "every view with any lengths and steps, dimensions in the type or not; every container; every loop body", "why_tests_cant": "which kind of iterator is used depends on the type, and the order only shows for some steps", "anchors": ["ra/arrays.hh:136-138", "ra/arrays.hh:308-309", "ra/ply.hh:177-226"]}
{"id": "C84", "title": "shared_borrowing", "statement": "shared_borrowing(s) has the shape of s and its elements are those of s, also when it is used as a range; if s cannot be represented it is refused.", "quantifier": "every view, with rank in the type or not", "why_tests_cant": "the result is a container, but it is not packed as others are, which shows only in some uses and for some steps", "anchors": ["ra/arrays.hh:348-358", "ra/arrays.hh:308-309", "ra/expr.hh:330-348"]}
{"id": "C85", "title": "back() and as()", "statement": "back() on a view of rank 1 or more is the last item along the first axis, and is refused if there is none. as<s, o>() is the s items from o on, and is refused if they are not all there.", "quantifier": "every view, every length and offset", "why_tests_cant": "the empty case and the rank 0 case", "anchors": ["ra/arrays.hh:139", "ra/arrays.hh:143"]}
{"id": "C86", "title": "cat", "statement": "cat(a1, a2) on vectors or scalars of static size is a new array with the elements of a1 followed by those of a2; arguments of higher rank are refused.", "quantifier": "every pair of expressions of rank 0 or 1 and any size, also 0", "why_tests_cant": "the two parts are assigned by separate traversals, scalars are extended to a part of length 1, and the arguments may be views of any steps or expressions", "anchors": ["ra/arrays.hh:464-473"]}
{"id": "C87", "title": "normv", "statement": "normv(a) is a new array with the shape of a where each element is divided by the norm of a, so its norm is 1 unless the elements of a are all zero; a is not modified.", "quantifier": "every expression of any shape, with real, complex or integer elements", "why_tests_cant": "the quotient is in place on an array with the type of the elements of a, so it depends on that type", "anchors": ["ra/ra.hh:376-377", "ra/ra.hh:395-401"]}
{"id": "C88", "title": "Lists of types", "statement": "append concatenates; take and drop cut a list at n; ref follows subscripts into nested lists; index and indexif give the first place or -1; iota and makelist have n elements; reverse reverses; filter drops the elements marked false and keeps those past the end of the marks; mapcons puts an element before each of a list of lists; map combines the lists by position up to the length of the first. Anything out of range is refused at compile time.", "quantifier": "every list of any length, every n (also negative), every subscript", "why_tests_cant": "these run inside of the compiler on the lists that the rest of the library happens to use; lists that are too short, or negative counts, would have to fail to compile", "anchors": ["ra/base.hh: mp::append, mp::iota, mp::makelist, mp::take, mp::drop, mp::ref, mp::index, mp::indexif, mp::map, mp::reverse, mp::filter"]}
{"id": "C89", "title": "Operators on rank 0", "statement": "An operator or function of ra:: applies if at least one argument is an ra:: object and the others are ra:: objects, scalars, ranges or built in arrays, and it is never ambiguous. If all the arguments are of rank 0 it is evaluated at once and gives what the lazy one gives at any index; && and || do not evaluate the second argument if the first one decides, and where evaluates only the argument that it selects.", "quantifier": "every number and kinds of arguments, every operation and its side effects", "why_tests_cant": "the choice is by type for every combination of kinds of arguments; evaluation order and short circuit on rank 0 have separate code", "anchors": ["ra/base.hh: toreduce, tomap", "ra/ra.hh: RA_BINOP, RA_UNOP, RA_NAME, where, operator &&, operator ||", "ra/expr.hh: VAL"]}
{"id": "C90", "title": "Extremes with NaN", "statement": "If some elements are not numbers (NaN compares false with everything), amin and amax give the least and the greatest of the elements that are numbers, or the limit of the type if there are none, and never NaN; refmin and refmax give a reference to the first of the least or the greatest of the elements that are numbers.", "quantifier": "every array, every order with elements that are not comparable", "why_tests_cant": "a NaN hides or wins depending on its position; tests do not reduce arrays with NaN", "anchors": ["ra/ra.hh:306-346"]}
{"id": "C91", "title": "rank(), size() and shape()", "statement": "For every expression whose arguments do not disagree, every foreign range and every built in array: rank() is the number of axes; shape() is the length of each axis, that is, len(k) for each k, and the same whether it is taken from the type or from the object; size() is the product of the lengths, or negative if some axis is unbounded.", "quantifier": "every tree of types and every instance of it", "why_tests_cant": "the result comes from the type or from the object depending on what is known of each axis; tests have a few combinations", "anchors": ["ra/base.hh:334-430"]}
{"id": "C92", "title": "Outer product by broadcasting", "statement": "For any arrays or views A and B, A(dots<>, insert<rank(B)>) op B(insert<rank(A)>, dots<>), A op B(insert<rank(A)>), and from(op, A, B) have the same shape, that of A followed by that of B, and the same elements, op(A[i ...], B[j ...]), and they are traversed with the same results and effects.", "quantifier": "every operation, every rank and shape, views with any steps", "why_tests_cant": "rank by rank instantiations; tests have a few ranks", "anchors": ["docs/ra-ra.texi:1060-1068", "ra/ply.hh:425-429", "ra/ply.hh:503-551", "ra/expr.hh:597-608"]}
{"id": "C93", "title": "Subscripts on axes of unbounded length", "statement": "A scalar subscript on an axis of unbounded length is accepted, and selects the item at that position; on an axis made with insert<n>, it gives back the original view, whatever its value. A sequence of n integers (not negative) on an axis of unbounded length is accepted and gives an axis of length n.", "quantifier": "every view, every position for the inserted axes, every scalar and every sequence", "why_tests_cant": "the set of valid positions is not bounded", "anchors": ["ra/ply.hh: fromb, insert, iota"]}
{"id": "C94", "title": "Operations on short arrays through the vector extension", "statement": "With RA_OPT_SMALL=1, a op b (op one of + - * /), where the views a and b have shape {N} (N = 2, 4, 8) and step 1 in their types, gives an array with the same elements as the expression that it replaces; this includes parts of arrays, like rows.", "quantifier": "every operation, every N, every pair of such views (of arrays of any shape), every memory", "why_tests_cant": "the place of a view in memory depends on the compiler and the run", "anchors": ["ra/ra.hh: RA_OPT_SMALL_OP, match_small", "ra/arrays.hh: align_req, SmallArray"]}
{"id": "C95", "title": "Assignment to the real or imaginary parts of an array", "statement": "real_part(a) op= x, for an array a of complex numbers, changes the real part of each element of a as op says with the matching element of x, and nothing else; the same with imag_part(a) and the imaginary parts. x may use the other part of a.", "quantifier": "every operation, view and expression x that match, every memory", "why_tests_cant": "all shapes, steps and contents", "anchors": ["ra/ra.hh: real_part, imag_part, RA_NAME", "ra/expr.hh: RA_ASSIGNOPS"]}
{"id": "C96", "title": "Assignment to where()", "statement": "where(w, a, b) op= x changes at each index the element of a if w is true there and that of b if it is false, and nothing else. w and x may depend on the elements that are being changed.", "quantifier": "every expression w, every a and b that give references, every x that match, every operation and memory", "why_tests_cant": "all shapes, masks and contents", "anchors": ["ra/ra.hh: where", "ra/expr.hh: Pick, RA_ASSIGNOPS"]}
{"id": "C97", "title": "Assignment to an array with arrays as subscripts", "statement": "a(i ...) op= x where some of the subscripts are integer arrays applies the operation to a at each of the selected indices, once for each time that an index is selected and in row major order of the expression. So a(i) += 1 counts the repetitions, and after a(i) = x the last one stands. If an index is out of range the assignment is refused when it gets there.", "quantifier": "every array, every list of subscripts, every x that matches, every operation and memory", "why_tests_cant": "all shapes, index arrays and contents", "anchors": ["ra/ply.hh: from, fromu", "ra/expr.hh: RA_ASSIGNOPS"]}
{"id": "C98", "title": "Hodge of any array argument", "statement": "hodgex<D, O>(a, b), with a and b that don't share elements, puts in b the Hodge dual of a: the component along the complement of each basis element of order O, with the sign that the two have together. Nothing else is written. This holds whatever a is: a container, or a view of elements of any type.", "quantifier": "all D and O<=D, every place for a and b, every memory and element type", "why_tests_cant": "all dimensions; in the tests a is always a Small", "anchors": ["ra/ra.hh: Hodge, hodgex", "ra/base.hh: findcomb", "ra/ply.hh: from"]}
{"id": "C99", "title": "Hodge in place", "statement": "hodge<D, O>(a), with one argument, leaves in a the Hodge dual of what a had, and writes nothing else.", "quantifier": "all D and O<=D, containers and views, every memory", "why_tests_cant": "all dimensions; only the trivial case is tested", "anchors": ["ra/ra.hh: hodge"]}
{"id": "C100", "title": "Perpendicular vectors in the plane", "statement": "perp(v, n) has the first two components of the cross product of (v, 0) and (0, 0, n), the third being 0; perp(v) is perp(v, 1). perp(v) is v turned by a right angle: it is orthogonal to v and has the same norm, cross(perp(v), v) is the square of the norm, and perp(perp(v)) is -v.", "quantifier": "all v and n in any ring", "why_tests_cant": "all values; signs and order of components", "anchors": ["ra/ra.hh: perp, cross"]}
{"id": "C101", "title": "Sum of an array of arrays", "statement": "If the elements of a are arrays which all have the same shape, sum(a) is an array of that shape whose elements are the sums of the elements at the same index, in row major order of a; prod(a) likewise. Nothing else is written. If an array with the same rank but other lengths comes up then it is refused.", "quantifier": "every expression whose elements are arrays, every shape and operation, every memory", "why_tests_cant": "all shapes and all shapes of the elements", "anchors": ["ra/ra.hh: sum, prod", "ra/arrays.hh: copy_shape"]}
{"id": "C102", "title": "Subscripts on the result of subscripts", "statement": "a(i ..., s ...) is the same view as a(i ...)(s ...), or both are refused, if i ... are scalar subscripts. If a(s1 ...)(s2 ...) is accepted, where s1 and s2 are scalars and sequences, it is the same view as a(s3 ...), where the positions in s3 are those of s1 taken at the positions of s2. For any subscripts, an element of a(s1 ...)(s2 ...) is the element of a that s1 selects at the index that s2 selects.", "quantifier": "every view, every list of subscripts with no more subscripts than axes", "why_tests_cant": "all ranks, lengths, steps, starts and counts (also negative steps, empty sequences and axes of unbounded length)", "anchors": ["ra/ply.hh: from, fromb", "ra/arrays.hh: View::operator()"]}
{"id": "C103", "title": "Traversing a sequence of integers", "statement": "If all the elements of iota(n, o, s), n>0, are in the range of its type, then for_each/ply and range-for over it never make a value outside of the range. (False for for_each/ply: they also make o+n*s after the last element, so they stay in the range if and only if o+n*s is in it too. True for range-for.)", "quantifier": "every n > 0, origin, step and type range", "why_tests_cant": "the elements that the traversal gives are right in any case; the extra value is never read. With int it's an overflow at the very end of the range, that tests don't reach and that has no effect unless the compiler makes use of it", "anchors": ["ra/ply.hh: subply, ply_ravel, STLIterator", "ra/expr.hh: Seq, Cell::mov", "ra/ply.hh: iota"]}
{"id": "C104", "title": "Pointers made by a traversal", "statement": "A traversal (for_each, assignment, range-for) only makes pointers to the elements of the arguments or to one past the last element of the array they are in. (True for expressions where the arguments are whole arrays with their axes in order, also with axes placed apart as in outer products, and for range-for over anything. False for views: the traversal of a reversed array makes a pointer before the first element; that of a column or of a transposed array, a pointer beyond one past the last.)", "quantifier": "every expression, rank, shape and placement of axes", "why_tests_cant": "the pointers are not dereferenced, so sanitizers that look at accesses don't see them, and ordinary platforms compute them without complaint", "anchors": ["ra/ply.hh: subply, ply_ravel, ply_fixed, STLIterator", "ra/expr.hh: Cell::adv, Cell::mov, Reframe"]}
{"id": "C105", "title": "Matrix products combine", "statement": "Over a commutative ring, gemm(gemm(a, b), c) and gemm(a, gemm(b, c)) are the same; gemv(gemm(a, b), x) is gemv(a, gemv(b, x)); gemm(transpose(b), transpose(a)) is the transpose of gemm(a, b); gevm(x, a) is gemv(transpose(a), x); and dot(gevm(x, a), y) is dot(x, gemv(a, y)). Each function allocates its result, so the results of the earlier ones and the arguments are still there when the later ones read them.", "quantifier": "all sizes (also 0), all views as arguments (any steps), all element values, fixed or dynamic traversal in each of the calls", "why_tests_cant": "tests have some pairs of small matrices, mostly in row-major order, and compare with a loop", "anchors": ["ra/ra.hh: gemm, gemv, gevm, dot", "ra/arrays.hh: transpose, with_shape"]}
{"id": "C106", "title": "Nested arrays can be printed and read back", "statement": "An array whose elements are arrays (of static or dynamic shape, to any depth) of integers or of dual numbers over integers, printed in the default style and read back with >> into an object of the same type, gives the same shapes and elements at every level, also when some or all of the element arrays are empty. The text is that of C43, with the text of each element array by itself (including its shape, if it isn't static) in the place of the element. Reading integers from a stream that has failed leaves the object as it was.", "quantifier": "all types built from integers, Dual, Small and Big (static or dynamic rank); all shapes at every level, also empty ones and rank 0; all previous contents of the target; leading space and any text after it", "why_tests_cant": "tests print and read arrays of numbers, and only print some nested ones", "anchors": ["ra/ply.hh: formatter::format, operator>>", "ra/base.hh: operator<<"]}
{"id": "C107", "title": "Reading dual numbers", "statement": "i >> a for a Dual a takes text of the form [re du], with any space, and leaves what follows it. For any other text, also no text, the stream fails.", "quantifier": "all texts and all previous states of the stream; arrays of dual numbers", "why_tests_cant": "tests read one dual number that was printed before", "anchors": ["ra/ra.hh: operator>>(std::istream &, is_dual auto &)", "ra/ply.hh: operator>>"]}
{"id": "C108", "title": "Assignment by cells", "statement": "iter<ca>(a) op= iter<cb>(b) matches the cells of a and b in row-major order of the longer frame, and within each pair, the elements in row-major order of the longer cell, so that every element of a is combined with all the elements of b that go with it, in that order; e.g. with a shorter frame in a it's a reduction over the other frame axes, and with a shorter one in b each of its cells is used many times. iter<ca>(a) = g(iter<ca>(a), iter<cb>(b)) and for_each with a = g(a, u) over the cells u do the same. Frames that don't match are refused before anything is assigned; cells that don't match, when the first pair comes.", "quantifier": "all ranks of cells, shapes, strides and element types, static or dynamic; overlapping a and b in the equivalences", "why_tests_cant": "tests have a few examples with matrices and 1-cells", "anchors": ["ra/expr.hh: struct Cell", "ra/expr.hh: RA_ASSIGNOPS", "ra/arrays.hh: iter", "docs/ra-ra.texi: iter"]}
{"id": "C109", "title": "empty() and size()", "statement": "a.empty() is true exactly when some axis has length 0. If no axis is unbounded, this is the same as a.size() being 0 and as a not having any elements; if one is, a.size() is negative (the length of the first one).", "quantifier": "all dimensions", "why_tests_cant": "tests have a few shapes", "anchors": ["ra/expr.hh: dimv_size, dimv_empty", "ra/arrays.hh: View::empty, View::size, Array::empty"]}
{"id": "C110", "title": "Construction of Small, and of Array from a pointer", "statement": "Small<T, s ...>(t) has t in every element; with as many arguments as elements these go in row-major order; with nested lists of the right lengths, at any depth, each element is the one in the lists, and that is the same as with the items of the lists in order. Assigning a list of Small to a view with static or dynamic strides puts each in the corresponding cell, and a list of another length is refused. Array({s ...}, p) has the elements from p on in row-major order. Nothing else is written.", "quantifier": "all shapes, also with lengths 0 or 1; all depths; views with any steps", "why_tests_cant": "tests have literals of a few shapes", "anchors": ["ra/arrays.hh: SmallArray constructors", "ra/arrays.hh: nested_arg_", "ra/arrays.hh: View::operator=(nested_arg<T, Dimv> (&&x)[N])", "ra/arrays.hh: Array(dim_t (&&s)[N], auto * p)"]}
{"id": "C111", "title": "Views of memory that is given", "statement": "For a built in array T a[n0][n1]..., the view of a has shape (n0 n1 ...) and view(a)(i, j, ...) is the object a[i][j]..., and with one index it is the view of a[i]. View(s, p) with s the lengths has shape s and element j... at p plus the row-major position, and it is refused if some length is negative, if the number of lengths isn't the rank of the type, or if a step in the type isn't the row-major one. View(s, p) with s the dimensions has exactly those, and it is refused if the number isn't the rank or if some length or step in the type is different. Lengths without end (such as ptr(p)) serve for any static rank and are refused otherwise. ptr(p, n, s) has element i at p + i*s, and it is refused for negative n.", "quantifier": "all shapes, pointers, dimensions and types of dimensions", "why_tests_cant": "tests use a few literals, most of them of rank 1 or 2", "anchors": ["ra/expr.hh: view", "ra/expr.hh: viewptr", "ra/expr.hh: SDim", "ra/expr.hh: filldimv", "ra/expr.hh: resize", "ra/arrays.hh: View constructors"]}
{"id": "C112", "title": "Structured bindings", "statement": "auto & [x ...] = v, for a view or array v with its shape in the type, gives names to the elements of v in row-major order, as many as there are.", "quantifier": "all shapes and steps", "why_tests_cant": "the test has one array and one view of rank 1", "anchors": ["ra/arrays.hh: get", "ra/arrays.hh: std::tuple_size<S>", "ra/arrays.hh: std::tuple_element<i, S>"]}
{"id": "C113", "title": "Reductions over axes and the matrix product of the manual", "statement": "Let a have shape s, t and let c have shape t, with elements that don't overlap. Then for_each(wrank<r, r>([](auto & c, auto && a) { c f= a; }), c, a), where r is the rank of c, and iter<r>(c) f= iter<r>(a), and c f= transpose(a, ...) with the axes t before the axes s, leave the same in c: each element c(j) is joined by f with a(k, j) for all k in s in row-major order, and nothing else changes. If the lengths don't agree, the first and the third are refused and nothing changes. for_each(wrank<1, 1, 2>(wrank<1, 0, 1>([](auto && c, auto && a, auto && b) { c += a*b; })), c, a, b) is the same as gemm(a, b, c) for any arguments of rank 2, including the ones that are refused.", "quantifier": "all ranks, shapes, steps, contents, operations f (also ones that don't commute); for the product all lengths and overlaps", "why_tests_cant": "tests use a few arrays, and the sum over rows has a single test", "anchors": ["docs/ra-ra.texi: Elementwise reductions", "docs/ra-ra.texi: The rank conjunction", "ra/expr.hh: Framematch", "ra/expr.hh: reframe", "ra/ra.hh: gemm", "ra/arrays.hh: transpose"]}
{"id": "C114", "title": "Stencils with slices and with stencil()", "statement": "Let a and b be arrays of the same shape that don't overlap, and let lo and hi be margins on each axis with lo+hi not more than the length. Let I, J ... be iota(n-lo-hi, lo) for each axis. Then b(I, J, ...) = (any expression of a(I+o, J+p, ...) with offsets in the margins, numbers, and operations of two arguments), and b(I, J, ...) = map([](auto && c) { return (the same expression of c(lo+o, ...)) }, iter<r>(stencil(a, lo, hi))), leave the same in b: each element that isn't in the margins has the value of the expression around the same place in a, and nothing else changes. a(I+o, J+p, ...) is the slice of stencil(a, lo, hi) at lo+o. Margins that don't fit are refused by both, an offset out of the margins is refused by the first, and then nothing changes.", "quantifier": "all ranks, shapes, steps, margins (not the same on each side), contents, expressions", "why_tests_cant": "the benchmark is for rank 2 and one expression", "anchors": ["bench/bench-stencil2.cc", "examples/laplace2d.cc", "ra/arrays.hh: stencil", "ra/ply.hh: iota", "ra/ply.hh: from", "ra/ra.hh: operator+"]}
{"id": "C115", "title": "Stencils with a mask", "statement": "As in the property of stencils with slices, with an array mask of lengths lo+hi+1. Each of b(I, J, ...) = map([](auto && s) { return sum(s*mask); }, iter<r>(stencil(a, lo, hi))), b(I, J, ...) = 0 and b(I, J, ...) += map(wrank<r, r>(multiplies), stencil(a, lo, hi), mask), and b(I, J, ...) = 0 and for_each(wrank<0, r, r>([](auto && b, auto && a, auto && m) { b += a*m; }), b(I, J, ...), stencil(a, lo, hi), mask) leaves the same in b: each element that isn't in the margins is the sum, in row-major order of the mask, of the products of the mask by the elements of a around the same place, and nothing else changes. Margins that don't fit are refused and nothing changes.", "quantifier": "all ranks, shapes, steps, margins, contents, any two operations in place of + and * and any value in place of 0", "why_tests_cant": "the benchmark compares the programs for one mask; the equality with operations that aren't associative (as those of floating point) isn't checked", "anchors": ["bench/bench-stencil2.cc", "ra/arrays.hh: stencil", "ra/expr.hh: Framematch", "ra/ra.hh: sum"]}
{"id": "C116", "title": "Rotation along an axis with slices", "statement": "Let x and a be arrays of the same shape that don't overlap, and k one of their axes, of length n>0. Then x(all..., iota(len-1, 0)) f= a(all..., iota(len-1, 1)), x(all..., len-1) f= a(all..., 0), with k all's, do x(i) f= a(i moved by 1 on axis k) where what goes out at the end comes in at the beginning; with the slices of the two exchanged, it's moved by -1; this for any assignment f= (=, += ...). One after the other gives the same array, and twice the first is moving by 2. If the length is 0 both are refused and nothing changes. Done for several axes, first with = and then with +=, x is the sum of the moved arrays in order. The step of the wave equation, A(t+1) = X + Y - A(t-1) - 4*A(t) with those sums of A(t) in X and Y, writes at A(t+1) the value by the elements of A(t) and A(t-1), and changes nothing else but X and Y.", "quantifier": "all ranks, axes, shapes, steps, contents; any operations", "why_tests_cant": "the example tests rank 4 with one initial value, and only the element at one place", "anchors": ["examples/maxwell.cc", "ra/ply.hh: iota", "ra/ply.hh: from", "ra/ply.hh: wlen", "ra/expr.hh: operator="]}
{"id": "C117", "title": "Differences along an axis, antisymmetric part and divergence", "statement": "Let DA have the lengths of A and one more axis. The program of three assignments of differences of slices, DA(all..., iota(len-2, 1), all..., c) = A(all..., iota(len-2, 2)) - A(all..., iota(len-2, 0)) and those for the two ends, then DA(all..., c) *= factor, leaves at DA(i, c) the value (A(i moved by 1 on axis k) - A(i moved by -1))*factor, around the ends, and changes nothing else; this for lengths 2 or more, and for fewer nothing changes. F = transpose(DA, {0 ... r-1, r+1, r}) - DA leaves at F(i, a, b) the value DA(i, b, a) - DA(i, a, b), so F is antisymmetric in the last two axes; it's refused if the last two lengths differ. d += transpose(DA, {0 ... r-1, r, r}) adds at d(i) all of DA(i, a, a) in order, up to the shorter of the two lengths; d = map(sum, iter<1>(transpose(DA, {0 ... r-1, r, r}))) is the same from zero.", "quantifier": "all ranks, axes, shapes, steps, contents; any operations", "why_tests_cant": "the example tests one element of F and the maximum of the divergence, which is 0", "anchors": ["examples/maxwell.cc", "ra/arrays.hh: transpose", "ra/ply.hh: iota", "ra/ply.hh: from", "ra/expr.hh: Match", "ra/ra.hh: sum"]}
{"id": "C118", "title": "Totals of the cells of an array", "statement": "sum(iter<cr>(a)) is a new array of the shape t of the cells of a; its element j is what comes from the initial value by adding the elements j of all of the cells in row-major order of the frame. The same for prod. The shape is right as well when there are no cells. scalar(c) f= iter<cr>(a) and scalar(c) = g(scalar(c), iter<cr>(a)) do the same as iter<rank of c>(c) f= iter<cr>(a), and leave in c the total of the cells by f from the first value of c; nothing else changes. d = map(sum, iter<n>(a)) leaves at d(i) the sum of the cell i of a; with amax, the element of the cell i that no other is above, or the lowest value if the cell is empty.", "quantifier": "all ranks, frames, cell ranks (positive or negative), shapes, steps, contents; any operations", "why_tests_cant": "the test has one shape of each, and operations whose order doesn't matter", "anchors": ["ra/ra.hh: sum", "ra/ra.hh: prod", "ra/ra.hh: amax", "ra/expr.hh: Scalar", "ra/expr.hh: Cell", "test/reduction.cc"]}
{"id": "C119", "title": "Laws of operations on whole arrays", "statement": "every(!a) is !any(a) and any(!a) is !every(a). any(a) is index(a)>=0. Exactly one of lexical_compare(a, b), lexical_compare(b, a), every(a==b) is true. dot(a, b) is sum(a*b). sum(a+b) is sum(a)+sum(b). sum(h(a)) is h(sum(a)) for an h with h(u+v) = h(u)+h(v). cdot(b, a) is conj(cdot(a, b)). reduce_sqrm(a) is dot(a, a) where sqrm(x) is x*x. amax(-a) is -amin(a). sum, prod, any, every, amin and amax give for transpose(a, p) (p a permutation of the axes), reverse(a, k) and reshape(a, s) (as many elements) what they give for a; sum and prod of reshape(a, s) also with operations that aren't commutative. dot(transpose(a, p), transpose(b, p)) is dot(a, b). sum(cat(a, b)) is sum(a)+sum(b).", "quantifier": "all shapes, steps, contents; any operations with the laws named (associative, neutral element, commutative, total order); arguments without elements excepted for sums of general expressions", "why_tests_cant": "the tests have each function on its own, with a few arrays", "anchors": ["ra/ra.hh: any", "ra/ra.hh: every", "ra/ra.hh: index", "ra/ra.hh: lexical_compare", "ra/ra.hh: sum", "ra/ra.hh: dot", "ra/ra.hh: cdot", "ra/ra.hh: amin", "ra/ra.hh: RA_BINOP", "ra/arrays.hh: transpose", "ra/arrays.hh: reverse", "ra/arrays.hh: reshape", "ra/arrays.hh: cat"]}
{"id": "C120", "title": "Conjugate gradients (examples/cghs.hh)", "statement": "Let mult(a, v, w) put L v in w, where L is linear. If cghs(mult, a, b, x, work, eps) returns i, then reduce_sqrm(b-L x) isn't greater than sqr(eps)*reduce_sqrm(b), b hasn't changed, and nothing but x, work and what mult keeps for its own use has. If i is 0 then x hasn't changed. If mult writes only a part of w, as it does when there's a border, then the rest of x isn't changed. If L is symmetric and positive definite on the arrays that are zero out of that part, then cghs returns, after at most as many iterations as there are elements in the part; and if eps is 0, then L x = b. If x is zero and L b is lam times b, then either one iteration is done and lam x = b, or none, and then reduce_sqrm(b) isn't greater than sqr(eps)*reduce_sqrm(b).", "quantifier": "all shapes, steps, contents, eps; every linear L; x not overlapping b, work not overlapping either; elements of an ordered field", "why_tests_cant": "the example runs one matrix with one right hand side, and tests the error and the number of iterations with a tolerance", "anchors": ["examples/cghs.hh: cghs", "ra/ra.hh: reduce_sqrm", "ra/ra.hh: dot"]}
{"id": "C121", "title": "Equations of examples/laplace2d.cc", "statement": "mult(StiffMat, v, w) puts 4*v(i, j)-v(i-1, j)-v(i, j-1)-v(i+1, j)-v(i, j+1) in the interior of w. This is symmetric and positive definite on the arrays that are zero on the border. So the equations 4*u(i, j) = b(i, j)+u(i-1, j)+u(i+1, j)+u(i, j-1)+u(i, j+1) have only one solution with given border, and cghs gives it with eps 0, in no more than (m-2)*(n-2) iterations, without changing the border of x. With any eps it ends in so many iterations with the residual in the tolerance.", "quantifier": "all m, n >= 2; all contents; b zero on the border; elements of an ordered field", "why_tests_cant": "the example has one size, one right hand side, one tolerance", "anchors": ["examples/laplace2d.cc: mult", "examples/cghs.hh: cghs"]}
{"id": "C122", "title": "Ways to multiply matrices (bench/bench-gemm.cc)", "statement": "for_each with verbs wrank<1, 2, 1> and wrank<0, 1, 1>; a loop on k of for_each with wrank<0, 1, 1> on a(all, k), b(k) and c; a loop on k of c += from(times, a(all, k), b(k)); gemm(a, b, c); the recursion that halves the longest of the three lengths until it isn't over a bound; and the two orders of loops over the data of packed arrays: all of them add to each c(i, j) the products a(i, k)*b(k, j) in order of k, change nothing else, and so leave the same memory, even if the sum isn't associative. c(i, j) = dot(a(i), b(all, j)) sets the same sum started from 0, which is the same if c was 0.", "quantifier": "all lengths (0 included), steps, contents, operations in place of sum and product, bounds of the recursion >= 1, both traversals; c not overlapping a or b nor itself", "why_tests_cant": "the benchmark has a few sizes, with real numbers and exact integers, and compares only with gemm", "anchors": ["bench/bench-gemm.cc: gemm1", "bench/bench-gemm.cc: gemm_block", "ra/ra.hh: gemm", "ra/ply.hh: from", "ra/expr.hh: Framematch"]}
{"id": "C123", "title": "Matrices by elements (examples/laplace3d.cc)", "statement": "mult0(A, v, w) and mult1(A, v, w) leave in w the product by v of the matrix that is the sum of the copies of A.M at the rows and columns A.E(n).v, with zero in the rows A.B, times A.h; so they leave the same w. mult0 changes nothing else; mult1 changes the registers of the elements too. The product is linear. If A.M is symmetric, then the product is symmetric among the arrays that are zero at A.B, and the product of A v by w is A.h times the sum on the elements of that of A.M v(E.v) by w(E.v).", "quantifier": "all numbers of vertices and of elements, matrices, lists of vertices (each without repetitions), borders (with or without), contents; w not overlapping v nor itself, nor the matrix nor the registers; elements of an ordered field", "why_tests_cant": "the example has one mesh, and looks only at the solution of one equation", "anchors": ["examples/laplace3d.cc: mult0", "examples/laplace3d.cc: mult1", "ra/ra.hh: gemv", "ra/ply.hh: from"]}
{"id": "C124", "title": "The mesh and the equations of examples/laplace3d.cc", "statement": "ply(from(..., i, i, i, iota(8))) leaves in E(pos(n, i, j, k)).v the corners of the cell i, j, k, each once, and the loops leave in B the vertices on the six faces and no others. With those and the tables SM and MM, the product by the stiffness matrix at a vertex out of the border is A.h times 16/3 of the element there, minus 1/3 of those two steps away and 1/6 of those three steps away (counting steps along the axes, and with none of those one step away); that by the mass matrix has 64/27, 16/27, 4/27 and 1/27. Both are symmetric and the stiffness matrix is positive definite. So with a right hand side that is zero in the border, there's at most one solution with given border values, cghs with mult0 or mult1 ends after (n-1)^3 iterations at most, doesn't change the border of x, and with eps = 0 it leaves the solution. If the right hand side is the mass matrix by a product of the same function of each index, zero at both ends, such that s(i-1)+s(i+1) is g*s(i), and x is zero, then cghs does one iteration at most, and if it does one then x is that product times a quotient that depends only on g and h.", "quantifier": "all n >= 1, g, h, eps, functions, contents of the memory before; arrays and registers without overlap; elements of an ordered field", "why_tests_cant": "the example has n = 50, one function and one tolerance, in floating point, and looks at the number of iterations and the largest error", "anchors": ["examples/laplace3d.cc: main", "examples/laplace3d.cc: SM", "examples/laplace3d.cc: MM", "examples/laplace3d.cc: ISF", "examples/laplace3d.cc: pos", "examples/cghs.hh: cghs"]}
{"id": "C125", "title": "The result of examples/laplace3d.cc", "statement": "In exact arithmetic, for any n >= 2 and eps with eps*eps < 1, after mult(MM, aux, b) and cghs(mult, SM, b, x, work, eps) as in the program, the number of iterations is 1 and each element of abs(c-x) isn't greater than PI*PI/(12*n*n). So for n = 50 the two tests of the program pass: err isn't greater than 0.00033 and its isn't greater than 1.", "quantifier": "all n >= 2, eps, with mult0 or mult1; arrays and registers without overlap; elements real numbers", "why_tests_cant": "the program has n = 50 in floating point", "anchors": ["examples/laplace3d.cc: main", "examples/laplace3d.cc: f", "examples/laplace3d.cc: g"]}
{"id": "C126", "title": "The program examples/laplace2d.cc", "statement": "For any N >= 1, with h = 1/N: mult(MassMat, v, w) gives each element of the interior of w h*h times the half of that of v plus the twelfth of the six next to it on the row, the column and the diagonal, and this matrix is symmetric, and positive definite if h isn't 0. After the program, v has g(i*h, j*h) and w has f(i*h, j*h) in the interior, b is the product of the mass matrix with w, they are 0 on the border as u is; its isn't greater than (N-1)*(N-1); the norm of what is left of b without the product of the stiffness matrix with u isn't greater than EPS times that of b; and max is the greatest of abs(u-v). If what is left with v in place of u isn't greater than D in any element, and EPS times the norm of b isn't greater than R, then max isn't greater than N*N*(D+R)/8.", "quantifier": "all N >= 1, functions f, g, EPS, numbers of any ordered field, arrays without overlap, initial memory", "why_tests_cant": "the program has one N, f and g, in floating point, and compares max with one number", "anchors": ["examples/laplace2d.cc: mult", "examples/laplace2d.cc: main", "examples/laplace2d.cc: MassMat"]}
{"id": "C127", "title": "The program examples/newton.cc", "statement": "For n bodies in any number of dimensions with masses m, after one pass of the loop: F(i, j) is 0 if i = j and else (x(j)-x(i))*(G*m(i)*m(j)/pow(s, 3/2.)) with s the sum of the squares of x(j)-x(i), each v(i) is increased by delta times the sum over j of F(i, j)/m(i), and each x(i) is increased by delta times the new v(i); m is unchanged. So for any number of passes. If the numbers are a field and no mass is 0, the sum of m*v is unchanged by the loop, the sum of m*x increases in each pass by delta times that of m*v, and the sum of m*(x(k)*v(l)-x(l)*v(k)) is unchanged for any axes k, l. draw() in both of its ways sets the element of orbit at the position of each body, brought into 0 ... 49, to the character of the last body there, and leaves the other elements.", "quantifier": "all numbers of bodies, dimensions, passes, initial states, operations (any field for the sums), arrays without overlap", "why_tests_cant": "the program isn't a test and is only run by eye, for two bodies", "anchors": ["examples/newton.cc: main", "examples/newton.cc: force", "examples/newton.cc: draw"]}
{"id": "C128", "title": "The ways to multiply a matrix and a vector of bench/bench-gemv.cc", "statement": "For a of any lengths n, l and steps and b of length l, gemv_0, gemv_i and gemv_j give a new array of length n whose element i is ((0 + a(i, 0)*b(0)) + a(i, 1)*b(1)) + ..., the same as gemv(a, b) of the library, and for a of lengths l, n gevm_i and gevm_j give a new array of length n whose element j is ((0 + b(0)*a(0, j)) + b(1)*a(1, j)) + ..., the same as gevm(b, a). Nothing else in memory changes. This is for any + and *, so the results are the same to the last bit.", "quantifier": "all views a and b (transposed or reversed ones as well), all lengths including 0, operations, contents of memory", "why_tests_cant": "the benchmark compares for a few sizes and values which are small integers, so it doesn't tell one order of the additions from another", "anchors": ["bench/bench-gemv.cc: gemv_0", "bench/bench-gemv.cc: gemv_i", "bench/bench-gemv.cc: gemv_j", "bench/bench-gemv.cc: gevm_i", "bench/bench-gemv.cc: gevm_j", "ra/ra.hh: gemv", "ra/ra.hh: gevm"]}
{"id": "C129", "title": "The ways to add the rows or the columns of a matrix of bench/bench-sum-rows.cc and bench/bench-sum-cols.cc", "statement": "For c of length n and a of lengths l, n in other memory, each of the ways raw, rows, wrank1, wrank2, scalar, iter and transp leaves c(j) as ((c(j) + a(0, j)) + a(1, j)) + ..., for any +, and the way sideways as c(j) + (((0 + a(0, j)) + a(1, j)) + ...). For a of lengths n, l each of raw, sideways, wrank1 and framematch leaves c(i) as ((c(i) + a(i, 0)) + a(i, 1)) + ..., and accumcols as c(i) + (((0 + a(i, 0)) + a(i, 1)) + ...). Nothing else changes. If + is associative and 0 is neutral then all the ways agree.", "quantifier": "all views (raw: with elements one after another), all lengths including 0, operations, contents of memory", "why_tests_cant": "the benchmarks compare with integers, whose sums are exact, so the two groupings of the additions aren't told apart", "anchors": ["bench/bench-sum-rows.cc: raw, sideways, rows, wrank1, wrank2, scalar, iter, transp", "bench/bench-sum-cols.cc: raw, sideways, accumcols, wrank1, framematch"]}
{"id": "C130", "title": "The reductions with fma, when RA_FMA is set", "statement": "With RA_FMA (the default where FP_FAST_FMA is defined) dot(a, b) of real or complex arrays is, in exact arithmetic, the sum of the products of the elements, cdot(a, b) that of conj(a)*b, and reduce_sqrm(a) that of the squared magnitudes: the same as without it. dot of arrays of integers is the exact sum of the products, as it is without RA_FMA, whenever that can be represented.", "quantifier": "all arguments, shapes and strategies", "why_tests_cant": "the tests are built with one value of RA_FMA, and use small integers", "anchors": ["ra/ra.hh: RA_FMA", "ra/ra.hh: maybe_fma", "ra/ra.hh: maybe_fma_conj", "ra/ra.hh: maybe_fma_sqrm", "ra/ra.hh: fma", "ra/ra.hh: fma_conj", "ra/ra.hh: fma_sqrm", "ra/ra.hh: dot", "ra/ra.hh: cdot", "ra/ra.hh: reduce_sqrm"]}
{"id": "C131", "title": "How far the reductions of double are from the exact values", "statement": "For arrays of finite double with n elements, u = 2^-53: sum(a) is within ((1+u)^(n-1) - 1) times the sum of |a| of the exact sum. dot(a, b), with fma or without it, cdot(a, b) with fma, reduce_sqrm(a) in both ways, each element of gemm(a, b) and of gemv(a, b) are within ((1+u)^n - 1) times the sum of the |products|, plus (1+u)^n * n * 2^-1075, of the exact values. They are finite if these sums are less than 2^1024 by a factor (1+u)^n. If all the elements are integers and the sum of the magnitudes is no more than 2^53 then sum, dot and gemm are exact. The sum of zeros is +0, even if all of them are -0, and dot of empty arrays is +0.", "quantifier": "all arguments, shapes, strategies, with any finite values including those that underflow", "why_tests_cant": "for any finite set of values; the exact comparisons (test_eq) in the tests and benchmarks rely on the last part", "anchors": ["ra/ra.hh: sum", "ra/ra.hh: dot", "ra/ra.hh: cdot", "ra/ra.hh: reduce_sqrm", "ra/ra.hh: gemm", "ra/ra.hh: gemv", "ra/ra.hh: maybe_fma"]}
{"id": "C132", "title": "The order of evaluation of the arguments", "statement": "If no argument of an operation in an expression has an effect (the operation at the root, such as an assignment, may have), then the shape of the expression, whether it is accepted, and the results and effects of its traversal don't depend on the order in which the arguments of each operation are evaluated, including when some of the operations fail a check.", "quantifier": "all expressions, operations, shapes, strategies, early exits and orders, also different for each operation in the expression", "why_tests_cant": "each compiler picks one order, and the tests cannot pick another", "anchors": ["ra/expr.hh: Map", "ra/expr.hh: Pick", "ra/ply.hh: ply", "ra/ply.hh: ply_ravel", "ra/ply.hh: ply_fixed"]}
{"id": "C133", "title": "Overflow when a traversal is set up", "statement": "Traversing (for_each, assignment, reductions) an expression of dynamic size whose arguments are arrays that can be made, or views of them, doesn't overflow dim_t in the products of lengths and steps that decide which axes are merged. (True for expressions on whole arrays of any lengths. False for a transposed empty array.)", "quantifier": "all expressions, ranks and 64-bit lengths", "why_tests_cant": "needs arrays with axes of about 2^31 elements or more, and empty or with repeated elements", "anchors": ["ra/ply.hh: ply_ravel", "ra/expr.hh: keep"]}
{"id": "C134", "title": "The second derivative of examples/deriv.cc", "statement": "In real arithmetic, for any number n >= 3 of samples, examples/deriv.cc samples cos^2 at i/n, each element 1 <= i < n-1 of y2 is within 2/(3n^2) of the second derivative of cos^2 at i/n, and the error that the program prints is the root mean square of these differences, so no more than 2/(3n^2). Nothing but the three arrays is written, and not the ends of y2.", "quantifier": "all n >= 3, all places of the arrays in memory, all strategies", "why_tests_cant": "the example prints one number for n = 100 and checks nothing", "anchors": ["examples/deriv.cc", "ra/ra.hh: opt", "ra/arrays.hh: tindex"]}
{"id": "C135", "title": "The ways to fill an array of complex numbers in bench/bench-pack.cc", "statement": "For any length n >= 0 and any vector a of n complex numbers with elements at different places, each of `real_part(a) = iota(n); imag_part(a) = n-iota(n)`, the same on the two columns of `collapse<real>(a)`, `a = pack<complex>(iota(n, 0.), n-iota(n, 0.))`, `a = iota(n, 0.) + xi(n-iota(n, 0.))`, and (if a is contiguous) the loop on pointers to real, gives element i the real part i and the imaginary part n-i, and changes nothing else; so they all leave the same memory.", "quantifier": "all lengths, steps, places, previous contents, sizes of real, both traversals", "why_tests_cant": "the benchmark checks sizes 10, 100, 1000, etc. on one array each, and not what's outside of the array", "anchors": ["bench/bench-pack.cc", "ra/ra.hh: real_part, imag_part, xi", "ra/expr.hh: pack", "ra/arrays.hh: collapse"]}
{"id": "C136", "title": "pack as a destination", "statement": "`pack<std::tuple<T & ...>>(d ...) = pack<std::tuple<T ...>>(e ...)`, with arrays d of the same shape and elements at different places, gives each d the elements of the corresponding e (which may be of lower rank), and changes nothing else; the e may use the elements of the d at the same index, so arrays can be exchanged or permuted this way, e.g. `pack<std::tuple<T &, T &>>(a, b) = pack<std::tuple<T, T>>(b, a)` exchanges a and b. With references on the right hand side a and b both become b.", "quantifier": "all numbers of arrays, ranks, shapes, steps; any permutation or selection of the arrays; both traversals", "why_tests_cant": "test/operators.cc has one case, with three elements and a source that doesn't depend on the destination", "anchors": ["ra/expr.hh: pack", "ra/expr.hh: RA_ASSIGNOPS", "test/operators.cc: pack operator as ref"]}
{"id": "C137", "title": "Owners of memory: Big, Unique, Shared", "statement": "In any program that makes, copies, moves, swaps, fills, assigns and destroys containers: a copy of a Big has elements of its own, so writing to one doesn't change the other; copies of a Shared have the same elements, so what is written through one is read through all of them, even if the first one has been destroyed, and `a = b` between containers of the same type makes a another copy of b instead of writing to the elements of a; a Unique or anything else that is moved gives its elements to the new one. shared_borrowing(a) has the elements of a while there is an owner of them. Every block of memory is freed when its last owner is gone and not before, even when blocks are reused, and no operation is undefined other than using the elements of a container that has been moved from.", "quantifier": "all programs, containers, kinds, ranks and shapes", "why_tests_cant": "test/ownership.cc has one short sequence for each of the kinds", "anchors": ["ra/arrays.hh: storage_traits", "ra/arrays.hh: Array", "ra/arrays.hh: shared_borrowing", "test/ownership.cc"]}
{"id": "C138", "title": "The destination on both sides of an assignment", "statement": "In m = f(c, m), where m has the first axes of c, each element of m goes through the elements of c that go with it in row-major order, each time with the result of the previous one, so that m = max(c, m) leaves in m the largest of what was there and of each row of c, and m = m + c adds the rows up. In general a = a + e does the same as a += e, with any e, even one that reads or writes a or that fails, and if the shapes don't match neither of them does anything. Nothing else is written.", "quantifier": "all expressions, shapes, operations and traversals", "why_tests_cant": "test/reduction-1.cc prints the result of one case without checking it", "anchors": ["ra/expr.hh: ASSIGNOPS", "ra/ply.hh: ply_ravel", "ra/ply.hh: ply_fixed", "test/reduction-1.cc"]}
{"id": "C139", "title": "The ways to add up products", "statement": "for_each([&y](a, b){ y += a*b; }, a, b), the same with the product in a separate map(), the same with wrank<0, 0>, loops over the indices of the arrays, and if both arrays are contiguous a loop with pointers, all give the same result, with the sums in the same order, with both traversals. y += sum(a*b) and y += dot(a, b) are y plus the sum, which is the same if the addition is associative. If the lengths don't match the traversals do nothing; the loops fail if b is shorter and use part of b if it's longer.", "quantifier": "all shapes, ranks, layouts, operations and traversals", "why_tests_cant": "bench/bench-dot.cc and bench/bench-reduce-sqrm.cc compare results on a few shapes, where all the elements are the same, with a tolerance", "anchors": ["ra/ply.hh: for_each", "ra/expr.hh: Framematch", "ra/ra.hh: dot", "ra/ra.hh: reduce_sqrm", "bench/bench-dot.cc", "bench/bench-reduce-sqrm.cc"]}
{"id": "C140", "title": "Indirect access: lists of indices, products of lists and strips", "statement": "at(A, I) = at(B, I) copies to A the elements of B at the indices in I and no others, also if an index is in I more than once, and for_each([](c) { at(A, c) = at(B, c); }, I) does the same with any arguments. A(I, J, ...) = B(I, J, ...), with any subscripts among the arrays of indices, copies the elements that they select and no others. A loop of A(i, j) = B(i, j) over a list of rows i and ranges j copies the elements in the strips and A = where(p(_0, _1), B, A) those where p is true; on the disc of examples/indirect.cc, if the length is odd and not a multiple of 5, both give the same. c = b + a(iota()) has the length of b; if a is shorter it fails at the end of a, with the elements before written.", "quantifier": "all arrays, layouts, lists of indices, subscripts and traversals", "why_tests_cant": "examples/indirect.cc prints results of one size without checking them; the length in the last of its examples is 7, and with 4 or 5 the strips and where() differ", "anchors": ["ra/ra.hh: at", "ra/ply.hh: from", "ra/expr.hh: Pick", "ra/expr.hh: ASSIGNOPS", "examples/indirect.cc"]}
{"id": "C141", "title": "The ways to add up the cells of an array in the README are equivalent", "statement": "With the shape of A that of B and then other axes, B = 0; B += A, for_each([](auto && b, auto && a) { b = sum(a); }, B, iter<cr>(A)) with the rank of the cells, and the same with minus the rank of B, all leave in B(i ...) the sum of A(i ..., ...). With larger cells, for_each leaves in B(i, j) the sum of A(i, ...) for every j. for_each([](auto && b, auto && a) { b = sum(a); }, B, A), which examples/read-me.cc says is equivalent, isn't: its operation gets elements, so that it leaves the last element of A(i ..., ...).", "quantifier": "all arrays, layouts, ranks of cells, operations and traversals", "why_tests_cant": "examples/read-me.cc prints B without checking it, and the loop that differs comes before two that overwrite what it left", "anchors": ["ra/ply.hh: for_each", "ra/ra.hh: sum", "ra/expr.hh: iter", "examples/read-me.cc"]}
{"id": "C142", "title": "Programs of the manual, and their results", "statement": "scalar(a) op= e takes in a each element of e in row-major order (with = it leaves the last one), so that in scalar(a) += k + v the k is added with each element of v. op(a, transpose(b, ilist<rank a, rank a + 1, ...>)) is the outer product, with the axes of a first. map([](auto && a) { return sum(diag(a)); }, iter<-1>(c)) gives for each i the sum of c(i, j, j). c(i) = x writes x in the elements of c that have i first, and no others, and is refused if there's no i. y += x; iter(x) += y leaves y + x in y and x + (y + x) in x. ply(where(p(n), map(o.push_back, n), map(e.push_back, n))) puts in o the elements with p and in e the others, in row-major order; with map instead of where, both get all of them. The results that the manual prints for eight such programs aren't those.", "quantifier": "all arrays, layouts, operations, elements and traversals", "why_tests_cant": "the programs of the manual aren't compiled, and the few that have a copy among the examples print the result without checking it", "anchors": ["ra/ply.hh: ply_ravel", "ra/expr.hh: scalar", "ra/arrays.hh: transpose", "ra/arrays.hh: reverse", "ra/ply.hh: from", "ra/ra.hh: where", "docs/ra-ra.texi"]}
{"id": "C143", "title": "Ways to select elements by lists of indices", "statement": "B = A(I, J, ...), a loop of B(i, j, ...) = A(I(i), J(j), ...), for_each([&A](auto & b, auto i) { b = A(i); }, B, I) (with one axis), a loop of B(i, ...) = A(I(i), ...)(J) and a loop on the raw memory all leave in B(i, j, ...) what was in A(I(i), J(j), ...), and change nothing else. If one of the indices isn't in range, the first four are stopped at the first element of B, in row-major order, that takes it: the ones before that have been copied, and the others are as before. The loop on the raw memory never stops.", "quantifier": "all ranks, layouts, lists of indices, elements and traversals", "why_tests_cant": "the benchmark has square arrays with the same list on every axis and no index that is out of range", "anchors": ["ra/ply.hh: from", "ra/arrays.hh: ViewBig", "ra/ply.hh: for_each", "bench/bench-from.cc"]}
{"id": "C144", "title": "Sums of the elements at a list of indices", "statement": "A loop of val += C(I(i, 0), I(i, 1), ...), a loop of val += at(C, I(i)) and sum(at(C, iter<1>(I))) give the same: the sum, in the order of the rows of I, of the elements of C that they are for. Each row may have more entries than C has axes, and then the others aren't used. If an entry that is used isn't in range then the three are refused.", "quantifier": "all ranks of C, layouts, lists of indices, additions and traversals", "why_tests_cant": "the benchmark has one list of indices where all of them are in range, and compares the sums only", "anchors": ["ra/ra.hh: at", "ra/ra.hh: sum", "ra/expr.hh: indexer", "bench/bench-at.cc"]}
{"id": "C145", "title": "Indices as arguments: c += 2*i-j over a+tindex<0>, a+tindex<1>", "statement": "int c = 0; ply(map([&c](auto && i, auto && j) { c += 2*i-j; }, a+tindex<0>, a+tindex<1>)) leaves in c, modulo 2^32, the sum of a(i, j) + 2*i - j for all i, j. For a of MxN zeros that's M*N*(2*(M-1) - (N-1))/2 if it fits in an int: 499500000 with 1000x1000, also for the transpose of a.", "quantifier": "all layouts, lengths, elements and traversals", "why_tests_cant": "the benchmark has one array of zeros and its transpose", "anchors": ["ra/arrays.hh: tindex", "ra/ply.hh: ply_ravel", "ra/expr.hh: Map", "bench/bench-tensorindex.cc"]}
{"id": "C146", "title": "to_ravel() from any range", "statement": "to_ravel(x, b), where x is a view with any steps, a container, or any expression, writes in b the elements of x in row-major order: the k-th element of b, in row-major order of its own shape, is the k-th element of x. Nothing else is written. The shapes don't have to be the same, but if the sizes aren't equal then it's refused and nothing is written. The elements of x must not depend on b.", "quantifier": "all shapes and layouts of x and b, expressions and elements, with pointers or with the iterator on either side", "why_tests_cant": "the tests have a few containers and one expression, to a compact array, and no mismatch of sizes", "anchors": ["ra/arrays.hh: to_ravel", "ra/ply.hh: STLIterator", "ra/arrays.hh: begin", "examples/read-me.cc"]}
{"id": "C147", "title": "Programs on ranges: numbering the elements, std::accumulate, count, count_if", "statement": "int i = 0; for (auto & a: A) { a = i; ++i; } numbers the elements of A in row-major order, whatever the layout, and then to_ravel(A, B) gives 0, 1, 2, ...; A = _0 gives the first index and A = iota(size(A)), with rank 1, the same, so with rank 1 the three leave the same memory. std::accumulate(begin(e), end(e), 0) is sum(e), with the same order of the additions. count(range(e), true) is the number of elements of e that are true, and so is sum(cast<int>(e)). count_if(range(iter<n>(A)), any(x==0)) is the number of n-cells of A with a zero.", "quantifier": "all shapes, layouts, expressions, additions, elements and ranks of the cells", "why_tests_cant": "the benchmark and the example in the manual have one array each; the order of the additions isn't seen with integers", "anchors": ["ra/ply.hh: STLIterator", "ra/ply.hh: begin", "ra/ra.hh: sum", "ra/ra.hh: any", "bench/bench-iterator.cc", "examples/read-me.cc"]}
{"id": "C148", "title": "Four ways to write an outer product, and assignment with prefix agreement or inserted axes", "statement": "A = from(*, x, y), A = x * y(insert<rank x>) and A = x * transpose(y, ilist<rank x ...>) leave the product of x(i ...) and y(j ...) in A(i ..., j ...) and nothing else changes; if the shape of A isn't that of x followed by that of y, nothing is written. With x and y of rank 1, A = x(i) * y(j), where i = tindex<0> and j = tindex<1>, leaves the same. But there the lengths are those of A: if A is smaller the first elements of x and y are used, and if A is larger it stops at the first index that is out of range for x or y, with the elements before that one written. A = b, where the shape of b is a prefix of that of A, leaves b(i ...) in A(i ..., ...), and A = c(insert<k>), where the shape of c is that of A without the first k axes, leaves c(j ...) in A(..., j ...).", "quantifier": "all ranks, lengths, layouts, elements and multiplications; rank 1 for the form with tindex", "why_tests_cant": "the examples have one size and print the results", "anchors": ["ra/ply.hh: from", "ra/expr.hh: Map", "ra/arrays.hh: transpose", "ra/arrays.hh: tindex", "examples/outer.cc", "examples/agreement.cc"]}
{"id": "C149", "title": "Subscripts that can be written in several ways", "statement": "dots<0> among the subscripts has no effect; dots<n>, dots<k> is dots<n+k>, and so n times all is dots<n>; dots<> is dots<n>, where n is the number of axes that the other subscripts leave; dots<n> at the end can be omitted, and so can all; iota(len) is all. In each case the view that results is the same, or both are refused. A(subs ...) = x writes x in all the elements that subs select, and nothing else, also if some of them are the same element. A(..., i, ...) = x and A(..., iota(1, i), ...) = x do the same.", "quantifier": "all views, any other subscripts before and after, all elements", "why_tests_cant": "the example has two arrays and prints the results, and it doesn't compare them", "anchors": ["ra/ply.hh: from", "ra/ply.hh: fromb", "ra/ply.hh: dots", "ra/expr.hh: iota", "examples/slicing.cc"]}
{"id": "C150", "title": "The heat equation of examples/view.cc gives what it says, and only that", "statement": "In examples/view.cc, each step B(I, J, K) = c * (.5*A(I, J, K) + A(I+1, J, K) + ...) leaves in each element of B that isn't on a face the value for A at the six neighbors and at the element itself, operations in the order they are written, and changes nothing else; the loop leaves A as that recurrence gives, k times, and never writes on the faces of A or B. The two forms, with I+1, I-1 and with the names Ip, Im, do exactly the same, and so first_A is A at the end. If the arrays have less than 2 elements on some axis the first step is refused. The values that A gets are given by the program: they don't depend on what was in the memory that was given to the arrays.", "quantifier": "all lengths N (at least 2), all numbers of iterations, all layouts, all elements and operations", "why_tests_cant": "the example has one size, it compares the two forms to each other, both of which read the same memory, and on most systems that memory is 0 at first", "anchors": ["examples/view.cc", "ra/ply.hh: from", "ra/ply.hh: iota", "ra/arrays.hh: Array", "ra/base.hh: default_init_allocator"]}
{"id": "C151", "title": "Six ways to apply a stencil again and again on two arrays that change places", "statement": "In bench-stencil1.cc, bench-stencil2.cc and bench-stencil3.cc, each of the operations (for loops with A(i, ...); A(I+1, ...) and such; a function on each cell of stencil(A, 1, 1); sum(s*mask) on each cell; += of the product of the stencil by the mask; and ply of A += B*C) leaves in the elements of Anext that aren't at the ends of any axis c times the element of A, plus its neighbors, and changes nothing else; the last three if the mask has c at the center, 1 on the neighbors and 0 elsewhere. After std::swap(A.cp, Anext.cp), Astencil.cp = A.data() makes Astencil the stencil of the other array. After any number k of times A has what that recurrence gives, whatever the operation and whatever was in the arrays before they were set; A and Anext are back in their places if k is even, and have changed places if it's odd. If some length is less than 2, the loops do nothing and the other five are refused.", "quantifier": "all ranks (the benchmarks have 1, 2, 3), all lengths of 2 or more, all layouts that are the same for both arrays, all numbers of times, all elements for the first three operations, and those of a ring for the others", "why_tests_cant": "the benchmarks have one size each, 10 times, and compare with a tolerance", "anchors": ["bench/bench-stencil1.cc", "bench/bench-stencil2.cc", "bench/bench-stencil3.cc", "ra/arrays.hh: stencil", "ra/ply.hh: from", "ra/expr.hh: wrank"]}
{"id": "C152", "title": "Choosing with where() and pick()", "statement": "In where-pick.cc, y = where(abs(x)>2, x+10, x-10) leaves in y(i) x(i)+10 if abs(x(i))>2 and x(i)-10 otherwise, and z = pick(where(x<0, 0, where(x==0, 1, 2)), x*3, 77, x*2) leaves in z(i) 3*x(i), 77 or 2*x(i) if x(i) is negative, zero, or neither. Nothing else changes. In general in y = where(c, t, f) and y = pick(k, t ...) only the argument that is chosen for y(i) needs to have an element i; if k(i) isn't the number of any of the arguments, the assignment stops there with an error, the elements of y that come before in row-major order have been assigned, and the others haven't. Assigning from or to where(!c, f, t) is assigning from or to where(c, t, f).", "quantifier": "all ranks, lengths, layouts and types of the elements, with any operations on them; arguments with side effects or errors in the last law", "why_tests_cant": "the example has one x of 7 elements, and choices that are never out of range", "anchors": ["examples/where-pick.cc", "ra/ra.hh: where", "ra/expr.hh: Pick"]}
{"id": "C153", "title": "An array assigned to an array of arrays with fewer axes", "statement": "In 'b OP e', where b is an array of shape s of arrays of shape t, and e has shape s ++ u and elements that are not arrays, each element of each b(i) is combined by OP with all the e(i, k) for k in u, in row-major order. So b = a, as in pitfall.cc, gives the last a(i, k) to all the elements of b(i); if u has a zero then nothing is assigned. If the lengths of a common axis differ, b isn't changed.", "quantifier": "all s, t, u, all layouts of b and a, all assignment operators", "why_tests_cant": "the example says 'probably' and doesn't check; one shape", "anchors": ["examples/pitfall.cc", "ra/arrays.hh: SmallArray", "ra/expr.hh: operator="]}
{"id": "C154", "title": "Writing through explode() and collapse()", "statement": "In explode-collapse.cc, assigning x to explode<Small<T, t ...>>(A)(subs ...) assigns x to all the A(i, q) where subs select i among the axes of A that come before t and q is in t, and nothing else changes. Assigning x to collapse<T>(A)(subs ...), where the elements of A are arrays of shape t, assigns x to the elements q of the A(i) for which subs select (i, q), and nothing else. After B(all, 0) = x0; B(all, 1) = x1; ... the components of each A(i) are x0, x1, ....", "quantifier": "all A, t, subscripts of one axis each that are accepted, all sizes of T; in the last, all numbers of elements and of components", "why_tests_cant": "the example has arrays of 2x3 and 3 elements, and its results are only printed", "anchors": ["examples/explode-collapse.cc", "ra/arrays.hh: explode", "ra/arrays.hh: collapse"]}
{"id": "C155", "title": "Sums of arrays of short vectors: by a loop or for the whole, with opt or without", "statement": "In bench-optimize.cc, with arrays a, b, c of Small<T, n>, the loop of c(i) = opt(a(i)+b(i)), the loop of c(i) = a(i)+b(i), and c = a+b, all of the same length, have the same result, even if the arrays overlap: one vector after another, each component of c is the sum of those that a and b have at that time. If c has each vector once, and none of its vectors is in a or b other than in the same position, c = a+b gives c(j)(k) = a(j)(k)+b(j)(k) with the values before, and changes nothing else. If b or c is shorter than a, the loop fails at the first i that isn't in both, after all those before; c = a+b is refused if the lengths aren't all the same, and nothing changes.", "quantifier": "all n >= 0, all lengths, steps and places of the vectors, all shapes for c = a+b, all operations in place of +, both kinds of traversal", "why_tests_cant": "the benchmark adds ones for a few lengths, n = 2, 4, 8 and arrays that don't overlap", "anchors": ["bench/bench-optimize.cc", "ra/ra.hh: opt", "ra/arrays.hh: SmallArray", "ra/ply.hh: ply"]}
{"id": "C156", "title": "The functions of examples/small.cc: reflect() and add_vectors(), in place or not", "statement": "reflect(reflection, ray, normal), reflection = ray - k*dot(ray, normal)*normal, leaves ray_i - k*(ray.normal)*normal_i in each element of reflection, with the values that ray and normal had before, also if reflection is ray or normal itself, and changes nothing else. If the normal has length 1, the part of the ray along it is multiplied by 1-k, and the part across it is the same. With k = 2, the length of the ray is kept, and reflecting in place again gives the ray back; with k = 2.7, as in the example, neither is so. add_vectors(c, a, b) leaves the sums of the elements of a and b in c, also if c is a or b.", "quantifier": "all lengths, all places of the vectors such that an element of reflection is no element of ray or normal other than that in the same position, all k, all elements for the first part and those of a commutative ring for the others", "why_tests_cant": "the example has one ray and one normal, and prints the result", "anchors": ["examples/small.cc", "ra/ra.hh: dot", "ra/ra.hh: opt", "ra/arrays.hh: SmallArray"]}
{"id": "C157", "title": "Sums of elements at indices that are in memory, maybe in the same array", "statement": "In bench-sb.cc, with C of rank 2 and the indices in the rows of I, of 2 or more columns: sum(at(C, iter<1>(I))), a loop of C(I(i, 0), I(i, 1)) and a loop of at(C, I(i)) give the same sum, in order of the rows, also if C and I have elements in common; nothing is written. If some row isn't an index of C, the three are refused. After C = 4*_0 + _1 and I(all, k) = map(i%n, _0 + r), all the rows are good. If C and I are different arrays the four sums of the test are that of 4*((i+r0)%M) + (i+r1)%N; if they are the same one, the first two columns of C have the indices and the sum is another.", "quantifier": "all lengths (at least one row, and two columns of I), all layouts without repeated elements, all r0, r1 >= 0, all operations in place of +, both kinds of traversal", "why_tests_cant": "the benchmark has one size, and compares the three with each other only", "anchors": ["bench/bench-sb.cc", "ra/ra.hh: at", "ra/expr.hh: indexer", "ra/ra.hh: sum"]}
{"id": "C158", "title": "Expressions that can be written for one another", "statement": "Two expressions with the same axes, the same lengths in each axis and the same element and effects at each index give the same result in any traversal (also one that stops before the end, or that is refused), as the source of an assignment, as an argument of map or pick, and in any, every, index, sum, prod, amin, amax and dot. every(a) is !any(!a), with the same effects and the same elements not evaluated. This is so of map(g, map(f, a...)) and map(g o f, a...); of map(g, a..., map(f, b...), c...) and a single map, if f is a function of the values; of map(g, a, s) with a scalar s and map(g(., s), a); of map(g, a, b) and map with the arguments in the other order, if they have no effects; of where(!w, a, b) and where(w, b, a); of !(a && b) and !a || !b, and of !(a || b) and !a && !b; of the transpose of map(f, a...) and map(f, transpose of a...), if all have the same rank; of two transposes of an expression and a single one.", "quantifier": "all expressions, operations, ranks, lengths and layouts; both kinds of traversal, also a different one for each expression", "why_tests_cant": "the tests compare values of particular expressions; the equalities are for any operands, and include refusals and the order of the effects", "anchors": ["ra/expr.hh: Map", "ra/expr.hh: Pick", "ra/ra.hh: where", "ra/ra.hh: operator &&", "ra/ra.hh: operator ||", "ra/ply.hh: ply_ravel", "ra/ply.hh: ply_fixed"]}
{"id": "C159", "title": "Operations that write on an argument, with arrays reversed or transposed", "statement": "In test/ra-1.cc: map_ of an operation that writes c = f(a, b), with c as the first or as the last argument, leaves f(a(i), b(i)) in c(i) for each i and nothing else is changed; also k = g(x) with map_(f, a, b) as x. With any other views a', b', c' of the same elements, that change the indices in the same way (reverse on any axis, the transpose with any order of the axes), the memory is the same after, so c = a - transpose(b) can be done with transpose(c), transpose(a) and b. b -= a and then b += a leave the memory as it was, if b has no elements twice and none of a. a = -a on each element and the same through reverse(a, k) leave the memory as it was.", "quantifier": "all element types and operations (with add(sub(x, y), y) = x, f(f(x)) = x), all ranks, lengths and layouts of the destination without repeated elements, all axes k, both kinds of traversal", "why_tests_cant": "the tests are on arrays of 2x3, 2x2 and 6 elements, and compare the elements of one of the arrays only", "anchors": ["test/ra-1.cc", "ra/expr.hh: Map", "ra/arrays.hh: reverse", "ra/arrays.hh: transpose", "ra/ply.hh: ply_ravel", "ra/ply.hh: ply_fixed"]}
