# Machine-checked model of ra-ra: design

Everything here is read off the C++ text in `/repo/ra/{base,expr,ply,arrays,ra}.hh`; nothing is built or run.
The properties are in `properties.jsonl`, the status of each one in `MANIFEST.json`.

## 1. Trusted base

* The Coq 8.16.1 kernel (`coqc`, and `coqchk` in the gate).
* Axioms. The integer/list part is closed under the global context (no axioms). The real-number part
  (complex helpers, dual numbers, numbers of the tests, normv) uses the axioms of Coq's `Reals` (`ClassicalDedekindReals.sig_forall_dec`,
  `ClassicalDedekindReals.sig_not_dec`, `FunctionalExtensionality.functional_extensionality_dep`; classical logic where listed).
  C130, C131 use Flocq's IEEE binary64, which has no axioms other than these.
  The output of `Print Assumptions` for each property theorem is printed by the `P_*.v` files and summarized in section 5.
* The reading of the C++ text into Gallina. Each model definition cites the lines it transcribes and states its simplifications.
  As a check of the reading, the `T_*.v` files evaluate the model on the cases of the library's own tests and compare with the values written
  there (test/fromb, fromu, view-ops, reshape, len, iota, where, early, reduction, checks, io, wedge, wrank, frame-new, frame-old, tensorindex,
  self-assign, at, big-0, big-1, swap, optimize, explode-0, ply, iterator-small, cellrank, cellptr, small-1, concrete). Expressions are run with both traversals (ply_fixed and ply_ravel).

### Global simplifications

* `dim_t`/`rank_t` are unbounded integers (`Z`, `nat`) except where a property is about machine arithmetic (C46, C55, C64, C65).
* Pointers are integers (places) in one flat memory; a `Seq` pointer is the integer it holds. Element size is one place, except in C22.
* A failed `RA_CK` (and `std::abort`) is an explicit `Fail` outcome that keeps the state reached so far. This also stands for a
  user-supplied throwing `RA_ASSERT` and for an exception thrown by an operation.
  What C++ leaves undefined is a separate outcome (`UB`) where a property is about it.
* Template metaprograms (`mp::`, ranks and lengths in types) are functions on ordinary lists and numbers; the static/dynamic distinction
  is modelled only where a property is about it (C52, C53).
* The arguments of an operation are evaluated from left to right. C++ leaves this unspecified; C132 shows that when the arguments have no effects any other order gives the same.
* Not modelled: value categories, overload resolution, const-ness, lifetimes and dangling references other than in C137, threads other than the calling one,
  floating-point rounding other than in C130, C131 (complex and dual numbers are over the reals), ostream state other than the characters.

## 2. Structure

Statement files have no model code in them; model files have no statements.

    Spec.v, Spec_*.v   what the properties are stated with: row-major lists of indices, in-range, prefix agreement, places, joins, numerals, signs ...
    M_*.v              model of the code, function by function, with the lines cited
    L_*.v              lemmas
    P_*.v              property theorems, examples that satisfy the hypotheses, Print Assumptions
    T_*.v              values expected by the library's tests, computed with the model

| files | code | properties |
|---|---|---|
| M_Base, M_Expr, M_Ply, L_Spec, L_Expr, Spec_Ply, L_Ply, L_Stl, Spec_Expr, L_Agree, L_Run, P_Ply | Dim, indexer, Cell, Match, Reframe, Pick as trees; ply_fixed, ply_ravel, STLIterator, validate | C01-C07, C11, C28, C54 |
| M_Val, Spec_Val, L_Val, P_Reduce | any, every, index, lexical_compare, assignment, sum, prod, dot, amin..., pick, where, && and ||  | C08-C10, C29-C32, C35, C36, C81 |
| M_View, L_View, Spec_View, P_View | filldimv, c_order, ravel_free, reshape, reverse, transpose, stencil, explode, collapse | C12-C22, C61 |
| M_Slice, Spec_Slice, L_Slice, P_Slice | fromb, iota, insert, all, dots, wlen | C17, C23-C25, C38, C62 |
| M_Frame, Spec_Frame, L_Frame, P_Frame | Framematch, Reframe, fromu, tindex | C26, C27, C57, C58 |
| M_Mat, Spec_Mat, P_Mat | gemm, gemv, gevm | C33, C34 |
| M_Opt, P_Opt | opt, iota arithmetic in exact and machine integers | C37, C63, C64 |
| M_Overflow, P_Overflow | filldimv, dimv_size, indexer in 64 bits | C55, C65 |
| M_Cell, P_Cell | Cell with cell rank | C56 |
| M_Array, P_Array | Array: make, push_back, pop_back, resize, swap, move | C39, C50, C66, C67 |
| M_Fill, Spec_Fill, P_Fill | braces, to_ravel, concrete | C40, C41, C51 |
| M_Wedge, Spec_Wedge, L_Wedge, P_Wedge | binom, choose, permsign, Wedge, Hodge, cross, perp | C46-C49, C68-C70 |
| M_Scalar, Spec_Scalar, P_Scalar | complex helpers, Dual | C44, C45 |
| M_Static, Spec_Static, P_Static | rank_s, len_s, check_s of types | C52, C53 |
| M_Text, Spec_Text, L_Text, P_Text | formatter, operator>>, format specifications | C42, C43, C59, C60 |
| M_Nested, P_Nested | ply_ravel with operations that traverse | C71 |
| M_Access.v, P_Access.v | `at`, `at_view`, `shape(v, e)`, `to_scalar` | C72-C75 |
| M_Test.v, Spec_Test.v, P_Test.v | `TestRecorder`, `test_eq` & co, `test_abs`, `test_rel`, `Benchmark::median` | C76-C80 |
| Spec_Overlap.v, P_Overlap.v | assignment (M_Val) with overlap | C82 |
| M_Range.v, P_Range.v | `View::begin/end`, `Array::begin/end`, `shared_borrowing`, `back`, `as` | C83-C85 |
| M_Whole.v, P_Whole.v | `cat`, `norm2`, `normv` | C86, C87 |
| M_List.v, Spec_List.v, P_List.v | `mp::` lists of types | C88 |
| M_Zero.v, P_Zero.v | `toreduce`, `tomap`, operators on rank 0 | C89 |
| Spec_Nan.v, P_Nan.v | `amin`, `amax`, `refmin`, `refmax` with NaN | C90 |
| M_Shape.v, Spec_Shape.v, P_Shape.v | `rank`, `size`, `shape`, `rank_s`, `size_s`, `shape_s` | C91 |
| P_Outer.v | outer product with `insert`, and `from` | C92 |
| P_Unb.v | subscripts on axes of unbounded length | C93 |
| M_Vec.v, P_Vec.v | RA_OPT_SMALL: alignment, vector operations | C94 |
| M_Ref.v, P_Ref.v | assignment to `real_part`, `imag_part`, `where`, `a(i ...)` | C95, C96, C97 |
| M_Hodge.v, P_Hodge.v | `hodgex` and `hodge` with the storage of the arguments; `perp` | C98, C99, C100 |
| M_Deep.v, P_Deep.v | `sum` and `prod` of arrays of arrays | C101 |
| P_Compose.v | subscripts on the result of subscripts | C102 |
| M_Path.v, Spec_Path.v, L_Path.v, P_Path.v | the positions of the iterators during a traversal, also those that are not read | C103, C104 |
| P_Laws.v | combinations of `gemm`, `gemv`, `gevm`, `dot` | C105 |
| M_Inner.v, P_Inner.v | `<<` and `>>` for arrays of arrays and for dual numbers | C106, C107 |
| M_Cells.v, P_Cells.v | assignment operators on iter<c>(a) | C108 |
| M_Base.v, P_Shape.v | `empty()`, `size()` | C109 |
| M_Small.v, P_Small.v | constructors of `Small`; `View` = array of `Small`; `Array` from pointer | C110 |
| M_Ext.v, P_Ext.v | constructors of `View`, views of built in arrays and of ranges, `ptr`, `get`, `tuple_size` | C111, C112 |
| M_Doc.v, P_Doc.v | programs of the manual: reductions over axes in three ways, matrix product with `wrank` | C113 |
| M_Stencil.v, P_Stencil.v | stencils in the five ways of bench-stencil2.cc | C114, C115 |
| M_Roll.v, P_Roll.v | rotations and differences along an axis, as in examples/maxwell.cc | C116, C117 |
| M_Total.v, P_Total.v | totals of cells, as in test/reduction.cc | C118 |
| T_Base, T_From, T_View, T_Red, T_Checks, T_Text, T_Wedge, T_Frame, T_Array, T_Ply, T_Small, T_Genfrom, T_Ra0 | values expected by the library's own tests, computed with the model | |
| M_Elem.v, P_Elem.v | operators on arrays; laws of reductions, operators and rearrangements | C119 |
| Spec_Cg.v, L_Cg.v, M_Cg.v, P_Cg.v | the solver of examples/cghs.hh | C120 |
| M_Poisson.v, P_Poisson.v | examples/laplace2d.cc: StiffMat | C121 |
| M_Gemm.v, P_Gemm.v | the products of bench/bench-gemm.cc | C122 |
| M_Assembly.v, P_Assembly.v | the matrices by elements of examples/laplace3d.cc | C123 |
| M_Mesh.v, P_Mesh.v | the mesh, the tables and main of examples/laplace3d.cc | C124 |
| M_Wave.v, P_Wave.v | the functions of examples/laplace3d.cc and the error of the result | C125 |
| M_Laplace.v, P_Laplace.v | the mass matrix and main() of examples/laplace2d.cc | C126 |
| M_Newton.v, P_Newton.v | examples/newton.cc | C127 |
| M_Sums.v, P_Sums.v | bench/bench-gemv.cc, bench/bench-sum-rows.cc, bench/bench-sum-cols.cc | C128, C129 |
| M_Fma.v, Spec_Float.v, L_Float.v, P_Fma.v | RA_FMA, reductions of double | C130, C131 |
| M_Order.v, P_Order.v | the arguments in another order | C132 |
| M_Merge.v, P_Merge.v | 64-bit arithmetic in ply_ravel | C133 |
| M_Deriv.v, P_Deriv.v | examples/deriv.cc | C134 |
| M_Pack.v, P_Pack.v | bench/bench-pack.cc, `pack` and `xi` with complex elements | C135 |
| M_Zip.v, P_Zip.v | `pack` of references as destination | C136 |
| M_Own.v, Spec_Own.v, P_Own.v | `storage_traits`, copy, move and destruction of `Big`, `Unique`, `Shared`, `shared_borrowing` | C137 |
| M_Feed.v, P_Feed.v | `m = f(c, m)` and `m = f(m, c)`, as in test/reduction-1.cc | C138 |
| M_Accum.v, P_Accum.v | the programs in bench/bench-dot.cc and bench/bench-reduce-sqrm.cc | C139 |
| M_Indirect.v, P_Indirect.v | the programs in examples/indirect.cc | C140 |
| M_Readme.v, P_Readme.v | the sums of cells in examples/read-me.cc | C141 |
| M_Manual.v, P_Manual.v | programs of docs/ra-ra.texi beside those of C113 | C142 |
| M_Select.v, P_Select.v | the selections of bench/bench-from.cc | C143 |
| M_Bench.v, P_Bench.v | bench/bench-at.cc, bench/bench-tensorindex.cc | C144, C145 |
| M_Ravel.v, P_Ravel.v | to_ravel() from ranges, arrays.hh:34-44; bench/bench-iterator.cc, examples/read-me.cc:267-284 | C146, C147 |
| M_Examples.v, P_Examples.v | examples/outer.cc, agreement.cc, slicing.cc | C148, C149 |
| M_Heat.v, P_Heat.v | examples/view.cc | C150 |
| M_Leap.v, P_Leap.v | bench/bench-stencil1.cc, bench-stencil2.cc, bench-stencil3.cc | C151 |
| M_Choose.v, P_Choose.v | examples/where-pick.cc; where and pick in general | C152 |
| M_Blocks.v, P_Blocks.v | examples/pitfall.cc and examples/explode-collapse.cc | C153, C154 |
| M_Vecs.v, P_Vecs.v | bench/bench-optimize.cc | C155 |
| M_Reflect.v, P_Reflect.v | examples/small.cc | C156 |
| M_Sb.v, P_Sb.v | bench/bench-sb.cc | C157 |
| P_Same.v | laws of map, pick, where, && and \|\| | C158 |
| M_Ra1.v, P_Ra1.v | test/ra-1.cc | C159 |

## 3. Properties: what is modelled and how it is proved

Every theorem is for all inputs. The names of the theorems are in `MANIFEST.json`. "Refuted" means that there is a theorem with a witness, see section 4.

* C01 `Match::len/check`, `colen`, `corank` on expression trees. Spec: the list of leaf lengths on each axis. Induction on the tree.
* C02 `at` of each iterator with the bounds checks of `indexer`. Induction on the tree; the checks are discharged from agreement.
* C03, C04, C05 iterators as trees with positions and `adv/mov/save/load/keep/step`; `ply_fixed`, `ply_ravel` as loops in a state+failure monad
  for arbitrary operations. Spec: run `at e j` for `j` in the row-major list of indices. Loop invariant: the positions are those of index `j`.
  `keep` gives the linear relation needed for merged axes. `ply_ravel` carries its persistent `z` vector.
* C06 the same loops with early exit.
* C07 `ply_ravel` on its persistent state. Refuted (`ind` is not reset on entry); histories of complete traversals are proved harmless.
* C08, C09, C10 `any/every/index/lexical_compare` as written, over the traversal theorem. The order laws of C10 are proved for the comparison, not assumed.
* C11 `STLIterator` with its counters; the invariant relates counters and index.
* C12 `filldimv`; bijection with `[0,size)` by induction on the shape.
* C13, C14 `c_order` with both flags. C14 refuted for an innermost step 0, proved otherwise.
* C15, C16 `reshape` as written: tile, select and the placeholder. Both refuted in stated cases, proved otherwise.
* C17-C21 view operations as functions on (place, dims); arithmetic on offsets. C20 refuted for unbounded axes.
* C22 `explode_dims`, `collapse` with sizes in units of the smallest type.
* C23, C24 `fromb` as written with an axis cursor. Spec: a relation from result index to source index, subscript by subscript.
* C25 sequences with several axes. Refuted twice, proved for start 0 or one axis. For any sequence the result is given exactly, with the condition for a refusal.
* C26, C57, C58 `Framematch`, `Reframe`, `fromu_loop`; the transformation of axes is proved to place the frames.
* C27 `fromu` built from the same pieces, compared with `fromb`. The flag `st` of `spacer` is whether the lengths of the array are in its type. `from_any` is the case of an array whose rank isn't in its type.
* C28 `indexer`.
* C29, C30 memory as a map from places; operations `=`, `+=` as a parameter; separation hypotheses.
* C31, C32 folds. The order of evaluation is in the statement. Elements are any type with the operations; for extremes a total (weak) order.
  C31_sum_partial and C31_prod_partial need an element, because `VAL(a)` is evaluated first; C31_view: a view of any shape; C31_empty_partial: exactly what is needed of the missing element.
* C33, C34 every implementation of the products, as a composition of transposition, matching, traversal and memory, for any + and *.
* C35, C36 `Pick` with an effect log, so that what's evaluated is observable.
* C37 `opt` on sequences, including the length check of `viewptr`.
* C38 `wlen` on a syntax of expressions with `len`.
* C39, C50, C66, C67 `Array` as (dims, store); operations as transitions; invariant on reachable arrays. Elements never written are `None`.
* C40 `braces_shape` and nested assignment on trees of any depth. C41 `to_ravel`. C51 `concrete` with memory.
* C42 text produced by the formatter for the default style and read back by `operator>>`. Spec: `numeral`, a relation on texts; both the printer and the
  reader are proved against it.
* C43 Spec: `layout`, defined by recursion on the shape over the list of texts of the elements, and `weave` (each element once and in order).
* C44 over Coq reals. C45 expressions built from dual functions; the derivative is that of Coq's `Reals` (`derivable_pt_lim`).
* C46 `binom` over 64-bit unsigned; general identity by induction, the range by bounds on the intermediate products, the documented limits by computation.
* C47, C48, C68, C69 `mp::` list functions; permutation signs are counts of inversions.
* C49, C70 components in any commutative ring (an abstract ring in a section).
* C52, C53 types as trees with static lengths or ANY; instances are the trees of M_Expr. C53 refuted.
* C54 `validate`.
* C55, C65 with 64-bit overflow as UB.
* C56 `Cell` with cell rank.
* C59 `parse` over a memory of characters with an explicit out-of-range read outcome. Spec: a grammar of items with their effect. Refuted; accepted language, effect, and the exact
  strings where it fails are proved.
* C60 all texts are divided in those that begin with a shape, with a negative shape, or neither (`announces`), with the result in each case.
* C61 `reverse` with a bad axis. Refuted. C62 too many subscripts. Refuted; proved that they are refused when the rank would be negative, and only accepted if the result has rank 0.
* C63, C64 `opt` with lengths that don't agree, and in machine integers. Both refuted, with the conditions under which they hold.
* C71 the vector of `ply_ravel` is made a part of the state that operations act on (`M_Nested.v`). The loop is given a number of turns, as it need not end.
* C72. `at_view` is the cell iterator at cell rank rank-n, moved to the index. C72_partial: exact for n<=rank, result stated by shape and place of elements. C72_from: the same as `from`. C72_extra: what happens with more. C72_each: with an array of indices.
* C73. C73_exact: shape(v, e) at j is Some n iff the axis meant by e at j, with len the rank, is an axis of length n. C73_axis: e scalar.
* C74. `to_scalar` on a pair of type and instance (M_Static.v). C74_one, C74_not_one: arguments that agree. C74_disagree_partial: arguments that do not agree, with a size not in the type.
* C75. A map on the indices with the lookup of `at`. C75_update: the final memory as a fold, for any indices that are in the array. C75_refused: the memory at the failure.
* C76, C77. The vector is sorted by insertion (the effect of `nth_element` on the positions used). twice_median: twice the median, stated on any sorted permutation; times are integers, so there is no rounding.
* C78. The record of options and counts; tests are a list of (options, condition). C78_record: each counter is the number of tests of its kind. C78_sum: the counters add up.
* C79. `agree` on the pair (type, instance) of M_Static.v, then `every`. C79_agree, C79_mismatch: iff. C79_strict: iff, any types.
* C80. `amax_strict` is the traversal with early exit and the maximum as part of the state; `where` inside is one function of the pair. within: on each pair, without maxima.
* C81. accumulate: the evaluation of each element in turn with its effects, and its failures. C81_partial: sum is the element at 0 ... 0, whatever its shape, and then that.
* C82. assign_loop is the loop, with the effects and failures of both sides; C82_loop has no hypotheses on them. The vectors are by induction on the number of elements written.
* C83. range_for: pointers from begin to end, or STLIterator (M_Ply, C11). The pointer case follows from the contiguity of C12 and C13.
* C84, C85. On views (M_View) with from (M_Slice); C23 gives the elements. The check in C84 is that of SDim with the step in the type.
* C86. Two assignments to parts of a new view (from with a static iota; assign_new, with C29). The element of a scalar at [0] is by element_prefix.
* C87. concrete (C51), the reduction, and `/=` with a number. C87_unit is over R for any type of element with a square such that |t/r|^2 = |t|^2/r^2. It uses the axioms of Reals.
* C88. The specializations are transcribed as recursive functions, by way of the same auxiliary ones (cons is by append, ref by drop and first, etc.). first_place, kept: independent of them.
* C89. Types are abstracted to the kinds that the concepts tell apart. The eager operators are by `deref`, the lazy ones by `element`; the operands of rank 0 do not depend on the index (element_prefix).
* C90. The model is that of C32 (M_Val.v); the order is any strict total order of the numbers where NaN compares false (`order_with_nan`), which that of M_Test.v is (`fl_order`). By a fold that keeps a number; refmin by C32_refmin with the order that puts NaN last.
* C91. On the types and instances of M_Static.v, with foreign ranges and built in arrays besides. From `len_s_false`: a length in the type is ANY or the one at run time.
* C92. The views with new axes by C23, `from` by C26, the agreement by the lengths of the leaves. C92_same follows from the traversal theorem.
* C93. From the definition of `fromb`; false for sequences, and for scalars if the step is not 0 (finding 35).
* C94. A load of N elements is undefined if the place is not a multiple of N. C94_rows_partial: by the place of the row in an array whose alignment is its size.
* C95, C96, C97. The traversal theorem (C03-C05) and the effect of each step; the operands are evaluated in the memory that the steps before have left. C97 is with C27_gather.
* C98, C99. Memory is a function on places; each step reads a[i] from the memory that the steps before have left. The conversion of the sign (`decltype(a[i])(fps::sign)`) is undefined if a[i] is a reference to non-const elements that are not int. The dual is stated with permutations and their signs, not with the code.
* C100. By ring computation from the component formulas; cross is the general wedge product of M_Wedge.
* C101. The outer traversal (C03-C05) runs an assignment (C29) for each element, on a new array; by induction on the list of indices that have been visited.
* C102. By induction on the subscripts. In range for the first step and for the second gives in range for both at once (`seq_ok_iff`); the converse is not so (`C102_one_way`).
* C103, C104. The functions in M_Path.v are those of M_Ply.v without the operation, with the list of all the positions. By the same inductions as in L_Ply.v, every position is `goto e i` where `i` is an index, or one that is at the length on some axis and at 0 on the axes that follow (`touched`). For arrays in row-major order such an index is at most one past the end (`touched_rm`), and this is kept if some axes are left out in order (`touched_sub`).
* C105. Programs of several calls, each in the memory that the last one left. The results are given element by element by C33, C34 and C31; the rest is exchanging the order of finite sums.
* C106. By induction on the type. The shape at each level is read as in C42; for the elements, reading the layout of a list of texts is reduced (`layout_read`) to reading each of the texts, whatever they are, given that each leaves behind only space. `holds`, `fits` and `alike` are stated on objects by index, without the model of input and output.
* C107. `dualnum` describes the text without the model. That the first character may not be read (at the end, or if the stream has failed) makes the property false; the rest is proved, and dual numbers are also included in C106.
* C108. The effect on memory is given place by place, as the list of elements of b that go to it; `C108_reduce` and `C108_spread` are the usual cases (a has different places). `C108_expr` and `C108_for_each` hold with any overlap and for shapes that do not agree.
* C109. `dimv_empty` and `dimv_size` against the lengths and the existence of indices.
* C110. `item_at` and `fits` (Spec_Fill.v) describe the nested lists; the steps are those of the code: the array of the arguments is made first, each argument by the same constructor, and then assigned by cells (C108).
* C111. `builtin_place` is the rule of C++ for a[i][j].... The theorems give the result for every argument: what is accepted and what it is, or that it is refused.
* C112. `binds` is the property; the two theorems say for which shapes it holds. The conversion of a view to a reference to an element (`to_scalar`) is included, so the condition is not only rank 1.
* C113. `summed` is the specification of the first three programs. The expression with a Verb is worked out for all ranks, then it is an assignment where the places repeat (`assign_scatter`). C113_product_same has no condition on overlaps: the two programs do the same writes in the same order.
* C114, C115. `interior`, `around`, `weighed` and `filled` are the specification. The last loop of each program is either an assignment or a loop that writes one place at each step (`loop_scatter`).
* C116, C117. `turn`, `becomes` and `beside` are the specification. The axes before and after k are kept apart (`place_mid`, `mid_in`), so that each slice is a view of the rows from one to another (`rows`). The operations are arbitrary functions, so the order of the sums is part of the result.
* C118. By C101 (sum of arrays), C108 (operations on cells) and C117's lemma for map on cells; the frame rank is by C56's specification.
* C119. By C08-C10, C31, C32 for each function, and by a bijection of the indices for transpose and reverse. The operators are modelled as map(op, a ...) as in ra.hh:178-226; floating point addition isn't associative, so the laws of sums are for types where it is.
* C120. The loop keeps g = b-L x (L_Cg.v residual_step). The directions are conjugate and the residuals orthogonal (conj_all), and no more nonzero arrays than places can be orthogonal (few, by Bessel's inequality, so that no theory of dimension is needed). Assignments such as `g = b-g` and `r = r*gam + g` read what they write, and need C29 in the form where each element may depend on itself. Floating point isn't modelled here: with rounding the number of iterations has no such bound.
* C121. By C114 for mult, summation by parts on each axis (by_parts, lap_energy) for symmetric and positive definite, and C120. The example is solved with rational numbers.
* C122. gemm1 is gemm of ra.hh, by equal elements at every index (gemm1_same); gemm2 is gemm4 likewise for each k. gemm4 by C92 (outer product) and C29, gemm3 by C31, gemm_block by induction on the depth with the slices of C23, with no use of associativity as the split in k keeps the order. C122_ex_rows shows that the ways with a loop on k accept a b with more rows than a has columns, which the others refuse.
* C123. gemv on v(E.v) and w(E.v) by C34_gemv_e, as these are distinct places of v and w (picked_at); mult1 by C29 and C97 (w(E.v) += E.reg2 with E.v as subscript). w(A.B) = 0 by the scatter of C97, where repetitions do not matter. C123_multiplies0 and C123_multiplies1 are the hypothesis of C120.
* C124. The mesh by C54 (ply visits every index once) and the injectivity of pos. The matrices at a vertex by C123, one element for each corner (assembled_at), and an identity on the 64 entries of the tables (weights_sum), that depend only on the number of axes where two corners differ (SM_apart, MM_apart). Positive definite: the form of an element is 1/6 of the sum of the squares of the differences between the corners that are not on the same edge (form_far). The rest by C120 and C123. ex_layout shows that the hypotheses hold for any n with one array after another, and ex_program0 and ex_program1 run the program for n = 2 with rational numbers.
* C125. C124_program with s(i) = cos(.5*PI*(-1+2*i/n)) and g = 2*cos(PI/n): x is then g(V) times a*a*(2+cos(a))/(6*(1-cos(a))), a = PI/n, and this is between 1-a*a/12 and 1 by the terms of the series of the cosine (cos_bound). PI*PI < 9.9 by Machin's formula (PI_2_3_7_ineq). It uses the axioms of Reals.
* C126. The mass matrix goes by C114 as the stiffness matrix does (C121); it is symmetric and positive because its form is h*h/12 times the sum over all pairs of neighbors, on the three directions, of the product of their sums (mass_pairs). C126_program puts together C26 (from with an operation), C114, C121 and C32. The bound is by the discrete maximum principle (C126_maximum), proved with the energy of the part above 0, and the comparison function i*(n-i).
* C127. The element of the assignment to iter<1>(F) runs force, that writes its temporaries, so the memory goes through the loop with an invariant (each_inv): the cells of F already visited have their forces and anything other than F and the temporaries is unchanged. Then the accumulation on the axis that a doesn't have is loop_scatter of C115. The conservation laws are from the third law (C127_opposite): a double sum over pairs with opposite terms is 0, without division by 2. The angular momentum is unchanged because the new x uses the new v.
* C128, C129. Three lemmas on loops (each pass updates all of c; each pass updates one element of c; all the passes update the same element) and the theorems on cells (C108, C113, C118) and on assignment (C29, C30) give the element of the result as a fold in order of the index. The array of C128 is given as a function on the whole memory, so that two ways with the same element function leave the same memory.
* C130, C131. The traversal is that of C31: the result is a fold in row-major order. Elements are Flocq's binary64 (BinarySingleNaN) with its addition, product and fma, conversions of integers to and from double are binary_normalize and Btrunc. One lemma (L_Float.v many) bounds n steps c' = (c+t)(1+e)+d with |e| <= u, |d| <= h, and shows that none overflows; sums have h = 0 since an addition of doubles that underflows is exact (FLT_plus_error_N_ex). u, tiny, huge, B2R are the specification.
* C132. M_Order.v rewrites each Map so that its arguments are evaluated in the given order and the operation gets the results in their places. ply_spec reduces the traversal to the elements, which are equal by induction. ex_effects: with effects in the arguments the order shows.
* C133. M_Merge.v has keep and the merge loop of ply_ravel with each product checked; when there is no overflow the traversal is that of C04. A whole array has the lengths and steps of filldimv64 (C55).
* C134. The slices are those of C114. The difference of cos^2 is (sin^2 x - cos^2 x)(1 - cos 2h), and 1 - cos 2h is between 2h^2 - 2h^4/3 and 2h^2 (pre_cos_bound of the standard library). Uses the axioms of Coq.Reals.
* C135. The ways on parts are on a memory of real numbers, where the complex number at p takes places 2p and 2p+1 (as in C95); those on whole elements are on a memory of complex numbers. n-iota(n) is the mapped expression, without the optimization (C37).
* C136. The elements of the expressions are tuples (lists of values and references). The copies in a std::tuple<T ...> are made when the source is evaluated, before the assignment of the parts, which is in order.
* C137. M_Own.v has blocks of memory with counts, which may be reused once freed. Spec_Own.v has no memory: each container has a name for its contents and a function for its elements. The proof is by an invariant over programs. resize() and push_back() aren't among the operations; they are in C39.
* C138. M_Feed.v is the assignment of M_Val.v with the operators of M_Elem.v. C138_fold is for any expression whose element depends on the memory only through the element of the destination that goes with it; C138_compound is by comparing the two expressions element by element (ply_same in P_Cells.v) and doesn't suppose anything of the source.
* C139. The local variable that is captured by reference is beside the memory, as in the reductions of M_Val.v. The loops are one for each axis, for any number of axes. `products` in P_Accum.v is the sum over a list of indices.
* C140. M_Indirect.v joins at() of M_Access.v, from() of M_Frame.v and M_Slice.v, and where() and the assignment of M_Val.v. The strips are a list of i, j0, j1, and the circle is computed with integers (a hundred times the squares) instead of double. C140_from is for any subscripts, by gathers in Spec_Frame.v, through C27_gather. For a length that is even, or odd and a multiple of 5, the strips aren't what where() gives (ex_circle); the program has 7 for the length.
* C141. M_Readme.v gives for_each over B and the cells of A made by iter (M_Cell.v), with sum() of M_Total.v inside. C141_sums_partial has B += A and the loops over cells; what's missing is the loop over A itself, which doesn't give the sum (C141_elements_refuted) but zero plus the last element in row-major order (C141_elements). C141_cells is also for cells larger than the axes after those of B.
* C142. M_Manual.v gives the programs over the earlier definitions of assignment, transpose, diag, from, map over cells, pick. Each theorem gives the result for all arrays in terms of the elements before, by C29, C18, C17 and the row-major order of C01; C142_documented_refuted runs the programs on the arrays of the manual, and has beside each the result that the manual gives. push_back() is on lists that aren't in the memory of n.
* C143. M_Select.v gives the programs of bench/bench-from.cc for any number of axes and a different list on each. Each is shown to be one traversal, in row-major order, of a function that copies one element or is refused (copier), so that the results and the place of the stop are the same in all. The lists aren't in the memory of A and B. With no indices in the last list the loop on slices is still stopped by an index of the others that isn't in range, while A(I, J) isn't (Example_143.empty_slices): C143_slices_refused is for first_bad, which has an element.
* C144. The two loops are folds with one read for each row; sum(at(...)) is by the theorem of reductions (reduce1_spec), and its refusal by the traversal up to the first row that is out of range.
* C145. By C58 (tindex as an argument) and the theorem of reductions with two arguments; reducing modulo 2^32 at each step is the same as at the end. The sums 2*i-j are in 64 bits and taken as exact.
* C146. Reading and writing are interleaved, as in std::ranges::copy. gives says what places an output iterator writes at; it's shown for pointers and for STLIterator, and C83 and C11 give the order in which the source is read.
* C147. By C83 and C11 as well; the loops with a counter or an accumulator are folds on the indices in row-major order. int isn't bounded in the counters.
* C148. The first three forms are is_outer (C92), transpose by C18; the form with indices by the reads of view_op at tindex (C58), where the axes before the one of the index are dead. The failures are those of the check of the lengths and of the subscripts.
* C149. Equalities of from(), by induction on the subscripts that go before.
* C150. The steps are slices of C114, with margins of 1. The loop follows by induction, with the two arrays as functions of the index; next_agree is what says that a step only reads A in the cube and only keeps B on the faces.
* C151. Each step is C114 or C115 with margins of 1 (the loops are done here, by each_scatter). That the mask gives the same as the term is a sum with a support of 2d+1 indices (cross), by Permutation. The loop goes by induction with the recurrence on functions of the index (leaps).
* C152. where_reads and pick_element are what where() and pick() read at each index, by C35; then it's assignment (C29), or assign_stops of C140 for the index out of range. C152_not goes by ply_same: the two have the same lengths on each axis and the same elements.
* C153, C154. each_compose adds up what each step does to each place, without assuming that the places are different; with that assumption only the indices that begin with i are left (begin_with). For C154, C22 gives the places and C23 what subs select.
* C155. vec_sets says what the sums do one vector after another, and is determined (vec_sets_one); each program is shown to do that, by induction on the length or on the list of indices. small_op_lazy of C94 gives the case with opt.
* C156. assign_ref of C95 gives the assignment with an overlap in line; the rest is algebra of sums (fold_mix).
* C157. Here the rows are read from the memory that C is in, unlike in C72-C75 and C144. The loops go by loop_good and loop_bad of C144.
* C158. `alike` is on the leaf lengths and elements of Spec_Expr.v; C158_ply goes by the specification of the traversals (C01, C02), in the same way for refused expressions. RA_OPT rewrites of ra.hh/optimize.hh are other properties.
* C159. The operations with three arguments are `alike` (C158) to an assignment, for which there is C29; `seen_by` is the condition on the other views, and it's proved for reverse on any axis and for the transpose with any order of the axes (`C159_permuted`).

### Not modelled

Element types with their own iterators (arrays of arrays) other than in C22, C56, C101, C106 and C108; formatting of nested arrays with a style other than the default one;
`Dual` over complex numbers; optimizations by the compiler; `io` of other than integers; the Python/Guile bindings and boxes; the benchmarks, examples and programs of the manual other than those of C113-C117 and C120-C135, C138-C157, C159.

## 4. Findings

What the theorems named `*_refuted`, and other proofs and examples, say about the code. The line numbers are of the pinned commit.

1. C07 `C07_history_independent_refuted`. `ply_ravel` (ply.hh) keeps its counters in a `thread_local` vector and doesn't reset them on entry. After a traversal that stops early
   (`any`, `every`, `index`, an exception) the next traversal of the same expression type begins with stale counters, and skips or repeats elements.
2. C14 `C14_ravel_refuted`. `c_order(dimv, false)` accepts an innermost step 0, so `ravel_free` of e.g. a broadcast column gives the wrong elements.
3. C15 three cases. `a(all, iota(1))` of a {3, 4} array reshaped to {1, 3} takes the step of the last axis, which has length 1 and isn't used by the elements; a view with innermost step 0; selecting {3} from an empty {0, 3}
   gives elements that don't exist.
4. C16 `reshape(a, {0, -1})` divides by zero. In the tile case negative lengths aren't checked.
5. C20 `transpose` with two sources for an axis takes the minimum of lengths; with an unbounded axis the result depends on the order.
6. C25 `fromb` with a rank-2 iota adds the start once per axis, and checks only the last position on each axis, so `v(iota({2, 2}, 0, {2, 2}))` reads position 4 of a vector of length 3.
7. C45 `tan(Dual)` divides by the cosine of the derivative, `abs(Dual)` drops the derivative, `pow(a, 0)` isn't finite at 0.
8. C53 `Reframe` drops the `check` flag in `len_s`, so static length mismatches under a reframe aren't seen at compile time and the check isn't left for run time either: `map(wrank<0, 1>(f), Small<2>, Small<3>+Big<1>)` is never checked.
9. C59 the format specification parser reads past the end for `"S"`, `"S{abc"`, etc.; nexti checks for the end before moving, and not after. If the character at the end is `}` it goes past it.
10. C61 `reverse(a, k)` reads `a.len(k)` before k is checked.
11. C62 `v(0, iota(2))` with a vector v reads beyond the axes, `v(0, all)` is accepted.
12. C63 `iota(ic<3>) + iota(4)` gives 3 elements, and `iota(ic<3>) + iota(ic<4>)` a sequence that is traversed as empty; both should be refused.
13. C64 `opt` changes the result of `-iota(4, 0u)+1L`; `iota(2, -1000000000, 2000000000)*2` overflows only with the optimization; so does an empty sequence.
14. C55, C65 an empty array of shape {0, 2^40, 2^40} can't be made without overflow (the size is computed from the last axis); {2^40, 2^40, 0} can, but its `size()` overflows.
15. C66 `resize(-1)`, `resize({2, -1})` are refused only after the lengths have been set.
16. C67 arrays that have been moved from are inconsistent: the shape stays and the store is empty.
17. C40 ragged braces are refused after the rows before have been written. C60 if reading fails at an element, the array has already been replaced and the remaining elements are as they were constructed (`C60_ex`).
18. C34 the loop versions of gemv and gevm don't check the length of the result if the sum is over an empty axis (`C34_loop_ex`).
19. C71 `C71_nested_refuted`. An operation that traverses an expression of the same type (e.g. `for_each` with a function pointer, on views with separate rows) uses the same `thread_local` counters: the inner traversal skips rows and the outer one reads rows past the end of its view. Arrays of rank 1, or with consecutive elements, are not affected (`C71_flat`).
20. C72. `at_view(a, i)` with more indices than a has axes is not refused unless there are more than twice as many: the cell rank is rank-n, and when negative this means frame rank n-rank (expr.hh:228-229). E.g. at_view of a 3x4 array with index {1, 2, 0} is its row 1. Compare `at`, which ignores the extra indices (expr.hh:171-179).
21. C74. Conversion to scalar does not check that the shapes agree, and the size in the type is 1 if one of the arguments has a static length 1 and the other a dynamic length (base.hh:391-399, expr.hh:580-592 with check=false). So `double x = Small<double, 1> + Big<double, 1>` is not refused when the second has 3 elements.
22. C76. `Benchmark::median` uses `t.size()^1` where `t.size()&1` is meant (test.hh:259). So for even sizes the result is the upper of the middle elements, and with one run, which is the default (test.hh:277), it calls nth_element with t.begin()-1 and reads t[-1].
23. C77. The mad given by Benchmark is always 0, because the deviations are not made absolute (test.hh:306-307).
24. C80. `test_abs` and `test_rel` fail on any arrays without elements: the maximum error starts at -inf and its absolute value is +inf (test.hh:184). `test_eq` succeeds on the same arrays.
25. C31, C81. `sum` and `prod` call `copy_shape(VAL(a), ...)` where only the type of VAL(a) is of use (ra.hh:351, 359). So they evaluate the first element once more; and if there are no elements they evaluate one that does not exist, e.g. `sum(a+b)` with a, b of length 0 reads *a.data() and *b.data(), which may be null. (`dot`, `cdot` and `reduce_sqrm` use decltype.)
26. C83. `View::begin()`, `end()` for a view of rank 1 with step 1 in the type give pointers, without a check that the length is bounded (arrays.hh:136-137). So `for (auto i: ra::iota())` is not refused and does not end, and with `ra::viewptr(p)` it reads beyond any array. `ra::begin()` (ply.hh:230-236) has the condition, but range-for uses the members.
27. C84. `Array::begin()`, `end()` (arrays.hh:308-309) assume that the elements are contiguous, but an array from `shared_borrowing()` has the steps of its argument. As a range (or in `std::ranges::copy`, etc.) it gives the wrong elements, and those may be outside of the array, e.g. if a step is negative.
28. C85. `back()` (arrays.hh:139) on a view of run time rank 0 reads dimv[0].
29. C87. `normv(a)` with integer elements (ra.hh:377) divides in place with truncation: `normv(ra::Small<int, 2> {3, 4})` is {0, 0}. No diagnostic.
30. C27. `a(insert<1>, i)` with an array `i` of subscripts: if the lengths of `a` are in its type it works and the new axis has no length, but if they are run time lengths it's refused (`RA_CK` in `viewptr`, expr.hh:358, called from `spacer`, ply.hh:463, with the run time length UNB, which is negative). With an array whose rank isn't in its type, every axis of the result must be of a subscript array, otherwise it's refused (ply.hh:529, 536); the code has the comment 'Not all var rank cases are handled' (ply.hh:501). C27_gather, C27_any, C27_insert_ex.
31. C89. With an `ra::` object of rank 0 and a range or a built in array, e.g. `ra::Small<int>(3) + std::vector {1, 2}`, neither `tomap` nor `toreduce` holds (base.hh:366-369), so there is no operator. It works if the `ra::` object has rank 1 or more, or with `map` directly.
32. C90. `refmin` and `refmax` of an array whose first element is NaN give that NaN, even if there are numbers, while NaN anywhere else is ignored, and `amin`, `amax` ignore it anywhere (ra.hh:306-346): `amin(a) != refmin(a)` for `a = {NaN, 1, 2}`.
33. C91. `shape(v)` returns `shape_s` if `size_s` is not ANY (base.hh:420). But `size_s` returns the first negative length, so it is UNB if an unbounded axis comes before one of dynamic length, and then the result has ANY (-1944444444) as the length of the latter: `shape(from(plus, iota(), a))` with `a` of type `Big<int, 1>` is `{UNB, ANY}` instead of `{UNB, n}`.
34. C22. `collapse<sub>` (arrays.hh:581-612), with `sub` an array type that is not made of the last axes of the element type, compiles if the size of `sub` divides that of the element type. The result leaves out elements (`collapse<Small<int, 2>>(a)` where the elements of `a` are `Small<int, 6>` has only the first two of each) or has elements that are not in `a` (`collapse<Small<double, 2>>(a)` where the elements of `a` are `Small<Small<double, 4>, 1>`). C22_refuted.
35. C93. With `b = a(insert<1>)`, `b(i)` is accepted for any scalar `i` but `b(iota(n))` is refused for any n > 0, because of `inside(i, la)` with `la` UNB (ply.hh:408). On an unbounded axis whose step isn't 0, e.g. `iota()(3)`, scalars are refused too (ply.hh:396), although `at()` accepts them (`indexer`, expr.hh:164-181).
36. C18. `transpose` with a negative destination isn't refused, it writes before the array of axes (`dst[sk]`, arrays.hh:438, 439). C18_negative.
37. C94. With `RA_OPT_SMALL=1`, `match_small` (ra.hh:146-148) accepts any view with static length N and step 1, but the vector load needs alignment N*sizeof(T), which only arrays whose whole size is a power of two have (`align_req`, arrays.hh:162-167). So `a(0)+a(1)` with `a` of type `ra::Small<double, 3, 4>`, or `a.as<4, 1>() + b` with `a` of type `ra::Small<double, 8>`, is a misaligned access. The tests have only rows of `Small<double, 4, 4>` and `Small<double, 4, 8>`. C94_rows_refuted, C94_as_refuted.
38. C98 `C98_view_refuted`. `Hodge::hodge_aux` (ra.hh:556) converts the sign with `decltype(a[i])(fps::sign)`. If a is a view of `double`, as in `Small<double, 2, 3> m; hodgex<3, 1>(m(0), b)`, then `a[i]` is `double &`, and this is a reinterpret_cast of the static `int` to `double &`: it reads 8 bytes from an object of 4. `std::decay_t` is missing. `Wedge::term` (ra.hh:514) does it right.
39. C99 `C99_view_refuted`. `hodge(a)` (ra.hh:580-582) copies a to have the old values while it writes, but the copy of a view refers to the same elements. `hodge<2, 1>` of a view {3, 4} gives {-3, 3} instead of {-4, 3}.
40. C101 `C101_empty_refuted`. `sum` of an empty array of arrays, e.g. of `Big<Big<int, 1>, 1>` of length 0, reads the shape of an element that does not exist (`copy_shape(VAL(a), ...)`, ra.hh:351, 359), and makes an array of that shape. With scalar elements or `Small` only a reference is made (cf. 25).
41. C103. `for_each(f, iota(2, INT_MAX-1))`, or any `iota<int>` up to the last integer: the inner loop in `subply` (ply.hh:96-104) and in `ply_ravel` (ply.hh:60-68) moves the iterators after the last element too, so the `Seq<int>` overflows (undefined behavior). The same happens backwards, with `iota(n, INT_MIN+n-1, -1)`. `for (int i: iota(...))` has no such problem. `C103_refuted`.
42. C104. `for_each(f, reverse(a))` forms a pointer before the start of `a` (strictly: undefined behavior, `[expr.add]`, and an error in constant expressions), since the inner loop moves once more after the last element. In a traversal of a column `a(all, j)`, or of `transpose(a)`, the last pointer is up to one step past the last element, that is more than one past the end of the array. Only pointers to elements are dereferenced. `C104_refuted`, `C104_views`.
43. C107. `operator>>` for `Dual` (ra.hh:695-705) declares `char s` without a value, does `i >> s`, and compares `s` without looking at the stream. At the end of the input, or if the stream had failed before, `s` is read uninitialized (`C107_failed_refuted`). In arrays that happens also when any element except the last one is wrong, since the elements after it are still read (`C107_array_refuted`), e.g. `2 [1 2]` into a `Big<Dual<int>, 1>`. `char s = 0` is enough.
44. C112. `std::tuple_size` of a view or array is the number of elements (arrays.hh:637) and `tuple_element` is the type of an element (640), but `get<i>` is the item `v[i]` (632). With rank 2 or more the items are not elements, so a structured binding of e.g. `Small<int, 2, 2>`, with four names as `tuple_size` requires, is refused (`get<2>` is out of range, and `get<0>` has two elements); with rank 0 `v[0]` is not valid.
45. C113. Two results in the manual are not those of the programs. docs/ra-ra.texi:1281 (and 1318) gives {{40, 80, 120}, {50, 100, 150}} for the outer product of {1, 2, 3} and {40, 50}; the result is {{40, 50}, {80, 100}, {120, 150}}, as the text that follows it also implies (shape 3 2). docs/ra-ra.texi:925 gives a 3x3 array for an expression with an array of shape 3 2; the result is {{0, -1}, {1, 0}, {2, 1}}. `manual_outer`, `manual_tindex` in P_Doc.v.
46. C130. With RA_FMA (ra.hh:364-374), which is on by default where FP_FAST_FMA is defined (with the flags -march=native of the SConstruct files, on most processors), `dot` of integers computes `c=fma(a, b, c)`, and std::fma of integers is of type double. So `dot(Big<int64_t, 1> {9007199254740993}, Big<int64_t, 1> {1})` is 9007199254740992, while without RA_FMA it's 9007199254740993 (C130_int_refuted). A result which doesn't fit is undefined even for unsigned types. For the same reason `dot` and `gemm` of the same double differ in the last places, as `gemm` doesn't use fma (ra.hh:403-412), although docs/ra-ra.texi:321 says that it does.
47. C133. A traversal of dynamic size (ply.hh:43-46) first multiplies the lengths of the axes that can be merged, and only after looks for axes of length 0. An array of shape {2^40, 2^40, 0} can be made (C55); its steps are {0, 0, 1}. In `transpose(std::array {1, 2, 0}, a)`, of shape {0, 2^40, 2^40}, the last two axes have step 0, so they are merged and their product overflows, which is undefined behavior (C133_refuted). With the usual wrapping of signed integers the result is still right, as the length 0 of the first axis is found after.
48. C141. examples/read-me.cc:102 says that four ways to store the sum of A(i, j, ...) in B(i, j) are equivalent. The second (line 104), `for_each([](auto && b, auto && a) { b = ra::sum(a); }, B, A)`, isn't: the operation gets elements and not cells, so each element of A overwrites the one before and B(i, j) is the last. With the A of the example B(0, 0) is 3 and not 6 (ex_ways). It isn't seen when the program runs because B is printed after the third and fourth.
49. C142. Results in docs/ra-ra.texi that aren't those of the programs. Line 478: c({2, 3}, 0.) after c(1) = 7 is {{0, 0, 0}, {7, 7, 7}}, not {{0, 1, 2}, {7, 7, 7}}. Lines 2003-2005: scalar(a) += 3 + {4, 5, 6} leaves 24, not 18, since 3 is added with each element and not once. Line 2547: from(A, {2, 1}, {0, 1}) is {{5, 6}, {3, 4}}, not {{6, 5}, {4, 3}}. Line 2731: reverse(a, ic<0>) is {{4, 5, 6}, {1, 2, 3}}; {{3, 2, 1}, {6, 5, 4}} is reverse(a, ic<1>) (and the type there is Small<int, 3, 2> with data of 2x3). Line 2789: the shape of from(plus, x, y) with x of length 2 and y of length 3 is (2, 3), not (3, 2). Lines 2843-2848: a*10 + transpose(a, ilist<1>) is {{11, 12, 13}, {21, 22, 23}, {31, 32, 33}}; the manual prints its transpose. Line 2990: x+y prints 11 22 33, not 12 24 36, which is x at the end. Line 3046: the last trace is 1, not -1.
50. C150. examples/view.cc makes B with `ra::none`, writes the interior only, and then reads the faces of B in `A(I, J, K) = c * (... B(I+1, J, K) ...)`. Those elements have never been given a value, so A is not determined (and reading them is undefined behavior as floats of indeterminate value). The test at the end can't tell because both runs read the same faces. The witness is N = 3, one iteration: A(1, 1, 1) is 676 if the faces of B are 5 and 688 if they are 6 (with c = 2 and integers). A line `B = A` or `B = 22.` before the loops is missing.
51. C156. `reflect` of examples/small.cc has 2.7 where the equation of a reflection has 2. The ray [1 0 -1] with the normal [0 0 1] gives [1 0 1.7] (`C156_refuted`).
52. C157. In bench/bench-sb.cc, `test(bigs, bigs, ...)` and all the tests other than the warmups give the same array for C and I, so I(ra::all, 0) = ... and I(ra::all, 1) = ... write over the first two columns of C. The tests pass as all the sums are of the same elements, but those aren't the ones of `4*ra::_0 + ra::_1`: with 10 by 4 and no offsets the sum is 97, not 193 (`C157_refuted`). bench-at.cc has another array for I.

Read off the code but not proved here: `pow(Dual, 0u)` wraps `b-1`.

## 5. Print Assumptions

All property theorems are "Closed under the global context", except those of C44, C45 (`P_Scalar.v`), C80 (`P_Test.v`), C87_unit, C87_int_refuted (`P_Whole.v`), C90_refuted (`P_Nan.v`), C125 (`P_Wave.v`), C134 (`P_Deriv.v`) and C130, C131 (`P_Fma.v`), which use these axioms of the standard library, through `Reals`:

    ClassicalDedekindReals.sig_forall_dec
    ClassicalDedekindReals.sig_not_dec
    FunctionalExtensionality.functional_extensionality_dep
    Classical_Prop.classic

`coqchk` also lists the axioms of the `Coq.ssr.ssrunder` interface, which are loaded with the standard library and not used.
