{
 "claims": [
  {
   "property": "C01",
   "status": "proved",
   "theorems": [
    "C01_agree_exact",
    "C01_validate_exact"
   ],
   "note": "Expression trees of any depth over cells, scalars, reframes, maps and picks."
  },
  {
   "property": "C02",
   "status": "proved",
   "theorems": [
    "C02_at_is_element",
    "C02_rank_extension"
   ],
   "note": ""
  },
  {
   "property": "C03",
   "status": "proved",
   "theorems": [
    "C03_static_traversal"
   ],
   "note": ""
  },
  {
   "property": "C04",
   "status": "proved",
   "theorems": [
    "C04_dynamic_traversal"
   ],
   "note": ""
  },
  {
   "property": "C05",
   "status": "proved",
   "theorems": [
    "C05_strategies_equal"
   ],
   "note": "Also for expressions that do not agree, which both refuse."
  },
  {
   "property": "C06",
   "status": "proved",
   "theorems": [
    "C06_early_exit"
   ],
   "note": ""
  },
  {
   "property": "C07",
   "status": "partial",
   "theorems": [
    "C07_history_partial",
    "C07_history_independent_refuted"
   ],
   "note": "The claim is false: an early stop leaves stale loop counters that corrupt the next traversal of the same expression type. Proved for histories of traversals that complete."
  },
  {
   "property": "C08",
   "status": "proved",
   "theorems": [
    "C08_any",
    "C08_every"
   ],
   "note": ""
  },
  {
   "property": "C09",
   "status": "proved",
   "theorems": [
    "C09_index"
   ],
   "note": "Arguments of rank at least 1 (rank 0 is refused by the code)."
  },
  {
   "property": "C10",
   "status": "proved",
   "theorems": [
    "C10_lexical_compare",
    "C10_strict_order"
   ],
   "note": ""
  },
  {
   "property": "C11",
   "status": "proved",
   "theorems": [
    "C11_stl_range"
   ],
   "note": ""
  },
  {
   "property": "C12",
   "status": "proved",
   "theorems": [
    "C12_dense",
    "C12_refused",
    "C12_rank"
   ],
   "note": ""
  },
  {
   "property": "C13",
   "status": "proved",
   "theorems": [
    "C13_contiguous"
   ],
   "note": ""
  },
  {
   "property": "C14",
   "status": "partial",
   "theorems": [
    "C14_ravel_partial",
    "C14_ravel_refuted"
   ],
   "note": "False if the last axis with length other than 1 has step 0 and another axis has not; proved for all other views."
  },
  {
   "property": "C15",
   "status": "partial",
   "theorems": [
    "C15_reshape_partial",
    "C15_shape",
    "C15_reshape_refuted",
    "C15_reshape_zero_step_refuted",
    "C15_reshape_empty_refuted"
   ],
   "note": "False in three cases, each with a witness: final axes of length 1 with another step, innermost step 0, select from a view without elements. Proved for all other cases."
  },
  {
   "property": "C16",
   "status": "partial",
   "theorems": [
    "C16_placeholder_partial",
    "C16_placeholder_refuted"
   ],
   "note": "False (division by zero) if the placeholder is the last and a previous length is 0; proved otherwise."
  },
  {
   "property": "C17",
   "status": "proved",
   "theorems": [
    "C17_element",
    "C17_involution",
    "C17_commute",
    "C17_subscript",
    "C17_origin"
   ],
   "note": ""
  },
  {
   "property": "C18",
   "status": "proved",
   "theorems": [
    "C18_transpose",
    "C18_in_range",
    "C18_diag",
    "C18_negative"
   ],
   "note": "C18_negative: other lists are undefined behavior."
  },
  {
   "property": "C19",
   "status": "proved",
   "theorems": [
    "C19_compose",
    "C19_inverse"
   ],
   "note": ""
  },
  {
   "property": "C20",
   "status": "partial",
   "theorems": [
    "C20_order_partial",
    "C20_order_refuted"
   ],
   "note": "False when an unbounded axis follows a bounded one; proved for bounded axes."
  },
  {
   "property": "C21",
   "status": "proved",
   "theorems": [
    "C21_stencil",
    "C21_accepted"
   ],
   "note": ""
  },
  {
   "property": "C22",
   "status": "partial",
   "theorems": [
    "C22_explode",
    "C22_collapse_scalar",
    "C22_collapse_array_partial",
    "C22_inverse",
    "C22_refuted"
   ],
   "note": "collapse() for scalar sub type, or array sub type with the same elements and the last axes of the super type. False for other array sub types."
  },
  {
   "property": "C23",
   "status": "proved",
   "theorems": [
    "C23_select",
    "C23_accepted",
    "C23_two_rests",
    "C23_rest_omitted"
   ],
   "note": "Sequences with several axes are in C25, arrays in C27."
  },
  {
   "property": "C24",
   "status": "proved",
   "theorems": [
    "C24_inside",
    "C24_inside_bounded"
   ],
   "note": ""
  },
  {
   "property": "C25",
   "status": "partial",
   "theorems": [
    "C25_partial",
    "C25_one_axis_partial",
    "C25_places_partial",
    "C25_start_refuted",
    "C25_range_refuted"
   ],
   "note": "False as stated. With several axes the start of the sequence is added once per axis, and only the last position on each axis is checked, so v(iota({2,2},0,{2,2})) reaches position 4 of a vector of length 3. Proved if the start is 0 or there is one axis; C25_places_partial gives what is selected and what is refused for any sequence."
  },
  {
   "property": "C26",
   "status": "proved",
   "theorems": [
    "C26_outer",
    "C26_bounded"
   ],
   "note": "Ranks are static, as in the code. Axes without a length are included: C26_outer gives the lengths of the result or their absence, C26_bounded is the case where all the axes have lengths."
  },
  {
   "property": "C27",
   "status": "proved",
   "theorems": [
    "C27_gather",
    "C27_same",
    "C27_any"
   ],
   "note": "Arrays of any rank and any elements, with lengths or without, mixed with indices, sequences, all, dots and insert. C27_gather also tells when it is refused: with insert, if the lengths of the array are not in its type. C27_any is the case where the rank of the array is not in its type: then it is the same, or refused if some axis of the result is not of the subscript arrays."
  },
  {
   "property": "C28",
   "status": "proved",
   "theorems": [
    "C28_at_exact"
   ],
   "note": ""
  },
  {
   "property": "C29",
   "status": "proved",
   "theorems": [
    "C29_assign"
   ],
   "note": "Any assignment operator; the source may read places not yet written, including the one being written."
  },
  {
   "property": "C30",
   "status": "proved",
   "theorems": [
    "C30_reduce_assign"
   ],
   "note": ""
  },
  {
   "property": "C31",
   "status": "partial",
   "theorems": [
    "C31_sum_partial",
    "C31_prod_partial",
    "C31_dot",
    "C31_cdot",
    "C31_reduce_sqrm",
    "C31_view",
    "C31_empty_partial",
    "C31_empty_refuted"
   ],
   "note": "False for sum and prod of an expression (not a view) without elements: they evaluate its missing first element, for its type (C31_empty_refuted). Proved in all other cases. Scalar elements; the non-fma branch."
  },
  {
   "property": "C32",
   "status": "proved",
   "theorems": [
    "C32_amin",
    "C32_amax",
    "C32_refmin",
    "C32_refmax"
   ],
   "note": "Total order on elements (no NaN) for amin/amax, weak order for refmin/refmax."
  },
  {
   "property": "C33",
   "status": "proved",
   "theorems": [
    "C33_gemm_c",
    "C33_gemm_e",
    "C33_refused_c",
    "C33_refused_e",
    "C33_gemm2"
   ],
   "note": "For any + and *, with the sums added in order of k; the ring laws are not needed."
  },
  {
   "property": "C34",
   "status": "proved",
   "theorems": [
    "C34_gemv_b",
    "C34_gemv_c",
    "C34_gemv_e",
    "C34_gevm_c",
    "C34_gevm_a",
    "C34_gevm_e",
    "C34_refused_gemv_b",
    "C34_refused_gemv_c",
    "C34_refused_gemv_e",
    "C34_refused_gevm_c",
    "C34_refused_gevm_a",
    "C34_refused_gevm_e",
    "C34_gemv2",
    "C34_gevm2"
   ],
   "note": "For any + and *, with the sums added in order of k."
  },
  {
   "property": "C35",
   "status": "proved",
   "theorems": [
    "C35_pick",
    "C35_pick_traversal",
    "C35_where"
   ],
   "note": ""
  },
  {
   "property": "C36",
   "status": "proved",
   "theorems": [
    "C36_and",
    "C36_or"
   ],
   "note": ""
  },
  {
   "property": "C37",
   "status": "proved",
   "theorems": [
    "C37_add_k",
    "C37_k_add",
    "C37_sub_k",
    "C37_k_sub",
    "C37_mul_k",
    "C37_k_mul",
    "C37_neg",
    "C37_traversal",
    "C37_add",
    "C37_sub"
   ],
   "note": "In exact integer arithmetic; see C64 for machine integers. Two sequences: lengths that agree; see C63 for others."
  },
  {
   "property": "C38",
   "status": "proved",
   "theorems": [
    "C38_replaced",
    "C38_without_len",
    "C38_defined",
    "C38_value",
    "C38_index",
    "C38_iota"
   ],
   "note": ""
  },
  {
   "property": "C39",
   "status": "proved",
   "theorems": [
    "C39_consistent",
    "C39_make",
    "C39_push_back",
    "C39_pop_back",
    "C39_resize",
    "C39_resize_shape"
   ],
   "note": "Sizes as unbounded integers; see C55 and C65 for overflow."
  },
  {
   "property": "C40",
   "status": "proved",
   "theorems": [
    "C40_build",
    "C40_assign"
   ],
   "note": "any depth; std::initializer_list arrays (Big, views). The nested constructors of Small have the lengths in their types and are not modelled"
  },
  {
   "property": "C41",
   "status": "proved",
   "theorems": [
    "C41_view",
    "C41_array"
   ],
   "note": "any layout of an existing view (pointer or iterator), new arrays of any shape; refused exactly if the sizes differ"
  },
  {
   "property": "C42",
   "status": "proved",
   "theorems": [
    "C42_array",
    "C42_static"
   ],
   "note": "integer elements; reading and writing of single integers modelled from the standard library; the default style and any style with only space between elements"
  },
  {
   "property": "C43",
   "status": "proved",
   "theorems": [
    "C43_layout",
    "C43_format",
    "C43_refuse",
    "C43_order",
    "C43_styles"
   ],
   "note": "elements that are not arrays; the text of each element is a parameter"
  },
  {
   "property": "C44",
   "status": "proved",
   "theorems": [
    "C44_fma",
    "C44_mul_conj",
    "C44_fma_conj",
    "C44_sqrm",
    "C44_xi",
    "C44_norm2",
    "C44_rel_error",
    "C44_rel_error_r",
    "C44_kinds"
   ],
   "note": "in the real numbers of the Coq library, with its axioms; rounding is not modelled"
  },
  {
   "property": "C45",
   "status": "partial",
   "theorems": [
    "C45_chain_partial",
    "C45_derivative",
    "C45_tan_refuted",
    "C45_tan_const",
    "C45_abs_refuted",
    "C45_pow_refuted",
    "C45_pow_origin"
   ],
   "note": "False as stated: tan divides by cos(a.du)^2, abs drops the derivative, pow(a, 0) at 0 is not finite. Proved for every composition of the other functions, in the real numbers of the Coq library, with its axioms."
  },
  {
   "property": "C46",
   "status": "proved",
   "theorems": [
    "C46_exact",
    "C46_fits",
    "C46_62",
    "C46_63",
    "C46_limit"
   ],
   "note": "C46_limit: (63, 29) wraps, so the comment in the source is exact"
  },
  {
   "property": "C47",
   "status": "proved",
   "theorems": [
    "C47_choose",
    "C47_even"
   ],
   "note": "C47_even: with 2*O>D each element is the complement of the element of choose<D, D-O> in the same place, with sign +1"
  },
  {
   "property": "C48",
   "status": "proved",
   "theorems": [
    "C48_trivial"
   ],
   "note": ""
  },
  {
   "property": "C49",
   "status": "proved",
   "theorems": [
    "C49_linear_a",
    "C49_linear_b",
    "C49_exchange",
    "C49_self",
    "C49_cross",
    "C49_cross_3"
   ],
   "note": "components in any commutative ring, so not floating point"
  },
  {
   "property": "C50",
   "status": "proved",
   "theorems": [
    "C50_swap",
    "C50_same"
   ],
   "note": "Dynamic with static rank. For two arrays of the same kind the code is std::swap, which exchanges the members."
  },
  {
   "property": "C51",
   "status": "proved",
   "theorems": [
    "C51_concrete",
    "C51_refused"
   ],
   "note": "rank 1 or more; the new storage is a part of memory that the expression does not read"
  },
  {
   "property": "C52",
   "status": "proved",
   "theorems": [
    "C52_pass",
    "C52_fail",
    "C52_len",
    "C52_validate"
   ],
   "note": "The check of shapes on types: pass implies agreement in every run, fail in none; the checks on types and those left for run time are together the check of shapes; ranks, lengths and sizes found in the types are those of every run."
  },
  {
   "property": "C53",
   "status": "partial",
   "theorems": [
    "C53_partial",
    "C53_settled_view",
    "C53_settled_fixed",
    "C53_refuted",
    "C53_top_refuted"
   ],
   "note": "Holds if the reframed arguments are views or scalars, or have all their lengths in the type, or generally if their static lengths do not depend on the check flag. False in general, with witnesses: Reframe does not pass on the check flag, so map(wrank<0, 1>(f), Small<2>, Small<3>+Big<1>) is never checked."
  },
  {
   "property": "C54",
   "status": "proved",
   "theorems": [
    "C54_unbounded_refused"
   ],
   "note": ""
  },
  {
   "property": "C55",
   "status": "proved",
   "theorems": [
    "C55_exact",
    "C55_only",
    "C55_offset",
    "C55_index",
    "C55_index_refused"
   ],
   "note": "Overflow is undefined behavior (UB). The condition is on every trailing product, so some empty shapes such as {0, 2^40, 2^40} cannot be had."
  },
  {
   "property": "C56",
   "status": "proved",
   "theorems": [
    "C56_ranks",
    "C56_static_ranks",
    "C56_item",
    "C56_outside",
    "C56_traversal"
   ],
   "note": ""
  },
  {
   "property": "C57",
   "status": "proved",
   "theorems": [
    "C57_accepted",
    "C57_element"
   ],
   "note": ""
  },
  {
   "property": "C58",
   "status": "proved",
   "theorems": [
    "C58_axes",
    "C58_value",
    "C58_inside"
   ],
   "note": ""
  },
  {
   "property": "C59",
   "status": "partial",
   "theorems": [
    "C59_partial",
    "C59_accept",
    "C59_accept_under",
    "C59_sound",
    "C59_past",
    "C59_cut",
    "C59_refuted"
   ],
   "note": "false for strings that end in the middle of separators (S) when nothing readable follows, or when } follows; proved for strings followed by NUL, and exactly when it fails if nothing follows"
  },
  {
   "property": "C60",
   "status": "proved",
   "theorems": [
    "C60_read",
    "C60_negative",
    "C60_negative_rank",
    "C60_unread",
    "C60_failed",
    "C60_vector",
    "C60_vector_unread"
   ],
   "note": "integer elements; for all texts"
  },
  {
   "property": "C61",
   "status": "partial",
   "theorems": [
    "C61_bad_axis_partial",
    "C61_bad_axis_refuted"
   ],
   "note": "False: the length of the axis is read before the axis is checked. Proved for k in range."
  },
  {
   "property": "C62",
   "status": "partial",
   "theorems": [
    "C62_indices_partial",
    "C62_rank_partial",
    "C62_accepted_partial",
    "C62_too_many_refuted"
   ],
   "note": "False as stated: v(0, iota(2)) reads beyond the axes and v(0, all) is accepted, for v a vector with run time rank or dimensions. Proved: scalar subscripts only are refused, any subscripts that would give a negative rank are refused, and too many are only ever accepted for a result of rank 0. In the other cases they are refused or read beyond the axes."
  },
  {
   "property": "C63",
   "status": "partial",
   "theorems": [
    "C63_run_partial",
    "C63_mismatch_refuted"
   ],
   "note": "False as stated: iota(ic<3>) + iota(4) gives 3 elements, and iota(ic<3>) + iota(ic<4>) a sequence that is traversed as empty. Proved for run time lengths."
  },
  {
   "property": "C64",
   "status": "partial",
   "theorems": [
    "C64_type",
    "C64_exact_k",
    "C64_exact",
    "C64_unsigned_k",
    "C64_unsigned",
    "C64_neg",
    "C64_wrap_refuted",
    "C64_overflow_refuted",
    "C64_empty_refuted"
   ],
   "note": "False as stated: -iota(4, 0u)+1L differs, and iota(2, -1000000000, 2000000000)*2 overflows only with the optimization. Proved if the sequences, offsets and results fit, and for unsigned results of the same size as the sequences."
  },
  {
   "property": "C65",
   "status": "partial",
   "theorems": [
    "C65_size_partial",
    "C65_size_refuted",
    "C65_unbounded"
   ],
   "note": "False as stated: {2^40, 2^40, 0} can be made, but size() overflows. Proved if no length is 0 or if the leading products fit."
  },
  {
   "property": "C66",
   "status": "partial",
   "theorems": [
    "C66_refused_partial",
    "C66_resize",
    "C66_resize_shape",
    "C66_resize_refuted"
   ],
   "note": "False as stated: resize to a negative length is refused only after the lengths have been set. Proved for the other operations."
  },
  {
   "property": "C67",
   "status": "partial",
   "theorems": [
    "C67_target",
    "C67_static_partial",
    "C67_static_refuted",
    "C67_any_refuted",
    "C67_resize"
   ],
   "note": "False as stated: with static rank the shape stays and the store is empty; with dynamic rank there is one element (rank 0) and no store. Proved for empty arrays, and that resize() to a shape makes it usable."
  },
  {
   "property": "C68",
   "status": "proved",
   "theorems": [
    "C68_sign",
    "C68_exchange"
   ],
   "note": ""
  },
  {
   "property": "C69",
   "status": "proved",
   "theorems": [
    "C69_twice"
   ],
   "note": ""
  },
  {
   "property": "C70",
   "status": "proved",
   "theorems": [
    "C70_components",
    "C70_associative",
    "C70_dot"
   ],
   "note": "components in any commutative ring"
  },
  {
   "property": "C71",
   "status": "partial",
   "theorems": [
    "C71_apart_partial",
    "C71_flat",
    "C71_flat_inside",
    "C71_nested_refuted"
   ],
   "note": "False as stated: the counters are thread_local, so a traversal of the same type run by the operation changes those of the outer one, which then goes past the end of its view. Proved if the operations leave the counters alone, and with any operations if the traversal has rank 1 or consecutive elements"
  },
  {
   "property": "C72",
   "status": "partial",
   "theorems": [
    "C72_partial",
    "C72_from",
    "C72_extra",
    "C72_refuted",
    "C72_each"
   ],
   "note": "With no more indices than axes, exact. With too many it is false: with at most twice as many as axes only the first ones are used, and it is not refused (C72_extra, C72_refuted)."
  },
  {
   "property": "C73",
   "status": "proved",
   "theorems": [
    "C73_exact",
    "C73_axis"
   ],
   "note": "For expressions where the sequences have a length that is not negative."
  },
  {
   "property": "C74",
   "status": "partial",
   "theorems": [
    "C74_one",
    "C74_not_one",
    "C74_disagree_partial",
    "C74_disagree_refuted"
   ],
   "note": "Exact for expressions whose arguments agree. If they do not agree it is refused when the size is not in the type, and it may be converted when it is (C74_disagree_refuted)."
  },
  {
   "property": "C75",
   "status": "proved",
   "theorems": [
    "C75_element",
    "C75_update",
    "C75_refused"
   ],
   "note": "The array of indices is not among the elements written."
  },
  {
   "property": "C76",
   "status": "partial",
   "theorems": [
    "C76_partial",
    "C76_even",
    "C76_even_refuted",
    "C76_single_refuted"
   ],
   "note": "Holds for odd sizes above 1. For even sizes it gives the upper of the middle elements (C76_even, C76_even_refuted) and for size 1, which is the default, it accesses the vector out of range (C76_single_refuted)."
  },
  {
   "property": "C77",
   "status": "partial",
   "theorems": [
    "C77_zero",
    "C77_refuted"
   ],
   "note": "False. It is the median of the signed deviations, which is always zero (C77_zero; with one run, see C76)."
  },
  {
   "property": "C78",
   "status": "proved",
   "theorems": [
    "C78_record",
    "C78_sum"
   ],
   "note": ""
  },
  {
   "property": "C79",
   "status": "proved",
   "theorems": [
    "C79_agree",
    "C79_mismatch",
    "C79_strict"
   ],
   "note": "For arguments whose types are settled (the lengths in the type of a reframed argument do not hide a mismatch), as in C53. Without effects in the elements."
  },
  {
   "property": "C80",
   "status": "partial",
   "theorems": [
    "C80_abs_partial",
    "C80_rel_partial",
    "C80_empty_refuted"
   ],
   "note": "Exact for arrays with elements. Without elements the tests always fail (C80_empty_refuted). Numbers are reals with NaN and infinities, so without rounding."
  },
  {
   "property": "C81",
   "status": "partial",
   "theorems": [
    "C81_partial",
    "C81_refuted"
   ],
   "note": "False: the first element is evaluated one more time (C81_refuted). C81_partial is the exact order with any side effects and failures."
  },
  {
   "property": "C82",
   "status": "proved",
   "theorems": [
    "C82_loop",
    "C82_shift_left",
    "C82_shift_right",
    "C82_reverse",
    "C82_not_at_once"
   ],
   "note": "C82_not_at_once: it is not as if the source were read first."
  },
  {
   "property": "C83",
   "status": "partial",
   "theorems": [
    "C83_view",
    "C83_array",
    "C83_unbounded_partial",
    "C83_unbounded_refuted"
   ],
   "note": "Proved for bounded views and containers. Unbounded views are refused only if the range uses STLIterator: the loop on iota() does not end (C83_unbounded_refuted)."
  },
  {
   "property": "C84",
   "status": "partial",
   "theorems": [
    "C84_same",
    "C84_accepted",
    "C84_range_rank1",
    "C84_range_partial",
    "C84_range_refuted"
   ],
   "note": "Shape and elements are proved. The range is proved for rank 1 in the type or if the elements are contiguous, and is false otherwise (C84_range_refuted). The ownership (who frees the elements) is not modelled."
  },
  {
   "property": "C85",
   "status": "partial",
   "theorems": [
    "C85_back",
    "C85_back_refuted",
    "C85_as"
   ],
   "note": "Proved for rank at least 1. If the rank is not in the type and is 0, back() reads the length of an axis that does not exist (C85_back_refuted)."
  },
  {
   "property": "C86",
   "status": "proved",
   "theorems": [
    "C86_cat",
    "C86_rank_refused"
   ],
   "note": "The arguments do not refer to the new array, which is so in the code."
  },
  {
   "property": "C87",
   "status": "partial",
   "theorems": [
    "C87_elements",
    "C87_unit",
    "C87_int_refuted"
   ],
   "note": "Proved with exact arithmetic if the quotient is in the type of the elements (real or complex). If they are integers the quotient is truncated, e.g. normv of {3, 4} is {0, 0} (C87_int_refuted). Rounding is not modelled."
  },
  {
   "property": "C88",
   "status": "proved",
   "theorems": [
    "C88_append",
    "C88_cut",
    "C88_ref",
    "C88_index",
    "C88_iota",
    "C88_makelist",
    "C88_reverse",
    "C88_filter",
    "C88_mapcons",
    "C88_map",
    "C88_map_none"
   ],
   "note": "A refusal is that it does not compile (a failed static_assert or a missing specialization). The compiler limits on recursion are not modelled."
  },
  {
   "property": "C89",
   "status": "partial",
   "theorems": [
    "C89_overloads_partial",
    "C89_not_ambiguous",
    "C89_other",
    "C89_refuted",
    "C89_eager",
    "C89_and_or",
    "C89_decided",
    "C89_where"
   ],
   "note": "False for one combination: if the ra:: arguments all have rank 0 (without len) and another one is a range or a built in array, no operator applies (C89_refuted). The rest is proved."
  },
  {
   "property": "C90",
   "status": "partial",
   "theorems": [
    "C90_amin",
    "C90_amax",
    "C90_refmin_partial",
    "C90_refmax_partial",
    "C90_refuted"
   ],
   "note": "False for refmin and refmax if the first element is NaN: then it is the result, whatever the others are (C90_refuted, proved in general in C90_refmin_partial and C90_refmax_partial). True for amin and amax, and for refmin and refmax if the first element is a number."
  },
  {
   "property": "C91",
   "status": "partial",
   "theorems": [
    "C91_rank",
    "C91_size",
    "C91_shape_partial",
    "C91_bounded",
    "C91_refuted"
   ],
   "note": "False for shape() if the type has an unbounded axis before one whose length is only known at run time: then the result has ANY for the second one (C91_refuted). Proved for all the others, in particular for all that can be traversed (C91_bounded); rank() and size() without exceptions."
  },
  {
   "property": "C92",
   "status": "proved",
   "theorems": [
    "C92_insert",
    "C92_prefix",
    "C92_from",
    "C92_same"
   ],
   "note": ""
  },
  {
   "property": "C93",
   "status": "partial",
   "theorems": [
    "C93_scalar_partial",
    "C93_empty_partial",
    "C93_dead_refuted",
    "C93_step_refuted"
   ],
   "note": "Holds for scalars on axes with step 0. Every sequence with elements is refused, and so is every scalar if the step is not 0."
  },
  {
   "property": "C94",
   "status": "partial",
   "theorems": [
    "C94_aligned_partial",
    "C94_rows_partial",
    "C94_matched",
    "C94_rows_refuted",
    "C94_as_refuted"
   ],
   "note": "Holds for arrays whose size is a power of two, and their rows. False for the rows of other arrays and for views that begin elsewhere, which are not aligned."
  },
  {
   "property": "C95",
   "status": "proved",
   "theorems": [
    "C95_real",
    "C95_imag"
   ],
   "note": "The elements of the view are at different places."
  },
  {
   "property": "C96",
   "status": "proved",
   "theorems": [
    "C96_where",
    "C96_where_distinct"
   ],
   "note": ""
  },
  {
   "property": "C97",
   "status": "proved",
   "theorems": [
    "C97_scatter"
   ],
   "note": ""
  },
  {
   "property": "C98",
   "status": "partial",
   "theorems": [
    "C98_hodgex_partial",
    "C98_view_refuted"
   ],
   "note": "False as stated: undefined for any view of non-const elements of type other than int, since the sign is converted to a reference. Proved for containers, views of const elements, and views of int."
  },
  {
   "property": "C99",
   "status": "partial",
   "theorems": [
    "C99_container",
    "C99_view_partial",
    "C99_view_refuted"
   ],
   "note": "False as stated for views if 2*O is D: the copy of the view has the same elements. Proved for containers, and for views of int if 2*O is not D."
  },
  {
   "property": "C100",
   "status": "proved",
   "theorems": [
    "C100_cross",
    "C100_one",
    "C100_turn"
   ],
   "note": ""
  },
  {
   "property": "C101",
   "status": "partial",
   "theorems": [
    "C101_sum_partial",
    "C101_refused",
    "C101_empty_refuted"
   ],
   "note": "False as stated if a has no elements: the shape of the result is that of an element that does not exist. Proved if there is at least one."
  },
  {
   "property": "C102",
   "status": "proved",
   "theorems": [
    "C102_two_steps",
    "C102_curry",
    "C102_sequences"
   ],
   "note": "The equalities are of views (place, lengths and steps), so also of all that is read or written through them."
  },
  {
   "property": "C103",
   "status": "partial",
   "theorems": [
    "C103_traversal_partial",
    "C103_stl",
    "C103_refuted"
   ],
   "note": "False for the end of the range of the type: the inner loop moves once more after the last element (finding 41). What is proved is the exact condition, for the traversals of statically and of dynamically known size, and that STL ranges do not have the problem."
  },
  {
   "property": "C104",
   "status": "partial",
   "theorems": [
    "C104_fixed",
    "C104_ravel",
    "C104_stl",
    "C104_pointers_partial",
    "C104_refuted"
   ],
   "note": "False for views (finding 42). C104_fixed gives exactly which positions are taken by the traversal with static ranks, C104_ravel limits those of the one with dynamic ranks to the same, C104_stl gives exactly those of STL ranges; C104_pointers_partial is the property for expressions of whole arrays."
  },
  {
   "property": "C105",
   "status": "proved",
   "theorems": [
    "C105_associative",
    "C105_gemv",
    "C105_transpose",
    "C105_gevm",
    "C105_dot"
   ],
   "note": ""
  },
  {
   "property": "C106",
   "status": "proved",
   "theorems": [
    "C106_round_trip",
    "C106_text",
    "C106_failed",
    "C106_stop"
   ],
   "note": ""
  },
  {
   "property": "C107",
   "status": "partial",
   "theorems": [
    "C107_accept",
    "C107_kept",
    "C107_reject_partial",
    "C107_failed_refuted",
    "C107_array_refuted"
   ],
   "note": "False if there is nothing to read, or the stream had failed: a variable that has not been set is compared. Proved otherwise."
  },
  {
   "property": "C108",
   "status": "proved",
   "theorems": [
    "C108_cells",
    "C108_reduce",
    "C108_spread",
    "C108_expr",
    "C108_for_each",
    "C108_disagree",
    "C108_cells_disagree"
   ],
   "note": ""
  },
  {
   "property": "C109",
   "status": "proved",
   "theorems": [
    "C109_empty",
    "C109_size",
    "C109_unbounded"
   ],
   "note": ""
  },
  {
   "property": "C110",
   "status": "proved",
   "theorems": [
    "C110_view",
    "C110_view_rank0",
    "C110_view_refused",
    "C110_scalar",
    "C110_elements",
    "C110_nested",
    "C110_same",
    "C110_pointer",
    "C110_pointer_refused"
   ],
   "note": "which constructor is chosen is not modelled"
  },
  {
   "property": "C111",
   "status": "proved",
   "theorems": [
    "C111_builtin",
    "C111_part",
    "C111_lens",
    "C111_lens_rank",
    "C111_dims",
    "C111_dims_rank",
    "C111_ptr",
    "C111_range"
   ],
   "note": "that the steps stay inside the memory is not checked by the code (arrays.hh:109)"
  },
  {
   "property": "C112",
   "status": "partial",
   "theorems": [
    "C112_partial",
    "C112_others_refuted",
    "C112_refuted"
   ],
   "note": "true if and only if the axes after the first have length 1 (or there are no elements); false for rank 0 and for shape 2 2"
  },
  {
   "property": "C113",
   "status": "proved",
   "theorems": [
    "C113_verb",
    "C113_cells",
    "C113_transpose",
    "C113_same",
    "C113_refused",
    "C113_product_same",
    "C113_product",
    "C113_product_refused"
   ],
   "note": ""
  },
  {
   "property": "C114",
   "status": "proved",
   "theorems": [
    "C114_slices",
    "C114_explicit",
    "C114_same",
    "C114_view",
    "C114_refused",
    "C114_outside"
   ],
   "note": ""
  },
  {
   "property": "C115",
   "status": "proved",
   "theorems": [
    "C115_arrayop",
    "C115_sumprod",
    "C115_sumprod2",
    "C115_same",
    "C115_refused"
   ],
   "note": ""
  },
  {
   "property": "C116",
   "status": "proved",
   "theorems": [
    "C116_up",
    "C116_down",
    "C116_round",
    "C116_rolls",
    "C116_refused",
    "C116_wave"
   ],
   "note": ""
  },
  {
   "property": "C117",
   "status": "proved",
   "theorems": [
    "C117_diff",
    "C117_short",
    "C117_antisym",
    "C117_antisym_sign",
    "C117_antisym_refused",
    "C117_divergence",
    "C117_divergence_map",
    "C117_divergence_same"
   ],
   "note": ""
  },
  {
   "property": "C118",
   "status": "proved",
   "theorems": [
    "C118_sum",
    "C118_scalar_same",
    "C118_scalar",
    "C118_rows",
    "C118_row_max"
   ],
   "note": ""
  },
  {
   "property": "C119",
   "status": "proved",
   "theorems": [
    "C119_not",
    "C119_index",
    "C119_trichotomy",
    "C119_dot",
    "C119_sum",
    "C119_linear",
    "C119_cdot",
    "C119_sqrm",
    "C119_negate",
    "C119_rearranged",
    "C119_transpose",
    "C119_reverse",
    "C119_dot_transpose",
    "C119_reshape",
    "C119_cat"
   ],
   "note": "reshape: where C15 holds; the cases where it does not are C15_*_refuted."
  },
  {
   "property": "C120",
   "status": "proved",
   "theorems": [
    "C120_residual",
    "C120_bound",
    "C120_terminates",
    "C120_border",
    "C120_exact",
    "C120_eigen"
   ],
   "note": "Exact arithmetic (any ordered field). The bound on the number of tests of the condition is a parameter of the model; C120_bound says that it does not matter."
  },
  {
   "property": "C121",
   "status": "proved",
   "theorems": [
    "C121_symmetric",
    "C121_positive",
    "C121_unique",
    "C121_ends",
    "C121_solves"
   ],
   "note": ""
  },
  {
   "property": "C122",
   "status": "proved",
   "theorems": [
    "C122_gemm1",
    "C122_gemm2",
    "C122_gemm3",
    "C122_gemm4",
    "C122_gemm5",
    "C122_block",
    "C122_k_raw",
    "C122_ij_raw",
    "C122_same"
   ],
   "note": "The bound 64 is a parameter. The variant with fma is not modelled (maybe_fma without fma)."
  },
  {
   "property": "C123",
   "status": "proved",
   "theorems": [
    "C123_mult0",
    "C123_mult1",
    "C123_linear",
    "C123_energy",
    "C123_symmetric",
    "C123_multiplies0",
    "C123_multiplies1"
   ],
   "note": "Exact arithmetic. The indices A.E(n).v and A.B are lists in the model, not places of the memory."
  },
  {
   "property": "C124",
   "status": "proved",
   "theorems": [
    "C124_elements",
    "C124_border",
    "C124_mesh",
    "C124_stiffness",
    "C124_mass",
    "C124_symmetric",
    "C124_positive",
    "C124_unique",
    "C124_ends",
    "C124_solves",
    "C124_eigen",
    "C124_program"
   ],
   "note": "Exact arithmetic."
  },
  {
   "property": "C125",
   "status": "proved",
   "theorems": [
    "C125_error",
    "C125_tests"
   ],
   "note": "Real numbers, not floating point. That abs(c-x) is in amax is by element."
  },
  {
   "property": "C126",
   "status": "proved",
   "theorems": [
    "C126_linear",
    "C126_symmetric",
    "C126_positive",
    "C126_mult",
    "C126_maximum",
    "C126_error",
    "C126_program",
    "C126_bound"
   ],
   "note": "Any ordered field, so not floating point. That the program with N = 50 gives max <= 0.00463 is not proved: the bound of C126_bound is not that sharp."
  },
  {
   "property": "C127",
   "status": "proved",
   "theorems": [
    "C127_step",
    "C127_steps",
    "C127_opposite",
    "C127_momentum",
    "C127_center",
    "C127_angular",
    "C127_relative",
    "C127_conserved",
    "C127_draw"
   ],
   "note": "C127_step and C127_steps hold for any operations, floating point too. The sums are for a field. The text that is printed is not here (cf. C42, C43)."
  },
  {
   "property": "C128",
   "status": "proved",
   "theorems": [
    "C128_gemv_0",
    "C128_gemv_i",
    "C128_gemv_j",
    "C128_gemv",
    "C128_gevm_i",
    "C128_gevm_j",
    "C128_gevm"
   ],
   "note": "For maybe_fma without fma, as in C34."
  },
  {
   "property": "C129",
   "status": "proved",
   "theorems": [
    "C129_rows_raw",
    "C129_rows_each",
    "C129_rows_verb",
    "C129_rows_cells",
    "C129_rows_transp",
    "C129_rows_side",
    "C129_cols_raw",
    "C129_cols_side",
    "C129_cols_match",
    "C129_cols_accum",
    "C129_grouped"
   ],
   "note": "ex_grouped is an operation that is not associative for which the two groupings differ."
  },
  {
   "property": "C130",
   "status": "partial",
   "theorems": [
    "C130_dot_real",
    "C130_dot_complex",
    "C130_sqrm_complex",
    "C130_int_partial",
    "C130_int_refuted",
    "C130_double_refuted"
   ],
   "note": "False for integers (C130_int_refuted: {2^53+1} . {1} is 2^53), since fma of integers goes through double. C130_int_partial: exact if the elements and the sum of the magnitudes of the products are within 2^53. On double the result with fma is not the same as without it (C130_double_refuted); both are within the bound of C131."
  },
  {
   "property": "C131",
   "status": "proved",
   "theorems": [
    "C131_sum",
    "C131_dot",
    "C131_sqrm",
    "C131_gemm",
    "C131_gemv",
    "C131_exact_sum",
    "C131_exact_dot",
    "C131_exact_gemm",
    "C131_factor",
    "C131_zero"
   ],
   "note": "IEEE binary64 of Flocq, rounding to nearest even, and no options such as -ffast-math. C131_factor: (1+u)^n-1 <= nu/(1-nu)."
  },
  {
   "property": "C132",
   "status": "proved",
   "theorems": [
    "C132_agree",
    "C132_order",
    "C132_silent",
    "C132_assign"
   ],
   "note": "The order is any function of the place of the operation in the expression. Arguments may read the memory and fail checks, but not write or be undefined. C132_silent gives the condition from the operations."
  },
  {
   "property": "C133",
   "status": "partial",
   "theorems": [
    "C133_exact",
    "C133_whole_partial",
    "C133_refused",
    "C133_refuted"
   ],
   "note": "False for transpose({1, 2, 0}, a) with a of shape {2^40, 2^40, 0} (finding 47). C133_exact: for any expression it is enough that the trailing products of the lengths fit, and their products by the steps of the arguments on the last axis. C133_whole_partial: expressions on whole arrays always meet this."
  },
  {
   "property": "C134",
   "status": "proved",
   "theorems": [
    "C134_deriv",
    "C134_exact"
   ],
   "note": "Real arithmetic. C134_exact: y2exact is the second derivative, in the sense of the standard library."
  },
  {
   "property": "C135",
   "status": "proved",
   "theorems": [
    "C135_reim",
    "C135_collapse",
    "C135_raw",
    "C135_pack",
    "C135_xi",
    "C135_same"
   ],
   "note": "For C135_xi 0+x = x is needed. The memory of complex numbers and that of their parts are related by `parts`."
  },
  {
   "property": "C136",
   "status": "proved",
   "theorems": [
    "C136_assign",
    "C136_permute",
    "C136_swap",
    "C136_refs"
   ],
   "note": "All elements are of one type."
  },
  {
   "property": "C137",
   "status": "proved",
   "theorems": [
    "C137_values",
    "C137_objects",
    "C137_counts",
    "C137_freed",
    "C137_alias",
    "C137_defined",
    "C137_loan"
   ],
   "note": "The copy and move operations of the standard library (std::vector, std::unique_ptr, std::shared_ptr) are assumed to do what the standard says. C137_loan: the elements from shared_borrowing() are undefined, or those of someone else, after the owner is gone."
  },
  {
   "property": "C138",
   "status": "proved",
   "theorems": [
    "C138_fold",
    "C138_rows",
    "C138_compound",
    "C138_max"
   ],
   "note": "C138_fold and C138_rows suppose that different elements of the destination are in different places."
  },
  {
   "property": "C139",
   "status": "proved",
   "theorems": [
    "C139_traversals",
    "C139_total",
    "C139_refused",
    "C139_index",
    "C139_index_short",
    "C139_raw"
   ],
   "note": "C139_total is for arguments with elements, because of C31."
  },
  {
   "property": "C140",
   "status": "proved",
   "theorems": [
    "C140_at_same",
    "C140_at",
    "C140_from",
    "C140_strips",
    "C140_where",
    "C140_circle",
    "C140_disc",
    "C140_iota"
   ],
   "note": "A and B are in different memory and different elements of A are in different places. The circle is with exact numbers."
  },
  {
   "property": "C141",
   "status": "partial",
   "theorems": [
    "C141_cells",
    "C141_sums_partial",
    "C141_elements",
    "C141_elements_refuted"
   ],
   "note": "B += A and the two loops with iter() are equivalent; the loop without iter() is not (C141_elements_refuted): it leaves the last element (C141_elements). A and B are in different memory and different elements of B in different places."
  },
  {
   "property": "C142",
   "status": "partial",
   "theorems": [
    "C142_scalar",
    "C142_scalar_with",
    "C142_scalar_last",
    "C142_transpose_after",
    "C142_dead_axes",
    "C142_traces",
    "C142_row",
    "C142_row_refused",
    "C142_both",
    "C142_split",
    "C142_split_map",
    "C142_scalar_refuted",
    "C142_documented_refuted"
   ],
   "note": "What the programs do is proved for all arrays. That they give what the manual says is false for eight of them (C142_documented_refuted, C142_scalar_refuted). In C142_scalar the right hand side does not read a; in the others the arrays are in different memory and different elements of what is written in different places."
  },
  {
   "property": "C143",
   "status": "proved",
   "theorems": [
    "C143_arrays",
    "C143_scalars",
    "C143_each",
    "C143_slices",
    "C143_pointer",
    "C143_same",
    "C143_arrays_refused",
    "C143_scalars_refused",
    "C143_each_refused",
    "C143_slices_refused",
    "C143_pointer_unchecked",
    "C143_new_in_rows"
   ],
   "note": "No two elements of B are in the same place and A is elsewhere (target). The loop on the raw memory is for arrays whose elements are one after the other, as those of new arrays are (C143_new_in_rows)."
  },
  {
   "property": "C144",
   "status": "proved",
   "theorems": [
    "C144_subscript",
    "C144_at",
    "C144_at_op",
    "C144_refused"
   ],
   "note": "Each row has at least as many entries as C has axes (enough). In C144_at_op there is at least one row, since sum() evaluates the first element (C31). I is not in the memory of C."
  },
  {
   "property": "C145",
   "status": "proved",
   "theorems": [
    "C145_total",
    "C145_zeros",
    "C145_fits",
    "C145_bench"
   ],
   "note": ""
  },
  {
   "property": "C146",
   "status": "proved",
   "theorems": [
    "C146_view",
    "C146_array",
    "C146_expr"
   ],
   "note": "If b is iterated on with a pointer then it is in row-major order; for views that is begin_pointer_order (C41), and containers are always so. fuel bounds the turns of the loop; any number larger than the size will do."
  },
  {
   "property": "C147",
   "status": "proved",
   "theorems": [
    "C147_number",
    "C147_ravel",
    "C147_index",
    "C147_iota",
    "C147_same",
    "C147_count",
    "C147_accumulate",
    "C147_sum",
    "C147_true",
    "C147_cells",
    "C147_sum_true"
   ],
   "note": "C147_sum and C147_sum_true are for expressions with at least one element, since sum() evaluates the first element in any case (C31)."
  },
  {
   "property": "C148",
   "status": "proved",
   "theorems": [
    "C148_from",
    "C148_insert",
    "C148_transpose",
    "C148_refused",
    "C148_index",
    "C148_index_refused",
    "C148_same",
    "C148_rows",
    "C148_columns"
   ],
   "note": "A must not overlap with itself nor with x or y. y has at least one axis in the form with transpose."
  },
  {
   "property": "C149",
   "status": "proved",
   "theorems": [
    "C149_none",
    "C149_join",
    "C149_all",
    "C149_rest",
    "C149_end",
    "C149_iota",
    "C149_fill",
    "C149_one"
   ],
   "note": "C149_iota and C149_one are for axes that have a length (not insert<>). dots<> at the end is C23_rest_omitted."
  },
  {
   "property": "C150",
   "status": "partial",
   "theorems": [
    "C150_step",
    "C150_heat",
    "C150_faces_partial",
    "C150_keeps",
    "C150_same",
    "C150_start",
    "C150_program",
    "C150_refused",
    "C150_refuted"
   ],
   "note": "All but the last sentence is proved (C150_step to C150_refused). The last is false: B is made with none, and its faces are read without having been written (C150_refuted). What is true is that A depends on B by its faces only (C150_faces_partial). The conversion from double to float is a function. I+1 and I-1 are the optimized ones (C37)."
  },
  {
   "property": "C151",
   "status": "proved",
   "theorems": [
    "C151_raw",
    "C151_stencil",
    "C151_exact",
    "C151_mask",
    "C151_loop",
    "C151_loop_mask",
    "C151_bench",
    "C151_small"
   ],
   "note": "With double the last three add in another order, so they are the same up to rounding only; the theorem for those is for the numbers of a ring. The arrays must not overlap with each other nor with the mask, and must have the same steps, as those of the benchmarks do; otherwise the swap of the pointers would not exchange them."
  },
  {
   "property": "C152",
   "status": "proved",
   "theorems": [
    "C152_where",
    "C152_far",
    "C152_sign",
    "C152_pick",
    "C152_stops",
    "C152_not",
    "C152_again"
   ],
   "note": "The destination must not overlap with x."
  },
  {
   "property": "C153",
   "status": "proved",
   "theorems": [
    "C153_assign",
    "C153_last",
    "C153_empty",
    "C153_refused"
   ],
   "note": "Different elements must be at different places, none of them an element of a."
  },
  {
   "property": "C154",
   "status": "proved",
   "theorems": [
    "C154_explode",
    "C154_collapse",
    "C154_components"
   ],
   "note": "Subscripts with several axes each (iota of rank over 1) are left out. imag_part(A) = x in the same example is C95, and collapse to the parts of complex numbers is C135."
  },
  {
   "property": "C155",
   "status": "proved",
   "theorems": [
    "C155_ply",
    "C155_loop",
    "C155_stops",
    "C155_refused",
    "C155_same",
    "C155_values"
   ],
   "note": "A vector is at a multiple of its size; two vectors are the same one or have nothing in common. Rounding is not at issue as there is one operation for each component."
  },
  {
   "property": "C156",
   "status": "proved",
   "theorems": [
    "C156_reflect",
    "C156_add",
    "C156_parts",
    "C156_two",
    "C156_refuted"
   ],
   "note": "C156_refuted is for the last part with k = 2.7, with rational numbers. With double, what holds for rings holds up to rounding."
  },
  {
   "property": "C157",
   "status": "proved",
   "theorems": [
    "C157_reads",
    "C157_refused",
    "C157_apart",
    "C157_self",
    "C157_refuted"
   ],
   "note": "C157_refuted has the sums for the sizes of the benchmark, that are different. The elements are integers without overflow in 4*_0 + _1; the operation that adds them up is any."
  },
  {
   "property": "C158",
   "status": "proved",
   "theorems": [
    "C158_ply",
    "C158_inside",
    "C158_reframe",
    "C158_transpose",
    "C158_twice",
    "C158_assign",
    "C158_fuse",
    "C158_fuse_in",
    "C158_scalar",
    "C158_swap",
    "C158_pure",
    "C158_not",
    "C158_not_not",
    "C158_de_morgan",
    "C158_for_each",
    "C158_reduce",
    "C158_every",
    "C158_order_refuted"
   ],
   "note": "C158_order_refuted: with effects the order of the arguments counts, so C158_swap needs pure arguments."
  },
  {
   "property": "C159",
   "status": "proved",
   "theorems": [
    "C159_change",
    "C159_sum2",
    "C159_nested",
    "C159_check",
    "C159_turn",
    "C159_reversed",
    "C159_transposed",
    "C159_permuted",
    "C159_mismatched",
    "C159_reverse1",
    "C159_self_refuted"
   ],
   "note": "C159_self_refuted: if a is reverse(b), b -= a and b += a do not undo each other, so C159_check needs arrays without common elements."
  }
 ]
}