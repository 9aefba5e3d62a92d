{"claims": [
  {"property": "C01", "status": "proved", "theorems": ["C01_values_never_stale"], "note": "all histories over all class libraries meeting the class contract lib_ok (deterministic methods that read attributes they declare); on_changed is modelled as an event and may not assign"},
  {"property": "C02", "status": "partial", "theorems": ["C02_derivatives_never_stale_partial", "C02_view_refuted"], "note": "proved for every w that is not a reordering view; false for views, whose re-assigned indices leave a cached Jacobian"},
  {"property": "C03", "status": "proved", "theorems": ["C03_reads_change_no_attribute", "C03_reads_change_no_result"], "note": ""},
  {"property": "C04", "status": "proved", "theorems": ["C04_assignment_touches_only_dependents"], "note": ""},
  {"property": "C05", "status": "proved", "theorems": ["C05_no_recomputation", "C05_each_body_once"], "note": ""},
  {"property": "C06", "status": "proved", "theorems": ["C06_clear_terminates", "C06_clear_exact"], "note": ""},
  {"property": "C07", "status": "proved", "theorems": ["C07_tagged_batch", "C07_read_between_refuted"], "note": "the second theorem shows that reading in between is really unsafe"},
  {"property": "C08", "status": "partial", "theorems": ["C08_set_is_assignments_partial", "C08_keyword_order", "C08_untracked_last_refuted"], "note": "false when the keyword processed last is not a term; proved otherwise"},
  {"property": "C09", "status": "proved", "theorems": ["C09_notifications_exact"], "note": ""},
  {"property": "C10", "status": "proved", "theorems": ["C10_properties_never_stale", "C10_properties_not_recomputed"], "note": ""},
  {"property": "C11", "status": "proved", "theorems": ["C11_parent_links_exact"], "note": ""},
  {"property": "C12", "status": "proved", "theorems": ["C12_collection_transparent"], "note": ""},
  {"property": "C13", "status": "proved", "theorems": ["C13_is_dr_wrt_exact"], "note": "For every history; termination needs a graph without cycles, correctness does not."},
  {"property": "C14", "status": "proved", "theorems": ["C14_tree_visits_each_once"], "note": "Every history, cycles included; dterms that are Python properties are not modelled; the function called must not change the graph."},
  {"property": "C15", "status": "partial", "theorems": ["C15_replace_substitutes_partial", "C15_replace_with_container_refuted"], "note": "Holds when new does not contain old and the graph has no cycles. The case where new contains old is false of the code: replace can tie new into a cycle (refuted with a witness)."},
  {"property": "C16", "status": "partial", "theorems": ["C16_order", "C16_raises_iff_partial", "C16_square_refuted", "C16_equal_partial", "C16_histories", "C16_independent_partial", "C16_no_calls"], "note": "For every history of calls and copies and every object below which nothing refers to itself in a circle: copy() raises KeyError exactly when some object holds one object under two dterms (x*x cannot be copied); otherwise the copies are new objects with the same sharing, the same values and derivatives, right parent links (all later reads are recomputations), and later calls that assign to one side leave the other side's values and derivatives alone. pickle itself (memo, depth-first order) is modelled by walk_order; arrays shared between objects and changed in place are not modelled; derivatives with respect to reordering views as in C02."},
  {"property": "C17", "status": "partial", "theorems": ["C17_terminates", "C17_removes", "C17_values", "C17_derivatives_partial", "C17_derivatives_refuted", "C17_later_refuted", "C17_variables_refuted"], "note": "Termination, unchanged values of all objects, and that operands standing for one expression end up being one object, for every history. Derivatives are unchanged when no object has operands standing for the same expression and the variable has no twin; p1 + p2 with equal p1, p2 doubles its derivative. After later assignments the property is false: a merged-away object takes the parent links with it when collected, and two variables holding one array object become one."},
  {"property": "C18", "status": "proved", "theorems": ["C18_failed_read_caches_nothing_wrong", "C18_failed_read_leaves_no_trace"], "note": ""},
  {"property": "C19", "status": "proved", "theorems": ["C19_dr_wrt_is_jacobian", "C19_dr_wrt_intermediate", "C19_dr_wrt_is_jacobian_arrays", "C19_unary_is_right", "C19_binary_is_right", "C19_view_is_right", "C19_reduction_is_right", "C19_cumsum_is_right", "C19_sum_of_squares_is_right", "C19_extremum_is_right", "C19_clip_is_right", "C19_concatenate_is_right", "C19_dot_is_right", "C19_matvec_is_right", "C19_cross_is_right", "C19_inv_is_right", "C19_det_is_right", "C19_logdet_is_right"], "note": "Chain rule for every history, graph, array size and curve, for any library whose Jacobians act as linear maps; variables that are reordering views are C22. Instantiated for real arrays with the elementwise operations, selections, reshapes, reorderings, reductions, extrema, clip, concatenation, products, inverses and determinants."},
  {"property": "C20", "status": "partial", "theorems": ["C20_shared_operand_refuted"], "note": "False of the code: p = -x, t = p + p gives twice the derivative (ch.py:756-778 walks dterms while compute_dr_wrt already accounts for both). Refuted by a reachable history; holds when no operand is repeated (C19) and when the repeated operand is the variable itself (C25_same_operand)."},
  {"property": "C21", "status": "partial", "theorems": ["C21_lop_is_product", "C21_reverse_mode_partial", "C21_reverse_mode_view_refuted"], "note": "lop is proved in full. dr_wrt(reverse_mode=True) is proved for every w that is not a reordering view; for views the property is false and the counterexample is proved. Jacobian algebra assumed associative and left-distributive (jac_laws)."},
  {"property": "C22", "status": "partial", "theorems": ["C22_slice_is_product_partial", "C22_product_selects_columns", "C22_slice_of_slice_refuted"], "note": "Proved for the uncached dr_wrt and a slice of an object that is not itself a view. For a slice of a slice the property is false (dr_wrt raises) and the counterexample is proved. Missing: the cached dr_wrt of a view, which can be stale (see C02_view_refuted)."},
  {"property": "C23", "status": "proved", "theorems": ["C23_no_dependence_no_derivative", "C23_derivative_implies_is_dr_wrt"], "note": "Assumes every class body returns None for objects it does not reference (local_derivatives), as every compute_dr_wrt in the package does."},
  {"property": "C24", "status": "partial", "theorems": ["C24_unary_jacobian_partial", "C24_unary_jacobian_refuted", "C24_rows_never_square"], "note": "Proved over the reals for every function, every value in its domain and every shape whose first axis is longer than 1 (or a single element). For shapes (1, n), n > 1, the code returns a 1 x n matrix: refuted with a witness."},
  {"property": "C25", "status": "proved", "theorems": ["C25_broadcast_shape", "C25_broadcast_value", "C25_broadcast_jacobian", "C25_broadcast_columns", "C25_same_operand", "C25_power_whole"], "note": "Over the reals; divide where the divisor is not 0, power for positive bases (both operands) or whole exponents (any base). Template caches: any earlier history of calls."},
  {"property": "C26", "status": "partial", "theorems": ["C26_reorder_value", "C26_reorder_jacobian_partial", "C26_diag_refuted", "C26_sort_jacobian", "C26_sort_partial", "C26_sort_refuted"], "note": "Values and Jacobians for every shape and parameter of transpose, swapaxes, rollaxis, roll, rot90, tile, repeat, and of diag of a matrix. diag/diagflat that make a matrix put a spurious 1 into column 0 for every filled-in zero: refuted for every such operand. sort always has the identity as Jacobian: right where rows increase, refuted elsewhere."},
  {"property": "C27", "status": "partial", "theorems": ["C27_memo_partial", "C27_memo_one_shape", "C27_roll_refuted", "C27_select_cache"], "note": "dr_lookup after any calls with any parameters and shapes: right for all classes whose unique_reorder_id includes the shape; for Roll and Repeat right while the shape stays, refuted when it changes. The matrix kept by Select is right after any assignments."},
  {"property": "C28", "status": "partial", "theorems": ["C28_value", "C28_flatten", "C28_jacobian", "C28_derivative", "C19_concatenate_is_right", "C28_follows_partial", "C28_reassign_refuted", "C28_reshape_refuted"], "note": "Values, flattening and Jacobians are right for all operands, shapes and axes, including an operand used several times. Following later changes is proved for histories without replacing or reshaping operands after the first question, and refuted for the others: _our_terms, _everything and dr_cached are never invalidated (reordering.py:363-420)."},
  {"property": "C29", "status": "partial", "theorems": ["C29_value", "C29_sum_jacobian", "C29_mean_jacobian_partial", "C29_history", "C29_mean_all_refuted", "C29_var_value", "C29_var_refuted"], "note": "sum is right along every axis and over everything; mean along every axis and for vectors. False for mean over all elements of an array of several dimensions (len(x.r) is used as the number of elements, ch_ops.py:359) and for var, which is the mean of the squares (ch_ops.py:378)."},
  {"property": "C30", "status": "proved", "theorems": ["C30_cumsum"], "note": "With axis=None, as compute_dr_wrt raises NotImplementedError otherwise."},
  {"property": "C31", "status": "proved", "theorems": ["C31_value", "C31_jacobian", "C31_same", "C31_matvec", "C19_dot_is_right", "C19_matvec_is_right", "C31_rank_refuted", "C31_empty_refuted", "C31_matvec_shape"], "note": "Value for all ranks; Jacobians are the derivatives for vectors and matrices on the right and any rank on the left, also for dot(x, x). Refuted for three dimensions on the right (ch_ops.py:736 reshapes by the first axis, numpy sums the last but one) and for an empty summed axis (reshape raises)."},
  {"property": "C32", "status": "proved", "theorems": ["C32_determinant", "C32_det_value", "C32_inv_value", "C32_inv_raises", "C32_inv_jacobian", "C32_det_jacobian", "C32_singular_refuted", "C32_logdet_value", "C32_logdet_jacobian", "C32_sign_constant", "C19_inv_is_right", "C19_det_is_right", "C19_logdet_is_right", "C32_sign_value"], "note": "Every size and every invertible matrix, in exact arithmetic; inv also for arrays of matrices, and slogdet. Beyond the statement: at singular matrices det's Jacobian raises although det is differentiable."},
  {"property": "C33", "status": "proved", "theorems": ["C33_value", "C33_jacobian", "C19_cross_is_right", "C33_same_refuted"], "note": "All numbers of rows. cross(x, x) is refuted: compute_dr_wrt tests wrt is self.a first and never adds the second use (ch_ops.py:155-171)."},
  {"property": "C34", "status": "proved", "theorems": ["C34_axis_value", "C34_axis_jacobian", "C34_axis_defined", "C34_binary_value", "C34_binary_jacobian", "C34_binary_same", "C34_tie_refuted"], "note": "Also the derivative where the extremum is attained once; C34_tie_refuted shows that giving 1 to both operands on ties is no derivative when both move. Strides are those of a freshly made C-contiguous array (ch.py:596); other layouts are C60's; the comparison with b - 1 is exact in real numbers."},
  {"property": "C35", "status": "proved", "theorems": ["C35_tensordot", "C35_number", "C35_unique"], "note": "Exact condition for being defined, and the value at every multi-index, for all ranks and axes. Its Jacobian follows from those of transpose, reshape and dot by C19."},
  {"property": "C36", "status": "partial", "theorems": ["C36_getitem", "C36_getitem_raises", "C36_setitem_base", "C36_setitem_view", "C36_duplicate_refuted", "C36_scalar_refuted"], "note": "getitem for every basic key (numbers, slices, newaxis, one ellipsis), an integer array or a mask. setitem through every chain of views after every history, if no element occurs twice and the value has as many elements as the view; refuted otherwise. That setitem on a basic object mutates the caller's array in place: see C62; combinations of several index arrays: see C75."},
  {"property": "C37", "status": "proved", "theorems": ["C37_reshape_value", "C37_reshape_jacobian", "C37_reshape_collapses"], "note": "Every shape, every chain of Reshapes in every object graph."},
  {"property": "C38", "status": "proved", "theorems": ["C38_step", "C38_within", "C38_run"], "note": "In exact real arithmetic, for all steps, dimensions and positive radii (C38_step, C38_within) and for every step proposed in any run of the modelled minimize_dogleg with any objective, Jacobian and solver (C38_run, initial radius None or not negative). Rounding is not covered."},
  {"property": "C39", "status": "partial", "theorems": ["C39_descends", "C39_float_order", "C39_best", "C39_best_refuted"], "note": "Strictly falling sums of squares at all accepted points and callbacks, with the variables at the last one, for every objective, Jacobian, solver and options over any numbers with the two order laws of 'ordered'; binary64 with NaN and infinities has them (C39_float_order). 'The best point found' is proved for exact arithmetic with a solver of the normal equations and a positive gradient threshold, and refuted in general: a trial with smaller sum of squares is turned down when the predicted improvement is negative."},
  {"property": "C40", "status": "partial", "theorems": ["C40_iterations", "C40_evaluations", "C40_evaluations_refuted", "C40_ends_limit", "C40_ends", "C40_ends_refuted"], "note": "At most max(1,maxiter) iterations; at most max(2,max_fevals) evaluations, the stated max(1,max_fevals) is refuted; every run with a limit on evaluations ends. With a limit on iterations only, every binary64 run ends in which no ratio is NaN and no radius infinite (C40_ends); a run whose trial residuals are NaN never ends (C40_ends_refuted)."},
  {"property": "C41", "status": "partial", "theorems": ["C41_sync_partial", "C41_dependents_partial", "C41_start", "C41_shared_refuted", "C41_repeated_refuted"], "note": "Proved for free variables that are basic objects or nested Selects over basic objects, each over its own base and showing distinct elements, in every state reached by ordinary calls and earlier on_changed calls: each variable reads as its segment, other entries are kept, and all reads agree with recomputation afterwards. Duplicates are rejected. False for two Selects over one base (the second stays stale) and for a Select that repeats an element."},
  {"property": "C42", "status": "partial", "theorems": ["C42_value_partial", "C42_gradient_partial", "C42_answer_partial", "C42_reused_refuted", "C42_scribbled_refuted", "C42_huge_refuted", "C42_nan_refuted", "C42_view_refuted", "C42_empty_raises", "C42_hessian_raises"], "note": "In binary64, for any objective and gradient functions and every sequence of requests: proved for finite vectors, non-empty variables of their own, and a minimizer that neither overwrites an array after asking for a gradient there nor a gradient it got; up to the sign of zero. Each condition is necessary: stale gradients if the vector or the gradient is overwritten, an AttributeError if the first gradient is asked at 1e16, NaNs not passed on, views set with rounding (1e16 set to 1 becomes 0). Hessian callbacks always raise. Free variables sharing elements are not modelled."},
  {"property": "C43", "status": "proved", "theorems": ["C43_predicted", "C43_positive", "C43_cauchy"], "note": "In exact real arithmetic for all Jacobians, residuals, radii and solutions of the normal equations; the predicted improvement is stated as the fall of the sum of squares of the linearised residuals."},
  {"property": "C44", "status": "partial", "theorems": ["C44_value_partial", "C44_body_partial", "C44_make", "C44_set_independent_partial", "C44_read_independent_partial", "C44_read_attributes_partial", "C44_make_independent_partial", "C44_private", "C44_inside_refuted", "C44_terms_refuted"], "note": "For every history of creations, assignments, reads and lambda constructions: a lambda object reads as its body over the current arguments, equal to the expression written out by hand; assigning to, reading or making one leaves the others' values unchanged. Values only (no derivatives); classes without @depends_on; assigned attributes are terms; reads do not reach into a body past its lambda object while that has a new argument. Reading inside the body (f._result.r) is stale: C44_inside_refuted. Instances share the class list terms: C44_terms_refuted."},
  {"property": "C45", "status": "partial", "theorems": ["C45_binds_partial", "C45_too_many", "C45_inherited_refuted", "C45_terms_raise", "C45_namesake_refuted", "C45_operators_partial", "C45_division_refuted"], "note": "Proved for every class table with single inheritance, every earlier history of constructions and every argument list, if no ancestor without an explicit order has a different one (C45_inherited_refuted: B(5) after A(5) sets A's attribute). Defaults: a class with Term declarations never constructs (C45_terms_raise), or they are ignored after a namesake (C45_namesake_refuted). Operators + - * / **: operands in source order, except that x / ch in Python 3 raises (C45_division_refuted). Not modelled: properties as terms, a function as first argument, the base class Ch itself."},
  {"property": "C46", "status": "proved", "theorems": ["C46_reads", "C46_rejects", "C46_monotone"], "note": "Every sequence of reads, pauses and resumes and every clock; exact real arithmetic, assertions enabled. C46_monotone: with a monotone clock readings never decrease and never exceed the time since construction."},
  {"property": "C47", "status": "partial", "theorems": ["C47_clip_value", "C47_clip_partial", "C47_clip_refuted"], "note": "Missing: arrays whose first axis has length 1 and which have several elements, for which the Jacobian is not square (ch_ops.py:305), refuted."},
  {"property": "C48", "status": "proved", "theorems": ["C48_sum_of_squares"], "note": "x ** 2. is modelled by the real power function."},
  {"property": "C49", "status": "partial", "theorems": ["C49_product", "C49_forward_partial", "C49_forward_returns_partial", "C49_operators_partial", "C49_operators_returns_partial", "C49_lop", "C49_reverse_partial", "C49_two_operators", "C49_scalar_refuted", "C49_handle_refuted", "C49_reverse_refuted", "C49_operators_refuted", "C49_three_operators", "C49_vector"], "note": "Product of Jacobians right in every combination of number, dense, sparse and LinearOperator. Forward mode right whenever it returns, and returns unless a one-element object adds several derivatives; lop always right, without LinearOperators. Refuted: dr_wrt raises for square(x)+exp(x) at 0; ChHandle(x).dr_wrt(x) is 1x1; reverse mode raises on dense Jacobians; sums of three or more terms with a LinearOperator are wrong. With LinearOperators forward mode is right as long as no object above them adds up more than two derivatives (C49_operators_partial). Missing: LinearOperators in lop and reverse mode."},
  {"property": "C50", "status": "partial", "theorems": ["C50_value_partial", "C50_d_jacobian", "C50_v_jacobian", "C50_u_jacobian", "C50_equal_values", "C50_tiny_refuted"], "note": "np.linalg.svd is any function returning decompositions; differentiability is derived from continuity of the vectors, not assumed. Values: tall and wide matrices without singular values strictly between 0 and 2^-52, which the code sets to 0 (refuted with a 1 x 1 matrix). Jacobians of d (positive values, also equal ones), v (different values) and u (different and positive) are the derivatives; those of u and v raise exactly where two values agree."},
  {"property": "C51", "status": "proved", "theorems": ["C51_pinv_value", "C51_pinv_raises", "C51_pinv_jacobian", "C51_lstsq", "C51_residuals", "C51_lstsq_jacobian", "C51_norm", "C51_norm_jacobian"], "note": "Over the reals. The values and Jacobians are the compositions written out in PinvModel.v; that dr_wrt forms these products is C19, that lstsq's lambda follows its arguments is C44. Jacobians of pinv and lstsq are stated for matrices with elements. The rank and singular values returned by lstsq are NotImplementedError in the code."},
  {"property": "C52", "status": "partial", "theorems": ["C52_grid", "C52_affine", "C52_closest", "C52_jacobian_partial", "C52_outside", "C52_outside_refuted"], "note": "False beyond the border: the Jacobian keeps the slope of the border cell although the value is constant there (refuted with a witness, and characterised for all volumes). Inside cells it is the derivative. Over the reals; indices below 2^32."},
  {"property": "C53", "status": "proved", "theorems": ["C53_step_value", "C53_cmp_value", "C53_step_flat", "C53_cmp_flat", "C53_step_derivative", "C53_cmp_derivative", "C53_nandivide_value", "C53_nandivide_jacobian", "C53_nandivide_numerator", "C53_nandivide_same"], "note": "Values of floor, ceil, sign and the comparisons are what they are called; wherever a value moves differentiably, its velocity is 0, which is what their missing Jacobian says; away from the jumps the derivative exists. NanDivide returns 0 for zero divisors and the quotient elsewhere; its Jacobians are the derivatives for nonzero divisors, and the one for the numerator for all divisors. Over the reals: infinities and NaN of a division by zero are one exceptional value."},
  {"property": "C54", "status": "partial", "theorems": ["C54_values_partial", "C54_others_partial", "C54_returns", "C54_none", "C54_refuted", "C54_tagged_refuted"], "note": "Values, and derivatives with respect to variables never given to clear_cache_wrt, agree with recomputation after any history; the call returns on graphs without cycles. The full statement is refuted: the entry for w becomes None instead of being removed, so a cached derivative reads as None afterwards (C54_none for all states, C54_refuted with a wrong derivative), and a call with an iteration number makes later assignments under that number leave stale values. Missing: derivatives with respect to reordering views (as in C02); Concatenate.dr_cached."},
  {"property": "C55", "status": "partial", "theorems": ["C55_iter", "C55_iter_jacobian", "C55_sum", "C55_float", "C55_int", "C55_compare", "C55_truth", "C55_if_always", "C55_if_refuted", "C55_max_min", "C55_max_refuted"], "note": "Proved for len, for loops, sum, float and int. False for truth: an object has no __bool__, so 'if a < b' holds whenever the result has an element (C55_if_refuted), and max and min both return the last object (C55_max_min, C55_max_refuted). The number a comparison holds is right (C55_compare). Iteration is of an object whose value does not change during the loop; sum of no rows is the number 0 and is left out."},
  {"property": "C56", "status": "partial", "theorems": ["C56_atleast_nd", "C56_nd_unique", "C56_nd_raises", "C56_nd_chain", "C56_nd_refuted", "C56_squeeze_all", "C56_squeeze_axis", "C56_squeeze_raises", "C56_expand_dims", "C56_expand_raises", "C56_view_jacobian", "C56_squeeze_refuted", "C56_fliplr", "C56_fliplr_raises", "C56_flipud", "C56_flip_jacobian", "C56_flip_refuted", "C56_vstack", "C56_dstack", "C56_hstack_partial", "C56_hstack_refuted"], "note": "Values proved for all shapes, except hstack of vectors, which raises (C56_hstack_refuted). atleast_nd's Jacobian is the number 1: right as a factor (C56_nd_chain with C49_forward_partial), wrong as the derivative with respect to the operand itself (C56_nd_refuted). squeeze, expand_dims and the flips fix shapes and indices when the object is made, so they are wrong after the operand changed its shape (C56_squeeze_refuted, C56_flip_refuted). The Jacobian of the concatenation inside the stacks is C28's."},
  {"property": "C57", "status": "partial", "theorems": ["C57_moment_partial", "C57_moment_unique", "C57_moment_raises", "C57_moment_jacobian", "C57_vector", "C57_vector_refuted", "C57_first_refuted", "C57_std_value", "C57_std_refuted", "C57_gamma"], "note": "Proved: for arrays of two or more dimensions moment(a, k, axis) is the array of central moments for every order and axis, it raises without such an axis, and its Jacobian is the derivative for every shape; vectors are right with axis=-1. Refuted: with the default axis=0 a vector gives the powers of the deviations, not their mean, because the mean has become an array of shape (1,) before expand_dims; the first moment of a vector is a numpy number, not an object; std is the root of the mean square. gamma is right given that scipy's digamma is the logarithmic derivative of its gamma. Not covered: fractional or negative orders, axis=None (raises in numpy)."},
  {"property": "C58", "status": "partial", "theorems": ["C58_derivative_partial", "C58_chain", "C58_returns", "C58_twice", "C58_twice_wrong", "C58_derivative_refuted", "C58_value_refuted", "C58_lambda"], "note": "dr_wrt of a group is right with respect to variables that no other argument depends on; in general it is the derivative plus the chain terms through the arguments (C58_chain), so exactly twice the derivative when all paths run through independent arguments (C58_twice, C58_derivative_refuted). A group does not follow assignments to objects its expression depends on that are no arguments (C58_value_refuted). Graphs with ChLambda objects: right (C58_lambda). Without LinearOperators, caches of derivatives and views of the variable; the variable itself is not the expression or a bare handle of the variable."},
  {"property": "C59", "status": "partial", "theorems": ["C59_jacobian_partial", "C59_returns_partial", "C59_no_derivative", "C59_hstack", "C59_accepted", "C59_stationary_raises", "C59_stationary_refuted", "C59_operator_refuted"], "note": "For objectives made of dense and sparse local Jacobians, operators (at most two added up, see C49) and handles the stacked matrix has the partial derivatives in the order of the stacked vector, in every format asked for; a variable without derivative raises. False parts: wherever all derivatives vanish, updateJ's assertion nnz > 0 raises instead of stopping (C59_stationary_raises for every operator-free graph, C59_stationary_refuted a witness), and a selection from a variable whose derivative is a LinearOperator raises (C59_operator_refuted). Missing: objects adding up three or more operators, where dr_wrt itself is wrong, and objectives that only hand on the variable."},
  {"property": "C60", "status": "partial", "theorems": ["C60_right_partial", "C60_r_in_order", "C60_r_shared", "C60_fresh", "C60_permuted", "C60_copied", "C60_rotated_views", "C60_permuted_views", "C60_rot90_refuted", "C60_rot90_none_refuted", "C60_newaxis_refuted"], "note": "Right for layouts in C order whose strides are at least the size of an item (freshly computed arrays, permuted axes, copies). False in general: numpy counts arrays with any stride on axes of length one as C-contiguous, and the quotient by the smallest stride is then wrong; rot90 of a single row gives a wrong element without any error, arrays with np.newaxis have stride 0. Quotient and rounding are exact here."},
  {"property": "C61", "status": "partial", "theorems": ["C61_nan_value", "C61_nan_jacobian_partial", "C61_nan_derivative_partial", "C61_all_nan_refuted", "C61_infinite_refuted", "C61_strict_value", "C61_strict_jacobian", "C61_strict_derivative", "C61_nan_to_num_value", "C61_nan_to_num_partial"], "note": "Values for all arrays of numbers, infinities and NaN. The Jacobian of nanmax raises if any part is all NaN, and has its 1 at a NaN if all the others are minus infinity (both refuted); otherwise right. nan_to_num is right except for the shapes C24 refutes."},
  {"property": "C62", "status": "partial", "theorems": ["C62_whole", "C62_tidy_partial", "C62_snapshot_refuted", "C62_twins_refuted", "C62_behind_refuted", "C62_rebuilt_refuted", "C62_attribute_refuted", "C62_integers_refuted"], "note": "Proved for all histories without writes in place, and, with them, for all histories in which arrays are handed over once and not written to afterwards (values of objects, and arrays whose memory no object wrote to). Otherwise false of the code: c[i] = v changes values read earlier and the caller's array, objects made from one array or from c.r change without their dependents noticing, items of Ch(c.r) cannot be assigned, and integer arrays assigned to x drop fractions. Derivatives, garbage collection and partial views of arrays are not modelled."},
  {"property": "C63", "status": "partial", "theorems": ["C63_entries_partial", "C63_returns_partial", "C63_first_partial", "C63_one_parent_partial", "C63_second_refuted", "C63_none_refuted", "C63_operator_refuted", "C63_handle_refuted"], "note": "For all histories of calls and dropped caches the entries are those of the chain rule, for any make_dense and for make_sparse where there is a dependence; formats are as asked on calls that find nothing cached, hence always for objects with one parent. Refuted: results are cached before conversion, so later calls return the other format; make_sparse turns None into an exception or a 1 x 1 matrix, raises for LinearOperators, and breaks handles."},
  {"property": "C64", "status": "partial", "theorems": ["C64_once_partial", "C64_again_partial", "C64_adequate", "C64_tree_partial", "C64_squares_refuted", "C64_paths_refuted"], "note": "Proved: dr_wrt forms each object's derivative at most once, whatever is cached, when no object has an operand twice; asking again is free unless there is one parent; lop, is_dr_wrt and loop_children_do visit each object once on trees. Refuted: repeated squares take 2^(n-1) derivatives of the innermost (one parent, not cached, asked once per dterm); lop, is_dr_wrt and loop_children_do follow every path of a butterfly. Cost of a single step and of values is not modelled."},
  {"property": "C65", "status": "partial", "theorems": ["C65_values_partial", "C65_depends_partial", "C65_ends_partial", "C65_assign_refuted", "C65_operand_refuted"], "note": "For all programs that do not reassign operands of concatenations and reshapes: same values as written, same dependence on all objects that are neither, and the loops end. Refuted: reassigning an operand of an inner concatenation or reshape does not reach what was built from it, and the outer object does not depend on the inner one at all, so its derivative with respect to it is None (reordering.py:182-185, 423-432)."},
  {"property": "C66", "status": "partial", "theorems": ["C66_value_partial", "C66_exact_partial", "C66_close_partial", "C66_power_partial", "C66_power_refuted", "C66_divide_refuted", "C66_sqrt_refuted", "C66_arcsin_refuted"], "note": "For all finite doubles: values of + - * / square reciprocal sqrt are the exact result rounded once or the right infinity, negative and absolute exact, poles visible; entries of sums, differences, products, squares, negatives, absolute values exact; 1/x2 and log's entry rounded once; reciprocal within 4 and arctan within 5 units of rounding; the divisor's entry within 3 where the divisor's square is in the normal range; sqrt's entry within 1 for positive numbers; powers in range rounded once. False: every power beyond the range or at a pole reads as 0; the divisor's entry reads 0 or -infinity where the divisor's square leaves the range; sqrt's entry at 0 is an ordinary number and that of x**.5 is 0; arcsin's entry near 1 loses half of its digits. np.power is any correctly rounded power (one is shown to exist). Not covered: values of exp, log, sin, cos, tan, arcsin, arctan (libm), sums, the entry of a power for its exponent."},
  {"property": "C67", "status": "partial", "theorems": ["C67_same_partial", "C67_report", "C67_gradient", "C67_hessian_partial", "C67_hessp_partial", "C67_single_refuted", "C67_hessian_refuted"], "note": "With any number of elements but one, dogleg and scipy's methods minimize the sum of the squares of all elements, in any order and under any labels, and the figures per label add up to it; the gradient given to scipy is that of the function given to scipy; the Hessian and its products are right if the elements are affine. Refuted: an objective with exactly one element is squared by dogleg and minimized itself by the other methods; the Hessian of curved elements lacks the second-order term. Exact reals; the objects are functions with given Jacobians; the memos of the closures are C42's subject."},
  {"property": "C68", "status": "proved", "theorems": ["C68_one_step", "C68_radius", "C68_full_rank", "C68_stationary", "C68_near"], "note": "The machine of C39 in exact arithmetic on residuals b + J x. Without a radius, one accepted Gauss-Newton step leads to a least squares solution, for any rank and any solution of the normal equations, unless the gradient or the step is below its threshold. From every positive radius the run ends, every trial being accepted with ratio 1, at a point where the gradient is below e_1, the last step below e_2, or a limit given is reached; the solver has to give shortest solutions (as lstsq), which any solver does for linearly independent columns. e_3 is not positive, as by default. The sum of squares there exceeds the least by at most a factor times the square of the gradient. Rounding is not modelled here."},
  {"property": "C69", "status": "partial", "theorems": ["C69_gradient_partial", "C69_vector", "C69_influence_refuted", "C69_twice_refuted"], "note": "changevars, the starting vector and scalar_jacfunc over an environment of variables. For distinct variables that all have influence, the gradient has one entry per entry of the vector and each is the derivative with respect to that entry; the vector is read back as assigned. False of variables without influence, which get the single entry None whatever their size, and of variables listed twice, which only dogleg refuses."},
  {"property": "C70", "status": "partial", "theorems": ["C70_values", "C70_logarithms", "C70_one_partial", "C70_rows_refuted", "C70_several_refuted"], "note": "det and slogdet of arrays of matrices in exact arithmetic, with .T as the reversal of all axes and broadcasting. The values are the determinants, and the logarithms of their absolute values, each in its place, for any number of leading axes. The Jacobians are right for an array of one matrix, and have one row whatever the number of matrices: false from two on. slogdet of several matrices raises, since np.concatenate does for 0-dimensional arrays."},
  {"property": "C71", "status": "proved", "theorems": ["C71_ends", "C71_found", "C71_bound"], "note": "Exact arithmetic over the reals (DogExact). Hypotheses: at points no worse than the start the Jacobian is bounded and the residuals differ from their first order approximation by a multiple of the squared step, and the solver solves the normal equations there; e_1 is positive, e_3 is not positive (its default 0), the initial radius is positive or absent. Rosenbrock's function is shown to meet them from every start. C71_bound gives an explicit number of passes and evaluations in terms of the bounds, the threshold and the start, when an initial radius is given."},
  {"property": "C72", "status": "partial", "theorems": ["C72_figures", "C72_once_partial", "C72_adds", "C72_shared_refuted", "C72_decimals_refuted", "C72_tree_partial", "C72_rebuilt", "C72_later", "C72_again_refuted"], "note": "print_labeled_residuals writes one figure per path to a labelled object in order, hence one per object only without shared labelled parts (C72_shared_refuted: 2^n times); parts always have 2 decimals (C72_decimals_refuted); figures of a labelled concatenation add up to the total. The first profiler's tree describes every object exactly once, with circles too, and determines the expression; the attribute visited stays set, so a second profiler of the same expression describes nothing (C72_again_refuted, for every expression), in general only what is reachable past the marks (C72_later). Formatting of numbers left out."},
  {"property": "C73", "status": "partial", "theorems": ["C73_dense", "C73_sparse_partial", "C73_sound_partial", "C73_one_partial", "C73_zero_refuted", "C73_wrong_refuted", "C73_raise_refuted", "C73_choice", "C73_smooth"], "note": "Exact arithmetic; what numpy and scipy solvers do is assumed as in GnSpec.v (answers, if given and finite, are right; the fallback gives the shortest least squares solution). Proved for dense Jacobians of every rank, for sparse ones with more than one parameter and a direct solver (a solution for any sound solver), for sparse ones with one parameter and a non-zero Jacobian. Refuted: one parameter with a zero sparse Jacobian gives a step that is not finite; finite wrong answers are taken; a sparse solver that raises is not followed by lsqr although the dense one is followed by lstsq."},
  {"property": "C74", "status": "partial", "theorems": ["C74_once", "C74_announced_partial", "C74_itself_partial", "C74_elsewhere_refuted", "C74_memo_refuted", "C74_doubled_refuted", "C74_rejected_refuted"], "note": "Over the binary64 model of the bridge to scipy (C42); the minimizer is any sequence of requests and announcements that leaves its gradient vectors alone. One call per announced step with its vector for methods that chumpy does not call back for; variables hold the announced point if everything since an evaluation was asked there; calls made by chumpy are made at the vector asked for. Refuted: announcements after evaluations elsewhere, also if the gradient at the announced point was asked last (it is remembered and the variables are not moved), two calls per step and calls at points that are no steps for anneal, powell, cobyla and slsqp. Method dogleg: C39_descends (the calls of on_step are at the points of a path with falling sums of squares)."},
  {"property": "C75", "status": "partial", "theorems": ["C75_value", "C75_raises", "C75_jacobian", "C75_later_partial", "C75_grown_refuted", "C75_mixed", "C75_rules", "C75_pairs", "C75_ix", "C75_apart", "C75_behind", "C75_basic", "C75_ints", "C75_mask"], "note": "For every indexing operation that moves elements whatever they are (natural in the element type), c[key].r is numpy's, it raises where numpy does, and the derivative has a one per row at the element picked. Numpy's keys (numbers, slices, new axes, dots, index arrays broadcast against each other, masks) are such operations; pairs, np.ix_, separated and adjacent index arrays and the agreement with the rules of C36 are proved. Later values: proved while the shape stays; refuted when the array grows (c[-1] keeps the old position). Not modelled: the single boolean as a key, names of fields."},
  {"property": "C76", "status": "partial", "theorems": ["C76_stored_partial", "C76_exact", "C76_order", "C76_big_refuted", "C76_ints_refuted", "C76_ints_later_refuted", "C76_ints", "C76_view_partial", "C76_small_partial", "C76_near_partial", "C76_inf", "C76_stuck", "C76_stuck_refuted", "C76_digits_refuted", "C76_others", "C76_types", "C76_list_refuted"], "note": "In binary64 (Flocq) and int64. Proved: histories of construction, assignment of arrays and of items give back the assigned doubles, as long as no float is put into an array of integers; integers up to 2**53 are exact, order kept; assignment through views is exact where the sum of the old and the new number is a double (integers up to 2**52), off by at most 2**-51 times both otherwise, and leaves the other elements alone. Refuted: Ch(x=ints) or c.x = ints followed by c[0] = 0.5 stores 0 (fractions are always cut off); through a view 1 written over 2**54 reads 0, NaN and infinities cannot be overwritten (NaN results), lists raise; 2**53 + 1. Not modelled: broadcasting of values (C36), complex, boolean and object arrays, shared arrays (C62)."},
  {"property": "C77", "status": "partial", "theorems": ["C77_each", "C77_any_all", "C77_raises", "C77_flat", "C77_constant", "C77_arg", "C77_nanarg", "C77_arg_answers", "C77_arg_refuses", "C77_flatnonzero", "C77_nonzero", "C77_argwhere", "C77_select", "C77_mask", "C77_mask_refuted", "C77_nested", "C77_if_always", "C77_if_refuted"], "note": "Answers and positions are proved for all shapes, axes and values including NaN and infinities. Refuted: a Ch as a key raises, so x[x > 0] does; any(...) and all(...) as conditions always hold. nanargmax takes NaN for -inf, as numpy does. Not modelled: tuples of axes, out and where."},
  {"property": "C78", "status": "partial", "theorems": ["C78_call_partial", "C78_refuses_partial", "C78_chain_partial", "C78_jacobian_partial", "C78_determined", "C78_axes_refuted", "C78_axes_always", "C78_number_refuted", "C78_number_always", "C78_none_refuted", "C78_impossible_refuted", "C78_zero_axes_refuted"], "note": "For every object made by such calls and every call in a form that works (axes as one argument, a shape other than (), None as a shape not for a reshape), the new object has a value exactly if numpy's method answers, and that value; chains of any length by induction, for every value of x. The Jacobian of every chain without a number as axes is the derivative and a permutation matrix. Refuted: x.transpose(1, 0) and all calls with separate axes raise; x.transpose(0) has a value but no derivative; x.reshape(2, 3).reshape(None) has the shape of x; x.reshape(5).reshape(6) has a value where numpy refuses; x.reshape(()) has one axis. Keyword arguments and order='F' are not modelled; the memo of Jacobians is C27's subject."},
  {"property": "C79", "status": "partial", "theorems": ["C79_value", "C79_raises", "C79_order", "C79_steps_partial", "C79_steps_jacobian_partial", "C79_steps_extremes_partial", "C79_tuple_always", "C79_tuple_refuted", "C79_keepdims_always", "C79_keepdims_refuted", "C79_misspelt_refuted", "C79_methods_refuted"], "note": "Exact arithmetic. Values over tuples of axes are right for all shapes, tuples and the four reductions, raise exactly for missing or repeated axes, and equal reducing in steps (arrays with elements). The product of the steps' Jacobians is the derivative (for max and min where no element equals the extreme one). Refuted: the derivative of an object with a tuple raises, always; keepdims and misspelt keywords are ignored by the functions; the methods raise for keepdims. Not modelled: out, initial, where; var and std."},
  {"property": "C80", "status": "partial", "theorems": ["C80_eq_refuted", "C80_ne_always", "C80_ne_refuted", "C80_in", "C80_index", "C80_count", "C80_remove", "C80_dict", "C80_sorted_always", "C80_sorted_refuted"], "note": "List questions and dictionaries are answered by identity, whatever the values, for all lists and histories of assignments. Refuted: == is false for different objects with equal values, != is true of an object and itself; sorted and list.sort, with and without reverse=True, reverse every list of comparable objects. Not modelled: numbers and arrays on the other side of a comparison, CPython's merging of several runs (never reached by such lists)."},
  {"property": "C81", "status": "partial", "theorems": ["C81_value", "C81_raises_partial", "C81_divide_always", "C81_divide_refuted", "C81_since", "C81_follows_partial", "C81_numpy_refuted", "C81_array_refuted", "C81_depends", "C81_depends_partial", "C81_only"], "note": "For any numpy functions and all expressions: the value is right when the expression is run; afterwards exactly what is below a numpy function or ch.array stays as it was and the rest follows; dependence is exactly on the objects named outside those. The full statement is false: np.f(x) and ch.array(x) do not follow x, and array / object raises (no __rtruediv__). Not modelled: in-place operators with an array on the left, numpy functions that call methods of their argument, caching (C01)."},
  {"property": "C82", "status": "proved", "theorems": ["C82_spreadsheet", "C82_runs", "C82_depends", "C82_all_sessions"], "note": "For any numpy functions and sessions of any length whose formulas apply numpy's own functions and ch.array to arrays only; C82_all_sessions says what all other sessions give (those results are entered as values when the name is bound). Objects are assigned to through names of basic objects (also those asarray gave); the cache is C01's; arrays are values (sharing of memory between an array and an object is not modelled here)."}
]}
