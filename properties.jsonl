{"id": "C01", "title": "Values are never stale", "statement": "After any history of creating objects, assigning attributes, clearing caches, reading values and derivatives, and garbage collection, obj.r equals the value obtained by recomputing obj bottom-up from the current leaf values and attributes; and whenever that recomputation succeeds, obj.r succeeds.", "quantifier": "every finite history of API calls over every object graph, every deterministic compute_r (user subclasses included), every object", "why_tests_cant": "staleness depends on the interleaving of assignments and reads over an unbounded family of graphs; tests try a handful of graphs and one or two assignments", "anchors": ["chumpy/ch.py:Ch.r", "chumpy/ch.py:Ch.__setattr__", "chumpy/ch.py:Ch.clear_cache", "chumpy/ch.py:Ch._call_on_changed"]}
{"id": "C02", "title": "Derivatives are never stale", "statement": "After any such history, obj.dr_wrt(w) equals the chain-rule recursion evaluated from scratch on the current attributes, although intermediate Jacobians are cached on some nodes only (those whose number of parents is not one).", "quantifier": "every history, every graph, every pair (obj, w) where w is not a reordering view", "why_tests_cant": "which Jacobians are cached depends on the number of live parents at the time of each call, i.e. on the whole history", "anchors": ["chumpy/ch.py:Ch.dr_wrt", "chumpy/ch.py:Ch._compute_dr_wrt_sliced", "chumpy/ch.py:Ch.clear_cache"]}
{"id": "C03", "title": "Reading is a pure observation", "statement": "Reading obj.r, obj.dr_wrt(w), or a depends_on property never changes any attribute, any parent link, or the result of any later read of any object.", "quantifier": "every reachable state, every read, every other object read later", "why_tests_cant": "a test cannot enumerate which later reads could have been disturbed", "anchors": ["chumpy/ch.py:Ch.r", "chumpy/ch.py:Ch.dr_wrt"]}
{"id": "C04", "title": "Assignment touches only dependents", "statement": "Assigning an attribute of p changes neither the value nor the cached result of any object that does not depend on p.", "quantifier": "every reachable state, every assignment, every object from which p is not reachable", "why_tests_cant": "absence of interference must hold for all unrelated parts of every graph", "anchors": ["chumpy/ch.py:Ch.__setattr__", "chumpy/ch.py:Ch.clear_cache"]}
{"id": "C05", "title": "No recomputation without change", "statement": "After obj.r has been read, compute_r of obj is not called again until an attribute of obj or of something obj depends on is assigned (or its cache is explicitly cleared).", "quantifier": "every history after the first read that assigns only to objects obj does not depend on", "why_tests_cant": "test_caching checks identity of two consecutive reads on one graph only", "anchors": ["chumpy/ch.py:Ch.r", "chumpy/ch.py:Ch.clear_cache"]}
{"id": "C06", "title": "Cache clearing terminates and is exact", "statement": "clear_cache terminates on every graph, even a cyclic one, processes each node at most once, empties the caches of exactly the object and everything that depends on it, and visits at most one node more than the number of parent links.", "quantifier": "every graph (cyclic or not), every start node", "why_tests_cant": "termination of the worklist loop on arbitrary, possibly cyclic, graphs", "anchors": ["chumpy/ch.py:Ch.clear_cache"]}
{"id": "C07", "title": "Iteration-tagged clearing is sound for batches", "statement": "Assigning any number of variables with one fresh iteration number, without evaluating dependents in between, leaves every value as fresh as individual untagged assignments would; the skipped clearing is only safe because nothing is evaluated in between (a read in between makes later reads stale).", "quantifier": "every graph, every batch of assignments sharing one fresh iteration number", "why_tests_cant": "test_iteration_cache pins one 3-node graph; soundness needs all overlaps of ancestor sets", "anchors": ["chumpy/ch.py:Ch.clear_cache", "chumpy/ch.py:Ch.__setattr__", "chumpy/optimization_internal.py:ChInputsStacked.on_changed"]}
{"id": "C08", "title": "set(**kw) equals separate assignments", "statement": "obj.set(k1=v1,...,kn=vn) leaves every value, and every notification set, as n separate assignments would, in whatever order the keywords are processed.", "quantifier": "every keyword list, every order, every reachable state", "why_tests_cant": "keyword order is unspecified (a Python set) and the intermediate clears are tagged 9999", "anchors": ["chumpy/ch.py:Ch.set"]}
{"id": "C09", "title": "Change notifications are complete and exact", "statement": "Before compute_r of an object runs, on_changed has been called with a set containing every term/dterm name whose attribute was assigned, or below which something was assigned, since the previous call; a name is reported only if such an assignment happened.", "quantifier": "every history, every object, every assigned attribute", "why_tests_cant": "subclasses rely on it to keep private caches; needs all histories", "anchors": ["chumpy/ch.py:Ch._call_on_changed", "chumpy/ch.py:Ch.clear_cache", "chumpy/ch.py:Ch.__setattr__"]}
{"id": "C10", "title": "depends_on properties are never stale and not over-computed", "statement": "A @depends_on property read always returns the function applied to current inputs, and the function is re-run only if one of the declared dependencies changed since it last ran.", "quantifier": "every history, every property whose function only uses its declared dependencies", "why_tests_cant": "same as C01 for a second, separate cache", "anchors": ["chumpy/ch.py:depends_on", "chumpy/ch.py:Ch._invalidate_cacheprop_names"]}
{"id": "C11", "title": "Parent links are exact", "statement": "After any history, q is recorded as a parent of p under exactly those names k for which q.k is p; replaced children keep no link.", "quantifier": "every history of assignments including re-assignment of the same child, the same child under several names, and garbage collection", "why_tests_cant": "invalidation correctness rests on this invariant over all histories", "anchors": ["chumpy/ch.py:Ch.__setattr__"]}
{"id": "C12", "title": "Garbage collection is transparent", "statement": "Collecting any unreferenced object at any moment never changes the value or derivative returned for a remaining object.", "quantifier": "every history with collections inserted at arbitrary points", "why_tests_cant": "collection points are chosen by the runtime; parent links and Jacobian caches are weak dictionaries", "anchors": ["chumpy/ch.py:Ch.__new__", "chumpy/ch.py:Ch.dr_wrt"]}
{"id": "C13", "title": "is_dr_wrt is exact reachability", "statement": "obj.is_dr_wrt(w) is true iff w can be reached from obj through one or more differentiable terms (or obj is the base variable w itself).", "quantifier": "every acyclic graph and every pair", "why_tests_cant": "recursive search over unbounded DAGs", "anchors": ["chumpy/ch.py:Ch.is_dr_wrt"]}
{"id": "C14", "title": "Tree iteration visits each dependency once", "statement": "tree_iterator (and dfs_do_func_on_graph) yields obj and every object it depends on, each exactly once, and terminates on every graph.", "quantifier": "every graph, shared nodes and cycles included", "why_tests_cant": "needs all sharing patterns", "anchors": ["chumpy/ch.py:Ch.tree_iterator", "chumpy/utils.py:dfs_do_func_on_graph"]}
{"id": "C15", "title": "replace substitutes everywhere", "statement": "obj.replace(old,new) makes obj evaluate as if every occurrence of old below obj were new, leaves objects not above old unchanged, and leaves no stale value.", "quantifier": "every graph, every old/new pair of Ch objects", "why_tests_cant": "sharing, and new containing old, matter", "anchors": ["chumpy/ch.py:Ch.replace"]}
{"id": "C16", "title": "Copies are equal and independent", "statement": "obj.copy() yields a graph of new objects with the same values, the same sharing and correct parent links; later assignments to either do not affect the other.", "quantifier": "every graph and every later history", "why_tests_cant": "independence ranges over all later histories; weak dictionaries are rebuilt by hand", "anchors": ["chumpy/ch.py:Ch.__getstate__", "chumpy/ch.py:Ch.__setstate__", "chumpy/ch_ops.py:copy"]}
{"id": "C17", "title": "Redundancy removal preserves meaning", "statement": "remove_redundancy terminates and leaves the value and derivatives of the object, now and after later assignments to the leaves, unchanged.", "quantifier": "every graph, every later history", "why_tests_cant": "the merge bypasses attribute assignment, so parent links and caches must be argued about for all graphs", "anchors": ["chumpy/ch.py:Ch.remove_redundancy", "chumpy/ch.py:Ch.sid"]}
{"id": "C18", "title": "Failed evaluations leave no trace", "statement": "If compute_r or compute_dr_wrt raises (or the recursion limit is hit) somewhere inside an evaluation, nothing stale is kept: after the inputs are repaired, reads return the fresh values.", "quantifier": "every graph, every failure point, every later history", "why_tests_cant": "every crash point inside the recursive evaluation", "anchors": ["chumpy/ch.py:Ch.r", "chumpy/ch.py:Ch.dr_wrt"]}
{"id": "C19", "title": "dr_wrt is the Jacobian", "statement": "For every expression graph built from operations whose own local Jacobians are right, in which no object appears as two different operands of the same operation, obj.dr_wrt(w) applied to the velocity of any differentiable curve of values of w is the velocity of obj.r along it; None stands for the zero Jacobian.", "quantifier": "every DAG of any depth and size, every array size, every w (leaf or intermediate, other than obj itself when composite), every curve", "why_tests_cant": "the chain rule over unbounded DAGs with sharing; tests compare finite differences at a few points", "anchors": ["chumpy/ch.py:Ch.dr_wrt", "chumpy/ch.py:Ch.compute_rop", "chumpy/ch.py:Ch._compute_dr_wrt_sliced"]}
{"id": "C20", "title": "Sharing an operand does not change the derivative", "statement": "If the same intermediate object is used as two operands of one operation (p+p, p*p, concatenate([p,p])), dr_wrt is still the Jacobian.", "quantifier": "every operation with two operands, every intermediate p", "why_tests_cant": "tests only use a repeated operand when it is the differentiation variable itself", "anchors": ["chumpy/ch.py:Ch.dr_wrt", "chumpy/ch_ops.py:add.compute_dr_wrt", "chumpy/ch_ops.py:multiply.compute_dr_wrt", "chumpy/reordering.py:Concatenate.compute_dr_wrt"]}
{"id": "C21", "title": "Reverse mode equals forward mode", "statement": "obj.lop(w, lhs) equals lhs times obj.dr_wrt(w), and is None exactly when obj.dr_wrt(w) is None; dr_wrt(reverse_mode=True) equals dr_wrt.", "quantifier": "every graph, every w, every left factor", "why_tests_cant": "the two recursions multiply in opposite orders over unbounded graphs", "anchors": ["chumpy/ch.py:Ch.lop", "chumpy/ch.py:Ch.compute_lop", "chumpy/ch.py:Ch.lmult_wrt"]}
{"id": "C22", "title": "Differentiating with respect to a slice selects columns", "statement": "For a slice s = a[key] that does not occur in obj, obj.dr_wrt(s) equals obj.dr_wrt(a) restricted to the columns selected by key.", "quantifier": "every graph, every selection of distinct entries of a, obj different from a", "why_tests_cant": "test_dr_wrt_selection pins one expression", "anchors": ["chumpy/ch.py:Ch._compute_dr_wrt_sliced", "chumpy/reordering.py:Select.compute_dr_wrt"]}
{"id": "C23", "title": "No dependence, no derivative", "statement": "obj.dr_wrt(w) is None whenever obj does not depend on w (w not a reordering view), and is_dr_wrt(w) is true whenever obj.dr_wrt(w) is not None.", "quantifier": "every graph and pair", "why_tests_cant": "needs all graphs", "anchors": ["chumpy/ch.py:Ch.dr_wrt", "chumpy/ch.py:Ch.is_dr_wrt"]}
{"id": "C24", "title": "Elementwise unary functions have the right Jacobian", "statement": "For exp, log, sin, cos, tan, arcsin, arccos, arctan, sqrt, square, reciprocal, negative, absolute at points of differentiability, the reported Jacobian is the size-by-size diagonal matrix of true derivatives.", "quantifier": "every array of every shape and all real values in the domain", "why_tests_cant": "test_unary samples the point 0.25 of a scalar", "anchors": ["chumpy/ch_ops.py:UnaryElemwise.compute_dr_wrt"]}
{"id": "C25", "title": "Broadcast binary operations have the right Jacobian", "statement": "add, subtract, multiply, divide, power of arrays of any broadcastable shapes have Jacobians whose row i is the partial derivative of output element i, in the column of the input element that numpy broadcasting feeds to it, also when both operands are the same object, and also when templates are taken from the module-level template caches.", "quantifier": "every pair of broadcastable shapes, all values, every earlier history of the template caches", "why_tests_cant": "broadcast patterns and template-cache histories are unbounded", "anchors": ["chumpy/ch_ops.py:_broadcast_matrix", "chumpy/ch_ops.py:_broadcast_setup", "chumpy/ch_ops.py:add", "chumpy/ch_ops.py:subtract", "chumpy/ch_ops.py:multiply", "chumpy/ch_ops.py:divide", "chumpy/ch_ops.py:power"]}
{"id": "C26", "title": "Reordering operations have the right Jacobian", "statement": "transpose, swapaxes, rollaxis, roll, rot90, tile, repeat, diag, diagflat, sort: the Jacobian has in row i a single 1, in the column of the input element that ends up at output position i.", "quantifier": "every shape and every value", "why_tests_cant": "index arithmetic over all shapes", "anchors": ["chumpy/reordering.py:Reorder.compute_dr_wrt", "chumpy/reordering.py:Sort", "chumpy/reordering.py:Diag", "chumpy/reordering.py:DiagFlat", "chumpy/reordering.py:Tile", "chumpy/reordering.py:Repeat", "chumpy/reordering.py:Roll", "chumpy/reordering.py:transpose", "chumpy/reordering.py:swapaxes", "chumpy/reordering.py:rollaxis", "chumpy/reordering.py:Rot90"]}
{"id": "C27", "title": "Cached reordering Jacobians follow shape changes", "statement": "The Jacobian of a reordering operation is right after any sequence of changes of the shape of its input and of its parameters, although it is memoised per unique_reorder_id.", "quantifier": "every sequence of shapes and parameters", "why_tests_cant": "needs histories of shape changes; the only test of it is skipped", "anchors": ["chumpy/reordering.py:Reorder.compute_dr_wrt", "chumpy/reordering.py:Roll.unique_reorder_id", "chumpy/reordering.py:Repeat.unique_reorder_id", "chumpy/reordering.py:Select.on_changed"]}
{"id": "C28", "title": "Concatenation", "statement": "concatenate(list, axis) has the value numpy gives, nested concatenations along the same axis are flattened without changing the value, its Jacobian puts each operand's elements in the right rows, and it follows later re-assignment or reshaping of operands.", "quantifier": "every number of operands, every shapes, every axis, every nesting, every later assignment", "why_tests_cant": "index arithmetic for all axes and histories of re-assignment", "anchors": ["chumpy/reordering.py:Concatenate", "chumpy/reordering.py:expand_concatenates", "chumpy/reordering.py:concatenate"]}
{"id": "C29", "title": "Sums and means", "statement": "sum and mean along any axis, or over everything, have the right Jacobian (row per output element, weight 1 resp. 1/n on exactly the elements reduced into it); var is the variance.", "quantifier": "every shape, every axis", "why_tests_cant": "index arithmetic over all shapes", "anchors": ["chumpy/ch_ops.py:sum", "chumpy/ch_ops.py:mean", "chumpy/ch_ops.py:var"]}
{"id": "C30", "title": "Cumulative sum", "statement": "cumsum has the lower-triangular all-ones Jacobian, and it equals the derivative of the running sums.", "quantifier": "every length", "why_tests_cant": "all lengths", "anchors": ["chumpy/ch_ops.py:cumsum"]}
{"id": "C31", "title": "Matrix product", "statement": "dot has the right Jacobian with respect to either operand, and to both when they are the same object, for vectors and matrices.", "quantifier": "every size with a non-empty summed axis, vectors and matrices on the right and any rank on the left, all values", "why_tests_cant": "Kronecker index arithmetic for all sizes", "anchors": ["chumpy/ch_ops.py:dot.compute_d1", "chumpy/ch_ops.py:dot.compute_d2", "chumpy/ch.py:MatVecMult"]}
{"id": "C32", "title": "Inverse and determinant", "statement": "inv has Jacobian -kron(inv(A), inv(A)^T) and det has Jacobian det(A)*inv(A)^T, which are the true derivatives at every invertible matrix.", "quantifier": "every size, every invertible matrix", "why_tests_cant": "all sizes", "anchors": ["chumpy/linalg.py:Inv.compute_dr_wrt", "chumpy/linalg.py:Det.compute_dr_wrt"]}
{"id": "C33", "title": "Cross product", "statement": "cross of two lists of 3-vectors has the right Jacobian with respect to either, the two being different objects.", "quantifier": "every number of rows, all values", "why_tests_cant": "all numbers of rows", "anchors": ["chumpy/ch_ops.py:Cross.compute_dr_wrt", "chumpy/ch_ops.py:Cross._load_crossprod_cache"]}
{"id": "C34", "title": "Extrema", "statement": "amax/amin along an axis pick, in the Jacobian, the position of the extremal element; maximum/minimum give 1 to the operand that attains the value (both on ties), 0 to the other.", "quantifier": "every shape, axis and values", "why_tests_cant": "stride arithmetic over all shapes", "anchors": ["chumpy/ch_ops.py:A_extremum", "chumpy/ch_ops.py:Extremum"]}
{"id": "C35", "title": "tensordot contracts the right axes", "statement": "tensordot(a,b,axes) has at each output multi-index the sum over all contracted indices of the products; mismatching axes are rejected.", "quantifier": "every rank, every shape, every choice of distinct axes", "why_tests_cant": "index arithmetic over all ranks", "anchors": ["chumpy/np_tensordot.py:tensordot"]}
{"id": "C36", "title": "Indexing and item assignment", "statement": "a[key].r is numpy's a.r[key]; assigning through a chain of reorderings writes the given values to exactly the selected entries of the base variable and leaves all others unchanged.", "quantifier": "every shape, key, chain of selections/reshapes/reorderings and values", "why_tests_cant": "chains of reorderings are unbounded", "anchors": ["chumpy/ch.py:Ch.__getitem__", "chumpy/ch.py:Ch.__setitem__", "chumpy/reordering.py:Select"]}
{"id": "C37", "title": "Reshape collapses", "statement": "reshape of a reshape refers to the innermost array, keeps the value numpy gives, and its Jacobian is the identity.", "quantifier": "every chain of reshapes", "why_tests_cant": "all chains", "anchors": ["chumpy/reordering.py:reshape", "chumpy/reordering.py:Reshape"]}
{"id": "C38", "title": "Dogleg steps stay in the trust region", "statement": "Every step proposed by the dogleg optimizer has norm at most the trust radius, with equality when it interpolates between the Cauchy and the Gauss-Newton step (interpolation weight in [0,1]).", "quantifier": "all real vectors and radii", "why_tests_cant": "all real data", "anchors": ["chumpy/optimization_internal.py:DoglegState.update_step", "chumpy/optimization_internal.py:DoglegState.beta_multiplier"]}
{"id": "C39", "title": "The optimizer never makes things worse", "statement": "Whatever the objective, Jacobian and linear solver return, minimize_dogleg only moves the free variables to points with strictly smaller sum of squares, and whenever it returns or calls the user back the free variables hold the best point found.", "quantifier": "every objective, Jacobian oracle, solver oracle, option setting, number of iterations", "why_tests_cant": "all objectives and all runs", "anchors": ["chumpy/optimization_internal.py:minimize_dogleg", "chumpy/optimization_internal.py:DoglegState.Trial"]}
{"id": "C40", "title": "The optimizer stops", "statement": "minimize_dogleg terminates: at most max(1,maxiter) outer iterations, at most max(1,max_fevals) evaluations of the objective, and each inner search ends.", "quantifier": "every objective (NaN residuals included) and option setting", "why_tests_cant": "termination for all objectives", "anchors": ["chumpy/optimization_internal.py:minimize_dogleg", "chumpy/optimization_internal.py:DoglegState.updateRadius"]}
{"id": "C41", "title": "Optimizer vector and variables stay in sync", "statement": "After the optimizer sets its flat vector, each free variable (plain array, slice, or nested slice of a base variable) evaluates to its segment of the vector, other entries of base variables keep their values, and dependents see the new values; duplicate free variables are rejected.", "quantifier": "every list of free variables and every vector", "why_tests_cant": "nestings and overlaps are unbounded", "anchors": ["chumpy/optimization_internal.py:ChInputsStacked.on_changed", "chumpy/optimization_internal.py:setup_objective"]}
{"id": "C42", "title": "scipy bridge", "statement": "For the scipy methods, the objective and gradient callbacks evaluate at the vector they are given: variables are updated before evaluation, and memoised gradients are returned only for the vector they were computed at.", "quantifier": "every sequence of callback invocations by the minimizer", "why_tests_cant": "the minimizer decides the calling sequence", "anchors": ["chumpy/optimization.py:minimize"]}
{"id": "C43", "title": "Predicted improvement is positive", "statement": "With a positive semidefinite normal matrix and a Gauss-Newton step that solves the normal equations, the predicted improvement of each proposed dogleg step is positive unless the gradient is zero, and the steepest-descent step is the minimizer of the model along the gradient.", "quantifier": "all real Jacobians, residuals and radii", "why_tests_cant": "all real data", "anchors": ["chumpy/optimization_internal.py:DoglegState.start_iteration", "chumpy/optimization_internal.py:DoglegState.Trial"]}
{"id": "C44", "title": "ChLambda behaves like its body", "statement": "A ChLambda over arguments evaluates as the lambda body applied to the current arguments after any sequence of argument re-assignments; instances do not influence each other.", "quantifier": "every body and every sequence of argument assignments", "why_tests_cant": "all histories, several instances", "anchors": ["chumpy/ch.py:ChLambda"]}
{"id": "C45", "title": "Construction binds arguments as declared; operators build the matching operation", "statement": "Positional arguments bind to the declared term order, keywords by name, defaults fill the rest; a op b builds the operation with operands in source order whichever side is a Ch.", "quantifier": "every class declaration and argument list; every arithmetic operator and operand order", "why_tests_cant": "all declarations / all operator-operand combinations", "anchors": ["chumpy/ch.py:Ch.__new__", "chumpy/ch.py:Ch.setup_terms", "chumpy/ch.py:Ch.__radd__", "chumpy/ch.py:Ch.__rsub__", "chumpy/ch.py:Ch.__rdiv__"]}
{"id": "C46", "title": "Timers measure unpaused time", "statement": "timer() returns the total time since construction minus paused intervals; pausing twice or resuming a running timer is rejected.", "quantifier": "every sequence of pause/resume/read and every monotone clock", "why_tests_cant": "all sequences", "anchors": ["chumpy/utils.py:timer"]}
{"id": "C47", "title": "Clipping", "statement": "clip(a, lo, hi) limits every element to the bounds and its Jacobian is diagonal with 1 for elements strictly inside the bounds and 0 for elements outside, which is the derivative wherever no element is at a bound.", "quantifier": "every shape, all values, all bounds lo <= hi", "why_tests_cant": "all shapes and values", "anchors": ["chumpy/ch_ops.py:clip"]}
{"id": "C48", "title": "Sum of squares", "statement": "SumOfSquares(x) is the sum of the squared elements and its Jacobian is the row 2*x, which is the derivative.", "quantifier": "every shape and value", "why_tests_cant": "all shapes and values", "anchors": ["chumpy/ch_ops.py:SumOfSquares"]}
{"id": "C49", "title": "Derivatives do not depend on how Jacobians are stored", "statement": "compute_dr_wrt may return a number, a dense array, a sparse matrix or a LinearOperator, None standing for zero. Whatever each class chooses, the products and sums formed by dr_wrt, reverse mode and lop represent the matrices given by the chain rule, have shape (size of the object, size of the variable), and forming them does not raise.", "quantifier": "every object graph, every assignment of storage formats to local Jacobians, all sizes and values", "why_tests_cant": "all combinations of formats along all graphs, including values for which a Jacobian becomes zero and is converted on the way", "anchors": ["chumpy/ch.py:_superdot", "chumpy/ch.py:dr_wrt", "chumpy/ch.py:lmult_wrt", "chumpy/ch.py:lop", "chumpy/utils.py:convert_inputs_to_sparse_if_necessary", "chumpy/ch_ops.py:_broadcast_matrix"]}
{"id": "C50", "title": "Singular value decomposition", "statement": "svd(x) returns u, d, v with u*diag(d)*v equal to x and orthonormal columns of u and rows of v, for tall and wide x. Wherever the singular vectors returned by the solver depend continuously on x, the Jacobians of d, v and u are their derivatives, provided that the singular values are positive and, for u and v, pairwise different; where two of them agree, the Jacobians of u and v raise.", "quantifier": "all matrix sizes, all differentiable curves of matrices, all decompositions along them", "why_tests_cant": "the test compares with finite differences at one random matrix; which columns pair up, the sizes and nearly equal singular values are not explored", "anchors": ["chumpy/linalg.py:Svd", "chumpy/linalg.py:SvdD", "chumpy/linalg.py:SvdV", "chumpy/linalg.py:SvdU", "chumpy/ch_ops.py:NanDivide"]}
{"id": "C51", "title": "Pseudo-inverse, least squares and norm", "statement": "For a matrix of full rank, pinv(A) is the Moore-Penrose inverse, lstsq(A, b) returns the x minimising |A x - b| (of least norm if A is wide) with its residuals, and norm(x) is the Euclidean norm; their derivatives are right at every such matrix (norm: every x other than 0). For matrices of lower rank pinv raises.", "quantifier": "all sizes, all matrices and right hand sides", "why_tests_cant": "tall, square, wide and rank-deficient matrices of all sizes", "anchors": ["chumpy/linalg.py:Pinv", "chumpy/linalg.py:lstsq", "chumpy/linalg.py:norm"]}
{"id": "C52", "title": "Interpolation in a volume", "statement": "Interp3D evaluates a volume at given locations; the Jacobian it returns is the derivative of the value it returns, at every location inside a cell and at every location outside the volume, where the value is constant across the border.", "quantifier": "all volumes, all numbers of locations, all real coordinates", "why_tests_cant": "finite differences at few locations inside the volume; locations outside it, several locations at once", "anchors": ["chumpy/extras.py:Interp3D"]}
{"id": "C53", "title": "Functions without derivative are locally constant", "statement": "floor, ceil, sign and the comparisons return the numpy result for the current operands and no derivative; at every point where the result is differentiable, the derivative is indeed zero. NanDivide returns zero where it divides by zero and the quotient elsewhere, and its Jacobian is the derivative wherever the divisors are not zero, and with respect to the numerator everywhere.", "quantifier": "all shapes, all broadcastable operands, all values", "why_tests_cant": "points of discontinuity and zero divisors are exceptional values", "anchors": ["chumpy/ch_ops.py:Simpleton", "chumpy/ch_ops.py:BinaryElemwiseNoDrv", "chumpy/ch_ops.py:NanDivide"]}
{"id": "C54", "title": "Forgetting a derivative only costs time", "statement": "After obj.clear_cache_wrt(w) every value and every derivative, of any object and with respect to any variable, is what it was before, and still agrees with recomputation after any later calls; the call returns on every graph without cycles.", "quantifier": "all class libraries, all histories with any number of clear_cache_wrt calls, all objects and variables", "why_tests_cant": "the call is recursive over all users of an object and interacts with caches, notifications and iteration tags set by earlier calls", "anchors": ["chumpy/ch.py:Ch.clear_cache_wrt", "chumpy/ch.py:Ch.dr_wrt"]}
{"id": "C55", "title": "Python's protocols agree with the array", "statement": "len(x) is the length of the first axis. A for loop over x ends and yields, in order, one object per row, whose value is numpy's x.r[i] and whose derivative with respect to x picks the elements of that row; so the builtin sum(x) is the sum along the first axis. float(x) and int(x) give the element of a one-element array, int cutting towards zero, and raise for any other size. An 'if' on a comparison of one-element arrays decides as the comparison of the numbers, so the builtins max and min return the largest and the smallest of several one-element objects.", "quantifier": "all shapes, all values, all lists of objects", "why_tests_cant": "the protocols are put together by the interpreter from __len__ and __getitem__ for every shape and value; a test of one comparison or one loop says nothing about the others", "anchors": ["chumpy/ch.py:Ch.__len__", "chumpy/ch.py:Ch.__getitem__", "chumpy/ch.py:Ch.__float__", "chumpy/ch.py:Ch.__int__", "chumpy/ch.py:Ch.__gt__"]}
{"id": "C56", "title": "Stacking and shape helpers agree with numpy", "statement": "vstack, hstack, dstack, atleast_1d, atleast_2d, atleast_3d, squeeze, expand_dims, fliplr and flipud of objects have the value that the numpy functions of the same names give for their values, raise when those raise, and have Jacobians which are the derivatives of the value.", "quantifier": "all numbers of operands, all shapes (also of different dimensions), all axes, all values", "why_tests_cant": "the result depends on the number of dimensions of every operand and on the sign of axes; derivatives go through a factor given as a number", "anchors": ["chumpy/reordering.py:vstack", "chumpy/reordering.py:hstack", "chumpy/reordering.py:dstack", "chumpy/reordering.py:AtleastNd", "chumpy/reordering.py:squeeze", "chumpy/reordering.py:expand_dims", "chumpy/reordering.py:fliplr", "chumpy/reordering.py:flipud"]}
{"id": "C57", "title": "Moments and standard deviations are those of statistics", "statement": "extras.moment(a, k, axis) returns an object whose value is the array of k-th central moments of a along the axis (the mean of the k-th powers of the deviations from the mean), for every order, every shape and every axis counted from either end, in particular for vectors with the default axis; its dr_wrt(a) is the derivative of these. The first moment is an object too, equal to zero. ch.std is the standard deviation, the square root of the second central moment. extras.gamma's Jacobian is the derivative of the gamma function at each element.", "quantifier": "all shapes, axes, orders and values", "why_tests_cant": "the value goes through a mean, an expand_dims, broadcasting and a second mean, each depending on the number of dimensions and the sign of the axis; a test checks one shape and axis", "anchors": ["chumpy/extras.py:moment", "chumpy/extras.py:gamma", "chumpy/ch_ops.py:std", "chumpy/ch_ops.py:var"]}
{"id": "C58", "title": "Grouping an expression keeps its value and derivatives", "statement": "ChGroup(result, args) reads as result over the named arguments, after every assignment to anything result depends on; its dr_wrt(x) is the derivative of result with respect to x, for x among the arguments, below them, or reaching result in another way, however many arguments there are and however they depend on each other. Likewise dr_wrt of a ChLambda is the derivative of its body, also when the lambda object stands in the middle of a larger expression.", "quantifier": "all object graphs, all sets of arguments, all variables, all formats of Jacobians but LinearOperators", "why_tests_cant": "whether paths are counted once depends on where the variable lies relative to the arguments and on which arguments depend on which; tests try a single placement", "anchors": ["chumpy/ch.py:ChGroup.__init__", "chumpy/ch.py:ChGroup.compute_dr_wrt", "chumpy/ch.py:ChLambda.compute_dr_wrt", "chumpy/ch.py:Ch.dr_wrt"]}
{"id": "C59", "title": "The optimizer works with the Jacobian of the objective", "statement": "The matrix J the built-in optimizer computes for an objective and a list of free variables (basic objects and selections of elements) has one row per residual and one column per element of the stacked variables, in this order, and its entries are the partial derivatives of the residuals: column k belongs to the k-th element of the vector the optimizer steps in. This holds for any mixture of dense and sparse Jacobians and operators and whether or not a dense Jacobian is asked for. If the objective does not depend on some free variable, an exception says so. If all derivatives vanish, the optimizer stops at the point as stationary.", "quantifier": "all object graphs, objectives, lists of free variables, index lists of selections, and storage formats", "why_tests_cant": "which format each block comes in depends on the sparsity at the current point; tests exercise one mixture at one point", "anchors": ["chumpy/optimization_internal.py:ChInputsStacked.dr_wrt", "chumpy/optimization_internal.py:ChInputsStacked.J", "chumpy/optimization_internal.py:hstack", "chumpy/optimization_internal.py:DoglegState.updateJ"]}
{"id": "C60", "title": "Derivatives of extrema do not depend on the memory layout", "statement": "The Jacobian of amax and amin along an axis has its 1 in the column of the extreme element, whatever the memory layout (numpy strides) of the array the maximum is taken of: freshly computed arrays, transposed arrays, arrays rotated by rot90, arrays given by the user with axes added by np.newaxis.", "quantifier": "all shapes, axes, values and all layouts numpy calls C-contiguous", "why_tests_cant": "the strides of axes of length one are arbitrary, and depend on the numpy operations the array went through; tests use arrays fresh from a constructor", "anchors": ["chumpy/ch_ops.py:A_extremum._stride_for_axis", "chumpy/ch_ops.py:A_extremum.compute_dr_wrt", "chumpy/ch.py:Ch.r", "chumpy/reordering.py:Rot90"]}
{"id": "C61", "title": "Missing values", "statement": "nanmax and nanmin along an axis are the extreme values of the elements that are not NaN, and their Jacobians have the 1 in the column of that element, whenever the value is a number; where it is attained once and NaN elements stay NaN it is the derivative; if all elements are NaN the value is NaN and the derivative can be asked for. nan_to_num replaces NaN and infinities by finite numbers and leaves the rest; its derivative is 1 at finite elements, else 0. amax and amin of elements with a NaN among them are NaN.", "quantifier": "all shapes, axes and arrays of numbers, infinities and NaN", "why_tests_cant": "which elements are NaN is arbitrary, and the position is computed by skipping them", "anchors": ["chumpy/ch_ops.py:nanmax", "chumpy/ch_ops.py:nanmin", "chumpy/ch_ops.py:nan_to_num", "chumpy/ch_ops.py:A_extremum"]}
{"id": "C62", "title": "Arrays handed over or read are not shared", "statement": "An object keeps its own copy of the array it is given, and a value that was read stays what it was: c[i] = v changes c and what depends on it, but neither the caller's array, nor another object built from the same array or from c.r, nor values read earlier; writing to the caller's array afterwards changes no object; every value read is that of the present terms. Without assignments in place this holds for all histories; with them it holds for the values of all objects if every array handed over is a fresh copy that is handed over once and not written to afterwards.", "quantifier": "all histories of creating arrays and objects, assigning whole arrays and elements, writing to arrays and reading values", "why_tests_cant": "which arrays share memory depends on the whole history, on data types and on memory layouts; stale values only show after a particular interleaving of reads and writes", "anchors": ["chumpy/ch.py:Ch.__new__", "chumpy/ch.py:__setitem__", "chumpy/ch.py:__setattr__", "chumpy/ch.py:r", "chumpy/reordering.py:Reorder"]}
{"id": "C63", "title": "Requested storage formats and cached derivatives", "statement": "An object made with make_dense=True returns its derivative as a dense matrix, one made with make_sparse=True as a sparse matrix, every time dr_wrt is called; neither flag, on the object or on anything below it, nor earlier calls whose results are cached, changes the entries of any derivative, and where there is no dependence the result is None as without the flags.", "quantifier": "all expression graphs with Jacobians in any storage format, all settings of the flags, all histories of dr_wrt calls on any objects with any numbers of parents and of caches being dropped", "why_tests_cant": "whether a result is converted depends on whether it was cached before, hence on the number of parents and on all earlier calls; each combination of flags, formats and histories would need its own test", "anchors": ["chumpy/ch.py:dr_wrt", "chumpy/ch.py:Ch.__new__", "chumpy/ch.py:_superdot"]}
{"id": "C64", "title": "Work grows with the expression, not with its paths", "statement": "One call of dr_wrt, lop, is_dr_wrt or loop_children_do works on each object of the expression at most once, however many ways lead to it; a repeated dr_wrt of an object that is not the operand of exactly one other does no work at all.", "quantifier": "all expression graphs without cycles, all states of the caches, all variables", "why_tests_cant": "the number of ways grows exponentially with the depth of the expression, tests with small expressions finish quickly in either case; whether an object is cached depends on its number of parents", "anchors": ["chumpy/ch.py:dr_wrt", "chumpy/ch.py:lop", "chumpy/ch.py:is_dr_wrt", "chumpy/ch.py:loop_children_do"]}
{"id": "C65", "title": "An expression hangs on the objects it was built from", "statement": "What concatenate, hstack, vstack, dstack, reshape, ravel and the shape helpers built on them return has, at every later time, the value of numpy's function of the current values of the objects given; it depends on every one of them: is_dr_wrt of a given object is True, and the derivative with respect to it is not None. This also holds if the objects given are concatenations or reshapes themselves.", "quantifier": "all programs that build expressions, assign values and reassign operands, in any order; all shapes and axes", "why_tests_cant": "concatenate and reshape look through their operands and hold on to what is below; this shows only when an operand in the middle is changed, replaced or differentiated by after the outer expression was built", "anchors": ["chumpy/reordering.py:expand_concatenates", "chumpy/reordering.py:concatenate", "chumpy/reordering.py:reshape", "chumpy/ch.py:is_dr_wrt"]}
{"id": "C66", "title": "Elementwise values and derivatives in double precision", "statement": "For doubles, the value of +, -, *, /, negative, absolute, square, reciprocal, sqrt and ** is the exact result rounded once, or an infinity where that is beyond the range or at a pole: no ordinary number is read where the exact result is not close to it. Entries of their Jacobians, and of those of log, arctan and arcsin, agree with the exact derivative up to a few units in the last place wherever the exact derivative is in the normal range, and are infinite or NaN, not ordinary numbers, where it is beyond the range or undefined.", "quantifier": "all finite doubles as operands", "why_tests_cant": "a test compares a few moderate numbers with a tolerance; overflow and underflow of intermediate results happen for a large, but never sampled part of the doubles", "anchors": ["chumpy/ch_ops.py:power.safe_power", "chumpy/ch_ops.py:my_power", "chumpy/ch_ops.py:divide", "chumpy/ch_ops.py:UnaryElemwise", "chumpy/ch_ops.py:multiply"]}
{"id": "C67", "title": "The method chooses how, not what, is minimized", "statement": "minimize of an object, a list, a tuple or a dict of objects minimizes the sum of the squares of all their elements, whatever the method, the labels and the order of the objects; the figures printed per label add up to the total; and the gradient and the Hessian given to scipy's methods are those of that function.", "quantifier": "all objectives (objects, lists, dicts), methods, differentiable elements and points", "why_tests_cant": "tests run a few methods on objectives with several elements; for an objective of one element the methods minimize different functions, and a wrong Hessian only changes the path", "anchors": ["chumpy/optimization.py:minimize", "chumpy/optimization_internal.py:setup_objective", "chumpy/ch_ops.py:SumOfSquares"]}
{"id": "C68", "title": "Linear least squares problems are solved", "statement": "For residuals that are affine in the free variables, minimize with method dogleg returns a least squares solution: after one step if no trust radius is given, and from every positive radius after finitely many steps, unless it stops because the gradient or the step is below the thresholds asked for.", "quantifier": "all affine residuals, starting points, radii and thresholds, in exact arithmetic", "why_tests_cant": "convergence for all problems and radii is not a finite set of runs", "anchors": ["chumpy/optimization_internal.py:minimize_dogleg", "chumpy/optimization_internal.py:DoglegState.update_step", "chumpy/optimization_internal.py:DoglegState.updateRadius"]}
{"id": "C69", "title": "The gradient given to scipy lines up with its vector", "statement": "For every list of free variables, the vector and the gradient that minimize exchanges with scipy have one entry per element of the variables, in the same order, and each entry of the gradient is the derivative of the objective with respect to that entry of the vector; variables without influence on the objective get zeros, and a variable that is listed twice is refused.", "quantifier": "all lists of free variables, of any sizes, all objectives and points", "why_tests_cant": "tests use one or two distinct variables that all matter to the objective", "anchors": ["chumpy/optimization.py:minimize", "chumpy/optimization_internal.py:setup_objective", "chumpy/ch.py:Ch.lop"]}
{"id": "C70", "title": "Determinants of several matrices at once", "statement": "det and slogdet accept arrays of matrices, and slogdet several matrices, as inv does and as numpy's det and slogdet do: the values are those of the single matrices, in order, and the Jacobian has one row per determinant.", "quantifier": "all numbers and sizes of matrices", "why_tests_cant": "the tests take determinants of one matrix at a time", "anchors": ["chumpy/linalg.py:Det", "chumpy/linalg.py:LogAbsDet", "chumpy/linalg.py:slogdet"]}
{"id": "C71", "title": "The optimizer finds stationary points of smooth objectives", "statement": "For every objective that is smooth - on the set of points no worse than the start the Jacobian is bounded and the residuals are approximated to second order by it - minimize_dogleg ends after finitely many evaluations, from every start and every positive initial trust radius, and without a limit on iterations or evaluations being reached it ends where the gradient is below e_1 or where the last step or the trust region is below e_2 relative to the variables; with e_2 = 0 always where the gradient is below e_1.", "quantifier": "all smooth objectives of any dimensions, all starts, initial radii and thresholds", "why_tests_cant": "tests run the optimizer on a handful of objectives from single starts; that a search by quartering the radius cannot go on for ever, nor accepted steps become ever smaller far from any stationary point, is a statement about all objectives and all runs", "anchors": ["chumpy/optimization_internal.py:minimize_dogleg", "chumpy/optimization_internal.py:DoglegState"]}
{"id": "C72", "title": "Reports describe the expression", "statement": "print_labeled_residuals prints one figure per labelled object of the expression, the sum of the squares of its elements, with the number of decimals asked for, and then the total; the figures of the labelled parts of a concatenation add up to the total. The tree a DrWrtProfiler writes describes every object of the expression in full exactly once, with its operands in order, and mentions it briefly wherever else it is used, so that the expression can be rebuilt from it; this holds for every profiler, not only the first.", "quantifier": "all expressions, labels, sharing, cycles (profiler), numbers of decimals and earlier profilers", "why_tests_cant": "no test reads the reports; small trees without sharing and with default decimals look right, shared parts are printed once per path and marks left on the objects silence later profilers", "anchors": ["chumpy/ch.py:print_labeled_residuals", "chumpy/monitor.py:DrWrtProfiler.dump_tree", "chumpy/monitor.py:DrWrtProfiler.serialize_node"]}
{"id": "C73", "title": "The Gauss-Newton step solves the normal equations", "statement": "Whatever the storage of the Jacobian, the number of parameters and the solver chosen with sparse_solver, the Gauss-Newton step of minimize_dogleg is a solution of J'J y = -J'r, the shortest one if there are several, also if J'J is singular; solvers can be chosen by name or given as functions, and other choices are refused. Hence the guarantees for linear and for smooth problems hold for the solvers of numpy and scipy.", "quantifier": "all Jacobians (dense, sparse, singular), residuals, solvers, numbers of parameters", "why_tests_cant": "tests solve regular problems; singular systems, the fallbacks and the special case of one parameter are reached rarely, and wrong finite answers look like slow progress", "anchors": ["chumpy/optimization_internal.py:DoglegState.updateGN", "chumpy/optimization_internal.py:setup_sparse_solver", "chumpy/optimization_internal.py:DoglegState.updateAg"]}
{"id": "C74", "title": "Callbacks see the point they are called for", "statement": "When minimize calls the callback given by the user, the free variables hold the point the call announces, calls are made only for points that are steps of the method, once per step, with an argument of the same kind whatever the method.", "quantifier": "all methods, sequences of evaluations and steps of the minimizer, variables and callbacks that only read", "why_tests_cant": "tests do not look at callbacks, and for methods that end an iteration with an evaluation at the new point everything looks right", "anchors": ["chumpy/optimization.py:minimize.changevars", "chumpy/optimization.py:minimize", "chumpy/optimization_internal.py:setup_objective.callback", "chumpy/optimization_internal.py:minimize_dogleg"]}
{"id": "C75", "title": "Every way of indexing is numpy's", "statement": "For every key numpy accepts - several index arrays, broadcast against each other and mixed with slices, numbers, new axes and dots, masks, np.ix_ - c[key].r is c.r[key], it raises where numpy does, its Jacobian has a single one per row at the element picked, and it stays so when c gets new values.", "quantifier": "all arrays and shapes, all keys whose effect does not depend on the values of the array, all later values of c", "why_tests_cant": "tests index with one slice or one list; the combinations of kinds of keys, positions and shapes are endless, and nobody indexes first and lets the array grow afterwards", "anchors": ["chumpy/ch.py:Ch.__getitem__", "chumpy/reordering.py:Select.compute_r", "chumpy/reordering.py:Select.compute_dr_wrt"]}
{"id": "C76", "title": "What is assigned is what is read, in double precision", "statement": "After c = Ch(v), Ch(x=v), c.x = v, c[key] = v or an assignment v to elements shown by a view of c (its transpose, a slice, a reshape), c.r holds the assigned numbers as double precision numbers, and the other elements keep theirs, whatever was stored before and whatever the element type of the arrays handed over; numbers that are doubles and integers up to 2**53 come back exactly.", "quantifier": "all double precision numbers including NaN and infinities, all 64 bit integers, arrays of either type, all histories of construction, assignments of whole arrays, of items and through views", "why_tests_cant": "tests assign small floats to arrays of floats; which element type the stored array has depends on the whole history, and which numbers survive an addition and a subtraction in double precision on both operands", "anchors": ["chumpy/ch.py:Ch.__new__", "chumpy/ch.py:Ch.__setitem__", "chumpy/ch.py:Ch.__setattr__", "chumpy/ch.py:Ch.r"]}
{"id": "C77", "title": "Questions about values", "statement": "any and all (of all elements or along an axis, with or without keepdims), isfinite, isinf, isnan, isneginf, isposinf and logical_not return objects whose value is numpy's answer for the current value of the argument, as the numbers 1 and 0, an element counting as true unless it is zero, so that NaN counts as true. They have no derivative, and wherever the answer changes differentiably it does not change. argmax, argmin, nanargmax, nanargmin, nonzero, flatnonzero and argwhere return numpy's positions for the current value. x[nonzero(c)] has the elements at which c is not zero, in order. As in numpy, a comparison can serve as a mask, x[x > 0], and 'if any(isnan(x))' holds exactly if there is a NaN.", "quantifier": "all shapes, axes and arrays of numbers, infinities and NaN", "why_tests_cant": "the answers depend on arbitrary patterns of zeros, NaN and infinities in arrays of any shape, and the uses as masks and conditions go through protocols of Python that no unit test covers", "anchors": ["chumpy/logic.py:LogicFunc", "chumpy/ch_ops.py:argmax", "chumpy/ch_ops.py:nonzero", "chumpy/ch_ops.py:flatnonzero", "chumpy/ch.py:Ch.__getitem__", "chumpy/ch.py:Ch.__len__"]}
{"id": "C78", "title": "Chains of transpositions and reshapes, called as in numpy", "statement": "x.T, x.transpose(...), x.reshape(...) and x.ravel() take their arguments in all the ways numpy's methods do: no argument, None, separate numbers, one tuple, -1 for one length of a shape. Whatever chain of them is applied to x, the result has the value that numpy's methods give when applied to the current value of x, a call numpy refuses raises, and the derivative with respect to x is the matrix of the permutation of the elements: a single 1 in every row and in every column.", "quantifier": "all chains of calls, all arguments, all shapes and values of x", "why_tests_cant": "the result depends on the whole chain (reshapes skip the reshapes below them) and on the form of every argument, for arbitrary shapes", "anchors": ["chumpy/ch.py:Ch.reshape", "chumpy/ch.py:Ch.ravel", "chumpy/ch.py:Ch.T", "chumpy/ch.py:Ch.transpose", "chumpy/reordering.py:transpose", "chumpy/reordering.py:reshape", "chumpy/reordering.py:Reshape"]}
{"id": "C79", "title": "Reductions over several axes, and with keepdims, as in numpy", "statement": "ch.sum, ch.mean, ch.max and ch.min take the arguments of numpy's functions of these names: axis=(i, j) reduces over both axes, in any order and with negative numbers, gives the value of reducing along one axis after the other, and has the derivative of that value; keepdims=True leaves axes of length one in place; a keyword that is not understood raises instead of being ignored. The methods x.sum, x.mean, x.max and x.min take the same arguments.", "quantifier": "every shape, array of numbers, tuple of axes and set of keywords", "why_tests_cant": "all shapes, tuples of axes and keywords; that reducing in steps agrees with reducing at once is a statement about all orders", "anchors": ["chumpy/ch_ops.py:sum", "chumpy/ch_ops.py:mean", "chumpy/ch_ops.py:A_extremum", "chumpy/ch.py:Ch.sum", "chumpy/ch.py:Ch.set"]}
{"id": "C80", "title": "Equality, membership and sorting of objects", "statement": "x == y and x != y are opposite answers to one question, as for Python values and numpy arrays. Membership in lists, list.index, list.count, list.remove and dictionaries keyed by objects find the object itself, never another object that happens to have equal values, and go on doing so whatever values are assigned. sorted and list.sort order one-element objects by their values.", "quantifier": "every state of the values, list of objects and dictionary", "why_tests_cant": "all lists, dictionaries and values; answers have to stay the same under all assignments", "anchors": ["chumpy/ch.py:Ch.__ne__", "chumpy/ch.py:Ch.__lt__", "chumpy/ch.py:Ch.__hash__", "chumpy/ch.py:Ch.__len__", "chumpy/ch_ops.py:not_equal", "chumpy/ch_ops.py:less"]}
{"id": "C81", "title": "Programs that mix numpy arrays, numpy functions and objects", "statement": "An expression written with Python's operators, chumpy's functions, numpy's functions (np.sin(x), np.add(a, x)) and ch.array / ch.asarray over numpy arrays and Ch objects has the value numpy gives for the current values of the objects, and goes on having it after values are assigned; it depends on exactly the objects that occur in it.", "quantifier": "every such expression, numpy (any elementary functions), and values before and after", "why_tests_cant": "all expressions and all later values", "anchors": ["chumpy/ch.py:Ch.__array__", "chumpy/ch.py:Ch.__radd__", "chumpy/ch.py:Ch.__setattr__", "chumpy/ch_ops.py:array", "chumpy/ch_ops.py:asarray"]}
{"id": "C82", "title": "A session behaves as a spreadsheet", "statement": "In a session that makes objects (y = ch.Ch(v)), binds names to expressions over names (y = expression, also one that replaces the binding of y) and assigns values to objects through any of their names (y.x = v), every name read at the end has the value numpy gives for the formula it was bound to, with the formulas names had when they were used and the present values of the objects; assigning through one name of an object shows through all its other names.", "quantifier": "every session of any length, numpy (any elementary functions), and expressions that apply numpy's own functions and ch.array to arrays only (for the others see C81)", "why_tests_cant": "all sequences of statements", "anchors": ["chumpy/ch.py:Ch.__setattr__", "chumpy/ch.py:Ch.__array__", "chumpy/ch_ops.py:asarray"]}
