# Design

Subject: chumpy (`/repo/chumpy`, Python), a lazily evaluated, automatically
differentiated numpy expression graph.  This file says, for every property in
`properties.jsonl`, what is modelled and how it is proved.  It was written before
the proofs and is updated when the model grows.

## Trusted base

* The Coq 8.16.1 kernel (and `coqchk`).
* The axioms that `Print Assumptions` lists beneath each theorem in the
  `*Props.v` files.  Graph-engine, index-arithmetic and control-flow theorems are
  meant to be closed under the global context.  Theorems about real numbers
  depend on the standard library's real-number axioms
  (`ClassicalDedekindReals.sig_not_dec`, `ClassicalDedekindReals.sig_forall_dec`,
  `FunctionalExtensionality.functional_extensionality_dep`) and some on
  `Classical_Prop.classic`.  No axioms of our own.
* The faithfulness of the hand-written Gallina models.  Each definition cites
  the file and lines it follows and says where it simplifies.

## What is modelled

* `ch.py`: object state (`_parents`, `_cache`, `_dirty_vars`, `_itr`,
  `_depends_on_deps`, attributes), `__new__` (argument binding), `__setattr__`,
  `set`, `clear_cache`, `clear_cache_wrt`, `_invalidate_cacheprop_names`, `_call_on_changed`, `r`,
  `dr_wrt`, `_compute_dr_wrt_sliced`, `compute_rop`, `lop`, `compute_lop`, `is_dr_wrt`,
  `tree_iterator`, `replace`, `remove_redundancy`, `sid`, `__getstate__`/
  `__setstate__`, `depends_on`, `__getitem__`, `__setitem__`, `ChHandle`,
  `ChLambda`, `ChGroup`, operator overloads.
* `ch_ops.py`: unary elementwise functions, broadcasting binary functions with
  their template caches, sum, mean, var, SumOfSquares, cumsum, clip, dot, Cross, extrema.
* `reordering.py`: Reorder subclasses, Select, Reshape, Concatenate.
* `linalg.py`: Inv, Det, LogAbsDet, SignLogAbsDet, Svd and its parts, Pinv, lstsq, norm.
  `np_tensordot.py`: tensordot.   `extras.py`: Interp3D, gamma, moment.
* `optimization_internal.py`: dogleg steps and control flow, ChInputsStacked.
* `optimization.py`: the callbacks given to scipy.   `utils.py`: timer, graph dfs,
  sparse_is_desireable.

Not modelled: floating-point rounding, except where a property needs it (C39, C40 and
C42 use binary64 numbers, C50 the spacing of 1); elsewhere values are abstract or
exact reals, and NaN appears only where a control-flow property needs it.  numpy and scipy
internals: the array primitives chumpy uses are given their mathematical meaning.  Storage
formats of Jacobians (dense, sparse, `LinearOperator`) are modelled in C49 only; the other
properties see a Jacobian as a matrix.  DEBUG, profiling, printing, plotting, random
numbers, threads, `monitor.py`, `testing.py`.

## Modelling style

* Object graph: a finite map from object ids to nodes.  A *class* is given by its
  term names and two programs, `compute_r` and `compute_dr_wrt`, which may read
  any attribute, may read the `.r` of any referenced object, in any order and
  conditionally on values already read, and may raise.  Theorems quantify over
  all class libraries, so user subclasses are covered.
* Recursion in reads takes fuel; running out of fuel is Python's `RecursionError`
  and leaves the partially updated state, as the exception does.
* A *history* is a list of API operations; theorems about histories are proved by
  induction with an invariant.  Garbage collection is an operation that may
  happen between any two others.
* The specification of a value is an independent recursive evaluation which
  looks at attributes only (no caches, no parent links).
* Sets iterated by Python in unspecified order are modelled as lists; where the
  order matters the theorem quantifies over it.
* Arrays: shape (list of nat) plus C-order data list.  Jacobians: functions
  from (row, column) or lists of triplets (sparse matrices with summed duplicates).
* Derivatives: componentwise derivatives of curves over the real numbers.
* Properties that are false of the code are stated in full and refuted by a
  theorem `..._refuted` exhibiting a concrete history; the provable part is
  proved as `..._partial` or under its exact side condition.

## Per property

| id | model | proof |
|----|-------|-------|
| C01 | engine (`__setattr__`, `clear_cache`, `r`, GC) | invariant "cached value = denotation" over histories; soundness and completeness against cache-free evaluation |
| C02 | engine + `dr_wrt` cache | same invariant for Jacobian caches; refutation for reordering-view variables |
| C03 | engine reads | reads only touch caches/dirty sets; later results equal by C01/C02 |
| C04 | engine `__setattr__` | frame argument on reachability |
| C05 | engine event log | frame: cache of o survives operations elsewhere |
| C06 | `clear_cache` worklist loop with fuel | fuel bound from parent-link count, loop invariant; works on cyclic graphs |
| C07 | `clear_cache(itr)` | tag invariant for batches; refuted when reads intervene |
| C08 | `set` | simulation by separate assignments, for all permutations |
| C09 | dirty sets | equality with a specification machine of pending notifications |
| C10 | `depends_on` | same as C01 for property caches |
| C11 | parent links | invariant over histories |
| C12 | GC operation | frame for evaluation; invariant preservation |
| C13 | `is_dr_wrt` | induction on fuel vs. transitive closure |
| C14 | `tree_iterator` | dfs invariant, visited set |
| C15 | `replace` | substitution theorem under side condition; cycle creation refuted |
| C16 | copy(), `__getstate__`/`__setstate__` on top of the engine (`CopyModel.v`), pickle as a depth-first walk with a memo | invariant of the rebuilding loop, then the engine invariant on the result; evaluation commutes with renaming; objects not assigned to keep their attributes; refuted for an object held under two dterms |
| C17 | `sid`, `remove_redundancy` over the engine state (`RedunModel.v`); plain values compared by equality, standing for identity | every merge keeps the expression each object stands for, so evaluation and (without twin operands) the chain rule give the same; termination by settled objects and a weight; refuted for twin operands, for assignments after the merged object is collected, and for variables sharing an array |
| C18 | engine reads with raising programs | invariant preserved by failing reads |
| C19 | `dr_wrt` over reals (`AdSpec.v`, `NpModel.v`) | induction on the graph with per-operation chain rule, for any library; instantiated for real arrays |
| C20 | same | refuted with `p + p`, `p = -x` |
| C21 | `lop`, `compute_lop`, `lmult_wrt`, `dr_wrt(reverse_mode=True)` over the engine state | distributivity, induction; `lop` in full, reverse mode for variables that are not views, refuted for views |
| C22 | `_compute_dr_wrt_sliced` | algebraic induction on the graph |
| C23 | `dr_wrt`, `is_dr_wrt` | induction; assumes each class body returns None for objects it does not hold (`local_derivatives`) |
| C24 | unary functions (`ElemModel.v`) | Stdlib `derivable_pt_lim` of every function on its domain; partial, refuted for shape (1, n) |
| C25 | broadcasting (`ElemModel.v`) | index maps, invariant of the template caches over all call histories |
| C26 | reorderings as index maps (`ReorderModel.v`); numpy's meaning stated on multi-indices (`ReorderSpec.v`) | each index map computes the stated one; Jacobian from naturality; refuted for Sort and for Diag/DiagFlat making a matrix |
| C27 | `dr_lookup` and Select's matrix (`ReorderModel.v`) | invariant over all call histories; refuted for Roll/Repeat |
| C28 | Concatenate, expand_concatenates, the remembered `_our_terms`, `_everything`, `dr_cached` (`ConcModel.v`); positions on multi-indices (`ConcSpec.v`); dterms and axis are fixed with the object | index arithmetic, invariant over histories; following replaced or reshaped operands refuted |
| C29 | sum, mean, their dictionary of Jacobians, var (`RedModel.v`); which elements go into which, on multi-indices (`RedSpec.v`) | index arithmetic, linearity; refuted for mean(None) of matrices and for var |
| C30 | cumsum (`RedModel.v`) | index arithmetic, linearity |
| C31 | dot with its reshapes and Kronecker products, MatVecMult (`DotModel.v`); the product on multi-indices (`DotSpec.v`); sparse and dense matrices are the same model type | bilinear derivative; three-dimensional right operands and empty summed axes refuted |
| C32 | Inv of arrays of matrices, Det, LogAbsDet, SignLogAbsDet of one matrix, in exact arithmetic (`LinModel.v`): cofactor expansion and Cramer's rule instead of LU; determinants and inverses by what characterises them (`LinSpec.v`); Det of arrays of matrices is not modelled | the determinant is the alternating function, multiplicative; Jacobi's formula; derivative of the inverse from A X = 1; a singular matrix refuted for det |
| C33 | Cross of h x 3 arrays with default axes, through the model of repeat and tile (`DotModel.v`); the cached index arrays are a function of h and w, which are compared | bilinear derivative; one object twice refuted |
| C34 | A_extremum, Extremum (`RedModel.v`); strides of a C-contiguous array | index arithmetic, locally constant argmax; on ties the two Jacobians are no derivative (refuted) |
| C35 | tensordot: normalisation of axes, transpose, reshape, dot, reshape (`DotModel.v`); axes as multi-index positions (`DotSpec.v`) | index arithmetic |
| C36 | `__getitem__`, `__setitem__` (`ReorderModel.v`), views as classes (`ReorderOps.v`) | index maps; induction on the chain of views in the object graph, dr_wrt included; refuted for repeated elements and scalar values |
| C37 | Reshape, `reshape` (`ReorderModel.v`, `ReorderOps.v`) | induction on the chain in the object graph |
| C38 | dogleg step (`DogModel.v`) in exact real arithmetic (`DogExact.v`), what a step should be (`DogGeo.v`) | real algebra; the weight is the positive root of a quadratic; invariant of runs |
| C39, C40 | DoglegState and minimize_dogleg as a machine (`DogModel.v`), for any numbers and any objective, Jacobian and solver; binary64 numbers are Flocq's (`Dog64.v`) | state-machine invariants; quartering a binary64 radius reaches zero; never ending on NaN, one evaluation too many and losing the best point refuted by runs in binary64 (`DogPlane.v`) |
| C41 | `ChInputsStacked.on_changed` with its reads and tagged assignments over the engine state, duplicate check and initial vector of `setup_objective` (`StackModel.v`); arrays seen as lists of elements (`arrays_ok`); which elements of which base a variable shows (`StackSpec.v`); free variables that are neither basic nor Selects over basic objects raise in the model; `_giter` is a parameter, new for each call and not 9999 | reads are local, so a tag on one base is not undone by reading variables over other bases; induction over the list of variables and over all states reached by calls and on_changed; refuted for two Selects over one base and for a Select repeating an element |
| C42 | scipy callbacks (`BridgeModel.v`): arrays by location, binary64 (Flocq), memo of the gradient, Hessian callbacks; objective and gradient are arbitrary functions of the free variables; free variables do not share elements | invariant: the memorised gradient is the one at the memorised vector; refuted by runs (`BridgeDemo.v`) for reused vectors, overwritten gradients, 1e16, NaN, views |
| C43 | predicted improvement (`DogModel.v`, `DogExact.v`) | the model is concave along the segment from the Cauchy to the Gauss-Newton point |
| C44 | ChLambda's `__init__` (argument loop, terms list of the class), on_changed called by the r property, compute_r, over the engine state (`LamModel.v`); here reading changes attributes. Values only; no @depends_on classes; the function argument is represented by what it returned on the handles; `set(**kw)` as successive assignments; inspect.getargspec (absent from Python 3.11 on) and pickling are not modelled; derivatives and ChGroup: see C58; unused arguments are not handed on, as the body does not contain them | the invariant says each cached value is right for the graph with any subset of the late handles brought up to date that the reader cannot see (`LamThms.v`); induction over histories; bodies compared with written-out expressions by a simulation; refuted for reading inside a body and for the shared terms list |
| C45 | `__new__`, setup_terms, parm_declarations with the class attributes and dictionaries they write (`BindModel.v`), the operator methods and Python's dispatch | invariant of the class table over all histories of constructions; refuted for inherited orders, Term declarations, namesakes and division in Python 3 |
| C46 | `timer` as a state machine over real clock readings (TimerModel); assertions enabled (python -O would drop them), exact arithmetic | C46_reads, C46_rejects, C46_monotone |
| C47 | clip with numbers as bounds (`RedModel.v`) | locally linear; refuted for 1 x n arrays |
| C48 | SumOfSquares (`RedModel.v`) | derivative of the square |
| C49 | numbers, arrays, sparse matrices and LinearOperators as four formats; `_superdot`, the sums and the final conversion of dr_wrt, lmult_wrt and lop over a graph of objects with given local Jacobians (`RepModel.v`); caches left out (C02); numpy from 1.13 on (`!= None` is elementwise); one-dimensional Jacobians with several entries, np.matrix, `_make_dense`, `_make_sparse` and LinearOperators inside lmult_wrt and lop are not modelled | case analysis on formats; induction on the graph against the chain rule as an equation on matrices; refuted for a sum of scalar derivatives one of which is zero, for the number 1 as Jacobian, for dense Jacobians in reverse mode, for three LinearOperators; right with operators in forward mode where no object above them adds up more than two (`RepOps.v`) |
| C50 | Svd, SvdD, SvdV, SvdU (linalg.py:60-80, 178-275) over the reals; np.linalg.svd is any function that returns decompositions, np.linalg.solve of 2 x 2 systems is Cramer's rule (`SvdModel.v`); the dr_wrt call inside SvdU is written out as the sum it forms; rounding and the wide case's Transpose Jacobian (C26) left out | differentiability of singular values and vectors derived from continuity: the equations X v = d u and X^T u = d v taken at 0 and at t give linear equations for the inner products of vectors at 0 and at t |
| C51 | Pinv, lstsq, norm over the reals with the models of C31 and C32 (`PinvModel.v`) | Moore-Penrose equations from the inverse; minimality by completing the square; derivatives through C19 |
| C52 | Interp3D over the reals; np.gradient as any array of the volume's shape per axis (`InterpModel.v`) | the value is affine inside a cell; locations outside refuted |
| C53 | floor, ceil, sign, comparisons and NanDivide over the reals (`StepModel.v`); infinities and NaN of the division by zero are modelled as one exceptional value that is replaced by 0 | local constancy; the derivative of a locally constant function is 0; a differentiable function with values in the integers is locally constant |
| C54 | clear_cache_wrt over the engine state (`ForgetModel.v`), with iteration tags; `dr_cached` of Concatenate left out (C28) | the forgotten entries are masked: all calls commute with removing them from the caches, so the engine's invariant holds of the masked state; refuted for w itself (the entry None is taken for the derivative) and for tagged calls |
| C55 | len, the old sequence protocol of for loops (`ProtoModel.v`: __getitem__ with 0, 1, … until it raises, over the model of C36), float, int, truth of an object by its length, CPython's max, min and sum | iteration by induction on the rows left, each row by C36; truth of comparisons refuted (an object is true when it is not empty), hence max and min return the last object |
| C56 | the functions (`HelpModel.v`) over the models of C28 (concatenation), C36 (indexing) and C37 (reshaping); numpy's functions by their documented meaning, written with multi-indices | values by shapes and multi-indices; hstack of vectors refuted; atleast_nd's Jacobian, the number 1, right as a factor and refuted as the derivative with respect to the operand itself |
| C57 | `moment`, `gamma`, `std` (`MomModel.v`) over the models of C29 (mean), C56 (expand_dims) and C25 (broadcast subtraction, power); scipy's gamma and digamma are any two functions with Γ' = ψ·Γ | values by the elements that go into each mean; the Jacobian as the product along the paths; vectors with axis 0, the first moment of a vector and std refuted |
| C58 | ChGroup's compute_dr_wrt and the dr_wrt of a group (`GroupModel.v`) over the derivative representations of C49: the direct term is result.dr_wrt(wrt), the chain terms run over the arguments; ChGroup.__init__ and compute_r over the engine state of C44 for the values; ChLambda's compute_dr_wrt as a node of C49. LinearOperators, views of the variable and the sharing of the class list `terms` are left out | the group's derivative is computed exactly (direct plus chain terms); right when no argument depends on the variable; by a cut argument over the graph it is twice the derivative when every path runs through independent arguments (refuted); values refuted by a history in which result also depends on something that is no argument; lambda objects are shown to be handles in the sense of C49, whose theorems then apply |
| C59 | ChInputsStacked.dr_wrt and J, hstack, updateJ (`BlockModel.v`) over the derivative representations of C49; column indexing of arrays, sparse matrices and LinearOperators; sparse zeros are taken as not stored. Clearing derivative caches afterwards is not part of it (C54) | each block is right by C49, selections pick columns, and hstack of matrices in any formats is their concatenation; zero sparse Jacobians raise (refuted), operators under a selection raise (refuted) |
| C60 | _stride_for_axis and A_extremum.compute_dr_wrt with the strides of the array as a parameter, r's np.asarray(order='C') (copies only if numpy does not call the array C-contiguous), strides after swapaxes, transpose, rollaxis, rot90 and np.newaxis (`LayModel.v`). The quotient of strides and the rounding are exact; a cast to uint32 out of range has no result | a layout in C order whose strides are at least the item size gives C34's Jacobian; swapped axes keep that; rot90 of a single row and added axes do not (refuted) |
| C61 | nanmax, nanmin, nan_to_num, amax, amin over numbers, two infinities and NaN (`NanModel.v`); strides are those of C34 | the extreme element among the others that are not NaN; the all-NaN slice is refuted |
| C62 | buffers of numbers, numpy arrays as references to buffers with a writeable flag, np.asarray (copies integers, and Fortran-ordered arrays when order='C' is asked for), basic objects, views that keep the order of elements, functions that fill a new buffer, the r property and its cache, clear_cache as dropping the caches of all dependents (C06), item assignment in place and through views, the user's own writes (`MemModel.v`); against a semantics in which everything is copied (`MemSpec.v`). Derivatives, garbage collection and partial views left out | simulation: without writes in place buffers only grow; with them, a buffer written to is cached only by dependents, which are cleared; shared arrays, earlier reads, arrays built from c.r and integer arrays refuted |
| C63 | dr_wrt with its cache (ch.py:737-743, 813-819) and the conversions after it (826-829) over the Jacobians in storage formats of C49 (`FmtModel.v`): flags per object, the number of parents per call, histories of calls with respect to one variable and of dropped cache entries. The operands are all asked before their products are formed (the order only matters for what is cached when a product raises); np.matrix is taken as a two-dimensional array; what sp.csc_matrix(None) gives is left open, as scipy's versions differ | invariant: every cached result and every returned result is C49's, for all histories, if make_sparse is only set where there is a dependence; formats are right on calls that do not find a cached result; second calls, None, operators and handles are refuted |
| C64 | which objects dr_wrt computes a derivative for, with its cache and the rule about the number of parents (`CostModel.v`; that it is the dr_wrt of `FmtModel.v` is proved), and which objects lop, is_dr_wrt and loop_children_do call themselves on; objects by their operands, one per dterm, so that an operand may occur twice. Successful calls only; reverse mode of dr_wrt left out; values are C05's | in dr_wrt an object with several parents is cached, one with a single parent is asked once per computation of that parent: at most once each, if no object has an operand twice; repeated squares (dr_wrt) and butterflies (lop, is_dr_wrt, loop_children_do) take 2^n steps (refuted for every n); trees are visited once |
| C65 | objects with their operands as a heap, concatenate with expand_concatenates, reshape with its loop, other operations as arbitrary functions of the operands' values, assignment of values and operands (`NestModel.v`); beside it the heap as the program was written, with nothing looked through (`NestSpec.v`). Caches, `_our_terms` and local Jacobians left out (C01, C28, C19) | invariant between the two heaps over all programs: same values and same dependence on everything that is no concatenation or reshape, if operands of those are not reassigned; otherwise refuted, as is dependence on a looked-through operand |
| C66 | one element of the elementwise operations and of their Jacobians in IEEE binary64 (`RoundModel.v`, Flocq's BinarySingleNaN, round to nearest even): the float operations in the order in which the code does them, safe_power and my_power's replacement of infinities; np.power is any function that returns the rounded real power or infinity. Exact results and error bounds over the reals in `RoundSpec.v`; the derivatives of log, arctan and arcsin are included (1/x, 1/(x*x+1), 1/sqrt(1-x*x)), but the values of these and all of sin, cos, exp, tan depend on libm and are left out, as are sums (order of additions) | Flocq's correctness theorems; relative error of composed roundings; witnesses for squares that overflow or underflow inside quotients, and for powers beyond the range that read as 0 |
| C67 | minimize's and setup_objective's handling of the objective: objects, lists, dicts, the stacked vector, the scalar function and gradient given to scipy, hess and hessp, the printed report (`MinModel.v`); objects as functions from the free variables to their elements, with given Jacobians (C19); memos and rounding left out (C42) | sums of squares of concatenations; derivative of a sum of squares; second derivative for constant Jacobians; refuted for one element and for curved residuals |
| C68 | the machine of C39 in exact arithmetic (`DogModel.v`, `DogExact.v`) with an objective whose residuals are affine (`LsqSpec.v`); any solver that solves the normal equations, so singular problems with lstsq are included where no radius is given | the model of the trial is exact, so every trial is accepted and the radius grows by 2.5; Gauss-Newton steps are bounded by the sum of squares if the Jacobian has full rank |
| C69 | changevars, scalar_jacfunc and the starting vector (`SlotModel.v`) over an environment of variables; the objective is any function of it, lop any function that gives a row or None; the check for duplicates in setup_objective; memos and comparisons left out (C42) | slices of the vector against cursor positions, by induction on the list; refuted for variables without influence and for duplicates |
| C70 | compute_r and compute_dr_wrt of Det and LogAbsDet for arrays of matrices, slogdet of several arguments (`DetsModel.v`) on top of `LinModel.v`: any leading axes, np.linalg.det per matrix, .T as the reversal of all axes (`ReorderModel.v`) and broadcasting (`ElemModel.v`); 0-dimensional arrays raise in np.concatenate | the one-matrix case is C32's; the number of rows is 1, refuted for two matrices; slogdet of two matrices raises |
| C71 | the machine of C39 (`DogModel.v`) in exact arithmetic (`DogExact.v`) on residuals F with Jacobian J, any functions of the parameters with the bounds stated in `SmoothSpec.v`; the solver solves the normal equations | decrease at least that of the Cauchy step, hence a lower bound for the radius and for the decrease per step with ratio above .05; a potential, sum of squares and logarithm of the radius, falls by 1 in each pass through the inner loop, which also bounds the number of passes; Rosenbrock's function meets the hypotheses |
| C72 | print_labeled_residuals, DrWrtProfiler.dump_tree and what serialize_node writes for it (`ReportModel.v`) over a graph of objects with labels, operands in the order of dterms, sums of squares; numbers are written as value and decimals, ids are the objects, time and memory left out (not written with verbose=False); the marks `visited` left on the objects are the state | paths in lexicographic order against the recursion; depth first search with marks describes what is reachable from unmarked objects, exactly once; refuted: shared parts, decimals, second profilers |
| C73 | updateGN with its branches and fallbacks and setup_sparse_solver (`GnModel.v`) in exact arithmetic; numpy's solve and lstsq, scipy's spsolve, cg and lsqr are functions of which only what `GnSpec.v` says is known (a solve raises or is not finite exactly where it has no unique solution, a least squares solver gives the shortest minimizer) | minimizers of the residual of J'J y = -J'r solve it, whatever the rank of J; instances for the hypotheses of C68 and C71; refuted: one parameter with a Jacobian of stored zeros, finite wrong answers, solvers that raise |
| C74 | callback of setup_objective in the runs of C39; changevars with its call of callback(None) and the callback handed to scipy (`CallModel.v`), over an environment of variables as in C69; the minimizer is any sequence of evaluations and announcements | runs of events; refuted: announcements after evaluations elsewhere, calls for rejected points and doubled calls for the methods taken to have no callback |
| C75 | `__getitem__` and Select over any indexing operation, a function of arrays of any element type of which only naturality is known (`MixModel.v`, `MixSpec.v`): moving elements does not depend on what they are; numpy's rules for several index arrays mixed with slices, numbers, new axes, dots and masks as an instance (`MixRules.v`: pairs, np.ix_, separated and adjacent index arrays, agreement with C36); not modelled: a single boolean as key | naturality applied to np.arange of the shape; Jacobian by the lemmas of C36; instance: positions lie inside the array; refuted: keys counted from the end after the array has grown |
| C76 | the stored array of a basic Ch with its element type (int64 or float64) and whether it is an array at all: construction by position and by name, assignment to x, `__setitem__` of basic objects (numpy's in-place assignment, which casts to the type of the array) and through views (`inner.x + t1 - t2` in binary64), the conversion in `r` (`StoreModel.v`); arrays as flat lists, keys as lists of positions, values not broadcast; complex, boolean and object arrays, shared arrays (C62) and shapes are not modelled | a machine that stores assigned doubles (`StoreSpec.v`) is simulated while the stored array is of floats; Flocq's correctness of addition and subtraction; refuted: integers stored by name or by assignment cut off fractions, assignment through views loses digits, keeps NaN and infinities, raises on lists, 2**53 + 1 |
| C77 | `LogicFunc` over extended numbers: the eight numpy functions, with axis (none or one) and keepdims for any and all, the answer as doubles of at least one axis; argmax, argmin, nanargmax, nanargmin, nonzero, flatnonzero, argwhere; indexing by a Ch (numpy converts it by `__array__` to an array of floats and refuses it unless it is empty); truth by `__len__` (C55) (`QuestModel.v`); tuples of axes, out and where are not modelled | the answers are compared with statements about the elements that go into a part (`QuestSpec.v`, `RedSpec.v`); indexing by nonzero's arrays is reduced to indexing by a mask (C75); constancy as in C53, with no element at zero for any, all, logical_not; refuted: comparisons as masks, answers as conditions |
| C78 | `Ch.T`, `Ch.transpose`, `Ch.reshape`, `Ch.ravel` with the forms of their arguments, `reshape`'s walk past Reshape objects, r and dr_wrt (forward mode) of chains of `transpose` and `Reshape` objects above one Ch (`MethModel.v`, on top of `ReorderModel.v`); order='F' is not modelled, the memo of Jacobians is C27's | one call: the new object has a value exactly if numpy's method answers, and that value (`MethSpec.v`, on multi-indices); chains by induction; the Jacobian of a chain is shown to be a permutation matrix and the derivative; refuted: separate axes, one axis given as a number (derivative), reshape(None) of a reshape, reshaping after an impossible reshape |
| C79 | The forms `ch.sum(x, axis=…, keyword=…)` and `x.sum(axis=…)` of sum, mean, max, min; axis None, a number or a tuple; keywords keepdims, dtype and names nobody knows; np.sum/mean/amax/amin over several axes (`SeveralModel.v`, on top of `RedModel.v`). Not modelled: the keywords out, initial and where, var and std (they raise NameError for other keywords than axis), binary64 rounding | For all shapes and tuples: the value gathers exactly the elements that agree on the axes that stay (specification by coordinates in `SeveralSpec.v`); Fubini: reducing in steps from the last axis to the first gives the value of reducing at once, and the product of the Jacobians of the steps is the derivative of the reduction over the tuple (max and min: where no other element equals the extreme one). Refuted: the derivative with a tuple raises (np.rollaxis, argmax), for every tuple; keepdims and misspelt keywords are stored as attributes and ignored by the functions; the methods raise for keepdims |
| C80 | Objects as identities with a value each in a store; what CPython makes of `==` (no `__eq__`: identity), `!=` (`__ne__`: an object, its truth from `__len__`), `<`, `__hash__`; list membership, index, count, remove; dictionaries as lists of slots compared by hash, identity, then `==`; sorting up to the first run (`count_run`, reversal), which is where chumpy's lists end (`OwnModel.v`, on top of `ProtoModel.v`). Not modelled: numpy arrays and numbers on the other side, merging of runs | For all states, lists and dictionaries: the container questions are answered by identity and do not depend on values. Refuted: objects with equal values are not ==; x != x holds whenever x has an element; sorted and list.sort reverse every list of comparable objects |
| C81 | Expressions over variables (Ch), numpy arrays, operators (`Ch.__add__`, `__radd__`, … with numpy giving way to them through `__array_priority__`), chumpy's functions (constants wrapped as in `__setattr__`), numpy's ufuncs (which take `__array__`), `ch.array`, `ch.asarray`; objects as trees read in an environment (`BlendModel.v`). numpy's functions are parameters, so the theorems hold for any. Not modelled: in-place operators with an array on the left, numpy's functions that call methods of their argument (np.sum and np.mean raise TypeError, np.reshape falls back to the array), caching (C01) | By induction over expressions: value right when built; afterwards the parts below a numpy function or ch.array keep the values they had (one theorem that says exactly which), so expressions without those follow and depend on exactly their variables. Refuted: np.f(x) and ch.array(x) do not follow; array / object raises |
| C82 | Sessions: lists of statements over Python names that are bound to C81's values, and the basic objects' values (`SessModel.v`). An expression is C81's with names in place of objects. Not modelled: assigning to what ch.array or a wrapped constant made, item assignment (C43), replacing terms of composite objects (C01), sessions that go on after an exception | The specification keeps a formula over cells for each name and substitutes; by induction over sessions the model's bindings are what running the formulas gives, at any values, so C81's theorem gives the reading. For sessions that apply numpy's functions to objects the same with the results put in as values when a name is bound |
