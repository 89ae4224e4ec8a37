{
 "C27": {
  "note": "Exact reals; one evaluation point per call. The shift/scale form needs n >= 1 and the scale vector built by build_QR."
 },
 "C28": {
  "note": "Exact reals. Completeness (every quadratic function), independence (coefficients determined by the function) and the count together say each monomial occurs exactly once."
 },
 "C33": {
  "note": "Exact reals, bounds finite or infinite."
 },
 "C34": {
  "note": "Exact reals. Radius and tolerance nonnegative where the theorem says so; descent and monotonicity need a symmetric matrix."
 },
 "C35": {
  "note": "Exact reals. The matrix handed in is assumed symmetric positive definite for the success theorem; the failure theorems hold for every matrix."
 },
 "C36": {
  "note": "Exact reals. Eigen- and singular value decompositions are arguments assumed exact; NaN/infinite entries are not modelled. The refutation uses an exact singular value decomposition of the zero matrix other than the one a particular library version may return."
 },
 "C44": {
  "note": "Exact reals; bounds finite or infinite."
 },
 "C45": {
  "note": "Exact reals; fuel-bounded trace with explicit exhaustion."
 },
 "C47": {
  "note": "Exact reals. The interpolation Hessian of the model mode is an argument (see C29); info.ai is left out since there are no inequality rows. In sqpdfo_main null_step is the constant 0, so the null-step clause concerns the procedure only."
 },
 "C51": {
  "note": "Exact reals; holds after every number of steps."
 },
 "C52": {
  "note": "Exact arithmetic; rounding may need more rounds."
 },
 "C11": {
  "note": "Any point type; the factorisation that is recomputed from the new set is not represented."
 },
 "C12": {
  "note": "Rational numbers; the norm of the slack-corrected constraints and the bound test are arguments; the bound test is also modelled concretely."
 },
 "C13": {
  "note": "Rational numbers; distances and Lagrange values are arguments. Thresholds >= 0 as in all calls."
 },
 "C14": {
  "note": "Rational numbers; distances, the descending sort and the answers of the point generator are arguments. Threshold for improvements positive, far threshold >= 0, set not empty."
 },
 "C15": {
  "note": ""
 },
 "C17": {
  "note": "Rational numbers; infinities are represented by values beyond 1e25 (they are clamped first); NaN is excluded by the earlier check."
 },
 "C01": {
  "note": "Exact rationals. Model quantities (gradients, multipliers, sub-solver steps, Lagrange values) are arbitrary answers, one record per pass; every theorem holds for all of them and for every first state with consistent data. C01_runs links a complete run with the loop heads used in the theorems."
 },
 "C02": {
  "note": "Exact rationals. Model quantities (gradients, multipliers, sub-solver steps, Lagrange values) are arbitrary answers, one record per pass; every theorem holds for all of them and for every first state with consistent data. "
 },
 "C03": {
  "note": "Exact rationals. Model quantities (gradients, multipliers, sub-solver steps, Lagrange values) are arbitrary answers, one record per pass; every theorem holds for all of them and for every first state with consistent data. k0 is the number of calls of the initial phase."
 },
 "C04": {
  "note": "Exact rationals. Model quantities (gradients, multipliers, sub-solver steps, Lagrange values) are arbitrary answers, one record per pass; every theorem holds for all of them and for every first state with consistent data. An exception also counts as an end."
 },
 "C05": {
  "note": "Exact rationals. Model quantities (gradients, multipliers, sub-solver steps, Lagrange values) are arbitrary answers, one record per pass; every theorem holds for all of them and for every first state with consistent data. The code of the main loop only; prelim's codes are not covered here."
 },
 "C06": {
  "note": "Exact rationals. Model quantities (gradients, multipliers, sub-solver steps, Lagrange values) are arbitrary answers, one record per pass; every theorem holds for all of them and for every first state with consistent data. "
 },
 "C07": {
  "note": "Exact rationals. Model quantities (gradients, multipliers, sub-solver steps, Lagrange values) are arbitrary answers, one record per pass; every theorem holds for all of them and for every first state with consistent data. "
 },
 "C08": {
  "note": "Exact rationals. Model quantities (gradients, multipliers, sub-solver steps, Lagrange values) are arbitrary answers, one record per pass; every theorem holds for all of them and for every first state with consistent data. "
 },
 "C09": {
  "note": "Exact rationals. Model quantities (gradients, multipliers, sub-solver steps, Lagrange values) are arbitrary answers, one record per pass; every theorem holds for all of them and for every first state with consistent data. "
 },
 "C10": {
  "note": "Exact rationals. Model quantities (gradients, multipliers, sub-solver steps, Lagrange values) are arbitrary answers, one record per pass; every theorem holds for all of them and for every first state with consistent data. "
 },
 "C16": {
  "note": "Exact rationals. Model quantities (gradients, multipliers, sub-solver steps, Lagrange values) are arbitrary answers, one record per pass; every theorem holds for all of them and for every first state with consistent data. The initial phase is treated with C25. A pass that evaluates a failing improvement point neither continues nor returns (C16_goes_on, C16_returns), so it raises; C16_reported_refuted is a run that does."
 },
 "C53": {
  "note": "Exact rationals. Model quantities (gradients, multipliers, sub-solver steps, Lagrange values) are arbitrary answers, one record per pass; every theorem holds for all of them and for every first state with consistent data. "
 },
 "C18": {
  "note": "Numbers are rationals, infinities and NaN; integers and floats are distinguished. Strings of enumerations are modelled with their case and blanks."
 },
 "C19": {
  "note": "Objects are cells of a heap with a flag instance/class; copy.copy is modelled on them."
 },
 "C20": {
  "note": "Arguments are modelled by what the checks look at."
 },
 "C21": {
  "note": "Bounds may be infinite or NaN."
 },
 "C22": {
  "note": "The computation after the argument checks is an arbitrary function of the arguments and of the stored slack data; the theorems hold for each such function."
 },
 "C23": {
  "note": "Exact rationals. lb and ub have at least as many entries as x0 (the driver builds them so)."
 },
 "C24": {
  "note": "Exact rationals; conversion to integer by truncation towards zero as numpy does."
 },
 "C25": {
  "note": "Exact rationals; geometry and model computations are arguments that may raise. The clause about non-termination is about exact arithmetic: in floating point the radius underflows after about 160 rounds."
 },
 "C26": {
  "note": "Array shapes and numpy broadcasting are modelled; the index error of X[:,m] on the empty one-dimensional X covers the 1+1 case."
 },
 "C54": {
  "note": "Exact reals (square roots of the slacks)."
 },
 "C29": {
  "note": "Regular case: exact triangular solves, exact generalised inverse of non-singular triangles, exact orthonormal-triangular factorisation without curing, poised set."
 },
 "C30": {
  "note": "Same regular case as C29."
 },
 "C31": {
  "note": "A value that is not finite is None; sums and products with it stay so."
 },
 "C32": {
  "note": "Singular triangles (LinAlgError of numpy.linalg.solve) are the excluded solver failures."
 },
 "C48": {
  "note": "The failure of the singular value decomposition on NaN input is part of the model."
 },
 "C37": {
  "note": "Cholesky, triangular solves and the eigen-decomposition are arguments; exactness is a hypothesis where needed. Rounding, NaN and complex-entry branches are not modelled. The three _refuted theorems are the negative clauses of the statement; the uphill witness is g = 1, H = -1e-16, radius 1e14."
 },
 "C38": {
  "note": "Model of bcdfo_solve_TR_MS_bc_ branch by branch; the calls of the unconstrained solver and of the homotopy linear algebra are arguments quantified over. C38_length_applies shows that the model of the unconstrained solver (C37) meets the hypothesis. Three refuted theorems cover the clauses that deny a behaviour: stale value at the limit, wrong gradient, step longer than the radius."
 },
 "C39": {
  "note": "Model of sqpdfo_solve_TR_bc_ with and without slacks, branch by branch; restoration solver, convexification, null space, conjugate gradients and multipliers are arguments quantified over. C39_bounds_apply and C39_radius_applies show that the models of the library's own solvers (C38, C34) meet the hypotheses. No fixed variables, no general inequalities (the library turns them into equalities before)."
 },
 "C55": {
  "note": "The ratio computation of the shortened step (lines 532-558), in isolation and in a whole run of the model (C55_run)."
 },
 "C56": {
  "note": "The model records the displacements made in each pass; C56_slacks_refuted is a run of three passes in which the slack reported is 14/5 although it was moved by 0 in total."
 },
 "C43": {
  "note": "blls.py modelled completely (verbose 0), the pseudo-inverse being an argument. Both refutations use an exact pseudo-inverse."
 },
 "C40": {
  "note": "sqpdfo_compute_multiplier.py modelled in full except the size checks; the solver is any function, blls is plugged in for C40_blls."
 },
 "C41": {
  "note": "Exact reals; eigenvalue answers only need to be sound (a reported negative eigenvalue must exist)."
 },
 "C42": {
  "note": "sqpdfo_optimality.py modelled in full except printing; measures = main-loop lines 248-260. Witness: minimise -x subject to x >= 0 at x = 0."
 },
 "C49": {
  "note": "Lagrange polynomials, solver and the two routines modelled over exact reals; the solver is a parameter with stated conditions, then instantiated with the modelled bcdfo_solve_TR_MS."
 },
 "C50": {
  "note": "The main-loop run is for one variable, with the improvement points tied to the modelled bcdfo_find_new_yj and bcdfo_solve_TR_MS."
 },
 "C46": {
  "note": "Numbers are exact, with infinities and NaN. nargout=2 of find_, arrays of different sizes in compare_array and three-argument forms are not modelled."
 },
 "C57": {
  "note": "Bounds and start point of matching shapes; exceptions of the unmodelled parts of the initial phase are arbitrary answers."
 },
 "C58": {
  "note": "If exactly one of the two bound arrays is one-dimensional, the outcome depends on the sign of the gradient and no claim is made."
 },
 "C60": {
  "note": "Recomputation is an input of the model of a pass (absent below verbosity 4). The set of one variable in the refuted statement uses the model of the library's own trust-region solver with exact linear algebra."
 },
 "C61": {
  "note": "Exact arithmetic. The set measured, the model coefficients and the tested gradient norm are tied to the pass through the hypotheses of C61_exit: poisedness and radius are those of the routine, and the component of the model Lagrangian gradient is at most the norm the pass tests; sqpdfo_optimality.py alters components of variables within 1e-5 of a bound, for which this is not the case in general."
 },
 "C62": {
  "note": "Exact reals; the arguments are one- and two-dimensional arrays of matching sizes. The linear solver is an argument assumed only to return solutions."
 },
 "C63": {
  "note": "As for C62. That the blocks are joined by numpy.bmat into a matrix object, whose later indexing differs from that of arrays, is not modelled."
 },
 "C64": {
  "note": "The solvers called are arguments; the decrease is proved for every number of passes from the state carried by the loop. Witness for the false part: three variables, one constraint, two passes."
 },
 "C65": {
  "note": "The witness for the false part is a run of two passes ending at a point that satisfies the first-order conditions with the multipliers returned."
 },
 "C69": {
  "note": "the file is assumed to be writable and options.fout to be an integer"
 },
 "C70": {
  "note": "Exact reals; bcdfo_solve_TR_MS_bc.py:174-417 for stratLam = 1 only. A zero denominator gives an infinite Newton value in numpy; the model then lets all further factorisations fail, because the shifted matrix has NaN entries."
 },
 "C71": {
  "note": "The singular value decomposition is an argument, assumed exact (orthonormal factors, singular values not negative)."
 },
 "C72": {
  "note": "The models of C34, C70, C40, C71 and of sqpdfo_check_convex_ put in the places of the sub-solvers of C39 and C64. Theorems ending in _refuted disprove the negated clauses. Exact linear algebra is a hypothesis, and so is the answer of bcdfo_solve_TR_MS_ (C37, C70_applies)."
 },
 "C73": {
  "note": "C73_adjust, C73_residual: the adjustment in the main loop. C73_step, C73_axes: the step of C72. C73_run, C73_exit: the main loop of C53, in which the adjustment is described by what C73_adjust proves (hypothesis adjusts) and the step's slacks are answers. C73_hard_refuted and C73_descent_refuted disprove the negated clauses with runs of the model in one variable and one slack."
 },
 "C74": {
  "note": "Exact arithmetic; the factorisation is assumed exact and not regularised (it exists for every dimension in mode 0, see C74_poised_ex). Solvers of the poisedness sub-problems are quantified over with explicit tolerances."
 },
 "C75": {
  "note": "main loop with any environment, and the complete call of C52; refuted without the bound on the constraint values"
 },
 "C76": {
  "note": "The positive statements hold for arbitrary answers of the linear solver; three readings are refuted by runs of the model."
 },
 "C77": {
  "note": "The rest of the initial phase may raise for other reasons as well; the theorems only need that it raises where the modelled test does. Shapes follow the documented numpy broadcasting rules."
 },
 "C78": {
  "note": "Lines are entries with unrounded numbers; dashes, titles, multipliers and bounds in the tables are not represented. C78_fout assumes that the exception of the heading is among those of the unmodelled rest of the initial phase (needs_output)."
 },
 "C79": {
  "note": "Exact arithmetic; factorisations, triangular solves and the unconstrained solver are arguments. The library itself calls the solver with stratLam = 1 (C70)."
 },
 "C80": {
  "note": "Exact arithmetic; slacks are arbitrary. Whether NumPy accepts an assignment between empty arrays of shapes (0,1) and (0,0) is an argument of the model."
 },
 "C81": {
  "note": "Exact rationals; the arrays of the collection have equal lengths."
 },
 "C82": {
  "note": "Exact reals; optimality is not claimed for problems 5, 6 and 7."
 },
 "C83": {
  "note": "The description is the set of relations of BLP_Spec.v; exact arithmetic; verbose 0."
 },
 "C86": {
  "note": "Exact reals. The converse direction of C42: first-order points pass the test, points passing the test need not be first-order points."
 },
 "C87": {
  "note": "Exact reals; the numerical library (svd, factorisations, eigenvalues) is an argument. The exactness of the singular value decomposition is required only for the matrix of the linearised constraints followed by rows of the identity."
 },
 "C88": {
  "note": "Uses the main-loop model of C01-C10 (Main_Model). The settings are those of sane: the set is sorted by numpy's argsort in descending order and pfinal <= pquad."
 },
 "C89": {
  "note": "Uses the main-loop model of C01-C10 (Main_Model). The settings are those of sane, and the objective tolerance is not negative. Passes in which the set is improved may change the radius first (C09) and are left out of the sequences."
 }
}