{"id": "C01", "title": "Exit code 0 is a certificate (with the relaxed tolerance)", "statement": "If an optimisation run ends with info.flag == 0 through the main loop, then the reported info.glagn, info.feasn and info.compl are, with one common factor t that is 1 or 100, at most t times options.tol_grad, options.tol_feas and options.tol_bnds; the poisedness of the set times its radius is at most 100 * 1e-5, and info.feasn bounds the magnitude of every reported constraint value (minus the squared slack). The un-relaxed reading (reported norms at most the tolerances the user asked for) is false: a run can return 0 with info.glagn larger than options.tol_grad. Conversely, with non-negative tolerances, a pass that starts within both limits and computes its gradients without an exception, with a Lagrangian gradient norm within tol_grad, all constraint residuals within tol_feas and poisedness times radius at most 1e-3, ends the run with code 0 and the same point.", "quantifier": "all options, all user functions, all answers of the linear-algebra and sub-problem solvers, all numbers of iterations", "why_tests_cant": "The exits depend on the values produced by arbitrary user functions over arbitrarily many iterations; a test only shows the exit it happened to take.", "anchors": ["sqpdfo/sqpdfo_main.py:sqpdfo_main_ (283-332, 608-632)", "sqpdfo/sqpdfo.py:sqpdfo_"]}
{"id": "C02", "title": "Iteration budget", "statement": "A run never reports more than options.miter + 1 iterations, and the value options.miter + 1 can really be reported (so 'at most miter iterations' is false).", "quantifier": "all options with miter > 0, all user functions and sub-solver answers", "why_tests_cant": "The four places that increase the counter combine differently in every run; the worst case needs an improvement step in the last admissible pass.", "anchors": ["sqpdfo/sqpdfo_main.py:sqpdfo_main_ (216-225, 316, 336, 620, 672)"]}
{"id": "C03", "title": "Evaluation budget", "statement": "Up to the return of the main loop the user functions are called at most max(k, msimul - 1 + p) times, where k is the number of calls of the initial phase and p the size of the interpolation set at the end; info.nsimul[1] always equals the number of calls actually made. The bound is attained, so 'at most options.msimul calls' is false.", "quantifier": "all options with msimul > 0, dimensions, user functions and sub-solver answers", "why_tests_cant": "Overrun happens only when the budget is hit inside an improvement step; the set of possible overruns is unbounded in the dimension.", "anchors": ["sqpdfo/sqpdfo_main.py:sqpdfo_main_ (227-237, 491-514, 774-777)", "sqpdfo/sqpdfo_augmX_evalf.py", "sqpdfo/sqpdfo_prelim.py (355-378)"]}
{"id": "C04", "title": "The main loop terminates", "statement": "Whatever the user functions and the sub-problem solvers answer, the main optimisation loop begins at most options.miter + 1 passes; the last of them returns or raises.", "quantifier": "all answer sequences, infinite ones included", "why_tests_cant": "Termination for every infinite behaviour cannot be sampled.", "anchors": ["sqpdfo/sqpdfo_main.py:sqpdfo_main_"]}
{"id": "C05", "title": "Exit codes", "statement": "Every code returned by the main loop is one of 0, 3, 5, 6, 15, 30; the code is 5 exactly when the iteration limit was reached and 6 exactly when the evaluation limit (and not the iteration limit) was reached, not the 4 and 5 of the documentation of sqpdfo; 30 comes only from a penalty parameter above 1e299 or an infinite merit value. The codes 4 ('stop required') and 8 ('non positive curvature / wrong step') of the code table are never produced. 15 comes only when the radius, the current criticality threshold or 1e-5 is below 1e-10 or below 10 * 2^-52 times the norm of the point.", "quantifier": "all runs", "why_tests_cant": "Needs every exit of a 1300-line loop to be enumerated.", "anchors": ["sqpdfo/sqpdfo_main.py", "sqpdfo/sqpdfo_values.py", "sqpdfo/sqpdfo.py (59-70)", "sqpdfo/sqpdfo_finish.py"]}
{"id": "C06", "title": "The returned point was evaluated, and fx belongs to it", "statement": "At every moment of the main loop the incumbent point is a point at which the user's objective was evaluated, and the incumbent value is min(1e25, f(x)) of exactly that point; the same holds for the point returned by sqpdfo. The value info.f handed to the caller can nevertheless differ from f of the returned point. In problems with constraints the reported info.ce is the constraint value recorded for the returned point, provided no constraint value of magnitude 1e25 or more occurs. After a pass that continues, info.f is one of three values: the value of the trial point when it was accepted at once; the memorised reference value after a rejection, also when the trial point still became the incumbent by a later replacement; the value of the trial point, which is not the incumbent, when no decrease was predicted.", "quantifier": "all runs of the main loop, from any consistent start", "why_tests_cant": "Bookkeeping across three parallel arrays and index indirection, over unboundedly many passes.", "anchors": ["sqpdfo/sqpdfo_main.py", "sqpdfo/sqpdfo_find_smallf.py", "sqpdfo/sqpdfo_swap_in_Y.py", "sqpdfo/sqpdfo_augmX_evalf.py", "sqpdfo/sqpdfo.py (342-345)"]}
{"id": "C07", "title": "Accepted steps decrease the memorised merit value", "statement": "A trial point is made the incumbent as a successful step only when its merit value is strictly smaller than the memorised merit value; the merit value compared against is not always that of the current incumbent: without constraints the incumbent value never increases in a pass that starts without a preceding rejection, but there is an unconstrained run in which, after a rejection, a successful step increases the objective value of the incumbent from 1 to 5. More precisely, in a pass that continues, the trial point becomes the incumbent only if a positive decrease was predicted, at least 1e-4 of it was achieved and the point was included in the interpolation set; conversely, if so much was achieved, the point becomes the incumbent or is not in the set. Without a preceding rejection, and without an improvement of the set in the pass, the memorised objective and constraint norm are those of info.f and info.ce at the start of the pass; after a rejection they are kept. The slacks change only when the trial point becomes the incumbent; they are then the trial slacks, adjusted to the constraint values of the new incumbent.", "quantifier": "all runs", "why_tests_cant": "The stale reference needs a rejected step followed by an improvement step that moves the incumbent.", "anchors": ["sqpdfo/sqpdfo_main.py:sqpdfo_main_ (648-658, 736-750, 870-931, 1045, 1085)"]}
{"id": "C08", "title": "Penalty parameter", "statement": "The penalty parameter starts at 1, never decreases, grows by a factor of at least 1.5 when it changes, and after each update a positive predicted constraint reduction r implies a predicted merit reduction of at least 0.3 * sigma * r. With r = 0 the parameter is unchanged; otherwise, with b = cost / (0.7 * r), it is unchanged if b <= sigma and else becomes the larger of b and 1.5 * sigma. The predicted merit reduction is -cost + sigma * r if this is positive and r is not negative, and is set to -1 in all other cases. If no pass of a run that goes on requires more than K (b <= K whenever r is not 0), the parameter never exceeds the larger of 1 and 1.5 * K, and after k changes it is at least 1.5^k, so that 1.5^k is at most the larger of 1 and 1.5 * K.", "quantifier": "all runs, all predicted costs and reductions", "why_tests_cant": "Inequalities over all reals; tests sample finitely many.", "anchors": ["sqpdfo/sqpdfo_main.py:sqpdfo_main_ (729-750, 870-889)"]}
{"id": "C09", "title": "Trust-region radius", "statement": "The radius is at least min(Delta0, 1e-10) > 0 in every pass; it never exceeds max(Delta0, 1e5) as long as the trust region was not active in a pass. With an active trust region a successful step doubles it without clamping, so the documented maximum radius 1e5 can be exceeded. With a non-negative tol_feas every pass that continues computes its step with a working radius: the radius at its start or, after an improvement of the set, the smaller of that radius and the criticality threshold or 1e-5, or the larger of the radius and the threshold. The new radius is then: the working radius if no decrease was predicted; for a point accepted at once 5 times the working radius (trust region active, ratio at least 0.9, working radius below 5), twice (active, ratio below 0.9), else the larger of twice the step length and the working radius, at most 1e5; the latter also for a point accepted by a later replacement; half the working radius if above 1e-5, else unchanged, for a point included but not accepted; and for a point not included a factor in [1/100, 1/2], the interpolation quotient clamped to that interval (with denominator 0: 1/100 for a negative numerator, else 1/2), times the smaller of working radius and step length, and never below 1e-10.", "quantifier": "all runs", "why_tests_cant": "Needs an inductive invariant over passes.", "anchors": ["sqpdfo/sqpdfo_main.py:sqpdfo_main_ (639, 838, 1033-1043, 1155-1158, 1266, 1436-1444)"]}
{"id": "C10", "title": "Interpolation set bookkeeping", "statement": "In every pass the interpolation set, its index vector and its stored function and constraint values describe the same evaluated points: column j of the set is the evaluated point with index ind_Y[j], the stored value of column j is the value recorded for that point, no index occurs twice, and the first column is the incumbent. For the constraint values this holds as long as no constraint value of magnitude 1e25 or more was returned. A pass that continues keeps the size of the set or adds one point, the latter only up to the final size (twice that size for regression models). It records at least one new evaluation, the last one being the trial point, and leaves the recorded points and objective values of earlier evaluations unchanged; the recorded constraint values are unchanged provided none of magnitude 1e25 or more occurs.", "quantifier": "all sequences of evaluation, augmentation, replacement, swap, inclusion and repair operations", "why_tests_cant": "Invariant over all operation sequences.", "anchors": ["sqpdfo/sqpdfo_main.py", "sqpdfo/sqpdfo_swap_in_Y.py", "sqpdfo/bcdfo_augment_Y.py", "sqpdfo/bcdfo_include_in_Y.py", "sqpdfo/bcdfo_replace_in_Y.py", "sqpdfo/bcdfo_repair_Y.py"]}
{"id": "C11", "title": "Swapping two interpolation points", "statement": "sqpdfo_swap_in_Y exchanges the two named points together with all data attached to them and touches nothing else; the new base point is the new first point (unchanged when the two positions are equal); doing it twice restores the data; it is symmetric in its two index arguments; a position outside the set raises an error.", "quantifier": "all set sizes and index pairs", "why_tests_cant": "All sizes and indices.", "anchors": ["sqpdfo/sqpdfo_swap_in_Y.py:sqpdfo_swap_in_Y_"]}
{"id": "C12", "title": "Moving to the best interpolation point", "statement": "sqpdfo_find_smallf only ever moves to a point that passes its bound test and has strictly smaller merit (with the penalty truncated to an integer) than the current base point, and then to a best one among the points that pass; if it does not move, the base point or the point in position 1 is a best one. It does not always find the best point: the point stored in position 1 is never chosen even when it is the unique best; with different bounds per variable a point inside the bounds can fail the bound test because every component is compared with every bound (a point that passes is inside the bounds); and because of the truncation the merit value with the actual penalty parameter can increase.", "quantifier": "all interpolation sets, values and bounds", "why_tests_cant": "The miss needs a particular position of the minimiser or non-uniform bounds.", "anchors": ["sqpdfo/sqpdfo_find_smallf.py:sqpdfo_find_smallf_ (86-131)"]}
{"id": "C13", "title": "Choice of the outgoing interpolation point", "statement": "bcdfo_include_in_Y replaces at most one point; it is one of the candidates offered, its Lagrange value at the new point exceeds the threshold in absolute value, and it maximises the requested criterion among such candidates; when no candidate qualifies with a positive criterion value nothing changes and -1 is returned.", "quantifier": "all candidate sets, Lagrange values, thresholds >= 0 and criteria", "why_tests_cant": "All sizes and value patterns incl. ties.", "anchors": ["sqpdfo/bcdfo_include_in_Y.py:bcdfo_include_in_Y_"]}
{"id": "C14", "title": "Repairing the interpolation set", "statement": "bcdfo_repair_Y never replaces the base point, reports each replaced position exactly once, leaves all other points untouched and replaces all far points; the new points are answers of the point generator; if the reported improvement is below the threshold then a full round of proposals contained none worth taking; and the returned radius equals the largest distance of a point to the base point as long as the point generator always has a proposal. Without a proposal (non-finite Lagrange coefficients) a zero vector is inserted and the returned radius can be wrong.", "quantifier": "all sets, radii, oracle answers", "why_tests_cant": "Loop over arbitrarily many points and rounds.", "anchors": ["sqpdfo/bcdfo_repair_Y.py:bcdfo_repair_Y_"]}
{"id": "C15", "title": "Size of the interpolation set", "statement": "Adding points to the set keeps the reported size equal to the number of points, and in the sub-basis and minimum-norm model modes the size never exceeds (n+1)(n+2)/2 when points are added one at a time. Adding several points at once, or regression mode, can exceed it.", "quantifier": "all dimensions, modes and sequences of additions", "why_tests_cant": "All sequences.", "anchors": ["sqpdfo/bcdfo_augment_Y.py:bcdfo_augment_Y_", "sqpdfo/sqpdfo_main.py (935-941, 1094-1099)"]}
{"id": "C16", "title": "Failing user functions", "statement": "An exception, NaN or infinity from the objective, or an exception or NaN from the constraints, is reported as exit code 3 when it happens at the initial points or at a trial point, and the failing point is never made the incumbent. During an improvement of the interpolation set the same failure is not reported: the run ends with an IndexError instead of code 3.", "quantifier": "all user functions and failure times", "why_tests_cant": "The failure time is arbitrary.", "anchors": ["sqpdfo/sqpdfo_func.py", "sqpdfo/sqpdfo_evalfgh.py", "sqpdfo/sqpdfo_augmX_evalf.py (101-167)", "sqpdfo/sqpdfo_main.py (508-514, 779-783)"]}
{"id": "C17", "title": "Infinite constraint values", "statement": "Constraint values of magnitude above 1e25 are clamped and then overwritten. Values of magnitude below 1e25 are never changed. If these are below 1e24 in magnitude then values of at least 1e25 become ten times the largest of them, and values of at most -1e25 become ten times the smallest among them and the replacements just made, hence possibly a hundred times a recorded value. If they are below 1e23 then no recorded value has magnitude >= 1e25 afterwards. A ValueError is raised exactly when something is recorded and every recorded value has magnitude >= 1e25. The replacement can be 0, of the wrong sign, or again of magnitude >= 1e25, so a point with infinite constraint violation can be recorded as exactly feasible.", "quantifier": "all recorded constraint values", "why_tests_cant": "Needs the relation between all recorded values.", "anchors": ["sqpdfo/sqpdfo_augmX_evalf.py (137-139)", "sqpdfo/sqpdfo_prelim.py (380-383)", "sqpdfo/sqpdfo_main.py (789-792)"]}
{"id": "C18", "title": "Validation of options", "statement": "Options that pass validation have dxmin, inf, miter, msimul and tol_* positive, verbose in [0,6], fout >= 0 (a NaN passes each of these checks) and enumerated values for algo_descent, hess_approx, whichmodel, final_degree. For options of ordinary types, validation either passes or sets exit code 1, and it sets exit code 1 exactly when the given values cannot be read that way. Values given and accepted are kept, except for tol_* == 0 (becomes 1e-5), out-of-range verbose/fout (become 1) and enumerations (case and blanks ignored). The fields are dealt with in a fixed order; when validation stops, the earlier fields have been dealt with and the later ones are untouched. An exception is raised only for fout = -inf, for an out-of-range verbose that is infinite or cannot be reported because fout is not an integer, for an enumeration given as an integer, and for an unknown word or a non-positive dxmin that is to be reported while fout is not an integer.", "quantifier": "all combinations of present/absent option fields and values", "why_tests_cant": "Combinatorial explosion of option fields.", "anchors": ["sqpdfo/sqpdfo_options.py:sqpdfo_options_"]}
{"id": "C19", "title": "Validation of options: repetition and side effects", "statement": "Defaults are filled in for exactly the missing fields, and validating the numeric part of validated options again changes nothing. An options object that is an instance is left untouched by a call. Two expectations are false: validating validated options again raises an exception (enumerations have become integers), and an options object that is a class is overwritten by the call, so the next call with it raises. A validation that fails with exit code 1 also leaves the assignments made up to then in the class.", "quantifier": "all option records", "why_tests_cant": "All records.", "anchors": ["sqpdfo/sqpdfo_options.py:sqpdfo_options_", "sqpdfo/sqpdfo.py (121-128)"]}
{"id": "C20", "title": "Argument checking", "statement": "A missing objective, a missing start point, or constraints announced without a constraint function give exit code 1 and empty results without any evaluation of user functions and without changing the stored slack data. An objective or constraint object that is given but is not a plain function terminates the process, unless an earlier check already refused the call. In all other cases the main computation is entered with exactly the given functions.", "quantifier": "all argument combinations", "why_tests_cant": "All combinations.", "anchors": ["sqpdfo/sqpdfo.py:sqpdfo_ (76-119)", "sqpdfo/sqpdfo_global_variables.py:set_filename_f,set_filename_cons"]}
{"id": "C21", "title": "Counting slack variables", "statement": "With mi > 0 inequality constraints, the number of slack variables is mi plus the number of rows (equality rows included) whose lower bound is below the upper one, above -1e7, and whose upper bound is below 1e7; if one of the two arrays is not given there is no additional slack, and arrays that are too short raise an exception.", "quantifier": "all li, ui, me, mi", "why_tests_cant": "All vectors of bounds.", "anchors": ["sqpdfo/sqpdfo.py:sqpdfo_ (130-148)", "sqpdfo/sqpdfo_global_variables.py"]}
{"id": "C22", "title": "Independence of successive calls", "statement": "The result of a call does not depend on earlier calls if the call has inequality constraints or no earlier call in the process had any. Otherwise it does: the slack count of the last call with inequalities is still in force. With more leftover slacks than constraints the later call raises an exception, so solving a problem with one inequality and then an unconstrained one fails although the latter alone succeeds.", "quantifier": "all histories of calls", "why_tests_cant": "Ranges over all histories.", "anchors": ["sqpdfo/sqpdfo_global_variables.py", "sqpdfo/sqpdfo.py (132-148)", "sqpdfo/sqpdfo_main.py (151-162)", "sqpdfo/sqpdfo_prelim.py (68-69, 489-499)"]}
{"id": "C23", "title": "Initial points respect the bounds", "statement": "With a floating-point start point, every call of the user functions in the initial phase is at a point within all bounds, whatever the user functions answer. The start point is moved so that it and its copies lowered by the radius lie within the bounds of every variable that is not fixed; the initial radius never grows and stays positive. A lower bound above its upper bound gives exit code 2 without any call; so does fixing all variables.", "quantifier": "all dimensions, bounds and start points", "why_tests_cant": "All dimensions and bounds.", "anchors": ["sqpdfo/sqpdfo_prelim.py:sqpdfo_prelim_ (176-211, 304-320)"]}
{"id": "C24", "title": "Integer start points", "statement": "With an integer-typed start array the moved start point is truncated towards zero, so the first point evaluated, or another point of the initial simplex, can violate its bounds. With integer bounds that coincide or are at least 2 apart the type of the start array makes no difference.", "quantifier": "integer start arrays", "why_tests_cant": "Depends on the interaction of dtype truncation and bound width.", "anchors": ["sqpdfo/sqpdfo_prelim.py (205-211)", "sqpdfo/sqpdfo.py (107-111)"]}
{"id": "C25", "title": "Initial phase", "statement": "The initial phase evaluates the user functions exactly at x0 and x0 - Delta*e_j, j = 1..n, in that order, until the first failure (exit code 3) or the first value below -1e25; only in the latter case it starts again with a 100 times smaller radius or gives up. With start point 0 it never gives up, and in exact arithmetic goes on for ever if all values are below -1e25. With a non-zero start it ends. Giving up sets no exit code: the calling routine raises a TypeError. If the phase succeeds, the recorded data are consistent: every recorded point was evaluated and carries its (capped) value, and the radius is positive.", "quantifier": "all objectives and start points", "why_tests_cant": "Non-termination cannot be tested.", "anchors": ["sqpdfo/sqpdfo_prelim.py (268-417)"]}
{"id": "C26", "title": "Fixed variables", "statement": "If at least one variable is fixed (lb == ub), at least one is not, and no bounds are crossed, then the initial phase raises an exception before the user functions are called at all: problems with fixed variables cannot be solved although they are accepted. With at least three variables already the shapes of the arrays to be combined do not match.", "quantifier": "all dimensions and numbers of fixed variables", "why_tests_cant": "All shapes.", "anchors": ["sqpdfo/sqpdfo_augmX_evalf.py (82-84)", "sqpdfo/sqpdfo.py (330-337)"]}
{"id": "C27", "title": "Model polynomials are exact second-order expansions", "statement": "For every coefficient vector the evaluation, gradient and Hessian routines agree: m(x+h) = m(x) + grad(x).h + 1/2 h.H.h exactly, for every dimension, every model size (linear, diagonal, partial or fully quadratic) and also with shifting and scaling.", "quantifier": "all dimensions, sizes, coefficients, points and displacements", "why_tests_cant": "All dimensions and coefficients; three hand-written index enumerations must agree.", "anchors": ["sqpdfo/bcdfo_evalZ.py", "sqpdfo/bcdfo_evalP.py", "sqpdfo/bcdfo_gradP.py", "sqpdfo/bcdfo_hessP.py"]}
{"id": "C28", "title": "The model Hessian is symmetric and the basis complete", "statement": "The Hessian returned for any coefficient vector is symmetric; the basis consists of exactly the (n+1)(n+2)/2 monomials of degree at most two, each once, and every quadratic function is representable.", "quantifier": "all dimensions", "why_tests_cant": "All dimensions.", "anchors": ["sqpdfo/bcdfo_hessP.py", "sqpdfo/bcdfo_evalZ.py"]}
{"id": "C29", "title": "Interpolation", "statement": "With exact linear algebra and a poised set the computed model takes the given values at all interpolation points (all modes, as long as there are not more points than a quadratic has coefficients) and depends linearly on the values. With at least as many points as coefficients it reproduces every function of the model space; with fewer points that is false, but then its coefficient vector is the shortest of all interpolating ones. In regression mode with more points than coefficients the sum of squared residuals is minimal.", "quantifier": "all sizes, sets and values", "why_tests_cant": "All sizes and values.", "anchors": ["sqpdfo/bcdfo_computeP.py:bcdfo_computeP_"]}
{"id": "C30", "title": "Lagrange polynomials", "statement": "With exact linear algebra and a poised set L_j(y_i) is 1 for i = j and 0 otherwise, the model value at any point is the sum of the given values times the Lagrange values, and (except in mode 1) the routine evaluating Lagrange values agrees with the routine computing their coefficients and returns 0 for indices not asked for. The Lagrange values at any point sum to 1 if there are at least as many points as coefficients or if shifting is on; for an underdetermined set without shifting this is false.", "quantifier": "all sizes, sets and points", "why_tests_cant": "All sizes.", "anchors": ["sqpdfo/bcdfo_computeLj.py", "sqpdfo/bcdfo_evalL.py"]}
{"id": "C31", "title": "Lagrange values in minimum-Frobenius-norm mode", "statement": "In mode 1 (minimum Frobenius norm) the routine evaluating Lagrange values never returns a usable number: with a set of n+1 or (n+1)(n+2)/2 points it divides element-wise by the transposed triangle instead of solving with it, so that every requested value at every point is infinite or NaN; with any other number of points it raises. For a factor without zero entries, which a triangle of order two or more is not, the requested value of index j is the sum over i of Q(j,i) / R(i,j) times the i-th monomial at the (shifted and scaled, if shifting is on) point. A mode other than 0, 1, 2, 3 is not refused: all values returned are then zero.", "quantifier": "mode frobnorm, whichmodel = 1", "why_tests_cant": "Needs the defining identity, not sample values.", "anchors": ["sqpdfo/bcdfo_evalL.py (66-72)"]}
{"id": "C32", "title": "Which model modes can be used", "statement": "If the linear solves succeed, computing model coefficients or Lagrange coefficients raises exactly in mode 1 with a number of points that is neither n+1 nor (n+1)(n+2)/2; in the modes 0, 2 and 3 it never raises.", "quantifier": "all modes, dimensions and sizes", "why_tests_cant": "All sizes.", "anchors": ["sqpdfo/bcdfo_computeP.py (85-110)", "sqpdfo/bcdfo_computeLj.py (66-90)"]}
{"id": "C33", "title": "Projected gradient", "statement": "For a point within its bounds the projected gradient equals x - P(x - g) with P the projection on the bounds, so its norm is zero exactly when x satisfies the first-order condition for bound constraints; for a point outside its bounds this fails.", "quantifier": "all dimensions, points, gradients, bounds", "why_tests_cant": "All values.", "anchors": ["sqpdfo/bcdfo_projgrad.py:bcdfo_projgrad_"]}
{"id": "C34", "title": "Truncated conjugate gradients", "statement": "The step returned by the truncated CG solver never leaves the trust region; 'solved' implies the residual norm is at most the tolerance; 'boundary' and 'negative curvature' imply the step lies on the boundary; for symmetric matrices the quadratic cost never increases from one iterate to the next and is never above that of the zero step, the iterates never get shorter, and the product of the step with the right-hand side is never negative; unless the tolerance already holds at the zero step, one permitted iteration is enough for the cost to be at most that of every step along the right-hand side within the radius, so that it falls by at least half the norm of the right-hand side b times the smaller of the radius and that norm divided by any positive bound beta with b'Ab <= beta b'b; the reported residual in the boundary cases is not that of the returned step.", "quantifier": "all symmetric matrices, right-hand sides, radii, iteration limits", "why_tests_cant": "All matrices, sizes.", "anchors": ["sqpdfo/sqpdfo_truncated_cg.py:sqpdfo_truncated_cg_"]}
{"id": "C35", "title": "BFGS update", "statement": "From a symmetric positive definite matrix the damped BFGS update returns a symmetric positive definite matrix which satisfies the secant equation for the corrected gradient difference; failures leave the matrix unchanged; the 'non-positive curvature after correction' failure cannot occur. In detail: if y's reaches a fifth of s'Hs, the factor pc reported is 1 and yh = y; otherwise 0 < pc < 1, yh = pc*y + (1-pc)*Hs and yh's is exactly a fifth of s'Hs. With B = H, or B = (yh'yh/yh's)*I at the first update, the new matrix is B - (Bs)(Bs)'/(s'Bs) + yh*yh'/(yh's), entry by entry; so its curvature along any v exceeds that of B by at most |yh|^2 |v|^2 / (yh's) and falls below it by at most (s'Bv)^2/(s'Bs), and on directions orthogonal to Bs and to yh it acts like B.", "quantifier": "all dimensions, SPD matrices, steps, gradient differences", "why_tests_cant": "All real data.", "anchors": ["sqpdfo/sqpdfo_bfgs_update.py:sqpdfo_bfgs_update_"]}
{"id": "C36", "title": "Convexification", "statement": "Given an exact orthogonal eigendecomposition, the convexified matrix is positive definite whenever some eigenvalue is negative, is unchanged otherwise, and in every case is positive semidefinite; eigenvectors are kept and only eigenvalues below 1e-10 are replaced. The conditioning repair is applied exactly if the largest singular value divided by the smallest exceeds the threshold or the smallest is 0; it leaves a well-conditioned matrix alone and moves a symmetric one by at most 1e-7 as a bilinear form; that it always returns a regular matrix is false, because the symmetrisation can undo it.", "quantifier": "all symmetric matrices and all their exact eigen- and singular value decompositions", "why_tests_cant": "All matrices.", "anchors": ["sqpdfo/sqpdfo_check_convex.py", "sqpdfo/sqpdfo_check_cond.py"]}
{"id": "C37", "title": "More-Sorensen trust-region solver", "statement": "With exact linear algebra and a symmetric Hessian, a regular exit returns a step s and a multiplier lambda >= 0 with (H + lambda I)s = -g and H + lambda I positive definite; the reported norm, model value and gradient are those of s; the norm is at most (1+eps) times the radius, and lambda <= 1e-12 or the norm is at least (1-eps) times the radius. No step that is at most as long has a smaller model value, and the loss against the best step of the ball is at most max(Delta^2 * 1e-12 / 2, lambda * eps * Delta^2). A Newton step inside the ball is returned after one factorisation. No exception is raised, the interval searched for the multiplier always contains the optimal one; a pass moves one end of it to the multiplier tried, and the next multiplier is the midpoint if the shifted matrix is not positive definite, otherwise Newton's value for 1/|s| = 1/Delta if that lies well inside the interval, and else the larger of the geometric mean of the ends and a point just above the lower end; Newton's value never exceeds the optimal multiplier. Whatever the linear algebra answers there are at most 300 factorisations and one eigen-decomposition. The pseudo hard case is entered only after 300 factorisations or when the interval is shorter than 1e-13 times max(1, upper end); there the computed step has exactly the length of the radius, and in a true hard case it is a best step of the ball; it is replaced by zero if its model value is at most 1e-15 in magnitude, without correcting the reported norm. The pseudo hard case can also be entered outside a hard case, and then the step returned can increase the model. For a gradient with squared norm below 1e-12 the zero step is returned even if the model has negative curvature. The message says zero radius if the radius is 0, otherwise zero gradient if the squared norm of the gradient is below 1e-12, otherwise interior or boundary according as the reported norm is below (1-eps) times the radius or not.", "quantifier": "all matrices, gradients, radii, factorisation answers", "why_tests_cant": "All real data, all loop behaviours.", "anchors": ["sqpdfo/bcdfo_solve_TR_MS.py:bcdfo_solve_TR_MS_"]}
{"id": "C38", "title": "Bound-constrained trust-region solver", "statement": "Whatever the linear algebra answers, if the zero step is within the step bounds: the step returned lies within the bounds exactly; there are at most n outer passes, n*n calls of the unconstrained solver and 100*n trial steps; the solver ends normally unless the linear algebra raises; a variable at a bound towards which the model decreases does not move; the reported length is that of the step; and the reported model value is that of the step except at the 100-iteration limit, where the step is reset to zero but the old value is reported. If the unconstrained solver keeps to (1+eps) times its radius, the step of an interior exit is at most (1+eps) times the radius and that of every other exit at most the radius plus 1e-5 - except for the exit 'step too long', which returns the step although it exceeds the radius; the exits alone put no limit on the excess, whatever the search for the multiplier answers (see C70 for the search of the library). The gradient reported at an interior exit is not the gradient of the model at the step.", "quantifier": "all dimensions, bounds, oracle answers", "why_tests_cant": "All executions.", "anchors": ["sqpdfo/bcdfo_solve_TR_MS_bc.py:bcdfo_solve_TR_MS_bc_"]}
{"id": "C39", "title": "Constrained trust-region step", "statement": "Whatever the linear solvers answer, the active-set loop of the constrained trust-region step ends after at most 10*n + (n + slacks - constraints) passes, with an exception only if a solver raises. From variables and slacks within their bounds, with a violation threshold of at least 1e-15 and a restoration solver that keeps its bounds (which the library's does), every exit returns a point that violates no bound by more than the larger of the violation threshold and 1e-7; without constraints the bounds hold exactly and active_r is True exactly if the step is at least as long as the radius. If the solvers keep to their radius, the point is at most twice the radius away and the radius returned lies between zero and the one given; the point can be further away than the radius.", "quantifier": "all dimensions, bounds, solver answers", "why_tests_cant": "All executions.", "anchors": ["sqpdfo/sqpdfo_solve_TR_bc.py:sqpdfo_solve_TR_bc_"]}
{"id": "C40", "title": "Signs of the bound multipliers", "statement": "Given a bounded least-squares solver that respects its bounds, the multipliers of the bounds obey the sign rules: not negative for a variable without lower bound or at an active upper bound (within options.dxmin), not positive for a variable without upper bound or at an active lower bound, hence zero for a variable without bounds. As called by the main loop a multiplier is negative only within 1e-5 of the lower bound and positive only within 1e-5 of the upper bound. The library's own solver meets the hypothesis, unless it ignores a tiny component of a direction.", "quantifier": "all dimensions, activity patterns", "why_tests_cant": "All patterns.", "anchors": ["sqpdfo/sqpdfo_compute_multiplier.py:sqpdfo_compute_multiplier_"]}
{"id": "C41", "title": "Least-squares multipliers", "statement": "Without bounds the computed multipliers minimise the norm of the gradient of the Lagrangian (with respect to variables and slacks), as documented, and the bound multipliers are zero. With bounds they do so among the multipliers obeying the sign rules whenever the least-squares multipliers without sign rules obey them. Otherwise they need not: the code minimises A(A^T lm + g) under the sign rules, which has another solution.", "quantifier": "all gradients and Jacobians", "why_tests_cant": "All real data.", "anchors": ["sqpdfo/sqpdfo_compute_multiplier.py (15-19, 100-174)"]}
{"id": "C42", "title": "What the optimality test checks", "statement": "The complementarity measure is 0 for every input; the feasibility measure is the value of the constraints less the squared slacks; the gradient measure is the gradient of the Lagrangian for multipliers that are negative only within 1e-5 of a lower bound and positive only within 1e-5 of an upper bound. Away from bounds a zero gradient measure implies that the multiplier of an inequality with non-zero slack is zero. But measures that are all zero do not imply the first-order conditions: the sign of an inequality's multiplier is never looked at.", "quantifier": "all inputs", "why_tests_cant": "All inputs.", "anchors": ["sqpdfo/sqpdfo_optimality.py:sqpdfo_optimality_"]}
{"id": "C43", "title": "Bounded least squares", "statement": "Whenever the bounded least-squares solver answers (it fails only if the pseudo-inverse does), the residual norm is that of the point returned, the code is 0, 1 or -1 and at most 2n iterations are made; all points visited respect the bounds unless a search direction has a non-zero component below 1e-14. Code 0 means: stationary to 1e-10, or residual at most 1e-11, or all variables at bounds; a stationary point is a solution, and a nearly stationary one nearly so. An unconstrained solution inside the bounds is returned at once. But code 0 does not mean that the problem is solved (a vertex is accepted without checking the signs of the derivatives), and the residual can grow along the way because the acceptance test has the wrong sign.", "quantifier": "all matrices, bounds", "why_tests_cant": "All executions.", "anchors": ["sqpdfo/blls.py:blls_"]}
{"id": "C44", "title": "One-dimensional quadratic minimiser", "statement": "The one-dimensional helper returns a minimiser of a*t^2/2+b*t over [lo,hi] whenever lo <= 0 <= hi, and reports unboundedness exactly when the quadratic is unbounded below on the interval.", "quantifier": "all real coefficients, finite or infinite interval ends", "why_tests_cant": "All reals.", "anchors": ["sqpdfo/minq.py:_quadMin"]}
{"id": "C45", "title": "Cyclic coordinate search", "statement": "The cyclic search visits the first variable only once: after the first sweep variable 0 is never tried again, and in dimension one the search leaves the index range.", "quantifier": "all dimensions and sweep counts", "why_tests_cant": "All sweep counts.", "anchors": ["sqpdfo/minq.py:coordinateSearch (402-416)"]}
{"id": "C46", "title": "Helper functions: max/min, positions, set difference, concatenation, comparison", "statement": "max_/min_ with two arrays of one length, or an array and a number in either order, return entry by entry the larger/smaller of the two and NaN only if both are NaN; an empty first argument gives an empty array, other lengths raise. With one non-empty array they return the largest/smallest entry that is not NaN, and with nargout=2 also its first position (an exception if all entries are NaN); for an empty array value and position are empty. find_ returns the increasing positions of the true entries, or the first n of them, and raises if there are some but fewer than n. setdiff_ returns, increasing and without repetition, the values of the first argument that are not in the second. concatenate_ of a list stacks exactly the non-empty blocks in order, succeeds exactly if these have equal widths (heights), and gives an empty array if there is none; of a tuple with an empty block it raises. compare_array accepts two arrays of equal size exactly if each pair is infinite with equal sign, or finite, closer than abs_tol, and has a member of magnitude at most abs_tol or differs by less than rel_tol times the first member's magnitude (shifted by the smallest normal number). It is false that compare_array is symmetric.", "quantifier": "all arrays", "why_tests_cant": "All arrays including NaN and infinities.", "anchors": ["sqpdfo/runtime.py:max_,min_,concatenate_,compare_array"]}
{"id": "C47", "title": "Hessian update selection", "statement": "The Hessian approximation is left unchanged on null steps; an unknown mode gives exit code 1 and leaves it unchanged; a failing BFGS update never leaves a non-symmetric or non-positive-definite matrix behind when it started from a valid one, and replaces an invalid one by a valid one; the secant equation is met for the damped change of the gradient of the Lagrangian with common multipliers. In model mode the result is the Hessian of the model of the Lagrangian values (of the objective without constraints), and it is the exact second derivative of the Lagrangian if objective and constraints are quadratic and the points determine a quadratic. A positive restart period, or an options object without one, makes every BFGS update crash.", "quantifier": "all modes and outcomes", "why_tests_cant": "All combinations and all real data.", "anchors": ["sqpdfo/sqpdfo_computeHessian.py:sqpdfo_computeHessian_"]}
{"id": "C48", "title": "Shifting, scaling and the factorised system of the minimum-Frobenius-norm mode", "statement": "Building the factorisation fails before any linear algebra exactly if shifting is on and there are several points which all coincide. Otherwise shifting maps the base point to the origin and all points into the unit ball with one on its boundary, and multiplying the coefficients by the returned scale vector gives the same polynomial in the unscaled displacement from the base point. In mode 1 (minimum Frobenius norm) with fewer than (n+1)(n+2)/2 points, but not n+1, and an exact factorisation without curing, every solution z of the factorised system whose right-hand side consists of the values at the points and n+1 zeros yields a quadratic that has these values, has the last n+1 entries of z as coefficients of order at most one, and has the smallest sum of squared second-order coefficients among all quadratics with these values (in the shifted and scaled variables if shifting is on).", "quantifier": "all sets", "why_tests_cant": "All sets.", "anchors": ["sqpdfo/bcdfo_build_QR_of_Y.py:bcdfo_build_QR_of_Y_"]}
{"id": "C49", "title": "New interpolation points and poisedness", "statement": "For a poised set with at most as many points as a quadratic has coefficients, and exact linear algebra: bcdfo_find_new_yj leaves position 0 alone; for every other position the new point is within (1+eps) times the radius of the first point (radius times sqrt(n) for solver 2) if the trust-region solver's steps are within (1+eps) times theirs; the improvement reported is the magnitude of the Lagrange polynomial at the new point up to the error of the solver's value; and if the solver is optimal up to e, no point of the ball has a larger magnitude up to e plus that error. bcdfo_poisedness_Y returns the distance of the farthest point and the largest improvement, so its poisedness bounds every Lagrange polynomial but the first on that ball; with hardcons = 1 it raises NameError for every set of two or more points. bcdfo_solve_TR_MS with exact linear algebra meets the radius condition, reports values correct up to 1e-15 and always answers.", "quantifier": "all sets and solver answers", "why_tests_cant": "All sets.", "anchors": ["sqpdfo/bcdfo_find_new_yj.py", "sqpdfo/bcdfo_poisedness_Y.py"]}
{"id": "C50", "title": "Improvement points leave the bounds", "statement": "Points generated to improve the interpolation set are not kept within the bounds: a bound that the current iterate obeys can be exceeded, by at most (1+eps) times the radius, and the user's functions are then called there. It is false that a pass starting from points inside the bounds, with a trial point inside the bounds, calls the user's functions inside the bounds only: for f(x) = x on [0,1] with points 0 and 1 the final improvement step evaluates f at -1e-5 and the run ends with exit code 0.", "quantifier": "all runs", "why_tests_cant": "Exists a run; tests on benign problems do not show it.", "anchors": ["sqpdfo/sqpdfo_main.py (420-422, 470-473, 508)", "sqpdfo/bcdfo_find_new_yj.py", "sqpdfo/sqpdfo.py (244)"]}
{"id": "C51", "title": "Coordinate search of the quadratic sub-solver", "statement": "The coordinate search never leaves the bounds, keeps its gradient equal to that of the quadratic, and never increases the quadratic, whatever the matrix, however long it runs and however it ends.", "quantifier": "all symmetric matrices, bounds (finite or infinite), feasible starts and numbers of steps", "why_tests_cant": "Holds for every sequence of bound activations.", "anchors": ["sqpdfo/minq.py:coordinateSearch (398-464)", "sqpdfo/minq.py:_quadMin"]}
{"id": "C52", "title": "The truncated CG solver needs at most n rounds", "statement": "For a symmetric matrix of order n the solver never stops because of the iteration limit when that limit is at least n, whatever the tolerance (zero included); the reported iteration count is at most n + 1, and at most the limit unless the system was solved.", "quantifier": "all symmetric matrices, right-hand sides, radii and tolerances (exact arithmetic)", "why_tests_cant": "Needs conjugacy of all directions, for every matrix.", "anchors": ["sqpdfo/sqpdfo_truncated_cg.py:sqpdfo_truncated_cg_"]}
{"id": "C53", "title": "Constraint values that are all exactly zero", "statement": "As long as every constraint value returned so far is exactly zero, no trial point is ever put into the interpolation set: a pass either leaves the set without the trial point or ends the run with an exception. A run with a constraint that is identically zero and a good trial point does end with an exception.", "quantifier": "all runs with at least one constraint", "why_tests_cant": "Needs the interplay of a 'skip if everything is zero' shortcut with the array that it leaves unset, over all passes.", "anchors": ["sqpdfo/sqpdfo_main.py:sqpdfo_main_ (185, 789-792, 967-980, 1109-1125)"]}
{"id": "C54", "title": "Initial slacks", "statement": "When the number of slacks is nbr > 0, the first residuals measure the last nbr constraints as inequalities (a value between 0 and the upper bound stored at the same position counted from the end of the bound vector has residual 0) and all others as equalities. Since two-sided inequalities increase nbr, an equality constraint can be among these last ones, and then its violation is reported as 0.", "quantifier": "all slack counts, constraint values and nonnegative bounds", "why_tests_cant": "Depends on counts that are changed in one module and used in two others.", "anchors": ["sqpdfo/sqpdfo.py (130-148)", "sqpdfo/sqpdfo_prelim.py (489-499)", "sqpdfo/sqpdfo_optimality.py (57-60)"]}
{"id": "C55", "title": "Shortening of the tangential step", "statement": "When a bound is violated, the tangential step is shortened by a ratio for which the point stays within all bounds. But the ratio is not the largest such one: if some variable sits exactly at one of its bounds and the tangential step does not move it, the ratio is zero and the whole step is dropped, even where a full step in the other variables is feasible.", "quantifier": "all dimensions, points within bounds and steps", "why_tests_cant": "Needs all points with a variable exactly at a bound; the cause is a divisor of 1e-15 put in the place of zero.", "anchors": ["sqpdfo/sqpdfo_solve_TR_bc.py:sqpdfo_solve_TR_bc_ (532-564)"]}
{"id": "C56", "title": "Bookkeeping of the active-set loop", "statement": "The trial point of the constrained step is always the start plus the displacements made in the passes of the active-set loop. This is false for the slack variables, even without slack bounds: from the second pass on the tangential displacement of the slacks is added in full although the step is shortened. If the start is within the bounds of variables and slacks, the restoration solver keeps the bounds and the threshold is at least 1e-15, the slacks returned after at most two passes are within their bounds; after one pass each slack is moved by the displacement if that keeps it within its bounds. That they always stay within their bounds is false: with three passes a slack bounded by -1 and 1 ends at -1.25, because the shortened displacement of the second pass is added after the check.", "quantifier": "all solver answers, all numbers of passes", "why_tests_cant": "Shows only when two passes in a row shorten the step and there are slacks.", "anchors": ["sqpdfo/sqpdfo_solve_TR_bc.py:sqpdfo_solve_TR_bc_ (354-370, 562-570)"]}
{"id": "C57", "title": "A complete call", "statement": "If a call with finite limits and tolerances returns x, lm and info, then: (a) the exit code is one of 0, 1, 2, 3, 5, 6, 15, 30, and with 1 or 2 no user function was called; (b) a point that comes from the main loop was evaluated during this call, and that evaluation succeeded; (c) with code 3 the last evaluation, and only it, failed; with any other code all evaluations succeeded; (d) if no objective value is below -1e25, at most max(n+1, ceil(msimul)-1+max(n+1,P)) evaluations are made, where P is the largest interpolation set for the degree and model options; (e) the call ends within miter+1 passes if no objective value is below -1e25, and it ends for every user function if the adjusted start point is not zero. Without these assumptions a call may run forever, and a failing objective may end the call with an exception instead of an exit code.", "quantifier": "all arguments with matching shapes, all options with finite limits and tolerances, all user functions, all answers of the numerical kernels", "why_tests_cant": "Quantifies over whole calls, all phases joined, with any user function and any answer of the kernels.", "anchors": ["sqpdfo/sqpdfo.py:sqpdfo_ (86-346)", "sqpdfo/sqpdfo_prelim.py:sqpdfo_prelim_", "sqpdfo/sqpdfo_main.py:sqpdfo_main_"]}
{"id": "C58", "title": "Accepted shapes of the start point and of the bounds", "statement": "With valid options and k slacks, the main loop is reached with two-dimensional bound arrays exactly if the start point is a list, number, one-dimensional array, row or column with n > 0 entries and each of lb and ub is (a) a list or column with, after appending k slack entries, at least n entries, (b) without entries while k = 0, or (c) omitted while the start point is a list or a row. So these natural calls fail: a one-dimensional array or a number without bounds, and one-dimensional bound arrays, raise after the initial evaluations (before them if k > 0); a column with n >= 2 and no bounds raises before any evaluation. Bounds with n entries give the slacks their internal bounds; bounds with n + k entries, as the documentation asks, give the slacks the entries of the user; shorter bounds with at least n - k entries pass all checks, the last variables get slack bounds, and for n >= 2 the restoration step would subtract arrays of incompatible shapes.", "quantifier": "all lists, numbers, one- and two-dimensional arrays of all sizes as x0, lb, ub; all slack counts; uncrossed bounds without fixed variables", "why_tests_cant": "Covers all combinations of shapes of three arguments, through numpy broadcasting rules.", "anchors": ["sqpdfo/sqpdfo.py (108-187)", "sqpdfo/sqpdfo_prelim.py (135-213, 441)", "sqpdfo/bcdfo_projgrad.py", "sqpdfo/sqpdfo_solve_TR_bc.py (209-210)"]}
{"id": "C59", "title": "Which points enter and leave the interpolation set", "statement": "With a non-negative tol_feas, every pass of the main loop that continues first fixes a set: the set at its start or, after an improvement, that set with some points other than the incumbent replaced by newly evaluated ones and possibly one point exchanged with the incumbent; a point not replaced then has a distance of at most f*1.001 times the working radius from the incumbent before that exchange, f being 1 if the projected gradient is at most 1e-5 or no decrease was predicted in the pass before, else 10. If no decrease is predicted the set stays. Otherwise at most one point is exchanged: with room the trial point is added; without room and with sufficient decrease it replaces the point farthest from it among those whose Lagrange polynomial exceeds 1e-10 in magnitude at the trial point; failing that, or without sufficient decrease, and only if the model is not known to be poised or the working radius is at most the criticality threshold, it replaces the best eligible point farther than 1.0001 times the working radius from the new incumbent, and if there is none the best one closer than that (threshold 1.2, or 1e-15 with sufficient decrease); else the set stays. A point that achieved the decrease is moved to the front. The model counts as poised after the pass exactly if it did before the step, the set did not grow and the trial point is not the incumbent. If the trial point differs from all points evaluated before and some Lagrange polynomial exceeds 1e-10 in magnitude there, sufficient decrease always makes it the incumbent.", "quantifier": "all runs, user functions, sub-solver answers, set sizes and model degrees", "why_tests_cant": "Follows the set through every branch of a pass of unbounded runs; tests see only the branches of their few problems.", "anchors": ["sqpdfo/sqpdfo_main.py:sqpdfo_main_ (343-639, 933-1067, 1080-1490)", "sqpdfo/bcdfo_include_in_Y.py", "sqpdfo/bcdfo_repair_Y.py", "sqpdfo/sqpdfo_find_smallf.py"]}
{"id": "C60", "title": "The accuracy test after an improvement depends on the verbosity level", "statement": "Convergence with exit code 0 asks for a small estimated gradient error, poisedness times radius of the interpolation set over 100, at most 1e-5. If a pass improves the set without evaluating any point, and the poisedness is not recomputed (verbosity below 4), the estimated error is 0: with tol_bnds >= 0 the pass goes on only if the Lagrangian gradient or the violation exceeds a hundred times its tolerance, whatever the radius of the set, and a return with code 0 carries poisedness 0. If the poisedness is recomputed for printing (verbosity 4 or more), code 0 after an improvement needs a product of the recomputed values of at most 1e-3, and with such a product and tol_bnds >= 0 the pass goes on only if the Lagrangian gradient or the violation exceeds a hundred times its tolerance. Poisedness as measured by the poisedness routine on a set of at least two and at most (n+1)(n+2)/2 points that determines the model (regular and with exact linear algebra) is at least 1 up to the errors of the trust-region solver. Hence it is false that the verbosity level leaves the outcome of a pass unchanged.", "quantifier": "all runs, user functions, sub-solver answers and settings; for the lower bound all dimensions, sets and solvers with given accuracy", "why_tests_cant": "Verbosity is not expected to change results, so no test compares runs at different levels; the zero poisedness shows in no returned value.", "anchors": ["sqpdfo/sqpdfo_main.py:sqpdfo_main_ (294-335, 466-487, 606-639)", "sqpdfo/bcdfo_repair_Y.py:bcdfo_repair_Y_ (226-277)", "sqpdfo/bcdfo_poisedness_Y.py:bcdfo_poisedness_Y_"]}
{"id": "C61", "title": "Accuracy of the models in terms of poisedness and radius", "statement": "Let the interpolation set have at least n+1 and at most (n+1)(n+2)/2 points and determine the model (as many points as unknowns, regular, exact linear algebra), and let F be values at its points of a function that differs from its linearisation at the first point (gradient g) by at most K times the squared distance. If the Lagrange polynomials other than the first are at most Lam in magnitude on a ball of radius r about the first point that contains the set, then the model differs from the linearisation by at most (p1-1)*K*r^2*Lam on the ball (p1 points), and its gradient at the first point from g by at most (p1-1)*K*r*Lam. With the poisedness and radius returned by the poisedness routine Lam may be that poisedness plus the errors of the trust-region solver, and a weighted sum of model gradients (a Lagrangian) differs from that of the true gradients by at most (p1-1)*r*Lam times the sum of |weight|*K. Hence if a pass returns exit code 0 at its first test, with poisedness and radius measured in this way, and a component of the model Lagrangian gradient is at most its tested norm, that component of the true Lagrangian gradient is at most tol_grad plus (p1-1)/1000 times the sum of |weight|*K (with an exact solver). It is false that this holds, even with a factor 100, for exit code 0 after an improvement that replaced nothing (verbosity below 4; p1 = 2, tol_grad 1/500, K = 1, true gradient -0.998). With fewer points than unknowns no bound by a constant times (1+K)*r holds: in minimum-norm mode with the points 0 and h the model of a linear function of slope 1 has slope 4/5 for every h.", "quantifier": "all dimensions, set sizes, sets, model degrees with as many points as unknowns, functions, weights, solvers with given accuracy; all runs and settings for the exit code", "why_tests_cant": "The bound compares with derivatives the code never sees, for all functions and sets; tests check final points of a few problems.", "anchors": ["sqpdfo/bcdfo_computeP.py:bcdfo_computeP_", "sqpdfo/bcdfo_computeLj.py:bcdfo_computeLj_", "sqpdfo/bcdfo_gradP.py:bcdfo_gradP_", "sqpdfo/bcdfo_poisedness_Y.py:bcdfo_poisedness_Y_", "sqpdfo/sqpdfo_main.py:sqpdfo_main_ (294-335, 606-639)"]}
{"id": "C62", "title": "Rank-one update of the factorisation in minq", "statement": "For a unit lower triangular L, positive d and exact arithmetic, ldlrk1(L, d, alpha, u) returns nothing exactly if alpha = 0, and always succeeds (no direction) if alpha > 0. Let L couple no nonzero entry of u to a zero entry further down, and neps >= 0. If it succeeds, the factors returned are again unit lower triangular and positive and factorise L D L^T + alpha u u^T, which is therefore positive definite; if it fails, alpha < 0, L and d are the original ones, and the direction returned has a last nonzero entry 1 and a curvature of at most neps in the updated matrix. Failure leaves L and d as they were without that condition as well. Without it the rest is false: since the set of nonzero entries of u is taken once before the loop, a successful update can return factors of another matrix (L = [[1,0],[1,1]], d = (1,1), u = (1,0), alpha = 1), and an update that is positive definite can be rejected with a direction of curvature 1.", "quantifier": "all dimensions, factors, vectors u, multiples alpha, tolerances neps, linear solvers whose answers solve their systems", "why_tests_cant": "A wrong factor makes later steps worse but raises nothing; tests with dense matrices never meet the fill-in that is lost.", "anchors": ["sqpdfo/minq.py:ldlrk1 (224-275)", "sqpdfo/minq_util.py:find, mldiv (27-56)"]}
{"id": "C63", "title": "Inserting and removing a row of the factorisation in minq", "statement": "Let L be unit lower triangular, d positive, j < n and arithmetic exact. If row and column j of L D L^T are those of the identity, j > 0, neps >= 0, and the part of g below j not explained by the rows before j has no nonzero entry that L couples to a zero entry further down, then ldlup(L, d, j, g), when it succeeds, returns factors of the matrix with row and column j replaced by g, and when it fails returns the original factors and a nonzero direction along which that matrix has a curvature of at most neps. ldldown(L, d, j) always succeeds and, if the entries of L below j in column j satisfy the same condition, returns factors of the matrix with row and column j replaced by those of the identity. It is false that ldlup does so for j = 0: only g[0] is used and the rest of g is ignored, so for L = I, d = (1,2), g = (2,1) the factors are those of diag(2,2). It is false that ldldown does so without the condition: for the tridiagonal matrix with factors L = [[1,0,0],[1,1,0],[0,1,1]], d = (1,1,1) and j = 0 the last diagonal entry becomes 3/2 instead of 2.", "quantifier": "all dimensions, positions, factors, columns g, tolerances neps >= 0, linear solvers whose answers solve their systems", "why_tests_cant": "The wrong factorisation is internal and only sparse or first-variable cases show it; the claims compare with a product of matrices for all inputs.", "anchors": ["sqpdfo/minq.py:ldlup (278-358)", "sqpdfo/minq.py:ldldown (363-395)"]}
{"id": "C64", "title": "What the constrained trust-region step achieves", "statement": "Let r be the restoration step of sqpdfo_solve_TR_bc_: the answer of the bound-constrained solver to the least-squares problem of the linearised constraints (with squared slacks and the bounds held at the start), or zero if that gradient is at most 1e-14. If the restoration solver keeps its bounds and the tangential solver answers steps of no positive cost and not against its right-hand side (the library's does), then, whatever the null space answered, for a symmetric M, a violation threshold of at least 1e-15 and variables and slacks that start within their bounds the model g'z + z'Mz/2 of the Lagrangian at the returned displacement is at most that at r, over any number of passes. rpred is the length of the linearised constraints at zero minus that at r; it is not negative if the answers of the restoration solver do not raise its objective and sqpdfo_check_convex_ leaves convex matrices alone. active_r is True exactly if there was one pass only and either the message says 'boundary' or it is no error message and the radius exceeds the length of r in x by less than 1e-8; so it is False whenever a second pass was needed, although the restoration step may have reached the boundary. After one pass the tangential step changes neither the linearised constraints nor a variable held at a bound, and if the exit is the ordinary one, the start is within the bounds and the restoration solver keeps them, the returned slacks are within their bounds: the full slack if that is within, otherwise that of the restoration step. It is false that several passes keep linearised constraints that hold at the start: the rows of the Jacobian are changed by M times the step.", "quantifier": "all dimensions, bounds, slacks, Jacobians, matrices M, multipliers, numbers of passes, solver answers with the properties named", "why_tests_cant": "Relates every exit of a loop of unbounded length to the start for all solver answers.", "anchors": ["sqpdfo/sqpdfo_solve_TR_bc.py:sqpdfo_solve_TR_bc_ (96-370, 525-584)"]}
{"id": "C65", "title": "Multipliers at the end of the active-set loop", "statement": "Let F be the list of variables fixed at violated bounds in sqpdfo_solve_TR_bc_. If it ends because the multipliers of F are not negative, F is not empty and the returned multipliers are those computed at the returned point and not negative on F. If it ends at the release of a bound, every variable of F is within 1e-7 of one of its bounds, the returned multipliers are those computed at the returned point, and one on F is negative and the smallest on F. If multipliers are negative only within 1e-5 of a lower bound and positive only within 1e-5 of an upper bound (the library's convention), the smallest one belongs to a lower bound, where negative is the sign of an optimal point, and variables of F not near a lower bound have no negative multiplier. It is false that a point where a bound is released fails the first-order conditions of the model. If it ends with a zero step and no multipliers, F is empty.", "quantifier": "all dimensions, bounds, numbers of passes, solver answers, multipliers", "why_tests_cant": "The sign convention matters only in a rare branch; the claims cover every run that reaches it.", "anchors": ["sqpdfo/sqpdfo_solve_TR_bc.py:sqpdfo_solve_TR_bc_ (376-519)"]}
{"id": "C66", "title": "How a call ends early, its bounds, and traces of earlier calls", "statement": "The process is ended by sys.exit exactly for function arguments that are not plain functions. Exit code 1 is returned exactly if the arguments are to be refused (no objective, missing constraint function, no start point), or if they are not, the constraint bound arrays are missing or long enough and either an option is invalid or the start point is empty. With a floating-point start array and as many bounds as variables, exit code 2 is returned exactly if arguments and options are valid and some lower bound exceeds its upper bound or all variables are fixed. Then also the first n+1 evaluations of a call that returns are within the bounds given, or within -1e20 and 1e20 where none are given; without inequalities an empty bound array means no bounds. With inequalities the bounds handed to the algorithm are those of the variables followed by 0 and 1e20 for every slack, and the call does not depend on earlier calls. It is false that calls without inequalities are independent: an unconstrained problem that is solved in a new process ends with an exception if an earlier call in the process left a slack count.", "quantifier": "all arguments with matching shapes, all options, all user functions, all answers of the numerical kernels, all leftover slack counts", "why_tests_cant": "Exact conditions over all arguments and a state left by earlier calls; single test calls show one case each.", "anchors": ["sqpdfo/sqpdfo.py:sqpdfo_ (86-346)", "sqpdfo/sqpdfo_prelim.py:sqpdfo_prelim_ (124-260)", "sqpdfo/sqpdfo_global_variables.py"]}
{"id": "C67", "title": "What the user functions are handed and how every kind of answer is treated", "statement": "In every evaluation the objective is called exactly once, with a new list of the components of the point. Afterwards the constraint function, if there is one, is called exactly once, also if the objective raised an exception; it is handed the same list, as the objective left it. Whatever the functions do to that list, the archive and the solver keep the point itself. If the objective does not modify its argument both functions are evaluated at the point; it is false that recorded constraint values always belong to the recorded point. The evaluation is recorded exactly if the objective answers with a finite number and the constraint function with numbers other than NaN; then the objective value recorded is the real part, at most 1e25 (the recorded value ignores the imaginary part of a complex value), and the constraint values are cut off at 1e25 in absolute value. It fails with exit code 3 exactly if the objective raises any exception, or answers with NaN or an infinity, or answers with a finite number while the constraint function raises or answers with a NaN. In all other cases (an objective value that is no number or several numbers, or constraint values that are no array of numbers) an exception leaves the solver. A message is returned exactly if the objective raises, the constraint function raises, or no array can be made of the constraint values. For answers made of numbers and exceptions this is the evaluation used in the model of the main loop.", "quantifier": "all user functions, including those that modify their argument, all kinds of answers (except objective values that are arrays without entries and complex constraint values), all points", "why_tests_cant": "Test functions return plain numbers and leave their argument alone; the statement covers every kind of answer and side effect.", "anchors": ["sqpdfo/sqpdfo_func.py:sqpdfo_func_ (8-47)", "sqpdfo/sqpdfo_evalfgh.py:sqpdfo_evalfgh_ (63-65)", "sqpdfo/sqpdfo_augmX_evalf.py:sqpdfo_augmX_evalf_ (82-187)"]}
{"id": "C68", "title": "What a call leaves in the array passed as start point", "statement": "If the start point is an array with one column or one row, a call that gets past the check of the bounds leaves in it exactly the start point it worked with, that is the given point moved away from the bounds; a list, tuple or number is left alone. A call refused because of crossed bounds has already moved the components before the first crossed pair, as a call with these components alone would, and no others; so it is false that a refused call leaves the array as it was. In every case components farther than the initial radius from both bounds, and components whose bounds coincide, stay as they were. Repeating the call with the array left behind starts from an equal point with the same radius and the same fixed variables, for integer arrays too.", "quantifier": "all start points (of floats or integers), all bounds at least as many as variables, all initial radii (positive ones for the components that stay)", "why_tests_cant": "An effect on the caller's data that no test looks at; idempotence for all bounds and all points, including truncation in integer arrays.", "anchors": ["sqpdfo/sqpdfo.py:sqpdfo_ (107-118, 186-187)", "sqpdfo/sqpdfo_prelim.py:sqpdfo_prelim_ (176-211)"]}
{"id": "C69", "title": "What a call writes to convhist.m, and printing at high verbosity", "statement": "A call whose arguments are refused at once, which ends the process, or whose constraint bound arrays are too short leaves the file convhist.m of the current directory alone. Every other call replaces it, for every verbosity including 0. Its contents then begin with the opening words, and end with the closing bracket exactly if the call returns: after an exception the bracket is missing. In between are lines only if the verbosity is at least 1 and below 4 and the main loop was entered. If such a call returns from the main loop, the iteration numbers of the lines are 1, 2, ..., N in this order without gaps, followed by N once more if the exit code is 5, 6 or 15, with N at most the iteration limit (rounded up) plus one; after an exception they are 1, 2, ..., m. The numbers of evaluations in the lines never decrease, are at least n+1 and at most the number of evaluations made. The objective value in the first line of a pass is info.f at its beginning, and the last line of a pass that returns with code 0, 5, 6 or 15 carries the final iteration number, number of evaluations and info.f; it is false that these values decrease. With verbosity 4 or more the first printing of the initial phase raises an exception, after the first n+1 evaluations, exactly if there are no constraints and no variable has a bound (within options.inf) and options.tol or options.df1, which the validation never sets, is missing, or if one of the limits miter and msimul is not finite, although the validation accepts such options.", "quantifier": "all calls, all options, all user functions, all answers of the linear algebra", "why_tests_cant": "Tests run with one verbosity and do not read the file; the numbering is a statement about all runs.", "anchors": ["sqpdfo/sqpdfo.py:sqpdfo_ (212, 268-289, 323-327)", "sqpdfo/sqpdfo_iter_printout.py:sqpdfo_iter_printout_ (11-31)", "sqpdfo/sqpdfo_main.py:sqpdfo_main_ (215-235, 310-342, 452-466, 614-637, 672-679, 1450-1465)", "sqpdfo/sqpdfo_prelim.py:sqpdfo_prelim_ (157-163, 530-561)"]}
{"id": "C70", "title": "Search for the multiplier in the bound-constrained solver", "statement": "For the Newton search (stratLam = 1, the value the library sets) inside the bound-constrained solver, in exact arithmetic. The solver with this search is an instance of the solver of C38, so everything said there holds; with exact factorisations and solves, and an unconstrained solver that raises no exception, a call always returns. If the answers of the unconstrained solver satisfy the optimality conditions (as those of the library's solver do outside its pseudo hard case), then throughout the search the multiplier lies in the current interval, whose lower end never falls below the multiplier of the unconstrained step, and the shifted Hessian of the free variables is positive definite (except for the first trial of a hard case). A trial outside the bounds raises the lower end to the multiplier, one inside lowers the upper end to it; the component aimed at is the one furthest outside, or, inside, the closest to its bound among those that were outside before; the next multiplier is Newton's value for that component's distance from its bound if it is well inside the interval, the middle of the interval if the component moves away from the bound, and else the larger of the geometric mean and a point close to the lower end. A successful search returns a step within the bounds, with a free component at a bound, next to a step that is stationary for a multiplier not below the one at the start, is not longer than the unconstrained one and decreases the model by at least half the multiplier times its squared length. Hence the step of the whole solver is at most (1+eps) times the radius plus sqrt(n)*1e-5 long. With one free variable and an upper bound in its way the search needs at most two trials if Newton's value passes the safeguards. The search does not always make progress: Newton's value becomes infinite only if the derivative it divides by is zero, and there is a strictly convex model with bounds and radius not in the way of a step for which this happens at the first trial and the solver returns the zero step.", "quantifier": "all dimensions, bounds, Hessians, gradients, answers of the unconstrained solver satisfying the optimality conditions, states reached by the search", "why_tests_cant": "The statements hold for every state the search can reach, for all real data and every dimension; the breakdown needs a derivative that is exactly zero.", "anchors": ["sqpdfo/bcdfo_solve_TR_MS_bc.py:bcdfo_solve_TR_MS_bc_ (174-417)"]}
{"id": "C71", "title": "The null space used for the tangential step", "statement": "Let A be a matrix with m rows and n columns of which numpy.linalg.svd returns an exact singular value decomposition. null_(A) has orthonormal columns, at least n - min(m,n) and at most n of them. A shrinks every combination of the columns by the factor 1e-15 or more, and every nonzero vector orthogonal to all columns by less than that; every vector of the null space of A is a combination of the columns. If A has no positive singular value of at most 1e-15, the columns are in the null space of A. In general they are not: 1e-15 is an absolute threshold, and for a row whose length is positive but at most 1e-15 the direction of the row itself is answered.", "quantifier": "all sizes, matrices, exact singular value decompositions", "why_tests_cant": "The statements concern every matrix of every size and all combinations of the columns; the exception needs rows scaled below 1e-15.", "anchors": ["sqpdfo/runtime.py:null_ (463-471)", "sqpdfo/sqpdfo_solve_TR_bc.py:sqpdfo_solve_TR_bc_ (311)"]}
{"id": "C72", "title": "The trust-region step with the library's own sub-solvers", "statement": "sqpdfo_solve_TR_bc_ is called with equality constraints (those with slacks last) for at least one variable, with delta not negative, from a point and slacks within ordered bounds, with a violation threshold of at least 1e-15, and its sub-solvers are the library's: bcdfo_solve_TR_MS_bc_ for the restoration, null_, sqpdfo_truncated_cg_ and sqpdfo_compute_multiplier_; linear algebra is exact. If bcdfo_solve_TR_MS_ answers for every symmetric matrix and every pseudo-inverse is found, the step is returned: there is no exception, no infinite ratio, no endless loop. The point violates no bound by more than the larger of the threshold and 1e-7. With a symmetric matrix M the model of the Lagrangian at the returned point is at most its value at the restoration step. If the answers of bcdfo_solve_TR_MS_ satisfy the optimality conditions with relative error eps in the length, the returned radius is at most delta, and if it is not negative the step in x is at most (2 + eps)*delta + sqrt(n + nsl)/10^5 long. active_r is True exactly if there was one pass only, the least-squares gradient at the start is longer than 1e-14 and delta exceeds the length of the restoration step in x by less than 1e-8: the message of the restoration solver is compared with 'error', 'limit' and 'boundary', and it never returns one of these texts, so an error or an exhausted iteration limit of that solver is not noticed. If moreover no negative eigenvalue is reported for a positive semi-definite matrix, the predicted reduction of the constraints is: not negative if every bound is at least (1 + eps)*delta away; at least -(n + nsl)*K/10^5 if no variable or slack is within 1e-10 of a bound, K being the root of the sum of the squared absolute row sums of the Jacobian and of the number of held bounds. It is not 'not negative' in general: for the constraints x0 = 3 and 10^6*x1 = 6, upper bounds 1 and 1.5e-5 and the start zero, the solver moves x1 to its bound 9e-6 beyond the solution and the predicted reduction is sqrt(45) - sqrt(85), below -2.", "quantifier": "all dimensions, points, bounds, constraints, models and radii; all exact factorisations, eigenvalue and singular value routines, pseudo-inverses", "why_tests_cant": "The statements are about five routines working together on every input; the negative prediction needs a bound within 1e-5 of the solution in a badly scaled variable.", "anchors": ["sqpdfo/sqpdfo_solve_TR_bc.py:sqpdfo_solve_TR_bc_ (63-586)", "sqpdfo/bcdfo_solve_TR_MS_bc.py:bcdfo_solve_TR_MS_bc_", "sqpdfo/sqpdfo_truncated_cg.py:sqpdfo_truncated_cg_", "sqpdfo/runtime.py:null_ (463-471)", "sqpdfo/sqpdfo_compute_multiplier.py:sqpdfo_compute_multiplier_", "sqpdfo/sqpdfo_check_convex.py:sqpdfo_check_convex_"]}
{"id": "C73", "title": "Inequalities whose slack is zero", "statement": "An inequality c >= 0 is handled as c - s^2 = 0 with a slack s >= 0. After an accepted step a slack that is not zero is kept; one that is zero stays zero if c is at most 0.01 at the new point, and else becomes larger than 0.1 with zero residual; the norm of the residuals does not grow. A trust-region step with the library's sub-solvers, as in C72, leaves a zero slack at zero if the null space contains the coordinate directions along which the linearised constraints vanish (it does if the singular value decomposition is exact), eigenvalues are good enough for the convexity check, and the unconstrained solver answers as in C70 and never ends in its hard case for convex problems; without the last hypothesis this is false. So in a run with constraints, a slack that is zero at the start is zero after any number of passes whose steps keep it at zero and at whose ends the inequality's value at the incumbent is at most 0.01; and if the run then ends with code 0, the absolute value of the inequality at the incumbent is at most 100 times the feasibility tolerance: the inequality has been treated as an equality. It is false that a step moves some variable whenever a move within radius, bounds and linearised constraints (taken as inequalities) lowers the model, even with exact linear algebra: at an inequality that holds with equality the step may be zero although the objective decreases into the feasible side.", "quantifier": "all dimensions, numbers of slacks, points, bounds, models, constraints and radii; for the run all user functions, all answers of the step computation that keep the slack at zero, all numbers of passes", "why_tests_cant": "That a slack can never leave zero is a statement about all paths through the step and all passes of the loop; a test that starts strictly inside the inequality does not see it.", "anchors": ["sqpdfo/sqpdfo_main.py:sqpdfo_main_ (281-342, 606-637, 982-991, 1242-1250, 1365-1373)", "sqpdfo/sqpdfo_prelim.py:sqpdfo_prelim_ (489-499)", "sqpdfo/sqpdfo_solve_TR_bc.py:sqpdfo_solve_TR_bc_ (63-586)", "sqpdfo/bcdfo_solve_TR_MS_bc.py:bcdfo_solve_TR_MS_bc_", "sqpdfo/runtime.py:null_ (463-471)"]}
{"id": "C74", "title": "The first models", "statement": "The first interpolation points are x0 and, for every free variable k, x0 with component k lowered by Delta0. For any number of variables and Delta0 > 0, if the factorisation computed by bcdfo_build_QR_of_Y_ is exact and was not regularised, and solves and pseudo-inverses are exact, bcdfo_computeP_ answers in every mode. Let q_k be (value at x0 - value at the k-th lowered point) / Delta0. With whichmodel 0 and 1 the model is the affine function with value and gradient q at x0, bcdfo_gradP_ answers q, and the model of an affine function is the function itself. If the values differ from an affine function with the right value at x0 by at most K times the squared distance to x0, each q_k differs from the component of its gradient by at most K*Delta0. With whichmodel 2 and 3, with shifting, the gradient is exactly 4/5 of q, and the model subtracts q_k/(5*Delta0) times the square of the k-th component of the move; the model of an affine function is in general another function. With whichmodel 0 and 1, bcdfo_poisedness_Y_ (without hard constraints) answers the radius Delta0 and, if its solver's answers are at most (1 + eps) times the radius long, within tau of their value and within e of optimal, a poisedness between 1 - e - tau and 1 + eps + tau (lSolver not 2). So if (1 - e - tau)*Delta0 > 1/1000, a pass of the main loop in which this poisedness is computed cannot return code 0 at its first test, however small the gradient is; it may only do so after the attempt to improve the set.", "quantifier": "all numbers of variables, starts, radii, function values, exact linear algebra, solvers of the sub-problems", "why_tests_cant": "The models are determined for all function values and dimensions, and the error bound holds for every function with the given curvature.", "anchors": ["sqpdfo/sqpdfo_prelim.py:sqpdfo_prelim_ (304-340, 431-458)", "sqpdfo/bcdfo_computeP.py:bcdfo_computeP_", "sqpdfo/bcdfo_build_QR_of_Y.py:bcdfo_build_QR_of_Y_", "sqpdfo/bcdfo_gradP.py:bcdfo_gradP_", "sqpdfo/bcdfo_poisedness_Y.py:bcdfo_poisedness_Y_", "sqpdfo/sqpdfo_main.py:sqpdfo_main_ (281-342)"]}
{"id": "C75", "title": "Constraints at the returned point", "statement": "If the constraint values returned by the user functions are finite and below 1e25 in magnitude, then during the main loop the archive holds, next to every point, the objective value (capped at 1e25) and the constraint values of one and the same call of the user functions at this point, provided this holds when the loop starts; so with constraints, whatever the code, info.ce is what the user functions answered at the returned point in the call that gave the value of this point. A complete call of sqpdfo_ with user functions that always return such constraint values, at least one, that ends with code 0 and a point y: in some call at y the user functions answered constraint values c that are all at least -100*tol_feas; if the sub-solvers keep the number m of slacks, the values without slack (all but the last m) are moreover at most 100*tol_feas in magnitude. Without the bound 1e25 this is false: a call can end with code 0 at the start point, although the only equality constraint has the value 1e30 there, because the value is replaced by ten times the largest moderate one, which is 0.", "quantifier": "all user functions, options, sub-solvers and numbers of passes", "why_tests_cant": "A run that ends with code 0 shows feasibility at one point; the statement is about every run, and ties the stored values to the calls that gave them.", "anchors": ["sqpdfo/sqpdfo_main.py:sqpdfo_main_ (276-342, 785-800)", "sqpdfo/sqpdfo_augmX_evalf.py:sqpdfo_augmX_evalf_", "sqpdfo/sqpdfo_prelim.py:sqpdfo_prelim_ (355-400)", "sqpdfo/sqpdfo.py:sqpdfo_"]}
{"id": "C76", "title": "The complete search of minq", "statement": "Minq(gamma, c, G, xu, xo, 0, x0).search() for at least two variables, a symmetric matrix G, bounds of which some may be infinite but between which there is a point, a guess x0 and exact arithmetic (neps, the constant 100*eps of the class, not negative). If it returns, the point lies in the bounds; if all bounds are finite, no NaN enters the point. The caller's array G has then been changed: its diagonal is multiplied by 1 + neps; call the result G'. If G is positive semidefinite, the value gamma + c'x + x'G'x/2 at the returned point is at most the one at the point of the box closest to x0, and the returned value is the one at the returned point unless info is 1. info is 99 exactly if the limit of 3n subspace steps was reached, 1 exactly if a coordinate search found no minimum, -1 exactly if in a coordinate search no variable was tried, and 0 else. With 99 exactly 3n subspace steps have been made, with -1 at least one. If info is 1, some bound is infinite and the function with G' is unbounded below in the box. If the search ends because a coordinate search brought no improvement and G is positive semidefinite, info is 0 and the point is a global minimiser over the box for G'; for G its value exceeds that of any point y of the box by at most neps/2 times the sum of G_ii*y_i^2. If the linear solver returns solutions, every search is a sequence of passes of this form. The search ends at the head of a pass with 99 if no refinement is counted and 3n subspace steps have been made; otherwise with 0 if the last pass brought no improvement, if more than three refinements in a row are counted, or if at least one is counted and the number of free variables did not change in the last subspace step; in all other cases it goes on. A refinement is counted when the fixed variables could be freed and the coordinate search left the number of free variables as it was after the coordinate search before; otherwise the count is zero. A pass improves if the coordinate search lowered the value kept or if the fixed variables could not be freed. An improving pass with at most three refinements and a free variable makes one subspace step: the factorisation then refers to exactly the variables free after the coordinate search, its factor is unit lower triangular with a positive diagonal d, the direction p solves LDL'p = -g on these variables and 0 on the others, the length minimises b*t + t^2*p'G'p/2 over all t that keep the moved variables within their bounds, where b is g'p, or 0 if |g'p| is below neps times the sum of |g_i*p_i|, and a moved variable that reaches a bound is no longer free. Other passes make no such step and leave the factorisation alone. It is false that the search always finds a minimiser, even for positive semidefinite G and a finite box: it can return -1, a value that is not documented, and it can return 0, both at points that are no minimisers for G'; for indefinite G, for which the documentation promises a local minimum, it can end with an exception.", "quantifier": "all dimensions from 2, symmetric matrices, linear terms, bounds, guesses, linear solvers and neps; the counterexamples for all neps up to 1/1000 and solvers whose answers solve the systems", "why_tests_cant": "The guarantees are about all quadratic functions and boxes and any number of passes; the wrong endings need particular sequences of freed and fixed variables.", "anchors": ["sqpdfo/minq.py:Minq.search (629-702)", "sqpdfo/minq.py:Minq.subspace, subspaceSearch (465-590)", "sqpdfo/minq.py:Minq._Info (201-221)", "sqpdfo/minq.py:Minq.__init__, setSearchInit (77-147)"]}
{"id": "C77", "title": "Problems without bounds and constraints", "statement": "A variable counts as bounded if its lower bound is above -options.inf or its upper bound below options.inf (with options.inf infinite, the default: if one of them is finite). Take numpy's documented rules for shapes: axes are counted from the last one, a missing axis has length 1; in a sum an axis of length 1 takes the other length and other lengths must agree; an array can be stored where each of its axes has length 1 or the length of the place. Then the bound part of the first optimality test raises an exception exactly if no variable counts as bounded and there are no constraints: the array of multipliers is then empty. So a call of sqpdfo_ without inequalities, whose user functions return no constraint values and for which no variable counts as bounded, ends with an exception as soon as the first points have been evaluated; whatever it returns instead carries code 1, 2 or 3, and is not a point of the main loop. Absent bound arguments are replaced by -1e20 and 1e20, which count as bounds with the default options.inf; they do not if the user lowers options.inf to 1e20 or less. The multipliers added are those of the variables less than 1e-5 away from a bound; if there is any, the addition works exactly for columns that are long enough, and for a flat array only if there is exactly one such variable.", "quantifier": "all dimensions, bounds, options, start points, user functions without constraints, sub-solvers", "why_tests_cant": "The exception concerns a whole class of problems, on all paths through the initial phase, that every test problem avoids by having a bound or a constraint.", "anchors": ["sqpdfo/sqpdfo_prelim.py:sqpdfo_prelim_ (108, 157-163, 563-588)", "sqpdfo/sqpdfo_optimality.py:sqpdfo_optimality_ (27-43)", "sqpdfo/runtime.py:find_ (38-55)", "sqpdfo/sqpdfo.py:sqpdfo_ (112-119)"]}
{"id": "C78", "title": "The final report", "statement": "sqpdfo_ prints a report after the main loop exactly when the main loop gives the returned point (not when the arguments or options are refused, the initial phase gives up, or an exception leaves the call). Below verbosity 1 the report is empty. From verbosity 1 on it names exactly one exit code, namely info.flag, with one text; exactly one function value, namely the smaller of 1e25 and the value of one evaluation at the returned point; and exactly one number of function evaluations, namely the number of calls of the user functions. It names exactly one number of iterations, which exceeds options.miter (rounded up) by at most one, reaches it with code 5, and at the verbosities from 1 to below 4 is the number of the last iteration in convhist.m. It shows either one norm of the Lagrangian gradient and one feasibility, or one norm of the gradient; with constraints (values finite and below 1e25, always the same number of them) it is the first. The text beside the code is never empty, it is 'converged' exactly for code 0, and calls that print the same text have the same code. With code 0 the printed norms are numbers at most a hundred times options.tol_grad and options.tol_feas. NaN is printed as a norm exactly when the number of iterations is 0, and then the code is 6. Above verbosity 2, if the user functions always return the same positive number of constraint values, finite and below 1e25 in magnitude: the variables printed are those of the returned point (the first 40), and the rows of the table of constraints are exactly the first 40 constraint values of the evaluation at the returned point that gave the printed function value; dots are printed exactly if there are more than 40 variables or more than 40 constraints. The printed feasibility, however, need not be that of the returned point: after a call stopped by the iteration limit the report can show feasibility 3 above a table in which the only constraint is 0. The report goes to the screen exactly if options.fout is missing, 1 or negative (and accepted), to the error output exactly if it is 2; other integers print a warning instead. If options.fout is a floating-point number that is not negative (including NaN and infinity) and the verbosity is positive, the heading printed in the initial phase raises an exception, so that there is no report and no point.", "quantifier": "all options, user functions, start points, bounds, sub-solvers and numbers of passes", "why_tests_cant": "The report is printed at the end of every path through the solver; that what it says belongs to the returned point is a statement about all of them, and the stale feasibility appears only when the last step of a stopped run is accepted.", "anchors": ["sqpdfo/sqpdfo_finish.py:sqpdfo_finish_ (8-57)", "sqpdfo/sqpdfo.py:sqpdfo_ (342-376)", "sqpdfo/runtime.py:fprintf_ (348-372)", "sqpdfo/sqpdfo_prelim.py:sqpdfo_prelim_ (116-118, 518-531)", "sqpdfo/sqpdfo_main.py:sqpdfo_main_ (212-345)", "sqpdfo/sqpdfo_values.py:sqpdfo_values (7-22)"]}
{"id": "C79", "title": "The bisection search for the multiplier", "statement": "For the search called 'bisection method' (stratLam = 0) inside the bound-constrained solver, in exact arithmetic. The solver with this search is an instance of the solver of C38, so everything said there holds; with exact factorisations and solves, and an unconstrained solver that raises no exception, a call always returns. If the answer of the unconstrained solver satisfies the optimality conditions and is not from its hard case, the search runs in two phases. First the multipliers tried are max(2, 2*l0), where l0 is the multiplier of the unconstrained step, and its doubles, as long as the step is more than 1e-5 outside the bounds; the upper end of the interval is raised to twice the next multiplier if it is below it. After the first step inside, the multiplier becomes the upper or the lower end of the interval, depending on whether its step is inside or outside, and the next one is the larger of the geometric mean of the ends and a point 1e-13 of the width above the lower end: strictly between the ends, but always below the middle. So the search is not a bisection. In the second phase the step at the upper end is within the bounds and touches none of them, and the lower end is l0 or its step is more than 1e-5 outside. In the hard case the first trial makes its multiplier the lower end and goes to the middle. A successful search returns a step within the bounds, with a free component at a bound, next to a step that is stationary for a multiplier above l0, is not longer than the unconstrained one and decreases the model by at least half the multiplier times its squared length; hence the step of the whole solver is at most (1+eps) times the radius plus sqrt(n)*1e-5 long. Outside the hard case the search succeeds within K+J+L+7 trials, if this is at most the limit 100, where sigma > 0 is a lower bound for the eigenvalues of the free part of the Hessian shifted by l0, g the free part of the gradient, d the unconstrained step, norm(g) <= 2^K*1e-5, 2^(K+1)*max(1,l0)*norm(d) <= 10^(13J)*sigma*1e-5, norm(d) <= 2^L*1e-5 and l0*norm(d) <= 2^L*sigma*1e-5. Without such a bound it may not: for a strictly convex model with bounds and radius not in the way of a step and a gradient of size 2^110, all 100 trials are spent on doubling and the solver returns the zero step.", "quantifier": "all dimensions, bounds, Hessians, gradients, answers of the unconstrained solver satisfying the optimality conditions, states reached by the search", "why_tests_cant": "The statements hold for every state the search can reach, for all real data and every dimension; the number of trials is bounded for all data of a given size.", "anchors": ["sqpdfo/bcdfo_solve_TR_MS_bc.py:bcdfo_solve_TR_MS_bc_ (174-417)"]}
{"id": "C80", "title": "The first multipliers and the first optimality measures", "statement": "When the caller gives at least one finite bound or constraint, the multipliers and measures with which sqpdfo_prelim_ ends leave the bounds out: the multipliers of all bounds are 0 whatever the bounds are, those of the constraints make the norm of the gradient of the Lagrangian (slack part included) as small as possible among all multipliers of the constraints, and the measured gradient is that of this Lagrangian. It is orthogonal to the gradient of every constraint without a slack, its inner product with the gradient of a constraint with slack s and multiplier l is -4 s^2 l, and it is never longer than the gradient of the objective. This assumes a least-squares solver that solves its problems and a test of negative curvature without false alarms. Feasibility is the value of the constraints less the squared slacks and complementarity is 0. With no constraint and no finite bound, an exception is raised if a variable is within 1e-5 of a bound, and any answer is the gradient of the objective. A zero measure at every starting point that satisfies the first-order conditions is not guaranteed: for minimising x over x >= 0 from 0 it is 1.", "quantifier": "all starting points, bounds, gradients, constraint values and slacks, all solvers of the least-squares problem that solve it, both possible reactions of NumPy to the assignment of empty arrays", "why_tests_cant": "Least squares over all multipliers, for all gradients and bounds; a test compares one multiplier vector.", "anchors": ["sqpdfo/sqpdfo_prelim.py:sqpdfo_prelim_ (565-588)", "sqpdfo/sqpdfo_compute_multiplier.py:sqpdfo_compute_multiplier_ (77-86)", "sqpdfo/sqpdfo_optimality.py:sqpdfo_optimality_"]}
{"id": "C81", "title": "Constraints of a problem of the CUTEst collection", "statement": "c_benchmark(x, 1000), called with an array on a problem with m > 0 constraints of which the number declared to be equalities is less than m and equals the number with equal bounds, returns first the values c_i - cl_i of the equalities in their order and then, for every inequality in its order, its distance c_i - cl_i to its lower bound if that is above -1e7 and its distance cu_i - c_i to its upper bound if that is below 1e7. So the leading values are 0 and the others not negative exactly if all constraints hold, bounds of magnitude 1e7 or more being ignored; a finite bound of this size is lost. If cl <= cu, the number of values plus the number of inequalities without bounds is the number sqpdfo_ expects (me plus its number of slacks); so the two differ if there is an inequality without bounds. If all constraints are equalities the values of the collection are returned unchanged: with a negative right-hand side all values can be 0 though the constraint is violated, without the warning; the warning comes exactly if all constraints are equalities and the lower bounds or the upper bounds have a positive sum. Called through sqpdfo_func_, which hands over a list, both functions of problem 1000 raise, and the evaluation reports a failure with f = inf and no constraint values.", "quantifier": "all numbers of constraints, all finite bounds and values, all points", "why_tests_cant": "Every mixture of equalities, one-sided and two-sided inequalities; the collection is not available to the tests.", "anchors": ["tests/benchmarks.py:c_benchmark (209-259)", "tests/benchmarks.py:f_benchmark (71-74)", "sqpdfo/sqpdfo.py:sqpdfo_ (139-146)", "sqpdfo/sqpdfo_func.py:sqpdfo_func_"]}
{"id": "C82", "title": "The numbered test problems", "statement": "Apart from 1000 exactly the problems 1-7 and 10-16 exist, for the data and for the functions. For each of them x0, lx and ux have n entries, lx <= ux, and at every point the objective is defined and me + mi constraint values are returned; problems 1-5 and 7 have only equality constraints, 6 none, 10-14 only inequalities, 15 has 2 equalities and 1 inequality, 16 has 1 and 2. Only problem 11 starts outside its bounds. The number nb, documented as the number of variables with bounds, is that number except in problems 10, 11, 15 and 16. For problems 1-4 and 10-16 the known solutions, (1.95, 0.2625), (1/3, 2/3), (-1/2, 0, 1/2), (-1/2, 0, 1/2, 1), (14.095, 5 - sqrt(17.280975)), (2, 0), (4/3, 7/9, 4/9), (3/11, 23/11, 0, 6/11), (0, 3, 0, 4), (1, 1) and (1, 1), are admissible, and every other admissible point has a larger value of the objective. With the multipliers that the tests of problems 1, 2 and 3 expect (up to their tolerance) the Lagrangian is at no point smaller than the optimal value.", "quantifier": "all problem numbers and all points of the space", "why_tests_cant": "Global optimality over the whole space; a test compares with a stored number.", "anchors": ["sqpdfo/sqpdfo_init_prob.py:sqpdfo_init_prob_ (36-147)", "tests/benchmarks.py:f_benchmark (13-69)", "tests/benchmarks.py:c_benchmark (92-207)"]}
{"id": "C83", "title": "Searches of the bounded least-squares solver", "statement": "A call of the bounded least-squares solver (verbose 0) proceeds exactly so. It starts at the clipped answer of the pseudo-inverse. An iteration takes the projected gradient step with the fewest halvings (at most 13) that gains enough, otherwise the code is -1; it then holds the variables at bounds to 1e-12 and makes at most n passes. A pass computes the target of the free variables: inside the bounds, it is accepted; otherwise up to four projected points between here and the target are tried, halving the distance, and the first whose residual grows by at most a hundredth of the gain expected is accepted; failing that, the longest step inside the bounds is made (components of size below 1e-14 do not count) and the bounds crossed by the last trial - not those reached - are held. Once the fourth trial has been made without success, no later pass of the call tries a projected point: the same bounds are added again and again. So a variable can be held at a bound where it is not, and the solver can go round in circles: on a problem with three variables, independent columns and an exact pseudo-inverse it ends with code 1 at a point that is not a solution, and would do so with any larger limit on the iterations.", "quantifier": "all matrices, right-hand sides, non-empty bounds and pseudo-inverses", "why_tests_cant": "All executions; the circle needs a projected search that fails four times.", "anchors": ["sqpdfo/blls.py:blls_ (lines 82-430)"]}
{"id": "C84", "title": "Norms, lengths and sizes of arrays", "statement": "For a non-empty array with at most one dimension other than 1, of any orientation and any number of dimensions, norm_(a) is the Euclidean length of its entries and norm_(a, inf) the largest magnitude (given that the largest singular value of a matrix with one row is its operator norm). For a matrix with at least two rows and columns they are the largest singular value and the largest sum of magnitudes in a row, and 'fro' gives the root of the sum of squares. An empty array has norm 0 in every sense. An exception is raised exactly for non-empty arrays that do not have two dimensions and are not of the first kind or are measured with 'fro'. length_ is the largest dimension and raises exactly for arrays without dimensions; it is the length of Matlab, as documented, exactly if the array has entries or all its dimensions are 0, so not always: an array with 0 rows and 5 columns has length 5. With at most two dimensions size_(a,1)*size_(a,2) is the number of entries. zeros_(size_(a)) and ones_(size_(a)) have the shape of a unless a has one dimension; then they raise an exception or are square. A Python integer as only argument of zeros_ or ones_ raises an exception, a NumPy integer gives a square matrix.", "quantifier": "all arrays of finite numbers, all shapes", "why_tests_cant": "All shapes, including empty ones and those with many dimensions.", "anchors": ["sqpdfo/runtime.py:isvector_or_scalar_,isempty_,length_,size_,zeros_,ones_,norm_ (19-31, 106-122, 197-249, 313-338)"]}
{"id": "C85", "title": "Sorting with weights and removing entries", "statement": "With Python 3, which the rest of the library needs, rsort and removeByInd never return: they use xrange. Where xrange exists and numbers are finite, rsort returns for every non-empty array; the values come out strictly increasing, each value given occurs and no other, and the number of values given is returned. Without given weights the weights are the numbers of occurrences. The distribution at a value is the sum of the returned weights up to it less half its own, divided by the sum of the returned weights if that is not 0. With given weights, contrary to the documentation, the returned weight of a value is not always the sum of the weights given to it, nor is the sum of all weights kept. removeByInd then returns exactly if the listed positions (non-negative) are distinct and within the array, and returns the entries at the other positions in order.", "quantifier": "all arrays of finite numbers, all weights (one per value), all arrangements argsort can answer, all lists of non-negative positions", "why_tests_cant": "All arrays, with any repetitions; the functions have no tests.", "anchors": ["sqpdfo/minq_util.py:rsort (158-198)", "sqpdfo/minq_util.py:removeByInd (133-141)"]}
{"id": "C86", "title": "First-order points are recognised", "statement": "Suppose the pseudo-inverse product solves solvable square systems exactly, the answer about negative eigenvalues is right, options.inf is infinite, and the slacks fit the values of the inequalities. Take a feasible point at which the gradient of the Lagrangian is zero for some multipliers: a bound multiplier is negative only within 1e-5 of the lower bound and not within options.dxmin of the upper one, positive only within 1e-5 of the upper bound and not within dxmin of the lower one, and multipliers of positive inequalities are zero. If the gradients of the active constraints and of the bounds within 1e-5 are linearly independent, then the multipliers computed with the library's own solver blls_ are exactly these, and gradient, feasibility and complementarity measures are exactly zero. More generally, with independent rows, multipliers of the right signs that are least-squares multipliers without sign rules are returned as they are. Without the condition on the opposite bound this is false: if the bounds of a variable are closer than dxmin, its multiplier is set to 0 and a first-order point is missed.", "quantifier": "all dimensions, points, bounds, gradients, Jacobians, slacks and exact pseudo-inverses", "why_tests_cant": "Every first-order point of every problem is meant, and the values must be exactly right.", "anchors": ["sqpdfo/sqpdfo_main.py:sqpdfo_main_ (249-260)", "sqpdfo/sqpdfo_compute_multiplier.py:sqpdfo_compute_multiplier_ (43-174)", "sqpdfo/sqpdfo_optimality.py:sqpdfo_optimality_ (27-65)", "sqpdfo/blls.py:blls_ (82-130)"]}
{"id": "C87", "title": "Sufficient decrease of the tangential step", "statement": "Let sqpdfo_solve_TR_bc_ be called with equality constraints (those with slacks last) and a symmetric matrix M, delta and prec_t not negative, let r be its restoration step and p the orthogonal projection of the gradient g + Mr of the model of the Lagrangian (zero in the slacks) onto the displacements of variables and slacks that change neither the linearised constraints nor a variable held at a bound. If constraints and held bounds together are fewer than variables and slacks, one pass is made, and linear algebra is exact with no positive singular value of at most 1e-15, then, provided p is longer than prec_t, the model at the returned displacement is at most its value at r - s*p for every s >= 0 with s*|p| <= delta; so it is lower than at r by at least half of |p| times the smaller of delta and |p|/beta for every beta > 0 with p'Mp <= beta*|p|^2. The same holds for any solvers in place of the library's, if the null space is right and the tangential solver beats the steps along its right-hand side. If no variable has a bound, one pass is made. If constraints and held bounds are at least as many as variables and slacks and one pass is made, the step in x is r alone. That the decrease holds without the condition on the numbers is false: if the constraint x0 = 0 of two variables is given twice, the answer is the zero step although x1 is free and the model falls along it, because degrees of freedom are counted by rows and not by rank.", "quantifier": "all numbers of variables, slacks and constraints, all data, all answers of the linear solvers as described", "why_tests_cant": "All real data and all radii; a test sees single steps.", "anchors": ["sqpdfo/sqpdfo_solve_TR_bc.py:sqpdfo_solve_TR_bc_ (177-343)", "sqpdfo/sqpdfo_truncated_cg.py:sqpdfo_truncated_cg_", "sqpdfo/runtime.py:null_ (463-471)"]}
{"id": "C88", "title": "When the interpolation set counts as poised", "statement": "In the main loop the variable poised_model is 1 at the beginning, with the threshold eps_current = 1e-5. If it is 1 after a pass, the trial point of the pass did not become the incumbent and was the only point evaluated; if moreover the set was not improved in this pass (the iteration count grew by 1), poised_model was 1 before, the set has as many points as before and the incumbent is the same. If it is 1 at the beginning of a pass that does not improve the set, and the radius is above eps_current, then after the pass (if the loop goes on) the trial point is the incumbent, or set and incumbent are unchanged, or there was room in the set, which has grown by one point and no longer counts as poised. That a set that still counts as poised is unchanged is false: with a radius of at most eps_current the trial point of an unsuccessful pass can replace a point of the set, and poised_model stays 1.", "quantifier": "all runs: objectives, constraints, answers of the solvers and of the linear algebra", "why_tests_cant": "All runs of any length; the variable is local to the loop.", "anchors": ["sqpdfo/sqpdfo_main.py:sqpdfo_main_ (487-521, 1005, 1127, 1165-1465)", "sqpdfo/sqpdfo_prelim.py:sqpdfo_prelim_ (341)"]}
{"id": "C89", "title": "The radius in a sequence of unsuccessful passes", "statement": "Call a pass of the main loop unsuccessful if the loop goes on after it, the set was not improved in it (the iteration count grew by 1), the predicted decrease of the merit function was positive and the trial point did not become the incumbent. Provided the objective tolerance is not negative, an unsuccessful pass halves the radius if the trial point is included in the set and the radius was above 1e-5, keeps it if the point is included and the radius was at most 1e-5, and otherwise leaves a radius of at least 1e-10 and at most half of the old one. In a sequence of unsuccessful passes starting with radius d, k of them without inclusion, j with inclusion and a radius above 1e-5, and any number with inclusion and a radius of at most 1e-5, the radius at the end times 2^(k+j) is at most d, and if k = j = 0 it is d. It is at least 1e-10 if d is or if k > 0. If j > 0, then 2^j is at most 200000*d, and if k + j > 0, then 2^(k+j) is at most 1e10*d: the number of unsuccessful passes that reduce the radius is bounded by a logarithm. That every unsuccessful pass reduces the radius is false: with a radius of at most 1e-5 and inclusion of the trial point it stays.", "quantifier": "all runs: objectives, constraints, answers of the solvers and of the linear algebra; all sequences of unsuccessful passes", "why_tests_cant": "Sequences of any length in all runs; a test sees single runs.", "anchors": ["sqpdfo/sqpdfo_main.py:sqpdfo_main_ (1150-1160, 1260-1276, 1384-1398, 1425-1465)"]}
