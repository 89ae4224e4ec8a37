# A Rocq model of DLR-SC/sqpdfo

Source: `/repo/sqpdfo` (Python, read as text). Properties: `properties.jsonl`.
Model and proofs: `rocq/theories/*.v`. Status per property: `MANIFEST.json`.
Axioms per theorem: `ASSUMPTIONS.md`. Mutation log: `seeded/LOG.jsonl`.

## 1. How the code is modelled

* Shallow, executable Gallina functions, one per Python function or per block
  of a long function, written branch by branch; every definition cites file
  and lines. A function that mutates an array or `info` returns the new value.
  Exceptions are values (`Crash`, `None`), early returns are values
  (`Return flag st`).
* Loops are structural recursion/folds; `while` loops carry explicit fuel and
  return a distinguished out-of-fuel value. Theorems either hold for every
  fuel, or state that enough fuel exists (termination).
* Numbers. Finite floats are modelled by exact numbers: `Q` for control code
  and bookkeeping (axiom free, executable), `R` (standard library reals) for
  kernels with square roots or heavy algebra. Rounding is not modelled. Where
  the code branches on NaN or infinity the model has an explicit extended
  number type.
* External calls (user functions, `numpy.linalg`, sub-solvers inside the main
  loop) are arguments of the model functions: theorems quantify over *all*
  their answers, or state exactly which property of the answer is assumed
  (`Z = QR, Q^T Q = I, R invertible`, "solver respects its bounds").
* The code is read as for a numpy that accepts mixtures of scalars and 1x1
  arrays and still has `numpy.mat` and `numpy.infty`. Newer versions raise in
  some places where the model answers: `numpy.poly1d` of a scalar, a 1x1 array
  and a scalar (`bcdfo_solve_TR_MS.py`, hard case), `numpy.infty` in `cond_`
  (`runtime.py`), `numpy.mat` in `minq.py`.
* Printing and timing are not modelled, except for the lines of `convhist.m`
  and the exceptions printing can raise (C69).

## 2. File layout

| files | content |
|---|---|
| `*_Model.v` | model definitions only |
| `*_Spec.v` | small independent specifications (where the statement needs notions of its own) |
| `*_Proofs*.v`, `*_More.v` | lemmas about them |
| `*_Wit.v` | concrete inputs and runs used as witnesses |
| `*_Props.v` | the property theorems, each `exact lemma.`, `Print Assumptions` beneath, with an `Example` for non-vacuity |
| `RVec`, `RBool`, `QB`, `Ortho`, `Tri`, `Chol` | vectors and matrices over R, boolean tests on R and Q, orthogonal and triangular matrices, Cholesky |

Theorem names start with the property they belong to. A name ending in
`_refuted` proves the negation of a reading of the property (by a concrete run
or input); the statement in `properties.jsonl` is worded so that it is true
as a whole, and says which reading is false.

## 3. Per property

| id | group | what is modelled | how it is proved |
|---|---|---|---|
| C01-C10, C16, C53 | `Main` | `sqpdfo_main_` as a state machine: counters, archive, interpolation set, incumbent, penalty, radius, memorised merit values, slacks, `info`; numbers from models and sub-solvers are arbitrary answers, one record per pass | one invariant (`Inv`) by induction over passes; rule theorems by case analysis of a pass; refutations by running the model; the bound of the penalty parameter by counting its changes (`Pen`) |
| C11-C15, C17 | `Book` | `swap_in_Y`, `find_smallf`, `include_in_Y`, `replace_in_Y`, `repair_Y`, `augment_Y`, clamping of constraint values | induction over lists; refutations by computation |
| C18, C19 | `Opt`, `Opt_Fail` | `sqpdfo_options_` on a record of optional fields; a heap for the copies of the option object | case analysis per option; commutation with copying |
| C20-C22, C54 | `Drv` | argument checks, slack count, module variables surviving a call, initial slacks | case analysis; induction over call histories |
| C23-C26 | `Pre` | bounds loop, initial simplex, evaluation rounds, numpy broadcasting of shapes with fixed variables | induction over variables and rounds; hand-over to the invariant of `Main` (`C25_handover`) |
| C27, C28 | `Poly` | `evalZ`, `evalP`, `gradP`, `hessP` for every n and every admissible size | double-sum identities |
| C29-C32, C48 | `Int`, `Frb` (minimum-Frobenius-norm system) | `build_QR_of_Y`, `computeP`, `computeLj`, `evalL` in all model modes | matrix algebra from the defining equations of QR and pseudo-inverse |
| C33 | `ProjGrad` | `projgrad` with infinite bounds | componentwise cases |
| C34, C52 | `CG` | `truncated_cg` | loop invariants, conjugacy, dimension argument; comparison of the first round with the steps along `b` (`CG_Cauchy.v`) |
| C35, C36, C47 | `Hess` | BFGS update, `check_convex`, `check_cond`, `computeHessian` | Cauchy-Schwarz for the form of H; quadratic forms; the entries of the update (`Hess_Form.v`) |
| C37 | `MS` | `solve_TR_MS` (More-Sorensen) | invariant of the lambda interval; exits; Newton's value compared with the optimal multiplier through Cauchy-Schwarz |
| C38 | `BC` | `solve_TR_MS_bc` | invariants; refutations |
| C70 | `Hom` | the search for the multiplier inside `solve_TR_MS_bc` (stratLam = 1) and the solver with it in place | refinement of the solver of C38 (the trials are answers of its argument `hom`); invariant of the interval from positive definiteness and monotonicity of the step length; characterisation of a trial against `Hom_Spec.v`; a two-variable run in which Newton's derivative vanishes |
| C39, C55, C56 | `TR`, `TRS` (slack bounds) | `solve_TR_bc` (restoration, tangential step, active-set loop) | invariants; arithmetic of the shortening |
| C71 | `Null` | `runtime.null_` given the answers of numpy's svd | the product with a combination of selected right singular vectors is a sum over the selected singular values; orthonormality of the selected rows; Parseval |
| C72 | `Lib` | the step of C39 with the models of C34, C40, C70, C71 and `check_convex` as sub-solvers; only factorisations, eigenvalues, singular values, pseudo-inverses and `solve_TR_MS` stay arguments | the hypotheses of C39 and C64 about the sub-solvers proved for the library's; the value of the least-squares model along the moves of the bound-constrained solver (`Hom_Val.v`) and the size of the moves to bounds; a two-variable run with a negative prediction; the texts of the messages and the comparisons with them (`Msg_Model.v`) |
| C73 | `Slk` | the adjustment of zero slacks in `sqpdfo_main_`; the step of C72; the main loop of C53 | the gradient of the least-squares model and the rows of the linearised constraints vanish along a zero slack, and so does every move of the bound-constrained solver and of the tangential step (`Slk_BC.v`, `Slk_Proofs.v`); invariant of the passes (`Slk_Run.v`); that the unconstrained solver stays out of the hard case is a hypothesis, with a counterexample without it |
| C74 | `Fst` | the simplex of `Pre`, the factorisation, models and gradients of `Int` and `Acc`, the poisedness of `New`, the first test of a pass of `Main` | the points are shown poised in every mode; the affine model from uniqueness, the minimum-norm one by exhibiting the shortest interpolant and its orthogonality (`Fst_Proofs.v`); the first test from the lower bound of the poisedness |
| C75 | `Con` | the archive of `Main`, the initial phase of `Pre`, the complete call of `Sol` | invariant of every branch of a pass: point, value and constraints at an index of the archive come from one call (`Con_Proofs.v`); the initial phase establishes it and the number of slacks is kept (`Con_Call.v`); the bounds from the test of C01 because a slack only lowers a value; counterexample with a value of 1e30 |
| C64, C65 | `Step` | no new model: what the step of `TR` achieves | the loop carries the gradient of the model at the current point; every tangential step descends for any shortening between 0 and 1; the constraint rows of the first pass are those of an independent least-squares problem (`Step_Spec.v`); witnesses by running two passes |
| C40-C42 | `Mult` | `compute_multiplier`, `optimality` | componentwise; counterexamples |
| C43 | `BL` | `blls` | invariants; counterexample |
| C44, C45, C51 | `MinQ` | `_quadMin`, coordinate search | case analysis, index arithmetic |
| C62, C63 | `LDL` | `ldlrk1`, `ldlup`, `ldldown` of `minq.py` with the linear solver as an argument | loop invariant: factors plus the remaining rank-one term are the updated matrix; block-wise entries of the product; witnesses with fill-in |
| C76 | `MinS` | `Minq.search` on top of C44, C45, C51, C62, C63: regularised diagonal, updates and downdates, Newton direction, range of steps, refinement counters, all endings | invariants of the main loop (feasible, positive factor, value not above the best one) for arbitrary answers of the linear solver (`MinS_Sub.v`, `MinS_Main.v`); a coordinate search without gain gives the optimality conditions; every search is a sequence of passes of a form stated separately (`MinP_Spec.v`, `MinP_Proofs.v`, `MinP_Main.v`); three complete runs as witnesses |
| C77 | `Free` | shapes in the first optimality test, inside the complete call of `Sol` | broadcasting on shapes as a separate small model; the call theorem assumes that the unmodelled rest of the initial phase (`w_late`) raises at least where this test does; complete calls as witnesses |
| C78 | `Rep` | sqpdfo_finish_ and the tables of sqpdfo_ as a list of entries, inside the complete call of `Sol`; destinations of fprintf_ | the final state of `Sol` is opened up once (`call_ended`); the invariants of C05/C57/C75 give the meaning of the numbers printed; complete calls as witnesses |
| C79 | `Bis` | the search for the multiplier with stratLam = 0 and the solver with it in place | refinement to the loops of C70 and C38; two-phase invariant (doubling, then an interval whose ends have steps outside and inside); the ratio of the ends becomes its square root at each trial and the steps at the ends stay 1e-5 apart, which bounds the number of trials (`Bis_Num.v`, `Bis_Conv.v`); one-variable runs as witnesses |
| C80 | `Ini` | the end of `sqpdfo_prelim_`: `sqpdfo_compute_multiplier_` with empty bounds, then `sqpdfo_optimality_` with the true ones | on top of C41 and C42: all bound multipliers are forced to zero, normal equations of the least-squares problem split into variables and slacks; witness for the refuted part on one variable |
| C81 | `Cut` | the branch for problem 1000 of the test functions: the loop that sorts and splits the constraints; the argument as list or array | induction over the constraints with the two accumulators; the count is compared with the loop of the driver (`Drv`, C21) and the failure with `sqpdfo_func_` (`Usr`, C67); witnesses for the refuted parts |
| C82 | `Tst` | data, objectives and constraints of the numbered test problems | case analysis; optimality by completing squares with the multipliers, by monotonicity (problem 10) and by a bilinear estimate (problem 14) |
| C83 | `BLP` | `blls` (the model of C43), pass by pass | the runs are described by inductive relations that do not use the model, points up to equality of the n components; counterexample computed by inversion of these relations: three variables, every iteration from the third on returns to the same point |
| C84 | `Nrm` | `norm_`, `length_`, `size_`, `zeros_`/`ones_` on arrays given by shape and entries; the largest singular value is an argument | shapes by induction, Cauchy-Schwarz for the norm of a row |
| C85 | `Rst` | `rsort`, `removeByInd`; the answer of argsort and the Python version are arguments | induction on the sorted list |
| C86 | `Kkt` | as C40-C42, with `blls` of C43 as solver | the reduced matrix is B B' with independent rows, so the start point of `blls` is the only solution; clipping leaves it and the loop is not entered |
| C87 | `Cau` | nothing new: the step of C39/C64/C72 with `truncated_cg` (C34) and `null_` (C71) | the tangential problem in the coordinates of the null space; the projection of the slope is minus the right-hand side in these coordinates; `C34_cauchy` |
| C88 | `Poi` | nothing new: `pass` of C01-C10 with the field `pm` (poised_model) | every way a pass can go on, for the flag and the set together; a pass with the radius 1e-6 refutes the rest |
| C89 | `Fai` | nothing new: `pass` of C01-C10 with the radius; `failing` (a sequence of unsuccessful passes with three counters) is specification | the rules of C09 for one pass, then induction over the sequence; a pass with the radius 1e-6 refutes the rest |
| C46 | `Run` | helpers of `runtime.py` | case analysis, induction on lists |
| C49, C50 | `New` | `find_new_yj`, `poisedness_Y` | algebra; refutation |
| C57, C66 | `Sol` | a complete call: `Drv`, `Opt`, `Pre` and `Main` joined in the order of `sqpdfo_` | `C25_handover` starts the invariant of `Main`; case analysis of the phases; C66 characterises the early ends through the predicates of C20, C21, C23 |
| C67 | `Usr` | `sqpdfo_func_` with the part of `sqpdfo_augmX_evalf_` that judges the answers; user functions may change the list they are handed, answers are those of Python functions; the column and the list are separate objects | case analysis of the answers; `C67_in_loop` ties it to `eval_user` of `Main` |
| C68 | `Sta` | the loop of `sqpdfo_prelim_` over the components as assignments to the array of the caller, with the aliasing made by `sqpdfo_` | induction over the components; the idempotence rests on monotonicity of truncation |
| C69 | `Out` | the contents of convhist.m as a list of marks and lines (iteration, evaluations, objective value), written by the driver, by `sqpdfo_iter_printout_` at its eight call sites, and the conditions under which the printing of `sqpdfo_prelim_` raises | the lines of a pass are tied to the counters before and after it, induction over the passes; the initial phase is that of `Sol` |
| C58 | `Shape` | shapes of `x0`, `lb`, `ub` from the arguments to the first use of the bounds | equivalence with an inductive description of the accepted shapes |
| C59 | `Set` | no new model: the set inside `Main` | case analysis of one pass against an independent description of the exchange (`Set_Spec.v`); the choice sets given by positions in a list of distances are shown to be the predicates far/close |
| C60 | `Ver` | no new model: `improve` of `Book` inside `Main`, `poisedness` of `New` | nothing replaced implies a zero improvement (induction over the rounds); the step after an improvement keeps the stored error and violation; lower bound from the Lagrange value 1 at its own point; two runs that differ in the recomputation only |
| C61 | `Acc` | gradient of a model at the first point (`Acc_Model`), on top of `Poly`, `Int`, `New`, `Main` | the model minus the linearisation is the combination of the Lagrange polynomials with the errors at the points; its gradient is bounded by the values at two opposite points of the sphere; sums over the functions of the Lagrangian; the first test of a pass bounds poisedness times radius by 1/1000; explicit two-point witnesses for the refutations |

## 4. Modelled and not modelled, by source file

| source | modelled | not modelled |
|---|---|---|
| `sqpdfo.py` | 86-160 (arguments, slacks), 186-252 (constants), 262-346 (order of the phases, returned point), 342-376 (final report), the writing of convhist.m | output to screen during the run |
| `sqpdfo_global_variables.py` | function handles, slack variables | test problems (`prob`), `threshold`, `fileoutput` setters |
| `sqpdfo_options.py`, `sqpdfo_values.py` | all branches | values of types other than int, float, string |
| `sqpdfo_prelim.py` | 139-440 (bounds, start, simplex, evaluations), 431-458 (first models, C74), 489-499 (slacks), 565-588 (first multipliers and measures, C80) | random initial sets (`initial_Y` is fixed to 'simplx'), scaling, multipliers given by the caller (`sqpdfo_` never gives any), printing |
| `sqpdfo_main.py` | the whole loop with the settings of `sqpdfo.py` | branches unreachable with these settings (named in the comments), `bcdfo_*` model coefficients and gradients (arbitrary answers), `noisy`, dummy variables |
| `sqpdfo_augmX_evalf.py`, `sqpdfo_evalfgh.py`, `sqpdfo_func.py` | evaluation, failures, capping | scaling; gradients (`evalfgh` is called for values only) |
| `bcdfo_evalZ/evalP/gradP/hessP`, `computeP/computeLj/evalL`, `build_QR_of_Y` | all modes | LAPACK (answers assumed to satisfy the defining equations) |
| `bcdfo_augment/include/replace/repair/find_new_yj/poisedness_Y`, `sqpdfo_swap_in_Y`, `sqpdfo_find_smallf` | all branches reachable with `shift_Y = 1`, `lSolver = 1` | infinity-norm local solver (`lSolver = 2`) |
| `bcdfo_solve_TR_MS.py`, `bcdfo_solve_TR_MS_bc.py` | control flow and linear algebra in exact arithmetic | NaN and complex entries |
| `sqpdfo_solve_TR_bc.py`, `sqpdfo_truncated_cg.py`, `blls.py`, `sqpdfo_compute_multiplier.py`, `sqpdfo_optimality.py` | all branches with `mi = 0` | fixed variables inside the step |
| `sqpdfo_bfgs_update.py`, `sqpdfo_check_convex.py`, `sqpdfo_check_cond.py`, `sqpdfo_computeHessian.py` | all | eigenvalue and singular value decompositions (answers assumed correct) |
| `minq.py` | the whole class: `_quadMin`, `coordinateSearch`, `ldlrk1`, `ldlup`, `ldldown`, `subspace`, `search` | printing, what follows after a NaN has entered the point, a call without guess (`numpy.empty`); the library never calls `minq` (`lls_solver = 'bcdfo'`) |
| `runtime.py` | `find_, max_, min_, concatenate_, setdiff_, compare_array, isfield_, null_, norm_, length_, size_, isempty_, zeros_, ones_`, where `fprintf_` prints | other printing, thin wrappers of numpy |
| `sqpdfo_iter_printout.py` | its lines in convhist.m, its call sites | screen output |
| `sqpdfo_finish.py` | all | formatting of the numbers, lines of dashes, titles |
| `sqpdfo_init_prob.py` | 36-147 (C82) | problem 1000 (data of the collection), the other constants it returns |
| `tests/benchmarks.py` | 7-79, 81-259 (C81, C82), 288-401 | - |
| `minq_util.py` | `rsort`, `removeByInd`; what `minq.py` uses is in its model | thin wrappers of numpy |
| `helper.py` | - | constants for tests |

Nothing in the property list is inexpressible; floating-point rounding and the
actual behaviour of LAPACK are outside the model.

## 5. Trusted base

* The Coq 8.16.1 kernel.
* The fidelity of the model to the cited lines, with the simplifications named
  in the comments and in sections 1 and 4.
* Axioms: none of our own. Theorems over `Q` are closed under the global
  context. Theorems over `R` rest on the axioms with which Coq's standard
  library builds the reals (`ClassicalDedekindReals.sig_forall_dec`,
  `ClassicalDedekindReals.sig_not_dec`,
  `FunctionalExtensionality.functional_extensionality_dep`). No axiom of any
  other library is used. `ASSUMPTIONS.md` lists what `Print Assumptions` says
  for each theorem; it is generated by `tools/gen_assumptions.py`.

## 6. Mutation tests

Each line of `seeded/LOG.jsonl` is one wrong program: a definition of the model
is edited in a scratch copy, everything that depends on it is rebuilt, and a
lemma whose proof no longer closes is admitted there so that the rest can be
checked. `theorems_failed` are the theorems of the claims named in the entry
that then rest on such a lemma (or fail themselves); `dependents_without_proof`
are theorems of other claims in the same position. "Failed" therefore means
that the proof no longer closes, not that the statement was shown false. An edit
that changes no claim is recorded as `equivalent edit`. Survivors that should have
been caught led to stronger theorems, listed under `theorems_tightened`.
