(** Model of the first multipliers and the first optimality measures, at the end of
    sqpdfo_prelim.py.  Exact reals; [mi = 0] (inequalities have been turned into equalities with
    slacks); no multipliers are given by the caller ([lm0] is empty, sqpdfo.py never sets it). *)
From Coq Require Import Reals Arith List Bool.
From Verif Require Import RVec RBool Hess_Model Mult_Model.
Import ListNotations.
Open Scope R_scope.

(** sqpdfo_optimality.py:30 and 40: some variable is close to one of its bounds *)
Definition any_near (n : nat) (x : vec) (lb ub : nat -> xR) : bool :=
  existsb (fun j => near (1 / 10 ^ 5) (x j) (lb j) || near (1 / 10 ^ 5) (x j) (ub j)) (seq 0 n).

(** sqpdfo_prelim.py:565-588; [counted] is nb.  The empty lists given for the bounds are replaced
    by -options.inf and options.inf (sqpdfo_compute_multiplier.py:77-86).  If nothing is counted,
    lm stays the empty array of sqpdfo_prelim.py:108, and lm[I] raises for a nonempty list I of
    indices (sqpdfo_optimality.py:41); it is represented by zeros, it has no entries.  For an empty
    list I the assignment in line 41 is between empty arrays of shapes (0,1) and (0,0); whether
    NumPy accepts it is the argument [empty_ok].
    The answer: gradient of the Lagrangian, feasibility, complementarity, multipliers; None is an
    exception. *)
Definition first_measures (empty_ok : bool) (n nsl me counted : nat) (x : vec) (lb ub : nat -> xR) (oinf : xR) (dxmin : R)
    (g ce : vec) (ae : mat) (sl : vec) (evneg : bool) (ev : vec) (evec : mat) (solver : lsq_solver)
    : option (vec * vec * vec * vec) :=
  if (counted + me =? 0)%nat then
    if any_near n x lb ub || negb empty_ok then None
    else Some (opt_glag n nsl me x lb ub g ae sl vzero, opt_feas nsl me sl ce, opt_compl, vzero)
  else
    match compute_multiplier n nsl me x (fun _ => xneg oinf) (fun _ => oinf) oinf dxmin g ae sl evneg ev evec solver with
    | None => None
    | Some lm => Some (opt_glag n nsl me x lb ub g ae sl lm, opt_feas nsl me sl ce, opt_compl, lm)
    end.
