(** The trust-region step of TR_Model (sqpdfo_solve_TR_bc.py) with the solvers of the library in
    the places of its arguments.  Nothing new is modelled here: every definition puts the models
    of the called routines together.  What is left as an argument is linear algebra: [chol] and
    [slv] are numpy.linalg.cholesky and numpy.linalg.solve, [eig] is what sqpdfo_check_convex_
    gets from eigvalsh and eigh (is there a negative eigenvalue; eigenvalues; eigenvectors),
    [svd] is numpy.linalg.svd (singular values, right singular vectors as rows), [pin] is
    the pseudo-inverse.  [ms] is bcdfo_solve_TR_MS_ (C37). *)
From Coq Require Import Reals List Arith Bool.
From Verif Require Import RVec RBool MS_Model BC_Model Hom_Model Hess_Model Null_Model CG_Model TR_Model Msg_Model TR_Spec Mult_Model Mult_Wit.
Import ListNotations.
Open Scope R_scope.

(** bcdfo_solve_TR_MS_bc_ as called in sqpdfo_solve_TR_bc.py 72-75, 218-221, with the messages tested in 242-247 *)
Definition restore_lib (ms : nat -> nat -> vec -> mat -> R -> option ms_out) (chol : nat -> mat -> option mat) (slv : nat -> mat -> vec -> option vec)
    (k : nat) (g : vec) (A : mat) (l u : nat -> xR) (D : R) : option (vec * rmsg) :=
  match solve_bcx ms chol slv k A l u g D with
  | Some (Some o) => Some (bc_s o, classify (bc_text (bc_end o)))
  | _ => None
  end.

(** sqpdfo_check_convex_ as called in sqpdfo_solve_TR_bc.py 204 *)
Definition cvx_lib (eig : nat -> mat -> bool * vec * mat) (dim : nat) (A : mat) : mat :=
  let '(neg, d, V) := eig dim A in check_convex dim A neg d V.

(** null_ as called in sqpdfo_solve_TR_bc.py 311 *)
Definition rows_mat (rows : list vec) : mat := fun i => nth i rows vzero.
Definition null_lib (svd : nat -> nat -> mat -> vec * mat) (dim : nat) (rows : list vec) : option (nat * mat) :=
  let '(sv, vh) := svd (length rows) dim (rows_mat rows) in Some (null_ (length rows) dim sv vh).

(** sqpdfo_compute_multiplier_ as called in sqpdfo_solve_TR_bc.py 435-444; [g] is info.g *)
Definition mult_lib (eig : nat -> mat -> bool * vec * mat) (pin : nat -> mat -> list nat -> vec -> option vec)
    (n nsl : nat) (lb ub : nat -> xR) (oinf : xR) (dxmin : R) (g : vec) (ae : list vec) (sl : vec) (_ : nat) (x : vec) : option vec :=
  let me := length ae in
  let A := bigA n nsl me (rows_mat ae) sl in
  let '(neg, d, V) := eig (n + nsl + me)%nat (fun i j => rsum (n + nsl) (fun k => A i k * A j k)) in
  compute_multiplier n nsl me x (fun i => near_only (lb i) (x i) NInf) (fun i => near_only (ub i) (x i) PInf)
    oinf dxmin g (rows_mat ae) sl neg d V (lib_solver pin).

(** sqpdfo_solve_TR_bc_ with constraints; [tol] is prec_t, the iterations of 322 are 20*(n-me+nsl) *)
Definition step_lib (ms : nat -> nat -> vec -> mat -> R -> option ms_out) (chol : nat -> mat -> option mat) (slv : nat -> mat -> vec -> option vec)
    (eig : nat -> mat -> bool * vec * mat) (svd : nat -> nat -> mat -> vec * mat) (pin : nat -> mat -> list nat -> vec -> option vec)
    (tol : R) (oinf : xR) (dxmin : R) (gi : vec)
    (n nsl : nat) (lb ub : nat -> xR) (thr : R) (M0 : mat) (ce : list R) (ae : list vec) (sl : vec) (fuel : nat) (x : vec) (delta : R) (g lm : vec) : tr_res :=
  solve_con (restore_lib ms chol slv) (cvx_lib eig (n + nsl)) (null_lib svd (n + nsl)) (cg_of (20 * (n + nsl - length ce)) tol)
    (mult_lib eig pin n nsl lb ub oinf dxmin gi ae sl) n nsl lb ub thr M0 ce ae sl fuel x delta g lm.
