(** C80: the first multipliers and the first optimality measures
    (sqpdfo_prelim.py 565-588). *)
From Coq Require Import Reals List Lra Lia.
From Verif Require Import RVec RBool ProjGrad_Spec BL_Model BL_Spec Hess_Model Mult_Model Mult_Spec Mult_Wit Ini_Model Ini_Proofs Ini_Wit.
Import ListNotations.
Open Scope R_scope.

(** The bounds are left out: their multipliers are zero whatever the bounds are,
    the others are least-squares multipliers of the equalities alone, and the
    measured gradient is orthogonal to the gradients of the equalities without
    slacks; it is never longer than the gradient of the objective. *)
Theorem C80_first : forall empty_ok n nsl me counted x lb ub oinf dxmin g ce ae sl evneg ev evec solver,
  (nsl <= me)%nat -> forall glag feas compl lm, answers_solve solver ->
  negative_sound (n + nsl + me) (gram (n + nsl) (stacked n nsl me ae sl)) evneg ->
  (1 <= counted + me)%nat ->
  first_measures empty_ok n nsl me counted x lb ub oinf dxmin g ce ae sl evneg ev evec solver = Some (glag, feas, compl, lm) ->
  (forall i, (i < n)%nat -> lm i = 0) /\
  (forall j, (j < n)%nat -> glag j = lagr me g vzero (fun k => lm (n + k)%nat) ae j) /\
  (forall lam, lagr_norm n nsl me g vzero (fun k => lm (n + k)%nat) ae sl <= lagr_norm n nsl me g vzero lam ae sl) /\
  (forall k, (k < me - nsl)%nat -> dot n (ae k) glag = 0) /\
  (forall t, (t < nsl)%nat -> dot n (ae (me - nsl + t)%nat) glag = - 4 * (sl t * sl t) * lm (n + (me - nsl + t))%nat) /\
  norm n glag <= norm n g.
Proof. exact first_ok. Qed.
Print Assumptions C80_first.

Example C80_first_ex : answers_solve csol /\ exists glag feas compl lm,
  first_measures true 1 1 1 0 vzero (fun _ => NInf) (fun _ => PInf) PInf adx cg vzero (fun _ _ => 1) vzero false vzero (fun _ _ => 0) csol
    = Some (glag, feas, compl, lm) /\
  glag 0%nat = 0 /\ feas 0%nat = 0 /\ lm 0%nat = 0 /\ lm 1%nat = 1.
Proof. split; [exact csol_solves|exact ini_c_run]. Qed.

(** Feasibility and complementarity are those of C42. *)
Theorem C80_feasibility : forall empty_ok n nsl me counted x lb ub oinf dxmin g ce ae sl evneg ev evec solver,
  (nsl <= me)%nat -> forall glag feas compl lm,
  first_measures empty_ok n nsl me counted x lb ub oinf dxmin g ce ae sl evneg ev evec solver = Some (glag, feas, compl, lm) ->
  (forall i, compl i = 0) /\ (forall k, (k < me - nsl)%nat -> feas k = ce k) /\
  (forall t, (t < nsl)%nat -> feas (me - nsl + t)%nat = ce (me - nsl + t)%nat - sl t * sl t).
Proof. exact first_feas. Qed.
Print Assumptions C80_feasibility.

(** Nothing counted: an exception if a variable is near a bound; any answer is
    the gradient of the objective. *)
Theorem C80_none : forall empty_ok n nsl me counted x lb ub oinf dxmin g ce ae sl evneg ev evec solver,
  counted = 0%nat -> me = 0%nat ->
  ((exists j, (j < n)%nat /\ (close (1 / 10 ^ 5) (x j) (lb j) \/ close (1 / 10 ^ 5) (x j) (ub j))) ->
   first_measures empty_ok n nsl me counted x lb ub oinf dxmin g ce ae sl evneg ev evec solver = None) /\
  (forall glag feas compl lm, first_measures empty_ok n nsl me counted x lb ub oinf dxmin g ce ae sl evneg ev evec solver = Some (glag, feas, compl, lm) ->
   forall j, (j < n)%nat -> glag j = g j).
Proof. exact first_none. Qed.
Print Assumptions C80_none.

(** A starting point that satisfies the first-order conditions need not have a
    zero measure. *)
Theorem C80_optimal_refuted : ~ (forall n nsl me counted x lb ub oinf dxmin g ce ae sl evneg ev evec solver glag feas compl lm,
  (nsl <= me)%nat -> (1 <= counted + me)%nat -> answers_solve solver ->
  negative_sound (n + nsl + me) (gram (n + nsl) (stacked n nsl me ae sl)) evneg ->
  first_order_conditions n nsl me x lb ub g ce ae ->
  first_measures true n nsl me counted x lb ub oinf dxmin g ce ae sl evneg ev evec solver = Some (glag, feas, compl, lm) ->
  forall j, (j < n)%nat -> glag j = 0).
Proof. exact first_optimal_refuted. Qed.
Print Assumptions C80_optimal_refuted.

Example C80_optimal_ex :
  first_order_conditions 1 0 0 vzero (fun _ => Fin 0) (fun _ => PInf) (fun _ => 1) vzero (fun _ _ => 0) /\
  exists glag feas compl lm,
  first_measures true 1 0 0 1 vzero (fun _ => Fin 0) (fun _ => PInf) PInf adx (fun _ => 1) vzero (fun _ _ => 0) vzero false vzero (fun _ _ => 0) bsol
    = Some (glag, feas, compl, lm) /\ glag 0%nat = 1.
Proof. split; [exact b_first_order|exact ini_b_run]. Qed.
