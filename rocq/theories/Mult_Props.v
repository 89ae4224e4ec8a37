(** C40, C41, C42: multipliers (sqpdfo_compute_multiplier.py) and optimality
    measures (sqpdfo_optimality.py). *)
From Coq Require Import Reals List Lra Lia.
From Verif Require Import RVec RBool ProjGrad_Spec BL_Model BL_Spec Hess_Model Mult_Model Mult_Spec Mult_Proofs Mult_Wit.
Import ListNotations.
Open Scope R_scope.

(** With any least-squares solver that respects its bounds, the multipliers of
    the bounds obey the sign rules. *)
Theorem C40_signs : forall n nsl me x lb ub oinf dxmin g ae sl evneg ev evec solver lm,
  respects_bounds solver ->
  compute_multiplier n nsl me x lb ub oinf dxmin g ae sl evneg ev evec solver = Some lm ->
  signs_ok n oinf dxmin x lb ub lm.
Proof. exact mult_signs. Qed.
Print Assumptions C40_signs.

Example C40_signs_ex : respects_bounds bsol /\ exists lm,
  compute_multiplier 1 0 0 vzero (fun _ => Fin 0) (fun _ => PInf) PInf adx (fun _ => 1) (fun _ _ => 0)
    vzero false vzero (fun _ _ => 0) bsol = Some lm /\ lm 0%nat = -1.
Proof. split; [exact (solves_respects _ bsol_solves)|exact b_run]. Qed.

(** As called by the main loop, a multiplier is negative only within 1e-5 of the
    lower bound and positive only within 1e-5 of the upper bound. *)
Theorem C40_near : forall n nsl me x lb ub oinf dxmin g ae sl evneg ev evec solver lm,
  respects_bounds solver ->
  compute_multiplier n nsl me x (fun i => near_only (lb i) (x i) NInf) (fun i => near_only (ub i) (x i) PInf)
    oinf dxmin g ae sl evneg ev evec solver = Some lm ->
  forall i, (i < n)%nat ->
    (lm i < 0 -> close (1 / 10 ^ 5) (x i) (lb i)) /\ (0 < lm i -> close (1 / 10 ^ 5) (x i) (ub i)).
Proof. exact near_signs. Qed.
Print Assumptions C40_near.

Example C40_near_ex : respects_bounds csol /\ exists glag feas compl lm,
  measures 1 1 1 vzero (fun _ => NInf) (fun _ => PInf) PInf adx cg vzero (fun _ _ => 1) vzero false vzero (fun _ _ => 0) csol
    = Some (glag, feas, compl, lm).
Proof.
  split; [exact (solves_respects _ csol_solves)|]. destruct c_run as [a [b [c [d [H _]]]]]. exists a, b, c, d. exact H.
Qed.

(** The sign rules hold with the library's own solver, unless it ignores a tiny
    component of a direction. *)
Theorem C40_blls : forall n nsl me x lb ub oinf dxmin g ae sl evneg ev evec pin lm,
  (forall r, let K := kept n nsl me x lb ub oinf dxmin in
     let M := red_mat n nsl me x lb ub oinf dxmin ae sl evneg ev evec in
     blls (length K) (length K) M (red_rhs n nsl me x lb ub oinf dxmin g ae sl)
       (red_lo n nsl me x lb ub oinf dxmin) (red_up n nsl me x lb ub oinf dxmin) (pin (length K) M) = Some r ->
     not_tiny (r_dirs r)) ->
  compute_multiplier n nsl me x lb ub oinf dxmin g ae sl evneg ev evec (lib_solver pin) = Some lm ->
  signs_ok n oinf dxmin x lb ub lm.
Proof. exact blls_signs. Qed.
Print Assumptions C40_blls.

Example C40_blls_ex : exists lm,
  compute_multiplier 1 0 0 vzero (fun _ => Fin 0) (fun _ => PInf) PInf adx (fun _ => 1) (fun _ _ => 0)
    vzero false vzero (fun _ _ => 0) (lib_solver bpin) = Some lm /\ lm 0%nat = -1 /\
  forall r, let K := kept 1 0 0 vzero (fun _ => Fin 0) (fun _ => PInf) PInf adx in
     let M := red_mat 1 0 0 vzero (fun _ => Fin 0) (fun _ => PInf) PInf adx (fun _ _ => 0) vzero false vzero (fun _ _ => 0) in
     blls (length K) (length K) M (red_rhs 1 0 0 vzero (fun _ => Fin 0) (fun _ => PInf) PInf adx (fun _ => 1) (fun _ _ => 0) vzero)
       (red_lo 1 0 0 vzero (fun _ => Fin 0) (fun _ => PInf) PInf adx)
       (red_up 1 0 0 vzero (fun _ => Fin 0) (fun _ => PInf) PInf adx) (bpin (length K) M) = Some r ->
     not_tiny (r_dirs r).
Proof. exact b_blls. Qed.

(** Without bounds the multipliers minimise the norm of the gradient of the
    Lagrangian, as documented, and those of the bounds are zero. *)
Theorem C41_free : forall n nsl me x lb ub oinf dxmin g ae sl evneg ev evec solver,
  negative_sound (n + nsl + me) (gram (n + nsl) (stacked n nsl me ae sl)) evneg -> (nsl <= me)%nat ->
  forall lm, answers_solve solver ->
  (forall i, (i < n)%nat -> xle (lb i) (opp oinf) /\ xle oinf (ub i)) ->
  compute_multiplier n nsl me x lb ub oinf dxmin g ae sl evneg ev evec solver = Some lm ->
  (forall i, (i < n)%nat -> lm i = 0) /\
  forall lam, lagr_norm n nsl me g vzero (fun k => lm (n + k)%nat) ae sl <= lagr_norm n nsl me g vzero lam ae sl.
Proof. exact mult_free. Qed.
Print Assumptions C41_free.

Example C41_free_ex : answers_solve csol /\
  negative_sound (1 + 1 + 1) (gram (1 + 1) (stacked 1 1 1 (fun _ _ => 1) vzero)) false /\
  xle NInf (opp PInf) /\ xle PInf PInf.
Proof. split; [exact csol_solves|]. split; [intros H; discriminate|]. split; exact Logic.I. Qed.

(** With bounds they do so among the multipliers obeying the sign rules,
    provided the least-squares multipliers without sign rules obey them. *)
Theorem C41_signed : forall n nsl me x lb ub oinf dxmin g ae sl evneg ev evec solver,
  negative_sound (n + nsl + me) (gram (n + nsl) (stacked n nsl me ae sl)) evneg -> (nsl <= me)%nat ->
  forall lm, answers_solve solver ->
  (exists mu lam, signs_ok n oinf dxmin x lb ub mu /\ forall mu' lam', zero_where_forced n oinf dxmin x lb ub mu' ->
     lagr_norm n nsl me g mu lam ae sl <= lagr_norm n nsl me g mu' lam' ae sl) ->
  compute_multiplier n nsl me x lb ub oinf dxmin g ae sl evneg ev evec solver = Some lm ->
  signs_ok n oinf dxmin x lb ub lm /\
  forall mu' lam', signs_ok n oinf dxmin x lb ub mu' ->
  lagr_norm n nsl me g lm (fun k => lm (n + k)%nat) ae sl <= lagr_norm n nsl me g mu' lam' ae sl.
Proof. exact mult_signed_solves. Qed.
Print Assumptions C41_signed.

Example C41_signed_ex : answers_solve bsol /\
  (exists mu lam, signs_ok 1 PInf adx vzero (fun _ => Fin 0) (fun _ => PInf) mu /\
  forall mu' lam', zero_where_forced 1 PInf adx vzero (fun _ => Fin 0) (fun _ => PInf) mu' ->
     lagr_norm 1 0 0 (fun _ => 1) mu lam (fun _ _ => 0) vzero <= lagr_norm 1 0 0 (fun _ => 1) mu' lam' (fun _ _ => 0) vzero).
Proof. split; [exact bsol_solves|exact b_signed]. Qed.

(** Otherwise they need not: the problem solved is not the one documented. *)
Theorem C41_least_squares_refuted : ~ (forall n nsl me x lb ub oinf dxmin g ae sl evneg ev evec solver lm,
  (nsl <= me)%nat -> answers_solve solver ->
  negative_sound (n + nsl + me) (gram (n + nsl) (stacked n nsl me ae sl)) evneg ->
  compute_multiplier n nsl me x lb ub oinf dxmin g ae sl evneg ev evec solver = Some lm ->
  forall mu lam, signs_ok n oinf dxmin x lb ub mu ->
  lagr_norm n nsl me g lm (fun k => lm (n + k)%nat) ae sl <= lagr_norm n nsl me g mu lam ae sl).
Proof. exact least_squares_refuted. Qed.
Print Assumptions C41_least_squares_refuted.

Example C41_least_squares_ex : answers_solve asol /\ exists lm,
  compute_multiplier 2 0 1 ax alb aub PInf adx ag aae vzero false vzero (fun _ _ => 0) asol = Some lm /\
  lm 0%nat = 0 /\ lm 1%nat = 0 /\ lm 2%nat = - (2 / 5).
Proof. split; [exact asol_solves|exact a_run]. Qed.

(** What is measured: complementarity is always 0; feasibility is the value of
    the constraints, less the squared slacks; the gradient is that of the
    Lagrangian without the multipliers of variables not within 1e-5 of a bound. *)
Theorem C42_measures : forall n nsl me x lb ub oinf dxmin g ce ae sl evneg ev evec solver glag feas compl lm,
  (nsl <= me)%nat ->
  measures n nsl me x lb ub oinf dxmin g ce ae sl evneg ev evec solver = Some (glag, feas, compl, lm) ->
  (forall i, compl i = 0) /\
  (forall k, (k < me - nsl)%nat -> feas k = ce k) /\
  (forall t, (t < nsl)%nat -> feas (me - nsl + t)%nat = ce (me - nsl + t)%nat - sl t * sl t) /\
  (forall j, (j < n)%nat -> close (1 / 10 ^ 5) (x j) (lb j) \/ close (1 / 10 ^ 5) (x j) (ub j) ->
     glag j = lagr me g lm (fun k => lm (n + k)%nat) ae j) /\
  (forall j, (j < n)%nat -> ~ (close (1 / 10 ^ 5) (x j) (lb j) \/ close (1 / 10 ^ 5) (x j) (ub j)) ->
     glag j = lagr me g vzero (fun k => lm (n + k)%nat) ae j).
Proof. exact measures_meaning. Qed.
Print Assumptions C42_measures.

(** With a solver that respects its bounds, the gradient measured is that of the
    Lagrangian for multipliers with the right signs at nearby bounds. *)
Theorem C42_kkt : forall n nsl me x lb ub oinf dxmin g ce ae sl evneg ev evec solver glag feas compl lm,
  (nsl <= me)%nat -> respects_bounds solver ->
  measures n nsl me x lb ub oinf dxmin g ce ae sl evneg ev evec solver = Some (glag, feas, compl, lm) ->
  forall j, (j < n)%nat ->
    glag j = lagr me g lm (fun k => lm (n + k)%nat) ae j /\
    (lm j < 0 -> close (1 / 10 ^ 5) (x j) (lb j)) /\ (0 < lm j -> close (1 / 10 ^ 5) (x j) (ub j)).
Proof. exact measures_kkt. Qed.
Print Assumptions C42_kkt.

(** Away from the bounds and with a zero gradient measure, the multiplier of an
    inequality with a non-zero slack is zero. *)
Theorem C42_slack : forall n nsl me x lb ub oinf dxmin g ce ae sl evneg ev evec solver glag feas compl lm,
  (nsl <= me)%nat -> answers_solve solver ->
  negative_sound (n + nsl + me) (gram (n + nsl) (stacked n nsl me ae sl)) evneg ->
  (forall i, (i < n)%nat -> ~ close (1 / 10 ^ 5) (x i) (lb i) /\ ~ close (1 / 10 ^ 5) (x i) (ub i)) ->
  measures n nsl me x lb ub oinf dxmin g ce ae sl evneg ev evec solver = Some (glag, feas, compl, lm) ->
  (forall j, (j < n)%nat -> glag j = 0) ->
  forall t, (t < nsl)%nat -> sl t * lm (n + (me - nsl + t))%nat = 0.
Proof. exact measures_slack. Qed.
Print Assumptions C42_slack.

(** But passing the test does not give the first-order conditions: the sign of
    the multiplier of an inequality is not looked at. *)
Theorem C42_first_order_refuted :
  ~ (forall n nsl me x lb ub oinf dxmin g ce ae sl evneg ev evec solver glag feas compl lm,
  (nsl <= me)%nat -> answers_solve solver ->
  negative_sound (n + nsl + me) (gram (n + nsl) (stacked n nsl me ae sl)) evneg ->
  measures n nsl me x lb ub oinf dxmin g ce ae sl evneg ev evec solver = Some (glag, feas, compl, lm) ->
  (forall j, (j < n)%nat -> glag j = 0 /\ compl j = 0) -> (forall k, (k < me)%nat -> feas k = 0) ->
  first_order_conditions n nsl me x lb ub g ce ae).
Proof. exact kkt_refuted. Qed.
Print Assumptions C42_first_order_refuted.

Example C42_ex : answers_solve csol /\ exists glag feas compl lm,
  measures 1 1 1 vzero (fun _ => NInf) (fun _ => PInf) PInf adx cg vzero (fun _ _ => 1) vzero false vzero (fun _ _ => 0) csol
    = Some (glag, feas, compl, lm) /\
  glag 0%nat = 0 /\ feas 0%nat = 0 /\ lm 0%nat = 0 /\ lm 1%nat = 1.
Proof. split; [exact csol_solves|exact c_run]. Qed.
