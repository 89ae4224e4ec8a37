(** Property theorems: first-order points recognised by the library's own
    solvers (C86). *)
From Coq Require Import Reals List Lra Lia.
From Verif Require Import RVec RBool BL_Model BL_Spec Hess_Model Mult_Model Mult_Spec Mult_Proofs Mult_Wit Kkt_Spec Kkt_Proofs Kkt_Wit.
Import ListNotations.
Open Scope R_scope.

(** with independent rows, multipliers of the right signs that solve the
    least-squares problem without signs are returned as they are *)
Theorem C86_returned : forall n nsl me x lb ub oinf dxmin g ae sl evneg ev evec pin,
  negative_sound (n + nsl + me) (gram (n + nsl) (stacked n nsl me ae sl)) evneg -> (nsl <= me)%nat -> solves_systems (n + me) pin ->
  independent n nsl me oinf dxmin x lb ub ae sl ->
  forall mu lam, signs_ok n oinf dxmin x lb ub mu ->
  (forall mu' lam', zero_where_forced n oinf dxmin x lb ub mu' ->
     lagr_norm n nsl me g mu lam ae sl <= lagr_norm n nsl me g mu' lam' ae sl) ->
  exists lm, compute_multiplier n nsl me x lb ub oinf dxmin g ae sl evneg ev evec (lib_solver pin) = Some lm /\
    (forall i, (i < n)%nat -> lm i = mu i) /\ (forall k, (k < me)%nat -> lm (n + k)%nat = lam k).
Proof. exact returned. Qed.
Print Assumptions C86_returned.

(** at a first-order point with independent active gradients all measures are
    zero and the multipliers are found *)
Theorem C86_recognised : forall n nsl me x lb ub dxmin g ce ae sl evneg ev evec pin mu lam,
  negative_sound (n + nsl + me) (gram (n + nsl) (stacked n nsl me ae sl)) evneg -> (nsl <= me)%nat -> solves_systems (n + me) pin ->
  first_order_point n nsl me (1 / 10 ^ 5) dxmin x lb ub g ce ae mu lam -> slacks_fit nsl me ce sl ->
  active_independent n nsl me (1 / 10 ^ 5) x lb ub ce ae ->
  exists glag feas compl lm,
    measures n nsl me x lb ub PInf dxmin g ce ae sl evneg ev evec (lib_solver pin) = Some (glag, feas, compl, lm) /\
    (forall j, (j < n)%nat -> glag j = 0 /\ compl j = 0 /\ lm j = mu j) /\
    (forall k, (k < me)%nat -> feas k = 0 /\ lm (n + k)%nat = lam k).
Proof. exact recognised. Qed.
Print Assumptions C86_recognised.

Example C86_recognised_ex : solves_systems (1 + 0) pin1 /\
  first_order_point 1 0 0 (1 / 10 ^ 5) kd vzero (fun _ => Fin 0) (fun _ => PInf) (fun _ => 1) vzero (fun _ _ => 0) (fun _ => -1) vzero /\
  slacks_fit 0 0 vzero vzero /\
  active_independent 1 0 0 (1 / 10 ^ 5) vzero (fun _ => Fin 0) (fun _ => PInf) vzero (fun _ _ => 0) /\
  (forall N M, negative_sound N M false).
Proof. exact (conj pin1_solves (conj low_point (conj no_slack (conj low_independent sound_false)))). Qed.

(** without the condition on the opposite bound this is false: with bounds
    closer than dxmin both signs are excluded *)
Theorem C86_opposite_bound_refuted : ~ (forall n nsl me x lb ub dxmin g ce ae sl evneg ev evec pin mu lam,
  negative_sound (n + nsl + me) (gram (n + nsl) (stacked n nsl me ae sl)) evneg -> (nsl <= me)%nat -> solves_systems (n + me) pin ->
  first_order_point n nsl me (1 / 10 ^ 5) 0 x lb ub g ce ae mu lam -> slacks_fit nsl me ce sl ->
  active_independent n nsl me (1 / 10 ^ 5) x lb ub ce ae ->
  exists glag feas compl lm,
    measures n nsl me x lb ub PInf dxmin g ce ae sl evneg ev evec (lib_solver pin) = Some (glag, feas, compl, lm) /\
    (forall j, (j < n)%nat -> glag j = 0)).
Proof. exact tight_missed. Qed.
Print Assumptions C86_opposite_bound_refuted.

Example C86_opposite_bound_ex : exists glag feas compl lm,
  measures 1 0 0 vzero (fun _ => Fin 0) kub PInf kd (fun _ => 1) vzero (fun _ _ => 0) vzero false vzero (fun _ _ => 0) (lib_solver pin1)
    = Some (glag, feas, compl, lm) /\ glag O = 1 /\ lm O = 0.
Proof. exact tight_run. Qed.
