(** C38: the bound-constrained trust-region solver bcdfo_solve_TR_MS_bc_. *)
From Coq Require Import Reals Lra Arith.
From Verif Require Import RVec RBool Tri ProjGrad_Spec MS_Spec BC_Model BC_Spec MS_Wit Chol BC_More BC_Wit.
Open Scope R_scope.

(** the step is within its bounds, exactly *)
Theorem C38_feasible : forall ms hom n H lb ub g Delta o,
  in_bounds n lb ub vzero -> solve_bc ms hom n H lb ub g Delta = Some (Some o) -> in_bounds n lb ub (bc_s o).
Proof. exact t_feasible. Qed.
Print Assumptions C38_feasible.

(** work, whatever the linear algebra answers *)
Theorem C38_work : forall ms hom n H lb ub g Delta, in_bounds n lb ub vzero ->
  solve_bc ms hom n H lb ub g Delta <> Some None /\
  forall o, solve_bc ms hom n H lb ub g Delta = Some (Some o) ->
  (bc_passes o <= n)%nat /\ (bc_calls o <= n * n)%nat /\ (bc_trials o <= 100 * n)%nat.
Proof. exact t_work. Qed.
Print Assumptions C38_work.

Theorem C38_ends : forall ms hom n H lb ub g Delta, in_bounds n lb ub vzero ->
  (forall j k g A D, ms j k g A D <> None) -> (forall p i f s, hom p i f s <> HRaise) ->
  exists o, solve_bc ms hom n H lb ub g Delta = Some (Some o).
Proof. exact t_ends. Qed.
Print Assumptions C38_ends.

(** a variable at a bound with the model decreasing outwards does not move *)
Theorem C38_pinned : forall ms hom n H lb ub g Delta o i,
  in_bounds n lb ub vzero -> (i < n)%nat -> pinned lb ub g i ->
  solve_bc ms hom n H lb ub g Delta = Some (Some o) -> bc_s o i = 0.
Proof. exact t_pinned. Qed.
Print Assumptions C38_pinned.

Example C38_pinned_nonvacuous : pinned (fun _ => Fin 0) (fun _ => PInf) (c 1) 0 /\ in_bounds 1 (fun _ => Fin 0) (fun _ => PInf) vzero.
Proof.
  split; [left; split; [unfold c; lra|reflexivity]|]. intros i Hi. unfold vzero. cbn. split; [lra|exact I].
Qed.

(** reported norm and model value *)
Theorem C38_reported : forall ms hom n H lb ub g Delta o,
  in_bounds n lb ub vzero -> solve_bc ms hom n H lb ub g Delta = Some (Some o) ->
  bc_norms o = norm n (bc_s o) /\
  (bc_end o <> BcLimit -> bc_value o = qmodel n g H (bc_s o)) /\ (bc_end o = BcLimit -> bc_s o = vzero).
Proof. exact t_reported. Qed.
Print Assumptions C38_reported.

Example C38_nonvacuous : forall hom, in_bounds 1 lo2 hi2 vzero /\
  exists o, solve_bc msn hom 1 (m1 1) lo2 hi2 (c 1) 2 = Some (Some o) /\ bc_s o 0%nat = -1.
Proof.
  intros hom. split; [intros i Hi; unfold lo2, hi2, vzero; cbn; split; [lra|exact I]|].
  destruct (grad_case hom) as (o & E & _ & S & _). exists o. exact (conj E S).
Qed.

Theorem C38_limit_value_refuted : ~ forall ms hom n H lb ub g Delta o,
  symmetric n H -> 0 <= Delta -> in_bounds n lb ub vzero ->
  solve_bc ms hom n H lb ub g Delta = Some (Some o) -> bc_value o = qmodel n g H (bc_s o).
Proof. exact r_value. Qed.
Print Assumptions C38_limit_value_refuted.

Theorem C38_gradient_refuted : ~ forall ms hom n H lb ub g Delta o,
  symmetric n H -> 0 <= Delta -> in_bounds n lb ub vzero ->
  solve_bc ms hom n H lb ub g Delta = Some (Some o) -> bc_end o = BcInterior ->
  veq n (bc_gplus o) (vadd g (mv n H (bc_s o))).
Proof. exact r_gplus. Qed.
Print Assumptions C38_gradient_refuted.

(** length of the step, if the unconstrained solver keeps to (1 + eps) times its radius *)
Theorem C38_length : forall ms hom n H lb ub g Delta eps o,
  ms_bounded ms eps -> symmetric n H -> 0 <= eps -> 0 <= Delta -> in_bounds n lb ub vzero ->
  solve_bc ms hom n H lb ub g Delta = Some (Some o) ->
  match bc_end o with
  | BcInterior => norm n (bc_s o) <= (1 + eps) * Delta
  | BcRadiusUsed => norm n (bc_s o) <= Delta + / 10 ^ 5
  | BcError7 => Delta + / 10 ^ 5 < norm n (bc_s o)
  | _ => norm n (bc_s o) <= Delta
  end.
Proof. exact t_short. Qed.
Print Assumptions C38_length.

(** the solver of C37 keeps to it *)
Theorem C38_length_applies : forall chol slv eig eps, 0 <= eps ->
  (forall k, chol_exact k (chol k)) -> (forall k, slv_exact k (slv k)) ->
  (forall k A i, (i < k)%nat -> 0 < norm k (fun j => fst (eig k A) j i)) ->
  ms_bounded (ms_of chol slv eig eps) eps.
Proof. exact ms_of_bounded. Qed.
Print Assumptions C38_length_applies.

Example C38_length_nonvacuous : ms_bounded (ms_of cholx slvx eigx (/ 10 ^ 4)) (/ 10 ^ 4).
Proof. apply msx_bounded. apply Rlt_le, Rinv_0_lt_compat, pow_lt. lra. Qed.

Theorem C38_radius_refuted : ~ forall ms hom n H lb ub g Delta o,
  symmetric n H -> 0 <= Delta -> ms_bounded ms 0 -> in_bounds n lb ub vzero ->
  solve_bc ms hom n H lb ub g Delta = Some (Some o) -> norm n (bc_s o) <= Delta + 1.
Proof. exact r_radius. Qed.
Print Assumptions C38_radius_refuted.
