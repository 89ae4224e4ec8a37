(** C37: the trust-region solver bcdfo_solve_TR_MS_. *)
From Coq Require Import Reals Lra Arith.
From Verif Require Import RVec Tri MS_Model MS_Spec MS_Proofs MS_More Chol MS_Wit.
Open Scope R_scope.

(** what a regular exit reports *)
Theorem C37_regular_exit : forall chol slv eigv eigd n g H Delta eps_D o,
  chol_exact n chol -> slv_exact n slv -> symmetric n H -> 0 < Delta -> / 10 ^ 12 <= norm n g ^ 2 ->
  solve_MS chol slv eigv eigd n g H Delta eps_D = Some o -> ms_hard o = false ->
  0 <= ms_lambda o /\ stationary n g H (ms_lambda o) (ms_s o) /\ shift_pd n H (ms_lambda o) /\
  ms_norms o = norm n (ms_s o) /\ ms_norms o <= (1 + eps_D) * Delta /\
  (ms_lambda o <= / 10 ^ 12 \/ (1 - eps_D) * Delta <= ms_norms o) /\
  ms_value o = qmodel n g H (ms_s o) /\ ms_gplus o = vadd g (mv n H (ms_s o)).
Proof. exact t_regular. Qed.
Print Assumptions C37_regular_exit.

(** no step of at most the same length is better; how far from the best over the ball; descent *)
Theorem C37_regular_optimal : forall chol slv eigv eigd n g H Delta eps_D o,
  chol_exact n chol -> slv_exact n slv -> symmetric n H -> 0 < Delta -> / 10 ^ 12 <= norm n g ^ 2 ->
  solve_MS chol slv eigv eigd n g H Delta eps_D = Some o -> ms_hard o = false ->
  minimises n g H (ms_norms o) 0 (ms_s o) /\
  minimises n g H Delta (ms_lambda o / 2 * (Delta * Delta - ms_norms o * ms_norms o)) (ms_s o) /\
  ms_value o <= - (ms_lambda o / 2 * (ms_norms o * ms_norms o)).
Proof. exact t_optimal. Qed.
Print Assumptions C37_regular_optimal.

Theorem C37_regular_gap : forall chol slv eigv eigd n g H Delta eps_D o,
  chol_exact n chol -> slv_exact n slv -> symmetric n H -> 0 < Delta -> / 10 ^ 12 <= norm n g ^ 2 ->
  0 <= eps_D <= 1 ->
  solve_MS chol slv eigv eigd n g H Delta eps_D = Some o -> ms_hard o = false ->
  minimises n g H Delta (Rmax (/ 10 ^ 12 / 2 * (Delta * Delta)) (ms_lambda o * (eps_D * (Delta * Delta)))) (ms_s o).
Proof. exact t_gap. Qed.
Print Assumptions C37_regular_gap.

(** a Newton step inside the ball is returned after one factorisation *)
Theorem C37_newton : forall chol slv eigv eigd n g H Delta eps_D o z,
  chol_exact n chol -> slv_exact n slv -> symmetric n H -> 0 < Delta -> / 10 ^ 12 <= norm n g ^ 2 ->
  0 <= eps_D -> posdef n H -> (forall i, (i < n)%nat -> mv n H z i = - g i) -> norm n z <= Delta ->
  solve_MS chol slv eigv eigd n g H Delta eps_D = Some o ->
  veq n (ms_s o) z /\ ms_lambda o = 0 /\ ms_nfact o = 1%nat /\ ms_hard o = false.
Proof. exact t_newton. Qed.
Print Assumptions C37_newton.

Example C37_regular_nonvacuous : exists chol slv eigv eigd n g H Delta eps_D o,
  chol_exact n chol /\ slv_exact n slv /\ symmetric n H /\ 0 < Delta /\
  solve_MS chol slv eigv eigd n g H Delta eps_D = Some o /\ veq 1 (ms_s o) (c (-1)) /\ ms_hard o = false.
Proof.
  destruct newton_case as (o & E & V & _ & _ & N).
  exists chol1, slv1, idm, (c 1), 1%nat, (c 1), (m1 1), 2, (/ 10000), o.
  exact (conj chol1_exact (conj slv1_exact (conj (sym1 _) (conj Rlt_0_2 (conj E (conj V N)))))).
Qed.

(** never an exception with exact linear algebra *)
Theorem C37_total : forall chol slv eigv eigd n g H Delta eps_D,
  chol_exact n chol -> slv_exact n slv -> symmetric n H ->
  solve_MS chol slv eigv eigd n g H Delta eps_D <> None.
Proof. exact t_total. Qed.
Print Assumptions C37_total.

(** exact linear algebra exists for every dimension *)
Example C37_total_nonvacuous : forall n, chol_exact n (cholx n) /\ slv_exact n (slvx n) /\ symmetric n idm.
Proof.
  intros n. split; [exact (cholx_exact n)|]. split; [exact (slvx_exact n)|].
  intros i j _ _. unfold idm. rewrite Nat.eqb_sym. reflexivity.
Qed.

(** whatever the linear algebra answers: at most 300 factorisations and one eigen decomposition *)
Theorem C37_work : forall chol slv eigv eigd n g H Delta eps_D o,
  solve_MS chol slv eigv eigd n g H Delta eps_D = Some o ->
  (ms_nfact o <= 300)%nat /\ (ms_neigd o <= 1)%nat /\ (ms_neigd o = 1%nat <-> ms_hard o = true).
Proof. exact t_count. Qed.
Print Assumptions C37_work.

Example C37_work_nonvacuous : exists o, solve_MS nochol slv1 idm dd2 2 g2 H2 1 (/ 10 ^ 4) = Some o /\ ms_hard o = true.
Proof. exact hard2_out. Qed.

(** zero radius or tiny gradient: the zero step *)
Theorem C37_zero_step : forall chol slv eigv eigd n g H Delta eps_D o,
  Delta = 0 \/ norm n g ^ 2 < / 10 ^ 12 ->
  solve_MS chol slv eigv eigd n g H Delta eps_D = Some o ->
  ms_s o = vzero /\ ms_norms o = 0 /\ ms_value o = 0 /\ ms_nfact o = 0%nat /\ ms_hard o = false.
Proof. exact t_zero. Qed.
Print Assumptions C37_zero_step.

Theorem C37_zero_step_optimal_refuted : ~ forall chol slv eigv eigd n g H Delta eps_D o,
  chol_exact n chol -> slv_exact n slv -> symmetric n H -> 0 < Delta ->
  solve_MS chol slv eigv eigd n g H Delta eps_D = Some o -> minimises n g H Delta (/ 4) (ms_s o).
Proof. exact r_flat. Qed.
Print Assumptions C37_zero_step_optimal_refuted.

(** the interval searched for the multiplier never loses the optimal one *)
Theorem C37_bracket : forall chol slv n g H Delta eps_D k l u lam mu z,
  chol_exact n chol -> slv_exact n slv -> symmetric n H -> 0 <= eps_D -> 0 < Delta ->
  stationary n g H mu z -> shift_psd n H mu -> 0 <= mu -> norm n z = Delta ->
  passes chol slv n g H Delta eps_D k (ms_lower n g H Delta) (ms_upper n g H Delta)
    (ms_first (ms_lower n g H Delta) (ms_upper n g H Delta)) = Some (l, u, lam) ->
  l <= mu <= u /\ l <= lam <= u.
Proof. exact t_bracket. Qed.
Print Assumptions C37_bracket.

Example C37_bracket_nonvacuous : exists l u lam,
  passes chol1 slv1 1 (c 1) (m1 1) (/ 2) 0 1 (ms_lower 1 (c 1) (m1 1) (/ 2)) (ms_upper 1 (c 1) (m1 1) (/ 2))
    (ms_first (ms_lower 1 (c 1) (m1 1) (/ 2)) (ms_upper 1 (c 1) (m1 1) (/ 2))) = Some (l, u, lam) /\
  stationary 1 (c 1) (m1 1) 1 (c (- / 2)) /\ shift_psd 1 (m1 1) 1 /\ norm 1 (c (- / 2)) = / 2.
Proof. exact bracket_case. Qed.

(** what a pass does: bisection if the shifted matrix is not positive definite, else Newton's
    value for 1/|s| = 1/Delta if it lies well inside the interval; Newton's value is never
    above the optimal multiplier *)
Theorem C37_next_value : forall chol slv n g H Delta eps_D l u lam l' u' lam',
  chol_exact n chol -> slv_exact n slv -> symmetric n H -> 0 < norm n g -> 0 < Delta ->
  passes chol slv n g H Delta eps_D 1 l u lam = Some (l', u', lam') ->
  (~ shift_pd n H lam /\ l' = lam /\ u' = u /\ lam' = (lam + u) / 2) \/
  (shift_pd n H lam /\ exists s q new, stationary n g H lam s /\ (forall i, (i < n)%nat -> mv n H q i + lam * q i = s i) /\
     (((1 + eps_D) * Delta < norm n s /\ l' = lam /\ u' = u) \/
      (norm n s < (1 - eps_D) * Delta /\ / 10 ^ 12 < lam /\ l' = l /\ u' = lam)) /\
     new = lam + (norm n s - Delta) / Delta * (norm n s ^ 2 / dot n q s) /\
     ((l' + / 10 ^ 13 * (u' - l') < new < u' - / 10 ^ 13 * (u' - l') /\ lam' = new) \/
      (~ (l' + / 10 ^ 13 * (u' - l') < new < u' - / 10 ^ 13 * (u' - l')) /\ lam' = Rmax (sqrt (l' * u')) (l' + / 10 ^ 13 * (u' - l')))) /\
     (forall mu z, stationary n g H mu z -> shift_psd n H mu -> norm n z = Delta -> new <= mu)).
Proof. exact t_value. Qed.
Print Assumptions C37_next_value.

Example C37_next_value_nonvacuous : chol_exact 1 chol1 /\ slv_exact 1 slv1 /\ symmetric 1 (m1 1) /\ 0 < norm 1 (c 1) /\
  exists l u lam l' u' lam', passes chol1 slv1 1 (c 1) (m1 1) (/ 2) 0 1 l u lam = Some (l', u', lam').
Proof.
  split; [exact chol1_exact|]. split; [exact slv1_exact|]. split; [exact (sym1 _)|]. split.
  - rewrite norm_c. unfold c. rewrite Rabs_R1. exact Rlt_0_1.
  - destruct bracket_case as (l' & u' & lam' & E & _). do 6 eexists. exact E.
Qed.

(** the pseudo hard case is entered after 300 passes or with a tiny interval only *)
Theorem C37_hard_entry : forall chol slv eigv eigd n g H Delta eps_D o,
  solve_MS chol slv eigv eigd n g H Delta eps_D = Some o -> ms_hard o = true ->
  exists l u lam, passes chol slv n g H Delta eps_D (ms_nfact o) (ms_lower n g H Delta) (ms_upper n g H Delta)
      (ms_first (ms_lower n g H Delta) (ms_upper n g H Delta)) = Some (l, u, lam) /\
    (ms_nfact o = 300%nat \/ u - l < / 10 ^ 13 * Rmax 1 u).
Proof. exact t_hard_entry. Qed.
Print Assumptions C37_hard_entry.

Example C37_hard_entry_nonvacuous : exists o, solve_MS nochol slv1 idm dd2 2 g2 H2 1 (/ 10 ^ 4) = Some o /\ ms_hard o = true.
Proof. exact hard2_out. Qed.

(** the pseudo hard case: the step before discarding has the length of the radius *)
Theorem C37_hard_norm : forall chol slv eigv eigd n g H Delta eps_D o,
  0 < Delta -> (forall k, (k < n)%nat -> 0 < norm n (fun i => eigv i k)) -> (0 < n)%nat ->
  solve_MS chol slv eigv eigd n g H Delta eps_D = Some o -> ms_hard o = true ->
  ms_norms o = Delta /\
  ((/ 10 ^ 15 < Rabs (ms_value o) /\ norm n (ms_s o) = Delta /\ ms_value o = qmodel n g H (ms_s o)) \/
   (Rabs (ms_value o) <= / 10 ^ 15 /\ ms_s o = vzero)).
Proof. exact t_hard_norm. Qed.
Print Assumptions C37_hard_norm.

(** a true hard case is solved *)
Theorem C37_hard_optimal : forall chol slv eigv eigd n g H Delta eps_D o mu,
  0 < Delta -> (0 < n)%nat -> eigen_exact n H eigd eigv -> hard_instance n g H eigd mu Delta ->
  solve_MS chol slv eigv eigd n g H Delta eps_D = Some o -> ms_hard o = true ->
  ms_lambda o = - mu /\ shift_psd n H (ms_lambda o) /\ minimises n g H Delta (/ 10 ^ 15) (ms_s o) /\
  (/ 10 ^ 15 < Rabs (ms_value o) -> minimises n g H Delta 0 (ms_s o) /\ stationary n g H (ms_lambda o) (ms_s o)).
Proof. exact t_hard_true. Qed.
Print Assumptions C37_hard_optimal.

Example C37_hard_nonvacuous : eigen_exact 2 H2 dd2 idm /\ hard_instance 2 g2 H2 dd2 (-1) 1 /\
  exists o, solve_MS nochol slv1 idm dd2 2 g2 H2 1 (/ 10 ^ 4) = Some o /\ ms_hard o = true.
Proof. exact (conj eig2 (conj hard2 hard2_out)). Qed.

(** but the pseudo hard case can be entered outside a hard case and then step uphill, even with
    exact linear algebra and the relative accuracy 1e-4 *)
Theorem C37_hard_descent_refuted : ~ forall chol slv eigv eigd n g H Delta o,
  chol_exact n chol -> slv_exact n slv -> symmetric n H -> eigen_exact n H eigd eigv -> 0 < Delta ->
  solve_MS chol slv eigv eigd n g H Delta (/ 10 ^ 4) = Some o -> ms_value o <= 0.
Proof. exact r_up. Qed.
Print Assumptions C37_hard_descent_refuted.

(** and the reported length need not be that of the step *)
Theorem C37_reported_norm_refuted : ~ forall chol slv eigv eigd n g H Delta eps_D o,
  chol_exact n chol -> slv_exact n slv -> symmetric n H -> eigen_exact n H eigd eigv -> 0 < Delta ->
  solve_MS chol slv eigv eigd n g H Delta eps_D = Some o -> ms_norms o = norm n (ms_s o).
Proof. exact r_norm. Qed.
Print Assumptions C37_reported_norm_refuted.

(** the message left behind *)
Theorem C37_message : forall chol slv eigv eigd n g H Delta eps_D o,
  solve_MS chol slv eigv eigd n g H Delta eps_D = Some o ->
  (Delta = 0 -> ms_tag o = MsZeroRadius) /\
  (Delta <> 0 -> norm n g ^ 2 < / 10 ^ 12 -> ms_tag o = MsZeroGradient) /\
  (Delta <> 0 -> / 10 ^ 12 <= norm n g ^ 2 ->
    (ms_norms o < (1 - eps_D) * Delta -> ms_tag o = MsInterior) /\
    ((1 - eps_D) * Delta <= ms_norms o -> ms_tag o = MsBoundary)).
Proof. exact t_message. Qed.
Print Assumptions C37_message.

Example C37_message_nonvacuous : exists o, solve_MS nochol slv1 idm dd2 2 g2 H2 1 (/ 10 ^ 4) = Some o /\
  ms_norms o = 1 /\ ms_tag o = MsBoundary.
Proof. exact hard2_message. Qed.
