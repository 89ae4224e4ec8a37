(** C34, C52: property theorems about the truncated conjugate-gradient solver. *)
From Coq Require Import Reals Arith ZArith List Lra Lia.
From Verif Require Import RVec RBool CG_Model CG_Spec CG_Proofs CG_More CG_Cauchy.
Import ListNotations.
Open Scope R_scope.

Theorem C34_inside : forall n A b delta max_iter tol, 0 <= delta ->
  norm n (tcg_x (truncated_cg n A b delta max_iter tol)) <= delta.
Proof. exact cg_inside. Qed.
Print Assumptions C34_inside.

Theorem C34_flags : forall n A b delta max_iter tol, 0 <= delta ->
  In (tcg_flag (truncated_cg n A b delta max_iter tol)) [0; -1; 1; 2]%Z.
Proof. exact cg_flags. Qed.
Print Assumptions C34_flags.

Theorem C34_solved : forall n A b delta max_iter tol, 0 <= delta -> 0 <= tol ->
  tcg_flag (truncated_cg n A b delta max_iter tol) = 0%Z ->
  norm n (residual n A b (tcg_x (truncated_cg n A b delta max_iter tol))) <= tol.
Proof. exact cg_solved. Qed.
Print Assumptions C34_solved.

Theorem C34_boundary : forall n A b delta max_iter tol, 0 <= delta ->
  tcg_flag (truncated_cg n A b delta max_iter tol) = 1%Z \/ tcg_flag (truncated_cg n A b delta max_iter tol) = 2%Z ->
  norm n (tcg_x (truncated_cg n A b delta max_iter tol)) = delta.
Proof. exact cg_boundary. Qed.
Print Assumptions C34_boundary.

(** Cost at most that of the zero step ... *)
Theorem C34_descent : forall n A b delta max_iter tol, symmetric n A -> 0 <= delta ->
  cost n A b (tcg_x (truncated_cg n A b delta max_iter tol)) <= 0.
Proof. exact cg_descent. Qed.
Print Assumptions C34_descent.

(** The step never leads against the right-hand side. *)
Theorem C34_forward : forall n A b delta max_iter tol, symmetric n A -> 0 <= delta ->
  0 <= dot n b (tcg_x (truncated_cg n A b delta max_iter tol)).
Proof. exact cg_forward. Qed.
Print Assumptions C34_forward.

(** The cost is also non-increasing from one iterate to the next: the iterate after k
    rounds is what the solver returns with iteration limit k. *)
Theorem C34_monotone : forall n A b delta max_iter tol, symmetric n A -> 0 <= delta ->
  cost n A b (tcg_x (truncated_cg n A b delta (S max_iter) tol)) <= cost n A b (tcg_x (truncated_cg n A b delta max_iter tol)).
Proof. exact cg_more. Qed.
Print Assumptions C34_monotone.

(** A round is enough to do at least as well as every step along the right-hand
    side that stays within the radius, unless the tolerance already holds at zero. *)
Theorem C34_cauchy : forall n A b delta k tol t, symmetric n A -> 0 <= delta -> tol * tol < dot n b b ->
  0 <= t -> t * t * dot n b b <= delta * delta ->
  cost n A b (tcg_x (truncated_cg n A b delta (S k) tol)) <= cost n A b (vscal t b).
Proof. exact cg_cauchy. Qed.
Print Assumptions C34_cauchy.

(** Hence the decrease is at least that of the usual bound. *)
Theorem C34_decrease : forall n A b delta k tol beta, symmetric n A -> 0 <= delta -> tol * tol < dot n b b ->
  0 < beta -> quad n A b <= beta * dot n b b ->
  cost n A b (tcg_x (truncated_cg n A b delta (S k) tol)) <= - / 2 * norm n b * Rmin delta (norm n b / beta).
Proof. exact cg_decrease. Qed.
Print Assumptions C34_decrease.

(** The iterates never get shorter. *)
Theorem C34_longer : forall n A b delta max_iter tol, symmetric n A -> 0 <= delta ->
  norm n (tcg_x (truncated_cg n A b delta max_iter tol)) <= norm n (tcg_x (truncated_cg n A b delta (S max_iter) tol)).
Proof. exact cg_longer. Qed.
Print Assumptions C34_longer.

(** In one variable with A = 1, b = 2, radius 1 and tolerance 1/2 the bound says
    that the cost falls by at least one, whatever the iteration limit. *)
Example C34_decrease_example : forall k,
  cost 1 idm (fun _ => 2) (tcg_x (truncated_cg 1 idm (fun _ => 2) 1 (S k) (1/2))) <= -1.
Proof.
  intros k.
  assert (B : dot 1 (fun _ => 2) (fun _ => 2) = 4) by (unfold dot; cbn; lra).
  assert (N : norm 1 (fun _ => 2) = 2) by (unfold norm; rewrite B; replace 4 with (2 * 2) by ring; apply sqrt_square; lra).
  pose proof (C34_decrease 1 idm (fun _ => 2) 1 k (1/2) 1) as H. rewrite B, N in H.
  replace (2 / 1) with 2 in H by field. rewrite Rmin_left in H by lra.
  eapply Rle_trans; [apply H|lra]; try lra.
  - intros i j _ _; unfold idm; rewrite Nat.eqb_sym; reflexivity.
  - unfold quad, dot, mv, idm. cbn. lra.
Qed.

(** The reported precision is that of the returned step in the interior exits ... *)
Theorem C34_precision : forall n A b delta max_iter tol, 0 <= delta ->
  tcg_flag (truncated_cg n A b delta max_iter tol) = 0%Z \/ tcg_flag (truncated_cg n A b delta max_iter tol) = (-1)%Z ->
  tcg_prec (truncated_cg n A b delta max_iter tol) = norm n (residual n A b (tcg_x (truncated_cg n A b delta max_iter tol))).
Proof. exact cg_prec_exact. Qed.
Print Assumptions C34_precision.

(** ... but not at the boundary: A = 1, b = 4, radius 1. *)
Theorem C34_precision_boundary_refuted :
  let r := truncated_cg 1 (fun _ _ => 1) (fun _ => 4) 1 5 0 in
  tcg_flag r = 1%Z /\
  tcg_prec r <> sqrt (dot 1 (residual 1 (fun _ _ => 1) (fun _ => 4) (tcg_x r)) (residual 1 (fun _ _ => 1) (fun _ => 4) (tcg_x r))).
Proof. exact cg_prec_refuted. Qed.
Print Assumptions C34_precision_boundary_refuted.

(** C52: for a symmetric matrix the iteration limit is never the reason to
    stop when it is at least the dimension; at most n+1 rounds are begun. *)
Theorem C52_finite_termination : forall n A b delta max_iter tol, symmetric n A -> (n <= max_iter)%nat ->
  tcg_flag (truncated_cg n A b delta max_iter tol) <> (-1)%Z /\
  (tcg_iter (truncated_cg n A b delta max_iter tol) <= n + 1)%nat.
Proof. exact cg_finite. Qed.
Print Assumptions C52_finite_termination.

Theorem C52_iterations : forall n A b delta max_iter tol,
  (tcg_iter (truncated_cg n A b delta max_iter tol) <= S max_iter)%nat /\
  (tcg_flag (truncated_cg n A b delta max_iter tol) <> 0%Z ->
   (tcg_iter (truncated_cg n A b delta max_iter tol) <= max_iter)%nat).
Proof. exact cg_iter. Qed.
Print Assumptions C52_iterations.

(** The hypotheses are met by the identity in dimension 3 (non-zero b), where
    the solver stops in its interior exit at the second test. *)
Example C34_C52_example :
  symmetric 3 idm /\ tcg_flag (truncated_cg 3 idm (fun _ => 1) 9 3 (1/2)) = 0%Z /\
  tcg_iter (truncated_cg 3 idm (fun _ => 1) 9 3 (1/2)) = 2%nat.
Proof.
  split; [intros i j _ _; unfold idm; rewrite Nat.eqb_sym; reflexivity|].
  unfold truncated_cg. rewrite cg_unfold. cbv zeta. cbn [cg_dir].
  assert (E1 : dot 3 (vneg (fun _ => 1)) (vneg (fun _ => 1)) = 3) by (unfold dot, vneg; cbn; lra).
  assert (E2 : dot 3 (vneg (vneg (fun _ => 1))) (mv 3 idm (vneg (vneg (fun _ => 1)))) = 3)
    by (unfold dot, mv, vneg, idm; cbn; lra).
  assert (E3 : dot 3 (vneg (fun _ => 1)) (vneg (vneg (fun _ => 1))) = -3) by (unfold dot, vneg; cbn; lra).
  rewrite !E1, !E2, !E3.
  destruct (Rleb_spec 3 (1 / 2 * (1 / 2))); [lra|]. destruct (Rleb_spec 3 0); [lra|].
  replace (- -3 / 3) with 1 by field.
  destruct (Rltb_spec (9 * 9) (dot 3 (vadd vzero (vscal 1 (vneg (vneg (fun _ => 1))))) (vadd vzero (vscal 1 (vneg (vneg (fun _ => 1))))))) as [L|L].
  { unfold dot, vadd, vscal, vneg, vzero in L. cbn in L. lra. }
  rewrite cg_unfold. cbv zeta.
  assert (E4 : dot 3 (vadd (vneg (fun _ => 1)) (vscal 1 (mv 3 idm (vneg (vneg (fun _ => 1))))))
                     (vadd (vneg (fun _ => 1)) (vscal 1 (mv 3 idm (vneg (vneg (fun _ => 1)))))) = 0)
    by (unfold dot, vadd, vscal, mv, vneg, idm; cbn; lra).
  rewrite E4. destruct (Rleb_spec 0 (1 / 2 * (1 / 2))); [|lra]. split; reflexivity.
Qed.
