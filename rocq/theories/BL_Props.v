(** C43: the bounded least-squares solver (blls.py). *)
From Coq Require Import Reals List ZArith Lra Lia.
From Verif Require Import RVec RBool ProjGrad_Spec BL_Model BL_Spec BL_Proofs BL_Wit.
Import ListNotations.
Open Scope R_scope.

(** The residual norm returned is that of the point returned, and so is every
    residual norm used on the way; the point returned is the last one visited. *)
Theorem C43_residual : forall m n A b lb ub pin r, blls m n A b lb ub pin = Some r ->
  r_resn r = misfit m n A b (r_s r) /\
  (forall x q, In (x, q) (r_path r) -> q = misfit m n A b x) /\
  (exists p0, r_path r = p0 ++ [(r_s r, r_resn r)]).
Proof. exact blls_rok. Qed.
Print Assumptions C43_residual.

(** Every point visited, and the one returned, respects the bounds, unless a
    direction has a non-zero component that the solver takes for zero. *)
Theorem C43_bounds : forall m n A b lb ub pin, proper_bounds n lb ub ->
  forall r, blls m n A b lb ub pin = Some r -> not_tiny (r_dirs r) ->
  in_bounds n lb ub (r_s r) /\ (forall x q, In (x, q) (r_path r) -> in_bounds n lb ub x).
Proof. exact blls_in. Qed.
Print Assumptions C43_bounds.

Example C43_run : exists s1 path,
  blls 2 2 wA wb wl wu wpin = Some (BlRes s1 (misfit 2 2 wA wb s1) 0 0%Z 1 path []) /\
  s1 0%nat = 0 /\ s1 1%nat = 1 /\ not_tiny [] /\ proper_bounds 2 wl wu.
Proof.
  destruct w_run as [s1 [path [H [H0 H1]]]]. exists s1, path.
  split; [exact H|]. split; [exact H0|]. split; [exact H1|]. split; [intros f d i []|exact w_proper].
Qed.

(** The solver fails only if a pseudo-inverse does. *)
Theorem C43_total : forall m n A b lb ub pin, (forall l v, pin l v <> None) ->
  exists r, blls m n A b lb ub pin = Some r.
Proof. exact blls_total. Qed.
Print Assumptions C43_total.

(** Exit codes: at most 2n iterations; with code 0 the point is stationary to
    1e-10, or fits to 1e-11, or every variable is at a bound. *)
Theorem C43_exit : forall m n A b lb ub pin, proper_bounds n lb ub ->
  forall r, blls m n A b lb ub pin = Some r ->
  (r_exitc r = 0%Z \/ r_exitc r = 1%Z \/ r_exitc r = (-1)%Z) /\
  (r_nit r <= 2 * n)%nat /\
  (r_exitc r = 1%Z -> (2 * n <= r_nit r)%nat) /\
  (r_exitc r = 0%Z ->
     stationarity m n A b lb ub (r_s r) <= 1 / 10 ^ 10 \/ r_resn r <= 1 / 10 ^ 11 \/
     (forall i, (i < n)%nat -> lb i = Fin (r_s r i) \/ ub i = Fin (r_s r i))).
Proof. exact blls_exit. Qed.
Print Assumptions C43_exit.

(** What stationarity is worth: zero exactly at the solutions ... *)
Theorem C43_stationary_solves : forall m n A b lb ub s, in_bounds n lb ub s ->
  (stationarity m n A b lb ub s = 0 <-> solves m n A b lb ub s).
Proof. exact stationarity_zero. Qed.
Print Assumptions C43_stationary_solves.

Example C43_stationary_solves_ex : in_bounds 2 wl wu (v2 0 (4 / 5)).
Proof. intros i Hi. destruct i as [|[|i]]; [| |lia]; cbn; lra. Qed.

(** ... and if small, the misfit is nearly the least possible. *)
Theorem C43_near_solution : forall m n A b lb ub s t, in_bounds n lb ub s -> in_bounds n lb ub t ->
  misfit m n A b s * misfit m n A b s <=
  misfit m n A b t * misfit m n A b t
  + 2 * stationarity m n A b lb ub s * (norm n (misfit_grad m n A b s) + norm n (vsub t s)).
Proof. exact near_solves. Qed.
Print Assumptions C43_near_solution.

(** If the unconstrained least-squares solution is inside the bounds it is
    returned, with code 0 and no iteration. *)
Theorem C43_start : forall m n A b lb ub pin, proper_bounds n lb ub ->
  forall p, pin (seq 0 n) b = Some p -> (0 < n)%nat ->
  (forall t, misfit m n A b p <= misfit m n A b t) -> in_bounds n lb ub p ->
  exists r, blls m n A b lb ub pin = Some r /\ r_exitc r = 0%Z /\ r_nit r = O /\
    veq n (r_s r) p /\ r_dirs r = [] /\ solves m n A b lb ub (r_s r).
Proof. exact blls_start. Qed.
Print Assumptions C43_start.

(** Exit code 0 does not mean that the problem is solved, although the header of
    blls.py says so: an exact pseudo-inverse does not help. *)
Theorem C43_exit0_refuted : ~ (forall m n A b lb ub pin r, proper_bounds n lb ub -> pinv_exact m n A pin ->
  blls m n A b lb ub pin = Some r -> r_exitc r = 0%Z -> solves m n A b lb ub (r_s r)).
Proof. exact exit0_refuted. Qed.
Print Assumptions C43_exit0_refuted.

(** The residual need not decrease from one point visited to the next. *)
Theorem C43_decrease_refuted : ~ (forall m n A b lb ub pin r, proper_bounds n lb ub -> pinv_exact m n A pin ->
  blls m n A b lb ub pin = Some r ->
  forall k x x' q q', nth_error (r_path r) k = Some (x, q) -> nth_error (r_path r) (S k) = Some (x', q') -> q' <= q).
Proof. exact residual_growth_refuted. Qed.
Print Assumptions C43_decrease_refuted.
