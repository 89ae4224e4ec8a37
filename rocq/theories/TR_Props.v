(** C39, C55, C56: the constrained trust-region step sqpdfo_solve_TR_bc_. *)
From Coq Require Import Reals List Arith Lra Lia.
From Verif Require Import RVec RBool ProjGrad_Spec TR_Model TR_Spec TR_Proofs TR_Wit TRS_Proofs TRS_Wit TRS_Wit2.
Import ListNotations.
Open Scope R_scope.

(** the loop over the active set ends, whatever the solvers answer *)
Theorem C39_terminates : forall restore cvx null cg mult n nsl lb ub thr M0 ce ae sl fuel x delta g lm,
  (0 < n)%nat -> (10 * n + (n + nsl - length ce) <= fuel)%nat ->
  solve_con restore cvx null cg mult n nsl lb ub thr M0 ce ae sl fuel x delta g lm <> TrFuel.
Proof. exact t_terminates. Qed.
Print Assumptions C39_terminates.

Theorem C39_passes : forall restore cvx null cg mult n nsl lb ub thr M0 ce ae sl fuel x delta g lm o,
  (0 < n)%nat -> (10 * n + (n + nsl - length ce) <= fuel)%nat ->
  solve_con restore cvx null cg mult n nsl lb ub thr M0 ce ae sl fuel x delta g lm = TrOut o ->
  (1 <= tr_passes o <= 10 * n + (n + nsl - length ce))%nat.
Proof. exact t_passes. Qed.
Print Assumptions C39_passes.

Theorem C39_no_exception : forall restore cvx null cg mult n nsl lb ub thr M0 ce ae sl fuel x delta g lm,
  no_raise restore null cg mult ->
  solve_con restore cvx null cg mult n nsl lb ub thr M0 ce ae sl fuel x delta g lm <> TrRaise.
Proof. exact t_raise. Qed.
Print Assumptions C39_no_exception.

(** from a feasible point the ratio is finite and every exit returns a point that violates no
    bound by more than the threshold or 1e-7 *)
Theorem C39_bounds : forall restore cvx null cg mult n nsl lb ub thr M0 ce ae sl fuel x delta g lm,
  / 10 ^ 15 <= thr -> ordered n lb ub -> keeps_bounds restore ->
  (forall i, (i < nsl)%nat -> xle_r (lb (n + i)%nat) (sl i) /\ rle_x (sl i) (ub (n + i)%nat)) -> in_bounds n lb ub x ->
  solve_con restore cvx null cg mult n nsl lb ub thr M0 ce ae sl fuel x delta g lm <> TrInfinite /\
  forall o, solve_con restore cvx null cg mult n nsl lb ub thr M0 ce ae sl fuel x delta g lm = TrOut o ->
  violates_at_most n lb ub (Rmax thr (/ 10 ^ 7)) (tr_x o).
Proof. exact t_bounds. Qed.
Print Assumptions C39_bounds.

(** the solver of C38 keeps the bounds, that of C34 the radius *)
Theorem C39_bounds_apply : forall ms hom, keeps_bounds (restore_of ms hom).
Proof. exact bounds_of. Qed.
Print Assumptions C39_bounds_apply.

Theorem C39_radius_applies : forall max_iter tol, cg_short (cg_of max_iter tol).
Proof. exact short_of. Qed.
Print Assumptions C39_radius_applies.

(** without constraints the point is within the bounds exactly, the radius is kept and the flag
    says whether the step is as long *)
Theorem C39_unconstrained : forall restore n lb ub M0 x delta g,
  keeps_bounds restore -> in_bounds n lb ub x ->
  forall y d a, solve_unc restore n lb ub M0 x delta g = Some (y, d, a) ->
    in_bounds n lb ub y /\ d = delta /\ (a = true <-> delta <= norm n (vsub y x)).
Proof. exact t_unc. Qed.
Print Assumptions C39_unconstrained.

(** if the solvers keep to their radius: twice the radius, and the radius returned *)
Theorem C39_length : forall restore cvx null cg mult n nsl lb ub thr M0 ce ae sl fuel x delta g lm o,
  0 <= delta -> / 10 ^ 15 <= thr -> keeps_bounds restore ->
  (forall i, (i < nsl)%nat -> xle_r (lb (n + i)%nat) (sl i) /\ rle_x (sl i) (ub (n + i)%nat)) -> in_bounds n lb ub x ->
  restore_short restore -> cg_short cg -> null_orth (n + nsl) null ->
  solve_con restore cvx null cg mult n nsl lb ub thr M0 ce ae sl fuel x delta g lm = TrOut o ->
  norm n (vsub (tr_x o) x) <= 2 * delta /\ 0 <= tr_delta o <= delta.
Proof. exact t_length. Qed.
Print Assumptions C39_length.

Theorem C39_radius_refuted : ~ forall restore cvx null cg mult n nsl lb ub thr M0 ce ae sl fuel x delta g lm o,
  keeps_bounds restore -> restore_short restore -> cg_short cg -> null_orth (n + nsl) null -> 0 <= delta -> / 10 ^ 15 <= thr ->
  in_bounds n lb ub x -> nsl = 0%nat ->
  solve_con restore cvx null cg mult n nsl lb ub thr M0 ce ae sl fuel x delta g lm = TrOut o ->
  norm n (vsub (tr_x o) x) <= delta.
Proof. exact r_radius_step. Qed.
Print Assumptions C39_radius_refuted.

(** a run with two variables, one slack and three passes; the hypotheses of the theorems hold *)
Example C39_nonvacuous :
  keeps_bounds (guard vzero) /\ restore_short (guard vzero) /\ cg_short edge /\ null_orth 3 nullB /\ in_bounds 2 lo3 hi3 vzero /\ ordered 2 lo3 hi3 /\
  exists o, solve_con (guard vzero) (fun A => A) nullB edge multz 2 1 lo3 hi3 (/ 10 ^ 8) zmat [0] [vzero] vzero 100 vzero 4 gneg vzero = TrOut o /\ tr_passes o = 3%nat.
Proof.
  split; [apply guard_bounds|]. split; [apply guard_short|]. split; [exact edge_short|]. split; [exact nullB_orth|].
  split; [intros i Hi; unfold lo3, hi3, vzero; destruct (Nat.ltb_spec i 2); [cbn; lra|lia]|].
  split; [intros i Hi; unfold lo3, hi3; destruct (Nat.ltb_spec i 2); [lra|lia]|].
  destruct stall_case as (o & E & _ & _ & _ & _ & _ & P). exists o. split; assumption.
Qed.

(** C55: a variable at a bound that the tangential step leaves alone stops the whole step *)
Theorem C55_stall : forall n nsl lb ub y t i,
  (i < n + nsl)%nat -> in_bounds (n + nsl) lb ub y -> Rabs (t i) < / 10 ^ 15 ->
  lb i = Fin (y i) \/ ub i = Fin (y i) -> minratio n nsl lb ub y t = Fin 0.
Proof. exact stall. Qed.
Print Assumptions C55_stall.

Theorem C55_largest_refuted : ~ forall n nsl lb ub y t a,
  in_bounds (n + nsl) lb ub y -> minratio n nsl lb ub y t = Fin a ->
  forall rho, a < rho <= 1 -> ~ in_bounds (n + nsl) lb ub (vadd y (vscal rho t)).
Proof. exact r_largest. Qed.
Print Assumptions C55_largest_refuted.

Theorem C55_inside : forall n nsl lb ub y t a,
  in_bounds (n + nsl) lb ub y -> minratio n nsl lb ub y t = Fin a -> 0 <= a /\ in_bounds (n + nsl) lb ub (vadd y (vscal a t)).
Proof. exact ratio_in. Qed.
Print Assumptions C55_inside.

(** a whole run: g = (-1,-1), bounds [-1,1]; the step ends at (1,0) although (1,1) is better *)
Example C55_run : exists o, solve_con (guard vzero) (fun A => A) nullB edge multz 2 1 lo3 hi3 (/ 10 ^ 8) zmat [0] [vzero] vzero 100 vzero 4 gneg vzero = TrOut o /\
  tr_end o = TrSigns /\ tr_x o 0%nat = 1 /\ tr_x o 1%nat = 0.
Proof. destruct stall_case as (o & E & T & X0 & X1 & _). exists o. repeat split; assumption. Qed.

(** C56: the point is the start plus the displacements made, the slacks are not *)
Theorem C56_point : forall restore cvx null cg mult n nsl lb ub thr M0 ce ae sl fuel x delta g lm o,
  solve_con restore cvx null cg mult n nsl lb ub thr M0 ce ae sl fuel x delta g lm = TrOut o ->
  forall i, tr_x o i = x i + sumv (tr_moves o) i.
Proof. exact t_moves. Qed.
Print Assumptions C56_point.

(** With at most two passes the slacks are within their bounds; with one they are moved by the
    displacement wherever that keeps to the bounds. *)
Theorem C56_slack_bounds : forall restore cvx null cg mult n nsl lb ub thr M0 ce ae sl fuel x delta g lm o,
  / 10 ^ 15 <= thr -> keeps_bounds restore ->
  (forall i, (i < nsl)%nat -> xle_r (lb (n + i)%nat) (sl i) /\ rle_x (sl i) (ub (n + i)%nat)) -> in_bounds n lb ub x ->
  solve_con restore cvx null cg mult n nsl lb ub thr M0 ce ae sl fuel x delta g lm = TrOut o -> (tr_passes o <= 2)%nat ->
  (forall i, (i < nsl)%nat -> xle_r (lb (n + i)%nat) (tr_sl o i) /\ rle_x (tr_sl o i) (ub (n + i)%nat)) /\
  (tr_passes o = 1%nat -> exists m, tr_moves o = [m] /\
     forall i, (i < nsl)%nat -> xle_r (lb (n + i)%nat) (sl i + m (n + i)%nat) -> rle_x (sl i + m (n + i)%nat) (ub (n + i)%nat) ->
     tr_sl o i = sl i + m (n + i)%nat).
Proof. exact slack_bounds. Qed.
Print Assumptions C56_slack_bounds.

(** the solver moves the slack from 0 to 2, beyond its bound 1: it stays at 0 *)
Example C56_slack_bounds_ex : keeps_bounds rest0 /\
  exists o, solve_con rest0 (fun A => A) slack_only cg2 (fun _ _ => None) 1 1 (fun _ => Fin (-1)) (fun _ => Fin 1)
    (/ 10 ^ 8) (fun _ _ => 0) [0] [vzero] vzero 10 vzero 4 vzero vzero = TrOut o /\
  tr_passes o = 1%nat /\ tr_sl o 0%nat = 0 /\ (exists m, tr_moves o = [m] /\ m 1%nat = 2).
Proof. split; [exact rest0_bounds|exact taken_back]. Qed.

(** With more passes they need not be. *)
Theorem C56_slack_bounds_refuted : ~ forall restore cvx null cg mult n nsl lb ub thr M0 ce ae sl fuel x delta g lm o,
  keeps_bounds restore -> restore_short restore -> cg_short cg -> null_orth (n + nsl) null -> 0 <= delta -> / 10 ^ 15 <= thr ->
  (forall i, (i < nsl)%nat -> xle_r (lb (n + i)%nat) (sl i) /\ rle_x (sl i) (ub (n + i)%nat)) -> in_bounds n lb ub x ->
  solve_con restore cvx null cg mult n nsl lb ub thr M0 ce ae sl fuel x delta g lm = TrOut o ->
  forall i, (i < nsl)%nat -> xle_r (lb (n + i)%nat) (tr_sl o i) /\ rle_x (tr_sl o i) (ub (n + i)%nat).
Proof. exact r_slack_bounds. Qed.
Print Assumptions C56_slack_bounds_refuted.

Example C56_slack_bounds_refuted_ex : exists o, solve_con (guard vzero) (fun A => A) nullS cgS multz 2 1 lom hip (/ 10 ^ 8) zmat [0] [vzero] vzero 100 vzero 8 gneg vzero = TrOut o /\
  tr_passes o = 3%nat /\ tr_sl o 0%nat = - (5 / 4).
Proof. exact out_case. Qed.

Theorem C56_slacks_refuted : ~ forall restore cvx null cg mult n nsl lb ub thr M0 ce ae sl fuel x delta g lm o,
  keeps_bounds restore -> restore_short restore -> cg_short cg -> null_orth (n + nsl) null -> 0 <= delta -> / 10 ^ 15 <= thr ->
  in_bounds n lb ub x -> (forall i, (i < nsl)%nat -> lb (n + i)%nat = NInf /\ ub (n + i)%nat = PInf) ->
  solve_con restore cvx null cg mult n nsl lb ub thr M0 ce ae sl fuel x delta g lm = TrOut o ->
  forall i, (i < nsl)%nat -> tr_sl o i = sl i + sumv (tr_moves o) (n + i)%nat.
Proof. exact r_slack. Qed.
Print Assumptions C56_slacks_refuted.
