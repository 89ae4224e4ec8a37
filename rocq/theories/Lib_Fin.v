(** The instances against the theorems about the step with the solvers of the library. *)
From Coq Require Import Reals Lra Psatz Lia List Arith Bool.
From Verif Require Import RVec RBool Tri MS_Model MS_Spec Chol Hom_Spec Hom_Wit ProjGrad_Spec TR_Model TR_Spec Lib_Model Lib_Spec Lib_Wit Lib_More.
Import ListNotations.
Open Scope R_scope.

Lemma r_predicted : ~ forall ms chol slv eig svd pin tol oinf dxmin gi n nsl lb ub thr M0 ce ae sl fuel x delta g lm eps o,
  (forall k, chol_exact k (chol k)) -> (forall k, slv_exact k (slv k)) -> ms_sound ms eps -> 0 <= eps <= 1 / 100 -> eig_convex eig -> svd_orth svd ->
  / 10 ^ 15 <= thr -> 0 < delta -> length ae = length ce -> (nsl <= length ce)%nat -> in_bounds n lb ub x ->
  (forall i, (i < nsl)%nat -> xle_r (lb (n + i)%nat) (sl i) /\ rle_x (sl i) (ub (n + i)%nat)) ->
  step_lib ms chol slv eig svd pin tol oinf dxmin gi n nsl lb ub thr M0 ce ae sl fuel x delta g lm = TrOut o -> -2 <= tr_rpred o.
Proof.
  intros K. destruct (step5 pin5) as (o & E & _ & _ & _ & _ & P).
  assert (EP : 0 <= ep <= 1 / 100) by (unfold ep; split; [apply ep_pos|replace (10 ^ 4) with 10000 by ring; lra]).
  assert (T : / 10 ^ 15 <= / 10 ^ 7) by (apply Rinv_le_contravar; [apply pow_lt; lra|apply Rle_pow; [lra|lia]]).
  assert (D10 : 0 < 10) by lra.
  assert (V : -2 <= tr_rpred o).
  { apply (K _ _ _ _ _ _ _ _ _ _ _ _ _ _ _ _ _ _ _ _ _ _ _ _ ep o cholx_exact slvx_exact msw_sound EP eig5_convex svd5_orth) in E; try assumption; [reflexivity|cbn; lia|exact in5|intros; lia]. }
  clear K. rewrite P in V.
  assert (sqrt 45 < 7) by (rewrite <- (sqrt_square 7) by lra; apply sqrt_lt_1_alt; lra).
  assert (9 < sqrt 85) by (rewrite <- (sqrt_square 9) by lra; apply sqrt_lt_1_alt; lra). lra.
Qed.

(** one variable without bounds and the constraint x = 3 *)
Lemma step6 : exists o, step_lib mst cholx slvx eig5 svd5 pin5 0 PInf 0 vzero 1 0 (fun _ => NInf) (fun _ => PInf) (/ 10 ^ 7) (fun _ _ => 0) [-3] [unitv 0] vzero 10 vzero 10 vzero vzero = TrOut o.
Proof.
  apply lib_ends; try lia.
  - cbn. lia.
  - apply Rinv_le_contravar; [apply pow_lt; lra|apply Rle_pow; [lra|lia]].
  - intros i _. exact Logic.I.
  - exact cholx_exact.
  - exact slvx_exact.
  - exact mst_total.
  - exact pin5_total.
  - intros i _. split; exact Logic.I.
Qed.
