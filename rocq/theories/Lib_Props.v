(** C72: the trust-region step sqpdfo_solve_TR_bc_ with the library's own solvers. *)
From Coq Require Import Reals Lra Lia List Arith.
From Verif Require Import RVec RBool Tri MS_Model MS_Spec Chol Hom_Spec Hom_Wit ProjGrad_Spec TR_Model TR_Spec Step_Spec Lib_Model Lib_Spec Lib_Proofs Lib_More Lib_Wit Lib_Fin Msg_Model Msg_Spec Msg_Proofs.
Import ListNotations.
Open Scope R_scope.

(** with exact linear algebra the step is returned *)
Theorem C72_ends : forall ms chol slv eig svd pin tol oinf dxmin gi n nsl lb ub thr M0 ce ae sl fuel x delta g lm,
  (0 < n)%nat -> (10 * n + (n + nsl - length ce) <= fuel)%nat -> / 10 ^ 15 <= thr -> ordered n lb ub ->
  (forall k, chol_exact k (chol k)) -> (forall k, slv_exact k (slv k)) -> ms_total ms -> pin_total pin ->
  in_bounds n lb ub x -> (forall i, (i < nsl)%nat -> xle_r (lb (n + i)%nat) (sl i) /\ rle_x (sl i) (ub (n + i)%nat)) ->
  exists o, step_lib ms chol slv eig svd pin tol oinf dxmin gi n nsl lb ub thr M0 ce ae sl fuel x delta g lm = TrOut o.
Proof. exact lib_ends. Qed.
Print Assumptions C72_ends.

Example C72_ends_nonvacuous : (forall k, chol_exact k (cholx k)) /\ (forall k, slv_exact k (slvx k)) /\ ms_total mst /\ ms_sound mst (/ 10 ^ 4) /\ pin_total pin5.
Proof. exact (conj cholx_exact (conj slvx_exact (conj mst_total (conj mst_sound pin5_total)))). Qed.

Theorem C72_bounds : forall ms chol slv eig svd pin tol oinf dxmin gi n nsl lb ub thr M0 ce ae sl fuel x delta g lm o,
  / 10 ^ 15 <= thr -> ordered n lb ub -> in_bounds n lb ub x ->
  (forall i, (i < nsl)%nat -> xle_r (lb (n + i)%nat) (sl i) /\ rle_x (sl i) (ub (n + i)%nat)) ->
  step_lib ms chol slv eig svd pin tol oinf dxmin gi n nsl lb ub thr M0 ce ae sl fuel x delta g lm = TrOut o ->
  violates_at_most n lb ub (Rmax thr (/ 10 ^ 7)) (tr_x o).
Proof. exact lib_feasible. Qed.
Print Assumptions C72_bounds.

(** the radius returned, and the length as long as it is not negative *)
Theorem C72_length : forall ms chol slv eig svd pin tol oinf dxmin gi n nsl lb ub thr M0 ce ae sl fuel x delta g lm o eps,
  / 10 ^ 15 <= thr -> (forall k, chol_exact k (chol k)) -> (forall k, slv_exact k (slv k)) -> ms_sound ms eps -> 0 <= eps -> 0 <= delta ->
  svd_orth svd -> in_bounds n lb ub x -> (forall i, (i < nsl)%nat -> xle_r (lb (n + i)%nat) (sl i) /\ rle_x (sl i) (ub (n + i)%nat)) ->
  step_lib ms chol slv eig svd pin tol oinf dxmin gi n nsl lb ub thr M0 ce ae sl fuel x delta g lm = TrOut o ->
  tr_delta o <= delta /\ (0 <= tr_delta o -> norm n (vsub (tr_x o) x) <= (2 + eps) * delta + sqrt (INR (n + nsl)) / 10 ^ 5).
Proof. exact lib_length. Qed.
Print Assumptions C72_length.

Example C72_length_nonvacuous : svd_orth svd5 /\ exists o,
  step_lib mst cholx slvx eig5 svd5 pin5 0 PInf 0 vzero 1 0 (fun _ => NInf) (fun _ => PInf) (/ 10 ^ 7) (fun _ _ => 0) [-3] [unitv 0] vzero 10 vzero 10 vzero vzero = TrOut o.
Proof. exact (conj svd5_orth step6). Qed.

(** the model of the Lagrangian is at most that of the restoration step *)
Theorem C72_decrease : forall ms chol slv eig svd pin tol oinf dxmin gi n nsl lb ub thr M0 ce ae sl fuel x delta g lm L w o,
  length ae = length ce -> (nsl <= length ce)%nat -> lag_grad n lb ub (length ce) ae x g lm L ->
  (forall i, (i < n)%nat -> held_count lb ub x L w i) -> symmetric n M0 -> / 10 ^ 15 <= thr -> in_bounds n lb ub x ->
  (forall i, (i < nsl)%nat -> xle_r (lb (n + i)%nat) (sl i) /\ rle_x (sl i) (ub (n + i)%nat)) ->
  step_lib ms chol slv eig svd pin tol oinf dxmin gi n nsl lb ub thr M0 ce ae sl fuel x delta g lm = TrOut o ->
  exists r a, restores (restore_lib ms chol slv) (cvx_lib eig (n + nsl)) n nsl lb ub ce ae sl w x delta r a /\
    lag_model n M0 g (vsub (tr_x o) x) <= lag_model n M0 g r.
Proof. exact lib_decrease. Qed.
Print Assumptions C72_decrease.

(** no message of the restoration solver is one of those it is compared with, so only the length of
    the restoration step decides whether the boundary is taken as reached *)
Theorem C72_messages : forall m, may_say m -> classify m = MsgOther.
Proof. exact m_other. Qed.
Print Assumptions C72_messages.

Theorem C72_active : forall ms chol slv eig svd pin tol oinf dxmin gi n nsl lb ub thr M0 ce ae sl fuel x delta g lm L w o,
  length ae = length ce -> (nsl <= length ce)%nat -> lag_grad n lb ub (length ce) ae x g lm L ->
  (forall i, (i < n)%nat -> held_count lb ub x L w i) ->
  step_lib ms chol slv eig svd pin tol oinf dxmin gi n nsl lb ub thr M0 ce ae sl fuel x delta g lm = TrOut o ->
  exists r a, restores (restore_lib ms chol slv) (cvx_lib eig (n + nsl)) n nsl lb ub ce ae sl w x delta r a /\
    tr_rpred o = con_length n nsl ce ae sl w vzero - con_length n nsl ce ae sl w r /\
    (tr_actr o = true <-> tr_passes o = 1%nat /\ / 10 ^ 14 < norm (n + nsl) (lsq_grad n nsl ce ae sl) /\ delta - norm n r < / 10 ^ 8).
Proof. exact m_active. Qed.
Print Assumptions C72_active.

(** the predicted reduction of the constraints: not negative far from the bounds ... *)
Theorem C72_predicted_inside : forall ms chol slv eig svd pin tol oinf dxmin gi n nsl lb ub thr M0 ce ae sl fuel x delta g lm o eps,
  length ae = length ce -> (nsl <= length ce)%nat -> eig_convex eig -> ms_sound ms eps -> 0 <= eps -> 0 <= delta ->
  (forall i, (i < n + nsl)%nat -> xle_r (lb i) (both n x sl i - (1 + eps) * delta) /\ rle_x (both n x sl i + (1 + eps) * delta) (ub i)) ->
  step_lib ms chol slv eig svd pin tol oinf dxmin gi n nsl lb ub thr M0 ce ae sl fuel x delta g lm = TrOut o -> 0 <= tr_rpred o.
Proof. exact lib_inside_any. Qed.
Print Assumptions C72_predicted_inside.

Example C72_predicted_nonvacuous : eig_convex eig5 /\ ms_sound mst (/ 10 ^ 4) /\ exists o,
  step_lib mst cholx slvx eig5 svd5 pin5 0 PInf 0 vzero 1 0 (fun _ => NInf) (fun _ => PInf) (/ 10 ^ 7) (fun _ _ => 0) [-3] [unitv 0] vzero 10 vzero 10 vzero vzero = TrOut o.
Proof. exact (conj eig5_convex (conj mst_sound step6)). Qed.

(** ... close to zero from below if no variable is next to a bound ... *)
Theorem C72_predicted : forall ms chol slv eig svd pin tol oinf dxmin gi n nsl lb ub thr M0 ce ae sl fuel x delta g lm L w o eps,
  length ae = length ce -> (nsl <= length ce)%nat -> lag_grad n lb ub (length ce) ae x g lm L ->
  (forall i, (i < n)%nat -> held_count lb ub x L w i) -> (forall k, chol_exact k (chol k)) -> (forall k, slv_exact k (slv k)) ->
  eig_convex eig -> ms_sound ms eps -> 0 <= delta -> in_bounds n lb ub x ->
  (forall i, (i < nsl)%nat -> xle_r (lb (n + i)%nat) (sl i) /\ rle_x (sl i) (ub (n + i)%nat)) ->
  (forall i, (i < n + nsl)%nat -> clear_by (1 / 10 ^ 10) (lb i) (ub i) (both n x sl i)) ->
  step_lib ms chol slv eig svd pin tol oinf dxmin gi n nsl lb ub thr M0 ce ae sl fuel x delta g lm = TrOut o ->
  - (INR (n + nsl) * (lin_size n nsl ce ae sl w / 10 ^ 5)) <= tr_rpred o.
Proof. exact lib_predicted. Qed.
Print Assumptions C72_predicted.

(** ... and clearly negative in general *)
Theorem C72_predicted_refuted : ~ forall ms chol slv eig svd pin tol oinf dxmin gi n nsl lb ub thr M0 ce ae sl fuel x delta g lm eps o,
  (forall k, chol_exact k (chol k)) -> (forall k, slv_exact k (slv k)) -> ms_sound ms eps -> 0 <= eps <= 1 / 100 -> eig_convex eig -> svd_orth svd ->
  / 10 ^ 15 <= thr -> 0 < delta -> length ae = length ce -> (nsl <= length ce)%nat -> in_bounds n lb ub x ->
  (forall i, (i < nsl)%nat -> xle_r (lb (n + i)%nat) (sl i) /\ rle_x (sl i) (ub (n + i)%nat)) ->
  step_lib ms chol slv eig svd pin tol oinf dxmin gi n nsl lb ub thr M0 ce ae sl fuel x delta g lm = TrOut o -> -2 <= tr_rpred o.
Proof. exact r_predicted. Qed.
Print Assumptions C72_predicted_refuted.

Example C72_refuted_witness : exists o,
  step_lib msw cholx slvx eig5 svd5 pin5 0 PInf 0 vzero 2 0 lb5 ub5 (/ 10 ^ 7) (fun _ _ => 0) ce5 ae5 vzero 1 vzero 10 vzero vzero = TrOut o /\
  tr_end o = TrFeasible /\ tr_passes o = 1%nat /\ tr_x o 0%nat = 1 /\ tr_x o 1%nat = 15 / 1000000 /\ tr_rpred o = sqrt 45 - sqrt 85.
Proof. exact (step5 pin5). Qed.
