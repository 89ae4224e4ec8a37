(** Properties C35, C36 and C47. *)
From Coq Require Import Reals Arith ZArith Lra Lia.
From Verif Require Import RVec RBool Poly_Model Poly_Spec Int_Model Int_Spec Int_Wit Hess_Model Hess_Spec Hess_Proofs Hess_More Hess_Form.
Open Scope R_scope.

Theorem C35_update : forall n H y s first, spd n H -> ~ veq n s vzero ->
  bf_flag (bfgs_update n H y s first) = 0%Z /\ spd n (bf_H (bfgs_update n H y s first)) /\
  exists yh, damped n H y s yh /\ veq n (mv n (bf_H (bfgs_update n H y s first)) s) yh.
Proof. exact bfgs_spd. Qed.
Print Assumptions C35_update.

Theorem C35_failure_unchanged : forall n H y s first,
  bf_flag (bfgs_update n H y s first) <> 0%Z ->
  bf_flag (bfgs_update n H y s first) = 30%Z /\ bf_H (bfgs_update n H y s first) = H.
Proof. exact bfgs_fail_unchanged. Qed.
Print Assumptions C35_failure_unchanged.

(** The only failures: a null step, or no positive curvature of [H] along it.
    The two failures after the curvature test never happen. *)
Theorem C35_failure_iff : forall n H y s first,
  bf_flag (bfgs_update n H y s first) = 30%Z <-> (veq n s vzero \/ dot n s (mv n H s) <= 0).
Proof. exact bfgs_fail_iff. Qed.
Print Assumptions C35_failure_iff.

(** The matrix entry by entry; [bf_pc] is the factor of the damping. *)
Theorem C35_entries : forall n H y s first, spd n H -> ~ veq n s vzero ->
  exists yh, (forall i, (i < n)%nat -> yh i = bf_pc (bfgs_update n H y s first) * y i + (1 - bf_pc (bfgs_update n H y s first)) * mv n H s i) /\
  (2 / 10 * quad n H s <= dot n y s -> bf_pc (bfgs_update n H y s first) = 1) /\
  (dot n y s < 2 / 10 * quad n H s -> 0 < bf_pc (bfgs_update n H y s first) < 1 /\ dot n yh s = 2 / 10 * quad n H s) /\
  bfgs_of n (if first then fun i j => dot n yh yh / dot n yh s * idm i j else H) s yh (bf_H (bfgs_update n H y s first)).
Proof. exact bfgs_entries. Qed.
Print Assumptions C35_entries.

(** How far curvature can grow and fall, and which directions keep it. *)
Theorem C35_growth : forall n H y s (first : bool), spd n H -> ~ veq n s vzero ->
  exists yh, damped n H y s yh /\
  let B : mat := if first then fun i j => dot n yh yh / dot n yh s * idm i j else H in
  forall v, quad n (bf_H (bfgs_update n H y s first)) v <= quad n B v + dot n yh yh * dot n v v / dot n yh s /\
    quad n B v - dot n (mv n B s) v * dot n (mv n B s) v / quad n B s <= quad n (bf_H (bfgs_update n H y s first)) v /\
    (dot n (mv n B s) v = 0 -> dot n yh v = 0 ->
     forall i, (i < n)%nat -> mv n (bf_H (bfgs_update n H y s first)) v i = mv n B v i).
Proof. exact bfgs_growth. Qed.
Print Assumptions C35_growth.

(** Negative curvature [y's = -1] in dimension 1, identity matrix: the damping acts. *)
Example C35_example : spd 1 idm /\ ~ veq 1 (fun _ => 1) vzero /\ dot 1 (fun _ => -1) (fun _ => 1) < 2 / 10 * quad 1 idm (fun _ => 1).
Proof.
  split; [exact (idm_pd 1)|]. split.
  - intros C. specialize (C 0%nat ltac:(lia)). unfold vzero in C. lra.
  - unfold quad, dot, mv, idm. cbn. lra.
Qed.

Theorem C36_convexified : forall n A evneg d V, eigendecomposition n A d V ->
  (evneg = true <-> exists k, (k < n)%nat /\ d k < 0) ->
  possemidef n (check_convex n A evneg d V) /\
  (evneg = true -> spd n (check_convex n A evneg d V)) /\
  (evneg = false -> check_convex n A evneg d V = A).
Proof. exact convex_all. Qed.
Print Assumptions C36_convexified.

(** Eigenvectors are kept; only eigenvalues below 1e-10 are changed, to 1e-9. *)
Theorem C36_eigenvalues : forall n A d V k, eigendecomposition n A d V -> (k < n)%nat ->
  forall i, (i < n)%nat -> mv n (check_convex n A true d V) (fun l => V l k) i
    = (if Rltb (d k) (1 / 10 ^ 10) then 1 / 10 ^ 9 else d k) * V i k.
Proof. exact convex_eigen. Qed.
Print Assumptions C36_eigenvalues.

(** The conditioning repair moves a symmetric matrix by at most 1e-7. *)
Theorem C36_condition_close : forall n A t U sv V, symmetric n A -> svd_of n A U sv V ->
  within n (1 / 10 ^ 7) (fst (check_cond n A t U sv V)) A.
Proof. exact check_cond_close. Qed.
Print Assumptions C36_condition_close.

Theorem C36_condition_unchanged : forall n A t U sv V c,
  cond_ n sv = Some c -> c <= t -> check_cond n A t U sv V = (A, false).
Proof. exact check_cond_good. Qed.
Print Assumptions C36_condition_unchanged.

(** But the repaired matrix need not be regular: the symmetrisation can undo
    the repair completely. *)
Theorem C36_condition_regular_refuted :
  exists n A U sv V, symmetric n A /\ svd_of n A U sv V /\
    forall t, snd (check_cond n A t U sv V) = true /\
      forall i j, (i < n)%nat -> (j < n)%nat -> fst (check_cond n A t U sv V) i j = 0.
Proof. exact cond_repair_undone. Qed.
Print Assumptions C36_condition_regular_refuted.

(** The condition number is the largest singular value divided by the smallest, infinite
    exactly if the smallest is 0, and the matrix is repaired exactly if it exceeds the threshold. *)
Theorem C36_condition_number : forall n sv, (1 <= n)%nat ->
  (cond_ n sv = None <-> sv (n - 1)%nat = 0) /\
  forall c, cond_ n sv = Some c -> c * sv (n - 1)%nat = sv 0%nat.
Proof. exact cond_number. Qed.
Print Assumptions C36_condition_number.

Theorem C36_condition_repaired : forall n A t U sv V,
  snd (check_cond n A t U sv V) = true <->
  (sv (n - 1)%nat = 0 \/ t < sv 0%nat / sv (n - 1)%nat /\ sv (n - 1)%nat <> 0).
Proof. exact cond_repaired. Qed.
Print Assumptions C36_condition_repaired.

Example C36_example : eigendecomposition 1 (fun _ _ => -1) (fun _ => -1) idm.
Proof. exact eigen_example. Qed.

Theorem C47_null_step : forall n me mode r niter M s gx gce lb lm con fY ceY slk hP fH info,
  compute_hessian n me true mode r niter M s gx gce lb lm con fY ceY slk hP fH info = HRes M 1 info.
Proof. exact hess_null. Qed.
Print Assumptions C47_null_step.

Theorem C47_unknown_mode : forall n me r niter M s gx gce lb lm con fY ceY slk hP fH info,
  exists info', compute_hessian n me false HOther r niter M s gx gce lb lm con fY ceY slk hP fH info = HRes M 1 info' /\
    hi_flag info' = 1%Z /\ hi_g info' = hi_g info.
Proof. exact hess_unknown. Qed.
Print Assumptions C47_unknown_mode.

Theorem C47_bfgs_valid : forall n me r niter M s gx gce lb lm con fY ceY slk hP fH info M' pc info',
  symmetric n M -> posdef n M ->
  compute_hessian n me false HBfgs r niter M s gx gce lb lm con fY ceY slk hP fH info = HRes M' pc info' ->
  symmetric n M' /\ posdef n M' /\ (hi_flag info' = 30%Z <-> veq n s vzero) /\ hi_g info' = gx /\ hi_ae info' = gce.
Proof. exact hess_bfgs_valid. Qed.
Print Assumptions C47_bfgs_valid.

(** A failing update is replaced by a valid matrix even if the old one was not valid. *)
Theorem C47_bfgs_recovers : forall n me niter M s gx gce lb lm con fY ceY slk hP fH info,
  (veq n s vzero \/ dot n s (mv n M s) <= 0) ->
  exists M' pc info', compute_hessian n me false HBfgs (Some 0%nat) niter M s gx gce lb lm con fY ceY slk hP fH info = HRes M' pc info' /\
    symmetric n M' /\ posdef n M' /\ (hi_flag info' = 30%Z <-> veq n s vzero).
Proof. exact hess_bfgs_recover. Qed.
Print Assumptions C47_bfgs_recovers.

(** The secant equation is met for the change of the gradient of the Lagrangian,
    both taken with the same multipliers. *)
Theorem C47_bfgs_secant : forall n me niter M s gx gce lb lm con fY ceY slk hP fH info,
  spd n M -> ~ veq n s vzero ->
  exists M' pc info' yh,
    compute_hessian n me false HBfgs (Some 0%nat) niter M s gx gce lb lm con fY ceY slk hP fH info = HRes M' pc info' /\
    damped n M (vsub (lag_grad me gx gce lb) (lag_grad me (hi_g info) (hi_ae info) lb)) s yh /\
    veq n (mv n M' s) yh.
Proof. exact hess_bfgs_secant. Qed.
Print Assumptions C47_bfgs_secant.

(** A restart period crashes every update; so does an options object without one. *)
Theorem C47_restart_crashes : forall n me niter M s gx gce lb lm con fY ceY slk hP fH info,
  (forall r, (0 < r)%nat ->
    compute_hessian n me false HBfgs (Some r) niter M s gx gce lb lm con fY ceY slk hP fH info = HNameError) /\
  compute_hessian n me false HBfgs None niter M s gx gce lb lm con fY ceY slk hP fH info = HAttributeError.
Proof. exact hess_restart_crash. Qed.
Print Assumptions C47_restart_crashes.

(** Model mode: the Hessian of the model of the values of the Lagrangian, or of the model of
    the objective if there are no constraints; the derivatives are stored. *)
Theorem C47_model_mode : forall n me r niter M s gx gce lb lm con fY ceY slk hP fH info,
  exists M' info', compute_hessian n me false HModel r niter M s gx gce lb lm con fY ceY slk hP fH info = HRes M' 1 info' /\
    hi_g info' = gx /\ hi_ae info' = gce /\ hi_flag info' = hi_flag info /\
    (con = true -> M' = hP (fun j => fY j + rsum me (fun k => lm k * (ceY k j - slk k)))) /\
    (con = false -> M' = fH).
Proof. exact hess_model. Qed.
Print Assumptions C47_model_mode.

(** If objective and constraints are quadratic and the points determine a quadratic then the
    matrix is the second derivative of the Lagrangian. *)
Theorem C47_model_exact : forall slv pinv qr ill cure mode shift n p1 Y b,
  regular_case slv pinv qr ill cure mode shift n p1 Y b -> (full n <= p1)%nat ->
  forall me r niter M s gx gce lb lm fY ceY slk fH info c g A ck gk B M' pc info',
  symmetric n A -> (forall k, (k < me)%nat -> symmetric n (B k)) ->
  (forall j, (j < p1)%nat -> fY j = quadratic n c g A (Y j)) ->
  (forall k j, (k < me)%nat -> (j < p1)%nat -> ceY k j = quadratic n (ck k) (gk k) (B k) (Y j)) ->
  compute_hessian n me false HModel r niter M s gx gce lb lm true fY ceY slk
    (model_hess slv pinv mode shift n p1 b) fH info = HRes M' pc info' ->
  forall i j, (i < n)%nat -> (j < n)%nat -> M' i j = A i j + rsum me (fun k => lm k * B k i j).
Proof. exact hess_model_exact. Qed.
Print Assumptions C47_model_exact.

Example C47_model_example : regular_case slv0 pinv0 qr3 ill0 cure0 3 false 1 3 Y3 b3 /\ (full 1 <= 3)%nat.
Proof. split; [exact regression_case|]. apply Nat.leb_le. reflexivity. Qed.

Example C47_example : symmetric 1 idm /\ posdef 1 idm.
Proof. exact (idm_pd 1). Qed.
