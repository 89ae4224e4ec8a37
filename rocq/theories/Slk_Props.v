(** C73: slacks that are zero. *)
From Coq Require Import Reals List Arith QArith Qabs.
From Verif Require Import RVec RBool Tri ProjGrad_Spec MS_Model MS_Spec Chol Hom_Spec Hom_Wit Null_Model Null_Spec TR_Model TR_Spec Step_Spec Lib_Model Lib_Spec Lib_Wit
  Main_Model Main_Spec Set_Wit Slk_Model Slk_Spec Slk_Proofs Slk_Wit Slk_RunSpec Slk_Run Slk_RunWit.
Import ListNotations.
Open Scope R_scope.

(** the adjustment after an accepted step *)
Theorem C73_adjust : forall nsl me ce slp i, (i < nsl)%nat -> (nsl <= me)%nat ->
  (slp i <> 0 -> adjust nsl me ce slp i = slp i) /\
  (slp i = 0 -> ce (me - nsl + i)%nat <= 1 / 100 -> adjust nsl me ce slp i = 0) /\
  (slp i = 0 -> 1 / 100 < ce (me - nsl + i)%nat ->
     1 / 10 < adjust nsl me ce slp i /\ with_slacks nsl me ce (adjust nsl me ce slp) (me - nsl + i)%nat = 0).
Proof. exact adjust_spec. Qed.
Print Assumptions C73_adjust.

Theorem C73_residual : forall nsl me ce slp, (nsl <= me)%nat ->
  norm me (with_slacks nsl me ce (adjust nsl me ce slp)) <= norm me (with_slacks nsl me ce slp).
Proof. exact adjust_residual. Qed.
Print Assumptions C73_residual.

Example C73_adjust_nonvacuous : (0 < 1)%nat /\ (1 <= 1)%nat /\ vzero 0%nat = 0 /\ 1 / 100 < (fun _ : nat => 1) (1 - 1 + 0)%nat.
Proof. exact adj_ex. Qed.

(** a zero slack stays zero in the trust-region step *)
Theorem C73_step : forall ms chol slv eig svd pin tol oinf dxmin gi n nsl lb ub thr M0 ce ae sl fuel x delta g lm eps q o,
  (q < nsl)%nat -> sl q = 0 -> lb (n + q)%nat = RBool.Fin 0 -> 0 <= delta ->
  eig_convex eig -> ms_sound ms eps -> never_hard ms ->
  (forall rows k Z, null_lib svd (n + nsl) rows = Some (k, Z) -> spans_free (n + nsl) rows k Z) ->
  in_bounds n lb ub x -> (forall i, (i < nsl)%nat -> xle_r (lb (n + i)%nat) (sl i) /\ rle_x (sl i) (ub (n + i)%nat)) ->
  step_lib ms chol slv eig svd pin tol oinf dxmin gi n nsl lb ub thr M0 ce ae sl fuel x delta g lm = TrOut o -> tr_sl o q = 0.
Proof. exact lib_zero. Qed.
Print Assumptions C73_step.

Example C73_step_nonvacuous : eig_convex eig5 /\ ms_sound mst (/ 10 ^ 4) /\ never_hard mst /\
  (forall rows k Z, null_lib svd7 2 rows = Some (k, Z) -> spans_free 2 rows k Z) /\ lb7 (1 + 0)%nat = RBool.Fin 0 /\ in_bounds 1 lb7 ub7 vzero /\
  exists o, step_lib mst cholx slvx eig5 svd7 pin5 0 RBool.PInf 0 vzero 1 1 lb7 ub7 (/ 10 ^ 7) (fun _ _ => 0) [1] [unitv 0] vzero 11 vzero 2 vzero vzero = TrOut o.
Proof. exact (conj eig5_convex (conj mst_sound (conj mst_never (conj (svd7_spans 2) (conj eq_refl (conj in7 step10)))))). Qed.

(** the directions spanned with exact singular values *)
Theorem C73_axes : forall rows dim sv vh, svd_exact (length rows) dim (rows_mat rows) sv vh ->
  spans_free dim rows (fst (null_ (length rows) dim sv vh)) (snd (null_ (length rows) dim sv vh)).
Proof. exact svd_spans. Qed.
Print Assumptions C73_axes.

Example C73_axes_nonvacuous : svd_exact (length [unitv 0]) 2 (rows_mat [unitv 0]) (fun _ => 1) idm.
Proof. exact axes_ex. Qed.

(** not if the unconstrained solver ends in the hard case *)
Theorem C73_hard_refuted : ~ forall ms chol slv eig svd pin tol oinf dxmin gi n nsl lb ub thr M0 ce ae sl fuel x delta g lm eps q o,
  (q < nsl)%nat -> sl q = 0 -> lb (n + q)%nat = RBool.Fin 0 -> 0 <= delta -> eig_convex eig -> ms_sound ms eps ->
  (forall rows k Z, null_lib svd (n + nsl) rows = Some (k, Z) -> spans_free (n + nsl) rows k Z) ->
  in_bounds n lb ub x -> (forall i, (i < nsl)%nat -> xle_r (lb (n + i)%nat) (sl i) /\ rle_x (sl i) (ub (n + i)%nat)) ->
  step_lib ms chol slv eig svd pin tol oinf dxmin gi n nsl lb ub thr M0 ce ae sl fuel x delta g lm = TrOut o -> tr_sl o q = 0.
Proof. exact r_hard. Qed.
Print Assumptions C73_hard_refuted.

(** there may be no step although a better point is in reach *)
Theorem C73_descent_refuted : ~ forall ms chol slv eig svd pin tol oinf dxmin gi n nsl lb ub thr M0 ce ae sl fuel x delta g lm eps o,
  (forall k, chol_exact k (chol k)) -> (forall k, slv_exact k (slv k)) -> ms_sound ms eps -> 0 <= eps <= 1 / 100 -> never_hard ms -> eig_convex eig -> svd_orth svd ->
  (forall A, (forall k j, (k < length ce)%nat -> (j < n + nsl)%nat -> A k j = lin_row n nsl ce ae sl k j) ->
     svd_exact (length ce) (n + nsl) A (fst (svd (length ce) (n + nsl)%nat A)) (snd (svd (length ce) (n + nsl)%nat A))) ->
  / 10 ^ 15 <= thr -> 0 < delta -> length ae = length ce -> (nsl <= length ce)%nat -> in_bounds n lb ub x ->
  (forall i, (i < nsl)%nat -> xle_r (lb (n + i)%nat) (sl i) /\ rle_x (sl i) (ub (n + i)%nat)) ->
  (exists d, better_step n nsl lb ub M0 g ce ae x delta d) ->
  step_lib ms chol slv eig svd pin tol oinf dxmin gi n nsl lb ub thr M0 ce ae sl fuel x delta g lm = TrOut o ->
  exists i, (i < n)%nat /\ tr_x o i <> x i.
Proof. exact r_descent. Qed.
Print Assumptions C73_descent_refuted.

(** zero slacks in a run, and what exit code 0 says about them *)
Theorem C73_run : forall (P : Type) (E : env P), sane E -> forall k0 d0 s0 s m q,
  begins E k0 d0 s0 -> adjusts E -> e_me E <> 0%nat -> length (sl (sG s0)) = m -> (q < m)%nat -> (nth q (sl (sG s0)) 0 == 0)%Q ->
  low E m q s0 s -> length (sl (sG s)) = m /\ (nth q (sl (sG s)) 0 == 0)%Q.
Proof. exact (@low_zero). Qed.
Print Assumptions C73_run.

Theorem C73_exit : forall (P : Type) (E : env P), sane E -> forall k0 d0 s0 s a s' f m q,
  begins E k0 d0 s0 -> adjusts E -> e_me E <> 0%nat -> length (sl (sG s0)) = m -> (q < m)%nat -> (nth q (sl (sG s0)) 0 == 0)%Q ->
  low E m q s0 s -> pass E s a = Return 0 s' f -> (m <= length (ince (sN s')))%nat ->
  (Qabs (inequality m q (ince (sN s'))) <= 100 * e_tolf E)%Q.
Proof. exact (@low_exit). Qed.
Print Assumptions C73_exit.

Example C73_exit_nonvacuous : begins E59 2 1 s59 /\ adjusts E59 /\ exists s1 s2,
  pass E59 s59 w73 = Continue s1 /\ (ix (sI s59) == 0)%Q /\ (ix (sI s1) == 2)%Q /\ low E59 1 0 s59 s1 /\ pass E59 s1 f73 = Return 0 s2 (Fin (-2)).
Proof. exact (conj s59_begins (conj adjusts73 run73)). Qed.
