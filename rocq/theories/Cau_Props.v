(** C87: the tangential step against the steps along the projected slope of the model. *)
From Coq Require Import Reals List Arith Lra Lia.
From Verif Require Import RVec RBool Tri MS_Model Chol TR_Model TR_Spec Step_Spec Lib_Model Lib_Wit Cau_Spec Cau_Proofs Cau_Wit.
Import ListNotations.
Open Scope R_scope.

(** whatever the solvers, as long as the null space is right and the tangential solver beats
    the steps along its right-hand side *)
Theorem C87_general : forall restore cvx null cg mult n nsl lb ub thr M0 ce ae sl fuel x delta g lm L w o tol,
  length ae = length ce -> (nsl <= length ce)%nat -> lag_grad n lb ub (length ce) ae x g lm L ->
  (forall i, (i < n)%nat -> held_count lb ub x L w i) -> rsum n w < INR (n + nsl - length ce) ->
  symmetric n M0 -> 0 <= delta -> null_spans n nsl lb ub ce ae sl x L null -> cg_beats tol cg ->
  solve_con restore cvx null cg mult n nsl lb ub thr M0 ce ae sl fuel x delta g lm = TrOut o -> tr_passes o = 1%nat ->
  exists r a, restores restore cvx n nsl lb ub ce ae sl w x delta r a /\
    forall p s, tangent_part n nsl lb ub ce ae sl x L (slope n M0 g r) p -> tol < norm (n + nsl) p -> 0 <= s -> s * norm (n + nsl) p <= delta ->
    lag_model n M0 g (vsub (tr_x o) x) <= lag_model n M0 g (vsub r (vscal s p)).
Proof. exact c_general. Qed.
Print Assumptions C87_general.

Example C87_general_nonvacuous : null_spans 2 0 freel freeu [0] [unitv 0] vzero vzero g8 (fun _ => Some (1%nat, fun i _ => unitv 1 i)).
Proof. exact spans8. Qed.

(** the solver of C34 does *)
Theorem C87_applies : forall m tol, 0 <= tol -> cg_beats tol (cg_of (S m) tol).
Proof. exact cg_beats_of. Qed.
Print Assumptions C87_applies.

(** with the solvers of the library *)
Theorem C87_library : forall ms chol slv eig svd pin tol oinf dxmin gi n nsl lb ub thr M0 ce ae sl fuel x delta g lm L w o,
  length ae = length ce -> (nsl <= length ce)%nat -> lag_grad n lb ub (length ce) ae x g lm L ->
  (forall i, (i < n)%nat -> held_count lb ub x L w i) -> rsum n w < INR (n + nsl - length ce) ->
  symmetric n M0 -> 0 <= delta -> 0 <= tol -> svd_clear n nsl ce ae sl svd ->
  step_lib ms chol slv eig svd pin tol oinf dxmin gi n nsl lb ub thr M0 ce ae sl fuel x delta g lm = TrOut o -> tr_passes o = 1%nat ->
  exists r a, restores (restore_lib ms chol slv) (cvx_lib eig (n + nsl)) n nsl lb ub ce ae sl w x delta r a /\
    forall p s, tangent_part n nsl lb ub ce ae sl x L (slope n M0 g r) p -> tol < norm (n + nsl) p -> 0 <= s -> s * norm (n + nsl) p <= delta ->
    lag_model n M0 g (vsub (tr_x o) x) <= lag_model n M0 g (vsub r (vscal s p)).
Proof. exact c_library. Qed.
Print Assumptions C87_library.

Theorem C87_decrease : forall ms chol slv eig svd pin tol oinf dxmin gi n nsl lb ub thr M0 ce ae sl fuel x delta g lm L w o beta,
  length ae = length ce -> (nsl <= length ce)%nat -> lag_grad n lb ub (length ce) ae x g lm L ->
  (forall i, (i < n)%nat -> held_count lb ub x L w i) -> rsum n w < INR (n + nsl - length ce) ->
  symmetric n M0 -> 0 <= delta -> 0 <= tol -> svd_clear n nsl ce ae sl svd ->
  step_lib ms chol slv eig svd pin tol oinf dxmin gi n nsl lb ub thr M0 ce ae sl fuel x delta g lm = TrOut o -> tr_passes o = 1%nat ->
  exists r a, restores (restore_lib ms chol slv) (cvx_lib eig (n + nsl)) n nsl lb ub ce ae sl w x delta r a /\
    forall p, tangent_part n nsl lb ub ce ae sl x L (slope n M0 g r) p -> tol < norm (n + nsl) p ->
    0 < beta -> quad n M0 p <= beta * norm (n + nsl) p ^ 2 ->
    lag_model n M0 g (vsub (tr_x o) x) <= lag_model n M0 g r - / 2 * norm (n + nsl) p * Rmin delta (norm (n + nsl) p / beta).
Proof. exact c_decrease. Qed.
Print Assumptions C87_decrease.

(** the constraint x0 = 0 in two variables, the model 2*x1 + |x|^2/2, radius 1 *)
Example C87_library_nonvacuous : svd_clear 2 0 [0] [unitv 0] vzero svd8 /\
  tangent_part 2 0 freel freeu [0] [unitv 0] vzero vzero g8 (slope 2 idm g8 vzero) g8 /\ norm 2 g8 = 2 /\
  exists o, step_lib mst cholx slvx eig5 svd8 pin5 (/ 2) PInf 0 vzero 2 0 freel freeu (/ 10 ^ 7) idm [0] [unitv 0] vzero 22 vzero 1 g8 vzero = TrOut o /\
    tr_passes o = 1%nat /\ lag_model 2 idm g8 (tr_x o) <= -3 / 2.
Proof.
  split; [exact clear8|]. split; [apply part8; intros [|k] K; [reflexivity|cbn in K; lia]|]. split; [exact norm8|exact fall8].
Qed.

(** one pass is enough if the variables have no bounds *)
Theorem C87_one_pass : forall restore cvx null cg mult n nsl lb ub thr M0 ce ae sl fuel x delta g lm o,
  (forall i, (i < n)%nat -> lb i = NInf /\ ub i = PInf) ->
  solve_con restore cvx null cg mult n nsl lb ub thr M0 ce ae sl fuel x delta g lm = TrOut o -> tr_passes o = 1%nat.
Proof. exact c_one_pass. Qed.
Print Assumptions C87_one_pass.

(** without degrees of freedom by number only the restoration step is made ... *)
Theorem C87_full : forall restore cvx null cg mult n nsl lb ub thr M0 ce ae sl fuel x delta g lm L w o,
  length ae = length ce -> (nsl <= length ce)%nat -> lag_grad n lb ub (length ce) ae x g lm L ->
  (forall i, (i < n)%nat -> held_count lb ub x L w i) -> INR (n + nsl - length ce) <= rsum n w ->
  solve_con restore cvx null cg mult n nsl lb ub thr M0 ce ae sl fuel x delta g lm = TrOut o -> tr_passes o = 1%nat ->
  exists r a, restores restore cvx n nsl lb ub ce ae sl w x delta r a /\ forall i, tr_x o i = x i + r i.
Proof. exact c_full. Qed.
Print Assumptions C87_full.

(** ... even if the constraints depend on each other: the decrease of C87_library needs the count *)
Theorem C87_dependent_refuted : ~ forall ms chol slv eig svd pin tol oinf dxmin gi n nsl lb ub thr M0 ce ae sl fuel x delta g lm L w o,
  length ae = length ce -> (nsl <= length ce)%nat -> lag_grad n lb ub (length ce) ae x g lm L ->
  (forall i, (i < n)%nat -> held_count lb ub x L w i) -> symmetric n M0 -> 0 <= delta -> 0 <= tol -> svd_clear n nsl ce ae sl svd ->
  step_lib ms chol slv eig svd pin tol oinf dxmin gi n nsl lb ub thr M0 ce ae sl fuel x delta g lm = TrOut o -> tr_passes o = 1%nat ->
  exists r a, restores (restore_lib ms chol slv) (cvx_lib eig (n + nsl)) n nsl lb ub ce ae sl w x delta r a /\
    forall p s, tangent_part n nsl lb ub ce ae sl x L (slope n M0 g r) p -> tol < norm (n + nsl) p -> 0 <= s -> s * norm (n + nsl) p <= delta ->
    lag_model n M0 g (vsub (tr_x o) x) <= lag_model n M0 g (vsub r (vscal s p)).
Proof. exact twice_refuted. Qed.
Print Assumptions C87_dependent_refuted.

(** the constraint x0 = 0 twice: the zero step *)
Example C87_dependent_witness : exists o,
  step_lib mst cholx slvx eig5 svd8 pin5 (/ 2) PInf 0 vzero 2 0 freel freeu (/ 10 ^ 7) idm [0; 0] [unitv 0; unitv 0] vzero 22 vzero 1 g8 vzero = TrOut o /\
  tr_passes o = 1%nat /\ forall i, tr_x o i = 0.
Proof. exact twice8. Qed.
