(** C49, C50: new interpolation points (bcdfo_find_new_yj.py) and poisedness
    (bcdfo_poisedness_Y.py). *)
From Coq Require Import Reals List Lra Lia QArith Qreals.
From Verif Require Import RVec RBool Tri Poly_Model Poly_Spec Int_Model Int_Spec Int_Wit MS_Model MS_Spec MS_Wit
  QB Book_Model Main_Model Main_Spec New_Model New_Spec New_Proofs New_Wit.
Import ListNotations.
Open Scope R_scope.

(** The first position is never replaced. *)
Theorem C49_origin : forall slv pinv solver lSolver mode shift n p1 b Y Delta,
  find_new slv pinv solver lSolver mode shift n p1 b Y 0 Delta = Some (vzero, 0).
Proof. exact new_origin. Qed.
Print Assumptions C49_origin.

Example C49_origin_ex : find_new slv0 pinv0 lin_solver 1 0 false 1 2 b01 Y01 0 1 = Some (vzero, 0).
Proof. reflexivity. Qed.

(** The new point is as near to the first one as the trust-region solver's answers are
    to the origin; the radius is multiplied by the root of n for solver 2. *)
Theorem C49_radius : forall slv pinv solver qr ill cure lSolver mode shift n p1 Y b j Delta eps y imp,
  regular_case slv pinv qr ill cure mode shift n p1 Y b -> (1 <= j < p1)%nat -> 0 <= Delta -> within_radius n eps solver ->
  find_new slv pinv solver lSolver mode shift n p1 b Y j Delta = Some (y, imp) ->
  norm n (vsub y (Y 0%nat)) <= (1 + eps) * (if (lSolver =? 2)%nat then sqrt (INR n) * Delta else Delta).
Proof. exact t_radius. Qed.
Print Assumptions C49_radius.

Example C49_radius_ex : exists Y b y imp,
  regular_case slv0 pinv0 qr2 ill0 cure0 0 true 1 2 Y b /\ within_radius 1 (/ 1000) (ms_solver chol1 slv1 eig0 1 (/ 1000)) /\
  find_new slv0 pinv0 (ms_solver chol1 slv1 eig0 1 (/ 1000)) 1 0 true 1 2 b Y 1 5 = Some (y, imp) /\ y 0%nat = -5.
Proof.
  assert (NE : Y01 0 0%nat <> Y01 1 0%nat) by (unfold Y01; cbn; lra).
  destruct (pair_new Y01 NE 5 (/ 1000) ltac:(lra) ltac:(lra)) as (y & imp & F & V & _).
  exists Y01, (b_pair Y01), y, imp. split; [exact (pair_case Y01 NE)|].
  split; [exact (ms_within chol1 slv1 eig0 1 (/ 1000) ltac:(lia) ltac:(lra) chol1_exact slv1_exact eig0_pos)|].
  split; [exact F|]. rewrite V. unfold dir, Y01. cbn [INR]. rewrite !Rminus_0_r, Rabs_R1. lra.
Qed.

(** The improvement reported is the magnitude of the Lagrange polynomial at the new
    point, up to the error of the solver's value. *)
Theorem C49_improvement : forall slv pinv solver qr ill cure lSolver mode shift n p1 Y b j Delta tau y imp,
  regular_case slv pinv qr ill cure mode shift n p1 Y b -> (p1 <= full n)%nat -> (1 <= j < p1)%nat -> 0 <= Delta -> honest n tau solver ->
  find_new slv pinv solver lSolver mode shift n p1 b Y j Delta = Some (y, imp) ->
  exists len L v, computeLj slv pinv mode n p1 (b_Q b) (b_R b) j = Some (len, L) /\
    value shift n len L b y = Some v /\ Rabs (imp - Rabs v) <= tau.
Proof. exact t_improvement. Qed.
Print Assumptions C49_improvement.

(** With a solver that is optimal up to [e], the polynomial is nowhere in the ball larger
    than the improvement, up to [e + tau]. *)
Theorem C49_best : forall slv pinv solver qr ill cure lSolver mode shift n p1 Y b j Delta tau e y imp,
  regular_case slv pinv qr ill cure mode shift n p1 Y b -> (p1 <= full n)%nat -> (1 <= j < p1)%nat -> 0 <= Delta ->
  honest n tau solver -> optimal n e solver ->
  find_new slv pinv solver lSolver mode shift n p1 b Y j Delta = Some (y, imp) ->
  exists len L, computeLj slv pinv mode n p1 (b_Q b) (b_R b) j = Some (len, L) /\
    forall x, norm n (vsub x (Y 0%nat)) <= (if (lSolver =? 2)%nat then sqrt (INR n) * Delta else Delta) ->
      exists v, value shift n len L b x = Some v /\ Rabs v <= imp + e + tau.
Proof. exact t_best. Qed.
Print Assumptions C49_best.

Example C49_best_ex : regular_case slv0 pinv0 qr01 ill0 cure0 0 false 1 2 Y01 b01 /\ (2 <= full 1)%nat /\
  honest 1 0 lin_solver /\ optimal 1 0 lin_solver /\
  exists y imp, find_new slv0 pinv0 lin_solver 1 0 false 1 2 b01 Y01 1 3 = Some (y, imp).
Proof.
  split; [exact square_case|]. split; [vm_compute; lia|]. split; [exact lin_honest|]. split; [exact lin_optimal|]. apply lin_found.
Qed.

(** The poisedness routine returns the distance of the farthest point and the largest
    improvement over the positions from 1 on (0 if there are none). *)
Theorem C49_poisedness : forall slv pinv solver lSolver mode shift n p1 b Y lam r,
  poisedness slv pinv solver false lSolver mode shift n p1 b Y = Some (lam, r) ->
  (forall j, (j < p1)%nat -> norm n (vsub (Y j) (Y 0%nat)) <= r) /\
  (r = 0 \/ exists j, (1 <= j < p1)%nat /\ r = norm n (vsub (Y j) (Y 0%nat))) /\
  (forall j, (1 <= j < p1)%nat -> exists y imp, find_new slv pinv solver lSolver mode shift n p1 b Y j r = Some (y, imp) /\ imp <= lam) /\
  (lam = 0 \/ exists j y, (1 <= j < p1)%nat /\ find_new slv pinv solver lSolver mode shift n p1 b Y j r = Some (y, lam)).
Proof. exact t_poisedness. Qed.
Print Assumptions C49_poisedness.

(** Hence every Lagrange polynomial but the first is bounded by the poisedness on the
    smallest ball about the first point that contains the set. *)
Theorem C49_bound : forall slv pinv solver qr ill cure lSolver mode shift n p1 Y b tau e lam r,
  regular_case slv pinv qr ill cure mode shift n p1 Y b -> (p1 <= full n)%nat ->
  honest n tau solver -> optimal n e solver ->
  poisedness slv pinv solver false lSolver mode shift n p1 b Y = Some (lam, r) ->
  forall j, (1 <= j < p1)%nat -> exists len L, computeLj slv pinv mode n p1 (b_Q b) (b_R b) j = Some (len, L) /\
    forall x, norm n (vsub x (Y 0%nat)) <= r -> exists v, value shift n len L b x = Some v /\ Rabs v <= lam + e + tau.
Proof. exact t_poisedness_bound. Qed.
Print Assumptions C49_bound.

Example C49_bound_ex : exists lam r, poisedness slv0 pinv0 lin_solver false 1 0 false 1 2 b01 Y01 = Some (lam, r).
Proof. exact lin_poised. Qed.

(** With hard constraints the poisedness routine raises an exception for every set of at
    least two points. *)
Theorem C49_hardcons : forall slv pinv solver lSolver mode shift n p1 b Y, (2 <= p1)%nat ->
  poisedness slv pinv solver true lSolver mode shift n p1 b Y = None.
Proof. exact t_hardcons. Qed.
Print Assumptions C49_hardcons.

(** The library's trust-region solver, with exact linear algebra, keeps within
    (1 + eps) times the radius ... *)
Theorem C49_ms_radius : forall chol slvv eig n eps, (1 <= n)%nat -> 0 <= eps -> chol_exact n chol -> slv_exact n slvv ->
  (forall A k, (k < n)%nat -> 0 < norm n (fun i => fst (eig A) i k)) ->
  within_radius n eps (ms_solver chol slvv eig n eps).
Proof. exact ms_within. Qed.
Print Assumptions C49_ms_radius.

(** ... reports the value of its step up to 1e-15 ... *)
Theorem C49_ms_value : forall chol slvv eig n eps, (1 <= n)%nat -> 0 <= eps -> chol_exact n chol -> slv_exact n slvv ->
  (forall A k, (k < n)%nat -> 0 < norm n (fun i => fst (eig A) i k)) ->
  honest n (/ 10 ^ 15) (ms_solver chol slvv eig n eps).
Proof. exact ms_honest. Qed.
Print Assumptions C49_ms_value.

(** ... and always gives an answer. *)
Theorem C49_ms_total : forall chol slvv eig n eps, chol_exact n chol -> slv_exact n slvv ->
  forall slv pinv qr ill cure lSolver mode shift p1 Y b j Delta,
  regular_case slv pinv qr ill cure mode shift n p1 Y b -> (p1 <= full n)%nat -> (j < p1)%nat ->
  find_new slv pinv (ms_solver chol slvv eig n eps) lSolver mode shift n p1 b Y j Delta <> None.
Proof. exact ms_total. Qed.
Print Assumptions C49_ms_total.

Example C49_ms_ex : chol_exact 1 chol1 /\ slv_exact 1 slv1 /\ (forall A k, (k < 1)%nat -> 0 < norm 1 (fun i => fst (eig0 A) i k)).
Proof. exact (conj chol1_exact (conj slv1_exact eig0_pos)). Qed.

(** A bound that holds at the first point is exceeded at a new point by (1 + eps) times
    the radius at most. *)
Theorem C50_excess : forall chol slvv eig n eps, (1 <= n)%nat -> 0 <= eps -> chol_exact n chol -> slv_exact n slvv ->
  (forall A k, (k < n)%nat -> 0 < norm n (fun i => fst (eig A) i k)) ->
  forall slv pinv qr ill cure lSolver mode shift p1 Y b j Delta y imp,
  regular_case slv pinv qr ill cure mode shift n p1 Y b -> (1 <= j < p1)%nat -> 0 <= Delta ->
  find_new slv pinv (ms_solver chol slvv eig n eps) lSolver mode shift n p1 b Y j Delta = Some (y, imp) ->
  forall i l u, (i < n)%nat -> l <= Y 0%nat i <= u ->
    l - (1 + eps) * (if (lSolver =? 2)%nat then sqrt (INR n) * Delta else Delta) <= y i <=
    u + (1 + eps) * (if (lSolver =? 2)%nat then sqrt (INR n) * Delta else Delta).
Proof. exact ms_excess. Qed.
Print Assumptions C50_excess.

Example C50_excess_ex : exists Y b y imp,
  regular_case slv0 pinv0 qr2 ill0 cure0 0 true 1 2 Y b /\ 0 <= Y 0%nat 0%nat <= 1 /\ 0 <= Y 1%nat 0%nat <= 1 /\
  find_new slv0 pinv0 (ms_solver chol1 slv1 eig0 1 (/ 1000)) 1 0 true 1 2 b Y 1 (/ 2) = Some (y, imp) /\ y 0%nat < 0.
Proof.
  assert (NE : Y01 0 0%nat <> Y01 1 0%nat) by (unfold Y01; cbn; lra).
  destruct (pair_new Y01 NE (/ 2) (/ 1000) ltac:(lra) ltac:(lra)) as (y & imp & F & V & _).
  exists Y01, (b_pair Y01), y, imp. split; [exact (pair_case Y01 NE)|]. split; [unfold Y01; cbn; lra|].
  split; [unfold Y01; cbn; lra|].
  split; [exact F|]. rewrite V. unfold dir, Y01. cbn [INR]. rewrite !Rminus_0_r, Rabs_R1. lra.
Qed.

(** It is false that a pass of the main loop which started inside the bounds, with a trial
    point inside the bounds, calls the user functions inside the bounds only: the points
    proposed by the library's own solver (exact linear algebra) may lie outside. *)
Theorem C50_inside_refuted : ~ forall slv pinv qr ill cure chol slvv eig mode shift (E : env Q) lb ub k0 d0 s a s' f flag,
  tri_exact slv -> pinv_exact pinv -> chol_exact 1 chol -> slv_exact 1 slvv ->
  sane E -> begins E k0 d0 s -> calls_inside lb ub s -> (forall x, e_inside E x = true <-> (lb <= x <= ub)%Q) ->
  (a_glagn1 a <= 1 # 1000)%Q ->
  proposed slv pinv qr ill cure (ms_solver chol slvv eig 1 (/ 1000)) 1 mode shift (qmin (delta (sG s)) (1 # 100000)) (a_newpt a) ->
  (lb <= a_xnew a <= ub)%Q -> pass E s a = Return flag s' f -> calls_inside lb ub s'.
Proof. exact r_inside. Qed.
Print Assumptions C50_inside_refuted.

(** the run behind it: f(x) = x on [0, 1], points 0 and 1, solution 0; the loop returns
    with exit code 0 after calling the objective at -1e-5 *)
Example C50_inside_ex : begins boxE 2 1 box_s /\ exists s', pass boxE box_s box_a = Return 0 s' (Main_Model.Fin 0%Q) /\
  calls (sA s') = [0%Q; 1%Q; (-1 # 100000)%Q].
Proof. exact (conj box_begins box_pass). Qed.
