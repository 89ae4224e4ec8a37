(** C64, C65: what the constrained trust-region step achieves and why it stops. *)
From Coq Require Import Reals List Arith Lra Lia.
From Verif Require Import RVec RBool ProjGrad_Spec CG_Spec Mult_Spec TR_Model TR_Spec TR_Wit Step_Spec Step_Wit.
Import ListNotations.
Open Scope R_scope.

(** over all passes the model of the Lagrangian is not larger than after the restoration step *)
Theorem C64_decrease : forall restore cvx null cg mult n nsl lb ub thr M0 ce ae sl fuel x delta g lm L w o,
  length ae = length ce -> (nsl <= length ce)%nat -> lag_grad n lb ub (length ce) ae x g lm L ->
  (forall i, (i < n)%nat -> held_count lb ub x L w i) ->
  symmetric n M0 -> / 10 ^ 15 <= thr -> keeps_bounds restore ->
  (forall i, (i < nsl)%nat -> xle_r (lb (n + i)%nat) (sl i) /\ rle_x (sl i) (ub (n + i)%nat)) -> in_bounds n lb ub x ->
  cg_descends cg ->
  solve_con restore cvx null cg mult n nsl lb ub thr M0 ce ae sl fuel x delta g lm = TrOut o ->
  exists r a, restores restore cvx n nsl lb ub ce ae sl w x delta r a /\
    lag_model n M0 g (vsub (tr_x o) x) <= lag_model n M0 g r.
Proof. exact d_decrease. Qed.
Print Assumptions C64_decrease.

(** the solver of C34 descends *)
Theorem C64_decrease_applies : forall max_iter tol, cg_descends (cg_of max_iter tol).
Proof. exact descends_of. Qed.
Print Assumptions C64_decrease_applies.

(** the predicted reduction is that of the restoration step; the boundary flag is lost after
    the first pass *)
Theorem C64_predicted : forall restore cvx null cg mult n nsl lb ub thr M0 ce ae sl fuel x delta g lm L w o,
  length ae = length ce -> (nsl <= length ce)%nat -> lag_grad n lb ub (length ce) ae x g lm L ->
  (forall i, (i < n)%nat -> held_count lb ub x L w i) ->
  solve_con restore cvx null cg mult n nsl lb ub thr M0 ce ae sl fuel x delta g lm = TrOut o ->
  exists r a, restores restore cvx n nsl lb ub ce ae sl w x delta r a /\
    tr_rpred o = con_length n nsl ce ae sl w vzero - con_length n nsl ce ae sl w r /\
    (tr_actr o = true <-> tr_passes o = 1%nat /\ (a = Some MsgBoundary \/ (a = Some MsgOther /\ delta - norm n r < / 10 ^ 8))).
Proof. exact d_rpred. Qed.
Print Assumptions C64_predicted.

Theorem C64_predicted_sign : forall restore cvx null cg mult n nsl lb ub thr M0 ce ae sl fuel x delta g lm L w o,
  length ae = length ce -> (nsl <= length ce)%nat -> lag_grad n lb ub (length ce) ae x g lm L ->
  (forall i, (i < n)%nat -> held_count lb ub x L w i) ->
  (forall k h A l u D r m, restore k h A l u D = Some (r, m) -> dot k h r + / 2 * quad k A r <= 0) ->
  (forall A, possemidef (n + nsl) A -> forall i j, (i < n + nsl)%nat -> (j < n + nsl)%nat -> cvx A i j = A i j) ->
  solve_con restore cvx null cg mult n nsl lb ub thr M0 ce ae sl fuel x delta g lm = TrOut o ->
  0 <= tr_rpred o.
Proof. exact d_nonneg. Qed.
Print Assumptions C64_predicted_sign.

(** a single pass: the tangential step keeps the linearised constraints and the bounds held,
    and the slacks stay within their bounds *)
Theorem C64_single_pass : forall restore cvx null cg mult n nsl lb ub thr M0 ce ae sl fuel x delta g lm L w o,
  length ae = length ce -> (nsl <= length ce)%nat -> lag_grad n lb ub (length ce) ae x g lm L ->
  (forall i, (i < n)%nat -> held_count lb ub x L w i) -> null_in (n + nsl) null ->
  solve_con restore cvx null cg mult n nsl lb ub thr M0 ce ae sl fuel x delta g lm = TrOut o -> tr_passes o = 1%nat ->
  exists r a t, restores restore cvx n nsl lb ub ce ae sl w x delta r a /\ tr_x o = vadd (vadd x r) t /\
    (forall k, (k < length ce)%nat -> lin_con n nsl ce ae sl (vadd r t) k = lin_con n nsl ce ae sl r k) /\
    (forall i, (i < n)%nat -> held_low lb x L i \/ held_up ub x L i -> t i = 0) /\
    (tr_end o = TrFeasible -> keeps_bounds restore ->
     (forall i, (i < nsl)%nat -> xle_r (lb (n + i)%nat) (sl i) /\ rle_x (sl i) (ub (n + i)%nat)) -> in_bounds n lb ub x ->
     forall i, (i < nsl)%nat -> xle_r (lb (n + i)%nat) (tr_sl o i) /\ rle_x (tr_sl o i) (ub (n + i)%nat) /\
       (tr_sl o i = sl i + r (n + i)%nat + t (n + i)%nat \/
        (tr_sl o i = sl i + r (n + i)%nat /\
         ~ (xle_r (lb (n + i)%nat) (sl i + r (n + i)%nat + t (n + i)%nat) /\ rle_x (sl i + r (n + i)%nat + t (n + i)%nat) (ub (n + i)%nat))))).
Proof. exact d_single. Qed.
Print Assumptions C64_single_pass.

(** two passes do not keep the linearised constraints *)
Theorem C64_linear_refuted : ~ forall restore cvx null cg mult n nsl lb ub thr M0 ce ae sl fuel x delta g lm o,
  length ae = length ce -> (nsl <= length ce)%nat -> symmetric n M0 -> 0 <= delta -> / 10 ^ 15 <= thr -> keeps_bounds restore -> in_bounds n lb ub x ->
  restore_short restore -> cg_short cg -> cg_descends cg -> null_orth (n + nsl) null -> null_in (n + nsl) null ->
  (forall k, (k < length ce)%nat -> lin_con n nsl ce ae sl vzero k = 0) -> nsl = 0%nat ->
  solve_con restore cvx null cg mult n nsl lb ub thr M0 ce ae sl fuel x delta g lm = TrOut o ->
  forall k, (k < length ce)%nat -> lin_con n nsl ce ae sl (vsub (tr_x o) x) k = 0.
Proof. exact r_linear. Qed.
Print Assumptions C64_linear_refuted.

(** one pass with one variable, one slack at its bound and a restoration step on the boundary;
    the hypotheses of the theorems hold *)
Example C64_nonvacuous :
  lag_grad 1 loi half1 1 [unitv 0] vzero vzero vzero vzero /\ held_count loi half1 vzero vzero vzero 0 /\
  symmetric 1 zmat /\ keeps_bounds (guard back1) /\ restore_short (guard back1) /\ cg_short (cg_chk candU1) /\ cg_descends (cg_chk candU1) /\
  null_in 2 (null_chk 2 candZ1) /\
  exists o, solve_con (guard back1) (fun A => A) (null_chk 2 candZ1) (cg_chk candU1) multz 1 1 loi half1 (/ 10 ^ 8) zmat [1] [unitv 0] vzero 100 vzero 1 vzero vzero = TrOut o /\
    tr_end o = TrFeasible /\ tr_passes o = 1%nat /\ tr_x o 0%nat = -1 /\ tr_sl o 0%nat = 0 /\ tr_actr o = true.
Proof.
  split; [apply no_held_lag|]. split; [apply no_held_count; cbn; tauto|]. split; [intros i j _ _; reflexivity|].
  split; [apply guard_bounds|]. split; [apply guard_short|]. split; [apply cg_chk_short|]. split; [apply cg_chk_descends|].
  split; [apply null_chk_in|]. exact single_case.
Qed.

(** C65: what the multipliers say at the exits *)
Theorem C65_exits : forall restore cvx null cg mult n nsl lb ub thr M0 ce ae sl fuel x delta g lm o,
  solve_con restore cvx null cg mult n nsl lb ub thr M0 ce ae sl fuel x delta g lm = TrOut o -> match tr_end o with
  | TrSigns => mult (tr_passes o) (tr_x o) = Some (tr_lm o) /\ tr_fix o <> [] /\ (forall i, In i (tr_fix o) -> 0 <= tr_lm o i)
  | TrRelease => mult (tr_passes o) (tr_x o) = Some (tr_lm o) /\
      (forall i, In i (tr_fix o) -> (i < n)%nat /\ (at_bound (/ 10 ^ 7) (tr_x o i) (lb i) \/ at_bound (/ 10 ^ 7) (tr_x o i) (ub i))) /\
      exists i, In i (tr_fix o) /\ tr_lm o i < 0 /\ (forall j, In j (tr_fix o) -> tr_lm o i <= tr_lm o j)
  | TrZero => tr_fix o = []
  | _ => True
  end.
Proof. exact d_exit. Qed.
Print Assumptions C65_exits.

(** with multipliers of the signs of C40 the "release" concerns a lower bound whose
    multiplier has the right sign *)
Theorem C65_lower : forall restore cvx null cg mult n nsl lb ub thr M0 ce ae sl fuel x delta g lm o,
  signed_near n lb ub mult ->
  solve_con restore cvx null cg mult n nsl lb ub thr M0 ce ae sl fuel x delta g lm = TrOut o -> tr_end o = TrRelease ->
  exists i, In i (tr_fix o) /\ tr_lm o i < 0 /\ at_bound (/ 10 ^ 5) (tr_x o i) (lb i) /\
    (forall j, In j (tr_fix o) -> tr_lm o i <= tr_lm o j) /\
    (forall j, In j (tr_fix o) -> ~ at_bound (/ 10 ^ 5) (tr_x o j) (lb j) -> 0 <= tr_lm o j /\ at_bound (/ 10 ^ 7) (tr_x o j) (ub j)).
Proof. exact d_low. Qed.
Print Assumptions C65_lower.

(** the "release" exit does not mean that the point fails the first-order conditions *)
Theorem C65_release_refuted : ~ forall restore cvx null cg mult n nsl lb ub thr M0 ce ae sl fuel x delta g lm o,
  length ae = length ce -> (nsl <= length ce)%nat -> symmetric n M0 -> 0 <= delta -> / 10 ^ 15 <= thr -> keeps_bounds restore -> in_bounds n lb ub x ->
  restore_short restore -> cg_short cg -> cg_descends cg -> null_orth (n + nsl) null -> null_in (n + nsl) null -> signed_near n lb ub mult -> nsl = 0%nat ->
  solve_con restore cvx null cg mult n nsl lb ub thr M0 ce ae sl fuel x delta g lm = TrOut o -> tr_end o = TrRelease ->
  ~ first_order_conditions n nsl (length ce) (tr_x o) lb ub (vadd g (mv n M0 (vsub (tr_x o) x))) (lin_con n nsl ce ae sl (vsub (tr_x o) x)) (fun k => nth k ae vzero).
Proof. exact r_release. Qed.
Print Assumptions C65_release_refuted.

Example C65_nonvacuous : signed_near 2 low0 hii mult1 /\
  exists o, solve_con (guard vzero) (fun A => A) (null_chk 2 candZ0) (cg_chk candU2) mult1 2 0 low0 hii (/ 10 ^ 8) zmat [0] [unitv 1] vzero 100 first1 4 first1 vzero = TrOut o /\
    tr_end o = TrRelease /\ tr_fix o = [0%nat] /\ tr_x o 0%nat = 0 /\ tr_x o 1%nat = 0.
Proof. split; [exact mult1_near|exact release_case]. Qed.
