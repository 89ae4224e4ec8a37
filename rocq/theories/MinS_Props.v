(** C76: the complete search of minq.py. *)
From Coq Require Import Reals List Arith ZArith Lra Lia.
From Verif Require Import RVec RBool MinQ_Model MinQ_Spec LDL_Model LDL_Spec LDL_Wit MinS_Model MinS_Spec MinS_Proofs MinS_Main MinS_Steps MinP_Spec MinP_Main MinS_Wit.
Import ListNotations.
Open Scope R_scope.

(** The point returned lies in the box; in a finite box no NaN enters. *)
Theorem C76_feasible : forall neps slv fuel cfuel n G c gamma xu xo x0, 0 <= neps -> (2 <= n)%nat -> symmetric n G -> nonempty n xu xo ->
  (forall why x f info k, fst (minq_search neps slv fuel cfuel n G c gamma xu xo x0) = MqReturn why x f info k -> within n xu xo x) /\
  (all_finite n xu xo -> forall x, fst (minq_search neps slv fuel cfuel n G c gamma xu xo x0) <> MqNaN x).
Proof. exact t_feasible. Qed.
Print Assumptions C76_feasible.

Example C76_feasible_ex : exists f, fst (minq_search 0 slvW 2 4 3 (undiag 0 G3) c3 0 lo3 hi3 st3) = MqReturn NothingTried (lv [0; 2; 5]) (Some f) (-1) 1 /\
  symmetric 3 (undiag 0 G3) /\ nonempty 3 lo3 hi3.
Proof.
  destruct (run3 0 ltac:(lra)) as (f & E). exists f. split; [|split; [apply undiag_sym, sym3|apply ne3]].
  unfold minq_search. rewrite regular_undiag by lra. exact E.
Qed.

(** For a positive semidefinite G the value at the point returned, for the matrix left in G, is
    at most the value at the point of the box closest to the guess, and the value returned is
    the one at the point returned unless the code is 1. *)
Theorem C76_descent : forall neps slv fuel cfuel n G c gamma xu xo x0 why x f info k G', 0 <= neps -> (2 <= n)%nat -> symmetric n G -> nonempty n xu xo ->
  possemidef n G -> minq_search neps slv fuel cfuel n G c gamma xu xo x0 = (MqReturn why x f info k, G') ->
  exists y v, nearest n xu xo x0 y /\ f = Some v /\ fobj gamma n G' c x <= fobj gamma n G' c y /\ fobj gamma n G' c x <= v /\
    (info <> 1%Z -> v = fobj gamma n G' c x).
Proof. exact t_descent. Qed.
Print Assumptions C76_descent.

Example C76_descent_ex : minq_search 0 slvW 4 3 2 (undiag 0 G2) c2 0 lo2 hi2 st2 = (MqReturn RefinedSame (lv [7/8; 15/4]) (Some (-319/64)) 0 3, G2) /\
  symmetric 2 (undiag 0 G2) /\ nonempty 2 lo2 hi2 /\ possemidef 2 (undiag 0 G2).
Proof.
  split; [|split; [apply undiag_sym, sym2|split; [apply ne2|apply psd2; lra]]].
  unfold minq_search. rewrite regular_undiag by lra. rewrite run2 by lra. reflexivity.
Qed.

(** A search that ends because a coordinate search brought no improvement has found, for such
    a G, a global minimiser over the box for the changed matrix; the value for the matrix given
    exceeds that at any point y of the box by at most neps/2 times the sum of G_ii y_i^2. *)
Theorem C76_optimal : forall neps slv fuel cfuel n G c gamma xu xo x0 x f info k G', 0 <= neps -> (2 <= n)%nat -> symmetric n G -> nonempty n xu xo ->
  possemidef n G -> minq_search neps slv fuel cfuel n G c gamma xu xo x0 = (MqReturn NoImprovement x f info k, G') ->
  info = 0%Z /\ lowest_in_box gamma n G' c xu xo x /\
  forall y, within n xu xo y -> fobj gamma n G c x <= fobj gamma n G c y + neps / 2 * rsum n (fun i => G i i * (y i * y i)).
Proof. exact t_optimal. Qed.
Print Assumptions C76_optimal.

Example C76_optimal_ex : exists x f k G', symmetric 2 GO /\ possemidef 2 GO /\ nonempty 2 loI hiI /\
  minq_search 0 slvW 2 3 2 GO (lv [0; 0]) 0 loI hiI stI = (MqReturn NoImprovement x f 0 k, G').
Proof. exact w_done. Qed.

(** The code says which of the endings occurred. *)
Theorem C76_codes : forall neps slv fuel cfuel n G c gamma xu xo x0 why x f info k, 0 <= neps -> (2 <= n)%nat -> symmetric n G -> nonempty n xu xo ->
  fst (minq_search neps slv fuel cfuel n G c gamma xu xo x0) = MqReturn why x f info k ->
  (info = 99%Z <-> why = Limit) /\ (info = 1%Z <-> why = CoordUnbounded) /\ (info = (-1)%Z <-> why = NothingTried) /\
  (info = 0%Z <-> why = NoImprovement \/ why = RefinedOften \/ why = RefinedSame).
Proof. exact t_codes. Qed.
Print Assumptions C76_codes.

Example C76_codes_ex : exists f, fst (minq_search 0 slvW 2 4 3 (undiag 0 G3) c3 0 lo3 hi3 st3) = MqReturn NothingTried (lv [0; 2; 5]) (Some f) (-1) 1.
Proof. destruct C76_feasible_ex as (f & E & _). exists f. exact E. Qed.

(** The iteration limit means exactly 3n subspace steps; code -1 only comes after a subspace step. *)
Theorem C76_steps : forall neps slv fuel cfuel n G c gamma xu xo x0 why x f info k, (1 <= n)%nat ->
  fst (minq_search neps slv fuel cfuel n G c gamma xu xo x0) = MqReturn why x f info k ->
  (why = Limit -> k = (3 * n)%nat) /\ (why = NothingTried -> (1 <= k)%nat).
Proof. exact t_steps. Qed.
Print Assumptions C76_steps.

Example C76_steps_ex : exists f, fst (minq_search 0 slvW 2 4 3 (undiag 0 G3) c3 0 lo3 hi3 st3) = MqReturn NothingTried (lv [0; 2; 5]) (Some f) (-1) 1.
Proof. exact C76_codes_ex. Qed.

(** Every search is a sequence of the passes described in MinP_Spec: the conditions for going on,
    the refinements counted, the value kept, the variables in the factorisation, the Newton
    direction and the length of the step. *)
Theorem C76_passes : forall neps slv fuel cfuel n G c gamma xu xo x0 why x f info k G', 0 <= neps -> solves_systems slv -> (2 <= n)%nat -> symmetric n G -> nonempty n xu xo ->
  minq_search neps slv fuel cfuel n G c gamma xu xo x0 = (MqReturn why x f info k, G') ->
  exists s0 v, begins n xu xo x0 s0 /\ f = Some v /\ completes neps gamma n G' c xu xo cfuel s0 why x v k.
Proof. exact t_passes. Qed.
Print Assumptions C76_passes.

Example C76_passes_ex : solves_systems slvW /\ symmetric 2 (undiag 0 G2) /\ nonempty 2 lo2 hi2 /\
  minq_search 0 slvW 4 3 2 (undiag 0 G2) c2 0 lo2 hi2 st2 = (MqReturn RefinedSame (lv [7/8; 15/4]) (Some (-319/64)) 0 3, G2).
Proof. split; [exact slvW_solves|]. split; [apply C76_descent_ex|]. split; [apply C76_descent_ex|]. apply C76_descent_ex. Qed.

(** Code 1 is only given when a bound is infinite and the function is unbounded below in the box. *)
Theorem C76_unbounded : forall neps slv fuel cfuel n G c gamma xu xo x0 why x f k G', 0 <= neps -> (2 <= n)%nat -> symmetric n G -> nonempty n xu xo ->
  minq_search neps slv fuel cfuel n G c gamma xu xo x0 = (MqReturn why x f 1 k, G') ->
  ~ all_finite n xu xo /\ forall M, exists y, within n xu xo y /\ fobj gamma n G' c y < M.
Proof. exact t_unbounded. Qed.
Print Assumptions C76_unbounded.

Example C76_unbounded_ex : exists why x f k G', symmetric 2 (fun _ _ => 0) /\ nonempty 2 (fun _ => NInf) (fun _ => PInf) /\
  minq_search 0 slvW 1 1 2 (fun _ _ => 0) (lv [1; 0]) 0 (fun _ => NInf) (fun _ => PInf) stI = (MqReturn why x f 1 k, G').
Proof. exact w_down. Qed.

(** The caller's matrix is changed: its diagonal is multiplied by 1+neps. *)
Theorem C76_matrix : forall neps slv fuel cfuel n G c gamma xu xo x0 o G', minq_search neps slv fuel cfuel n G c gamma xu xo x0 = (o, G') ->
  diagonal_scaled n (1 + neps) G G'.
Proof. exact t_matrix. Qed.
Print Assumptions C76_matrix.

Example C76_matrix_ex : snd (minq_search 1 slvW 1 1 2 GO (lv [0; 0]) 0 loI hiI stI) 0%nat 0%nat = 2.
Proof. cbn. ring. Qed.

(** The code -1, which is not documented, is given for a convex problem in a finite box, away
    from the minimiser. *)
Theorem C76_info_refuted : forall neps, 0 <= neps <= 1/1000 -> exists slv fuel cfuel n G c xu xo x0 why x f k G',
  solves_systems slv /\ (2 <= n)%nat /\ symmetric n G /\ possemidef n G /\ nonempty n xu xo /\ all_finite n xu xo /\
  minq_search neps slv fuel cfuel n G c 0 xu xo x0 = (MqReturn why x f (-1) k, G') /\ ~ lowest_in_box 0 n G' c xu xo x.
Proof. exact w_info. Qed.
Print Assumptions C76_info_refuted.

(** Code 0 does not mean that a minimiser was found, not even for a convex problem. *)
Theorem C76_optimal_refuted : forall neps, 0 <= neps <= 1/1000 -> exists slv fuel cfuel n G c xu xo x0 why x f k G',
  solves_systems slv /\ (2 <= n)%nat /\ symmetric n G /\ possemidef n G /\ nonempty n xu xo /\ all_finite n xu xo /\
  minq_search neps slv fuel cfuel n G c 0 xu xo x0 = (MqReturn why x f 0 k, G') /\ ~ lowest_in_box 0 n G' c xu xo x.
Proof. exact w_optimal. Qed.
Print Assumptions C76_optimal_refuted.

(** With an indefinite G the search may end with an exception. *)
Theorem C76_indefinite_refuted : forall neps, 0 <= neps <= 1/1000 -> exists slv fuel cfuel n G c xu xo x0,
  solves_systems slv /\ (2 <= n)%nat /\ symmetric n G /\ nonempty n xu xo /\ all_finite n xu xo /\
  fst (minq_search neps slv fuel cfuel n G c 0 xu xo x0) = MqRaise.
Proof. exact w_indefinite. Qed.
Print Assumptions C76_indefinite_refuted.
