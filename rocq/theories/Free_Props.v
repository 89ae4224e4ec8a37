(** Property theorems: problems without bounds and without constraints (C77). *)
From Coq Require Import List Arith ZArith QArith Bool.
Import ListNotations.
From Verif Require Import QB Book_Model Main_Model Opt_Model Drv_Model Pre_Model Pre_Spec Pre_Wit Sol_Model Sol_Spec Sol_Wit Out_Model Out_Spec
  Free_Model Free_Spec Free_Proofs Free_Wit.
Local Open Scope Q_scope.

(** the first optimality test raises exactly if nothing is bounded and there are no
    constraints; [me]: number of constraints *)
Theorem C77_test : forall o n lb ub x me,
  first_test_raises o n lb ub x me = true <->
  (forall j, (j < n)%nat -> unbounded (inf_of o) (nth j lb None) (nth j ub None)) /\ me = 0%nat.
Proof. exact test_raises. Qed.
Print Assumptions C77_test.

(** a call without bounds and constraints ends with an exception once the first points
    are evaluated *)
Theorem C77_raises : forall w fuel i f c k o cl X fX ceX d,
  no_ineq i -> free i -> unconstrained (w_user w) -> covers w i ->
  check_args (i_args i) = Enter f c -> slacks_of i = Some k -> validate (i_opts i) = VDone o ->
  (length (i_x0 i) <= length (full_lb i k))%nat -> (length (i_x0 i) <= length (full_ub i k))%nat ->
  prelim (w_user w) (w_nrm w) (w_geom w) (w_fit w) fuel (i_int i) (full_lb i k) (full_ub i k) (i_x0 i)
      = Some (PReady cl X fX ceX d) ->
  solve fuel i w = Some Raises.
Proof. exact free_raises. Qed.
Print Assumptions C77_raises.

Example C77_raises_ex : no_ineq open_call /\ free open_call /\ unconstrained (w_user (wfree true)) /\ covers (wfree true) open_call /\
  solve 5 open_call (wfree true) = Some Raises /\
  exists cl X fX ceX d, prelim uline n1 yes yes 5 false [None] [None] [3] = Some (PReady cl X fX ceX d) /\ length cl = 2%nat.
Proof. exact (conj (proj1 open_free) (conj (proj1 (proj2 open_free)) (conj (proj1 (proj2 (proj2 open_free)))
  (conj (proj2 (proj2 (proj2 open_free))) open_raises)))). Qed.

(** it never returns a point *)
Theorem C77_no_point : forall w fuel i fl x cl,
  no_ineq i -> free i -> unconstrained (w_user w) -> covers w i ->
  solve fuel i w = Some (Gives fl x cl) -> x = None /\ In fl [1; 2; 3]%nat.
Proof. exact free_no_point. Qed.
Print Assumptions C77_no_point.

(** the absent bounds are bounds, unless options.inf is at most 1e20 *)
Theorem C77_default : forall i, i_lb i = None -> i_ub i = None -> (0 < length (i_x0 i))%nat ->
  (free i <-> (exists r, infinity i = Fin r /\ r <= c1e20) \/ infinity i = NInf \/ infinity i = NaN).
Proof. exact default_bounds. Qed.
Print Assumptions C77_default.

Example C77_default_ex : (no_ineq low_call /\ free low_call /\ covers (wfree true) low_call) /\
  covers (wfree false) (icall (lim (NInt 3) (NInt 50)) [3]) /\
  exists fl x cl, solve 5 (icall (lim (NInt 3) (NInt 50)) [3]) (wfree false) = Some (Gives fl (Some x) cl).
Proof. exact (conj low_free (conj default_covered default_gives)). Qed.

(** the multipliers added are those of the variables closer than 0.00001 to a bound *)
Theorem C77_near : forall n lb ub x j,
  In j (active n lb ub x) <->
  (j < n)%nat /\ (close_to (nth j lb None) (nth j x 0) \/ close_to (nth j ub None) (nth j x 0)).
Proof. exact active_close. Qed.
Print Assumptions C77_near.

Example C77_near_ex : active 3 [Some 0; Some 0; None] [None; Some 1; Some 2] [1 # 1000000; 1 # 2; 2 - (1 # 1000000)] = [0; 2]%nat.
Proof. exact eq_refl. Qed.

(** arrays that can be added to the gradient at some variables: columns long enough *)
Theorem C77_column : forall n m k I, I <> [] ->
  (bound_part [n; 1%nat] [m; k] I = true <-> (forall j, In j I -> (j < n)%nat /\ (j < m)%nat) /\ k = 1%nat).
Proof. exact table_lm. Qed.
Print Assumptions C77_column.

(** a flat array can be added at a single variable only *)
Theorem C77_flat : forall n m I, I <> [] ->
  (bound_part [n; 1%nat] [m] I = true <-> (forall j, In j I -> (j < n)%nat /\ (j < m)%nat) /\ length I = 1%nat).
Proof. exact flat_lm. Qed.
Print Assumptions C77_flat.

Example C77_flat_ex : bound_part [3; 1]%nat [3; 1]%nat [0; 2]%nat = true /\ bound_part [3; 1]%nat [3]%nat [0; 2]%nat = false /\
  bound_part [3; 1]%nat [3]%nat [2]%nat = true /\ bound_part [3; 1]%nat [3; 2]%nat [2]%nat = false.
Proof. exact (conj eq_refl (conj eq_refl (conj eq_refl eq_refl))). Qed.

(** the rules assumed for shapes: an array can be stored where its axes, counted from
    the last, have length 1 or the length of the place; a sum takes the other length at
    an axis of length 1, and otherwise needs equal lengths *)
Theorem C77_stored : forall v t, fits v t = true <-> forall k, axis v k = 1%nat \/ axis v k = axis t k.
Proof. exact fits_axes. Qed.
Print Assumptions C77_stored.

Theorem C77_sum : forall a b c, sum_shape a b = Some c <->
  length c = max (length a) (length b) /\
  forall k, (axis a k = 1%nat /\ axis c k = axis b k) \/ (axis b k = 1%nat /\ axis c k = axis a k) \/ (axis a k = axis b k /\ axis c k = axis a k).
Proof. exact sum_axes. Qed.
Print Assumptions C77_sum.

Example C77_sum_ex : sum_shape [2; 1]%nat [3]%nat = Some [2; 3]%nat /\ sum_shape [2]%nat [3]%nat = None /\
  fits [3]%nat [2; 3]%nat = true /\ fits [2]%nat [2; 3]%nat = false.
Proof. exact (conj eq_refl (conj eq_refl (conj eq_refl eq_refl))). Qed.
