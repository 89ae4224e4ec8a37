(** C81: constraint values of problem 1000 (tests/benchmarks.py 209-259). *)
From Coq Require Import List Arith ZArith QArith Bool.
Import ListNotations.
From Verif Require Import Main_Model Drv_Model Usr_Model Cut_Model Cut_Spec Cut_Proofs Cut_Wit.
Local Open Scope Q_scope.

(** With at least one inequality, the values say whether the constraints hold,
    if bounds of magnitude 1e7 and more are no bounds. *)
Theorem C81_meaning : forall me rows, me = equalities rows -> (me < length rows)%nat ->
  (accepted me (fst (c_values me rows)) <-> Forall holds rows).
Proof. exact meaning. Qed.
Print Assumptions C81_meaning.

(** The equalities come first, in their order. *)
Theorem C81_order : forall me rows, (me < length rows)%nat ->
  firstn (equalities rows) (fst (c_values me rows)) = map (fun r => val r - lo r) (filter (fun r => Qeq_bool (lo r) (up r)) rows).
Proof. exact order. Qed.
Print Assumptions C81_order.

(** Then, for every inequality in its order, the distances to its lower and to
    its upper bound. *)
Theorem C81_inequalities : forall me rows, (me < length rows)%nat ->
  Forall2 Qeq (skipn (equalities rows) (fst (c_values me rows)))
    (flat_map distances (filter (fun r => negb (Qeq_bool (lo r) (up r))) rows)).
Proof. exact ineq_order. Qed.
Print Assumptions C81_inequalities.

(** The number of values is the one the driver expects, less the inequalities
    without bounds. *)
Theorem C81_count : forall me rows, me = equalities rows -> (me < length rows)%nat -> (forall r, In r rows -> lo r <= up r) ->
  exists k, slack_count me (length rows - me) (Some (map (fun r => Fin (lo r)) rows)) (Some (map (fun r => Fin (up r)) rows)) = Some k /\
  (length (fst (c_values me rows)) + unbounded rows = me + k)%nat.
Proof. exact count. Qed.
Print Assumptions C81_count.

Example C81_count_ex : equalities rows3 = 1%nat /\ length rows3 = 3%nat /\
  slack_count 1 2 (Some (map (fun r => Fin (lo r)) rows3)) (Some (map (fun r => Fin (up r)) rows3)) = Some 3%nat /\
  map Qred (fst (c_values 1 rows3)) = [0; 1; 1; 3].
Proof. vm_compute. repeat split. Qed.

(** So the two numbers do not always agree. *)
Theorem C81_count_refuted : ~ (forall me rows k, me = equalities rows -> (me < length rows)%nat ->
  (forall r, In r rows -> lo r <= up r) ->
  slack_count me (length rows - me) (Some (map (fun r => Fin (lo r)) rows)) (Some (map (fun r => Fin (up r)) rows)) = Some k ->
  length (fst (c_values me rows)) = (me + k)%nat).
Proof. exact free_refuted. Qed.
Print Assumptions C81_count_refuted.

(** Finite bounds of magnitude 1e7 and more are not seen. *)
Theorem C81_large_refuted : ~ (forall me rows, me = equalities rows -> (me < length rows)%nat ->
  accepted me (fst (c_values me rows)) -> Forall within rows).
Proof. exact large_refuted. Qed.
Print Assumptions C81_large_refuted.

(** Without inequalities the values are handed over as they are... *)
Theorem C81_equalities : forall me rows, (length rows <= me)%nat -> fst (c_values me rows) = map val rows.
Proof. exact only_equalities. Qed.
Print Assumptions C81_equalities.

(** The warning comes if the lower or the upper bounds have a positive sum. *)
Theorem C81_warning : forall me rows, snd (c_values me rows) = true <->
  (length rows <= me)%nat /\
  (0 < fold_right Qplus 0 (map lo rows) \/ 0 < fold_right Qplus 0 (map up rows)).
Proof. exact warning. Qed.
Print Assumptions C81_warning.

Example C81_warning_ex : snd (c_values 1 [mkrow 1 1 0]) = true /\ snd (c_values 1 [mkrow (-1) (-1) 0]) = false /\
  snd (c_values 0 []) = false.
Proof. repeat split. Qed.

(** ...so that a right-hand side is lost, and the warning need not come. *)
Theorem C81_equalities_refuted : ~ (forall me rows, me = equalities rows -> me = length rows ->
  snd (c_values me rows) = false -> accepted me (fst (c_values me rows)) -> Forall holds rows).
Proof. exact equalities_refuted. Qed.
Print Assumptions C81_equalities_refuted.

(** Through the solver every evaluation of problem 1000 fails: the functions get
    a list. *)
Theorem C81_driver : forall me obj con x, r_msg (func (user_1000 me obj con) x) = true /\
  r_f (func (user_1000 me obj con) x) = FVal PInf /\ r_c (func (user_1000 me obj con) x) = CVal [].
Proof. exact driver. Qed.
Print Assumptions C81_driver.

Example C81_driver_ex : f_1000 (fun _ => Fin 1) (AArray [0]) = FVal (Fin 1) /\
  c_1000 1 (fun _ => rows_eq) (AArray [0]) = CVal [Fin 0].
Proof. split; reflexivity. Qed.
