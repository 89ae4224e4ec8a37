(** C44, C45, C51: property theorems about the minq helpers. *)
From Coq Require Import Reals List Arith ZArith Lra Lia.
From Verif Require Import RVec RBool MinQ_Model MinQ_Spec MinQ_Proofs.
Import ListNotations.
Open Scope R_scope.

(** C44: a returned point is a minimiser over the interval. *)
Theorem C44_minimiser : forall lo hi b a x lba uba,
  xle_r lo 0 -> rle_x 0 hi ->
  quadMin lo hi b a = {| qm_x := Some x; qm_lba := lba; qm_uba := uba; qm_ier := false |} ->
  exists t, x = Fin t /\ minimiser lo hi a b t.
Proof. exact quadMin_min. Qed.
Print Assumptions C44_minimiser.

(** C44: unboundedness is reported exactly when it holds. *)
Theorem C44_unbounded : forall lo hi b a,
  xle_r lo 0 -> rle_x 0 hi -> (qm_ier (quadMin lo hi b a) = true <-> unbounded_below lo hi a b).
Proof. exact quadMin_unbounded_iff. Qed.
Print Assumptions C44_unbounded.

Example C44_example : xle_r (Fin (-1)) 0 /\ rle_x 0 (Fin 2) /\
  qm_x (quadMin (Fin (-1)) (Fin 2) (-3) 1) = Some (Fin 2) /\
  qm_ier (quadMin NInf (Fin 2) 3 0) = true.
Proof.
  repeat split; cbn; try lra.
  - unfold quadMin. cbn. rcases; cbn; try lra; try reflexivity.
  - unfold quadMin. cbn. rcases; cbn; try lra; try reflexivity.
Qed.

(** C45: in a search over n >= 2 variables every trial after the first is of
    a variable other than variable 0 (trace is latest first). *)
Theorem C45_trace : forall fuel n G xu xo unfix s, (2 <= n)%nat ->
  exists later first, cs_trace (coordinateSearch fuel n G xu xo unfix s) = later ++ first /\
    (length first <= 1)%nat /\ Forall (fun i => 1 <= i < n)%nat later.
Proof. exact search_trace. Qed.
Print Assumptions C45_trace.

Theorem C45_variable_zero_once : forall fuel n G xu xo unfix s, (2 <= n)%nat ->
  (count_occ Nat.eq_dec (cs_trace (coordinateSearch fuel n G xu xo unfix s)) 0 <= 1)%nat.
Proof. exact search_zero_once. Qed.
Print Assumptions C45_variable_zero_once.

(** C45: in dimension one the search ends with an index error or an
    unbounded direction, never normally. *)
Theorem C45_dimension_one : forall fuel G xu xo unfix s,
  match coordinateSearch (S (S fuel)) 1 G xu xo unfix s with
  | CSIndexError _ _ | CSUnbounded _ _ _ _ => True
  | _ => False
  end.
Proof. exact search_dim1. Qed.
Print Assumptions C45_dimension_one.

(** C51: the search keeps the point within its bounds, keeps the gradient
    consistent and never increases the quadratic. *)
Theorem C51_feasible_descent : forall fuel n G c xu xo unfix s,
  symmetric n G -> (1 <= n)%nat ->
  within n xu xo (cs_x s) -> (forall i, (i < n)%nat -> cs_g s i = mv n G (cs_x s) i + c i) ->
  let s' := cs_state (coordinateSearch fuel n G xu xo unfix s) in
  within n xu xo (cs_x s') /\ (forall i, (i < n)%nat -> cs_g s' i = mv n G (cs_x s') i + c i) /\
  qobj n G c (cs_x s') <= qobj n G c (cs_x s).
Proof. exact search_feasible_descent. Qed.
Print Assumptions C51_feasible_descent.

(** Two variables, identity matrix, c = (-1,-1), start 0, bounds [-2,2]: the
    search moves variable 0 to 1 and lists it once. *)
Example C45_C51_example :
  let s := {| cs_x := vzero; cs_g := fun _ => -1; cs_free := fun _ => false |} in
  let r := coordinateSearch 1 2 idm (fun _ => Fin (-2)) (fun _ => Fin 2) true s in
  symmetric 2 idm /\ within 2 (fun _ => Fin (-2)) (fun _ => Fin 2) (cs_x s) /\
  (forall i, (i < 2)%nat -> cs_g s i = mv 2 idm (cs_x s) i + -1) /\
  cs_trace r = [0%nat] /\ cs_x (cs_state r) 0%nat = 1.
Proof.
  cbv zeta. split; [|split; [|split]].
  - intros i j _ _. unfold idm. rewrite Nat.eqb_sym. reflexivity.
  - intros i _. split; cbn; unfold vzero; lra.
  - intros i Hi. cbn. unfold vzero. destruct i as [|[|i]]; cbn; try lra; lia.
  - unfold coordinateSearch. cbn -[quadMin].
    unfold coord_step, quadMin, idm, vzero. cbn. split.
    + rcases; cbn; try lra; rcases; cbn; try lra; try reflexivity; rcases; cbn; try reflexivity; try lra.
    + rcases; cbn; try lra; rcases; cbn; try lra; try reflexivity; rcases; cbn; try reflexivity; try lra.
Qed.
