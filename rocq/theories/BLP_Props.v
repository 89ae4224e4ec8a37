(** C83: the searches of the bounded least-squares solver (blls.py). *)
From Coq Require Import Reals List ZArith Lra Lia.
From Verif Require Import RVec RBool ProjGrad_Spec BL_Model BL_Spec BL_Wit BLP_Spec BLP_Proofs BLP_Wit.
Import ListNotations.
Open Scope R_scope.

(** Every call is a run as described in BLP_Spec.v: the same points, the same
    code and the same number of iterations. *)
Theorem C83_run : forall m n A b lb ub pin, proper_bounds n lb ub ->
  forall r, blls m n A b lb ub pin = Some r ->
  whole_run m n A b lb ub pin (r_s r) (r_exitc r) (r_nit r).
Proof. exact blls_whole_run. Qed.
Print Assumptions C83_run.

Example C83_run_ex : exists r, blls 3 3 cA cb cl cu cpin = Some r /\ r_exitc r = 1%Z /\ r_nit r = 6%nat /\
  (r_s r 0%nat = 4 / 5 /\ r_s r 1%nat = 0 /\ r_s r 2%nat = 0) /\ proper_bounds 3 cl cu.
Proof. destruct c_run as [r [H1 [H2 [H3 H4]]]]. exists r. repeat split; try assumption; try apply H4. exact c_proper. Qed.

(** Code 1 can mean that the solver goes round in circles: a problem with three
    variables, independent columns and an exact pseudo-inverse is not solved. *)
Theorem C83_limit_refuted : ~ (forall m n A b lb ub pin r, proper_bounds n lb ub -> pinv_exact m n A pin ->
  independent_columns m n A -> blls m n A b lb ub pin = Some r -> r_exitc r = 1%Z -> solves m n A b lb ub (r_s r)).
Proof. exact limit_refuted. Qed.
Print Assumptions C83_limit_refuted.

(** A larger limit on the number of iterations would not help. *)
Theorem C83_more_refuted : ~ (forall m n A b lb ub pin p s, proper_bounds n lb ub -> pinv_exact m n A pin ->
  independent_columns m n A -> pin (seq 0 n) b = Some p -> (forall i, (i < n)%nat -> s i = proj (lb i) (ub i) (p i)) ->
  exists left0, forall left x c k, (left0 <= left)%nat ->
    rounds m n A b lb ub pin left 0 s false [] [] x c k -> solves m n A b lb ub x).
Proof. exact more_refuted. Qed.
Print Assumptions C83_more_refuted.

(** After a pass, a variable can be held at a bound where it is not. *)
Theorem C83_held_refuted : ~ (forall m n A b lb ub pin k x y, proper_bounds n lb ub -> pinv_exact m n A pin ->
  in_bounds n lb ub (where_ x) -> (forall i, In i (held_lo x) -> lb i = Fin (where_ x i)) ->
  (forall i, In i (held_up x) -> ub i = Fin (where_ x i)) ->
  passes m n A b lb ub pin k x y -> forall i, In i (held_lo y) -> lb i = Fin (where_ y i)).
Proof. exact held_refuted. Qed.
Print Assumptions C83_held_refuted.

Example C83_problem_ex : pinv_exact 3 3 cA cpin /\ independent_columns 3 3 cA /\ proper_bounds 3 cl cu.
Proof. split; [exact cpin_exact|]. split; [exact c_rank|exact c_proper]. Qed.
