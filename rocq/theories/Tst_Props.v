(** C82: the numbered test problems (sqpdfo_init_prob.py, tests/benchmarks.py). *)
From Coq Require Import Reals List Arith Lra.
From Verif Require Import RVec RBool Tst_Model Tst_Spec Tst_Proofs.
Import ListNotations.
Open Scope R_scope.

(** The problems that exist. *)
Theorem C82_known : forall p, problem_data p <> None <-> In p [1; 2; 3; 4; 5; 6; 7; 10; 11; 12; 13; 14; 15; 16]%nat.
Proof. exact known. Qed.
Print Assumptions C82_known.

(** Data and functions are defined for the same numbers. *)
Theorem C82_unknown : forall p x, problem_data p = None <-> f_problem p x = None /\ c_problem p x = None.
Proof. exact unknown. Qed.
Print Assumptions C82_unknown.

(** The arrays have as many entries as there are variables, the bounds are in
    order, and at every point the number of constraint values is me + mi. *)
Theorem C82_dimensions : forall p d, problem_data p = Some d ->
  (1 <= d_n d)%nat /\ length (d_x0 d) = d_n d /\ length (d_lx d) = d_n d /\ length (d_ux d) = d_n d /\
  Forall2 bounds_ordered (d_lx d) (d_ux d) /\
  forall x, (exists y, f_problem p x = Some y) /\ exists c, c_problem p x = Some c /\ length c = (d_me d + d_mi d)%nat.
Proof. exact dimensions. Qed.
Print Assumptions C82_dimensions.

(** Equality and inequality constraints of each problem. *)
Theorem C82_kinds : forall p d, problem_data p = Some d ->
  In (p, d_me d, d_mi d) [(1, 1, 0); (2, 1, 0); (3, 2, 0); (4, 3, 0); (5, 3, 0); (6, 0, 0); (7, 8, 0); (10, 0, 2); (11, 0, 1);
    (12, 0, 1); (13, 0, 3); (14, 0, 6); (15, 2, 1); (16, 1, 2)]%nat.
Proof. exact kinds. Qed.
Print Assumptions C82_kinds.

(** Only problem 11 starts outside its bounds. *)
Theorem C82_start : forall p d, problem_data p = Some d -> (in_box (d_lx d) (d_ux d) (d_x0 d) <-> p <> 11%nat).
Proof. exact starts. Qed.
Print Assumptions C82_start.

(** nb is the number of variables with bounds except in problems 10, 11, 15, 16. *)
Theorem C82_nb : forall p d, problem_data p = Some d -> (bounded_count (d_lx d) (d_ux d) (d_nb d) <-> ~ In p [10; 11; 15; 16]%nat).
Proof. exact nb_iff. Qed.
Print Assumptions C82_nb.

(** The expected solutions are the only global minimisers. *)
Theorem C82_minimum : forall p s v, solution p s v -> optimal p s v.
Proof. exact minima. Qed.
Print Assumptions C82_minimum.

(** The multipliers expected by the tests of problems 1, 2 and 3 are exact: the
    Lagrangian is nowhere smaller than the optimal value. *)
Theorem C82_multipliers : forall a b e,
  (exists y c, f_problem 1 (pt [a; b]) = Some y /\ c_problem 1 (pt [a; b]) = Some [c] /\
    -3.9096875 <= y + 0.7375 * c + -0.6375 * (a - 1.95)) /\
  (exists y c, f_problem 2 (pt [a; b]) = Some y /\ c_problem 2 (pt [a; b]) = Some [c] /\ 2 / 3 <= y + - (4 / 3) * c) /\
  (exists y c1 c2, f_problem 3 (pt [a; b; e]) = Some y /\ c_problem 3 (pt [a; b; e]) = Some [c1; c2] /\ 0.5 <= y + 2 * c1 + -1 * c2).
Proof. exact multipliers. Qed.
Print Assumptions C82_multipliers.

Example C82_ex : solution 2 [1 / 3; 2 / 3] (2 / 3) /\ (exists d, problem_data 11 = Some d /\ d_x0 d = [-1; -1]) /\
  problem_data 8 = None.
Proof. split; [exact sol2|]. split; [eexists; split; reflexivity|reflexivity]. Qed.
