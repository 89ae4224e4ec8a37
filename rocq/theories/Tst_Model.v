(** Model of the numbered test problems: objective, constraints and data.  Exact reals; decimal
    constants are the written fractions.  [None] is an exception (RuntimeError in benchmarks.py,
    sys.exit in sqpdfo_init_prob.py).  Problem 1000 is in Cut_Model. *)
From Coq Require Import Reals List Arith.
From Verif Require Import RVec RBool.
Import ListNotations.
Open Scope R_scope.

(** /repo/tests/benchmarks.py:7-79 *)
Definition f_problem (p : nat) (x : vec) : option R :=
  match p with
  | 1%nat => Some (- (5 - (x 0%nat - 2) ^ 2 - 2 * (x 1%nat - 1) ^ 2))
  | 2%nat => Some (2 * x 0%nat ^ 2 + x 1%nat ^ 2)
  | 3%nat => Some (x 0%nat ^ 2 + x 1%nat ^ 2 + x 2%nat ^ 2)
  | 4%nat => Some (x 0%nat ^ 2 + x 1%nat ^ 2 + x 2%nat ^ 2 + x 3%nat)
  | 5%nat => Some (exp (x 0%nat * x 1%nat * x 2%nat * x 3%nat * x 4%nat))
  | 6%nat => Some (- (0.592 * ((exp 1 - 1) * x 0%nat) / ((-0.408 * x 0%nat + 1) * (exp (x 0%nat) - 1)) - 1))
  | 7%nat => Some (x 0%nat)
  | 10%nat => Some ((x 0%nat - 10) ^ 3 + (x 1%nat - 20) ^ 3)
  | 11%nat => Some (0.01 * x 0%nat ^ 2 + x 1%nat ^ 2 - 100)
  | 12%nat => Some (9 - 8 * x 0%nat - 6 * x 1%nat - 4 * x 2%nat + 2 * x 0%nat ^ 2 + 2 * x 1%nat ^ 2 + x 2%nat ^ 2 + 2 * x 0%nat * x 1%nat + 2 * x 0%nat * x 2%nat)
  | 13%nat => Some (x 0%nat ^ 2 + 0.5 * x 1%nat ^ 2 + x 2%nat ^ 2 + 0.5 * x 3%nat ^ 2 - x 0%nat * x 2%nat + x 2%nat * x 3%nat - x 0%nat - 3 * x 1%nat + x 2%nat - x 3%nat)
  | 14%nat => Some (x 0%nat - x 1%nat - x 2%nat - x 0%nat * x 2%nat + x 0%nat * x 3%nat + x 1%nat * x 2%nat - x 1%nat * x 3%nat)
  | 15%nat | 16%nat => Some ((1 - x 0%nat) ^ 2 + 100 * (x 1%nat - x 0%nat ^ 2) ^ 2)
  | _ => None
  end.

(** /repo/tests/benchmarks.py:81-207: equalities first, then inequalities *)
Definition c_problem (p : nat) (x : vec) : option (list R) :=
  match p with
  | 1%nat => Some [x 0%nat + 4 * x 1%nat - 3]
  | 2%nat => Some [x 0%nat + x 1%nat - 1]
  | 3%nat => Some [x 0%nat + x 1%nat + x 2%nat; x 0%nat + 2 * x 1%nat + 3 * x 2%nat - 1]
  | 4%nat => Some [x 0%nat + x 1%nat + x 2%nat; x 0%nat + 2 * x 1%nat + 3 * x 2%nat - 1; x 3%nat ^ 3 - 1]
  | 5%nat => Some [x 0%nat ^ 2 + x 1%nat ^ 2 + x 2%nat ^ 2 + x 3%nat ^ 2 + x 4%nat ^ 2 - 10; x 1%nat * x 2%nat - 5 * x 3%nat * x 4%nat; x 0%nat ^ 3 + x 1%nat ^ 3 + 1]
  | 6%nat => Some []
  | 7%nat => Some
      [6.3 * x 4%nat * x 7%nat + x 0%nat - 5.04 * x 1%nat - 0.35 * x 2%nat - x 3%nat - 3.36 * x 5%nat;
       - 0.819672131147541 * x 1%nat + x 4%nat - 0.819672131147541 * x 5%nat;
       0.98 * x 3%nat - x 6%nat * (0.01 * x 4%nat * x 9%nat + x 3%nat);
       - x 1%nat * x 8%nat + 10 * x 2%nat + x 5%nat;
       x 4%nat * x 11%nat - x 1%nat * (1.12 + 0.13167 * x 8%nat - 0.0067 * x 8%nat * x 8%nat);
       x 7%nat * x 12%nat - 0.01 * (1.098 * x 8%nat - 0.038 * x 8%nat * x 8%nat) - 0.325 * x 6%nat - 0.57425;
       x 9%nat * x 13%nat + 22.2 * x 10%nat - 35.82;
       x 10%nat * x 14%nat - 3 * x 7%nat + 1.33]
  | 10%nat => Some [(x 0%nat - 5) ^ 2 + (x 1%nat - 5) ^ 2 - 100; - (x 1%nat - 5) ^ 2 - (x 0%nat - 6) ^ 2 + 82.81]
  | 11%nat => Some [10 * x 0%nat - x 1%nat - 10]
  | 12%nat => Some [3 - x 0%nat - x 1%nat - 2 * x 2%nat]
  | 13%nat => Some [5 - x 0%nat - 2 * x 1%nat - x 2%nat - x 3%nat; 4 - 3 * x 0%nat - x 1%nat - 2 * x 2%nat + x 3%nat; x 1%nat + 4 * x 2%nat - 1.5]
  | 14%nat => Some [8 - x 0%nat - 2 * x 1%nat; 12 - 4 * x 0%nat - x 1%nat; 12 - 3 * x 0%nat - 4 * x 1%nat;
                8 - 2 * x 2%nat - x 3%nat; 8 - x 2%nat - 2 * x 3%nat; 5 - x 2%nat - x 3%nat]
  | 15%nat => Some [x 0%nat ^ 2 + x 1%nat ^ 2 - 2; - (x 0%nat - 1) ^ 3 + x 1%nat - 1; - x 0%nat - x 1%nat + 2]
  | 16%nat => Some [x 0%nat ^ 2 + x 1%nat ^ 2 - 2; - x 0%nat - x 1%nat + 2; - (x 0%nat - 1) ^ 3 + x 1%nat - 1]
  | _ => None
  end.

(** the data returned for a problem; arrays as lists *)
Record data := mkdata { d_n : nat; d_nb : nat; d_mi : nat; d_me : nat; d_x0 : list R; d_lx : list xR; d_ux : list xR }.

(** 1e20 as a bound, /repo/sqpdfo/sqpdfo_init_prob.py:42-43, 114-115 *)
Definition t20 : R := 10 ^ 20.

(** /repo/sqpdfo/sqpdfo_init_prob.py:36-147, and the same data in
    /repo/tests/benchmarks.py:288-401 *)
Definition problem_data (p : nat) : option data :=
  match p with
  | 1%nat => Some (mkdata 2 2 0 1 [4.6; 0] [Fin 1.95; Fin (- t20)] [Fin t20; Fin 0.3])
  | 2%nat => Some (mkdata 2 0 0 1 [-1; 2.54378] (repeat NInf 2) (repeat PInf 2))
  | 3%nat => Some (mkdata 3 2 0 2 [0; 0; 0.5] [Fin (-0.5); Fin 0; NInf] [PInf; PInf; PInf])
  | 4%nat => Some (mkdata 4 0 0 3 [1; 1; 1; 0] (repeat NInf 4) (repeat PInf 4))
  | 5%nat => Some (mkdata 5 0 0 3 [-2; 2; 2; 1; 1] (repeat NInf 5) (repeat PInf 5))
  | 6%nat => Some (mkdata 1 1 0 0 [0.6] [Fin 0.5] [Fin 0.8])
  | 7%nat => Some (mkdata 15 14 0 8
      [-0.9; 1.745; 1.2; 1.1; 3.048; 1.974; 0.893; 0.928; 8; 3.6; 1.5; 1; 1; 1; 1]
      [NInf; Fin 0; Fin 0; Fin 0; Fin 0; Fin 0; Fin 0.85; Fin 0.9; Fin 3; Fin 1.2; Fin 1.45; Fin 0.99; Fin 0.99; Fin 0.9; Fin 0.99]
      [PInf; Fin 2; Fin 1.6; Fin 1.2; Fin 5; Fin 2; Fin 0.93; Fin 0.95; Fin 12; Fin 4; Fin 1.62; Fin 1.01010101010101;
       Fin 1.01010101010101; Fin 1.11111111111111; Fin 1.01010101010101])
  | 10%nat => Some (mkdata 2 4 2 0 [20.1; 5.84] [Fin 13; Fin 0] [Fin 100; Fin 100])
  | 11%nat => Some (mkdata 2 4 1 0 [-1; -1] [Fin 2; Fin (-50)] [Fin 50; Fin 50])
  | 12%nat => Some (mkdata 3 3 1 0 [0.5; 0.5; 0.5] (repeat (Fin 0) 3) (repeat (Fin t20) 3))
  | 13%nat => Some (mkdata 4 4 3 0 [0.5; 0.5; 0.5; 0.5] (repeat (Fin 0) 4) (repeat (Fin t20) 4))
  | 14%nat => Some (mkdata 4 4 6 0 [0; 0; 0; 0] (repeat (Fin 0) 4) (repeat (Fin t20) 4))
  | 15%nat => Some (mkdata 2 4 1 2 [-1.2; 1] [Fin (-5); Fin (-5)] [Fin 10; Fin 10])
  | 16%nat => Some (mkdata 2 4 2 1 [0.3; 0.3] [Fin (-5); Fin (-5)] [Fin 10; Fin 10])
  | _ => None
  end.
