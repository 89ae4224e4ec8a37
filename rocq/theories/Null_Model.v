(** Model of null_ (runtime.py 463-471), the null space of a matrix used by the tangential step
    (sqpdfo_solve_TR_bc.py 311).  Exact reals.  The answers of numpy.linalg.svd (line 467) are
    arguments: [sv] the singular values, [vh] the matrix whose rows are the right singular vectors;
    [m] and [n] are the numbers of rows and columns of the matrix. *)
From Coq Require Import Reals List Arith Bool.
From Verif Require Import RVec RBool.
Open Scope R_scope.

(** the mask, runtime.py 468-469: singular values of at most eps = 1e-15, and the rows of [vh]
    without a singular value *)
Definition null_mask (m n : nat) (sv : vec) (i : nat) : bool :=
  if (i <? Nat.min m n)%nat then Rleb (sv i) (/ 10 ^ 15) else true.
(** the rows of [vh] selected, runtime.py 470 *)
Definition null_rows (m n : nat) (sv : vec) : list nat := filter (null_mask m n sv) (seq 0 n).
(** number of columns and matrix returned, runtime.py 471 *)
Definition null_ (m n : nat) (sv : vec) (vh : mat) : nat * mat :=
  (length (null_rows m n sv), fun i j => vh (nth j (null_rows m n sv) 0%nat) i).
