(** Specification for the null space. *)
From Coq Require Import Reals Arith.
From Verif Require Import RVec Tri.
Open Scope R_scope.

(** [sv] and [vh] belong to a singular value decomposition of the matrix [A] with [m] rows and
    [n] columns: [A = U diag(sv) vh] with orthonormal columns of [U] and orthonormal rows of [vh],
    the singular values not negative *)
Definition svd_exact (m n : nat) (A : mat) (sv : vec) (vh : mat) : Prop :=
  orthonormal n n (tr vh) /\ (forall k, (k < Nat.min m n)%nat -> 0 <= sv k) /\
  exists U, orthonormal m (Nat.min m n) U /\
  forall i j, (i < m)%nat -> (j < n)%nat -> A i j = rsum (Nat.min m n) (fun k => U i k * (sv k * vh k j)).
