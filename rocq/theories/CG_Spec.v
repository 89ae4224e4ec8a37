(** Specification notions for the truncated conjugate-gradient solver. *)
From Coq Require Import Reals.
From Verif Require Import RVec.
Open Scope R_scope.

(** The quadratic cost [1/2 x'Ax - b'x]. *)
Definition cost (n : nat) (A : mat) (b x : vec) : R := / 2 * quad n A x - dot n b x.

(** [Ax - b]. *)
Definition residual (n : nat) (A : mat) (b x : vec) : vec := vsub (mv n A x) b.
