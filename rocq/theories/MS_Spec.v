(** Specification of the trust-region sub-problem. *)
From Coq Require Import Reals Arith.
From Verif Require Import RVec Tri.
Open Scope R_scope.

(** quadratic model *)
Definition qmodel (n : nat) (g : vec) (H : mat) (d : vec) : R := dot n g d + / 2 * quad n H d.

(** [chol] succeeds exactly for positive definite matrices and then answers an upper
    triangle with non-zero diagonal whose square is the matrix *)
Definition chol_exact (n : nat) (chol : mat -> option mat) : Prop :=
  forall A, symmetric n A ->
    (forall U, chol A = Some U -> upper n U /\ diag_nz n U /\
       forall i j, (i < n)%nat -> (j < n)%nat -> rsum n (fun k => U k i * U k j) = A i j) /\
    (posdef n A -> chol A <> None).

(** [slv] solves triangular systems with non-zero diagonal *)
Definition slv_exact (n : nat) (slv : mat -> vec -> option vec) : Prop :=
  forall T b, triangle n T -> exists x, slv T b = Some x /\ forall i, (i < n)%nat -> mv n T x i = b i.

(** [s] and [lam] satisfy the optimality conditions of the sub-problem *)
Definition stationary (n : nat) (g : vec) (H : mat) (lam : R) (s : vec) : Prop :=
  forall i, (i < n)%nat -> mv n H s i + lam * s i = - g i.
(** H + lam*I is positive (semi-)definite *)
Definition shift_pd (n : nat) (H : mat) (lam : R) : Prop :=
  forall x, ~ veq n x vzero -> 0 < quad n H x + lam * dot n x x.
Definition shift_psd (n : nat) (H : mat) (lam : R) : Prop :=
  forall x, 0 <= quad n H x + lam * dot n x x.

(** [s] minimises the model over the ball of radius [r] up to [e] *)
Definition minimises (n : nat) (g : vec) (H : mat) (r e : R) (s : vec) : Prop :=
  forall d, norm n d <= r -> qmodel n g H s <= qmodel n g H d + e.

(** [A = V diag(d) V'], [V] orthogonal *)
Definition eigen_exact (n : nat) (A : mat) (d : vec) (V : mat) : Prop :=
  orthonormal n n V /\
  forall i j, (i < n)%nat -> (j < n)%nat -> A i j = rsum n (fun k => V i k * (d k * V j k)).

(** [mu] is the smallest of the eigenvalues and the others are not within 1e-10 of the
    largest distance from it *)
Definition separated (n : nat) (d : vec) (mu : R) : Prop :=
  (exists k, (k < n)%nat /\ d k = mu) /\
  forall i, (i < n)%nat -> d i = mu \/
    (mu < d i /\ forall j, (j < n)%nat -> / 10 ^ 10 * (d j - mu) <= d i - mu).

(** the hard case: with the smallest eigenvalue as shift there is a stationary step inside the ball *)
Definition hard_instance (n : nat) (g : vec) (H : mat) (d : vec) (mu r : R) : Prop :=
  mu <= 0 /\ separated n d mu /\ exists z, stationary n g H (- mu) z /\ norm n z <= r.
