(** What a bound-constrained least-squares solver should deliver. *)
From Coq Require Import Reals List.
From Verif Require Import RVec RBool ProjGrad_Spec.
Import ListNotations.
Open Scope R_scope.

(** Norm of [A s - b], for a matrix with [m] rows and [n] columns. *)
Definition misfit (m n : nat) (A : mat) (b s : vec) : R := norm m (vsub (mv n A s) b).

(** [s] minimises the misfit over the bounds. *)
Definition solves (m n : nat) (A : mat) (b : vec) (lb ub : nat -> xR) (s : vec) : Prop :=
  in_bounds n lb ub s /\
  forall t, in_bounds n lb ub t -> misfit m n A b s <= misfit m n A b t.

(** Non-empty intervals of finite numbers. *)
Definition proper_bounds (n : nat) (lb ub : nat -> xR) : Prop :=
  forall i, (i < n)%nat -> exists t, xle_r (lb i) t /\ rle_x t (ub i).

(** The gradient of half the squared misfit. *)
Definition misfit_grad (m n : nat) (A : mat) (b s : vec) : vec :=
  fun j => rsum m (fun i => A i j * (mv n A s i - b i)).

(** Length of the projected gradient step: zero exactly at the solutions. *)
Definition stationarity (m n : nat) (A : mat) (b : vec) (lb ub : nat -> xR) (s : vec) : R :=
  norm n (vsub (fun j => proj (lb j) (ub j) (s j - misfit_grad m n A b s j)) s).

(** No non-zero component of a search direction below the threshold under
    which the solver ignores it. *)
Definition not_tiny (dirs : list (list nat * vec)) : Prop :=
  forall free d i, In (free, d) dirs -> In i free -> d i = 0 \/ 1 / 10 ^ 14 <= Rabs (d i).

(** The pseudo-inverse gives a least-squares solution for every choice of
    columns. *)
Definition pinv_exact (m n : nat) (A : mat) (pin : list nat -> vec -> option vec) : Prop :=
  forall f rhs, let free := filter f (seq 0 n) in exists p, pin free rhs = Some p /\
    forall q, norm m (fun i => fold_right (fun j acc => A i j * p j + acc) 0 free - rhs i)
           <= norm m (fun i => fold_right (fun j acc => A i j * q j + acc) 0 free - rhs i).
