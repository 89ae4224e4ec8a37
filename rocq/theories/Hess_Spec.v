(** What the Hessian procedures should achieve, without reference to the model. *)
From Coq Require Import Reals.
From Verif Require Import RVec.
Open Scope R_scope.

(** A valid quasi-Newton matrix. *)
Definition spd (n : nat) (H : mat) : Prop := symmetric n H /\ posdef n H.

(** Powell's damping: [yh = th*y + (1-th)*H*s] where [th = 1] if the curvature
    [y's] reaches a fifth of [s'Hs], and otherwise the value for which the
    damped curvature is exactly a fifth of [s'Hs]. *)
Definition damped (n : nat) (H : mat) (y s yh : vec) : Prop :=
  exists th, 0 < th <= 1 /\
    (forall i, (i < n)%nat -> yh i = th * y i + (1 - th) * mv n H s i) /\
    (2 / 10 * quad n H s <= dot n y s -> th = 1) /\
    (dot n y s < 2 / 10 * quad n H s -> dot n yh s = 2 / 10 * quad n H s).

(** [H' = B - (Bs)(Bs)'/(s'Bs) + yy'/(y's)]. *)
Definition bfgs_of (n : nat) (B : mat) (s y : vec) (H' : mat) : Prop :=
  forall i j, (i < n)%nat -> (j < n)%nat ->
    H' i j = B i j - mv n B s i * mv n B s j / quad n B s + y i * y j / dot n y s.

(** [A = V diag(d) V'], [V] orthogonal. *)
Definition eigendecomposition (n : nat) (A : mat) (d : vec) (V : mat) : Prop :=
  (forall i j, (i < n)%nat -> (j < n)%nat -> A i j = rsum n (fun k => V i k * (d k * V j k))) /\
  (forall i j, (i < n)%nat -> (j < n)%nat -> rsum n (fun k => V i k * V j k) = idm i j) /\
  (forall i j, (i < n)%nat -> (j < n)%nat -> rsum n (fun k => V k i * V k j) = idm i j).

(** [A = U diag(sv) V'], [U], [V] orthogonal, [sv] nonnegative and decreasing. *)
Definition svd_of (n : nat) (A U : mat) (sv : vec) (V : mat) : Prop :=
  (forall i j, (i < n)%nat -> (j < n)%nat -> A i j = rsum n (fun k => U i k * (sv k * V j k))) /\
  (forall i j, (i < n)%nat -> (j < n)%nat -> rsum n (fun k => U i k * U j k) = idm i j) /\
  (forall i j, (i < n)%nat -> (j < n)%nat -> rsum n (fun k => V i k * V j k) = idm i j) /\
  (forall k, (k < n)%nat -> 0 <= sv k) /\
  (forall k, (S k < n)%nat -> sv (S k) <= sv k).

(** Two matrices differ by at most [e] as bilinear forms. *)
Definition within (n : nat) (e : R) (A B : mat) : Prop :=
  forall x y, Rabs (dot n x (mv n A y) - dot n x (mv n B y)) <= e * (norm n x * norm n y).

(** Gradient of the Lagrangian. *)
Definition lag_grad (me : nat) (g : vec) (J : mat) (lm : vec) : vec :=
  fun i => g i + rsum me (fun k => lm k * J k i).
