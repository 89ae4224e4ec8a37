(** Specification of interpolation. *)
From Coq Require Import Reals List Arith.
From Verif Require Import RVec Tri Poly_Model Poly_Spec Int_Model.
Open Scope R_scope.

(** solver that is exact for triangular systems with non-zero diagonal *)
Definition tri_exact (slv : nat -> mat -> mat -> option mat) : Prop :=
  forall n T B, triangle n T -> exists X, slv n T B = Some X /\
    forall i j, (i < n)%nat -> rsum n (fun k => T i k * X k j) = B i j.

(** generalised inverse of such a matrix: A A^+ A = A *)
Definition pinv_exact (pinv : nat -> mat -> mat) : Prop :=
  forall n A i j, triangle n A -> (i < n)%nat -> (j < n)%nat ->
    rsum n (fun k => A i k * rsum n (fun l => pinv n A k l * A l j)) = A i j.

(** exact factorisation of a matrix with [r] rows and [c] columns *)
Definition factors (r c : nat) (A Q R : mat) : Prop :=
  (forall i j, (i < r)%nat -> (j < c)%nat -> rsum c (fun k => Q i k * R k j) = A i j) /\
  orthonormal r c Q /\ upper c R.

(** [b] was built from the set without curing, by an exact factorisation *)
Definition exactly_built (qr : nat -> nat -> mat -> mat * mat) (ill : nat -> nat -> mat -> bool)
  (mode : nat) (shift : bool) (n p1 : nat) (Y : nat -> vec) : Prop :=
  let '(r, c, Z) := to_factor (eff_mode mode n p1) n p1 (pts shift n p1 Y) in
  ill r c Z = false /\ let (Q, R) := qr r c Z in factors r c Z Q R.

(** number of coefficients that the set is to determine *)
Definition unknowns (mode n p1 : nat) : nat :=
  match mode with O | 1%nat => p1 | _ => full n end.

(** only the zero polynomial vanishes at all points *)
Definition determining (shift : bool) (n q p1 : nat) (b : built) (Y : nat -> vec) : Prop :=
  forall P, (forall j, (j < p1)%nat -> value shift n q P b (Y j) = Some 0) ->
  forall i, (i < q)%nat -> P i = 0.

(** the values at the points can be prescribed independently: no combination of them
    vanishes for all polynomials *)
Definition independent (shift : bool) (n q p1 : nat) (b : built) (Y : nat -> vec) : Prop :=
  forall c, (forall P v, (forall j, (j < p1)%nat -> value shift n q P b (Y j) = Some (v j)) ->
    rsum p1 (fun j => c j * v j) = 0) -> forall j, (j < p1)%nat -> c j = 0.

(** a set is poised: its points determine the polynomial, or, if there are fewer points
    than coefficients, their values are independent *)
Definition poised (mode : nat) (shift : bool) (n p1 : nat) (b : built) (Y : nat -> vec) : Prop :=
  if (p1 <? unknowns mode n p1)%nat then independent shift n (unknowns mode n p1) p1 b Y
  else determining shift n (unknowns mode n p1) p1 b Y.

(** modes and sizes for which models exist: subbasis (0), minimum Frobenius norm (1) with
    a linear or a complete set, minimum norm (2), regression (3) *)
Definition works (mode n p1 : nat) : Prop :=
  (mode = 0 \/ mode = 2 \/ mode = 3)%nat \/ (mode = 1%nat /\ (p1 = n + 1 \/ p1 = full n)%nat).

(** only regression can use more points than a quadratic has coefficients *)
Definition sizes (mode n p1 : nat) : Prop :=
  (1 <= n)%nat /\ (1 <= p1)%nat /\ works mode n p1 /\ ((mode <= 2)%nat -> (p1 <= full n)%nat).

(** exact linear algebra and a poised set *)
Definition regular_case slv pinv qr ill cure (mode : nat) (shift : bool) (n p1 : nat) (Y : nat -> vec) (b : built) : Prop :=
  sizes mode n p1 /\ tri_exact slv /\ pinv_exact pinv /\
  build qr ill cure mode shift n p1 Y = Some b /\ exactly_built qr ill mode shift n p1 Y /\
  poised mode shift n p1 b Y.
