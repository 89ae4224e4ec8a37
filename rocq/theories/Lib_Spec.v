(** Specification for the trust-region step with the solvers of the library. *)
From Coq Require Import Reals Arith List Bool.
From Verif Require Import RVec RBool Tri MS_Model Step_Spec.
Import ListNotations.
Open Scope R_scope.

(** no negative eigenvalue is found for a convex matrix *)
Definition eig_convex (eig : nat -> mat -> bool * vec * mat) : Prop :=
  forall k A neg d V, eig k A = (neg, d, V) -> possemidef k A -> neg = false.

(** variables followed by slacks *)
Definition both (n : nat) (x sl : vec) (i : nat) : R := if (i <? n)%nat then x i else sl (i - n)%nat.
(** the bounds [l] and [u] are more than [e] away from [x] *)
Definition clear_by (e : R) (l u : xR) (x : R) : Prop := ~ rle_x (x - e) l /\ ~ xle_r u (x + e).

(** size of the linearised constraints and of the bounds held: root of the sum of the squared
    1-norms of their gradients *)
Definition lin_size (n nsl : nat) (ce : list R) (ae : list vec) (sl w : vec) : R :=
  sqrt (rsum (length ce) (fun k => rsum (n + nsl) (fun j => Rabs (lin_row n nsl ce ae sl k j)) ^ 2) + rsum n w).

(** the rows of the right factor of the singular value decomposition are orthonormal *)
Definition svd_orth (svd : nat -> nat -> mat -> vec * mat) : Prop := forall m k A, orthonormal k k (tr (snd (svd m k A))).
(** the unconstrained solver answers for every symmetric matrix; the pseudo-inverse is always found *)
Definition ms_total (ms : nat -> nat -> vec -> mat -> R -> option ms_out) : Prop := forall j k g A D, symmetric k A -> ms j k g A D <> None.
Definition pin_total (pin : nat -> mat -> list nat -> vec -> option vec) : Prop := forall k M l v, pin k M l v <> None.
