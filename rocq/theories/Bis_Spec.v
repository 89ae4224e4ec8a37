(** Specification for the search for the multiplier with stratLam = 0. *)
From Coq Require Import Reals List.
From Verif Require Import RVec RBool Hom_Spec.
Open Scope R_scope.

(** the point of a trial with the step [d]: components held at a bound next to zero are zero *)
Definition trial_point (lb ub : nat -> xR) (free : list nat) (s d y : vec) : Prop :=
  forall k, (k < length free)%nat -> let i := nth k free 0%nat in let x := s i + d k in
    (held (lb i) (ub i) x /\ y i = 0) \/ (~ held (lb i) (ub i) x /\ y i = x).
(** the free components of a point are at most [e] outside the bounds *)
Definition within (e : R) (lb ub : nat -> xR) (free : list nat) (y : vec) : Prop :=
  forall i, In i free -> xle_r (lb i) (y i + e) /\ rle_x (y i - e) (ub i).
(** a free component is at most 1e-5 away from a bound *)
Definition touches (lb ub : nat -> xR) (free : list nat) (y : vec) : Prop :=
  exists i b, In i free /\ (lb i = Fin b \/ ub i = Fin b) /\ Rabs (b - y i) <= 1 / 10 ^ 5.
