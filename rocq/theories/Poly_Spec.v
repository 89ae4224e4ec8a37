(** Specification notions for the model polynomials. *)
From Coq Require Import Reals Arith.
From Verif Require Import RVec.
Open Scope R_scope.

(** Number of monomials of degree at most two in [n] variables. *)
Definition full (n : nat) : nat := ((n + 1) * (n + 2) / 2)%nat.

(** The quadratic function with value [c], gradient [b] and symmetric second
    derivative [A] at the origin. *)
Definition quadratic (n : nat) (c : R) (b : vec) (A : mat) (x : vec) : R :=
  c + dot n b x + / 2 * quad n A x.

(** [g] and [H] are the exact first and second derivative of [m] at [x]: the
    second-order expansion holds for every displacement. *)
Definition exact_expansion (n : nat) (m : vec -> option R) (x g : vec) (H : mat) : Prop :=
  forall h, exists m0 mh, m x = Some m0 /\ m (vadd x h) = Some mh /\
    mh = m0 + dot n g h + / 2 * quad n H h.
