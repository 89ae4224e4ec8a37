(** Specification of the first models. *)
From Coq Require Import Reals Arith.
From Verif Require Import RVec.
Open Scope R_scope.

(** the first interpolation points: [x0], and [x0] with one component lowered by [d] *)
Definition lowered (x0 : vec) (d : R) : nat -> vec := fun j i =>
  match j with O => x0 i | S k => if (i =? k)%nat then x0 i - d else x0 i end.

(** difference quotients of the values [F] at these points *)
Definition quotients (F : nat -> R) (d : R) : vec := fun k => (F 0%nat - F (S k)) / d.

(** the affine function with value [f0] and gradient [g] at [x0] *)
Definition affine (n : nat) (x0 : vec) (f0 : R) (g : vec) : vec -> R := fun x => f0 + dot n g (vsub x x0).
