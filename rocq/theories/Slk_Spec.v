(** Specification for slacks that are zero. *)
From Coq Require Import Reals List Arith.
From Verif Require Import RVec RBool Tri MS_Model Step_Spec.
Open Scope R_scope.

(** residuals of the constraints: the last [nsl] of [me] are inequalities with squared slacks *)
Definition with_slacks (nsl me : nat) (ce sl : vec) : vec := fun k =>
  if (k <? me - nsl)%nat then ce k else ce k - sl (k - (me - nsl))%nat ^ 2.

(** the unconstrained solver does not end in the hard case for convex problems *)
Definition never_hard (ms : nat -> nat -> vec -> mat -> R -> option ms_out) : Prop :=
  forall j k g A D o, symmetric k A -> possemidef k A -> ms j k g A D = Some o -> ms_hard o = false.

(** the columns [Z] span every coordinate direction along which all rows vanish *)
Definition spans_free (dim : nat) (rows : list vec) (k : nat) (Z : mat) : Prop :=
  forall i, (i < dim)%nat -> (forall a, In a rows -> a i = 0) -> veq dim (unitv i) (mv k Z (mv dim (tr Z) (unitv i))).

(** [d] is a step that a trust-region method could take: it keeps the radius and the bounds and
    the linearised constraints (the last [nsl] are inequalities c >= 0), and it lowers the model *)
Definition better_step (n nsl : nat) (lb ub : nat -> xR) (M : mat) (g : vec) (ce : list R) (ae : list vec) (x : vec) (delta : R) (d : vec) : Prop :=
  norm n d <= delta /\ (forall i, (i < n)%nat -> xle_r (lb i) (x i + d i) /\ rle_x (x i + d i) (ub i)) /\
  (forall k, (k < length ce - nsl)%nat -> nth k ce 0 + dot n (nth k ae vzero) d = 0) /\
  (forall k, (length ce - nsl <= k < length ce)%nat -> 0 <= nth k ce 0 + dot n (nth k ae vzero) d) /\
  lag_model n M g d < 0.
