(** Specification notions for the minq helpers. *)
From Coq Require Import Reals.
From Verif Require Import RVec RBool.
Open Scope R_scope.

Definition q1 (a b t : R) : R := / 2 * a * t * t + b * t.

Definition in_itv (lo hi : xR) (t : R) : Prop := xle_r lo t /\ rle_x t hi.

Definition minimiser (lo hi : xR) (a b t : R) : Prop :=
  in_itv lo hi t /\ forall t', in_itv lo hi t' -> q1 a b t <= q1 a b t'.

Definition unbounded_below (lo hi : xR) (a b : R) : Prop :=
  forall M, exists t, in_itv lo hi t /\ q1 a b t < M.

(** [1/2 x'Gx + c'x]. *)
Definition qobj (n : nat) (G : mat) (c x : vec) : R := / 2 * quad n G x + dot n c x.

Definition within (n : nat) (lo hi : nat -> xR) (x : vec) : Prop :=
  forall i, (i < n)%nat -> in_itv (lo i) (hi i) (x i).
