(** What the complete search of minq should deliver. *)
From Coq Require Import Reals Arith.
From Verif Require Import RVec RBool MinQ_Spec.
Open Scope R_scope.

(** gamma + c'x + x'Gx/2 *)
Definition fobj (gamma : R) (n : nat) (G : mat) (c x : vec) : R := gamma + (dot n c x + / 2 * quad n G x).

(** no interval is empty *)
Definition nonempty (n : nat) (lo hi : nat -> xR) : Prop := forall i, (i < n)%nat -> exists t, in_itv (lo i) (hi i) t.
Definition all_finite (n : nat) (lo hi : nat -> xR) : Prop :=
  forall i, (i < n)%nat -> (exists a, lo i = Fin a) /\ exists b, hi i = Fin b.

(** y is, entry by entry, the point of the box closest to x *)
Definition nearest (n : nat) (lo hi : nat -> xR) (x y : vec) : Prop :=
  within n lo hi y /\ forall i t, (i < n)%nat -> in_itv (lo i) (hi i) t -> Rabs (x i - y i) <= Rabs (x i - t).

Definition lowest_in_box (gamma : R) (n : nat) (G : mat) (c : vec) (lo hi : nat -> xR) (x : vec) : Prop :=
  within n lo hi x /\ forall y, within n lo hi y -> fobj gamma n G c x <= fobj gamma n G c y.

(** G with its diagonal multiplied by f *)
Definition diagonal_scaled (n : nat) (f : R) (G G' : mat) : Prop :=
  forall i j, (i < n)%nat -> (j < n)%nat -> G' i j = (if Nat.eqb i j then f * G i j else G i j).
