(** The steps along the projected slope, for the trust-region step of C64 and C72. *)
From Coq Require Import Reals List Arith.
From Verif Require Import RVec RBool Tri CG_Spec Null_Spec Step_Spec.
Import ListNotations.
Open Scope R_scope.

(** displacements that change neither the linearised constraints nor a variable held at a bound *)
Definition tangent_dir (n nsl : nat) (lb ub : nat -> xR) (ce : list R) (ae : list vec) (sl x L q : vec) : Prop :=
  (forall k, (k < length ce)%nat -> lin_con n nsl ce ae sl q k = lin_con n nsl ce ae sl vzero k) /\
  (forall i, (i < n)%nat -> held_low lb x L i \/ held_up ub x L i -> q i = 0).

(** [p] is the orthogonal projection of [v] onto these displacements *)
Definition tangent_part (n nsl : nat) (lb ub : nat -> xR) (ce : list R) (ae : list vec) (sl x L v p : vec) : Prop :=
  tangent_dir n nsl lb ub ce ae sl x L p /\
  (forall q, tangent_dir n nsl lb ub ce ae sl x L q -> dot (n + nsl) (vsub v p) q = 0).

(** gradient of the model of the Lagrangian at [r] in the variables and slacks *)
Definition slope (n : nat) (M : mat) (g r : vec) : vec := fun i => if (i <? n)%nat then g i + mv n M r i else 0.

(** asked for the null space of rows that describe these displacements, the solver answers an
    orthonormal basis of them *)
Definition null_spans (n nsl : nat) (lb ub : nat -> xR) (ce : list R) (ae : list vec) (sl x L : vec) (null : list vec -> option (nat * mat)) : Prop :=
  forall rows k Z, (forall q, (forall a, In a rows -> dot (n + nsl) a q = 0) <-> tangent_dir n nsl lb ub ce ae sl x L q) ->
  null rows = Some (k, Z) -> orthonormal (n + nsl) k Z /\
  (forall j, (j < k)%nat -> tangent_dir n nsl lb ub ce ae sl x L (fun i => Z i j)) /\
  (forall q, tangent_dir n nsl lb ub ce ae sl x L q -> exists c, veq (n + nsl) q (mv k Z c)).

(** the tangential solver does at least as well as every step along the right-hand side within
    the radius, if that is longer than [tol] *)
Definition cg_beats (tol : R) (cg : nat -> mat -> vec -> R -> option (vec * bool)) : Prop :=
  forall k A b D u a s, symmetric k A -> 0 <= D -> tol < norm k b -> cg k A b D = Some (u, a) ->
  0 <= s -> s * norm k b <= D -> cost k A b u <= cost k A b (vscal s b).

(** the singular value decompositions of the Jacobian of the linearised constraints, followed by
    rows of the identity as long as there are less rows than columns, are exact and have no positive singular value of at most 1e-15 *)
Definition svd_clear (n nsl : nat) (ce : list R) (ae : list vec) (sl : vec) (svd : nat -> nat -> mat -> vec * mat) : Prop :=
  forall m A, (length ce <= m < n + nsl)%nat ->
  (forall k j, (k < length ce)%nat -> (j < n + nsl)%nat -> A k j = lin_row n nsl ce ae sl k j) ->
  (forall k, (length ce <= k < m)%nat -> exists i, (i < n)%nat /\ A k = unitv i) ->
  svd_exact m (n + nsl)%nat A (fst (svd m (n + nsl)%nat A)) (snd (svd m (n + nsl)%nat A)) /\
  forall i, (i < Nat.min m (n + nsl))%nat -> fst (svd m (n + nsl)%nat A) i <= / 10 ^ 15 -> fst (svd m (n + nsl)%nat A) i = 0.
