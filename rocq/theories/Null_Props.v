(** C71: the null space null_ of the linearised constraints. *)
From Coq Require Import Reals List Arith Lra.
From Verif Require Import RVec Tri Null_Model Null_Spec Null_Proofs Null_Wit.
Open Scope R_scope.

(** orthonormal columns, at least the difference of columns and rows *)
Theorem C71_columns : forall m n A sv vh, svd_exact m n A sv vh ->
  orthonormal n (fst (null_ m n sv vh)) (snd (null_ m n sv vh)) /\ (n - Nat.min m n <= fst (null_ m n sv vh) <= n)%nat.
Proof. exact z_columns. Qed.
Print Assumptions C71_columns.

(** the matrix shrinks their combinations by the factor 1e-15 at least *)
Theorem C71_small : forall m n A sv vh, svd_exact m n A sv vh -> forall u,
  norm m (mv n A (mv (fst (null_ m n sv vh)) (snd (null_ m n sv vh)) u)) <= / 10 ^ 15 * norm (fst (null_ m n sv vh)) u.
Proof. exact z_small. Qed.
Print Assumptions C71_small.

(** nothing is missing: what is orthogonal to the columns is shrunk less, and the null space is spanned *)
Theorem C71_apart : forall m n A sv vh, svd_exact m n A sv vh -> forall x,
  (forall j, (j < fst (null_ m n sv vh))%nat -> mv n (tr (snd (null_ m n sv vh))) x j = 0) -> ~ veq n x vzero ->
  / 10 ^ 15 * norm n x < norm m (mv n A x).
Proof. exact z_apart. Qed.
Print Assumptions C71_apart.

Theorem C71_spanned : forall m n A sv vh, svd_exact m n A sv vh -> forall x,
  (forall i, (i < m)%nat -> mv n A x i = 0) ->
  veq n x (mv (fst (null_ m n sv vh)) (snd (null_ m n sv vh)) (mv n (tr (snd (null_ m n sv vh))) x)).
Proof. exact z_complete. Qed.
Print Assumptions C71_spanned.

(** without tiny singular values the columns are in the null space *)
Theorem C71_exact : forall m n A sv vh, svd_exact m n A sv vh -> forall u,
  (forall i, (i < Nat.min m n)%nat -> sv i <= / 10 ^ 15 -> sv i = 0) ->
  forall i, (i < m)%nat -> mv n A (mv (fst (null_ m n sv vh)) (snd (null_ m n sv vh)) u) i = 0.
Proof. exact z_exact. Qed.
Print Assumptions C71_exact.

Example C71_nonvacuous : svd_exact 1 2 (row 1) (one_sv 1) idm /\
  fst (null_ 1 2 (one_sv 1) idm) = 1%nat /\ snd (null_ 1 2 (one_sv 1) idm) 0%nat 0%nat = 0 /\ snd (null_ 1 2 (one_sv 1) idm) 1%nat 0%nat = 1.
Proof. exact (conj (row_svd 1 (Rlt_le _ _ Rlt_0_1)) row_one). Qed.

(** with a tiny gradient they are not *)
Theorem C71_null_refuted : ~ forall m n A sv vh, svd_exact m n A sv vh -> (forall i, (i < m)%nat -> 0 < norm n (A i)) -> (m < n)%nat ->
  forall u i, (i < m)%nat -> mv n A (mv (fst (null_ m n sv vh)) (snd (null_ m n sv vh)) u) i = 0.
Proof. exact r_null. Qed.
Print Assumptions C71_null_refuted.
