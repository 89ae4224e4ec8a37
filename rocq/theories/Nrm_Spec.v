(** What norms and sizes should be.  Independent of the model. *)
From Coq Require Import Reals Arith List.
From Verif Require Import RVec.
Import ListNotations.
Open Scope R_scope.

(** [s] is the operator norm of the matrix for Euclidean lengths *)
Definition operator_norm (r c : nat) (A : mat) (s : R) : Prop :=
  0 <= s /\ (forall x, norm r (mv c A x) <= s * norm c x) /\ exists x, norm c x = 1 /\ norm r (mv c A x) = s.

(** the largest singular value of a matrix with one row is its operator norm *)
Definition rows_right (svmax : nat -> nat -> mat -> R) : Prop :=
  forall c A, (1 <= c)%nat -> operator_norm 1 c A (svmax 1%nat c A).

(** [m] is the largest of the first [n] values *)
Definition largest (n : nat) (f : nat -> R) (m : R) : Prop :=
  (forall i, (i < n)%nat -> f i <= m) /\ exists i, (i < n)%nat /\ f i = m.

(** number of entries of an array of a given shape *)
Fixpoint entries (s : list nat) : nat := match s with [] => 1%nat | k :: t => (k * entries t)%nat end.
(** at most one dimension differs from one *)
Definition vector_shape (s : list nat) : Prop :=
  exists a b k, s = repeat 1%nat a ++ k :: repeat 1%nat b \/ s = repeat 1%nat a.
(** the length in the sense of Matlab: zero without entries, else the largest dimension *)
Definition matlab_length (s : list nat) (l : nat) : Prop :=
  (entries s = 0%nat /\ l = 0%nat) \/
  (entries s <> 0%nat /\ In l s /\ forall k, In k s -> (k <= l)%nat).
