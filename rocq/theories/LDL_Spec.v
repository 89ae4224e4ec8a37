(** What the factorisation updates should do. *)
From Coq Require Import Reals Arith.
From Verif Require Import RVec.
Open Scope R_scope.

(** the matrix L diag(d) L' *)
Definition ldlt (n : nat) (L : mat) (d : vec) : mat := fun i j => rsum n (fun k => L i k * d k * L j k).
Definition unit_lower (n : nat) (L : mat) : Prop :=
  (forall i, (i < n)%nat -> L i i = 1) /\ (forall i j, (i < j < n)%nat -> L i j = 0).
Definition positive (n : nat) (d : vec) : Prop := forall i, (i < n)%nat -> 0 < d i.
Definition same_mat (n : nat) (A B : mat) : Prop := forall i j, (i < n)%nat -> (j < n)%nat -> A i j = B i j.

(** A + alpha u u' *)
Definition plus_rank_one (A : mat) (alpha : R) (u : vec) : mat := fun i j => A i j + alpha * u i * u j.
(** A with row and column j replaced by g *)
Definition with_row (A : mat) (j : nat) (g : vec) : mat := fun a b =>
  if Nat.eqb a j then g b else if Nat.eqb b j then g a else A a b.
(** row and column j of A are those of the identity *)
Definition unit_at (n j : nat) (A : mat) : Prop := forall i, (i < n)%nat -> A i j = (if Nat.eqb i j then 1 else 0) /\ A j i = (if Nat.eqb i j then 1 else 0).

(** the factor L couples no nonzero entry of u to a zero entry further down *)
Definition no_fill (n : nat) (L : mat) (u : vec) : Prop :=
  forall i k, (k < i < n)%nat -> u k <> 0 -> L i k <> 0 -> u i <> 0.

(** the part of g below position j that is not explained by the first j rows of the factor *)
Definition remainder (n j : nat) (L : mat) (g s : vec) : Prop :=
  exists u, (forall i, (i < j)%nat -> rsum j (fun k => L i k * u k) = g i) /\
  forall a, (a < n - S j)%nat -> s a = g (S j + a)%nat - rsum j (fun k => L (S j + a)%nat k * u k).
Definition below (j : nat) (L : mat) : mat := fun a b => L (S j + a)%nat (S j + b)%nat.

(** a solver of square systems whose answers solve them *)
Definition solves_systems (slv : nat -> mat -> vec -> option vec) : Prop :=
  forall n A b x, slv n A b = Some x -> forall i, (i < n)%nat -> mv n A x i = b i.
