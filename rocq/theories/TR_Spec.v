(** Specification notions for the constrained trust-region step. *)
From Coq Require Import Reals List ZArith.
From Verif Require Import RVec RBool Tri ProjGrad_Spec TR_Model BC_Model CG_Model Msg_Model.
Import ListNotations.
Open Scope R_scope.

(** the restoration solver answers steps within the bounds it is given if zero is *)
Definition keeps_bounds (restore : nat -> vec -> mat -> (nat -> xR) -> (nat -> xR) -> R -> option (vec * rmsg)) : Prop :=
  forall k g A l u D r m, in_bounds k l u vzero -> restore k g A l u D = Some (r, m) -> in_bounds k l u r.

(** the restoration and tangential solvers keep to the radius; the null space is orthonormal *)
Definition restore_short (restore : nat -> vec -> mat -> (nat -> xR) -> (nat -> xR) -> R -> option (vec * rmsg)) : Prop :=
  forall k g A l u D r m, 0 <= D -> restore k g A l u D = Some (r, m) -> norm k r <= D.
Definition cg_short (cg : nat -> mat -> vec -> R -> option (vec * bool)) : Prop :=
  forall k A b D u a, 0 <= D -> cg k A b D = Some (u, a) -> norm k u <= D.
Definition null_orth (dim : nat) (null : list vec -> option (nat * mat)) : Prop :=
  forall rows k Z, null rows = Some (k, Z) -> orthonormal dim k Z.

(** [x] violates no bound by more than [e] *)
Definition violates_at_most (n : nat) (lb ub : nat -> xR) (e : R) (x : vec) : Prop :=
  forall i, (i < n)%nat -> xle_r (lb i) (x i + e) /\ rle_x (x i - e) (ub i).

(** lower bounds below upper bounds *)
Definition ordered (n : nat) (lb ub : nat -> xR) : Prop :=
  forall i, (i < n)%nat -> match lb i, ub i with Fin a, Fin b => a <= b | PInf, _ => False | _, NInf => False | _, _ => True end.

Definition no_raise (restore : nat -> vec -> mat -> (nat -> xR) -> (nat -> xR) -> R -> option (vec * rmsg))
    (null : list vec -> option (nat * mat)) (cg : nat -> mat -> vec -> R -> option (vec * bool)) (mult : nat -> vec -> option vec) : Prop :=
  (forall k g A l u D, restore k g A l u D <> None) /\ (forall rows, null rows <> None) /\
  (forall k A b D, cg k A b D <> None) /\ (forall k x, mult k x <> None).

Definition sumv (l : list vec) : vec := fun i => fold_right (fun (v : vec) s => v i + s) 0 l.

(** the solvers of BC_Model and CG_Model in the places of the arguments *)
Definition restore_of (ms : nat -> nat -> vec -> mat -> R -> option (vec * vec)) (hom : nat -> nat -> list nat -> vec -> hans)
    (k : nat) (g : vec) (A : mat) (l u : nat -> xR) (D : R) : option (vec * rmsg) :=
  match solve_bc ms hom k A l u g D with
  | Some (Some o) => Some (bc_s o, classify (bc_text (bc_end o)))
  | _ => None
  end.
Definition cg_of (max_iter : nat) (tol : R) (k : nat) (A : mat) (b : vec) (D : R) : option (vec * bool) :=
  let r := truncated_cg k A b D max_iter tol in Some (tcg_x r, orb (Z.eqb (tcg_flag r) 1) (Z.eqb (tcg_flag r) 2)).
