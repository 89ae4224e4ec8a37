(** Specification for the bound-constrained trust-region solver. *)
From Coq Require Import Reals List.
From Verif Require Import RVec RBool Tri MS_Spec BC_Model MS_Model.
Open Scope R_scope.

(** the unconstrained solver answers steps of at most (1 + eps) times the radius for symmetric matrices *)
Definition ms_bounded (ms : nat -> nat -> vec -> mat -> R -> option (vec * vec)) (eps : R) : Prop :=
  forall j k g A Delta d gp, symmetric k A -> 0 <= Delta -> ms j k g A Delta = Some (d, gp) -> norm k d <= (1 + eps) * Delta.

(** variable [i] sits at a bound and the model decreases outwards *)
Definition pinned (lb ub : nat -> xR) (g : vec) (i : nat) : Prop :=
  (0 < g i /\ lb i = Fin 0) \/ (g i < 0 /\ ub i = Fin 0).

(** the unconstrained solver of MS_Model in the place of [ms] *)
Definition ms_of (chol : nat -> mat -> option mat) (slv : nat -> mat -> vec -> option vec)
    (eig : nat -> mat -> mat * vec) (eps : R) (_ k : nat) (g : vec) (A : mat) (Delta : R) : option (vec * vec) :=
  match solve_MS (chol k) (slv k) (fst (eig k A)) (snd (eig k A)) k g A Delta eps with
  | Some o => Some (ms_s o, ms_gplus o)
  | None => None
  end.
