(** What a trust-region solver should deliver when it maximises Lagrange polynomials. *)
From Coq Require Import Reals List QArith Qreals.
From Verif Require Import RVec MS_Spec MS_Model Int_Model Book_Model Main_Model New_Model.
Open Scope R_scope.

Definition solver_t := vec -> mat -> R -> option (vec * R).

(** for symmetric matrices and positive radii: steps of at most (1 + eps) times the radius;
    values that are those of the steps up to [tau]; steps that are best up to [e] *)
Definition within_radius (n : nat) (eps : R) (solver : solver_t) : Prop :=
  forall g H D s v, symmetric n H -> 0 <= D -> solver g H D = Some (s, v) -> norm n s <= (1 + eps) * D.
Definition honest (n : nat) (tau : R) (solver : solver_t) : Prop :=
  forall g H D s v, symmetric n H -> 0 <= D -> solver g H D = Some (s, v) -> Rabs (v - qmodel n g H s) <= tau.
Definition optimal (n : nat) (e : R) (solver : solver_t) : Prop :=
  forall g H D s v, symmetric n H -> 0 <= D -> solver g H D = Some (s, v) -> minimises n g H D e s.

(** the solver of MS_Model *)
Definition ms_solver (chol : mat -> option mat) (slv : mat -> vec -> option vec) (eig : mat -> mat * vec)
    (n : nat) (eps : R) : solver_t := fun g H D =>
  match solve_MS chol slv (fst (eig H)) (snd (eig H)) n g H D eps with
  | Some o => Some (ms_s o, ms_value o)
  | None => None
  end.

(** the points of a set with one variable *)
Definition line_set (Y : list Q) : nat -> vec := fun j _ => Q2R (nth j Y 0%Q).

(** the points proposed in a pass of the main loop (one variable) are those of find_new
    with radius [D], for the factorisation of the set at hand *)
Definition proposed slv pinv qr ill cure (solver : solver_t) (lSolver mode : nat) (shift : bool) (D : Q)
    (newpt : nat -> list Q -> nat -> nyj Q) : Prop :=
  forall k Y j y imp, newpt k Y j = NewPt y imp -> exists b v r,
    build qr ill cure mode shift 1 (length Y) (line_set Y) = Some b /\
    find_new slv pinv solver lSolver mode shift 1 (length Y) b (line_set Y) j (Q2R D) = Some (v, r) /\
    v 0%nat = Q2R y /\ r = Q2R imp.

(** all calls of the user functions were made inside the bounds *)
Definition calls_inside (lb ub : Q) (s : st Q) : Prop :=
  forall y, In y (calls (sA s)) -> (lb <= y <= ub)%Q.
