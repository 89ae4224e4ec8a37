(** Model of sqpdfo_compute_multiplier.py and sqpdfo_optimality.py, and of the
    lines of sqpdfo_main.py that call them.  Exact reals, bounds possibly
    infinite, no NaN.  The size checks (lines 81-92) are passed; [mi = 0] (the
    library turns inequalities into equalities with slacks before). *)
From Coq Require Import Reals Arith List Bool.
From Verif Require Import RVec RBool Hess_Model.
Import ListNotations.
Open Scope R_scope.

(** [-e], and comparisons of two possibly infinite numbers. *)
Definition xneg (e : xR) : xR := match e with Fin a => Fin (- a) | PInf => NInf | NInf => PInf end.
Definition xleb (e f : xR) : bool :=
  match e, f with
  | NInf, _ => true | _, PInf => true
  | Fin a, Fin b => Rleb a b
  | _, _ => false
  end.
(** [lo == up]. *)
Definition xeqb (e f : xR) : bool :=
  match e, f with
  | Fin a, Fin b => Reqb a b | PInf, PInf => true | NInf, NInf => true | _, _ => false
  end.
(** [abs(x - e) < d]: false for an infinite [e]. *)
Definition near (d x : R) (e : xR) : bool :=
  match e with Fin a => Rltb (Rabs (x - a)) d | _ => false end.

(** sqpdfo_compute_multiplier.py 43-49: the Jacobian of the constraints with
    respect to variables and slacks; the last [nsl] constraints have slacks. *)
Definition jac (n nsl me : nat) (ae : mat) (sl : vec) : mat := fun k j =>
  if Nat.ltb j n then ae k j
  else if Nat.ltb k (me - nsl) then 0
  else if Nat.eqb (k - (me - nsl)) (j - n) then -2 * sl (j - n)%nat else 0.
Definition gloc (n : nat) (g : vec) : vec := fun j => if Nat.ltb j n then g j else 0.

(** sqpdfo_compute_multiplier.py 96: the identity on top of the Jacobian. *)
Definition bigA (n nsl me : nat) (ae : mat) (sl : vec) : mat := fun i j =>
  if Nat.ltb i (n + nsl) then idm i j else jac n nsl me ae sl (i - (n + nsl))%nat j.

(** sqpdfo_compute_multiplier.py 100-121: the bounds on the multipliers;
    [oinf] is [options.inf]. *)
Definition mlo (n nsl : nat) (x : vec) (lb ub : nat -> xR) (oinf : xR) (dxmin : R) (i : nat) : xR :=
  if Nat.ltb i n then
    let lo := if xleb (lb i) (xneg oinf) then Fin 0 else NInf in
    if negb (xleb oinf (ub i)) && near dxmin (x i) (ub i) then Fin 0 else lo
  else if Nat.ltb i (n + nsl) then Fin 0 else NInf.
Definition mup (n nsl : nat) (x : vec) (lb ub : nat -> xR) (oinf : xR) (dxmin : R) (i : nat) : xR :=
  if Nat.ltb i n then
    let up := if xleb oinf (ub i) then Fin 0 else PInf in
    if negb (xleb (lb i) (xneg oinf)) && near dxmin (x i) (lb i) then Fin 0 else up
  else if Nat.ltb i (n + nsl) then Fin 0 else PInf.

(** The position of [i] in a list of indices, if it is there. *)
Fixpoint index_of (i : nat) (l : list nat) : option nat :=
  match l with
  | [] => None
  | j :: t => if Nat.eqb i j then Some O else option_map S (index_of i t)
  end.

(** A bounded least-squares solver: order of the (square) matrix, matrix,
    right-hand side, bounds; [None] is an exception. *)
Definition lsq_solver := nat -> mat -> vec -> (nat -> xR) -> (nat -> xR) -> option vec.

Section Mult.
Variables (n nsl me : nat) (x : vec) (lb ub : nat -> xR) (oinf : xR) (dxmin : R).
Variables (g : vec) (ae : mat) (sl : vec).
(** answers of [eigvalsh]/[eigh] in [sqpdfo_check_convex_] (line 139) *)
Variables (evneg : bool) (ev : vec) (evec : mat).
Variable solver : lsq_solver.

Let N := (n + nsl + me)%nat.
Let A := bigA n nsl me ae sl.

(** sqpdfo_compute_multiplier.py 123-139. *)
Definition mAA : mat :=
  check_convex N (fun i j => rsum (n + nsl) (fun k => A i k * A j k)) evneg ev evec.
(** line 143 *)
Definition mAg : vec := mv (n + nsl) A (gloc n g).

(** sqpdfo_compute_multiplier.py 150-162: the indices kept. *)
Definition kept : list nat :=
  filter (fun i => negb (xeqb (mlo n nsl x lb ub oinf dxmin i) (mup n nsl x lb ub oinf dxmin i))) (seq 0 N).

(** sqpdfo_compute_multiplier.py 146-165: the reduced problem, with the rows
    and columns kept only. *)
Definition red_mat : mat := fun p q => mAA (nth p kept O) (nth q kept O).
Definition red_rhs : vec := fun p => - mAg (nth p kept O).
Definition red_lo : nat -> xR := fun p => mlo n nsl x lb ub oinf dxmin (nth p kept O).
Definition red_up : nat -> xR := fun p => mup n nsl x lb ub oinf dxmin (nth p kept O).

(** sqpdfo_compute_multiplier.py 166-172: the other multipliers are zero; the
    slack part is dropped from the answer. *)
Definition full_mult (sn : vec) : vec := fun i => match index_of i kept with Some p => sn p | None => 0 end.
Definition drop_slack (lm : vec) : vec := fun i => if Nat.ltb i n then lm i else lm (i + nsl)%nat.

(** sqpdfo_compute_multiplier.py 164-174; [n + me] entries are returned. *)
Definition compute_multiplier : option vec :=
  match kept with
  | [] => Some (drop_slack vzero)
  | _ =>
    match solver (length kept) red_mat red_rhs red_lo red_up with
    | None => None
    | Some sn => Some (drop_slack (full_mult sn))
    end
  end.

(** sqpdfo_main.py 249-254 (and 570-575, 1050-1055, 1474-1479): the bounds
    given to [sqpdfo_compute_multiplier_] are infinite except close to x. *)
Definition near_only (e : xR) (x : R) (inf : xR) : xR := if near (1 / 10 ^ 5) x e then e else inf.

(** sqpdfo_optimality.py 27-53: the gradient of the Lagrangian, [n] entries. *)
Definition opt_glag (lm : vec) : vec := fun j =>
  g j + (if near (1 / 10 ^ 5) (x j) (lb j) || near (1 / 10 ^ 5) (x j) (ub j) then lm j else 0)
  + rsum me (fun k => jac n nsl me ae sl k j * lm (n + k)%nat).

(** sqpdfo_optimality.py 57-60: feasibility, [me] entries. *)
Definition opt_feas (ce : vec) : vec := fun k =>
  if Nat.ltb k (me - nsl) then ce k else ce k - sl (k - (me - nsl))%nat * sl (k - (me - nsl))%nat.

(** sqpdfo_optimality.py 65: complementarity, [n] entries. *)
Definition opt_compl : vec := fun _ => 0.

End Mult.

(** sqpdfo_main.py 249-260: multipliers at x, then the optimality measures:
    gradient of the Lagrangian, feasibility, complementarity, multipliers. *)
Definition measures (n nsl me : nat) (x : vec) (lb ub : nat -> xR) (oinf : xR) (dxmin : R)
    (g : vec) (ce : vec) (ae : mat) (sl : vec) (evneg : bool) (ev : vec) (evec : mat)
    (solver : lsq_solver) : option (vec * vec * vec * vec) :=
  match compute_multiplier n nsl me x (fun i => near_only (lb i) (x i) NInf) (fun i => near_only (ub i) (x i) PInf)
          oinf dxmin g ae sl evneg ev evec solver with
  | None => None
  | Some lm => Some (opt_glag n nsl me x lb ub g ae sl lm, opt_feas nsl me sl ce, opt_compl, lm)
  end.
