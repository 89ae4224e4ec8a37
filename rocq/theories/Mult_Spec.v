(** What multipliers and optimality measures should be. *)
From Coq Require Import Reals List.
From Verif Require Import RVec RBool ProjGrad_Spec BL_Spec.
Open Scope R_scope.

Definition solver_type := nat -> mat -> vec -> (nat -> xR) -> (nat -> xR) -> option vec.

(** A bounded least-squares solver whose answers respect its bounds, and one
    whose answers solve the problem given. *)
Definition respects_bounds (solver : solver_type) : Prop :=
  forall k M b l u s, proper_bounds k l u -> solver k M b l u = Some s -> in_bounds k l u s.
Definition answers_solve (solver : solver_type) : Prop :=
  forall k M b l u s, proper_bounds k l u -> solver k M b l u = Some s -> solves k k M b l u s.

(** Order of possibly infinite numbers; distance of [x] to a finite bound. *)
Definition xle (e f : xR) : Prop :=
  match e, f with NInf, _ => True | _, PInf => True | Fin a, Fin b => a <= b | _, _ => False end.
Definition opp (e : xR) : xR := match e with Fin a => Fin (- a) | PInf => NInf | NInf => PInf end.
Definition close (d x : R) (e : xR) : Prop := exists a, e = Fin a /\ Rabs (x - a) < d.

(** The sign rules for the multiplier [m] of a variable: not negative without
    a lower bound or at an active upper bound; not positive without an upper
    bound or at an active lower bound. *)
Definition sign_ok (oinf : xR) (d x : R) (lb ub : xR) (m : R) : Prop :=
  (xle lb (opp oinf) \/ (~ xle oinf ub /\ close d x ub) -> 0 <= m) /\
  (xle oinf ub \/ (~ xle lb (opp oinf) /\ close d x lb) -> m <= 0).
Definition signs_ok (n : nat) (oinf : xR) (d : R) (x : vec) (lb ub : nat -> xR) (mu : vec) : Prop :=
  forall i, (i < n)%nat -> sign_ok oinf d (x i) (lb i) (ub i) (mu i).
(** Multipliers that are zero wherever the sign rules leave no choice. *)
Definition zero_where_forced (n : nat) (oinf : xR) (d : R) (x : vec) (lb ub : nat -> xR) (mu : vec) : Prop :=
  forall i, (i < n)%nat -> (forall t, sign_ok oinf d (x i) (lb i) (ub i) t -> t = 0) -> mu i = 0.

(** Jacobian with respect to variables and squared slacks: the last [nsl] of
    [me] constraints are [c = s^2]. *)
Definition slack_jac (n nsl me : nat) (ae : mat) (sl : vec) : mat := fun k j =>
  if Nat.ltb j n then ae k j
  else if Nat.eqb k (me - nsl + (j - n)) then -2 * sl (j - n)%nat else 0.

(** Gradient of the Lagrangian [f + mu'x + lam'c]. *)
Definition lagr (me : nat) (g mu lam : vec) (J : mat) : vec :=
  fun j => g j + mu j + rsum me (fun k => J k j * lam k).

(** A vector over the variables, extended by zeros to the slacks. *)
Definition pad (n : nat) (v : vec) : vec := fun j => if Nat.ltb j n then v j else 0.

(** Norm of the gradient of the Lagrangian with respect to variables and slacks. *)
Definition lagr_norm (n nsl me : nat) (g mu lam : vec) (ae : mat) (sl : vec) : R :=
  norm (n + nsl) (lagr me (pad n g) (pad n mu) lam (slack_jac n nsl me ae sl)).

(** Matrix of the constraints and of the bounds, one row for each; the Gram
    matrix of its rows; a sound answer to "is there a negative eigenvalue?". *)
Definition stacked (n nsl me : nat) (ae : mat) (sl : vec) : mat := fun i j =>
  if Nat.ltb i (n + nsl) then (if Nat.eqb i j then 1 else 0) else slack_jac n nsl me ae sl (i - (n + nsl))%nat j.
Definition gram (d : nat) (A : mat) : mat := fun i j => rsum d (fun k => A i k * A j k).
Definition negative_sound (N : nat) (M : mat) (neg : bool) : Prop :=
  neg = true -> exists y, quad N M y < 0.

(** First-order conditions for minimising f under [c_k = 0] for [k < me-nsl],
    [c_k >= 0] for the other [k < me] and the bounds. *)
Definition first_order_conditions (n nsl me : nat) (x : vec) (lb ub : nat -> xR) (g c : vec) (ae : mat) : Prop :=
  exists mu lam,
    (forall j, (j < n)%nat -> lagr me g mu lam ae j = 0) /\
    (forall j, (j < n)%nat -> mu j < 0 -> lb j = Fin (x j)) /\
    (forall j, (j < n)%nat -> 0 < mu j -> ub j = Fin (x j)) /\
    (forall k, (k < me - nsl)%nat -> c k = 0) /\
    (forall k, (me - nsl <= k < me)%nat -> 0 <= c k /\ lam k <= 0 /\ lam k * c k = 0).
