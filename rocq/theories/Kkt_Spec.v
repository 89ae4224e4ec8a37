(** First-order points of a problem with bounds, and independent gradients. *)
From Coq Require Import Reals List.
From Verif Require Import RVec RBool BL_Spec Mult_Spec.
Open Scope R_scope.

(** The first product with the pseudo-inverse, [pin k M (seq 0 k) b], solves the
    square system [M p = b] of order at most [d] whenever it has a solution. *)
Definition solves_systems (d : nat) (pin : nat -> mat -> list nat -> vec -> option vec) : Prop :=
  forall k M b, (k <= d)%nat -> (exists t, forall i, (i < k)%nat -> mv k M t i = b i) ->
  exists p, pin k M (seq 0 k) b = Some p /\ forall i, (i < k)%nat -> mv k M p i = b i.

(** Only zero multipliers, zero where the sign rules leave no choice, give the
    zero vector: the rows that count are independent. *)
Definition independent (n nsl me : nat) (oinf : xR) (d : R) (x : vec) (lb ub : nat -> xR) (ae : mat) (sl : vec) : Prop :=
  forall mu lam, zero_where_forced n oinf d x lb ub mu ->
  (forall j, (j < n + nsl)%nat -> lagr me vzero (pad n mu) lam (slack_jac n nsl me ae sl) j = 0) ->
  (forall i, (i < n)%nat -> mu i = 0) /\ (forall k, (k < me)%nat -> lam k = 0).

(** A feasible point with multipliers, for [c_k = 0] ([k < me-nsl]),
    [c_k >= 0] (the other [k < me]) and bounds: the gradient of the Lagrangian
    is zero; multipliers of bounds have the right signs and are zero away from
    the bounds ([e]: tolerance); those of positive constraints are zero. *)
Definition first_order_point (n nsl me : nat) (e d : R) (x : vec) (lb ub : nat -> xR) (g c : vec) (ae : mat) (mu lam : vec) : Prop :=
  (forall j, (j < n)%nat -> lagr me g mu lam ae j = 0) /\
  (forall j, (j < n)%nat -> mu j < 0 -> close e (x j) (lb j) /\ ~ close d (x j) (ub j)) /\
  (forall j, (j < n)%nat -> 0 < mu j -> close e (x j) (ub j) /\ ~ close d (x j) (lb j)) /\
  (forall k, (k < me - nsl)%nat -> c k = 0) /\
  (forall k, (me - nsl <= k < me)%nat -> 0 <= c k /\ lam k * c k = 0).

(** Slacks that fit the values of the inequalities. *)
Definition slacks_fit (nsl me : nat) (c sl : vec) : Prop :=
  forall t, (t < nsl)%nat -> c (me - nsl + t)%nat = sl t * sl t.

(** The gradients of the active constraints and bounds are independent. *)
Definition active_independent (n nsl me : nat) (e : R) (x : vec) (lb ub : nat -> xR) (c : vec) (ae : mat) : Prop :=
  forall mu lam,
  (forall i, (i < n)%nat -> ~ close e (x i) (lb i) -> ~ close e (x i) (ub i) -> mu i = 0) ->
  (forall k, (me - nsl <= k < me)%nat -> c k <> 0 -> lam k = 0) ->
  (forall j, (j < n)%nat -> lagr me vzero mu lam ae j = 0) ->
  (forall i, (i < n)%nat -> mu i = 0) /\ (forall k, (k < me)%nat -> lam k = 0).
