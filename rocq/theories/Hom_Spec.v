(** Specification for the search for the multiplier in the bound-constrained trust-region solver. *)
From Coq Require Import Reals List.
From Verif Require Import RVec RBool Tri ProjGrad_Spec MS_Model MS_Spec BC_Model.
Open Scope R_scope.

(** an answer of the unconstrained solver that satisfies the optimality conditions: a step other
    than zero is stationary for its multiplier, the shifted matrix is positive semi-definite
    (definite outside the hard case) and the gradient is not zero *)
Definition answer_sound (k : nat) (g : vec) (A : mat) (Delta eps : R) (o : ms_out) : Prop :=
  norm k (ms_s o) <= (1 + eps) * Delta /\
  (~ veq k (ms_s o) vzero ->
     0 <= ms_lambda o /\ stationary k g A (ms_lambda o) (ms_s o) /\ shift_psd k A (ms_lambda o) /\
     (ms_hard o = false -> shift_pd k A (ms_lambda o)) /\ 0 < norm k g).
Definition ms_sound (ms : nat -> nat -> vec -> mat -> R -> option ms_out) (eps : R) : Prop :=
  forall j k g A Delta o, symmetric k A -> 0 <= Delta -> ms j k g A Delta = Some o -> answer_sound k g A Delta eps o.

(** the bounds [l], [u] with a component of [x] beyond them *)
Definition beyond (l u : xR) (x : R) : Prop := ~ (xle_r l x /\ rle_x x u).
(** a bound of at most 1e-10 and a point within 1e-5 of it or beyond it *)
Definition held (l u : xR) (x : R) : Prop :=
  (rle_x (-1 / 10 ^ 10) l /\ rle_x (x - 1 / 10 ^ 5) l) \/ (xle_r u (1 / 10 ^ 10) /\ xle_r u (x + 1 / 10 ^ 5)).

(** [s'] comes from [s] and the step [d] in the variables [free]: the others stay; a free
    component is [s + d], or sits at a bound less than 1e-5 away from [s + d], or at a bound of
    size at most 1e-5 if a bound next to zero was reached *)
Definition placed (lb ub : nat -> xR) (free : list nat) (s d s' : vec) : Prop :=
  (forall i, ~ In i free -> s' i = s i) /\
  forall k, (k < length free)%nat -> let i := nth k free 0%nat in let x := s i + d k in
    (~ held (lb i) (ub i) x /\ s' i = x /\ ~ beyond (lb i) (ub i) x) \/
    (~ held (lb i) (ub i) x /\ (lb i = Fin (s' i) \/ ub i = Fin (s' i)) /\ Rabs (s' i - x) <= 1 / 10 ^ 5) \/
    (held (lb i) (ub i) x /\ (lb i = Fin (s' i) \/ ub i = Fin (s' i)) /\ Rabs (s' i) <= 1 / 10 ^ 5).

(** the lower ([false]) or the upper ([true]) of two bounds, and the distance from it *)
Definition side (isu : bool) (l u : xR) : xR := if isu then u else l.
Definition away (isu : bool) (l u : xR) (x : R) : R := Rabs (xval (side isu l u) - x).
(** beyond the lower or the upper bound *)
Definition over (isu : bool) (l u : xR) (x : R) : Prop := if isu then ~ rle_x x u else ~ xle_r l x.

(** the value that replaces [lam]: [new] if it is well inside the interval, else the larger of
    the geometric mean and a point close to the lower end *)
Definition safeguarded (l u new lam' : R) : Prop :=
  (l + 1 / 10 ^ 13 * (u - l) < new <= u - 1 / 10 ^ 13 * (u - l) /\ lam' = new) \/
  (~ (l + 1 / 10 ^ 13 * (u - l) < new <= u - 1 / 10 ^ 13 * (u - l)) /\ lam' = Rmax (sqrt (l * u)) (l + 1 / 10 ^ 13 * (u - l))).
(** two numbers of different sign *)
Definition opposed (x y : R) : Prop := ~ ((0 < x /\ 0 < y) \/ (x < 0 /\ y < 0) \/ (x = 0 /\ y = 0)).

(** a component that is beyond a bound at [sa] was not at this bound at [s] *)
Definition room (lb ub : nat -> xR) (free : list nat) (s sa : vec) : Prop :=
  forall i, In i free -> (~ xle_r (lb i) (sa i) -> lb i <> Fin (s i)) /\ (~ rle_x (sa i) (ub i) -> ub i <> Fin (s i)).
(** a free variable that has moved is not at a bound *)
Definition clear_of (lb ub : nat -> xR) (free : list nat) (s : vec) : Prop :=
  forall i, In i free -> s i = 0 \/ (lb i <> Fin (s i) /\ ub i <> Fin (s i)).
(** a search starts: zero and [s] are within the bounds, and the step of the unconstrained solver in the
    variables [free] leads to [sa] beyond them *)
Definition starts (n : nat) (H : mat) (lb ub : nat -> xR) (free : list nat) (s g : vec) (Delta eps : R) (o : ms_out) : Prop :=
  let sa := vadd s (expand free (ms_s o)) in
  NoDup free /\ (forall i, In i free -> (i < n)%nat) /\ in_bounds n lb ub vzero /\ in_bounds n lb ub s /\
  answer_sound (length free) (sub_vec free g) (sub_mat free H) Delta eps o /\
  (exists i, In i free /\ beyond (lb i) (ub i) (sa i)) /\ room lb ub free s sa /\ clear_of lb ub free s.
