(** What the step of sqpdfo_solve_TR_bc_ is for: the quadratic model of the Lagrangian, the
    linearised constraints with squared slacks, and the bounds that count as active. *)
From Coq Require Import Reals List.
From Verif Require Import RVec RBool CG_Spec.
Import ListNotations.
Open Scope R_scope.

(** g'z + z'Mz/2 *)
Definition lag_model (n : nat) (M : mat) (g z : vec) : R := dot n g z + / 2 * quad n M z.

(** Constraint [k] of [me], linearised at the current point, at the displacement [z] of the
    [n] variables and the [nsl] slacks: the last [nsl] constraints are [c_k - s_q^2]. *)
Definition lin_con (n nsl : nat) (ce : list R) (ae : list vec) (sl z : vec) (k : nat) : R :=
  nth k ce 0 + dot n (nth k ae vzero) z -
  (if (k <? length ce - nsl)%nat then 0
   else let q := (k - (length ce - nsl))%nat in sl q ^ 2 + 2 * sl q * z (n + q)%nat).

(** within [e] of a bound *)
Definition at_bound (e x : R) (b : xR) : Prop := match b with Fin a => Rabs (x - a) < e | _ => False end.

(** [L] is the gradient of the Lagrangian, where the multiplier of the bounds of a variable
    counts only if the variable is within 1e-5 of one of them. *)
Definition lag_grad (n : nat) (lb ub : nat -> xR) (me : nat) (ae : list vec) (x g lm L : vec) : Prop :=
  forall i, (i < n)%nat ->
    (at_bound (/ 10 ^ 5) (x i) (lb i) \/ at_bound (/ 10 ^ 5) (x i) (ub i) ->
       L i = g i + lm i + rsum me (fun k => lm (n + k)%nat * nth k ae vzero i)) /\
    (~ (at_bound (/ 10 ^ 5) (x i) (lb i) \/ at_bound (/ 10 ^ 5) (x i) (ub i)) ->
       L i = g i + rsum me (fun k => lm (n + k)%nat * nth k ae vzero i)).

(** at the lower (upper) bound, and the gradient step leads to it or out *)
Definition held_low (lb : nat -> xR) (x L : vec) (i : nat) : Prop :=
  at_bound (/ 10 ^ 5) (x i) (lb i) /\ rle_x (x i - L i) (lb i).
Definition held_up (ub : nat -> xR) (x L : vec) (i : nat) : Prop :=
  at_bound (/ 10 ^ 5) (x i) (ub i) /\ xle_r (ub i) (x i - L i).

(** number of bounds of variable [i] that are held, for the sum of squares *)
Definition held_count (lb ub : nat -> xR) (x L w : vec) (i : nat) : Prop :=
  exists a b, w i = a + b /\
    (held_low lb x L i /\ a = 1 \/ ~ held_low lb x L i /\ a = 0) /\
    (held_up ub x L i /\ b = 1 \/ ~ held_up ub x L i /\ b = 0).

(** length of the linearised constraints, including those of the bounds held *)
Definition con_length (n nsl : nat) (ce : list R) (ae : list vec) (sl w z : vec) : R :=
  sqrt (rsum (length ce) (fun k => lin_con n nsl ce ae sl z k ^ 2) + rsum n (fun i => w i * z i ^ 2)).

(** the columns answered by the null-space solver are orthogonal to every row given *)
Definition null_in (dim : nat) (null : list vec -> option (nat * mat)) : Prop :=
  forall rows k Z, null rows = Some (k, Z) -> forall a j, In a rows -> (j < k)%nat -> dot dim a (fun i => Z i j) = 0.

(** the tangential solver answers steps of no positive cost and not against the right-hand side *)
Definition cg_descends (cg : nat -> mat -> vec -> R -> option (vec * bool)) : Prop :=
  forall k A b D u a, symmetric k A -> cg k A b D = Some (u, a) -> cost k A b u <= 0 /\ 0 <= dot k b u.

(** multipliers of the kind of C40: negative only near the lower bound, positive only near
    the upper bound *)
Definition signed_near (n : nat) (lb ub : nat -> xR) (mult : nat -> vec -> option vec) : Prop :=
  forall k y l, mult k y = Some l -> forall i, (i < n)%nat ->
    (l i < 0 -> at_bound (/ 10 ^ 5) (y i) (lb i)) /\ (0 < l i -> at_bound (/ 10 ^ 5) (y i) (ub i)).

(** Half the squared length of the linearised constraints: gradient at zero and matrix.  The
    bounds held have no residual, so they enter the matrix only. *)
Definition lin_row (n nsl : nat) (ce : list R) (ae : list vec) (sl : vec) (k j : nat) : R :=
  lin_con n nsl ce ae sl (unitv j) k - lin_con n nsl ce ae sl vzero k.
Definition lsq_grad (n nsl : nat) (ce : list R) (ae : list vec) (sl : vec) : vec := fun j =>
  rsum (length ce) (fun k => lin_con n nsl ce ae sl vzero k * lin_row n nsl ce ae sl k j).
Definition lsq_mat (n nsl : nat) (ce : list R) (ae : list vec) (sl w : vec) : mat := fun i j =>
  rsum (length ce) (fun k => lin_row n nsl ce ae sl k i * lin_row n nsl ce ae sl k j) +
  (if (i =? j)%nat then if (i <? n)%nat then w i else 0 else 0).

(** [r] is the restoration step: the answer to the problem of least squares inside bounds and
    radius, or zero if its gradient is at most 1e-14. *)
Definition restores {Msg : Type} (restore : nat -> vec -> mat -> (nat -> xR) -> (nat -> xR) -> R -> option (vec * Msg)) (cvx : mat -> mat)
    (n nsl : nat) (lb ub : nat -> xR) (ce : list R) (ae : list vec) (sl w x : vec) (delta : R) (r : vec) (answer : option Msg) : Prop :=
  (norm (n + nsl) (lsq_grad n nsl ce ae sl) <= / 10 ^ 14 /\ r = vzero /\ answer = None) \/
  (/ 10 ^ 14 < norm (n + nsl) (lsq_grad n nsl ce ae sl) /\ exists g A z m,
     veq (n + nsl) g (lsq_grad n nsl ce ae sl) /\
     (forall i j, (i < n + nsl)%nat -> (j < n + nsl)%nat -> A i j = lsq_mat n nsl ce ae sl w i j) /\
     (forall i, (i < n)%nat -> z i = x i) /\ (forall i, z (n + i)%nat = sl i) /\
     restore (n + nsl)%nat g (cvx A) (fun i => xsub (lb i) (z i)) (fun i => xsub (ub i) (z i)) delta = Some (r, m) /\ answer = Some m).
