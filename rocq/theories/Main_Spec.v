(** What the main loop is supposed to guarantee, stated on the data that a caller
    can see: the calls of the user functions, the archive, the interpolation set,
    the incumbent and the fields of info. *)
From Coq Require Import List Arith ZArith QArith Qabs Bool.
Import ListNotations.
From Verif Require Import QB Book_Model Book_Spec Main_Model.
Local Open Scope Q_scope.

Section MainSpec.
Context {P : Type}.
Variable E : env P.

(** the k-th evaluation, at y, gave the objective value v and constraint values c
    without exception, NaN or infinite objective *)
Definition answered (k : nat) (y : P) (v : Q) (c : list xQ) : Prop :=
  o_f (e_user E k y) = Some (Fin v) /\ o_c (e_user E k y) = Some c /\ ~ In NaN c.

Definition good_call (k : nat) (y : P) : Prop := exists v c, answered k y v c.

(** [f] is [v], capped at 1e25 *)
Definition capped (v f : Q) : Prop :=
  (v <= inject_Z (10 ^ 25) -> f == v) /\ (inject_Z (10 ^ 25) < v -> f == inject_Z (10 ^ 25)).

(** [y] was evaluated, and [f] is the (capped) value of that evaluation *)
Definition evaluated (cl : list P) (y : P) (f : Q) : Prop :=
  exists k v c, nth_error cl k = Some y /\ answered k y v c /\ capped v f.

(** all constraint values answered are finite and below 1e25 in magnitude *)
Definition tame : Prop :=
  forall k y c v, o_c (e_user E k y) = Some c -> In v c -> exists q, v = Fin q /\ ~ huge q.

(** data handed over by the initial phase: at least two points, each of them
    evaluated, with its value; constraint values in the right number *)
Definition consistent (cl X : list P) (fX : list Q) (ceX : list (list Q)) (slk : list Q) : Prop :=
  (2 <= length X)%nat /\ length fX = length X /\
  (e_me E = 0%nat -> ceX = [] /\ slk = []) /\
  (e_me E <> 0%nat -> length ceX = length X) /\
  (forall c, In c ceX -> length c = e_me E) /\
  (forall i y f, nth_error X i = Some y -> nth_error fX i = Some f -> evaluated cl y f) /\
  (tame -> forall c v, In c ceX -> In v c -> ~ huge v).

(** settings: argsort sorts descending (numpy), and the final degree is one of the
    three of /repo/sqpdfo/sqpdfo.py *)
Definition sane : Prop := sorts_desc (e_argsort E) /\ (e_pfinal E <= e_pquad E)%nat.

(** [s0] is the first state of the loop, reached with [k0] calls of the user
    functions and the initial radius [d0] *)
Definition begins (k0 : nat) (d0 : Q) (s0 : st P) : Prop :=
  exists cl X fX ceX slk, consistent cl X fX ceX slk /\ length cl = k0 /\ 0 < d0 /\
    start E cl X fX ceX slk d0 = Some s0.

(** the calls made since state [s] all succeeded *)
Definition new_calls_good (s s' : st P) : Prop :=
  forall k y, nth_error (calls (sA s')) k = Some y -> (length (calls (sA s)) <= k)%nat ->
    good_call k y.

(** reached by passes whose answers all satisfy [Q] *)
Inductive reach_if (Q : answers P -> Prop) (s0 : st P) : st P -> Prop :=
| ri_start : reach_if Q s0 s0
| ri_pass s a s' : reach_if Q s0 s -> Q a -> pass E s a = Continue s' -> reach_if Q s0 s'.

(** column j of the set is the archived point with index ind_Y[j], and the stored
    function value of column j is the archived one; no index occurs twice *)
Definition same_points (s : st P) : Prop :=
  let S := iS (sI s) in let A := sA s in
  length (s_ind S) = length (s_Y S) /\ length (s_f S) = length (s_Y S) /\ NoDup (s_ind S) /\
  forall j y, nth_error (s_Y S) j = Some y ->
    exists i f, nth_error (s_ind S) j = Some i /\ nth_error (Xs A) i = Some y /\
      nth_error (s_f S) j = Some f /\ nth_error (fXs A) i = Some f /\ evaluated (calls A) y f.

(** the same for the stored constraint values *)
Definition same_constraints (s : st P) : Prop :=
  let S := iS (sI s) in let A := sA s in
  length (s_ce S) = length (s_Y S) /\
  forall j i, nth_error (s_ind S) j = Some i ->
    exists c, nth_error (s_ce S) j = Some c /\ nth_error (ceXs A) i = Some c.

(** the incumbent is the first column of the set, and fx, i_xbest belong to it *)
Definition incumbent_first (s : st P) : Prop :=
  let S := iS (sI s) in
  nth_error (s_Y S) 0 = Some (ix (sI s)) /\ nth_error (s_ind S) 0 = Some (ib (sI s)) /\
  nth_error (s_f S) 0 = Some (ifx (sI s)).

(** i-th reported constraint value, minus the squared slack if it belongs to one of
    the (last) constraints with a slack *)
Definition residual (s c : list Q) (i : nat) : Q :=
  let k := (length c - length s)%nat in
  nth i c 0 - (if (i <? k)%nat then 0 else nth (i - k) s 0 * nth (i - k) s 0).

(** ** Radius rules *)

(** the larger of twice the step length [n] and the radius [d], but at most 100000 *)
Definition clamped_radius (n d d' : Q) : Prop :=
  (d' == 100000 /\ (100000 <= 2 * n \/ 100000 <= d)) \/
  (d' <= 100000 /\ ((d' == 2 * n /\ d <= 2 * n) \/ (d' == d /\ 2 * n <= d))).

Definition smaller (u v r : Q) : Prop := (r == u /\ u <= v) \/ (r == v /\ v <= u).
Definition larger (u v r : Q) : Prop := (r == u /\ v <= u) \/ (r == v /\ u <= v).

(** all constraint residuals at the loop head are within the tolerance *)
Definition feasible (s : st P) : Prop :=
  forall i, (i < length (ince (sN s)))%nat ->
    Qabs (residual (sl (sG s)) (ince (sN s)) i) <= e_tolf E.

(** threshold eps_current chosen for an improvement of the set *)
Definition threshold (s : st P) (ec : Q) : Prop :=
  (pred (sG s) == -1 /\ ~ feasible s /\ ec == (1 # 10) * delta (sG s)) \/
  (pred (sG s) == -1 /\ feasible s /\ smaller ((1 # 10) * epsc (sG s)) (1 # 100000) ec) \/
  (~ pred (sG s) == -1 /\ ec == 1 # 100000).

(** radius with which the step of a pass is computed: the radius at the loop head, or
    the one chosen for an improvement of the set (recognised by the iteration count) *)
Definition working_radius (s : st P) (a : answers P) (s' : st P) (r : Q) : Prop :=
  (niter (sN s') = (niter (sN s) + 1)%nat /\ epsc (sG s') = epsc (sG s) /\ r = delta (sG s)) \/
  (niter (sN s') = (niter (sN s) + 2)%nat /\ threshold s (epsc (sG s')) /\
   ((pred (sG s) == -1 /\ smaller (delta (sG s)) (epsc (sG s')) r) \/
    (~ pred (sG s) == -1 /\ a_glagn1 a <= 1 # 1000 /\ smaller (delta (sG s)) (1 # 100000) r) \/
    (~ pred (sG s) == -1 /\ ~ a_glagn1 a <= 1 # 1000 /\ larger (delta (sG s)) (epsc (sG s')) r))).

(** [r] is below 1e-10, or negligible compared with the incumbent *)
Definition negligible (s : st P) (r : Q) : Prop :=
  r < 1 # 10000000000 \/ r < (10 # 4503599627370496) * e_norm E (ix (sI s)).

(** the trial point decreased the merit function by the fraction [t] of the prediction *)
Definition decreases (t : Q) (s' : st P) : Prop :=
  t * pred (sG s') <= merit0 (sG s') - merit (sG s').

(** radius after an accepted trial point *)
Definition grown (a : answers P) (r : Q) (s' : st P) : Prop :=
  let d' := delta (sG s') in
  (decreases (9 # 10) s' /\ a_active a = true /\ r < 5 /\ d' == 5 * r) \/
  (~ decreases (9 # 10) s' /\ a_active a = true /\ d' == 2 * r) \/
  ((a_active a = false \/ (decreases (9 # 10) s' /\ 5 <= r)) /\ clamped_radius (a_norms a) r d').

(** factor of the reduction for a trial point that was not included: the quotient,
    kept between 1/100 and 1/2; a zero denominator counts as positive *)
Definition reduction (g num den : Q) : Prop :=
  (1 # 100) <= g <= 1 # 2 /\
  (0 < den -> (g == 1 # 2 /\ (1 # 2) * den <= num) \/ (g == 1 # 100 /\ num <= (1 # 100) * den) \/
     g * den == num) /\
  (den < 0 -> (g == 1 # 2 /\ num <= (1 # 2) * den) \/ (g == 1 # 100 /\ (1 # 100) * den <= num) \/
     g * den == num) /\
  (den == 0 -> (num < 0 -> g == 1 # 100) /\ (0 <= num -> g == 1 # 2)).

Definition shrunk (a : answers P) (r : Q) (s' : st P) : Prop :=
  exists g m ft,
    ((m == r /\ r <= a_norms a) \/ (m == a_norms a /\ a_norms a <= r)) /\
    nth_error (fXs (sA s')) (mlast (sA s')) = Some ft /\
    reduction g (- (1 # 10) * a_gTs a)
      (ft - ifx (sI s') - a_gTs a + (9 # 10) * (pred (sG s') + a_gTs a)) /\
    delta (sG s') == g * m /\ (1 # 10000000000) <= delta (sG s').

(** what a pass does with its trial point, for the working radius [r] *)
Definition decided (a : answers P) (r : Q) (s' : st P) : Prop :=
  let new := mlast (sA s') in let ind := s_ind (iS (sI s')) in let d' := delta (sG s') in
  (pred (sG s') == -1 /\ ~ In new ind /\ d' = r) \/
  (0 < pred (sG s') /\ decreases (1 # 10000) s' /\ ib (sI s') = new /\ In new ind /\
     ((rej (sG s') = false /\ grown a r s') \/
      (rej (sG s') = true /\ clamped_radius (a_norms a) r d'))) \/
  (0 < pred (sG s') /\ ~ decreases (1 # 10000) s' /\ ib (sI s') <> new /\ In new ind /\
     ((1 # 100000 < r /\ d' == (1 # 2) * r) \/ (r <= 1 # 100000 /\ d' = r))) \/
  (0 < pred (sG s') /\ ~ In new ind /\ shrunk a r s').

End MainSpec.
