(** What the bounded least-squares solver does, pass by pass, without reference
    to its model: the searches inside a subspace, and the whole run. *)
From Coq Require Import Reals ZArith List Bool.
From Verif Require Import RVec RBool ProjGrad_Spec BL_Spec.
Import ListNotations.
Open Scope R_scope.

(** Where the solver is inside an iteration: the point, the variables held at
    their lower and upper bounds (a variable can be listed twice), whether a
    projected search has failed in this call, and the bounds crossed by the
    last projected trial of this call. *)
Record place := Place { where_ : vec; held_lo : list nat; held_up : list nat;
  failed : bool; crossed_lo : list nat; crossed_up : list nat }.

Section Passes.
Variables (m n : nat) (A : mat) (b : vec) (lb ub : nat -> xR).
Variable pin : list nat -> vec -> option vec.

Definition listed (l : list nat) (i : nat) : bool := existsb (Nat.eqb i) l.

(** the variables not held *)
Definition loose (lo up : list nat) : list nat :=
  filter (fun i => negb (listed lo i) && negb (listed up i)) (seq 0 n).

(** The target of a pass: the variables held are at their bounds, the others
    have the values given by the pseudo-inverse for what is left of [b]. *)
Definition target (lo up : list nat) (t : vec) : Prop := exists p,
  pin (loose lo up) (fun i => b i - fold_right (fun j acc => A i j * xval (lb j) + acc) 0 lo
                                  - fold_right (fun j acc => A i j * xval (ub j) + acc) 0 up) = Some p /\
  forall i, (i < n)%nat ->
    t i = if listed up i then xval (ub i) else if listed lo i then xval (lb i) else p i.

(** Among the variables of [l], those of [x] below and above their bounds. *)
Definition under (l : list nat) (x : vec) : list nat := filter (fun i => negb (xler (lb i) (x i))) l.
Definition over (l : list nat) (x : vec) : list nat := filter (fun i => negb (rlex (x i) (ub i))) l.
Definition outside (l : list nat) (x : vec) : Prop := under l x <> [] \/ over l x <> [].

(** Trial number [k] (from 0) between [s] and [t], and its projection. *)
Definition trial (s t : vec) (k : nat) : vec := fun i => s i + / 2 ^ k * (t i - s i).
Definition inside (x : vec) : vec := fun i => proj (lb i) (ub i) (x i).

(** The residual after projection is not larger than now by more than a
    hundredth of the gain expected: the sign of the gain is the wrong one. *)
Definition accepted (s t : vec) (k : nat) : Prop :=
  misfit m n A b (inside (trial s t k)) <=
  misfit m n A b s + / 100 * / 2 ^ k * (misfit m n A b s - misfit m n A b t).
Definition rejected (l : list nat) (s t : vec) (k : nat) : Prop :=
  outside l (trial s t k) /\ ~ accepted s t k.

(** How far variable [i] lets the step along [d] go. *)
Definition room (s d : vec) (i : nat) (r : R) : Prop :=
  (1 / 10 ^ 14 <= d i /\ exists u, ub i = Fin u /\ r = (u - s i) / d i) \/
  (d i <= - (1 / 10 ^ 14) /\ exists l, lb i = Fin l /\ r = (l - s i) / d i).
Definition longest (l : list nat) (s d : vec) (a : R) : Prop :=
  a <= 1 /\ (forall i r, In i l -> room s d i r -> a <= r) /\
  (a = 1 \/ exists i, In i l /\ room s d i a).

(** What four projected trials leave behind when none is accepted: [fail] tells
    whether the last trial was reached. *)
Definition no_trial (l : list nat) (s t : vec) (fail : bool) (cl cu : list nat) : Prop :=
  (exists k, (k < 4)%nat /\ (forall j, (j < k)%nat -> rejected l s t j) /\
     ~ outside l (trial s t k) /\ fail = Nat.eqb k 3 /\ cl = [] /\ cu = []) \/
  ((forall j, (j < 4)%nat -> rejected l s t j) /\ fail = true /\
     cl = under l (trial s t 3) /\ cu = over l (trial s t 3)).

(** One pass; the last argument tells whether the search is over. *)
Inductive pass (x y : place) : bool -> Prop :=
| pass_target : forall t, target (held_lo x) (held_up x) t ->
    ~ outside (loose (held_lo x) (held_up x)) t ->
    (forall i, (i < n)%nat -> where_ y i = t i) ->
    held_lo y = held_lo x -> held_up y = held_up x -> failed y = failed x ->
    crossed_lo y = crossed_lo x -> crossed_up y = crossed_up x ->
    pass x y true
| pass_projected : forall t k, target (held_lo x) (held_up x) t ->
    let l := loose (held_lo x) (held_up x) in
    outside l t -> failed x = false -> (k < 4)%nat ->
    (forall j, (j < k)%nat -> rejected l (where_ x) t j) ->
    outside l (trial (where_ x) t k) -> accepted (where_ x) t k ->
    (forall i, (i < n)%nat -> where_ y i = inside (trial (where_ x) t k) i) ->
    crossed_lo y = under l (trial (where_ x) t k) -> crossed_up y = over l (trial (where_ x) t k) ->
    held_lo y = held_lo x ++ crossed_lo y -> held_up y = held_up x ++ crossed_up y ->
    failed y = false ->
    pass x y true
| pass_longest : forall t a, target (held_lo x) (held_up x) t ->
    let l := loose (held_lo x) (held_up x) in
    outside l t ->
    (if failed x then failed y = true /\ crossed_lo y = crossed_lo x /\ crossed_up y = crossed_up x
     else no_trial l (where_ x) t (failed y) (crossed_lo y) (crossed_up y)) ->
    longest l (where_ x) (fun i => t i - where_ x i) a ->
    (forall i, (i < n)%nat -> where_ y i = where_ x i + a * (t i - where_ x i)) ->
    held_lo y = held_lo x ++ crossed_lo y -> held_up y = held_up x ++ crossed_up y ->
    pass x y false.

(** A search of at most [k] passes. *)
Inductive passes : nat -> place -> place -> Prop :=
| passes_none : forall x, passes 0 x x
| passes_end : forall k x y, pass x y true -> passes (S k) x y
| passes_more : forall k x y z, pass x y false -> passes k y z -> passes (S k) x z.

(** The projected gradient step with [k] halvings and its acceptance. *)
Definition cauchy_point (s : vec) (k : nat) : vec :=
  let g := misfit_grad m n A b s in
  fun i => proj (lb i) (ub i) (s i - dot n g g / dot m (mv n A g) (mv n A g) * / 2 ^ k * g i).
Definition cauchy_good (s : vec) (k : nat) : Prop :=
  let d := vsub (cauchy_point s k) s in
  let slope := dot n (misfit_grad m n A b s) d in
  slope + 1 / 2 * dot m (mv n A d) (mv n A d) <= 1 / 100 * slope.

(** Variables of [x] at a bound, to 1e-12. *)
Definition near_bound (e : nat -> xR) (x : vec) (i : nat) : Prop :=
  exists a, e i = Fin a /\ Rabs (x i - a) <= 1 / 10 ^ 12.
Definition bounds_reached (e : nat -> xR) (x : vec) (l : list nat) : Prop :=
  (forall i, In i l <-> (i < n)%nat /\ near_bound e x i) /\ exists f, l = filter f (seq 0 n).

(** The start of an iteration from [s]: the projected gradient point, with the
    variables at bounds put exactly there. *)
Definition start_point (s y : vec) (lo up : list nat) : Prop := exists k,
  (k < 14)%nat /\ cauchy_good s k /\ (forall j, (j < k)%nat -> ~ cauchy_good s j) /\
  bounds_reached lb (cauchy_point s k) lo /\ bounds_reached ub (cauchy_point s k) up /\
  forall i, (i < n)%nat ->
    y i = if listed up i then xval (ub i) else if listed lo i then xval (lb i) else cauchy_point s k i.

Definition good (s : vec) : Prop :=
  stationarity m n A b lb ub s <= 1 / 10 ^ 10 \/ misfit m n A b s <= 1 / 10 ^ 11.

(** Iterations: [left] are left, [nit] are done, the solver is at [s]; the
    answer is a point, a code and the number of iterations. *)
Inductive rounds : nat -> nat -> vec -> bool -> list nat -> list nat -> vec -> Z -> nat -> Prop :=
| rounds_limit : forall nit s f cl cu,
    rounds 0 nit s f cl cu s (if Nat.leb (2 * n) nit then 1 else 0)%Z nit
| rounds_stuck : forall left nit s f cl cu, (forall k, (k < 14)%nat -> ~ cauchy_good s k) ->
    rounds (S left) nit s f cl cu s (-1)%Z (S nit)
| rounds_vertex : forall left nit s f cl cu y lo up, start_point s y lo up ->
    loose lo up = [] \/ misfit m n A b y <= 1 / 10 ^ 11 ->
    rounds (S left) nit s f cl cu y (if Nat.leb (2 * n) (S nit) then 1 else 0)%Z (S nit)
| rounds_good : forall left nit s f cl cu y lo up z, start_point s y lo up ->
    loose lo up <> [] -> 1 / 10 ^ 11 < misfit m n A b y ->
    passes n (Place y lo up f cl cu) z -> good (where_ z) ->
    rounds (S left) nit s f cl cu (where_ z) (if Nat.leb (2 * n) (S nit) then 1 else 0)%Z (S nit)
| rounds_next : forall left nit s f cl cu y lo up z x c k, start_point s y lo up ->
    loose lo up <> [] -> 1 / 10 ^ 11 < misfit m n A b y ->
    passes n (Place y lo up f cl cu) z -> ~ good (where_ z) ->
    rounds left (S nit) (where_ z) (failed z) (crossed_lo z) (crossed_up z) x c k ->
    rounds (S left) nit s f cl cu x c k.

(** A call: the clipped answer of the pseudo-inverse, then at most 2n
    iterations. *)
Definition whole_run (x : vec) (c : Z) (k : nat) : Prop := exists p s,
  pin (seq 0 n) b = Some p /\ (forall i, (i < n)%nat -> s i = proj (lb i) (ub i) (p i)) /\
  ((good s /\ x = s /\ c = (if Nat.leb (2 * n) 0 then 1 else 0)%Z /\ k = O) \/
   (~ good s /\ rounds (2 * n) 0 s false [] [] x c k)).

End Passes.

Definition independent_columns (m n : nat) (A : mat) : Prop :=
  forall s, (forall i, (i < m)%nat -> mv n A s i = 0) -> forall i, (i < n)%nat -> s i = 0.
