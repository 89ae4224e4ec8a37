(** How one pass of the main loop may change the interpolation set. *)
From Coq Require Import List Arith ZArith QArith Qabs Bool.
Import ListNotations.
From Verif Require Import QB Book_Model Book_Spec Main_Model Main_Spec.
Local Open Scope Q_scope.

Section SetSpec.
Context {P : Type}.
Variable E : env P.

(** there is room for one more point *)
Definition room (Y : list P) : Prop :=
  (length Y < e_pfinal E \/ (e_whichmodel E = 3 /\ length Y < 2 * e_pfinal E))%nat.

(** position [j] is eligible if [ok j] and its Lagrange value at the trial point exceeds
    [thr]; the chosen one maximises the criterion, which must be positive.  Without such
    a position nothing is chosen. *)
Definition eligible (ok : nat -> Prop) (thr : Q) (L : nat -> Q) (Y : list P) (j : nat) : Prop :=
  ok j /\ (j < length Y)%nat /\ thr < Qabs (L j).
Definition best (ok : nat -> Prop) (thr : Q) (c : criterion) (won : bool) (L : nat -> Q)
  (xp : P) (Y : list P) (j : nat) : Prop :=
  eligible ok thr L Y j /\
  exists v, has_crit (e_dist E) xp Y c won L j v /\ 0 < v /\
    forall k w, eligible ok thr L Y k -> has_crit (e_dist E) xp Y c won L k w -> w <= v.
Definition no_best (ok : nat -> Prop) (thr : Q) (c : criterion) (won : bool) (L : nat -> Q)
  (xp : P) (Y : list P) : Prop :=
  forall k w, eligible ok thr L Y k -> has_crit (e_dist E) xp Y c won L k w -> w <= 0.

(** distance of position [j] from the new incumbent: the trial point if it won, otherwise
    the old one, which itself is neither far nor close *)
Definition is_far (won : bool) (x xp : P) (r : Q) (Y : list P) (j : nat) : Prop :=
  (won = false -> j <> 0%nat) /\
  exists y, nth_error Y j = Some y /\ (10001 # 10000) * r < e_dist E y (if won then xp else x).
Definition is_close (won : bool) (x xp : P) (r : Q) (Y : list P) (j : nat) : Prop :=
  (won = false -> j <> 0%nat) /\
  exists y, nth_error Y j = Some y /\ e_dist E y (if won then xp else x) <= (10001 # 10000) * r.

(** the trial point at position [j] of [Y], and moved to the front if it won *)
Definition placed (won : bool) (xp : P) (j : nat) (Y Y' : list P) : Prop :=
  exists Y1, only_changed j Y Y1 /\ nth_error Y1 j = Some xp /\
    if won then permuted 0 j Y1 Y' else Y' = Y1.

(** the trial point replaces a point when it won, or when the model is not known to be
    poised ([b] is false), or when the radius [r] is at most the threshold [ec] *)
Inductive exchange (a : answers P) (won b : bool) (r ec : Q) (x : P) (Y Y' : list P) : Prop :=
| x_added : room Y ->
    (if won then permuted 0 (length Y) (Y ++ [a_xnew a]) Y' else Y' = Y ++ [a_xnew a]) ->
    exchange a won b r ec x Y Y'
| x_best j : won = true -> ~ room Y ->
    best (fun _ => True) (1 # 10000000000) Distance true (a_L1 a) (a_xnew a) Y j ->
    placed won (a_xnew a) j Y Y' -> exchange a won b r ec x Y Y'
| x_far j : ~ room Y ->
    (won = true -> no_best (fun _ => True) (1 # 10000000000) Distance true (a_L1 a) (a_xnew a) Y) ->
    b = false \/ r <= ec ->
    best (is_far won x (a_xnew a) r Y) (1 # 10000000000) (if won then Weighted else Distance) won
      (a_L2 a) (a_xnew a) Y j ->
    placed won (a_xnew a) j Y Y' -> exchange a won b r ec x Y Y'
| x_close j : ~ room Y ->
    (won = true -> no_best (fun _ => True) (1 # 10000000000) Distance true (a_L1 a) (a_xnew a) Y) ->
    b = false \/ r <= ec ->
    no_best (is_far won x (a_xnew a) r Y) (1 # 10000000000) (if won then Weighted else Distance) won
      (a_L2 a) (a_xnew a) Y ->
    best (is_close won x (a_xnew a) r Y) (if won then 1 # 1000000000000000 else 6 # 5) Standard won
      (a_L3 a) (a_xnew a) Y j ->
    placed won (a_xnew a) j Y Y' -> exchange a won b r ec x Y Y'
| x_none : ~ room Y ->
    (won = true -> no_best (fun _ => True) (1 # 10000000000) Distance true (a_L1 a) (a_xnew a) Y) ->
    (b = true /\ ec < r) \/
    (no_best (is_far won x (a_xnew a) r Y) (1 # 10000000000) (if won then Weighted else Distance) won
       (a_L2 a) (a_xnew a) Y /\
     no_best (is_close won x (a_xnew a) r Y) (if won then 1 # 1000000000000000 else 6 # 5) Standard won
       (a_L3 a) (a_xnew a) Y) ->
    Y' = Y -> exchange a won b r ec x Y Y'.

(** an improvement of the set [Y] for the radius [r]: some points other than the
    incumbent are replaced and evaluated ([new] are the calls made); a point that stays
    has at most [f] times the (slightly enlarged) radius as distance from the incumbent;
    then a point may be exchanged with the incumbent.  [b]: nothing was replaced. *)
Definition repaired (f r : Q) (Y Y2 : list P) (new : list P) (b : bool) : Prop :=
  exists Y1 (repl : list nat),
    length Y1 = length Y /\ nth_error Y1 0 = nth_error Y 0 /\
    NoDup repl /\ (forall j, In j repl -> (0 < j < length Y)%nat) /\
    (forall j, ~ In j repl -> nth_error Y1 j = nth_error Y j) /\
    Forall2 (fun j y => nth_error Y1 j = Some y) repl new /\
    (forall j y y0, ~ In j repl -> j <> 0%nat -> nth_error Y1 j = Some y -> nth_error Y1 0 = Some y0 ->
       e_dist E y y0 <= f * (1001 # 1000) * r) /\
    (b = true <-> repl = []) /\
    (Y2 = Y1 \/ exists k, (1 < k)%nat /\ permuted 0 k Y1 Y2).

(** factor for the distance: 1 if the projected gradient of the model is small or if no
    decrease was predicted in the previous pass, otherwise 10 *)
Definition distance_factor (s : st P) (a : answers P) (f : Q) : Prop :=
  ((a_normgx a <= 1 # 100000 \/ pred (sG s) == -1) /\ f == 1) \/
  (~ a_normgx a <= 1 # 100000 /\ ~ pred (sG s) == -1 /\ f == 10).

(** the set with which the step of a pass is computed, and whether the model is then
    known to be poised *)
Definition prepared (s : st P) (a : answers P) (s' : st P) (r : Q) (Y2 : list P) (b : bool) : Prop :=
  (niter (sN s') = (niter (sN s) + 1)%nat /\ Y2 = s_Y (iS (sI s)) /\ b = pm (sG s)) \/
  (niter (sN s') = (niter (sN s) + 2)%nat /\ exists f new,
     distance_factor s a f /\ repaired f r (s_Y (iS (sI s))) Y2 new b /\
     calls (sA s') = calls (sA s) ++ new ++ [a_xnew a]).

End SetSpec.
