(** What the bookkeeping routines are supposed to do, stated on the arrays that a
    caller hands in and gets back, without reference to how the model computes. *)
From Coq Require Import List Arith ZArith QArith Qabs Bool.
Import ListNotations.
From Verif Require Import QB Book_Model.
Local Open Scope Q_scope.

(** an interpolation set of [p] columns: every array has one entry per column;
    a constraint block is either absent or has one column per point *)
Definition wf_set {P} (S : iset P) (p : nat) : Prop :=
  length (s_Y S) = p /\ length (s_ind S) = p /\ length (s_f S) = p /\
  (s_ci S = [] \/ length (s_ci S) = p) /\ (s_ce S = [] \/ length (s_ce S) = p).

(** the positions i and j exchanged *)
Definition transp (i j k : nat) : nat :=
  if Nat.eq_dec k i then j else if Nat.eq_dec k j then i else k.

Definition permuted {A} (i j : nat) (l l' : list A) : Prop :=
  length l' = length l /\ forall k, nth_error l' k = nth_error l (transp i j k).

Definition set_permuted {P} (i j : nat) (S S' : iset P) : Prop :=
  permuted i j (s_Y S) (s_Y S') /\ permuted i j (s_ind S) (s_ind S') /\
  permuted i j (s_f S) (s_f S') /\
  (s_ci S = [] /\ s_ci S' = [] \/ permuted i j (s_ci S) (s_ci S')) /\
  (s_ce S = [] /\ s_ce S' = [] \/ permuted i j (s_ce S) (s_ce S')).

(** the base point of the set: its first point; the zero vector if there is only one point *)
Definition base_point {P} (zero : P) (Y : list P) (x : P) : Prop :=
  ((1 < length Y)%nat -> nth_error Y 0 = Some x) /\ ((length Y <= 1)%nat -> x = zero).

(** [z] is [s] without its digits behind the point *)
Definition whole_part (s : Q) (z : Z) : Prop :=
  (0 <= s -> inject_Z z <= s < inject_Z z + 1) /\ (s <= 0 -> inject_Z z - 1 < s <= inject_Z z).

(** [v] is the merit value of a point with function value [f] and constraint
    values [c], for a penalty parameter [pen]; the norm is ignored when all
    stored constraint values vanish *)
Definition all_zero (ce : list (list Q)) : Prop :=
  forall c, In c ce -> forall v, In v c -> v == 0.

Definition is_merit (cnorm : list Q -> Q) (pen : Q) (ce : list (list Q))
  (f : Q) (c : list Q) (v : Q) : Prop :=
  (all_zero ce /\ v == f) \/ (~ all_zero ce /\ v == f + pen * cnorm c).

Definition merit_at {P} (cnorm : list Q -> Q) (pen : Q) (S : iset P) (k : nat) (v : Q)
  : Prop :=
  exists f, nth_error (s_f S) k = Some f /\
    is_merit cnorm pen (s_ce S) f (nth k (s_ce S) []) v.

(** a point within its bounds, coordinate by coordinate *)
Definition in_bounds (xl xu y : list Q) : Prop :=
  length xl = length y /\ length xu = length y /\
  forall k v, nth_error y k = Some v ->
    nth k xl 0 <= v /\ v <= nth k xu 0.

(** only position j differs *)
Definition only_changed {A} (j : nat) (l l' : list A) : Prop :=
  length l' = length l /\ forall k, k <> j -> nth_error l' k = nth_error l k.

(** a routine that sorts positions by decreasing value *)
Definition sorts_desc (f : list Q -> list nat) : Prop :=
  forall d, Permutation.Permutation (f d) (seq 0 (length d)) /\
    forall a b, (a < b)%nat -> (b < length d)%nat ->
      nth (nth b (f d) 0%nat) d 0 <= nth (nth a (f d) 0%nat) d 0.

(** largest distance of a column to the first one (the first one itself counts
    with distance 0) *)
Definition is_radius {P} (dist : P -> P -> Q) (Y : list P) (r : Q) : Prop :=
  match Y with
  | [] => False
  | y0 :: t => 0 <= r /\ (forall y, In y t -> dist y y0 <= r) /\
      (r == 0 \/ exists y, In y t /\ r == dist y y0)
  end.

(** magnitude at least 1e25 *)
Definition huge (v : Q) : Prop := inject_Z (10 ^ 25) <= v \/ v <= - inject_Z (10 ^ 25).

(** the largest and the smallest value of magnitude below 1e25 *)
Definition largest_moderate (c : list (list Q)) (m : Q) : Prop :=
  In m (concat c) /\ ~ huge m /\ forall w, In w (concat c) -> ~ huge w -> w <= m.
Definition smallest_moderate (c : list (list Q)) (m : Q) : Prop :=
  In m (concat c) /\ ~ huge m /\ forall w, In w (concat c) -> ~ huge w -> m <= w.

(** same number of columns, and of entries in each column *)
Definition same_shape (c c' : list (list Q)) : Prop :=
  length c' = length c /\
  forall i a b, nth_error c i = Some a -> nth_error c' i = Some b -> length b = length a.

Definition entry (c : list (list Q)) (i j : nat) (v : Q) : Prop :=
  exists a, nth_error c i = Some a /\ nth_error a j = Some v.

(** [y] is the answer of the point generator for position [j] and some set that
    has the same first point as [Y0]; the generator may also answer that it has no
    point, in which case the zero vector is used *)
Definition origin {P} (zero : P) (newpt : nat -> list P -> nat -> nyj P)
  (Y0 : list P) (j : nat) (y : P) : Prop :=
  exists k Y, nth_error Y 0 = nth_error Y0 0 /\
    ((exists imp, newpt k Y j = NewPt y imp) \/ (newpt k Y j = NoPt /\ y = zero)).

(** in some complete round of questions about [Y] no proposal reached [thr] *)
Definition settled {P} (newpt : nat -> list P -> nat -> nyj P) (thr : Q) (Y : list P) : Prop :=
  exists k, forall j y v, (1 <= j < length Y)%nat ->
    newpt (k + (j - 1))%nat Y j = NewPt y v -> v < thr.

(** a position offered for replacement whose Lagrange value at the new point
    exceeds the threshold in absolute value *)
Definition candidate (cset : list nat) (thr : Q) (L : nat -> Q) (p k : nat) : Prop :=
  In k cset /\ (k < p)%nat /\ thr < Qabs (L k).

(** [v] is the value of the selection criterion at position [k]: the distance is
    taken to the new point after a successful step, to the first point otherwise *)
Definition has_crit {P} (dist : P -> P -> Q) (x : P) (Y : list P) (c : criterion)
  (succ : bool) (L : nat -> Q) (k : nat) (v : Q) : Prop :=
  exists y y0, nth_error Y k = Some y /\ nth_error Y 0 = Some y0 /\
    let d := dist y (if succ then x else y0) in
    match c with
    | Weighted => v == d * d * Qabs (L k)
    | Standard => v == Qabs (L k)
    | Distance => v == d
    end.
