(** What the initial phase is supposed to do. *)
From Coq Require Import List Arith ZArith QArith Bool.
Import ListNotations.
From Verif Require Import Main_Model Pre_Model.
Local Open Scope Q_scope.

(** [v] respects the bounds [l], [u] *)
Definition between (l u : bnd) (v : Q) : Prop :=
  (forall a, l = Some a -> a <= v) /\ (forall b, u = Some b -> v <= b).

(** component [j] of [y] respects its bounds *)
Definition respects (lb ub : list bnd) (y : list Q) (j : nat) : Prop :=
  forall l u v, nth_error lb j = Some l -> nth_error ub j = Some u -> nth_error y j = Some v ->
  between l u v.

(** the bounds of component [j] exclude each other / coincide *)
Definition crossed (lb ub : list bnd) (j : nat) : Prop :=
  exists a b, nth_error lb j = Some (Some a) /\ nth_error ub j = Some (Some b) /\ b < a.
Definition pinned (lb ub : list bnd) (j : nat) : Prop :=
  exists a b, nth_error lb j = Some (Some a) /\ nth_error ub j = Some (Some b) /\ a == b.

(** [y] is [x] with component [j] lowered by [d] *)
Definition lowered (x : list Q) (d : Q) (j : nat) (y : list Q) : Prop :=
  length y = length x /\
  forall i, (i < length x)%nat -> nth i y 0 = if (i =? j)%nat then nth i x 0 - d else nth i x 0.

(** [pts] is the start point followed by its n lowered copies, in order *)
Definition simplex_of (x : list Q) (d : Q) (pts : list (list Q)) : Prop :=
  length pts = S (length x) /\ nth_error pts 0 = Some x /\
  forall j, (j < length x)%nat -> exists y, nth_error pts (S j) = Some y /\ lowered x d j y.

(** [k]-th evaluation: succeeded with objective value [v] *)
Definition gives (user : nat -> list Q -> outcome) (k : nat) (y : list Q) (v : Q) : Prop :=
  o_f (user k y) = Some (Fin v) /\ exists c, o_c (user k y) = Some c /\ ~ In NaN c.

(** an evaluation that the code treats as failure: exception, NaN or infinite
    objective, exception or NaN in the constraints *)
Definition fails (user : nat -> list Q -> outcome) (k : nat) (y : list Q) : Prop :=
  forall v, ~ gives user k y v.

(** how one run of the initial phase can go; [tiny d] is the test for giving up *)
Inductive ending := Complete | Failed | TooLow.

(** the first [k] points of [pts], evaluated from call number [c] on, give values of at
    least -1e25 *)
Definition fine_until (user : nat -> list Q -> outcome) (c : nat) (pts : list (list Q)) (k : nat) : Prop :=
  forall i y, (i < k)%nat -> nth_error pts i = Some y ->
  exists v, gives user (c + i) y v /\ - inject_Z (10 ^ 25) <= v.

(** [probing user tiny x c d cl d' e]: starting with radius [d] and with [c] earlier
    calls, the calls [cl] are made and the phase ends with radius [d'] as [e] says *)
Inductive probing (user : nat -> list Q -> outcome) (tiny : Q -> Prop) (x : list Q)
  : nat -> Q -> list (list Q) -> Q -> ending -> Prop :=
| pr_complete c d pts : simplex_of x d pts -> fine_until user c pts (length pts) ->
    probing user tiny x c d pts d Complete
| pr_fail c d pts k y : simplex_of x d pts -> fine_until user c pts k ->
    nth_error pts k = Some y -> fails user (c + k) y ->
    probing user tiny x c d (firstn (S k) pts) d Failed
| pr_again c d pts k y v cl d' e : simplex_of x d pts -> fine_until user c pts k ->
    nth_error pts k = Some y -> gives user (c + k) y v -> v < - inject_Z (10 ^ 25) ->
    ~ tiny ((1 # 100) * d) -> probing user tiny x (c + S k) ((1 # 100) * d) cl d' e ->
    probing user tiny x c d (firstn (S k) pts ++ cl) d' e
| pr_giveup c d pts k y v : simplex_of x d pts -> fine_until user c pts k ->
    nth_error pts k = Some y -> gives user (c + k) y v -> v < - inject_Z (10 ^ 25) ->
    tiny ((1 # 100) * d) ->
    probing user tiny x c d (firstn (S k) pts) d TooLow.

(** the calls of the user functions made before the initial phase returned *)
Definition calls_of (r : pre_res) : list (list Q) :=
  match r with PReady cl _ _ _ _ => cl | PFlag _ cl => cl | PGiveUp cl => cl | PCrash => [] end.

(** number of constraints recorded by the initial phase *)
Definition width (ceX : list (list Q)) : nat := match ceX with [] => 0%nat | c :: _ => length c end.

(** an integer bound *)
Definition zb (z : option Z) : bnd := option_map inject_Z z.

(** the test for giving up, with the constant of the code *)
Definition too_small (nrm : list Q -> Q) (x : list Q) (d : Q) : Prop :=
  d < (2220446049250313 # (10 ^ 30)) * nrm x.
