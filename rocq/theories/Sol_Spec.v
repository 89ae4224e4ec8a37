(** What a complete call of sqpdfo_ is supposed to guarantee. *)
From Coq Require Import List Arith ZArith QArith Bool.
Import ListNotations.
From Verif Require Import Main_Model Opt_Model Drv_Model Drv_Spec Pre_Model Pre_Spec Sol_Model.
Local Open Scope Q_scope.

(** the [k]-th call, at [y], gave a finite objective value and constraint values that are
    numbers, without exception *)
Definition succeeds (user : nat -> list Q -> outcome) (k : nat) (y : list Q) : Prop :=
  exists v, gives user k y v.

(** all calls of [cl] succeeded / all but the last one, which failed *)
Definition all_succeed (user : nat -> list Q -> outcome) (cl : list (list Q)) : Prop :=
  forall k y, nth_error cl k = Some y -> succeeds user k y.
Definition last_fails (user : nat -> list Q -> outcome) (cl : list (list Q)) : Prop :=
  exists l y, cl = l ++ [y] /\ all_succeed user l /\ ~ succeeds user (length l) y.

(** the user never returns an objective value below -1e25 *)
Definition bounded_below (user : nat -> list Q -> outcome) : Prop :=
  forall k y v, gives user k y v -> - inject_Z (10 ^ 25) <= v.

(** largest interpolation set for a degree option and a model option *)
Definition largest (o : opts) (n : nat) : nat :=
  let p := match degree o with
           | Some (VInt 140%Z) => n + 1
           | Some (VInt 141%Z) => 2 * n + 1
           | _ => (n + 1) * (n + 2) / 2
           end%nat in
  match wmodel o with Some (VInt 3%Z) => (2 * p)%nat | _ => p end.

(** [m] is the number of counts strictly below the limit [q] *)
Definition counts_below (q : Q) (m : nat) : Prop :=
  forall k : nat, (k < m)%nat <-> inject_Z (Z.of_nat k) < q.

(** numeric value of an option *)
Definition has_value (n : option num) (q : Q) : Prop :=
  exists x, n = Some x /\ val x = Fin q.

(** the bound arrays of the constraints are missing or long enough *)
Definition arrays_ok (i : input) : Prop :=
  let a := i_args i in
  has_ineq a ->
  (forall l, a_li a = Some l -> (num_of (a_mi a) + num_of (a_me a) <= length l)%nat) /\
  (forall u, a_ui a = Some u -> (num_of (a_mi a) + num_of (a_me a) <= length u)%nat).

(** the bounds of the variables: those given, or -1e20 and 1e20 *)
Definition box_lb (i : input) : list bnd :=
  match i_lb i with Some l => l | None => repeat (Some (- inject_Z (10 ^ 20))) (length (i_x0 i)) end.
Definition box_ub (i : input) : list bnd :=
  match i_ub i with Some l => l | None => repeat (Some (inject_Z (10 ^ 20))) (length (i_x0 i)) end.

(** there are variables, and as many bounds *)
Definition well_sized (i : input) : Prop :=
  (0 < length (i_x0 i))%nat /\ length (box_lb i) = length (i_x0 i) /\ length (box_ub i) = length (i_x0 i).

(** the same call with other bounds / after other calls *)
Definition with_box (i : input) (l u : option (list bnd)) : input :=
  mkin (i_args i) (i_opts i) (i_int i) l u (i_x0 i) (i_left i).
Definition with_left (i : input) (k : nat) : input :=
  mkin (i_args i) (i_opts i) (i_int i) (i_lb i) (i_ub i) (i_x0 i) k.

(** no constraint values are ever returned *)
Definition unconstrained (user : nat -> list Q -> outcome) : Prop :=
  forall k y c, o_c (user k y) = Some c -> c = [].
