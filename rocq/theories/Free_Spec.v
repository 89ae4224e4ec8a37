(** Vocabulary for problems without bounds and without constraints. *)
From Coq Require Import List Arith ZArith QArith Bool.
Import ListNotations.
From Verif Require Import QB Main_Model Opt_Model Drv_Model Pre_Model Sol_Model Out_Spec.
Local Open Scope Q_scope.

(** bounds as the user gives them, with the defaults of an absent argument *)
Definition given_lb (i : input) : list bnd :=
  match i_lb i with Some l => l | None => repeat (Some (- c1e20)) (length (i_x0 i)) end.
Definition given_ub (i : input) : list bnd :=
  match i_ub i with Some l => l | None => repeat (Some c1e20) (length (i_x0 i)) end.

(** the infinity of the options: a number given by the user, or infinite *)
Definition infinity (i : input) : xQ :=
  match inff_ (i_opts i) with Some v => val v | None => PInf end.

(** no variable has a bound within the infinity of the options *)
Definition free (i : input) : Prop :=
  forall j, (j < length (i_x0 i))%nat -> unbounded (infinity i) (nth j (given_lb i) None) (nth j (given_ub i) None).

(** no inequality constraints in the call *)
Definition no_ineq (i : input) : Prop := num_of (a_mi (i_args i)) = O.

(** [x] differs from an existing bound by less than 0.00001 *)
Definition close_to (b : bnd) (x : Q) : Prop :=
  exists q, b = Some q /\ - (1 # 100000) < x - q /\ x - q < 1 # 100000.

(** length of an array along an axis, counted from the last one; 1 if there is none *)
Definition axis (s : list nat) (k : nat) : nat := nth k (rev s) 1%nat.
