(** Specification of the entry of the solver. *)
From Coq Require Import List Arith ZArith QArith Reals Bool.
Import ListNotations.
From Verif Require Import Main_Model Drv_Model.

(** the calls that must be refused with exit code 1 *)
Definition to_refuse {D} (a : args D) : Prop :=
  let constrained := (0 < num_of (a_me a) + num_of (a_mi a))%nat in
  a_f a = FnNone \/
  (exists f, a_f a = FnFun f) /\
  ((a_c a = FnNone /\ constrained) \/ (a_c a <> FnOther /\ a_x0 a = false)).

(** the calls that terminate the process *)
Definition to_quit {D} (a : args D) : Prop :=
  (a_f a = FnEmpty \/ a_f a = FnOther) \/
  (exists f, a_f a = FnFun f) /\ a_c a = FnOther.

(** order of extended numbers *)
Definition below (a b : xQ) : Prop :=
  match a, b with
  | Fin p, Fin q => (p < q)%Q
  | NInf, (Fin _ | PInf) | Fin _, PInf => True
  | _, _ => False
  end.

(** constraint [i] has two different bounds, both smaller than 1e7 in magnitude *)
Definition two_sided (li ui : list xQ) (i : nat) : Prop :=
  exists l u, nth_error li i = Some l /\ nth_error ui i = Some u /\
  below l u /\ below (Fin (-10000000)) l /\ below u (Fin 10000000).

(** [k] is the number of indices below [n] with property [P] *)
Definition number_of (n : nat) (P : nat -> Prop) (k : nat) : Prop :=
  exists L, NoDup L /\ length L = k /\ forall i, In i L <-> (i < n)%nat /\ P i.

(** inequality constraints are announced *)
Definition has_ineq {D} (a : args D) : Prop := num_of (a_mi a) <> 0%nat.
