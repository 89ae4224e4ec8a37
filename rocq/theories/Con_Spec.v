(** What the stored constraint values are supposed to be (C75). *)
From Coq Require Import List Arith ZArith QArith Qabs Bool.
Import ListNotations.
From Verif Require Import QB Book_Model Book_Spec Main_Model Main_Spec Pre_Spec Sol_Model Sol_Spec.
Local Open Scope Q_scope.

(** [c] are the constraint values that the user functions answered at [y], in the call that
    also gave the (capped) objective value [f] *)
Definition answers_at {P} (E : env P) (cl : list P) (y : P) (f : Q) (c : list Q) : Prop :=
  exists k v, nth_error cl k = Some y /\ answered E k y v (map Fin c) /\ capped v f.

(** the archive holds, for every point, the values of one and the same call at this point *)
Definition recorded {P} (E : env P) (s : st P) : Prop :=
  forall i y f c, nth_error (Xs (sA s)) i = Some y -> nth_error (fXs (sA s)) i = Some f -> nth_error (ceXs (sA s)) i = Some c ->
  answers_at E (calls (sA s)) y f c.

(** with [m] slacks belonging to the last [m] values: all values are at least [-t], and those
    without slack at most [t] in magnitude *)
Definition within (t : Q) (m : nat) (c : list Q) : Prop :=
  (forall i v, nth_error c i = Some v -> - t <= v) /\
  (forall i v, nth_error c i = Some v -> (i + m < length c)%nat -> Qabs v <= t).

(** answers with [m] slacks *)
Definition keeps_slacks {P} (m : nat) (a : answers P) : Prop := length (a_slplus a) = m.
Definition keeps_size {P} (E : env P) : Prop := forall slp c, length (e_adj E slp c) = length slp.

(** for a complete call *)
Definition well_behaved (user : nat -> list Q -> outcome) : Prop :=
  forall k y c v, o_c (user k y) = Some c -> In v c -> exists q, v = Fin q /\ ~ huge q.
Definition slacks_kept (w : world) (m : nat) : Prop :=
  (forall c, length (w_slk w m c) = m) /\ (forall slp c, length (w_adj w slp c) = length slp) /\ forall k, length (a_slplus (w_ans w k)) = m.
(** the user functions always give at least one constraint value *)
Definition constrained (user : nat -> list Q -> outcome) : Prop :=
  forall k y c, o_c (user k y) = Some c -> c <> [].
