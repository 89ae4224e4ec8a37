(** Specification for slacks that are zero during a run. *)
From Coq Require Import List Arith QArith.
From Verif Require Import Main_Model.
Import ListNotations.
Local Open Scope Q_scope.

Section RunSpec.
Context {P : Type}.
Variable E : env P.

(** value of the inequality with slack [q], of [m] slacks *)
Definition inequality (m q : nat) (c : list Q) : Q := nth (length c - m + q) c 0.

(** what the main loop does with the slacks of an accepted step: a zero stays zero unless the
    value of the inequality is above 1/100 *)
Definition adjusts : Prop := forall slp c, length (e_adj E slp c) = length slp /\
  forall q, (q < length slp)%nat -> nth q slp 0 == 0 -> inequality (length slp) q c <= 1 # 100 -> nth q (e_adj E slp c) 0 == 0.

(** reached from [s0] by passes whose steps keep the slack [q] of [m] at zero, and at whose ends
    the value of its inequality is at most 1/100 *)
Inductive low (m q : nat) (s0 : st P) : st P -> Prop :=
| low_start : low m q s0 s0
| low_pass s a s' : low m q s0 s -> length (a_slplus a) = m -> nth q (a_slplus a) 0 == 0 -> pass E s a = Continue s' ->
    inequality m q (ince (sN s')) <= 1 # 100 -> low m q s0 s'.
End RunSpec.
