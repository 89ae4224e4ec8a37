(** C08: counting the changes of the penalty parameter. *)
From Coq Require Import QArith.
From Verif Require Import Main_Model.
Local Open Scope Q_scope.

(** the penalty parameter required by the answers of a pass, cost / (0.7 * reduction), is at most K *)
Definition required_at_most {P : Type} (K : Q) (a : answers P) : Prop :=
  forall b, ~ a_rpred a == 0 -> b * ((7 # 10) * a_rpred a) == a_qcost a -> b <= K.

(** reached by passes whose answers satisfy [Q]; the parameter changed in [k] of them *)
Inductive changed_in {P : Type} (E : env P) (Q : answers P -> Prop) (s0 : st P) : nat -> st P -> Prop :=
| ch_start : changed_in E Q s0 0 s0
| ch_same k s a s' : changed_in E Q s0 k s -> Q a -> pass E s a = Continue s' ->
    sigma (sG s') = sigma (sG s) -> changed_in E Q s0 k s'
| ch_more k s a s' : changed_in E Q s0 k s -> Q a -> pass E s a = Continue s' ->
    sigma (sG s') <> sigma (sG s) -> changed_in E Q s0 (S k) s'.
