(** Concrete runs of the initial phase used in the Examples. *)
From Coq Require Import List Arith ZArith QArith Bool Lia Lqa.
Import ListNotations.
From Verif Require Import QB Book_Model Main_Model Main_Spec Pre_Model Pre_Spec.
Local Open Scope Q_scope.

(** sum of the components, no constraints *)
Definition usum (k : nat) (y : list Q) : outcome :=
  mkout (Some (Fin (fold_right Qplus 0 y))) (Some []).
(** one constraint, the first component *)
Definition ucon (k : nat) (y : list Q) : outcome :=
  mkout (Some (Fin (fold_right Qplus 0 y))) (Some [Fin (nth 0 y 0)]).
(** far below -1e25 in the first call only / in all calls *)
Definition udip (k : nat) (y : list Q) : outcome :=
  mkout (Some (Fin (match k with O => - inject_Z (10 ^ 26) | _ => 1 end))) (Some []).
Definition ulow (k : nat) (y : list Q) : outcome :=
  mkout (Some (Fin (- inject_Z (10 ^ 26)))) (Some []).
(** NaN in the third call *)
Definition unan (k : nat) (y : list Q) : outcome :=
  mkout (Some (match k with 2%nat => NaN | _ => Fin 1 end)) (Some []).
Definition n1 (x : list Q) : Q := fold_right (fun a s => qabs a + s) 0 x.
Definition yes (p : list (list Q)) : bool := true.

Lemma int_start_outside :
  exists cl X fX ceX d x, prelim usum n1 yes yes 5 true [Some (1 # 2)] [Some 1] [1] = Some (PReady cl X fX ceX d) /\
    nth_error cl 0 = Some x /\ ~ respects [Some (1 # 2)] [Some 1] x 0.
Proof.
  do 5 eexists. exists [0]. split; [vm_compute; reflexivity|]. split; [reflexivity|].
  intros R. specialize (R (Some (1 # 2)) (Some 1) 0 eq_refl eq_refl eq_refl).
  destruct R as [R _]. specialize (R _ eq_refl). apply R. reflexivity.
Qed.

Lemma int_simplex_outside :
  exists cl X fX ceX d y, prelim usum n1 yes yes 5 true [Some (- (1 # 2))] [None] [0] = Some (PReady cl X fX ceX d) /\
    In y cl /\ ~ respects [Some (- (1 # 2))] [None] y 0.
Proof.
  do 5 eexists. exists [0 - 1]. split; [vm_compute; reflexivity|]. split; [right; left; reflexivity|].
  intros R. specialize (R (Some (- (1 # 2))) None (0 - 1) eq_refl eq_refl eq_refl).
  destruct R as [R _]. specialize (R _ eq_refl). apply R. reflexivity.
Qed.

Lemma gives_up_run : exists cl, prelim ulow n1 yes yes 20 false [None] [None] [1] = Some (PGiveUp cl) /\ length cl = 8%nat.
Proof. eexists. split; [vm_compute; reflexivity|]. reflexivity. Qed.

Lemma give_up_raises :
  exists cl r, prelim ulow n1 yes yes 20 false [None] [None] [1] = Some r /\ r = PGiveUp cl /\
    caller r = Exception_ /\ forall fl, caller r <> ToUser fl.
Proof.
  destruct gives_up_run as (cl & E & _). exists cl, (PGiveUp cl). split; [exact E|].
  split; [reflexivity|]. split; [reflexivity|]. intros fl. discriminate.
Qed.
