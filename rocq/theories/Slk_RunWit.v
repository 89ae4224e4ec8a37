(** A run with a slack that stays zero. *)
From Coq Require Import List Arith QArith Qabs Bool Lia.
From Verif Require Import QB Book_Model Book_Spec Main_Model Main_Spec Main_Wit Set_Wit Slk_RunSpec.
Import ListNotations.
Local Open Scope Q_scope.

Definition w73 : answers Q :=
  mkans false false false false 1 1 1 1 (fun _ _ _ => NoPt) None 1 2 1 false [0]
    1 (-1) (-1) false (fun _ => 1) (fun _ => 1) (fun _ => 1).
Definition f73 : answers Q :=
  mkans false false false false 0 0 0 1 (fun _ _ _ => NoPt) None 1 2 0 false [0]
    1 (-1) (-1) false (fun _ => 1) (fun _ => 1) (fun _ => 1).

Lemma adjusts73 : adjusts E59.
Proof. intros slp cc. split; [reflexivity|]. intros q _ Z _. exact Z. Qed.

Lemma run73 : exists s1 s2, pass E59 s59 w73 = Continue s1 /\ ix (sI s59) == 0 /\ ix (sI s1) == 2 /\ low E59 1 0 s59 s1 /\ pass E59 s1 f73 = Return 0 s2 (Fin (-2)).
Proof.
  eexists. eexists. split; [vm_compute; reflexivity|]. split; [reflexivity|]. split; [reflexivity|]. split.
  - eapply low_pass with (a := w73); [apply low_start|reflexivity|reflexivity|vm_compute; reflexivity|vm_compute; discriminate].
  - vm_compute. reflexivity.
Qed.
