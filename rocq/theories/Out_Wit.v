(** Concrete calls used in the Examples about output. *)
From Coq Require Import List Arith ZArith QArith Bool.
Import ListNotations.
From Verif Require Import QB Book_Spec Book_Wit Main_Model Opt_Model Drv_Model Pre_Model Pre_Spec Pre_Wit
  Sol_Model Sol_Spec Sol_Wit Out_Model Out_Spec.
Local Open Scope Q_scope.

(** verbosity and the two limits *)
Definition vlim (v mt ms : num) : opts :=
  mkopts None (Some v) None None None (Some mt) (Some ms) None None None None None None.

Definition vcall (v : Z) : input := icall (vlim (NInt v) (NInt 3) (NInt 50)) [3].

Lemma silent_overwrites : exists o, validate (i_opts (vcall 0)) = VDone o /\ verbose o = Some (NInt 0) /\
  file 5 (vcall 0) (sworld usum (sans [5])) = Some (complete []).
Proof. eexists. split; [vm_compute; reflexivity|]. split; vm_compute; reflexivity. Qed.

(** verbosity 4, no bounds, no constraints, no other options: raises *)
Lemma default_raises : exists o, validate (vlim (NInt 4) (NInt 3) (NInt 50)) = VDone o /\
  printing_raises o (mkextra false false) (count_bounds PInf 1 [None] [None] + 0) = true /\
  printing_raises o (mkextra false false) (count_bounds PInf 1 [Some (- c1e20)] [Some c1e20] + 0) = false.
Proof. eexists. split; [vm_compute; reflexivity|]. split; vm_compute; reflexivity. Qed.

Lemma limit_raises : exists o, validate (vlim (NInt 4) (NInt 3) (NFlt PInf)) = VDone o /\
  printing_raises o (mkextra true true) 1 = true.
Proof. eexists. split; vm_compute; reflexivity. Qed.


(** the values in the lines are not those of the best points *)
Lemma values_move : exists ls, file 5 (vcall 1) (sworld usum (sans [5])) = Some (complete ls) /\
  map l_it ls = [1; 2; 3; 3]%nat /\ map l_ev ls = [2; 3; 4; 5]%nat /\ map l_f ls = [3; 5; 3; 5].
Proof.
  exists [mkline 1 2 3; mkline 2 3 5; mkline 3 4 3; mkline 3 5 5]. split; [vm_compute; reflexivity|]. repeat split.
Qed.
