(** Concrete calls used in the Examples about the final report. *)
From Coq Require Import List Arith ZArith QArith Bool String Lia Lqa.
Import ListNotations.
From Verif Require Import QB Book_Model Book_Spec Book_Wit Main_Model Opt_Model Drv_Model Pre_Model Pre_Spec Pre_Wit
  Sol_Model Sol_Spec Sol_Wit Con_Spec Out_Model Free_Model Rep_Model Rep_Spec.
Local Open Scope Q_scope.

(** verbosity, fout and the two limits *)
Definition rlim (f : option num) (v mt ms : num) : opts :=
  mkopts f (Some v) None None None (Some mt) (Some ms) None None None None None None.

(** one equality constraint, start point 3 *)
Definition rcall (o : opts) : input :=
  mkin (mkargs unit (FnFun 0) (FnFun 1) true (Some 1%nat) None None None tt) o false None None [3] 0.

(** objective and constraint: the variable itself, if it is between -4 and 4 *)
Definition uid (k : nat) (y : list Q) : outcome :=
  let v := if qltb (qabs (nth 0 y 0)) 4 then nth 0 y 0 else 4 in mkout (Some (Fin v)) (Some [Fin v]).
Lemma uid_one : fixed_number uid 1.
Proof. intros k y c [= <-]. reflexivity. Qed.
Lemma uid_ok : well_behaved uid.
Proof.
  intros k y c v [= <-] [<-|[]]. eexists. split; [reflexivity|]. unfold huge.
  destruct (qltb (qabs (nth 0 y 0)) 4) eqn:Q; intros H.
  - apply qltb_iff in Q. assert (K : 4 < inject_Z (10 ^ 25)) by reflexivity. revert K H. generalize (inject_Z (10 ^ 25)). intros b K H.
    unfold qabs in Q. destruct (qleb 0 (nth 0 y 0)) eqn:Z; [apply qleb_iff in Z|apply qleb_false in Z]; lra.
  - destruct H as [H|H]; vm_compute in H; apply H; reflexivity.
Qed.

(** trial point y with a predicted reduction; Lagrangian gradient of norm g *)
Definition rans (y : list Q) (g : Q) : answers (list Q) :=
  mkans false false false false g 0 0 1 (fun _ _ j => NewPt [inject_Z (Z.of_nat j)] (1 # 10)) None 1 y 1 false []
    1 (-1) (-1) false (fun _ => 1) (fun _ => 1) (fun _ => 1).

Definition rworld (u : nat -> list Q -> outcome) (a : answers (list Q)) : world :=
  mkworld u n1 yes yes (fun _ c => c) false [0] (fun a b => qabs (nth 0 a 0 - nth 0 b 0)) n1 w_sort n1 (fun _ => true)
    (fun s _ => s) (fun _ => a).

(** at most one iteration, a few, none *)
Definition one_iter : input := rcall (rlim None (NInt 3) (NInt 1) (NInt 50)).
Definition few_iters : input := rcall (rlim None (NInt 3) (NInt 5) (NInt 50)).
Definition no_iter : input := rcall (rlim None (NInt 3) (NInt 5) (NInt 2)).

Lemma stale_report : solve 5 one_iter (rworld uid (rans [0] 1)) = Some (Gives 5 (Some [0]) [[3]; [2]; [0]]) /\
  report 5 one_iter (rworld uid (rans [0] 1)) = Some [ECode 5 "maximum number of iterations"; EValue 0; ELag (Fin 1); EFeas (Fin 3);
    EIters 1; EEvals 3; EVar 0 0; ECon 0 0].
Proof. split; vm_compute; reflexivity. Qed.

Lemma good_report : solve 5 few_iters (rworld uid (rans [0] 0)) = Some (Gives 0 (Some [0]) [[3]; [2]; [0]]) /\
  report 5 few_iters (rworld uid (rans [0] 0)) = Some [ECode 0 "converged"; EValue 0; ELag (Fin 0); EFeas (Fin 0);
    EIters 2; EEvals 3; EVar 0 0; ECon 0 0].
Proof. split; vm_compute; reflexivity. Qed.

Lemma nan_report : solve 5 no_iter (rworld uid (rans [0] 0)) = Some (Gives 6 (Some [3]) [[3]; [2]]) /\
  report 5 no_iter (rworld uid (rans [0] 0)) = Some [ECode 6 "maximum number of function evaluations"; EValue 3; ELag NaN; EFeas NaN;
    EIters 0; EEvals 2; EVar 0 3; ECon 0 3].
Proof. split; vm_compute; reflexivity. Qed.

Lemma few_opts : exists o, validate (i_opts few_iters) = VDone o /\ louder o 2.
Proof. eexists. split; [vm_compute; reflexivity|]. exists (NInt 3). split; [reflexivity|]. right. exists 3. split; [reflexivity|]. lra. Qed.

(** the printed feasibility belongs to an earlier point *)
Lemma stale : exists fuel i w o y cl es c j, sorts_desc (w_argsort w) /\ well_behaved (w_user w) /\ fixed_number (w_user w) 1 /\
  validate (i_opts i) = VDone o /\ solve fuel i w = Some (Gives 5 (Some y) cl) /\ report fuel i w = Some es /\
  In (EFeas (Fin c)) es /\ In (ECon j 0) es /\ c == 3 /\
  forall k, o_c (w_user w k y) = Some [Fin 0].
Proof.
  exists 5%nat, one_iter, (rworld uid (rans [0] 1)). eexists. exists [0], [[3]; [2]; [0]]. eexists. exists 3, 0%nat.
  split; [exact w_sort_ok|]. split; [|split; [exact uid_one|]].
  - exact uid_ok.
  - split; [vm_compute; reflexivity|]. split; [apply stale_report|]. split; [apply stale_report|].
    split; [cbn; tauto|]. split; [cbn; tauto|]. split; reflexivity.
Qed.
