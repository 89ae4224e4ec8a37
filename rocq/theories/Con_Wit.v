(** Concrete calls for C75. *)
From Coq Require Import List Arith ZArith QArith Qabs Lqa Lia Bool.
From Verif Require Import QB Book_Model Book_Spec Book_Wit Main_Model Main_Spec Opt_Model Drv_Model Pre_Model Pre_Spec Pre_Wit Sol_Model Sol_Spec Sol_Wit Set_Wit Slk_RunSpec Slk_RunWit Slk_Run Con_Spec.
Import ListNotations.
Local Open Scope Q_scope.

(** one equality and one inequality *)
Definition i75 : input :=
  mkin (mkargs unit (FnFun 0) (FnFun 1) true (Some 1%nat) (Some 1%nat) (Some [Fin 0; Fin 0]) (Some [Fin 0; PInf]) tt) (lim (NInt 5) (NInt 50)) false None None [3] 0.
Definition qclip (v : Q) : Q := if qltb 10 v then 10 else if qltb v (-10) then -10 else v.
(** objective y, constraint values y - 3 and y - 2 *)
Definition u75 (k : nat) (y : list Q) : outcome :=
  mkout (Some (Fin (nth 0 y 0))) (Some [Fin (qclip (nth 0 y 0 - 3)); Fin (qclip (nth 0 y 0 - 2))]).
(** nothing to gain *)
Definition a75 (m : nat) : answers (list Q) :=
  mkans false false false false 0 1 1 0 (fun _ _ _ => NewPt [3 + (1 # 10000000)] 2) None 0 [3] 0 false (repeat 1 m)
    1 1 (-1) false (fun _ => 1) (fun _ => 1) (fun _ => 1).
Definition world75 (m : nat) (u : nat -> list Q -> outcome) : world :=
  mkworld u n1 yes yes (fun k _ => repeat 1 k) false [0] (fun a b => qabs (nth 0 a 0 - nth 0 b 0)) n1 w_sort n1 (fun _ => true)
    (fun s _ => s) (fun _ => a75 m).

Lemma clip_ok v : ~ huge (qclip v).
Proof.
  unfold huge, qclip. destruct (qltb 10 v) eqn:A; [intros [H|H]; vm_compute in H; congruence|].
  destruct (qltb v (-10)) eqn:B; [intros [H|H]; vm_compute in H; congruence|]. qb.
  assert (10 < inject_Z (10 ^ 25)) by reflexivity. set (z := inject_Z (10 ^ 25)) in *. clearbody z. intros [H1|H1]; Lqa.lra.
Qed.
Lemma u75_ok : well_behaved u75 /\ constrained u75.
Proof.
  split.
  - intros k y c v H I. injection H as <-. destruct I as [<-|[<-|[]]]; eexists; (split; [reflexivity|apply clip_ok]).
  - intros k y c H. injection H as <-. discriminate.
Qed.
Lemma w75_kept : slacks_kept (world75 1 u75) 1.
Proof. repeat split. Qed.
Lemma call75 : exists o cl, solve 5 i75 (world75 1 u75) = Some (Gives 0 (Some [3]) cl) /\ validate (i_opts i75) = VDone o /\ slacks_of i75 = Some 1%nat.
Proof. eexists. eexists. split; [vm_compute; reflexivity|]. split; vm_compute; reflexivity. Qed.

(** an equality with the value 1e30 at the start and 0 elsewhere *)
Definition i75h : input :=
  mkin (mkargs unit (FnFun 0) (FnFun 1) true (Some 1%nat) None None None tt) (lim (NInt 5) (NInt 50)) false None None [3] 0.
Definition u75h (k : nat) (y : list Q) : outcome :=
  mkout (Some (Fin (nth 0 y 0))) (Some [Fin (if qeqb (nth 0 y 0) 3 then inject_Z (10 ^ 30) else 0)]).
Lemma huge_call : exists i w y cl, sorts_desc (w_argsort w) /\ constrained (w_user w) /\ solve 5 i w = Some (Gives 0 (Some y) cl) /\
  slacks_of i = Some 0%nat /\ slacks_kept w 0 /\ forall k, o_c (w_user w k y) = Some [Fin (inject_Z (10 ^ 30))].
Proof.
  exists i75h, (world75 0 u75h), [3]. eexists. split; [exact w_sort_ok|]. split; [intros k y c H; injection H as <-; discriminate|].
  split; [vm_compute; reflexivity|]. split; [reflexivity|]. split; [repeat split|]. intros k. reflexivity.
Qed.

Lemma tame59 : tame E59.
Proof. intros k y c v H I. injection H as <-. destruct I as [<-|[]]. exists (1 # 1000). split; [reflexivity|]. intros [H|H]; vm_compute in H; congruence. Qed.
Lemma recorded59 : recorded E59 s59.
Proof.
  intros [|[|i]] y f c H1 H2 H3; cbn in H1, H2, H3; [| |destruct i; discriminate]; injection H1 as <-; injection H2 as <-; injection H3 as <-.
  - exists 0%nat, 0. split; [reflexivity|]. split; [split; [reflexivity|split; [reflexivity|intros [K|[]]; discriminate]]|].
    split; [reflexivity|]. intros K. vm_compute in K. congruence.
  - exists 1%nat, (-1). split; [reflexivity|]. split; [split; [reflexivity|split; [reflexivity|intros [K|[]]; discriminate]]|].
    split; [reflexivity|]. intros K. vm_compute in K. congruence.
Qed.
Lemma run75 : exists s1 s2, begins E59 2 1 s59 /\ reach E59 s59 s1 /\ (length (Xs (sA s59)) < length (Xs (sA s1)))%nat /\ e_me E59 = 1%nat /\
  pass E59 s1 f73 = Return 0 s2 (Fin (-2)) /\ ix (sI s2) == 2.
Proof.
  destruct run73 as (s1 & s2 & PS & _ & X1 & LO & R). exists s1, s2. split; [exact s59_begins|]. split; [exact (low_reach _ _ _ _ _ LO)|].
  vm_compute in PS. injection PS as <-. vm_compute in R. injection R as <-. split; [cbn; lia|]. split; [reflexivity|]. split; [vm_compute; reflexivity|reflexivity].
Qed.
