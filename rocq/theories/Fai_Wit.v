(** C89: concrete unsuccessful passes. *)
From Coq Require Import List Arith ZArith QArith.
Import ListNotations.
From Verif Require Import QB Book_Model Book_Spec Main_Model Main_Spec Main_Wit Poi_Wit Fai_Spec.
Local Open Scope Q_scope.

(** radius 1, poised set: the trial point is not included *)
Lemma out_once : exists t, failing (pE f_up) (ps f_up 1) 1 0 0 t /\ 2 * delta (sG t) <= 1.
Proof.
  assert (K : exists t, pass (pE f_up) (ps f_up 1) pa = Continue t /\ niter (sN t) = 1%nat /\ 0 < pred (sG t) /\
    ib (sI t) = 0%nat /\ mlast (sA t) = 2%nat /\ s_ind (iS (sI t)) = [0; 1]%nat /\ 2 * delta (sG t) <= 1).
  { eexists. split; [vm_compute; reflexivity|]. repeat split. vm_compute. congruence. }
  destruct K as (t & PS & NI & PP & IB & ML & IND & D). exists t. split; [|exact D].
  eapply fa_out; [apply fa_start|exact PS|rewrite NI; reflexivity|exact PP|rewrite IB, ML; discriminate|].
  rewrite IND, ML. intros [H|[H|[]]]; discriminate.
Qed.

(** room in the set: the trial point is included, and the radius is halved *)
Lemma in_once : exists t, failing (wE (unc f_up) 0 9 100) (su (unc f_up) f_up 9 100) 0 1 0 t /\ delta (sG t) == 1 # 2.
Proof.
  assert (K : exists t, pass (wE (unc f_up) 0 9 100) (su (unc f_up) f_up 9 100) pa = Continue t /\ niter (sN t) = 1%nat /\ 0 < pred (sG t) /\
    ib (sI t) = 0%nat /\ mlast (sA t) = 2%nat /\ s_ind (iS (sI t)) = [0; 1; 2]%nat /\ delta (sG t) == 1 # 2).
  { eexists. split; [vm_compute; reflexivity|]. repeat split. }
  destruct K as (t & PS & NI & PP & IB & ML & IND & D). exists t. split; [|exact D].
  eapply fa_large; [apply fa_start|exact PS|rewrite NI; reflexivity|exact PP|rewrite IB, ML; discriminate| |reflexivity].
  rewrite IND, ML. cbn. auto.
Qed.

(** radius 1e-6: the trial point is included, and the radius stays *)
Lemma stays : exists t, failing (pE f_up) (ps f_up (1 # 1000000)) 0 0 1 t /\ delta (sG t) = 1 # 1000000.
Proof.
  assert (K : exists t, pass (pE f_up) (ps f_up (1 # 1000000)) pa = Continue t /\ niter (sN t) = 1%nat /\ 0 < pred (sG t) /\
    ib (sI t) = 0%nat /\ mlast (sA t) = 2%nat /\ s_ind (iS (sI t)) = [0; 2]%nat /\ delta (sG t) = 1 # 1000000).
  { eexists. split; [vm_compute; reflexivity|]. repeat split. }
  destruct K as (t & PS & NI & PP & IB & ML & IND & D). exists t. split; [|exact D].
  eapply fa_small; [apply fa_start|exact PS|rewrite NI; reflexivity|exact PP|rewrite IB, ML; discriminate| |vm_compute; congruence].
  rewrite IND, ML. cbn. auto.
Qed.

Lemma shrink_refuted : ~ (forall (P : Type) (E : env P), sane E -> 0 <= e_tolf E ->
  forall k0 d0 s0 s k j i t, begins E k0 d0 s0 -> reach E s0 s -> failing E s k j i t ->
  (0 < k + j + i)%nat -> delta (sG t) < delta (sG s)).
Proof.
  intros H. destruct stays as (t & F & D).
  assert (K : delta (sG t) < delta (sG (ps f_up (1 # 1000000)))).
  { refine (H Q (pE f_up) (pE_sane _) _ 2%nat (1 # 1000000) _ _ _ _ _ t (ps_begins _ _ _ _ _) (reach_start _ _) F _);
      [vm_compute; congruence|vm_compute; congruence|vm_compute; congruence|reflexivity|auto]. }
  rewrite D in K. vm_compute in K. discriminate.
Qed.
