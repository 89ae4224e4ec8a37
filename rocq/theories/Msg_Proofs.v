(** The message of the restoration solver is never recognised. *)
From Coq Require Import Reals Lra Lia List Arith Bool String.
From Verif Require Import RVec RBool Tri MS_Model ProjGrad_Spec BC_Model TR_Model Msg_Model TR_Spec Step_Spec Step_Wit Lib_Model Lib_Spec Msg_Spec.
Import ListNotations.
Open Scope R_scope.

Lemma m_other m : may_say m -> classify m = MsgOther.
Proof.
  intros [H|(t & [E|E])]; [|rewrite E; reflexivity|rewrite E; reflexivity].
  repeat (destruct H as [<-|H]; [reflexivity|]). destruct H.
Qed.
Lemma m_text t : may_say (bc_text t).
Proof. left. destruct t; cbn; tauto. Qed.

Section M.
Variables (ms : nat -> nat -> vec -> mat -> R -> option ms_out) (chol : nat -> mat -> option mat) (slv : nat -> mat -> vec -> option vec).
Lemma m_lib k g A l u D r m : restore_lib ms chol slv k g A l u D = Some (r, m) -> m = MsgOther.
Proof.
  unfold restore_lib. destruct (Hom_Model.solve_bcx _ _ _ _ _ _ _ _ _) as [[o|]|]; try discriminate. intros H. injection H as _ <-.
  apply m_other, m_text.
Qed.

Lemma m_active eig svd pin tol oinf dxmin gi n nsl lb ub thr M0 ce ae sl fuel x delta g lm L w o :
  List.length ae = List.length ce -> (nsl <= List.length ce)%nat -> lag_grad n lb ub (List.length ce) ae x g lm L ->
  (forall i, (i < n)%nat -> held_count lb ub x L w i) ->
  step_lib ms chol slv eig svd pin tol oinf dxmin gi n nsl lb ub thr M0 ce ae sl fuel x delta g lm = TrOut o ->
  exists r a, restores (restore_lib ms chol slv) (cvx_lib eig (n + nsl)) n nsl lb ub ce ae sl w x delta r a /\
    tr_rpred o = con_length n nsl ce ae sl w vzero - con_length n nsl ce ae sl w r /\
    (tr_actr o = true <-> tr_passes o = 1%nat /\ / 10 ^ 14 < norm (n + nsl) (lsq_grad n nsl ce ae sl) /\ delta - norm n r < / 10 ^ 8).
Proof.
  intros LA LS HL HW E. destruct (d_rpred _ _ _ _ _ _ _ _ _ _ _ _ _ _ _ _ _ _ _ L w o LA LS HL HW E) as (r & a & R1 & R2 & R3).
  exists r, a. split; [exact R1|]. split; [exact R2|]. rewrite R3.
  destruct R1 as [(G & _ & ->)|(G & h & A & z & m & _ & _ & _ & _ & RL & ->)].
  - split; [intros (_ & [Q|[Q _]]); discriminate|]. intros (_ & Q & _). lra.
  - apply m_lib in RL. subst m. split.
    + intros (P & [Q|[_ Q]]); [discriminate|auto].
    + intros (P & _ & Q). auto.
Qed.
End M.
