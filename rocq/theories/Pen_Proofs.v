(** C08: the penalty parameter stays bounded if the required values do. *)
From Coq Require Import List Arith ZArith QArith Qpower Lqa Lia.
From Verif Require Import QB Main_Model Main_Spec Main_Proofs Main_Proofs2 Main_Proofs3 Main_More Pen_Spec.
Local Open Scope Q_scope.

Section Pen.
Context {P : Type}.
Variable E : env P.
Hypothesis SN : sane E.

Lemma changed_reach Q s0 k s : changed_in E Q s0 k s -> reach E s0 s.
Proof. intros H. induction H; [constructor|econstructor; eauto|econstructor; eauto]. Qed.

Lemma bounded k0 d0 s0 K k s : begins E k0 d0 s0 -> changed_in E (required_at_most K) s0 k s ->
  (sigma (sG s) <= 1 \/ sigma (sG s) <= (3 # 2) * K) /\ (3 # 2) ^ Z.of_nat k <= sigma (sG s).
Proof.
  intros B H. induction H as [|k s a s' H IH QA PS SS|k s a s' H IH QA PS SS].
  - destruct (begins_facts E _ _ _ B) as (S0 & _).
    assert (S1 : sigma (sG s0) = 1) by apply (begins_facts E _ _ _ B).
    rewrite S1. split; [left; apply Qle_refl|]. cbn. apply Qle_refl.
  - rewrite SS. exact IH.
  - pose proof (changed_reach _ _ _ _ H) as R.
    destruct (penalty E SN _ _ _ _ _ _ B R PS) as (_ & S1 & [C|C] & _); [contradiction|].
    destruct (penalty_rule E SN _ _ _ _ _ _ B R PS) as (Z0 & RL & _).
    destruct IH as (IH1 & IH2). split.
    + destruct (Qeq_dec (a_rpred a) 0) as [Z|Z]; [apply Z0 in Z; contradiction|].
      assert (HB : a_qcost a / ((7 # 10) * a_rpred a) * ((7 # 10) * a_rpred a) == a_qcost a).
      { field. auto. }
      pose proof (QA _ Z HB) as LE. destruct (RL _ Z HB) as [(_ & C2)|(C1 & L)]; [contradiction|].
      right. set (b := a_qcost a / ((7 # 10) * a_rpred a)) in *. unfold larger in L. lra.
    + rewrite Nat2Z.inj_succ. unfold Z.succ. rewrite Qpower_plus by discriminate.
      change ((3 # 2) ^ 1) with (3 # 2). lra.
Qed.

(** so there are only finitely many changes, and none is needed above 1.5 * K *)
Lemma bounded_count k0 d0 s0 K k s : begins E k0 d0 s0 -> changed_in E (required_at_most K) s0 k s ->
  (3 # 2) ^ Z.of_nat k <= 1 \/ (3 # 2) ^ Z.of_nat k <= (3 # 2) * K.
Proof. intros B H. destruct (bounded _ _ _ _ _ _ B H) as ([L|L] & M); [left|right]; lra. Qed.
End Pen.
