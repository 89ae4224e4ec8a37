(** Slacks that are zero during a run. *)
From Coq Require Import List Arith QArith Qabs Lqa Lia Bool.
From Verif Require Import QB Book_Model Book_Spec Main_Model Main_Spec Main_Proofs Main_Proofs2 Main_Proofs3 Main_More Set_Proofs Slk_RunSpec.
Import ListNotations.
Local Open Scope Q_scope.

Section Run.
Context {P : Type}.
Variable E : env P.
Hypothesis SN : sane E.

Lemma low_reach m q s0 s : low E m q s0 s -> reach E s0 s.
Proof. induction 1; [constructor|econstructor; eassumption]. Qed.

Ltac cases := repeat match goal with |- context [match ?x with _ => _ end] => destruct x end.
Lemma fin_not0 (a : answers P) A I N G s' f : finish_rej a A I N G <> Return 0 s' f.
Proof. unfold finish_rej. cases; discriminate. Qed.
Lemma red_not0 a A I N G fxp s' f : reduce E a A I N G fxp <> Return 0 s' f.
Proof. unfold reduce. destruct (_ || _)%bool; [discriminate|apply fin_not0]. Qed.
Lemma rej_not0 a A I N G su fxp s' f : reject E a A I N G su fxp <> Return 0 s' f.
Proof. unfold reject. cases; first [discriminate|apply fin_not0|apply red_not0]. Qed.
Lemma acc_not0 a A I N G rho fxp s' f : accept E a A I N G rho fxp <> Return 0 s' f.
Proof. unfold accept. cases; first [discriminate|apply rej_not0]. Qed.
Lemma step_not0 s a s' f : step E s a <> Return 0 s' f.
Proof. unfold step. cases; first [discriminate|apply rej_not0|apply acc_not0]. Qed.

Lemma ret_sl s a s' f : pass E s a = Return 0 s' f -> sl (sG s') = sl (sG s).
Proof.
  unfold pass. destruct (_ <=? _)%nat; [discriminate|]. destruct (_ <=? _)%nat; [discriminate|]. destruct (a_exc1 a); [discriminate|].
  destruct (_ || _ || _)%bool; [|intros H; exfalso; exact (step_not0 _ _ _ _ H)].
  destruct (_ && _)%bool; [intros H; injection H as <- _; reflexivity|].
  match goal with |- context [improve E ?s1 a] => destruct (improve E s1 a) as [s2|fl s2 v|] eqn:IM end; [intros H; exfalso; exact (step_not0 _ _ _ _ H)| |discriminate].
  intros H. injection H as -> -> _. unfold improve in IM.
  repeat (match type of IM with context [match ?x with _ => _ end] => destruct x end; try discriminate);
    injection IM as <- _; reflexivity.
Qed.

Lemma low_zero k0 d0 s0 s m q : begins E k0 d0 s0 -> adjusts E -> e_me E <> 0%nat -> length (sl (sG s0)) = m -> (q < m)%nat -> nth q (sl (sG s0)) 0 == 0 ->
  low E m q s0 s -> length (sl (sG s)) = m /\ nth q (sl (sG s)) 0 == 0.
Proof.
  intros B AD ME L0 Hq Z0 LO. induction LO as [|s a s' LO IH LA ZA PS V]; [auto|]. destruct IH as [IL IZ].
  pose proof (low_reach _ _ _ _ LO) as R. destruct (Nat.eq_dec (ib (sI s')) (mlast (sA s'))) as [Q|Q].
  - rewrite (new_slacks E SN _ _ _ _ _ _ B R PS Q ME) by (intros X; rewrite X in IL; cbn in IL; lia).
    destruct (AD (a_slplus a) (ince (sN s'))) as [A1 A2]. rewrite A1. split; [exact LA|]. rewrite LA in A2. apply A2; assumption.
  - rewrite (slacks E SN _ _ _ _ _ _ B R PS Q). auto.
Qed.

Lemma low_exit k0 d0 s0 s a s' f m q : begins E k0 d0 s0 -> adjusts E -> e_me E <> 0%nat -> length (sl (sG s0)) = m -> (q < m)%nat -> nth q (sl (sG s0)) 0 == 0 ->
  low E m q s0 s -> pass E s a = Return 0 s' f -> (m <= length (ince (sN s')))%nat ->
  Qabs (inequality m q (ince (sN s'))) <= 100 * e_tolf E.
Proof.
  intros B AD ME L0 Hq Z0 LO PS LC. destruct (low_zero _ _ _ _ _ _ B AD ME L0 Hq Z0 LO) as [SL SZ].
  destruct (certificate E SN _ _ _ _ _ _ _ B (low_reach _ _ _ _ LO) PS) as ((t & T & _ & TF & _) & _ & RS).
  specialize (RS (length (ince (sN s')) - m + q)%nat ltac:(lia)). unfold residual in RS. rewrite (ret_sl _ _ _ _ PS), SL in RS.
  destruct (Nat.ltb_spec (length (ince (sN s')) - m + q) (length (ince (sN s')) - m)); [lia|].
  replace (length (ince (sN s')) - m + q - (length (ince (sN s')) - m))%nat with q in RS by lia. unfold inequality.
  set (c := nth _ (ince (sN s')) 0) in *. assert (EQ : c - nth q (sl (sG s)) 0 * nth q (sl (sG s)) 0 == c) by (rewrite SZ; ring).
  rewrite EQ in RS. pose proof (Qabs_nonneg c). destruct T as [T|T]; rewrite T in TF; lra.
Qed.
End Run.
