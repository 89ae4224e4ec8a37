(** C56: a step in which the check of the slacks takes the tangential part back. *)
From Coq Require Import Reals List Arith Lra Lia Bool.
From Verif Require Import RVec RBool ProjGrad_Spec TR_Model TR_Spec TR_Proofs.
Import ListNotations.
Open Scope R_scope.

Definition rest0 (k : nat) (g : vec) (A : mat) (l u : nat -> xR) (D : R) : option (vec * rmsg) := Some (vzero, MsgOther).
Definition slack_only (rows : list vec) : option (nat * mat) := Some (1%nat, fun a _ => if (a =? 1)%nat then 1 else 0).
Definition cg2 (k : nat) (A : mat) (b : vec) (D : R) : option (vec * bool) := Some (fun _ => 2, false).

Lemma rest0_bounds : keeps_bounds rest0.
Proof. intros k g A l u D r m B E. injection E as <- _. exact B. Qed.

(** one variable, one slack between -1 and 1; the solver moves the slack by 2 *)
Lemma taken_back : exists o, solve_con rest0 (fun A => A) slack_only cg2 (fun _ _ => None) 1 1 (fun _ => Fin (-1)) (fun _ => Fin 1)
    (/ 10 ^ 8) (fun _ _ => 0) [0] [vzero] vzero 10 vzero 4 vzero vzero = TrOut o /\
  tr_passes o = 1%nat /\ tr_sl o 0%nat = 0 /\ (exists m, tr_moves o = [m] /\ m 1%nat = 2).
Proof.
  unfold solve_con. set (s := mkst _ _ _ _ _ _ _ _ _ _). 
  assert (SM : 0 < / 10 ^ 7 < 1) by (split; [apply Rinv_0_lt_compat, pow_lt; lra|rewrite <- Rinv_1; apply Rinv_lt_contravar; [rewrite Rmult_1_l; apply pow_lt; lra|apply Rlt_pow_R1; [lra|lia]]]).
  assert (SM5 : / 10 ^ 5 < 1) by (rewrite <- Rinv_1; apply Rinv_lt_contravar; [rewrite Rmult_1_l; apply pow_lt; lra|apply Rlt_pow_R1; [lra|lia]]).
  assert (S8 : 0 < / 10 ^ 8 < 4) by (split; [apply Rinv_0_lt_compat, pow_lt; lra|apply Rle_lt_trans with 1; [rewrite <- Rinv_1; apply Rinv_le_contravar; [lra|apply pow_R1_Rle; lra]|lra]]).
  assert (S16 : 0 < / 10 ^ 16) by apply small16.
  assert (CON : length (s_con s) = 1%nat).
  { unfold s. cbn [s_con]. rewrite app_length, map_length.
    assert (A0 : active0 1 1 (fun _ => Fin (-1)) (fun _ => Fin 1) [0] [vzero] vzero vzero vzero vzero = []).
    { unfold active0. cbn [seq flat_map]. unfold close, vzero.
      rewrite (proj2 (Rltb_false (Rabs (0 - -1)) _)) by (rewrite Rabs_pos_eq by lra; lra).
      rewrite (proj2 (Rltb_false (Rabs (0 - 1)) _)) by (rewrite Rabs_left by lra; lra).
      rewrite !Bool.andb_false_r. reflexivity. }
    rewrite A0. reflexivity. }
  assert (R : exists rp a, restoration rest0 (fun A => A) 1 1 (fun _ => Fin (-1)) (fun _ => Fin 1) vzero 1 s = Some (vzero, rp, a)).
  { unfold restoration. destruct (_ && _); eexists; eexists; reflexivity. }
  destruct R as (rp & act & R).
  assert (T : exists t, tangent slack_only cg2 1 1 (fun _ _ => 0) s vzero = Some (t, false) /\ t 0%nat = 0 /\ t 1%nat = 2).
  { unfold tangent. rewrite CON. eexists. split; [reflexivity|]. unfold mv. cbn. split; ring. }
  destruct T as (t & T & T0 & T1).
  assert (SC : scan (fun _ => Fin (-1)) (fun _ => Fin 1) (/ 10 ^ 8) 1 0 (vadd (vadd (s_x s) vzero) t) = (None, [])).
  { cbn [scan]. unfold under, over, close, vadd, vzero, s. cbn [s_x]. rewrite T0.
    replace (vzero 0%nat + 0 + 0) with 0 by (unfold vzero; ring).
    rewrite (Rabs_pos_eq (0 - -1)), (Rabs_left (0 - 1)) by lra.
    rewrite !(proj2 (Rltb_false (0 - -1) _)) by lra. rewrite (proj2 (Rltb_false _ (0 - 1))) by lra.
    rewrite (proj2 (Rltb_false (- (0 - 1)) _)) by lra. reflexivity. }
  change 10%nat with (S 9). generalize 9%nat as f1. intros f1. cbn [tr_loop]. rewrite R, T, SC.
  match goal with |- context [choose _ _ _ _ ?q _ _ _ _] => set (s2 := q) end.
  assert (CH : choose (fun _ _ => None) 1 [0] 1 s2 (vadd (vadd (s_x s) vzero) t) (vadd vzero t) false [] = ChDone TrZero (s_lm s2) (s_fix s2) (s_con s2) (s_gcon s2)).
  { unfold choose. replace (norm 1 (vadd vzero t)) with 0 by (symmetry; apply norm_zero; intros [|i] Hi; [unfold vadd, vzero; lra|lia]).
    rewrite (proj2 (Rleb_true _ _)) by lra. change (10 * 1 <=? 1)%nat with false. cbn [orb].
    change (s_del s2) with 4. rewrite (proj2 (Rltb_false _ _)) by lra. reflexivity. }
  rewrite CH. eexists. split; [reflexivity|]. cbn [tr_passes tr_sl tr_moves]. split; [reflexivity|]. split.
  - unfold clip. cbn [Nat.eqb rlex xler Nat.add]. unfold vadd, slpart, vzero. cbn [Nat.add]. rewrite T1.
    rewrite (proj2 (Rleb_false (0 + 0 + 2) 1)) by lra. cbn [negb]. rewrite (proj2 (Rleb_true _ _)) by lra. cbn [negb]. lra.
  - eexists. split; [reflexivity|]. unfold vadd, vzero. rewrite T1. lra.
Qed.
