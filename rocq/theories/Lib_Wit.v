(** Instances for the trust-region step with the solvers of the library. *)
From Coq Require Import Reals Lra Psatz Lia List Arith Bool.
From Verif Require Import RVec RBool Tri MS_Model MS_Wit Chol BC_Model BC_Wit Hom_Model Hom_Spec Hom_Wit Lib_Five ProjGrad_Spec CG_Model TR_Model TR_Spec Step_Spec Hess_Model Mult_Model Null_Model Lib_Model Lib_Spec.
Import ListNotations.
Open Scope R_scope.

(** the constraints x0 = 3 and 10^6*x1 = 6, of which the bounds allow neither exactly *)
Definition ce5 : list R := [-3; -6].
Definition ae5 : list vec := [unitv 0; vscal 1000000 (unitv 1)].
Definition lb5 : nat -> xR := fun _ => Fin (-10).
Definition ub5 (i : nat) : xR := if (i =? 0)%nat then Fin 1 else Fin (15 / 1000000).
Definition eig5 (_ : nat) (_ : mat) : bool * vec * mat := (false, vzero, idm).
Definition svd5 (_ _ : nat) (_ : mat) : vec * mat := (vzero, idm).

Lemma eig5_convex : eig_convex eig5.
Proof. intros k A neg d V E _. unfold eig5 in E. congruence. Qed.
Lemma in5 : in_bounds 2 lb5 ub5 vzero.
Proof. intros i Hi. unfold lb5, ub5, vzero. destruct (two_cases i Hi) as [->| ->]; cbn; lra. Qed.

Lemma lag5 i : (i < 2)%nat -> gradlag 2 0 lb5 ub5 ce5 ae5 vzero vzero vzero vzero i = 0.
Proof.
  intros Hi. unfold gradlag. assert (Z : rows_t (map (fun k : nat => vzero (2 + k)%nat) (seq 0 (me ce5))) (gcon0 2 0 ce5 ae5 vzero) i = 0).
  { unfold rows_t, gcon0, ce5, ae5, me. cbn [length seq map combine fold_right fst snd]. unfold vzero. ring. }
  rewrite Z. unfold gx0, vzero. destruct (i <? 2)%nat; destruct (_ || _)%bool; cbn; ring.
Qed.
Lemma act5 : active0 2 0 lb5 ub5 ce5 ae5 vzero vzero vzero vzero = [].
Proof.
  unfold active0. cbn [seq flat_map]. cbv zeta. rewrite !lag5 by lia. unfold lb5, ub5, vzero. cbn [rlex xler Nat.eqb]. num. reflexivity.
Qed.

Lemma step5 pin : exists o, step_lib msw cholx slvx eig5 svd5 pin 0 PInf 0 vzero 2 0 lb5 ub5 (/ 10 ^ 7) (fun _ _ => 0) ce5 ae5 vzero 1 vzero 10 vzero vzero = TrOut o /\
  tr_end o = TrFeasible /\ tr_passes o = 1%nat /\ tr_x o 0%nat = 1 /\ tr_x o 1%nat = 15 / 1000000 /\ tr_rpred o = sqrt 45 - sqrt 85.
Proof.
  unfold step_lib, solve_con. rewrite act5. cbn [map]. rewrite !app_nil_r. cbn [tr_loop].
  unfold restoration. cbn [s_con s_gcon s_x s_del s_rpred]. change (2 + 0)%nat with 2%nat. unfold dim. change (2 + 0)%nat with 2%nat.
  set (g1 := rows_t _ _). set (A1 := rows_gram _).
  assert (C5 : con0 0 ce5 vzero = [-3; -6]) by reflexivity.
  assert (W0 : g1 0%nat = -3) by (unfold g1, rows_t; rewrite C5; unfold gcon0, ae5, unitv, vscal; cbn; ring).
  assert (W1 : g1 1%nat = -6000000) by (unfold g1, rows_t; rewrite C5; unfold gcon0, ae5, unitv, vscal; cbn; ring).
  assert (A00 : A1 0%nat 0%nat = 1) by (unfold A1, rows_gram, gcon0, ae5, unitv, vscal; cbn; ring).
  assert (A01 : A1 0%nat 1%nat = 0) by (unfold A1, rows_gram, gcon0, ae5, unitv, vscal; cbn; ring).
  assert (A10 : A1 1%nat 0%nat = 0) by (unfold A1, rows_gram, gcon0, ae5, unitv, vscal; cbn; ring).
  assert (A11 : A1 1%nat 1%nat = 1000000000000) by (unfold A1, rows_gram, gcon0, ae5, unitv, vscal; cbn; ring).
  set (lo := fun i => xsub (lb5 i) _). set (hi := fun i => xsub (ub5 i) _).
  assert (Z0 : lo 0%nat = Fin (-10)) by (unfold lo, lb5, join, vzero; cbn; f_equal; ring).
  assert (Z1 : lo 1%nat = Fin (-10)) by (unfold lo, lb5, join, vzero; cbn; f_equal; ring).
  assert (Y0 : hi 0%nat = Fin 1) by (unfold hi, ub5, join, vzero; cbn; f_equal; ring).
  assert (Y1 : hi 1%nat = Fin (15 / 1000000)) by (unfold hi, ub5, join, vzero; cbn; f_equal; ring).
  destruct (run5 A1 g1 lo hi A00 A01 A10 A11 W0 W1 Z0 Z1 Y0 Y1) as (b & RB & B0 & B1 & BE).
  pose proof (ng5 g1 W0 W1) as NG. pose proof (tiny_le 14) as T14.
  assert (GT : Rltb (/ 10 ^ 14) (norm 2 g1) = true) by (apply Rltb_true; lra). rewrite GT. cbn [Nat.eqb andb].
  change (cvx_lib eig5 2 A1) with A1. unfold restore_lib. rewrite RB, BE. cbn [fst snd].
  set (rp := 0 + _). unfold tangent. cbn [s_con]. rewrite C5. unfold dim. cbn [length]. change (2 <? 2 + 0)%nat with false. cbv iota.
  set (xn := vadd (vadd _ (bc_s b)) vzero).
  assert (X0 : xn 0%nat = 1) by (unfold xn, vadd, vzero; cbn; rewrite B0; ring).
  assert (X1 : xn 1%nat = 15 / 1000000) by (unfold xn, vadd, vzero; cbn; rewrite B1; ring).
  assert (E7 : / 10 ^ 7 = / 10000000) by (f_equal; ring).
  assert (SC : scan lb5 ub5 (/ 10 ^ 7) 2 0 xn = (None, [0%nat; 1%nat])).
  { cbn [scan]. rewrite X0, X1, E7. unfold under, over, close, lb5, ub5. cbn [Nat.eqb]. replace (1 - 1) with 0 by ring. replace (15 / 1000000 - 15 / 1000000) with 0 by ring.
    rewrite Rabs_R0, (Rabs_pos_eq (1 - -10)), (Rabs_pos_eq (15 / 1000000 - -10)) by lra. num. reflexivity. }
  rewrite SC. cbn beta iota zeta delta [s_x s_con s_gcon s_fix s_g s_del s_slnew s_lm s_rpred s_moves]. unfold choose.
  assert (NS : Rleb (norm 2 (vadd (bc_s b) vzero)) (/ 10 ^ 16) = false).
  { apply Rleb_false. pose proof (tiny_le 16) as T16. 
    assert (NN : norm 2 (vadd (bc_s b) vzero) * norm 2 (vadd (bc_s b) vzero) = 1 + 15 / 1000000 * (15 / 1000000)).
    { rewrite norm_sq. unfold dot, vadd, vzero. cbn. rewrite B0, B1. ring. }
    pose proof (norm_nonneg 2 (vadd (bc_s b) vzero)). nra. }
  rewrite NS. cbn [s_lm s_fix s_con s_gcon]. eexists. split; [reflexivity|]. cbn [tr_end tr_passes tr_x tr_rpred]. repeat split; try assumption.
  unfold rp. rewrite C5.
  assert (RV : rows_v 2 (gcon0 2 0 ce5 ae5 vzero) (bc_s b) = [1; 15]).
  { unfold rows_v, gcon0, ae5, unitv, vscal, dot. cbn. rewrite B0, B1. repeat f_equal; lra. }
  rewrite RV. unfold normL, plusL. cbn. rewrite Rplus_0_l. f_equal; [f_equal; lra|]. f_equal. f_equal. lra.
Qed.


(** answers in every case, zero where the solver meets the hard case *)
Definition mst (j k : nat) (g : vec) (A : mat) (D : R) : option ms_out :=
  match msw j k g A D with Some o => Some o | None => Some (mkms vzero 0 0 0 g 0 0 MsZeroRadius false) end.
Lemma mst_total : ms_total mst.
Proof. intros j k g A D _. unfold mst. destruct (msw j k g A D); discriminate. Qed.
Lemma mst_sound : ms_sound mst ep.
Proof.
  intros j k g A D o SA D0 E. unfold mst in E. destruct (msw j k g A D) as [a|] eqn:W; [injection E as <-; exact (msw_sound j k g A D a SA D0 W)|].
  injection E as <-. unfold answer_sound. cbn [ms_s]. split.
  - rewrite (proj2 (norm_zero k vzero)) by (intros i _; reflexivity). pose proof ep_pos. nra.
  - intros V. exfalso. apply V. intros i _. reflexivity.
Qed.
Definition pin5 (_ : nat) (_ : mat) (_ : list nat) (v : vec) : option vec := Some v.
Lemma pin5_total : pin_total pin5. Proof. intros k M l v. discriminate. Qed.
Lemma svd5_orth : svd_orth svd5.
Proof.
  intros m k A i j Hi Hj. unfold svd5. cbn [snd]. rewrite <- (MS_Wit.idm_orth k i j Hi Hj). apply dot_ext; intros l _; unfold tr, idm; rewrite Nat.eqb_sym; reflexivity.
Qed.
