(** A call of the bound-constrained solver that raises its objective. *)
From Coq Require Import Reals Lra Psatz Lia List Arith Bool.
From Verif Require Import RVec RBool Tri ProjGrad_Spec MS_Model MS_Spec MS_Proofs MS_More MS_Wit Chol BC_Model BC_Spec BC_Proofs BC_More BC_Wit Hom_Model Hom_Spec Hom_Proofs Hom_More Hom_Len Hom_Next Hom_One Hom_Fin Hom_Wit.
Import ListNotations.
Open Scope R_scope.

(** two variables: the first is stopped by its bound, the second sits 9e-6 in front of its bound
    and is moved to it, at a cost larger than all that was gained *)
Section Five.
Variables (H : mat) (g : vec) (lo hi : nat -> xR).
Hypothesis H00 : H 0%nat 0%nat = 1.
Hypothesis H01 : H 0%nat 1%nat = 0.
Hypothesis H10 : H 1%nat 0%nat = 0.
Hypothesis H11 : H 1%nat 1%nat = 1000000000000.
Hypothesis G0 : g 0%nat = -3.
Hypothesis G1 : g 1%nat = -6000000.
Hypothesis L0 : lo 0%nat = Fin (-10).
Hypothesis L1 : lo 1%nat = Fin (-10).
Hypothesis U0 : hi 0%nat = Fin 1.
Hypothesis U1 : hi 1%nat = Fin (15 / 1000000).

Lemma sym5 : symmetric 2 H.
Proof. intros i j Hi Hj. destruct (two_cases i Hi) as [->| ->], (two_cases j Hj) as [->| ->]; congruence. Qed.
Lemma symf5 : symmetric 2 (sub_mat fr H).
Proof. intros i j Hi Hj. destruct (two_cases i Hi) as [->| ->], (two_cases j Hj) as [->| ->]; unfold sub_mat; cbn; congruence. Qed.
Lemma pd5 lam : 0 <= lam -> shift_pd 2 (sub_mat fr H) lam.
Proof.
  intros LA v NV. unfold quad, dot, mv, sub_mat. cbn. rewrite H00, H01, H10, H11.
  destruct (Req_EM_T (v 1%nat) 0) as [A|A].
  - assert (B : v 0%nat <> 0) by (intros B; apply NV; intros i Hi; destruct (two_cases i Hi) as [->| ->]; [exact B|exact A]). rewrite A. nra.
  - assert (0 < v 1%nat * v 1%nat) by nra. nra.
Qed.
Definition z5 : vec := fun i => if (i =? 0)%nat then 3 else 6 / 1000000.
Lemma ans5 j : exists o, msw j 2 (sub_vec fr g) (sub_mat fr H) 10 = Some o /\ veq 2 (ms_s o) z5 /\ ms_lambda o = 0 /\ ms_hard o = false.
Proof.
  apply (msw_newton j 2 (sub_vec fr g) (sub_mat fr H) 10 z5).
  - exact symf5.
  - lra.
  - replace (norm 2 (sub_vec fr g) ^ 2) with (norm 2 (sub_vec fr g) * norm 2 (sub_vec fr g)) by ring. rewrite norm_sq. unfold dot, sub_vec. cbn -[pow]. rewrite G0, G1. pose proof (tiny_le 12). lra.
  - intros v NV. pose proof (pd5 0 ltac:(lra) v NV). lra.
  - intros i Hi. destruct (two_cases i Hi) as [->| ->]; unfold mv, sub_mat, sub_vec, z5; cbn; rewrite ?H00, ?H01, ?H10, ?H11, ?G0, ?G1; lra.
  - unfold norm, dot, z5. cbn. apply Rle_trans with (sqrt (10 * 10)); [apply sqrt_le_1_alt; lra|rewrite sqrt_square; lra].
Qed.

Lemma big5 : bc_eps = / 100000 /\ bc_tiny = / 10000000000.
Proof. unfold bc_eps, bc_tiny. split; f_equal; ring. Qed.

(** a trial: the step *)
Lemma at5 st act : 0 <= h_lam st -> h_hard st = false -> exists d,
  d 0%nat * (1 + h_lam st) = 3 /\ d 1%nat * (1000000000000 + h_lam st) = 6000000 /\
  follows lo hi fr vzero st true act d (hom_trial (cholx 2) (slvx 2) lo hi fr (sub_mat fr H) (sub_vec fr g) vzero st true act).
Proof.
  intros LA HH.
  destruct (trial_cases (cholx 2) (slvx 2) lo hi fr (sub_mat fr H) (sub_vec fr g) vzero (cholx_exact 2) (slvx_exact 2) symf5 st true act)
    as [([X|X] & _)|(_ & _ & d & SD & F)]; [congruence|exfalso; apply X; exact (pd5 _ LA)|].
  exists d. split; [|split; [|exact F]].
  - pose proof (SD 0%nat ltac:(cbn; lia)) as S0. unfold mv, sub_mat, sub_vec in S0. cbn in S0. rewrite H00, H01, G0 in S0. lra.
  - pose proof (SD 1%nat ltac:(cbn; lia)) as S1. unfold mv, sub_mat, sub_vec in S1. cbn in S1. rewrite H10, H11, G1 in S1. lra.
Qed.
Lemma th5 : ms_theta = / 10000000000000.
Proof. unfold ms_theta. try (f_equal; ring). Qed.

(** the first trial *)
Lemma first5 st act : h_lam st = 0 -> h_hard st = false -> h_back st = false -> 10 <= h_upper st <= 10000000000000 ->
  exists iu il, hom_trial (cholx 2) (slvx 2) lo hi fr (sub_mat fr H) (sub_vec fr g) vzero st true act = TNext (mkh 0 (h_upper st) 2 false false iu il) true act.
Proof.
  intros L HH HB UP. destruct big5 as [E5 E10]. pose proof th5 as T13.
  pose proof (cholx_exact 2) as CE. pose proof (slvx_exact 2) as SE. pose proof symf5 as SH.
  unfold hom_trial. rewrite HH, L. destruct (cholx 2 (shifted (sub_mat fr H) 0)) as [U|] eqn:CU.
  2:{ exfalso. apply (chol_none 2 (cholx 2) (sub_mat fr H) 0 CE SH CU). exact (pd5 0 ltac:(lra)). }
  pose proof (proj1 (CE _ (symmetric_shifted 2 (sub_mat fr H) 0 SH)) U CU) as (UPP & DN & SQ).
  assert (TT : triangle 2 (tr U)) by (apply triangle_tr; split; [right; exact UPP|exact DN]).
  destruct (SE (tr U) (sub_vec fr g) TT) as (y & Ey & _). destruct (SE (fun i j => - U i j) y (neg_triangle 2 U UPP DN)) as (d & Ed & _).
  rewrite Ey, Ed. pose proof (chol_solution 2 (cholx 2) (slvx 2) (sub_mat fr H) (sub_vec fr g) 0 U y d CE SE SH CU Ey Ed) as SD.
  assert (D0 : d 0%nat = 3).
  { pose proof (SD 0%nat ltac:(lia)) as S0. unfold mv, sub_mat, sub_vec in S0. cbn in S0. rewrite H00, H01, G0 in S0. lra. }
  assert (D1 : d 1%nat = 6 / 1000000).
  { pose proof (SD 1%nat ltac:(lia)) as S1. unfold mv, sub_mat, sub_vec in S1. cbn in S1. rewrite H10, H11, G1 in S1. lra. }
  fold (cleared lo hi fr vzero d). fold (after lo hi fr vzero d). cbv zeta.
  assert (CZ : forall i, (i < 2)%nat -> crit_zero lo hi (vadd vzero (expand fr d)) i = false).
  { intros i Hi. unfold crit_zero, u_crit, l_crit, above, below. rewrite (at4 d i Hi).
    destruct (two_cases i Hi) as [->| ->]; rewrite ?U0, ?U1, ?L0, ?L1, ?D0, ?D1; cbn [xsub xler rlex]; rewrite E5, E10; num; reflexivity. }
  assert (CL : forall k, (k < 2)%nat -> cleared lo hi fr vzero d k = d k).
  { intros k Hk. unfold cleared. destruct (two_cases k Hk) as [->| ->]; cbn [nth fr]; rewrite CZ by lia; reflexivity. }
  assert (AF : forall i, (i < 2)%nat -> after lo hi fr vzero d i = d i).
  { intros i Hi. unfold after. rewrite (CZ i Hi), andb_false_r. apply at4. exact Hi. }
  set (sd := after lo hi fr vzero d) in *. set (dp := cleared lo hi fr vzero d) in *.
  assert (S0 : sd 0%nat = 3) by (rewrite AF by lia; exact D0). assert (S1 : sd 1%nat = 6 / 1000000) by (rewrite AF by lia; exact D1).
  assert (P0 : dp 0%nat = 3) by (rewrite CL by lia; exact D0). assert (P1 : dp 1%nat = 6 / 1000000) by (rewrite CL by lia; exact D1).
  clearbody sd dp.
  assert (OU : out_u hi fr sd = [0%nat]).
  { unfold out_u, comp. cbn [length seq filter nth fr]. rewrite U0, U1, S0, S1. cbn [rlex]. num. reflexivity. }
  assert (OL : out_l lo fr sd = []).
  { unfold out_l, comp. cbn [length seq filter nth fr]. rewrite L0, L1, S0, S1. cbn [xler]. num. reflexivity. }
  rewrite OU, OL. cbn [target argmax arg_max tl hd]. unfold comp. cbn [nth fr]. rewrite U0. cbn [xval].
  assert (NI : existsb (out_by lo hi bc_eps sd) fr = true).
  { cbn [existsb fr]. unfold out_by. rewrite U0, L0, S0. cbn [rlex xler]. rewrite E5. num. reflexivity. }
  rewrite NI. cbn [negb andb]. rewrite HB. cbn [orb negb]. rewrite andb_true_r.
  rewrite (CZ 0%nat ltac:(lia)), D0. change (vzero 0%nat) with 0. unfold rsign. rewrite (Rabs_pos_eq (1 - 0)) by lra. rewrite (Rabs_pos_eq 3) by lra. num.
  assert (RE : Reqb 1 1 = true) by (apply Reqb_true; reflexivity). rewrite RE. cbn [negb].
  destruct (SE (tr U) (unitv 0) TT) as (w1 & E1 & _). destruct (SE (tr U) dp TT) as (w2 & E2 & _).
  destruct (newton_den (cholx 2) (slvx 2) fr (sub_mat fr H) CE SE SH 0 U 0 dp w1 w2 CU ltac:(cbn; lia) E1 E2) as (q & Q1 & Q2).
  rewrite E1, E2. change (length fr) with 2%nat in *. rewrite Q2.
  assert (QZ : q 0%nat = 3).
  { pose proof (Q1 0%nat ltac:(lia)) as A. unfold mv, sub_mat in A. cbn in A. rewrite H00, H01, P0 in A. lra. }
  rewrite QZ. rewrite (proj2 (Reqb_false (3 * 3) 0)) by lra.
  replace (0 + (3 - (1 - 0)) / (1 - 0) * (3 ^ 2 / (3 * 3))) with 2 by field. num. unfold hom_keep. rewrite T13. cbn [andb].
  num. do 2 eexists. reflexivity.
Qed.

(** the second trial *)
Lemma second5 st act : h_lam st = 2 -> h_hard st = false ->
  exists s', hom_trial (cholx 2) (slvx 2) lo hi fr (sub_mat fr H) (sub_vec fr g) vzero st true act = TBreak s' /\ s' 0%nat = 1 /\ s' 1%nat = 15 / 1000000.
Proof.
  intros L HH. destruct big5 as [E5 E10]. destruct (at5 st act ltac:(lra) HH) as (d & D0 & D1 & F). rewrite L in D0, D1.
  assert (V0 : d 0%nat = 1) by lra. assert (V1 : 5 / 1000000 < d 1%nat <= 6 / 1000000) by lra. clear D0 D1.
  assert (CZ : forall i, (i < 2)%nat -> crit_zero lo hi (vadd vzero (expand fr d)) i = false).
  { intros i Hi. unfold crit_zero, u_crit, l_crit, above, below. rewrite (at4 d i Hi).
    destruct (two_cases i Hi) as [->| ->]; rewrite ?U0, ?U1, ?L0, ?L1, ?V0; cbn [xsub xler rlex]; rewrite E5, E10; num; reflexivity. }
  assert (AF : forall i, (i < 2)%nat -> after lo hi fr vzero d i = d i).
  { intros i Hi. unfold after. rewrite (CZ i Hi), andb_false_r. apply at4. exact Hi. }
  assert (UA : forall i, (i < 2)%nat -> u_act hi (after lo hi fr vzero d) i = true).
  { intros i Hi. unfold u_act, near. rewrite (AF i Hi). destruct (two_cases i Hi) as [->| ->]; rewrite ?U0, ?U1; cbn [xsub xabs_le]; rewrite E5.
    - rewrite V0, Rabs_pos_eq by lra. num. reflexivity.
    - rewrite Rabs_pos_eq by lra. num. reflexivity. }
  assert (LA : forall i, (i < 2)%nat -> l_act lo (after lo hi fr vzero d) i = false).
  { intros i Hi. unfold l_act, near. rewrite (AF i Hi). destruct (two_cases i Hi) as [->| ->]; rewrite ?L0, ?L1; cbn [xsub xabs_le]; rewrite E5.
    - rewrite V0, Rabs_left by lra. num. reflexivity.
    - rewrite Rabs_left by lra. num. reflexivity. }
  assert (NI : near_in lo hi fr vzero d = true).
  { unfold near_in. set (sd := after lo hi fr vzero d) in *. cbn [existsb fr]. unfold out_by. rewrite (AF 0%nat), (AF 1%nat), U0, U1, L0, L1, V0 by lia. cbn [rlex xler]. rewrite E5. num. reflexivity. }
  assert (TO : touching lo hi fr vzero d = true).
  { unfold touching. set (sd := after lo hi fr vzero d) in *. cbn [existsb fr]. rewrite (UA 0%nat) by lia. reflexivity. }
  destruct F as [(_ & _ & F)|(F & _)]; [|rewrite NI, TO in F; discriminate]. rewrite F. eexists. split; [reflexivity|].
  unfold move. set (sd := after lo hi fr vzero d) in *. change (memb 0 fr) with true. change (memb 1 fr) with true. cbv iota.
  rewrite !LA, !UA, U0, U1 by lia. split; reflexivity.
Qed.

Lemma hn5 : 0 <= ms_hn 2 H <= 1000000000000.
Proof.
  split; [apply hn_nonneg|]. unfold ms_hn. apply Rle_trans with (norminf 2 H); [apply Rmin_l|].
  unfold norminf. cbn [seq fold_left rsum]. rewrite H00, H01, H10, H11, Rabs_R0, !(Rabs_pos_eq 1), !(Rabs_pos_eq 1000000000000) by lra. unfold Rmax. repeat (destruct (Rle_dec _ _)); lra.
Qed.
Lemma ng5 : 10 <= norm 2 g <= 6000001.
Proof.
  assert (E : norm 2 g * norm 2 g = 36000000000009) by (rewrite norm_sq; unfold dot; cbn; rewrite G0, G1; lra). pose proof (norm_nonneg 2 g). split; nra.
Qed.

(** the whole call *)
Lemma run5 : exists o, solve_bcx msw cholx slvx 2 H lo hi g 10 = Some (Some o) /\ bc_s o 0%nat = 1 /\ bc_s o 1%nat = 15 / 1000000 /\ bc_end o = BcNoFree.
Proof.
  destruct big5 as [E5 E10]. pose proof hn5 as HN. pose proof ng5 as NG. destruct (ans5 1) as (m & E & V & L & HH).
  pose proof (V 0%nat ltac:(lia)) as V0. pose proof (V 1%nat ltac:(lia)) as V1. unfold z5 in V0, V1. cbn in V0, V1.
  assert (GC : filter (g_crit lo hi g) (seq 0 2) = []).
  { cbn [seq filter]. unfold g_crit. rewrite L0, L1, U0, U1, G0, G1. unfold xabs_le, xler. rewrite E10, !(Rabs_left (-10)) by lra. num. reflexivity. }
  unfold solve_bcx. rewrite GC. change (complement 2 []) with fr. cbn [bcx_outer length fr]. fold fr.
  set (sa := vadd vzero (expand fr (ms_s m))).
  assert (SA0 : sa 0%nat = 3) by (unfold sa; rewrite at4 by lia; exact V0).
  assert (SA1 : sa 1%nat = 6 / 1000000) by (unfold sa; rewrite at4 by lia; exact V1).
  assert (CALL : ms_calls (ms_part msw) 2 H lo hi 2 0 vzero g 10 g [] fr =
     CGo [] fr sa (vadd g (expand fr (ms_gplus m))) 1).
  { cbn [ms_calls]. change (length fr) with 2%nat. unfold ms_part at 1. rewrite E. fold sa.
    assert (F1 : forall i, (i < 2)%nat -> u_crit hi sa i = false).
    { intros i Hi. unfold u_crit, above. destruct (two_cases i Hi) as [->| ->]; rewrite ?U0, ?U1, ?SA0, ?SA1; cbn [xsub xler]; rewrite E5, E10; num; reflexivity. }
    assert (F2 : forall i, (i < 2)%nat -> l_crit lo sa i = false).
    { intros i Hi. unfold l_crit, below. destruct (two_cases i Hi) as [->| ->]; rewrite ?L0, ?L1, ?SA0, ?SA1; cbn [xsub xler rlex]; rewrite E5, E10; num; reflexivity. }
    cbn [filter fr]. rewrite !F1, !F2 by lia. reflexivity. }
  rewrite CALL.
  assert (OUT : existsb (out_by lo hi 0 sa) fr = true).
  { cbn [existsb fr]. unfold out_by. rewrite U0, L0, SA0. cbn [rlex xler]. num. reflexivity. }
  rewrite OUT. unfold search_of. change (length fr) with 2%nat. rewrite E, L, HH.
  set (act := existsb _ fr).
  set (st := hom_start lo hi fr vzero 2 g H 0 false sa).
  assert (UP : 10 <= h_upper st <= 10000000000000).
  { unfold st, hom_start. cbn [h_upper].
    assert (HD : hom_delta lo hi fr vzero sa = 1).
    { unfold hom_delta.
      assert (OU : out_u hi fr sa = [0%nat]).
      { unfold out_u, comp. cbn [length seq filter nth fr]. rewrite U0, U1, SA0, SA1. cbn [rlex]. num. reflexivity. }
      assert (OL : out_l lo fr sa = []).
      { unfold out_l, comp. cbn [length seq filter nth fr]. rewrite L0, L1, SA0, SA1. cbn [xler]. num. reflexivity. }
      rewrite OU, OL. unfold argmin_in, gap_u, comp. cbn [arg_max tl hd nth fr]. rewrite U0. cbn [xval]. unfold vzero. rewrite Rminus_0_r. apply Rabs_pos_eq. lra. }
    rewrite HD. unfold Rdiv. rewrite Rinv_1, Rmult_1_r. unfold Rmax. destruct (Rle_dec _ _); lra. }
  destruct (first5 st act eq_refl eq_refl eq_refl UP) as (iu & il & F1).
  change 99%nat with (S (S 97)). rewrite search_step, F1. 
  destruct (second5 (mkh 0 (h_upper st) 2 false false iu il) act eq_refl eq_refl) as (s' & F2 & S0 & S1).
  rewrite search_step, F2. set (NR := norm 2 s').
  assert (N1 : 0 <= NR <= 2).
  { assert (EN : NR * NR = 1 + (15 / 1000000) * (15 / 1000000)) by (unfold NR; rewrite norm_sq; unfold dot; cbn; rewrite S0, S1; lra). split; [apply norm_nonneg|nra]. }
  assert (R1 : Rltb (10 - NR) (- bc_eps) = false) by (apply Rltb_false; rewrite E5; lra).
  assert (R2 : Rltb (10 - NR) 0 = false) by (apply Rltb_false; lra). rewrite R1, R2.
  assert (AB : filter (at_bound lo hi s') (seq 0 2) = [0%nat; 1%nat]).
  { cbn [seq filter]. unfold at_bound, above, below. rewrite L0, L1, U0, U1, S0, S1. cbn [xsub xler rlex]. rewrite E5. num. reflexivity. }
  rewrite AB. change (complement 2 [0%nat; 1%nat]) with (@nil nat). eexists. split; [reflexivity|]. cbn. auto.
Qed.
End Five.
