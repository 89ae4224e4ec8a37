(** Instances for the theorems about the search for the multiplier. *)
From Coq Require Import Reals Lra Psatz Lia List Arith Bool.
From Verif Require Import RVec RBool Tri ProjGrad_Spec MS_Model MS_Spec MS_Proofs MS_More MS_Wit Chol BC_Model BC_Spec BC_Proofs BC_More BC_Wit Hom_Model Hom_Spec Hom_Proofs Hom_More Hom_Len Hom_Next Hom_One Hom_Fin.
Import ListNotations.
Open Scope R_scope.

Definition ep : R := / 10 ^ 4.
Lemma ep_pos : 0 <= ep.
Proof. apply Rlt_le, Rinv_0_lt_compat, pow_lt. lra. Qed.

(** the unconstrained solver outside the hard case *)
Definition msw (_ k : nat) (g : vec) (A : mat) (D : R) : option ms_out :=
  match solve_MS (cholx k) (slvx k) idm vzero k g A D ep with Some o => if ms_hard o then None else Some o | None => None end.
(** and in every case *)
Definition msf (_ k : nat) (g : vec) (A : mat) (D : R) : option ms_out := solve_MS (cholx k) (slvx k) idm vzero k g A D ep.

Lemma msw_of j k g A D o : msw j k g A D = Some o ->
  solve_MS (cholx k) (slvx k) (fst (eigx k A)) (snd (eigx k A)) k g A D ep = Some o /\
  (ms_hard o = false \/ ((0 < k)%nat /\ eigen_exact k A (snd (eigx k A)) (fst (eigx k A)) /\ exists mu, hard_instance k g A (snd (eigx k A)) mu D)).
Proof.
  unfold msw. cbn [fst snd eigx]. destruct (solve_MS _ _ _ _ _ _ _ _ _) as [p|]; [|discriminate]. destruct (ms_hard p) eqn:HP; [discriminate|].
  intros E. injection E as <-. split; [reflexivity|left; exact HP].
Qed.
Lemma msw_sound : ms_sound msw ep.
Proof. exact (t_applies cholx slvx eigx ep msw ep_pos cholx_exact slvx_exact msw_of). Qed.
Lemma msf_some j k g A D : symmetric k A -> msf j k g A D <> None.
Proof. intros S. unfold msf. apply t_total; [apply cholx_exact|apply slvx_exact|exact S]. Qed.

(** a regular interior answer *)
Lemma msw_newton j k g A D z : symmetric k A -> 0 < D -> / 10 ^ 12 <= norm k g ^ 2 -> posdef k A ->
  (forall i, (i < k)%nat -> mv k A z i = - g i) -> norm k z <= D ->
  exists o, msw j k g A D = Some o /\ veq k (ms_s o) z /\ ms_lambda o = 0 /\ ms_hard o = false.
Proof.
  intros S HD HG PD Z NZ. unfold msw. destruct (solve_MS _ _ _ _ _ _ _ _ _) as [o|] eqn:E.
  - destruct (t_newton (cholx k) (slvx k) idm vzero k g A D ep o z (cholx_exact k) (slvx_exact k) S HD HG ep_pos PD Z NZ E) as (A1 & A2 & _ & A3).
    exists o. rewrite A3. repeat split; assumption.
  - exfalso. revert E. apply t_total; [apply cholx_exact|apply slvx_exact|exact S].
Qed.

(** one variable: 1/2 x^2 - 3 x with x <= 1 *)
Definition lo3 : nat -> xR := fun _ => Fin (-10).
Definition hi3 : nat -> xR := fun _ => Fin 1.
Definition g3 : vec := c (-3).

Lemma posdef1 x l : 0 < x -> posdef 1 (sub_mat l (m1 x)).
Proof.
  intros X v NV. unfold quad, dot, mv, sub_mat, m1. cbn [rsum].
  assert (v 0%nat <> 0) by (intros Z; apply NV; intros i Hi; assert (i = 0%nat) as -> by lia; exact Z). assert (0 < v 0%nat * v 0%nat) by nra. nra.
Qed.
Lemma box3 : in_bounds 1 lo3 hi3 vzero.
Proof. intros i Hi. unfold lo3, hi3, vzero. cbn. lra. Qed.
Lemma ans3 j : exists o, msw j 1 (sub_vec [0%nat] g3) (sub_mat [0%nat] (m1 1)) 10 = Some o /\ ms_s o 0%nat = 3 /\ ms_lambda o = 0 /\ ms_hard o = false.
Proof.
  destruct (msw_newton j 1 (sub_vec [0%nat] g3) (sub_mat [0%nat] (m1 1)) 10 (c 3)) as (o & E & V & L & HH).
  - apply sym1.
  - lra.
  - rewrite norm_c. unfold sub_vec, g3, c. rewrite Rabs_left by lra. pose proof (tiny_le 12). lra.
  - apply posdef1. lra.
  - intros i Hi. unfold mv, sub_mat, m1, sub_vec, g3, c. cbn [rsum]. lra.
  - rewrite norm_c. unfold c. rewrite Rabs_pos_eq by lra. lra.
  - exists o. split; [exact E|]. split; [exact (V 0%nat Nat.lt_0_1)|]. split; assumption.
Qed.
Lemma starts3 o j : msw j 1 (sub_vec [0%nat] g3) (sub_mat [0%nat] (m1 1)) 10 = Some o -> ms_s o 0%nat = 3 ->
  starts 1 (m1 1) lo3 hi3 [0%nat] vzero g3 10 ep o.
Proof.
  intros E V. unfold starts. cbv zeta. split; [constructor; [intros []|constructor]|]. split; [intros i [<-|[]]; lia|].
  split; [exact box3|]. split; [exact box3|].
  split; [apply (msw_sound j 1%nat); [apply sym1|lra|exact E]|].
  assert (SA : vadd vzero (expand [0%nat] (ms_s o)) 0%nat = 3) by (unfold vadd, vzero; rewrite ex1, V; ring).
  split.
  - exists 0%nat. split; [left; reflexivity|]. rewrite SA. unfold beyond, lo3, hi3. cbn. lra.
  - split; [|intros i _; left; reflexivity]. intros i [<-|[]]. rewrite SA. unfold lo3, hi3, vzero. cbn. split; intros X Y; injection Y; lra.
Qed.
Lemma hn3 : ms_hn 1 (m1 1) = 1.
Proof. rewrite hn1. apply Rabs_R1. Qed.
Lemma search3 j o : msw j 1 (sub_vec [0%nat] g3) (sub_mat [0%nat] (m1 1)) 10 = Some o -> ms_s o 0%nat = 3 -> ms_lambda o = 0 -> ms_hard o = false ->
  exists s' i, search_of msw cholx slvx 1 (m1 1) lo3 hi3 j [0%nat] vzero g3 (vadd vzero (expand [0%nat] (ms_s o))) 10 = HomBreak s' i /\ (i <= 2)%nat /\ s' 0%nat = 1.
Proof.
  intros E V L HH. pose proof e5. pose proof e10. pose proof (starts3 o j E V) as (_ & _ & _ & _ & AS & _).
  assert (SA : vadd vzero (expand [0%nat] (ms_s o)) 0%nat = 3) by (unfold vadd, vzero; rewrite ex1, V; ring).
  assert (T13 : 0 < / 10 ^ 13 <= / 10).
  { split; [apply Rinv_0_lt_compat, pow_lt; lra|]. apply Rinv_le_contravar; [lra|]. replace 10 with (10 ^ 1) at 1 by ring. apply Rle_pow; [lra|lia]. }
  apply (t_one msw cholx slvx 1 (m1 1) lo3 hi3 0 vzero g3 10 ep 1 j o cholx_exact slvx_exact (sym1 _) Nat.lt_0_1 box3 eq_refl); try assumption.
  - lra.
  - unfold lo3. cbn. lra.
  - unfold vzero. lra.
  - rewrite SA. lra.
  - rewrite L, hn3, norm_c. unfold g3, c, vzero, m1. rewrite Rabs_left by lra. rewrite (Rmax_right 0) by lra.
    destruct (Rleb_spec ((- -3 / (1 - 0) + 1)) (- -3 / (1 - 0) - 1)); [exfalso; lra|]. unfold Rdiv in *. lra.
Qed.

Lemma run3 : exists o, solve_bcx msw cholx slvx 1 (m1 1) lo3 hi3 g3 10 = Some (Some o) /\ bc_s o 0%nat = 1 /\ bc_end o = BcNoFree /\ (bc_trials o <= 2)%nat.
Proof.
  pose proof e5. pose proof e10. destruct (ans3 1) as (m & E & V & L & HH).
  assert (GC : filter (g_crit lo3 hi3 g3) (seq 0 1) = []).
  { cbn [seq filter]. unfold g_crit, g3, c, lo3, hi3, xabs_le, xler. rewrite (Rabs_left (-10)) by lra. num. reflexivity. }
  unfold solve_bcx. rewrite GC. change (complement 1 []) with [0%nat]. cbn [bcx_outer length].
  set (sa := vadd vzero (expand [0%nat] (ms_s m))).
  assert (SA : sa 0%nat = 3) by (unfold sa, vadd, vzero; rewrite ex1, V; ring).
  assert (CALL : ms_calls (ms_part msw) 1 (m1 1) lo3 hi3 1 0 vzero g3 10 g3 [] [0%nat] =
     CGo [] [0%nat] sa (vadd g3 (expand [0%nat] (ms_gplus m))) 1).
  { cbn [ms_calls length]. unfold ms_part at 1. rewrite E. fold sa.
    assert (F1 : u_crit hi3 sa 0%nat = false).
    { unfold u_crit, above, hi3, xsub, xler. rewrite SA. num. reflexivity. }
    assert (F2 : l_crit lo3 sa 0%nat = false).
    { unfold l_crit, below, lo3, rlex. rewrite SA. num. reflexivity. }
    cbn [filter]. rewrite F1, F2. reflexivity. }
  rewrite CALL.
  assert (OUT : existsb (out_by lo3 hi3 0 sa) [0%nat] = true).
  { cbn [existsb]. unfold out_by, lo3, hi3, rlex, xler. rewrite SA. num. reflexivity. }
  rewrite OUT. destruct (search3 1 m E V L HH) as (s' & i & SE & I2 & S'). fold sa in SE. rewrite SE.
  assert (N : norm 1 s' = 1) by (rewrite norm_c, S', Rabs_R1; reflexivity). rewrite N. num.
  assert (AB : filter (at_bound lo3 hi3 s') (seq 0 1) = [0%nat]).
  { cbn [seq filter]. unfold at_bound, above, below, lo3, hi3, xsub, xler, rlex. rewrite S'. num. reflexivity. }
  rewrite AB. change (complement 1 [0%nat]) with (@nil nat). eexists. split; [reflexivity|]. cbn [bc_s bc_end bc_trials]. split; [exact S'|].
  split; [reflexivity|]. lia.
Qed.

(** two variables: the derivative of Newton's equation vanishes at the first trial, and the step
    is reset to zero *)
Definition H4 : mat := fun i j => if (i =? 1)%nat then if (j =? 1)%nat then 2 else 1 else 1.
Definition g4 : vec := fun i => if (i =? 0)%nat then -3 else -5.
Definition lo4 : nat -> xR := fun _ => Fin (-10).
Definition hi4 : nat -> xR := fun i => if (i =? 0)%nat then Fin (/ 2) else Fin 10.
Definition z4 : vec := fun i => if (i =? 0)%nat then 1 else 2.
Definition fr : list nat := [0%nat; 1%nat].

Lemma sym4 : symmetric 2 H4.
Proof. intros i j Hi Hj. destruct (two_cases i Hi) as [->| ->], (two_cases j Hj) as [->| ->]; reflexivity. Qed.
Lemma symf4 : symmetric 2 (sub_mat fr H4).
Proof. intros i j Hi Hj. destruct (two_cases i Hi) as [->| ->], (two_cases j Hj) as [->| ->]; reflexivity. Qed.
Lemma box4 : in_bounds 2 lo4 hi4 vzero.
Proof. intros i Hi. destruct (two_cases i Hi) as [->| ->]; unfold lo4, hi4, vzero; cbn; lra. Qed.
Lemma pd4 : posdef 2 (sub_mat fr H4).
Proof.
  intros v NV. unfold quad, dot, mv, sub_mat, H4. cbn. destruct (Req_EM_T (v 1%nat) 0) as [A|A].
  - assert (B : v 0%nat <> 0) by (intros B; apply NV; intros i Hi; destruct (two_cases i Hi) as [->| ->]; [exact B|exact A]). nra.
  - assert (0 < v 1%nat * v 1%nat) by nra. pose proof (pow2_ge_0 (v 0%nat + v 1%nat)). nra.
Qed.
Lemma norm4 : norm 2 z4 <= 10.
Proof. unfold norm, dot, z4. cbn. apply Rle_trans with (sqrt (10 * 10)); [apply sqrt_le_1_alt; lra|rewrite sqrt_square; lra]. Qed.
Lemma ans4 j : exists o, msw j 2 (sub_vec fr g4) (sub_mat fr H4) 10 = Some o /\ veq 2 (ms_s o) z4 /\ ms_lambda o = 0 /\ ms_hard o = false.
Proof.
  apply (msw_newton j 2 (sub_vec fr g4) (sub_mat fr H4) 10 z4).
  - exact symf4.
  - lra.
  - replace (norm 2 (sub_vec fr g4) ^ 2) with (norm 2 (sub_vec fr g4) * norm 2 (sub_vec fr g4)) by ring. rewrite norm_sq. unfold dot, sub_vec, g4. cbn -[pow]. pose proof (tiny_le 12). lra.
  - exact pd4.
  - intros i Hi. destruct (two_cases i Hi) as [->| ->]; unfold mv, sub_mat, sub_vec, H4, g4, z4; cbn; lra.
  - exact norm4.
Qed.
Lemma at4 d i : (i < 2)%nat -> vadd vzero (expand fr d) i = d i.
Proof. intros Hi. destruct (two_cases i Hi) as [->| ->]; unfold vadd, vzero, expand, fr, idm; cbn; ring. Qed.

Lemma trial4 st act : h_lam st = 0 -> h_hard st = false -> h_back st = false ->
  hom_trial (cholx 2) (slvx 2) lo4 hi4 fr (sub_mat fr H4) (sub_vec fr g4) vzero st true act = TNever.
Proof.
  intros L HH HB. pose proof e5. pose proof e10.
  pose proof (cholx_exact 2) as CE. pose proof (slvx_exact 2) as SE. pose proof symf4 as SH.
  unfold hom_trial. rewrite HH, L. destruct (cholx 2 (shifted (sub_mat fr H4) 0)) as [U|] eqn:CU.
  2:{ exfalso. apply (chol_none 2 (cholx 2) (sub_mat fr H4) 0 CE SH CU). intros x NX. pose proof (pd4 x NX). unfold posdef in *. lra. }
  pose proof (proj1 (CE _ (symmetric_shifted 2 (sub_mat fr H4) 0 SH)) U CU) as (UP & DN & SQ).
  assert (TT : triangle 2 (tr U)) by (apply triangle_tr; split; [right; exact UP|exact DN]).
  destruct (SE (tr U) (sub_vec fr g4) TT) as (y & Ey & _). destruct (SE (fun i j => - U i j) y (neg_triangle 2 U UP DN)) as (d & Ed & _).
  rewrite Ey, Ed. pose proof (chol_solution 2 (cholx 2) (slvx 2) (sub_mat fr H4) (sub_vec fr g4) 0 U y d CE SE SH CU Ey Ed) as SD.
  assert (D : d 0%nat = 1 /\ d 1%nat = 2).
  { pose proof (SD 0%nat ltac:(lia)) as S0. pose proof (SD 1%nat ltac:(lia)) as S1.
    unfold mv, sub_mat, sub_vec, H4, g4 in S0, S1. cbn in S0, S1. lra. }
  destruct D as (D0 & D1).
  fold (cleared lo4 hi4 fr vzero d). fold (after lo4 hi4 fr vzero d). cbv zeta.
  assert (CZ : forall i, (i < 2)%nat -> crit_zero lo4 hi4 (vadd vzero (expand fr d)) i = false).
  { intros i Hi. unfold crit_zero, u_crit, l_crit, above, below, lo4, hi4. rewrite (at4 d i Hi).
    destruct (two_cases i Hi) as [->| ->]; cbn [Nat.eqb xsub xler rlex]; rewrite ?D0, ?D1; num; reflexivity. }
  assert (CL : forall k, (k < 2)%nat -> cleared lo4 hi4 fr vzero d k = d k).
  { intros k Hk. unfold cleared. destruct (two_cases k Hk) as [->| ->]; cbn [nth fr]; rewrite CZ by lia; reflexivity. }
  assert (AF : forall i, (i < 2)%nat -> after lo4 hi4 fr vzero d i = d i).
  { intros i Hi. unfold after. rewrite (CZ i Hi), andb_false_r. apply at4. exact Hi. }
  set (sd := after lo4 hi4 fr vzero d) in *. set (dp := cleared lo4 hi4 fr vzero d) in *.
  assert (S0 : sd 0%nat = 1) by (rewrite AF by lia; exact D0). assert (S1 : sd 1%nat = 2) by (rewrite AF by lia; exact D1).
  assert (P0 : dp 0%nat = 1) by (rewrite CL by lia; exact D0). assert (P1 : dp 1%nat = 2) by (rewrite CL by lia; exact D1).
  clearbody sd dp.
  assert (OU : out_u hi4 fr sd = [0%nat]).
  { unfold out_u, comp, hi4. cbn [length seq filter nth fr Nat.eqb rlex]. rewrite S0, S1. num. reflexivity. }
  assert (OL : out_l lo4 fr sd = []).
  { unfold out_l, comp, lo4. cbn [length seq filter nth fr Nat.eqb xler]. rewrite S0, S1. num. reflexivity. }
  rewrite OU, OL. cbn [target argmax arg_max tl hd]. unfold comp. cbn [nth fr]. change (hi4 0%nat) with (Fin (/ 2)). cbn [xval].
  assert (NI : existsb (out_by lo4 hi4 bc_eps sd) fr = true).
  { cbn [existsb fr]. unfold out_by, lo4, hi4. cbn [Nat.eqb rlex xler]. rewrite S0, S1. num. reflexivity. }
  rewrite NI. cbn [negb andb]. rewrite HB. cbn [orb negb]. rewrite andb_true_r.
  rewrite (CZ 0%nat ltac:(lia)), D0. change (vzero 0%nat) with 0. unfold rsign. rewrite (Rabs_pos_eq (/ 2 - 0)) by lra. rewrite Rabs_R1. num.
  assert (RE : Reqb 1 1 = true) by (apply Reqb_true; reflexivity). rewrite RE. cbn [negb].
  destruct (SE (tr U) (unitv 0) TT) as (w1 & E1 & _). destruct (SE (tr U) dp TT) as (w2 & E2 & _).
  destruct (newton_den (cholx 2) (slvx 2) fr (sub_mat fr H4) CE SE SH 0 U 0 dp w1 w2 CU ltac:(cbn; lia) E1 E2) as (q & Q1 & Q2).
  rewrite E1, E2. change (length fr) with 2%nat in *. rewrite Q2.
  assert (QZ : q 0%nat = 0).
  { pose proof (Q1 0%nat ltac:(lia)) as A. pose proof (Q1 1%nat ltac:(lia)) as B. unfold mv, sub_mat, H4 in A, B. cbn in A, B. lra. }
  rewrite QZ. rewrite (proj2 (Reqb_true (1 * 0) 0)) by ring. reflexivity.
Qed.

Lemma run4 : exists o, solve_bcx msw cholx slvx 2 H4 lo4 hi4 g4 10 = Some (Some o) /\ bc_s o = vzero /\ bc_end o = BcLimit.
Proof.
  pose proof e5. pose proof e10. destruct (ans4 1) as (m & E & V & L & HH).
  pose proof (V 0%nat ltac:(lia)) as V0. pose proof (V 1%nat ltac:(lia)) as V1. unfold z4 in V0, V1. cbn in V0, V1.
  assert (GC : filter (g_crit lo4 hi4 g4) (seq 0 2) = []).
  { cbn [seq filter]. unfold g_crit, g4, lo4, hi4, xabs_le, xler. cbn [Nat.eqb]. rewrite !(Rabs_left (-10)) by lra. num. reflexivity. }
  unfold solve_bcx. rewrite GC. change (complement 2 []) with fr. cbn [bcx_outer length fr]. fold fr.
  set (sa := vadd vzero (expand fr (ms_s m))).
  assert (SA0 : sa 0%nat = 1) by (unfold sa; rewrite at4 by lia; exact V0).
  assert (SA1 : sa 1%nat = 2) by (unfold sa; rewrite at4 by lia; exact V1).
  assert (CALL : ms_calls (ms_part msw) 2 H4 lo4 hi4 2 0 vzero g4 10 g4 [] fr =
     CGo [] fr sa (vadd g4 (expand fr (ms_gplus m))) 1).
  { cbn [ms_calls]. change (length fr) with 2%nat. unfold ms_part at 1. rewrite E. fold sa.
    assert (F1 : forall i, (i < 2)%nat -> u_crit hi4 sa i = false).
    { intros i Hi. unfold u_crit, above, hi4. destruct (two_cases i Hi) as [->| ->]; cbn [Nat.eqb xsub xler]; rewrite ?SA0, ?SA1; num; reflexivity. }
    assert (F2 : forall i, (i < 2)%nat -> l_crit lo4 sa i = false).
    { intros i Hi. unfold l_crit, below, lo4. destruct (two_cases i Hi) as [->| ->]; cbn [Nat.eqb xsub xler rlex]; rewrite ?SA0, ?SA1; num; reflexivity. }
    cbn [filter fr]. rewrite !F1, !F2 by lia. reflexivity. }
  rewrite CALL.
  assert (OUT : existsb (out_by lo4 hi4 0 sa) fr = true).
  { cbn [existsb fr]. unfold out_by, lo4, hi4, rlex, xler. cbn [Nat.eqb]. rewrite SA0. num. reflexivity. }
  rewrite OUT. unfold search_of. change (length fr) with 2%nat. rewrite E. change 99%nat with (S 98). rewrite search_step.
  rewrite trial4 by (cbn; assumption || reflexivity). eexists. split; [reflexivity|]. split; reflexivity.
Qed.

Lemma r_progress : ~ forall ms chol slv n H lb ub g Delta eps o,
  (forall k, chol_exact k (chol k)) -> (forall k, slv_exact k (slv k)) -> symmetric n H -> posdef n H -> ms_sound ms eps -> 0 <= eps <= 1 / 100 ->
  1 <= Delta -> (forall i, (i < n)%nat -> ~ rle_x (-1 / 4) (lb i) /\ ~ xle_r (ub i) (1 / 4)) -> 1 <= norm n g ->
  solve_bcx ms chol slv n H lb ub g Delta = Some (Some o) -> ~ veq n (bc_s o) vzero.
Proof.
  intros A. destruct run4 as (o & E & Z & _). refine (A msw cholx slvx 2%nat H4 lo4 hi4 g4 10 ep o cholx_exact slvx_exact sym4 _ msw_sound _ _ _ _ E _).
  - intros v NV. exact (pd4 v NV).
  - split; [exact ep_pos|]. unfold ep. replace (1 / 100) with (/ 10 ^ 2) by (field). apply Rinv_le_contravar; [apply pow_lt; lra|]. apply Rle_pow; [lra|lia].
  - lra.
  - intros i Hi. unfold lo4, hi4. destruct (two_cases i Hi) as [->| ->]; cbn; lra.
  - rewrite <- sqrt_1. unfold norm, dot, g4. cbn. apply sqrt_le_1_alt. lra.
  - rewrite Z. intros i Hi. reflexivity.
Qed.

(** the first trial of the one-variable search is followed by another one *)
Lemma step3 o act : msw 1 1 (sub_vec [0%nat] g3) (sub_mat [0%nat] (m1 1)) 10 = Some o -> ms_s o 0%nat = 3 -> ms_lambda o = 0 -> ms_hard o = false ->
  exists st' act', hom_states (cholx 1) (slvx 1) lo3 hi3 [0%nat] (sub_mat [0%nat] (m1 1)) (sub_vec [0%nat] g3) vzero 1
    (hom_start lo3 hi3 [0%nat] vzero 1 g3 (m1 1) (ms_lambda o) (ms_hard o) (vadd vzero (expand [0%nat] (ms_s o)))) true act = Some (st', true, act').
Proof.
  intros E V L HH. pose proof e5. pose proof e10. pose proof (starts3 o 1 E V) as ST. cbn [hom_states].
  set (st := hom_start _ _ _ _ _ _ _ _ _ _).
  assert (ES : hom_states (cholx 1) (slvx 1) lo3 hi3 [0%nat] (sub_mat [0%nat] (m1 1)) (sub_vec [0%nat] g3) vzero 0 st true act = Some (st, true, act)) by reflexivity.
  destruct (f_bracket cholx slvx 1 (m1 1) lo3 hi3 [0%nat] vzero g3 10 ep o cholx_exact slvx_exact (sym1 _) ST _ _ _ _ _ ES) as (_ & _ & PD).
  destruct (trial_cases (cholx 1) (slvx 1) lo3 hi3 [0%nat] (sub_mat [0%nat] (m1 1)) (sub_vec [0%nat] g3) vzero (cholx_exact 1) (slvx_exact 1) (sym1 _) st true act)
    as [([X|X] & _)|(_ & _ & d & SD & F)]; [unfold st in X; cbn in X; congruence|exfalso; apply X; apply PD; exact HH|].
  assert (D : d 0%nat = 3).
  { specialize (SD 0%nat Nat.lt_0_1). unfold mv, sub_mat, sub_vec, m1, g3, c, st in SD. cbn in SD. rewrite L in SD. lra. }
  assert (AF : after lo3 hi3 [0%nat] vzero d 0%nat = 3).
  { unfold after. assert (SA : vadd vzero (expand [0%nat] d) 0%nat = 3) by (unfold vadd, vzero; rewrite ex1, D; ring).
    assert (CZ : crit_zero lo3 hi3 (vadd vzero (expand [0%nat] d)) 0 = false).
    { unfold crit_zero, u_crit, l_crit, above, below, lo3, hi3. cbn [xsub xler rlex]. rewrite SA. num. reflexivity. }
    rewrite CZ, andb_false_r. exact SA. }
  assert (NI : near_in lo3 hi3 [0%nat] vzero d = false).
  { unfold near_in. set (sd := after lo3 hi3 [0%nat] vzero d) in *. cbn [existsb]. unfold out_by, lo3, hi3. cbn [rlex xler]. rewrite AF. num. reflexivity. }
  destruct F as [(X & _)|(_ & F)]; [congruence|]. cbv zeta in F. rewrite NI in F.
  destruct F as [(_ & TN)|(u' & lam' & iu & il & TN & _)].
  - exfalso. destruct (f_never cholx slvx 1 (m1 1) lo3 hi3 [0%nat] vzero g3 10 ep o cholx_exact slvx_exact (sym1 _) ST _ _ _ _ _ ES TN)
      as (_ & d1 & dp & q & b & isu & _ & _ & Q & Hb & GB & QZ). cbn [length] in Hb. assert (b = 0%nat) as -> by lia.
    specialize (Q 0%nat Nat.lt_0_1). unfold mv, sub_mat in Q. cbn in Q. rewrite QZ in Q. rewrite <- Q in GB.
    match type of GB with ?x < Rabs ?y => replace y with 0 in GB by ring; rewrite Rabs_R0 in GB; pose proof (Rabs_pos (xval (side isu (lo3 0%nat) (hi3 0%nat)) - vzero 0%nat)); cbn [nth] in GB; lra end.
  - assert (IN : inside_of lo3 hi3 [0%nat] (after lo3 hi3 [0%nat] vzero d) = false).
    { set (sd := after lo3 hi3 [0%nat] vzero d) in *. unfold inside_of, out_u, out_l, comp, lo3, hi3. cbn [length seq filter nth rlex xler]. rewrite AF. num. reflexivity. }
    rewrite IN in TN. cbn [negb] in TN. rewrite TN. do 2 eexists. reflexivity.
Qed.

Lemma never4 : exists o st, starts 2 H4 lo4 hi4 fr vzero g4 10 ep o /\
  st = hom_start lo4 hi4 fr vzero 2 g4 H4 (ms_lambda o) (ms_hard o) (vadd vzero (expand fr (ms_s o))) /\
  hom_trial (cholx 2) (slvx 2) lo4 hi4 fr (sub_mat fr H4) (sub_vec fr g4) vzero st true false = TNever.
Proof.
  destruct (ans4 1) as (o & E & V & L & HH). exists o. eexists. split; [|split; [reflexivity|apply trial4; [exact L|exact HH|reflexivity]]].
  pose proof (V 0%nat ltac:(lia)) as V0. pose proof (V 1%nat ltac:(lia)) as V1. unfold z4 in V0, V1. cbn in V0, V1.
  unfold starts. cbv zeta. split; [unfold fr; repeat constructor; cbn; intuition lia|]. split; [intros i [<-|[<-|[]]]; lia|].
  split; [exact box4|]. split; [exact box4|]. split; [apply (msw_sound 1%nat 2%nat); [exact symf4|lra|exact E]|].
  split.
  - exists 0%nat. split; [left; reflexivity|]. rewrite at4, V0 by lia. unfold beyond, lo4, hi4. cbn. lra.
  - split; [|intros i _; left; reflexivity]. intros i [<-|[<-|[]]]; rewrite at4 by lia; unfold lo4, hi4, vzero; cbn; split; intros X Y; injection Y; lra.
Qed.
