(** One variable and one inequality whose slack is zero. *)
From Coq Require Import Reals Lra Psatz Lia List Arith Bool ZArith.
From Verif Require Import RVec RBool Tri ProjGrad_Spec MS_Model MS_Spec MS_Wit BC_Model BC_Spec BC_Proofs BC_Wit Hom_Model Hom_Spec Hom_Proofs Hom_Wit Chol Null_Model Null_Spec Null_Wit
  CG_Model TR_Model TR_Spec Step_Spec Hess_Model Mult_Model Lib_Model Lib_Spec Lib_More Lib_Wit Lib_Fin Slk_Model Slk_Spec Slk_Proofs.
Import ListNotations.
Open Scope R_scope.

Lemma mst_never : never_hard mst.
Proof.
  intros j k g A D o _ _ E. unfold mst in E. destruct (msw j k g A D) as [p|] eqn:W; injection E as <-; [|reflexivity].
  unfold msw in W. destruct (solve_MS _ _ _ _ _ _ _ _ _) as [a|]; [|discriminate]. destruct (ms_hard a) eqn:HA; [discriminate|]. injection W as <-. exact HA.
Qed.

(** singular values of the row (1, 0); anything for other matrices *)
Definition is_row (m k : nat) (A : mat) : bool := (m =? 1)%nat && (k =? 2)%nat && Reqb (A 0%nat 0%nat) 1 && Reqb (A 0%nat 1%nat) 0.
Definition svd7 (m k : nat) (A : mat) : vec * mat := if is_row m k A then (one_sv 1, idm) else (vzero, idm).

Lemma row_like A : A 0%nat 0%nat = 1 -> A 0%nat 1%nat = 0 -> svd_exact 1 2 A (one_sv 1) idm.
Proof.
  intros A0 A1. destruct (row_svd 1 ltac:(lra)) as (P1 & P2 & U & P3 & P4). split; [exact P1|split; [exact P2|]]. exists U. split; [exact P3|].
  intros i j Hi Hj. rewrite <- (P4 i j Hi Hj). assert (i = 0%nat) by lia. subst i. unfold row. destruct (two_cases j Hj) as [-> | ->]; cbn; lra.
Qed.

Lemma null_zero m k : null_rows m k vzero = seq 0 k.
Proof.
  unfold null_rows. rewrite (filter_ext_in _ (fun _ => true)); [induction (seq 0 k) as [|a l IH]; cbn; [reflexivity|f_equal; exact IH]|].
  intros i _. unfold null_mask. destruct (i <? Nat.min m k)%nat; [|reflexivity]. apply Rleb_true. unfold vzero. apply Rlt_le, Rinv_0_lt_compat, pow_lt. lra.
Qed.

Lemma svd7_spans dim rows k Z : null_lib svd7 dim rows = Some (k, Z) -> spans_free dim rows k Z.
Proof.
  unfold null_lib, svd7. destruct (is_row (length rows) dim (rows_mat rows)) eqn:IR; intros E.
  - unfold is_row in IR. rewrite !andb_true_iff in IR. destruct IR as [[[I1 I2] I3] I4].
    apply Nat.eqb_eq in I1, I2. apply Reqb_true in I3, I4. subst dim.
    pose proof (svd_spans rows 2 (one_sv 1) idm) as SV. rewrite I1 in SV, E. injection E as <- <-. apply SV, row_like; assumption.
  - injection E as <- <-. intros i Hi _. unfold null_. rewrite null_zero, seq_length. cbn [fst snd].
    set (Z := fun a b => idm (nth b (seq 0 dim) 0%nat) a).
    assert (ZE : forall a b, (b < dim)%nat -> Z a b = idm b a) by (intros a b Hb; unfold Z; rewrite seq_nth by exact Hb; reflexivity). clearbody Z.
    assert (VE : forall p, (p < dim)%nat -> mv dim (tr Z) (unitv i) p = unitv i p).
    { intros p Hp. unfold mv, tr. rewrite (rsum_single dim p); [rewrite ZE by exact Hp; unfold idm; rewrite Nat.eqb_refl; ring|exact Hp|].
      intros l _ N. rewrite ZE by exact Hp. unfold idm. rewrite (proj2 (Nat.eqb_neq p l)) by lia. ring. }
    intros j Hj. unfold mv at 1. rewrite (rsum_single dim j); [rewrite ZE, VE by exact Hj; unfold idm; rewrite Nat.eqb_refl; ring|exact Hj|].
    intros l Hl N. rewrite ZE by exact Hl. unfold idm. rewrite (proj2 (Nat.eqb_neq l j)) by lia. ring.
Qed.

(** bounds: -10 <= x <= 10, slack >= 0 *)
Definition lb7 (i : nat) : xR := if (i =? 0)%nat then Fin (-10) else Fin 0.
Definition ub7 (i : nat) : xR := if (i =? 0)%nat then Fin 10 else PInf.
Lemma in7 : in_bounds 1 lb7 ub7 vzero.
Proof. intros i Hi. assert (i = 0%nat) by lia. subst i. unfold lb7, ub7, vzero. cbn. lra. Qed.
Lemma sl7 i : (i < 1)%nat -> xle_r (lb7 (1 + i)%nat) (vzero i) /\ rle_x (vzero i) (ub7 (1 + i)%nat).
Proof. intros _. unfold lb7, ub7, vzero. cbn. lra. Qed.
Lemma ord7 : ordered 1 lb7 ub7.
Proof. intros i Hi. assert (i = 0%nat) by lia. subst i. unfold lb7, ub7. cbn. lra. Qed.

Lemma far7 e : e <= 1 -> close e (vzero 0%nat) (lb7 0%nat) = false /\ close e (vzero 0%nat) (ub7 0%nat) = false.
Proof.
  intros E. unfold close, lb7, ub7, vzero. cbn [Nat.eqb]. split; apply Rltb_false.
  - rewrite Rabs_pos_eq by lra. lra.
  - rewrite Rabs_left by lra. lra.
Qed.
Lemma act7 v g : active0 1 1 lb7 ub7 [v] [unitv 0] vzero vzero g vzero = [].
Proof.
  unfold active0. cbn [seq flat_map app]. cbv zeta. destruct (far7 (/ 10 ^ 5) (tiny_le 5)) as [F1 F2]. rewrite F1, F2, !andb_false_r. reflexivity.
Qed.

(** the data of the first pass *)
Lemma con7 v : con0 1 [v] vzero = [v].
Proof. unfold con0, me. cbn [length seq combine map fst snd]. change (0 <? 1 - 1)%nat with false. cbv iota. unfold vzero. f_equal. ring. Qed.
Lemma row7 v i : nth 0 (gcon0 1 1 [v] [unitv 0] vzero) vzero i = if (i =? 0)%nat then 1 else 0.
Proof.
  unfold gcon0, me. cbn [length seq combine map fst snd nth]. destruct i as [|i]; cbn [Nat.ltb Nat.leb Nat.eqb]; [reflexivity|].
  match goal with |- (if ?b then _ else _) = _ => destruct b end; unfold vzero; ring.
Qed.
Lemma one7 v : exists a, gcon0 1 1 [v] [unitv 0] vzero = [a] /\ forall i, a i = if (i =? 0)%nat then 1 else 0.
Proof. eexists. split; [reflexivity|]. exact (row7 v). Qed.

(** the zero tangential step *)
Lemma tan7 mi rows a s r : s_gcon s = rows -> rows = [a] -> (forall i, a i = if (i =? 0)%nat then 1 else 0) -> length (s_con s) = 1%nat -> (s_g s 1%nat = 0) ->
  exists act, tangent (null_lib svd7 2) (cg_of mi 0) 1 1 (fun _ _ => 0) s r = Some (mv 1 (snd (null_ 1 2 (one_sv 1) idm)) vzero, act).
Proof.
  intros E1 E2 HA LC G1. unfold tangent. rewrite LC. change (1 <? dim 1 1)%nat with true. cbv iota. unfold null_lib. rewrite E1, E2. cbn [length].
  assert (IR : is_row 1 2 (rows_mat [a]) = true).
  { unfold is_row, rows_mat. cbn [nth Nat.eqb andb]. rewrite !HA. cbn [Nat.eqb]. rewrite (proj2 (Reqb_true 1 1) eq_refl), (proj2 (Reqb_true 0 0) eq_refl). reflexivity. }
  unfold svd7. rewrite IR. destruct row_one as (R1 & R2 & R3). destruct (null_ 1 2 (one_sv 1) idm) as [k Z] eqn:EN. cbn [fst snd] in *. subst k.
  unfold cg_of, truncated_cg. set (gt := mv (dim 1 1) (fun j i => Z i j) (vadd (s_g s) (mv (dim 1 1) (Mx 1 (fun _ _ => 0)) r))).
  assert (GZ : gt 0%nat = 0).
  { unfold gt, mv at 1, dim. cbn [Nat.add rsum]. rewrite R2, R3. unfold vadd. rewrite G1. unfold mv, Mx. cbn. ring. }
  assert (DZ : Rleb (dot 1 (vneg (vneg gt)) (vneg (vneg gt))) (0 * 0) = true).
  { apply Rleb_true. clearbody gt. unfold dot, vneg. cbn. rewrite GZ. lra. }
  destruct mi; cbn [tcg_loop]; rewrite DZ; cbn [tcg_x]; eexists; reflexivity.
Qed.

Lemma zero7 i : (i < 2)%nat -> mv 1 (snd (null_ 1 2 (one_sv 1) idm)) vzero i = 0.
Proof. intros _. unfold mv, vzero. cbn. ring. Qed.

Lemma scan7 y : -2 < y 0%nat < 2 -> scan lb7 ub7 (/ 10 ^ 7) 1 0 y = (None, []).
Proof.
  intros Y. cbn [scan]. unfold under, over, close, lb7, ub7. cbn [Nat.eqb]. pose proof (tiny_le 7). assert (0 < / 10 ^ 7) by (apply Rinv_0_lt_compat, pow_lt; lra).
  rewrite (proj2 (Rltb_false (y 0%nat - -10) _)) by lra.
  rewrite (proj2 (Rltb_false (Rabs (y 0%nat - -10)) _)) by (rewrite Rabs_pos_eq; lra).
  rewrite (proj2 (Rltb_false _ (y 0%nat - 10))) by lra.
  rewrite (proj2 (Rltb_false (Rabs (y 0%nat - 10)) _)) by (rewrite Rabs_left; lra). reflexivity.
Qed.

(** ** the inequality x >= 0 at x = 0 with the objective -x: no step *)
Definition g8 : vec := fun i => if (i =? 0)%nat then -1 else 0.
Notation run8 fu := (step_lib mst cholx slvx eig5 svd7 pin5 0 PInf 0 vzero 1 1 lb7 ub7 (/ 10 ^ 7) (fun _ _ => 0) [0] [unitv 0] vzero fu vzero 1 g8 vzero).
Lemma step8 fu : exists o, run8 (S fu) = TrOut o /\ tr_end o = TrZero /\ tr_x o 0%nat = 0.
Proof.
  unfold step_lib, solve_con. rewrite act7, con7. destruct (one7 0) as (a & EA & HA). rewrite EA. cbn [map app length]. cbn [tr_loop].
  set (s0 := mkst _ _ _ _ _ _ _ _ _ _).
  assert (RE : restoration (restore_lib mst cholx slvx) (cvx_lib eig5 (1 + 1)) 1 1 lb7 ub7 vzero 1 s0 = Some (vzero, 0, false)).
  { unfold restoration, s0. cbn [s_con s_gcon s_rpred]. rewrite (proj2 (Rltb_false _ _)); [reflexivity|].
    rewrite (proj2 (norm_zero _ _)); [apply Rlt_le, Rinv_0_lt_compat, pow_lt; lra|]. intros i _. unfold rows_t, vzero. cbn. ring. }
  rewrite RE. change (1 + 1)%nat with 2%nat.
  destruct (tan7 (20 * (2 - 1)) [a] a s0 vzero eq_refl eq_refl HA eq_refl eq_refl) as (act & TE). rewrite TE.
  set (t := mv 1 _ vzero). assert (T0 : t 0%nat = 0) by (apply zero7; lia). clearbody t.
  set (y := vadd (vadd (s_x s0) vzero) t). assert (Y0 : y 0%nat = 0) by (unfold y, vadd, vzero; cbn; rewrite T0; unfold vzero; ring).
  rewrite scan7 by (rewrite Y0; lra). unfold choose.
  assert (NZ : Rleb (norm 1 (vadd vzero t)) (/ 10 ^ 16) = true).
  { apply Rleb_true. rewrite (proj2 (norm_zero _ _)); [apply Rlt_le, Rinv_0_lt_compat, pow_lt; lra|]. intros i Hi. assert (i = 0%nat) by lia. subst i. unfold vadd, vzero. rewrite T0. ring. }
  rewrite NZ. unfold s0. cbn [s_x s_con s_gcon s_fix s_g s_del s_slnew s_lm s_rpred s_moves]. change (10 * 1 <=? 1)%nat with false. cbn [orb].
  rewrite (proj2 (Rltb_false 1 (/ 10 ^ 8)) (tiny_le 8)). cbn [s_x s_con s_gcon s_fix s_g s_del s_slnew s_lm s_rpred s_moves].
  eexists. split; [reflexivity|]. split; [reflexivity|exact Y0].
Qed.

Lemma better8 : better_step 1 1 lb7 ub7 (fun _ _ => 0) g8 [0] [unitv 0] vzero 1 (unitv 0).
Proof.
  split; [|split; [|split; [|split]]].
  - unfold norm, dot, unitv. cbn. replace (0 + 1 * 1) with 1 by ring. rewrite sqrt_1. lra.
  - intros i Hi. assert (i = 0%nat) by lia. subst i. unfold lb7, ub7, vzero, unitv. cbn. lra.
  - intros k K. cbn in K. lia.
  - intros k K. cbn in K. assert (k = 0%nat) by lia. subst k. unfold dot, unitv. cbn. lra.
  - unfold lag_model, quad, dot, mv, g8, unitv. cbn. lra.
Qed.

Lemma lin8 v k j : (k < 1)%nat -> (j < 2)%nat -> lin_row 1 1 [v] [unitv 0] vzero k j = if (j =? 0)%nat then 1 else 0.
Proof.
  intros K J. assert (k = 0%nat) by lia. subst k. unfold lin_row, lin_con, dot, unitv, vzero. cbn. destruct (two_cases j J) as [-> | ->]; cbn; ring.
Qed.
Lemma svd8 v A : (forall k j, (k < 1)%nat -> (j < 2)%nat -> A k j = lin_row 1 1 [v] [unitv 0] vzero k j) -> svd_exact 1 2 A (fst (svd7 1 2 A)) (snd (svd7 1 2 A)).
Proof.
  intros AE. assert (A0 : A 0%nat 0%nat = 1) by (rewrite AE, lin8 by lia; reflexivity). assert (A1 : A 0%nat 1%nat = 0) by (rewrite AE, lin8 by lia; reflexivity).
  unfold svd7, is_row. cbn [Nat.eqb andb]. rewrite (proj2 (Reqb_true _ _) A0), (proj2 (Reqb_true _ _) A1). cbn [andb fst snd]. apply row_like; assumption.
Qed.

Lemma svd7_orth : svd_orth svd7.
Proof. intros m k A. unfold svd7. destruct (is_row m k A); exact (svd5_orth m k A). Qed.

Lemma r_descent : ~ forall ms chol slv eig svd pin tol oinf dxmin gi n nsl lb ub thr M0 ce ae sl fuel x delta g lm eps o,
  (forall k, chol_exact k (chol k)) -> (forall k, slv_exact k (slv k)) -> ms_sound ms eps -> 0 <= eps <= 1 / 100 -> never_hard ms -> eig_convex eig -> svd_orth svd ->
  (forall A, (forall k j, (k < length ce)%nat -> (j < n + nsl)%nat -> A k j = lin_row n nsl ce ae sl k j) ->
     svd_exact (length ce) (n + nsl) A (fst (svd (length ce) (n + nsl)%nat A)) (snd (svd (length ce) (n + nsl)%nat A))) ->
  / 10 ^ 15 <= thr -> 0 < delta -> length ae = length ce -> (nsl <= length ce)%nat -> in_bounds n lb ub x ->
  (forall i, (i < nsl)%nat -> xle_r (lb (n + i)%nat) (sl i) /\ rle_x (sl i) (ub (n + i)%nat)) ->
  (exists d, better_step n nsl lb ub M0 g ce ae x delta d) ->
  step_lib ms chol slv eig svd pin tol oinf dxmin gi n nsl lb ub thr M0 ce ae sl fuel x delta g lm = TrOut o ->
  exists i, (i < n)%nat /\ tr_x o i <> x i.
Proof.
  intros A. destruct (step8 10) as (o & E & _ & X0).
  destruct (A mst cholx slvx eig5 svd7 pin5 0 PInf 0 vzero 1%nat 1%nat lb7 ub7 (/ 10 ^ 7) (fun _ _ => 0) [0] [unitv 0] vzero 11%nat vzero 1 g8 vzero ep o) as (i & Hi & N);
    [exact cholx_exact|exact slvx_exact|exact mst_sound| |exact mst_never|exact eig5_convex|exact svd7_orth|exact (svd8 0)| | |reflexivity| |exact in7|exact sl7|exists (unitv 0); exact better8|exact E|].
  - pose proof ep_pos. split; [lra|]. unfold ep. lra.
  - apply Rinv_le_contravar; [apply pow_lt; lra|apply Rle_pow; [lra|lia]].
  - lra.
  - cbn. lia.
  - assert (i = 0%nat) by lia. subst i. apply N. exact X0.
Qed.

(** ** x = -1 wanted from x = 0, and the unconstrained solver ends in the hard case *)
Definition at9 (k : nat) (g : vec) (A : mat) (D : R) : bool :=
  (k =? 2)%nat && Reqb (g 0%nat) 1 && Reqb (g 1%nat) 0 && Reqb (A 0%nat 0%nat) 1 && Reqb (A 0%nat 1%nat) 0 && Reqb (A 1%nat 0%nat) 0 && Reqb (A 1%nat 1%nat) 0 && Reqb D 2.
Definition d9 : vec := fun i => if (i =? 0)%nat then -1 else sqrt 3.
Definition ms9 (j k : nat) (g : vec) (A : mat) (D : R) : option ms_out :=
  if at9 k g A D then Some (mkms d9 0 2 (-1 / 2) vzero 0 1 MsBoundary true) else None.

Lemma at9_spec k g A D : at9 k g A D = true -> k = 2%nat /\ g 0%nat = 1 /\ g 1%nat = 0 /\ A 0%nat 0%nat = 1 /\ A 0%nat 1%nat = 0 /\ A 1%nat 0%nat = 0 /\ A 1%nat 1%nat = 0 /\ D = 2.
Proof. unfold at9. rewrite !andb_true_iff, !Reqb_true, Nat.eqb_eq. tauto. Qed.
Lemma at9_of g A D : g 0%nat = 1 -> g 1%nat = 0 -> A 0%nat 0%nat = 1 -> A 0%nat 1%nat = 0 -> A 1%nat 0%nat = 0 -> A 1%nat 1%nat = 0 -> D = 2 -> at9 2 g A D = true.
Proof. unfold at9. rewrite !andb_true_iff, !Reqb_true. cbn [Nat.eqb]. tauto. Qed.

Lemma d9_norm : norm 2 d9 = 2.
Proof. unfold norm, dot, d9. cbn. replace (0 + -1 * -1 + sqrt 3 * sqrt 3) with (2 * 2) by (rewrite sqrt_sqrt by lra; ring). apply sqrt_square. lra. Qed.

Lemma ms9_sound : ms_sound ms9 ep.
Proof.
  intros j k g A D o SA D0 E. unfold ms9 in E. destruct (at9 k g A D) eqn:T; [|discriminate]. injection E as <-.
  destruct (at9_spec _ _ _ _ T) as (-> & G0 & G1 & A00 & A01 & A10 & A11 & ->). split; cbn [ms_s ms_lambda ms_hard].
  - rewrite d9_norm. pose proof ep_pos. lra.
  - intros _. split; [lra|]. split; [|split; [|split]].
    + intros i Hi. unfold mv, d9. cbn. destruct (two_cases i Hi) as [-> | ->]; rewrite ?G0, ?G1, ?A00, ?A01, ?A10, ?A11; cbn; ring.
    + intros y. unfold quad, dot, mv. cbn. rewrite A00, A01, A10, A11. nra.
    + discriminate.
    + destruct (Req_EM_T (norm 2 g) 0) as [Z|Z]; [|pose proof (norm_nonneg 2 g); lra]. rewrite norm_zero in Z. specialize (Z 0%nat ltac:(lia)). unfold vzero in Z. lra.
Qed.

Lemma rest9 A h lo hi : A 0%nat 0%nat = 1 -> A 0%nat 1%nat = 0 -> A 1%nat 0%nat = 0 -> A 1%nat 1%nat = 0 -> h 0%nat = 1 -> h 1%nat = 0 ->
  lo 0%nat = Fin (-10) -> lo 1%nat = Fin 0 -> hi 0%nat = Fin 10 -> hi 1%nat = PInf ->
  exists b, solve_bcx ms9 cholx slvx 2 A lo hi h 2 = Some (Some b) /\ bc_s b 0%nat = -1 /\ bc_s b 1%nat = sqrt 3 /\ bc_end b = BcInterior.
Proof.
  intros A00 A01 A10 A11 H0 H1 L0 L1 U0 U1. destruct (t_refines ms9 cholx slvx 2 A lo hi h 2) as (hom & ->). unfold solve_bc.
  pose proof eps_pos as EP. assert (EB : bc_eps <= 1) by exact (tiny_le 5). pose proof tiny_pos as TP. assert (TB : bc_tiny <= 1) by exact (tiny_le 10).
  assert (C0 : g_crit lo hi h 0 = false).
  { unfold g_crit, xabs_le, xler. rewrite H0, L0, U0. rewrite (Rabs_left (-10)) by lra. rewrite (proj2 (Rleb_false (- -10) bc_tiny)), (proj2 (Rleb_false 10 bc_tiny)) by lra. rewrite !andb_false_r. reflexivity. }
  assert (C1 : g_crit lo hi h 1 = false).
  { unfold g_crit. rewrite H1. rewrite (proj2 (Rltb_false 0 0)) by lra. reflexivity. }
  cbn [seq filter]. rewrite C0, C1. change (complement 2 []) with [0%nat; 1%nat]. cbn [bc_outer length]. cbn [ms_calls].
  unfold ms_part at 1. unfold ms9 at 1. cbn [length]. rewrite (at9_of (sub_vec [0%nat; 1%nat] h) (sub_mat [0%nat; 1%nat] A) 2) by assumption || reflexivity.
  cbn [ms_s ms_gplus]. set (sa := vadd vzero _).
  assert (S0 : sa 0%nat = -1) by (unfold sa, vadd, vzero, expand, idm, d9; cbn; ring).
  assert (S1 : sa 1%nat = sqrt 3) by (unfold sa, vadd, vzero, expand, idm, d9; cbn; ring).
  assert (Q3 : 1 < sqrt 3) by (rewrite <- sqrt_1 at 1; apply sqrt_lt_1; lra).
  assert (UC : filter (u_crit hi sa) [0%nat; 1%nat] = []).
  { cbn [filter]. unfold u_crit, above, xler, xsub. rewrite U0, U1. cbn [andb]. rewrite (proj2 (Rleb_false 10 bc_tiny)) by lra. rewrite andb_false_r. reflexivity. }
  assert (LC : filter (l_crit lo sa) [0%nat; 1%nat] = []).
  { cbn [filter]. unfold l_crit, below, rlex. rewrite L0, L1, S0, S1. rewrite (proj2 (Rleb_false (-1 - bc_eps) (-10))), (proj2 (Rleb_false (sqrt 3 - bc_eps) 0)) by lra. reflexivity. }
  rewrite UC, LC. cbn [app]. 
  assert (OB : existsb (out_by lo hi 0 sa) [0%nat; 1%nat] = false).
  { cbn [existsb]. unfold out_by, rlex, xler. rewrite L0, L1, U0, U1, S0, S1.
    rewrite (proj2 (Rleb_true (-1 - 0) 10)), (proj2 (Rleb_true (-10) (-1 + 0))), (proj2 (Rleb_true 0 (sqrt 3 + 0))) by lra. reflexivity. }
  rewrite OB. eexists. split; [reflexivity|]. cbn [bc_s bc_end]. auto.
Qed.

Notation run9 fu := (step_lib ms9 cholx slvx eig5 svd7 pin5 0 PInf 0 vzero 1 1 lb7 ub7 (/ 10 ^ 7) (fun _ _ => 0) [1] [unitv 0] vzero fu vzero 2 vzero vzero).
Lemma step9 fu : exists o, run9 (S fu) = TrOut o /\ tr_sl o 0%nat = sqrt 3.
Proof.
  unfold step_lib, solve_con. rewrite act7, con7. destruct (one7 1) as (a & EA & HA). rewrite EA. cbn [map app length]. cbn [tr_loop].
  set (s0 := mkst _ _ _ _ _ _ _ _ _ _).
  assert (RE : exists r rp ac, restoration (restore_lib ms9 cholx slvx) (cvx_lib eig5 (1 + 1)) 1 1 lb7 ub7 vzero 1 s0 = Some (r, rp, ac) /\ r 0%nat = -1 /\ r 1%nat = sqrt 3).
  { unfold restoration, s0. cbn [s_con s_gcon s_rpred s_x s_del]. set (h := rows_t _ _).
    assert (H0 : h 0%nat = 1) by (unfold h, rows_t; cbn; rewrite HA; cbn; ring). assert (H1 : h 1%nat = 0) by (unfold h, rows_t; cbn; rewrite HA; cbn; ring).
    assert (NG : Rltb (/ 10 ^ 14) (norm (dim 1 1) h) = true).
    { apply Rltb_true. assert (N1 : norm (dim 1 1) h = 1).
      { unfold norm, dot, dim. change (1 + 1)%nat with 2%nat. cbn [rsum]. rewrite H0, H1. replace (0 + 1 * 1 + 0 * 0) with 1 by ring. apply sqrt_1. }
      rewrite N1. rewrite <- Rinv_1. apply Rinv_lt_contravar; [rewrite Rmult_1_l; apply pow_lt; lra|]. apply Rlt_pow_R1; [lra|lia]. }
    rewrite NG. cbn [Nat.eqb andb]. change (cvx_lib eig5 (1 + 1) (rows_gram [a])) with (rows_gram [a]). unfold restore_lib. change (dim 1 1) with 2%nat.
    destruct (rest9 (rows_gram [a]) h (fun i => xsub (lb7 i) (join 1 vzero vzero i)) (fun i => xsub (ub7 i) (join 1 vzero vzero i))) as (b & EB & B0 & B1 & _);
      try assumption; try (unfold rows_gram; cbn; rewrite !HA; cbn; ring); try (unfold lb7, ub7, join, vzero; cbn; try reflexivity; f_equal; ring).
    rewrite EB. eexists _, _, _. split; [reflexivity|]. split; assumption. }
  destruct RE as (r & rp & ac & -> & R0 & R1). change (1 + 1)%nat with 2%nat.
  destruct (tan7 (20 * (2 - 1)) [a] a s0 r eq_refl eq_refl HA eq_refl eq_refl) as (act & TE). rewrite TE.
  set (t := mv 1 _ vzero). assert (T0 : t 0%nat = 0) by (apply zero7; lia). assert (T1 : t 1%nat = 0) by (apply zero7; lia). clearbody t.
  set (y := vadd (vadd (s_x s0) r) t). assert (Y0 : y 0%nat = -1) by (unfold y, vadd, s0, vzero; cbn; rewrite R0, T0; ring).
  rewrite scan7 by (rewrite Y0; lra). unfold choose.
  assert (NZ : Rleb (norm 1 (vadd r t)) (/ 10 ^ 16) = false).
  { apply Rleb_false. assert (N1 : norm 1 (vadd r t) = 1) by (unfold norm, dot, vadd; cbn [rsum]; rewrite R0, T0; replace (0 + (-1 + 0) * (-1 + 0)) with 1 by ring; apply sqrt_1).
    rewrite N1. rewrite <- Rinv_1. apply Rinv_lt_contravar; [rewrite Rmult_1_l; apply pow_lt; lra|]. apply Rlt_pow_R1; [lra|lia]. }
  rewrite NZ. unfold s0. cbn [s_x s_con s_gcon s_fix s_g s_del s_slnew s_lm s_rpred s_moves Nat.eqb].
  eexists. split; [reflexivity|]. cbn [tr_sl].
  unfold clip, vadd, slpart, ub7, lb7, rlex, xler, vzero. cbn [Nat.add Nat.eqb negb]. rewrite R1, T1.
  assert (Q3 : 0 <= sqrt 3) by apply sqrt_pos. rewrite (proj2 (Rleb_true 0 _)) by lra. cbn [negb]. ring.
Qed.

Lemma r_hard : ~ forall ms chol slv eig svd pin tol oinf dxmin gi n nsl lb ub thr M0 ce ae sl fuel x delta g lm eps q o,
  (q < nsl)%nat -> sl q = 0 -> lb (n + q)%nat = Fin 0 -> 0 <= delta -> eig_convex eig -> ms_sound ms eps ->
  (forall rows k Z, null_lib svd (n + nsl) rows = Some (k, Z) -> spans_free (n + nsl) rows k Z) ->
  in_bounds n lb ub x -> (forall i, (i < nsl)%nat -> xle_r (lb (n + i)%nat) (sl i) /\ rle_x (sl i) (ub (n + i)%nat)) ->
  step_lib ms chol slv eig svd pin tol oinf dxmin gi n nsl lb ub thr M0 ce ae sl fuel x delta g lm = TrOut o -> tr_sl o q = 0.
Proof.
  intros A. destruct (step9 10) as (o & E & X).
  assert (Z : tr_sl o 0%nat = 0).
  { refine (A ms9 cholx slvx eig5 svd7 pin5 0 PInf 0 vzero 1%nat 1%nat lb7 ub7 (/ 10 ^ 7) (fun _ _ => 0) [1] [unitv 0] vzero 11%nat vzero 2 vzero vzero ep 0%nat o _ _ _ _ eig5_convex ms9_sound (svd7_spans _) in7 sl7 E); [lia|reflexivity|reflexivity|lra]. }
  rewrite X in Z. pose proof (sqrt_lt_R0 3). lra.
Qed.

(** a run with all the hypotheses *)
Lemma step10 : exists o, step_lib mst cholx slvx eig5 svd7 pin5 0 PInf 0 vzero 1 1 lb7 ub7 (/ 10 ^ 7) (fun _ _ => 0) [1] [unitv 0] vzero 11 vzero 2 vzero vzero = TrOut o.
Proof.
  apply lib_ends; try lia.
  - cbn. lia.
  - apply Rinv_le_contravar; [apply pow_lt; lra|apply Rle_pow; [lra|lia]].
  - exact ord7.
  - exact cholx_exact.
  - exact slvx_exact.
  - exact mst_total.
  - exact pin5_total.
  - exact in7.
  - exact sl7.
Qed.

Lemma adj_ex : (0 < 1)%nat /\ (1 <= 1)%nat /\ vzero 0%nat = 0 /\ 1 / 100 < (fun _ : nat => 1) (1 - 1 + 0)%nat.
Proof. repeat split; try lia. lra. Qed.
Lemma axes_ex : svd_exact (length [unitv 0]) 2 (rows_mat [unitv 0]) (fun _ => 1) idm.
Proof. apply row_like; reflexivity. Qed.
