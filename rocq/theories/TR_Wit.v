(** Top-level lemmas and witnesses for the constrained trust-region step. *)
From Coq Require Import Reals List Arith Lia Lra Bool ZArith.
From Verif Require Import RVec RBool Tri ProjGrad_Spec BC_Model BC_More CG_Model CG_Proofs TR_Model TR_Spec TR_Proofs.
Import ListNotations.
Open Scope R_scope.

Lemma norm_move n x s : norm n (vsub (vadd x s) x) = norm n s.
Proof. apply norm_ext. intros i _. unfold vsub, vadd. ring. Qed.

Section Top.
Variable restore : nat -> vec -> mat -> (nat -> xR) -> (nat -> xR) -> R -> option (vec * rmsg).
Variable cvx : mat -> mat.
Variable null : list vec -> option (nat * mat).
Variable cg : nat -> mat -> vec -> R -> option (vec * bool).
Variable mult : nat -> vec -> option vec.
Variables (n nsl : nat) (lb ub : nat -> xR) (thr : R).
Variables (M0 : mat) (ce : list R) (ae : list vec) (sl : vec).
Variables (fuel : nat) (x : vec) (delta : R) (g lm : vec).
Notation run := (solve_con restore cvx null cg mult n nsl lb ub thr M0 ce ae sl fuel x delta g lm).

Lemma con0_length : length (con0 nsl ce sl) = length ce.
Proof. unfold con0, me. rewrite map_length, combine_length, seq_length. lia. Qed.

Lemma t_terminates : (0 < n)%nat -> (10 * n + (n + nsl - length ce) <= fuel)%nat -> run <> TrFuel.
Proof.
  intros N F. unfold solve_con. apply terminates; [exact N|lia| |].
  - cbn. rewrite app_length, con0_length. unfold me. lia.
  - unfold dim, me. destruct (Nat.ltb_spec 1 (10 * n)); lia.
Qed.

Lemma t_passes o : (0 < n)%nat -> (10 * n + (n + nsl - length ce) <= fuel)%nat -> run = TrOut o ->
  (1 <= tr_passes o <= 10 * n + (n + nsl - length ce))%nat.
Proof.
  intros N F E. unfold solve_con in E. set (s := mkst _ _ _ _ _ _ _ _ _ _) in E.
  assert (NF : tr_loop restore cvx null cg mult n nsl lb ub thr M0 ce sl (10 * n + (n + nsl - length ce)) 1 s <> TrFuel).
  { apply terminates; [exact N|lia| |].
    - unfold s. cbn. rewrite app_length, con0_length. unfold me. lia.
    - unfold dim, me. destruct (Nat.ltb_spec 1 (10 * n)); lia. }
  rewrite <- (more_fuel restore cvx null cg mult n nsl lb ub thr M0 ce sl _ fuel 1 s F NF) in E. apply passes_le in E. lia.
Qed.

Lemma t_bounds : / 10 ^ 15 <= thr -> ordered n lb ub -> keeps_bounds restore ->
  (forall i, (i < nsl)%nat -> xle_r (lb (n + i)%nat) (sl i) /\ rle_x (sl i) (ub (n + i)%nat)) -> in_bounds n lb ub x ->
  run <> TrInfinite /\ forall o, run = TrOut o -> violates_at_most n lb ub (Rmax thr (/ 10 ^ 7)) (tr_x o).
Proof.
  intros T O K SI X. unfold solve_con.
  set (s := mkst _ _ _ _ _ _ _ _ _ _).
  pose proof (loop_bounds restore cvx null cg mult n nsl lb ub thr M0 ce sl fuel 1 s T O K SI X) as L.
  split; [intros E; rewrite E in L; exact L|]. intros o E. rewrite E in L. exact L.
Qed.

Lemma t_raise : no_raise restore null cg mult -> run <> TrRaise.
Proof. intros H. unfold solve_con. apply loop_raise, H. Qed.

Lemma t_length o : 0 <= delta -> / 10 ^ 15 <= thr -> keeps_bounds restore ->
  (forall i, (i < nsl)%nat -> xle_r (lb (n + i)%nat) (sl i) /\ rle_x (sl i) (ub (n + i)%nat)) -> in_bounds n lb ub x ->
  restore_short restore -> cg_short cg -> null_orth (n + nsl) null -> run = TrOut o ->
  norm n (vsub (tr_x o) x) <= 2 * delta /\ 0 <= tr_delta o <= delta.
Proof.
  intros D T K SI X RS CS NO E. unfold solve_con in E. set (s := mkst _ _ _ _ _ _ _ _ _ _) in E.
  pose proof (loop_length restore cvx null cg mult n nsl lb ub thr M0 ce sl fuel 1 s x delta (le_n 1) T K SI X RS CS NO) as L.
  rewrite E in L. apply L; [|intros _; split; reflexivity]. unfold far, s; cbn. split; [lra|].
  assert (N0 : norm n (vsub x x) = 0) by (apply norm_zero; intros i _; unfold vsub, vzero; ring). lra.
Qed.

Lemma t_moves o : run = TrOut o -> forall i, tr_x o i = x i + sumv (tr_moves o) i.
Proof.
  intros E. unfold solve_con in E. set (s := mkst _ _ _ _ _ _ _ _ _ _) in E.
  pose proof (loop_moves restore cvx null cg mult n nsl lb ub thr M0 ce sl fuel 1 s x) as L. rewrite E in L. apply L.
  intros i. cbn. ring.
Qed.

Lemma t_feasible_end : / 10 ^ 15 <= thr -> forall o, run = TrOut o -> tr_end o = TrFeasible -> 
  forall i, (i < n)%nat -> xle_r (lb i) (tr_x o i + thr).
Proof.
  intros T. unfold solve_con. set (s := mkst _ _ _ _ _ _ _ _ _ _). clearbody s. generalize 1%nat as k. revert s.
  induction fuel as [|f IH]; intros s k o E EN i Hi; [discriminate|].
  destruct (pass restore cvx null cg mult n nsl lb ub thr M0 ce sl k s) as [(res & E' & B)|(s' & E' & B)]; rewrite E' in E.
  - subst res. destruct B as (r & t & rp & actr & actt & v & xa & (_ & _ & B3) & X1 & _ & _ & TAG & _). rewrite EN in TAG. destruct TAG as [-> _].
    destruct (scan_none _ _ _ _ _ _ _ B3 i ltac:(lia)) as [U _]. rewrite X1. destruct (lb i); cbn in *; [rb; lra|discriminate|exact I].
  - exact (IH _ _ _ E EN i Hi).
Qed.

Lemma t_unc : keeps_bounds restore -> in_bounds n lb ub x ->
  forall y d a, solve_unc restore n lb ub M0 x delta g = Some (y, d, a) ->
    in_bounds n lb ub y /\ d = delta /\ (a = true <-> delta <= norm n (vsub y x)).
Proof.
  intros KB X y d a E. unfold solve_unc in E. destruct (restore _ _ _ _ _ _) as [[s m]|] eqn:R; [|discriminate].
  injection E as <- <- <-. split; [|split; [reflexivity|]].
  2:{ rewrite negb_true_iff, Rltb_false, norm_move. split; exact (fun h => h). }
  apply KB in R.
  - intros i Hi. specialize (R i Hi). rewrite xsub_l, xsub_u in R. exact R.
  - intros i Hi. rewrite xsub_l, xsub_u. unfold vzero. rewrite Rplus_0_r. apply X, Hi.
Qed.
End Top.

(** the real solvers meet the hypotheses *)
Lemma bounds_of ms hom : keeps_bounds (restore_of ms hom).
Proof.
  intros k g A l u D r m Z E. unfold restore_of in E. destruct (solve_bc ms hom k A l u g D) as [[o|]|] eqn:S; try discriminate.
  injection E as <- _. exact (t_feasible _ _ _ _ _ _ _ _ _ Z S).
Qed.
Lemma short_of m tol : cg_short (cg_of m tol).
Proof. intros k A b D u a Z E. unfold cg_of in E. injection E as <- _. apply cg_inside, Z. Qed.

(** a variable at a bound that the step does not move makes the ratio zero *)
Lemma stall n nsl lb ub y t i : (i < n + nsl)%nat -> in_bounds (n + nsl) lb ub y -> Rabs (t i) < / 10 ^ 15 ->
  lb i = Fin (y i) \/ ub i = Fin (y i) -> minratio n nsl lb ub y t = Fin 0.
Proof.
  intros Hi Y T B. pose proof (ratio_nonneg n nsl lb ub y t Y) as NN.
  pose proof e15 as E. apply Rabs_def2 in T.
  assert (D : divisor (t i) = / 10 ^ 15 /\ divisor (- t i) = / 10 ^ 15).
  { unfold divisor, small. rewrite !(proj2 (Rltb_true _ _)) by lra. split; reflexivity. }
  destruct D as [D1 D2].
  assert (L : xleq (minratio n nsl lb ub y t) (Fin 0)).
  { unfold minratio. apply fold_min. destruct B as [B|B].
    - apply (in_ratios n nsl lb ub y t i _ Hi). right. rewrite D2, B. split; [exact E|]. cbn. f_equal. field.
    - apply (in_ratios n nsl lb ub y t i _ Hi). left. rewrite D1, B. split; [exact E|]. cbn. f_equal. field. }
  destruct (minratio n nsl lb ub y t); cbn in *; try contradiction. f_equal. lra.
Qed.

(** test solvers that keep to bounds and radius by construction *)
Definition guard (d : vec) (k : nat) (_ : vec) (_ : mat) (l u : nat -> xR) (D : R) : option (vec * rmsg) :=
  if (forallb (fun i => xler (l i) (d i) && rlex (d i) (u i)) (seq 0 k) && Rleb (norm k d) D)%bool then Some (d, MsgOther) else Some (vzero, MsgOther).
Lemma guard_bounds d : keeps_bounds (guard d).
Proof.
  intros k g A l u D r m Z E. unfold guard in E. destruct (forallb _ _) eqn:F; cbn [andb] in E; [|injection E as <- _; exact Z].
  destruct (Rleb _ _); [|injection E as <- _; exact Z]. injection E as <- _. rewrite forallb_forall in F. intros i Hi.
  specialize (F i ltac:(apply in_seq; lia)). apply andb_prop in F. rewrite xler_true, rlex_true in F. exact F.
Qed.
Lemma guard_short d : restore_short (guard d).
Proof.
  intros k g A l u D r m Z E. unfold guard in E.
  assert (norm k vzero <= D) by (rewrite (norm_vzero k); exact Z).
  destruct (_ && _)%bool eqn:F; injection E as <- _; [|assumption]. apply andb_prop in F. destruct F as [_ F]. rb. exact F.
Qed.
(** the boundary in the first direction: what conjugate gradients answer without curvature *)
Definition edge (_ : nat) (_ : mat) (_ : vec) (D : R) : option (vec * bool) := Some (fun i => if (i =? 0)%nat then D else 0, true).
Lemma norm_first k D : 0 <= D -> norm k (fun i => if (i =? 0)%nat then D else 0) <= D.
Proof.
  intros Z. destruct k as [|k]; [change (norm 0 _) with (sqrt 0); rewrite sqrt_0; exact Z|].
  unfold norm, dot. rewrite (rsum_single (S k) 0); [|lia|intros i _ NE; destruct (Nat.eqb_spec i 0); [lia|ring]].
  rewrite Nat.eqb_refl, sqrt_square by exact Z. lra.
Qed.
Lemma edge_short : cg_short edge.
Proof. intros k A b D u a Z E. injection E as <- _. apply norm_first, Z. Qed.

(** *** the restoration and the tangential step each use the whole radius *)
Definition loi : nat -> xR := fun _ => NInf.
Definition hii : nat -> xR := fun _ => PInf.
Definition back1 : vec := fun i => if (i =? 0)%nat then -1 else 0.
Definition nullA (_ : list vec) : option (nat * mat) := Some (1%nat, fun i _ => if (i =? 1)%nat then 1 else 0).
Definition multz (_ : nat) (_ : vec) : option vec := Some vzero.
Definition zmat : mat := fun _ _ => 0.

Lemma nullA_orth : null_orth 2 nullA.
Proof.
  intros rows k Z E. injection E as <- <-. intros a b Ha Hb. assert (a = 0%nat) by lia. assert (b = 0%nat) by lia. subst. unfold idm. cbn. ring.
Qed.

Lemma e16 : 0 < / 10 ^ 16 < / 100.
Proof. split; [apply small16|]. apply Rinv_lt_contravar; [apply Rmult_lt_0_compat; [lra|apply pow_lt; lra]|]. replace 100 with (10 ^ 2) by ring. apply Rlt_pow; [lra|lia]. Qed.
Lemma e14 : 0 < / 10 ^ 14 < / 100.
Proof. split; [apply Rinv_0_lt_compat, pow_lt; lra|]. apply Rinv_lt_contravar; [apply Rmult_lt_0_compat; [lra|apply pow_lt; lra]|]. replace 100 with (10 ^ 2) by ring. apply Rlt_pow; [lra|lia]. Qed.
Lemma e8 : 0 < / 10 ^ 8 < / 100.
Proof. split; [apply Rinv_0_lt_compat, pow_lt; lra|]. apply Rinv_lt_contravar; [apply Rmult_lt_0_compat; [lra|apply pow_lt; lra]|]. replace 100 with (10 ^ 2) by ring. apply Rlt_pow; [lra|lia]. Qed.
Lemma e7 : 0 < / 10 ^ 7 < / 100.
Proof. split; [apply Rinv_0_lt_compat, pow_lt; lra|]. apply Rinv_lt_contravar; [apply Rmult_lt_0_compat; [lra|apply pow_lt; lra]|]. replace 100 with (10 ^ 2) by ring. apply Rlt_pow; [lra|lia]. Qed.
Lemma e15' : 0 < / 10 ^ 15 < / 100.
Proof. split; [apply e15|]. apply Rinv_lt_contravar; [apply Rmult_lt_0_compat; [lra|apply pow_lt; lra]|]. replace 100 with (10 ^ 2) by ring. apply Rlt_pow; [lra|lia]. Qed.
Lemma e15_8 : / 10 ^ 15 <= / 10 ^ 8.
Proof. apply Rinv_le_contravar; [apply pow_lt; lra|]. apply Rle_pow; [lra|lia]. Qed.

Lemma double_case : exists o, solve_con (guard back1) (fun A => A) nullA edge multz 2 0 loi hii (/ 10 ^ 8) zmat [1] [unitv 0] vzero 100 vzero 1 vzero vzero = TrOut o /\
  dot 2 (vsub (tr_x o) vzero) (vsub (tr_x o) vzero) = 2.
Proof.
  pose proof e16. pose proof e14.
  unfold solve_con. set (s := mkst _ _ _ _ _ _ _ _ _ _).
  assert (AC : active0 2 0 loi hii [1] [unitv 0] vzero vzero vzero vzero = []) by reflexivity.
  assert (CON : s_con s = [1]) by (unfold s; rewrite AC; reflexivity).
  assert (G1 : forall j, (j < 2)%nat -> rows_t (s_con s) (s_gcon s) j = unitv 0 j).
  { intros j Hj. rewrite CON. unfold s. rewrite AC. cbn [map app s_gcon]. unfold gcon0, rows_t. cbn.
    destruct j as [|[|j]]; [cbn; ring|cbn; ring|lia]. }
  assert (N1 : norm 2 back1 = 1) by (unfold norm, dot, back1; cbn; transitivity (sqrt 1); [f_equal; ring|apply sqrt_1]).
  assert (R : exists rp a, restoration (guard back1) (fun A => A) 2 0 loi hii vzero 1 s = Some (back1, rp, a)).
  { unfold restoration. change (1 =? 1)%nat with true. cbn [andb].
    change (dim 2 0) with 2%nat.
    assert (NG : norm 2 (rows_t (s_con s) (s_gcon s)) = 1).
    { rewrite (norm_ext 2 _ _ G1). unfold norm, dot, unitv. cbn. transitivity (sqrt 1); [f_equal; ring|apply sqrt_1]. }
    rewrite NG, (proj2 (Rltb_true _ _)) by lra. unfold guard.
    change (forallb _ (seq 0 2)) with true. change (s_del s) with 1. rewrite N1, (proj2 (Rleb_true _ _)) by lra. cbn [andb]. eexists. eexists. reflexivity. }
  destruct R as (rp & ar & R).
  assert (T : exists t, tangent nullA edge 2 0 zmat s back1 = Some (t, true) /\ t 0%nat = 0 /\ t 1%nat = 1).
  { unfold tangent. rewrite CON. cbn [length Nat.ltb Nat.leb dim Nat.add nullA edge]. eexists. split; [reflexivity|]. unfold mv. cbn. split; ring. }
  destruct T as (t & T & T0 & T1).
  assert (SC : scan loi hii (/ 10 ^ 8) 2 0 (vadd (vadd (s_x s) back1) t) = (None, [])) by reflexivity.
  change 100%nat with (S 99). generalize 99%nat as f. intros f. cbn [tr_loop]. rewrite R, T, SC.
  unfold choose. rewrite (proj2 (Rleb_false _ _)).
  2:{ apply Rlt_trans with (/ 100); [lra|]. unfold norm, dot, vadd, back1. cbn. rewrite T0, T1.
      rewrite <- (sqrt_square (/ 100)) by lra. apply sqrt_lt_1; lra. }
  eexists. split; [reflexivity|]. cbn [tr_x]. change (s_x s) with vzero. unfold dot, vsub, vadd, vzero, back1. cbn. rewrite T0, T1. ring.
Qed.

Lemma r_radius_step : ~ forall restore cvx null cg mult n nsl lb ub thr M0 ce ae sl fuel x delta g lm o,
  keeps_bounds restore -> restore_short restore -> cg_short cg -> null_orth (n + nsl) null -> 0 <= delta -> / 10 ^ 15 <= thr ->
  in_bounds n lb ub x -> nsl = 0%nat -> solve_con restore cvx null cg mult n nsl lb ub thr M0 ce ae sl fuel x delta g lm = TrOut o ->
  norm n (vsub (tr_x o) x) <= delta.
Proof.
  intros F. destruct double_case as (o & E & D).
  assert (X : norm 2 (vsub (tr_x o) vzero) <= 1).
  { apply (F _ _ _ _ _ 2%nat 0%nat _ _ _ _ _ _ _ _ _ _ _ _ o (guard_bounds back1) (guard_short back1) edge_short nullA_orth) with (5 := E); [lra|apply e15_8| |reflexivity].
    intros i Hi. cbn. auto. }
  unfold norm in X. rewrite D in X. pose proof (sqrt_sqrt 2 ltac:(lra)). pose proof (sqrt_pos 2). nra.
Qed.

(** *** stalled step and slack counted without shortening *)
Definition lo3 : nat -> xR := fun i => if (i <? 2)%nat then Fin (-1) else NInf.
Definition hi3 : nat -> xR := fun i => if (i <? 2)%nat then Fin 1 else PInf.
Definition nullB (rows : list vec) : option (nat * mat) :=
  Some (1%nat, if (length rows =? 1)%nat then (fun i _ => if (i =? 0)%nat then 1 else 0)
               else (fun i _ => match i with 1%nat => 3 / 5 | 2%nat => 4 / 5 | _ => 0 end)).
Lemma nullB_orth : null_orth 3 nullB.
Proof.
  intros rows k Z E. injection E as <- <-. intros a b Ha Hb. assert (a = 0%nat) by lia. assert (b = 0%nat) by lia. subst. unfold idm.
  destruct (length rows =? 1)%nat; cbn; field.
Qed.
Definition gneg : vec := fun _ => -1.

Lemma norm2_first a (v : vec) : 0 <= a -> v 0%nat = a -> v 1%nat = 0 -> norm 2 v = a.
Proof. intros A E0 E1. unfold norm, dot. cbn. rewrite E0, E1. transitivity (sqrt (a * a)); [f_equal; ring|apply sqrt_square, A]. Qed.

Definition loop3 := tr_loop (guard vzero) (fun A => A) nullB edge multz 2 1 lo3 hi3 (/ 10 ^ 8) zmat [0] vzero.

Lemma stall_case : exists o, solve_con (guard vzero) (fun A => A) nullB edge multz 2 1 lo3 hi3 (/ 10 ^ 8) zmat [0] [vzero] vzero 100 vzero 4 gneg vzero = TrOut o /\
  tr_end o = TrSigns /\ tr_x o 0%nat = 1 /\ tr_x o 1%nat = 0 /\ tr_sl o 0%nat = 14 / 5 /\ sumv (tr_moves o) 2%nat = 0 /\ tr_passes o = 3%nat.
Proof.
  pose proof e16 as E16. pose proof e14 as E14. pose proof e8 as E8. pose proof e7 as E7. pose proof e15' as E15.
  assert (E5 : 0 < / 10 ^ 5 < / 100).
  { split; [apply Rinv_0_lt_compat, pow_lt; lra|]. apply Rinv_lt_contravar; [apply Rmult_lt_0_compat; [lra|apply pow_lt; lra]|]. replace 100 with (10 ^ 2) by ring. apply Rlt_pow; [lra|lia]. }
  unfold solve_con. set (s := mkst _ _ _ _ _ _ _ _ _ _).
  assert (AC : active0 2 1 lo3 hi3 [0] [vzero] vzero vzero gneg vzero = []).
  { assert (C1 : forall i, close (/ 10 ^ 5) (vzero i) (lo3 i) = false).
    { intros i. unfold close, lo3. destruct (i <? 2)%nat; [|reflexivity]. apply Rltb_false. unfold vzero. rewrite Rabs_pos_eq; lra. }
    assert (C2 : forall i, close (/ 10 ^ 5) (vzero i) (hi3 i) = false).
    { intros i. unfold close, hi3. destruct (i <? 2)%nat; [|reflexivity]. apply Rltb_false. unfold vzero. rewrite Rabs_left; lra. }
    unfold active0. cbn [seq flat_map]. rewrite !C1, !C2, !andb_false_r. reflexivity. }
  assert (CON : s_con s = [0 - 0 ^ 2]) by (unfold s; rewrite AC; reflexivity).
  assert (LG : length (s_gcon s) = 1%nat) by (unfold s; rewrite AC; reflexivity).
  assert (R1 : restoration (guard vzero) (fun A => A) 2 1 lo3 hi3 vzero 1 s = Some (vzero, 0, false)).
  { unfold restoration. cbn [Nat.eqb andb].
    assert (NG : norm (dim 2 1) (rows_t (s_con s) (s_gcon s)) = 0).
    { apply norm_zero. intros j _. rewrite CON. unfold rows_t. destruct (s_gcon s) as [|a [|b l]]; try discriminate LG. cbn. unfold vzero. ring. }
    rewrite NG, (proj2 (Rltb_false _ _)) by lra. reflexivity. }
  assert (T1 : exists t, tangent nullB edge 2 1 zmat s vzero = Some (t, true) /\ t 0%nat = 4 /\ t 1%nat = 0 /\ t 2%nat = 0).
  { unfold tangent. rewrite CON. cbn [length Nat.ltb Nat.leb dim Nat.add]. unfold nullB. rewrite LG. cbn [edge Nat.eqb]. eexists. split; [reflexivity|].
    unfold mv. cbn. change (s_del s) with 4. repeat split; ring. }
  destruct T1 as (t & T1 & T10 & T11 & T12).
  assert (SC : scan lo3 hi3 (/ 10 ^ 8) 2 0 (vadd (vadd (s_x s) vzero) t) = (Some 0%nat, [])).
  { change (s_x s) with vzero. cbn [scan]. unfold under, close, over, lo3, hi3, vadd, vzero. cbn [Nat.ltb Nat.leb]. rewrite T10.
    rewrite (proj2 (Rltb_false _ _)) by lra. rewrite Rabs_pos_eq by lra. rewrite (proj2 (Rltb_false _ _)) by lra. rewrite (proj2 (Rltb_true _ _)) by lra. reflexivity. }
  assert (Y1 : in_bounds (2 + 1) lo3 hi3 (restored 2 vzero s vzero)).
  { intros i Hi. unfold restored, join, lo3, hi3, vadd, slpart, vzero. change (s_x s) with vzero. unfold vzero.
    destruct i as [|[|[|i]]]; cbn; try lra; try lia; auto. }
  assert (MR : minratio 2 1 lo3 hi3 (restored 2 vzero s vzero) t = Fin (/ 4)).
  { assert (D : divisor (t 0%nat) = 4) by (rewrite T10; apply div_cases; lra).
    assert (LE : xleq (minratio 2 1 lo3 hi3 (restored 2 vzero s vzero) t) (Fin (/ 4))).
    { unfold minratio. apply fold_min. apply (in_ratios 2 1 lo3 hi3 _ t 0); [cbn; lia|]. left. rewrite D. split; [lra|].
      unfold hi3, restored, join, vadd. change (s_x s) with vzero. unfold vzero. cbn. f_equal. field. }
    assert (GE : rle_x (/ 4) (minratio 2 1 lo3 hi3 (restored 2 vzero s vzero) t)).
    { unfold minratio. apply fold_ge. intros e I. unfold ratios in I. apply in_flat_map in I. destruct I as (i & Hi & I).
      apply in_seq in Hi. change (dim 2 1) with 3%nat in Hi.
      assert (BIG : / 4 <= 1 / / 10 ^ 15).
      { apply Rmult_le_reg_r with (/ 10 ^ 15); [lra|]. unfold Rdiv. rewrite Rmult_assoc, Rinv_l by lra. lra. }
      assert (DZ : forall d, d = 0 -> divisor d = / 10 ^ 15) by (intros d ->; unfold divisor, small; rewrite !(proj2 (Rltb_true _ _)) by lra; reflexivity).
      destruct i as [|[|[|i]]]; [| | |lia].
      - rewrite D in I. rewrite (proj2 (Rltb_true 0 4)) in I by lra.
        assert (DN : divisor (- t 0%nat) = -4) by (rewrite T10; unfold divisor, small; rewrite (proj2 (Rltb_true _ _)) by lra; rewrite (proj2 (Rltb_false _ _)) by lra; cbn [andb]; ring).
        rewrite DN in I. rewrite (proj2 (Rltb_false 0 (-4))) in I by lra. destruct I as [<-|[]]. unfold hi3, restored, join, vadd. change (s_x s) with vzero. unfold vzero. cbn. lra.
      - rewrite !(DZ (t 1%nat)), !(DZ (- t 1%nat)) in I by (rewrite T11; ring). rewrite (proj2 (Rltb_true 0 (/ 10 ^ 15))) in I by lra.
        cbn [app] in I. destruct I as [<-|[<-|[]]]; unfold hi3, lo3, restored, join, vadd; change (s_x s) with vzero; unfold vzero; cbn -[pow].
        + replace (1 - (0 + 0)) with 1 by ring. exact BIG.
        + replace (- -1 - - (0 + 0)) with 1 by ring. exact BIG.
      - apply in_app_or in I. destruct I as [I|I]; destruct (Rltb 0 _) in I; try contradiction; destruct I as [<-|[]]; exact Logic.I. }
    destruct (minratio 2 1 lo3 hi3 (restored 2 vzero s vzero) t); cbn in *; try contradiction. f_equal. lra. }
  assert (P1 : exists s3, (forall f, loop3 (S f) 1 s = loop3 f 2 s3) /\ s_x s3 0%nat = 1 /\ s_x s3 1%nat = 0 /\ length (s_con s3) = 2%nat /\
    length (s_gcon s3) = 2%nat /\ s_fix s3 = [0%nat] /\ s_del s3 = 7 / 2 /\ s_slnew s3 0%nat = 0 /\ (exists m, s_moves s3 = [m] /\ m 2%nat = 0)).
  { unfold loop3. cbn [tr_loop]. rewrite R1, T1, SC. 
    match goal with |- context [choose _ _ _ _ ?s1 _ _ _ _] => set (s2 := s1) end.
    assert (CH : choose multz 2 [0] 1 s2 (vadd (vadd (s_x s) vzero) t) (vadd vzero t) true [] = ChGo (s_lm s2) (s_fix s2) (s_con s2) (s_gcon s2)).
    { unfold choose. rewrite (norm2_first 4 (vadd vzero t)); [|lra|unfold vadd, vzero; lra|unfold vadd, vzero; lra].
      rewrite (proj2 (Rleb_false _ _)) by lra. reflexivity. }
    rewrite CH. clear CH.
    match goal with |- context [shorten _ _ _ _ _ _ _ _ ?s1 _ _ ?q] => set (s2' := s1); set (sln := q) end.
    unfold shorten. change (join 2 (vadd (s_x s2') vzero) (vadd vzero (slpart 2 vzero))) with (restored 2 vzero s vzero). rewrite MR.
    rewrite (proj2 (Rltb_false _ _)) by lra. eexists. split; [reflexivity|].
    cbn [s_x s_con s_gcon s_fix s_del s_slnew s_moves]. unfold s2', s2. cbn [s_x s_con s_gcon s_fix s_del s_slnew s_moves].
    change (s_x s) with vzero. change (s_moves s) with (@nil vec). change (s_fix s) with (@nil nat). change (s_del s) with 4. cbn [app].
    split; [unfold vadd, vscal, vzero; lra|]. split; [unfold vadd, vscal, vzero; lra|].
    split; [rewrite CON; reflexivity|]. split; [rewrite map_length, combine_length, seq_length, app_length, LG; reflexivity|].
    split; [reflexivity|]. split; [rewrite (norm2_first 1); [lra|lra|unfold vadd, vscal, vzero; lra|unfold vadd, vscal, vzero; lra]|].
    split; [cbn; unfold vadd, slpart, vscal, vzero; cbn; lra|]. eexists. split; [reflexivity|]. unfold vadd, vscal, vzero. lra. }
  destruct P1 as (s3 & P1 & A0 & A1 & A2 & A3 & A4 & A5 & A6 & m & A7 & A8).
  change 100%nat with (S (S (S 97))). generalize 97%nat as f1. intros f1. unfold loop3 in P1. rewrite P1. clear P1 MR Y1 SC T10 T11 T12 T1 R1 LG CON AC. clearbody s. clear t s.
  assert (T2 : exists t, tangent nullB edge 2 1 zmat s3 vzero = Some (t, true) /\ t 0%nat = 0 /\ t 1%nat = 21 / 10 /\ t 2%nat = 14 / 5).
  { unfold tangent. rewrite A2. cbn [Nat.ltb Nat.leb dim Nat.add]. unfold nullB. rewrite A3. cbn [edge Nat.eqb]. eexists. split; [reflexivity|].
    unfold mv. cbn. rewrite A5. repeat split; field. }
  destruct T2 as (t & T & T0 & T1 & T2).
  assert (R : restoration (guard vzero) (fun A => A) 2 1 lo3 hi3 vzero 2 s3 = Some (vzero, s_rpred s3, false)) by (apply rest_later; lia).
  assert (SC : scan lo3 hi3 (/ 10 ^ 8) 2 0 (vadd (vadd (s_x s3) vzero) t) = (Some 1%nat, [0%nat])).
  { cbn [scan]. unfold under, close, over, lo3, hi3, vadd, vzero. cbn [Nat.ltb Nat.leb]. rewrite T0, T1, A0, A1.
    rewrite !(proj2 (Rltb_false (1 + 0 + 0 - -1) _)) by lra. rewrite (Rabs_pos_eq (1 + 0 + 0 - -1)) by lra.
    rewrite !(proj2 (Rltb_false (1 + 0 + 0 - -1) _)) by lra. rewrite !(proj2 (Rltb_false _ (1 + 0 + 0 - 1))) by lra.
    replace (1 + 0 + 0 - 1) with 0 by ring. rewrite Rabs_R0, (proj2 (Rltb_true 0 _)) by lra.
    rewrite !(proj2 (Rltb_false (0 + 0 + 21 / 10 - -1) _)) by lra. rewrite (Rabs_pos_eq (0 + 0 + 21 / 10 - -1)) by lra.
    rewrite !(proj2 (Rltb_false (0 + 0 + 21 / 10 - -1) _)) by lra. rewrite !(proj2 (Rltb_true _ (0 + 0 + 21 / 10 - 1))) by lra. reflexivity. }
  assert (MR : minratio 2 1 lo3 hi3 (restored 2 vzero s3 vzero) t = Fin 0).
  { apply (stall 2 1 lo3 hi3 _ t 0); [lia| |rewrite T0, Rabs_R0; lra|].
    - intros i Hi. unfold restored, join, lo3, hi3, vadd, slpart, vzero. destruct i as [|[|[|i]]]; cbn; rewrite ?A0, ?A1; try lra; try lia; auto.
    - right. unfold hi3, restored, join, vadd, vzero. cbn. rewrite A0. f_equal. ring. }
  assert (P2 : exists s4, (forall f, loop3 (S f) 2 s3 = loop3 f 3 s4) /\ s_x s4 0%nat = 1 /\ s_x s4 1%nat = 0 /\ length (s_con s4) = 3%nat /\
    s_fix s4 = [0%nat; 1%nat] /\ s_del s4 = 7 / 2 /\ s_slnew s4 0%nat = 14 / 5 /\ (exists m', s_moves s4 = [m; m'] /\ m' 2%nat = 0)).
  { unfold loop3. cbn [tr_loop]. rewrite R, T, SC.
    match goal with |- context [choose _ _ _ _ ?s1 _ _ _ _] => set (s2 := s1) end.
    assert (CH : choose multz 2 [0] 2 s2 (vadd (vadd (s_x s3) vzero) t) (vadd vzero t) true [0%nat] = ChGo (s_lm s2) (s_fix s2) (s_con s2) (s_gcon s2)).
    { unfold choose. rewrite (proj2 (Rleb_false _ _)); [reflexivity|].
      pose proof (norm_entry 2 (vadd vzero t) 1 ltac:(lia)) as NE. unfold vadd at 1, vzero at 1 in NE. rewrite T1 in NE. rewrite Rabs_pos_eq in NE by lra. lra. }
    rewrite CH. clear CH.
    match goal with |- context [shorten _ _ _ _ _ _ _ _ ?s1 _ _ ?q] => set (s2' := s1); set (sln := q) end.
    unfold shorten. change (join 2 (vadd (s_x s2') vzero) (vadd vzero (slpart 2 vzero))) with (restored 2 vzero s3 vzero). rewrite MR.
    rewrite (proj2 (Rltb_false _ _)) by lra. eexists. split; [reflexivity|].
    cbn [s_x s_con s_gcon s_fix s_del s_slnew s_moves]. unfold s2', s2. cbn [s_x s_con s_gcon s_fix s_del s_slnew s_moves].
    rewrite A4, A5, A7, app_length, A2. cbn [app length Nat.add].
    split; [unfold vadd, vscal, vzero; lra|]. split; [unfold vadd, vscal, vzero; lra|].
    split; [reflexivity|]. split; [reflexivity|].
    split; [rewrite (norm2_first 0); [lra|lra|unfold vadd, vscal, vzero; lra|unfold vadd, vscal, vzero; lra]|].
    split; [unfold sln, clip, lo3, hi3; cbn; unfold vadd, slpart, vscal; cbn; rewrite A6, T2; lra|].
    eexists. split; [reflexivity|]. unfold vadd, vscal, vzero. lra. }
  clear R T SC MR T0 T1 T2 t A0 A1 A2 A3 A4 A5 A6 A7. destruct P2 as (s4 & P2 & A0 & A1 & A2 & A4 & A5 & A6 & m' & A7 & A9).
  unfold loop3 in P2. rewrite P2. clear P2 s3.
  assert (R : restoration (guard vzero) (fun A => A) 2 1 lo3 hi3 vzero 3 s4 = Some (vzero, s_rpred s4, false)) by (apply rest_later; lia).
  assert (T : tangent nullB edge 2 1 zmat s4 vzero = Some (vzero, false)) by (apply tan_full; rewrite A2; cbn; lia).
  assert (SC : scan lo3 hi3 (/ 10 ^ 8) 2 0 (vadd (vadd (s_x s4) vzero) vzero) = (None, [0%nat])).
  { cbn [scan]. unfold under, close, over, lo3, hi3, vadd, vzero. cbn [Nat.ltb Nat.leb]. rewrite A0, A1.
    rewrite !(proj2 (Rltb_false (1 + 0 + 0 - -1) _)) by lra. rewrite (Rabs_pos_eq (1 + 0 + 0 - -1)) by lra.
    rewrite !(proj2 (Rltb_false (1 + 0 + 0 - -1) _)) by lra. rewrite !(proj2 (Rltb_false _ (1 + 0 + 0 - 1))) by lra.
    replace (1 + 0 + 0 - 1) with 0 by ring. rewrite Rabs_R0, (proj2 (Rltb_true 0 _)) by lra.
    rewrite !(proj2 (Rltb_false (0 + 0 + 0 - -1) _)) by lra. rewrite (Rabs_pos_eq (0 + 0 + 0 - -1)) by lra.
    rewrite !(proj2 (Rltb_false (0 + 0 + 0 - -1) _)) by lra. rewrite !(proj2 (Rltb_false _ (0 + 0 + 0 - 1))) by lra.
    rewrite (Rabs_left (0 + 0 + 0 - 1)) by lra. rewrite !(proj2 (Rltb_false _ _)) by lra. reflexivity. }
  cbn [tr_loop]. rewrite R, T, SC.
  match goal with |- context [choose _ _ _ _ ?s1 _ _ _ _] => set (s2 := s1) end.
  assert (CH : choose multz 2 [0] 3 s2 (vadd (vadd (s_x s4) vzero) vzero) (vadd vzero vzero) false [0%nat] = ChDone TrSigns vzero (s_fix s2) (s_con s2) (s_gcon s2)).
  { unfold choose. rewrite norm_zz, (proj2 (Rleb_true _ _)) by lra. change (10 * 2 <=? 3)%nat with false. cbn [orb].
    change (s_del s2) with (s_del s4). change (s_fix s2) with (s_fix s4). rewrite A4, A5, (proj2 (Rltb_false _ _)) by lra.
    cbn [multz map argmin]. unfold vzero. rewrite (proj2 (Rleb_true _ _)) by lra. rewrite (proj2 (Rltb_false _ _)) by lra. reflexivity. }
  rewrite CH. eexists. split; [reflexivity|]. cbn [tr_end tr_x tr_sl tr_moves tr_passes].
  split; [reflexivity|]. split; [unfold vadd, vzero; lra|]. split; [unfold vadd, vzero; lra|].
  split; [unfold clip, lo3, hi3; cbn; unfold vadd, slpart, vzero; rewrite A6; lra|].
  split; [|reflexivity]. rewrite A7. unfold sumv, vadd, vzero. cbn. rewrite A8, A9. ring.
Qed.

Lemma r_slack : ~ forall restore cvx null cg mult n nsl lb ub thr M0 ce ae sl fuel x delta g lm o,
  keeps_bounds restore -> restore_short restore -> cg_short cg -> null_orth (n + nsl) null -> 0 <= delta -> / 10 ^ 15 <= thr ->
  in_bounds n lb ub x -> (forall i, (i < nsl)%nat -> lb (n + i)%nat = NInf /\ ub (n + i)%nat = PInf) ->
  solve_con restore cvx null cg mult n nsl lb ub thr M0 ce ae sl fuel x delta g lm = TrOut o ->
  forall i, (i < nsl)%nat -> tr_sl o i = sl i + sumv (tr_moves o) (n + i)%nat.
Proof.
  intros F. destruct stall_case as (o & E & _ & _ & _ & S & M & _).
  assert (X : tr_sl o 0%nat = vzero 0%nat + sumv (tr_moves o) (2 + 0)%nat).
  { apply (F _ _ _ _ _ 2%nat 1%nat _ _ _ _ _ _ _ _ _ _ _ _ o (guard_bounds vzero) (guard_short vzero) edge_short nullB_orth) with (5 := E); [lra|apply e15_8| | |lia].
    - intros i Hi. unfold lo3, hi3, vzero. destruct (Nat.ltb_spec i 2); [cbn; lra|lia].
    - intros i Hi. assert (i = 0%nat) by lia. subst. split; reflexivity. }
  change (2 + 0)%nat with 2%nat in X. rewrite S, M in X. unfold vzero in X. lra.
Qed.

(** the feasible part of the step is thrown away *)
Lemma r_largest : ~ forall n nsl lb ub y t a, in_bounds (n + nsl) lb ub y -> minratio n nsl lb ub y t = Fin a ->
  forall rho, a < rho <= 1 -> ~ in_bounds (n + nsl) lb ub (vadd y (vscal rho t)).
Proof.
  intros F. set (y := fun i : nat => if (i =? 0)%nat then 1 else 0). set (t := fun i : nat => if (i =? 0)%nat then 0 else 1).
  assert (Y : in_bounds 2 lo3 hi3 y).
  { intros i Hi. unfold lo3, hi3, y. destruct i as [|[|i]]; [cbn; lra|cbn; lra|lia]. }
  assert (E : minratio 2 0 lo3 hi3 y t = Fin 0).
  { apply (stall 2 0 lo3 hi3 y t 0); [lia|exact Y|unfold t; cbn; rewrite Rabs_R0; apply e15|]. right. reflexivity. }
  apply (F 2%nat 0%nat lo3 hi3 y t 0 Y E 1); [lra|].
  intros i Hi. unfold lo3, hi3, y, t, vadd, vscal. destruct i as [|[|i]]; [cbn; lra|cbn; lra|cbn in Hi; lia].
Qed.
