(** Top-level lemmas and witnesses about the trust-region step. *)
From Coq Require Import Reals List Arith Lia Lra Bool ZArith.
From Verif Require Import RVec RBool Tri ProjGrad_Spec CG_Model CG_Spec CG_Proofs CG_More Mult_Spec TR_Model TR_Spec TR_Proofs TR_Wit Step_Spec Step_Proofs Step_More.
Import ListNotations.
Open Scope R_scope.

Section Top.
Variable restore : nat -> vec -> mat -> (nat -> xR) -> (nat -> xR) -> R -> option (vec * rmsg).
Variable cvx : mat -> mat.
Variable null : list vec -> option (nat * mat).
Variable cg : nat -> mat -> vec -> R -> option (vec * bool).
Variable mult : nat -> vec -> option vec.
Variables (n nsl : nat) (lb ub : nat -> xR) (thr : R).
Variables (M0 : mat) (ce : list R) (ae : list vec) (sl : vec).
Variables (fuel : nat) (x : vec) (delta : R) (g lm : vec).
Notation run := (solve_con restore cvx null cg mult n nsl lb ub thr M0 ce ae sl fuel x delta g lm).

Lemma d_decrease L w o : length ae = length ce -> (nsl <= length ce)%nat -> lag_grad n lb ub (length ce) ae x g lm L ->
  (forall i, (i < n)%nat -> held_count lb ub x L w i) ->
  symmetric n M0 -> / 10 ^ 15 <= thr -> keeps_bounds restore ->
  (forall i, (i < nsl)%nat -> xle_r (lb (n + i)%nat) (sl i) /\ rle_x (sl i) (ub (n + i)%nat)) -> in_bounds n lb ub x ->
  cg_descends cg -> run = TrOut o ->
  exists r a, restores restore cvx n nsl lb ub ce ae sl w x delta r a /\ lag_model n M0 g (vsub (tr_x o) x) <= lag_model n M0 g r.
Proof.
  intros LA LS HL HW HM T KB SI X CD E.
  set (s := start n nsl lb ub ce ae sl x delta g lm).
  assert (G : grad_ok n nsl M0 x g s).
  { intros a. unfold s, start. cbn [s_g s_x].
    assert (Z : dot n a (mv n M0 (vsub x x)) = 0).
    { rewrite (dot_ext n a a _ vzero (fun i _ => eq_refl)), dot_zero_r; [reflexivity|]. intros i _.
      rewrite (mv_ext n M0 (vsub x x) vzero i), mv_zero; [reflexivity|]. intros j _. unfold vsub, vzero. ring. }
    rewrite Z, Rplus_0_r. unfold dot, dim. rewrite rsum_split, (rsum_zero nsl), Rplus_0_r.
    - apply rsum_ext. intros i Hi. unfold gx0. rewrite (proj2 (Nat.ltb_lt i n)) by exact Hi. reflexivity.
    - intros i Hi. unfold gx0. rewrite (proj2 (Nat.ltb_ge (n + i) n)) by lia. ring. }
  destruct (first_descends restore cvx null cg mult n nsl lb ub thr M0 ce sl fuel s g o HM CD T KB SI X G eq_refl E)
    as (r & rp & actr & B1 & DE).
  destruct (start_rest restore cvx null cg mult n nsl lb ub thr M0 ce ae sl LA LS x delta g lm L w HL HW r rp actr B1) as (a & A1 & _).
  exists r, a. split; assumption.
Qed.

Lemma d_rpred L w o : length ae = length ce -> (nsl <= length ce)%nat -> lag_grad n lb ub (length ce) ae x g lm L ->
  (forall i, (i < n)%nat -> held_count lb ub x L w i) -> run = TrOut o ->
  exists r a, restores restore cvx n nsl lb ub ce ae sl w x delta r a /\
    tr_rpred o = con_length n nsl ce ae sl w vzero - con_length n nsl ce ae sl w r /\
    (tr_actr o = true <-> tr_passes o = 1%nat /\ (a = Some MsgBoundary \/ (a = Some MsgOther /\ delta - norm n r < / 10 ^ 8))).
Proof.
  intros LA LS HL HW E.
  destruct (run_rest restore cvx null cg mult n nsl lb ub thr M0 ce ae sl LA LS x delta g lm L w HL HW fuel o E) as (r & a & A1 & A2 & A3).
  exists r, a. split; [exact A1|]. split; [exact A2|]. rewrite A3. unfold flag_of.
  destruct (Nat.eqb_spec (tr_passes o) 1) as [P|P]; [|split; [discriminate|tauto]].
  destruct a as [[| |]|]; rewrite ?Rltb_true; (split; [intros Q; split; [exact P|]|intros (_ & [Q|[Q Q2]])]); try discriminate; auto.
Qed.

Lemma d_single L w o : length ae = length ce -> (nsl <= length ce)%nat -> lag_grad n lb ub (length ce) ae x g lm L ->
  (forall i, (i < n)%nat -> held_count lb ub x L w i) -> null_in (n + nsl) null -> run = TrOut o -> tr_passes o = 1%nat ->
  exists r a t, restores restore cvx n nsl lb ub ce ae sl w x delta r a /\ tr_x o = vadd (vadd x r) t /\
    (forall k, (k < length ce)%nat -> lin_con n nsl ce ae sl (vadd r t) k = lin_con n nsl ce ae sl r k) /\
    (forall i, (i < n)%nat -> held_low lb x L i \/ held_up ub x L i -> t i = 0) /\
    (tr_end o = TrFeasible -> keeps_bounds restore ->
     (forall i, (i < nsl)%nat -> xle_r (lb (n + i)%nat) (sl i) /\ rle_x (sl i) (ub (n + i)%nat)) -> in_bounds n lb ub x ->
     forall i, (i < nsl)%nat -> xle_r (lb (n + i)%nat) (tr_sl o i) /\ rle_x (tr_sl o i) (ub (n + i)%nat) /\
       (tr_sl o i = sl i + r (n + i)%nat + t (n + i)%nat \/
        (tr_sl o i = sl i + r (n + i)%nat /\
         ~ (xle_r (lb (n + i)%nat) (sl i + r (n + i)%nat + t (n + i)%nat) /\ rle_x (sl i + r (n + i)%nat + t (n + i)%nat) (ub (n + i)%nat))))).
Proof.
  intros LA LS HL HW NI E P.
  destruct (run_single restore cvx null cg mult n nsl lb ub thr M0 ce ae sl LA LS x delta g lm L w HL HW fuel o E P NI) as (r & a & t & A1 & A2 & A3 & A4 & A5).
  exists r, a, t. split; [exact A1|]. split; [exact A2|]. split; [intros k K; exact (null_lin n nsl lb ub ce ae sl LA LS x delta g lm t r k A3 K)|].
  split; [intros i Hi H; exact (null_held restore cvx null cg mult n nsl lb ub thr M0 ce ae sl LA LS x delta g lm L HL t i A3 Hi H)|].
  intros TE KB SI X i Hi. rewrite (A4 TE). specialize (A5 KB SI X (n + i)%nat ltac:(lia)).
  unfold restored, join in A5. destruct (Nat.ltb_spec (n + i) n) as [?|_]; [lia|]. replace (n + i - n)%nat with i in A5 by lia.
  pose proof (clip_ok n lb ub (vadd (vadd sl (slpart n r)) (slpart n t)) (slpart n t) i) as C.
  unfold vadd, slpart in A5, C |- *.
  replace (sl i + r (n + i)%nat + t (n + i)%nat - t (n + i)%nat) with (sl i + r (n + i)%nat) in C by ring.
  destruct (C A5) as [(-> & C1 & C2)|(-> & C1)]; [auto|]. destruct A5. auto.
Qed.

(** *** predicted reduction and least squares *)
Lemma con_square w r : length ae = length ce -> (nsl <= length ce)%nat ->
  rsum (length ce) (fun k => lin_con n nsl ce ae sl r k ^ 2) + rsum n (fun i => w i * r i ^ 2) =
  rsum (length ce) (fun k => lin_con n nsl ce ae sl vzero k ^ 2) + 2 * dot (n + nsl) (lsq_grad n nsl ce ae sl) r + quad (n + nsl) (lsq_mat n nsl ce ae sl w) r.
Proof.
  intros LA LS. set (rho := fun k => rsum (n + nsl) (fun j => lin_row n nsl ce ae sl k j * r j)).
  assert (LIN : forall k, (k < length ce)%nat -> lin_con n nsl ce ae sl r k = lin_con n nsl ce ae sl vzero k + rho k).
  { intros k K. pose proof (row_dot n nsl ce ae sl LA LS k r K) as E. unfold rho.
    rewrite (rsum_ext _ _ (fun j => nth k (gcon0 n nsl ce ae sl) vzero j * r j)) by (intros j J; rewrite (row_entry n nsl ce ae sl LA LS k j K J); reflexivity).
    change (rsum (n + nsl) (fun j => nth k (gcon0 n nsl ce ae sl) vzero j * r j)) with (dot (n + nsl) (nth k (gcon0 n nsl ce ae sl) vzero) r). lra. }
  rewrite (rsum_ext _ _ (fun k => lin_con n nsl ce ae sl vzero k ^ 2 + (2 * (lin_con n nsl ce ae sl vzero k * rho k) + rho k * rho k))).
  2:{ intros k K. rewrite (LIN k K). ring. }
  rewrite !rsum_plus, rsum_scal, !Rplus_assoc. f_equal. f_equal; [f_equal|].
  - unfold dot, lsq_grad. rewrite (rsum_ext (n + nsl) _ (fun j => rsum (length ce) (fun k => lin_con n nsl ce ae sl vzero k * (lin_row n nsl ce ae sl k j * r j)))).
    2:{ intros j J. rewrite <- rsum_scal_r. apply rsum_ext. intros; ring. }
    rewrite rsum_swap. apply rsum_ext. intros k K. rewrite rsum_scal. reflexivity.
  - unfold quad, dot, mv, lsq_mat.
    rewrite (rsum_ext (n + nsl) _ (fun i => rsum (length ce) (fun k => rho k * (lin_row n nsl ce ae sl k i * r i)) + (if (i <? n)%nat then w i * r i ^ 2 else 0))).
    + rewrite rsum_plus. f_equal.
      * rewrite rsum_swap. apply rsum_ext. intros k K. rewrite rsum_scal. reflexivity.
      * rewrite rsum_split, (rsum_zero nsl), Rplus_0_r.
        -- apply rsum_ext. intros i Hi. rewrite (proj2 (Nat.ltb_lt i n)) by exact Hi. reflexivity.
        -- intros i Hi. rewrite (proj2 (Nat.ltb_ge (n + i) n)) by lia. reflexivity.
    + intros i Hi.
      rewrite (rsum_ext (n + nsl) _ (fun j => rsum (length ce) (fun k => lin_row n nsl ce ae sl k i * (lin_row n nsl ce ae sl k j * r j)) +
        (if (i =? j)%nat then if (i <? n)%nat then w i else 0 else 0) * r j)).
      2:{ intros j J. rewrite Rmult_plus_distr_r, <- rsum_scal_r. f_equal. apply rsum_ext. intros; ring. }
      rewrite rsum_plus, rsum_swap.
      rewrite (rsum_single (n + nsl) i (fun j => (if (i =? j)%nat then if (i <? n)%nat then w i else 0 else 0) * r j)).
      * rewrite Nat.eqb_refl, Rmult_plus_distr_l. f_equal.
        -- rewrite <- rsum_scal. apply rsum_ext. intros k K. rewrite rsum_scal. unfold rho. ring.
        -- destruct (i <? n)%nat; ring.
      * exact Hi.
      * intros j J NE. destruct (Nat.eqb_spec i j); [congruence|ring].
Qed.

Lemma lsq_psd w : (forall i, (i < n)%nat -> 0 <= w i) -> forall z, 0 <= quad (n + nsl) (lsq_mat n nsl ce ae sl w) z.
Proof.
  intros W z. unfold quad, dot, mv, lsq_mat.
    rewrite (rsum_ext (n + nsl) _ (fun i => rsum (length ce) (fun k => rsum (n + nsl) (fun j => lin_row n nsl ce ae sl k j * z j) * (lin_row n nsl ce ae sl k i * z i)) + (if (i <? n)%nat then w i * z i ^ 2 else 0))).
    - rewrite rsum_plus, rsum_swap.
      assert (0 <= rsum (length ce) (fun k => rsum (n + nsl) (fun i => rsum (n + nsl) (fun j => lin_row n nsl ce ae sl k j * z j) * (lin_row n nsl ce ae sl k i * z i)))).
      { apply rsum_nonneg. intros k K. rewrite rsum_scal. apply Rle_0_sqr. }
      assert (0 <= rsum (n + nsl) (fun i => if (i <? n)%nat then w i * z i ^ 2 else 0)).
      { apply rsum_nonneg. intros i Hi. destruct (Nat.ltb_spec i n); [|lra]. apply Rmult_le_pos; [apply W; lia|apply pow2_ge_0]. }
      lra.
    - intros i Hi.
      rewrite (rsum_ext (n + nsl) _ (fun j => rsum (length ce) (fun k => lin_row n nsl ce ae sl k i * (lin_row n nsl ce ae sl k j * z j)) +
        (if (i =? j)%nat then if (i <? n)%nat then w i else 0 else 0) * z j)).
      2:{ intros j J. rewrite Rmult_plus_distr_r, <- rsum_scal_r. f_equal. apply rsum_ext. intros; ring. }
      rewrite rsum_plus, rsum_swap.
      rewrite (rsum_single (n + nsl) i (fun j => (if (i =? j)%nat then if (i <? n)%nat then w i else 0 else 0) * z j)).
      + rewrite Nat.eqb_refl, Rmult_plus_distr_l. f_equal.
        * rewrite <- rsum_scal. apply rsum_ext. intros k K. rewrite rsum_scal. ring.
        * destruct (i <? n)%nat; ring.
      + exact Hi.
      + intros j J NE. destruct (Nat.eqb_spec i j); [congruence|ring].
Qed.

Lemma d_nonneg L w o : length ae = length ce -> (nsl <= length ce)%nat -> lag_grad n lb ub (length ce) ae x g lm L ->
  (forall i, (i < n)%nat -> held_count lb ub x L w i) ->
  (forall k h A l u D r m, restore k h A l u D = Some (r, m) -> dot k h r + / 2 * quad k A r <= 0) ->
  (forall A, possemidef (n + nsl) A -> forall i j, (i < n + nsl)%nat -> (j < n + nsl)%nat -> cvx A i j = A i j) ->
  run = TrOut o -> 0 <= tr_rpred o.
Proof.
  intros LA LS HL HW RD CV E. destruct (d_rpred L w o LA LS HL HW E) as (r & a & A1 & A2 & _). rewrite A2. clear A2.
  assert (W : forall i, (i < n)%nat -> 0 <= w i).
  { intros i Hi. destruct (HW i Hi) as (p & q & -> & [[_ ->]|[_ ->]] & [[_ ->]|[_ ->]]); lra. }
  pose proof (con_square w r LA LS) as CR. pose proof (con_square w vzero LA LS) as C0.
  pose proof (lsq_psd w W) as PS.
  assert (LE : con_length n nsl ce ae sl w r <= con_length n nsl ce ae sl w vzero); [|lra].
  unfold con_length. apply sqrt_le_1_alt. rewrite CR.
  assert (Z0 : rsum n (fun i => w i * vzero i ^ 2) = 0) by (apply rsum_zero; intros i _; unfold vzero; ring). rewrite Z0, Rplus_0_r.
  destruct A1 as [(_ & -> & _)|(_ & h & A & z & m & G1 & G2 & _ & _ & RE & _)].
  - unfold quad. rewrite dot_zero_r, dot_zero_l. lra.
  - apply RD in RE.
    assert (PA : possemidef (n + nsl) A).
    { intros y. rewrite (quad_ext_mat (n + nsl) A (lsq_mat n nsl ce ae sl w) y); [apply PS|]. intros i j Hi Hj. apply G2; assumption. }
    rewrite (quad_ext_mat (n + nsl) (cvx A) A r) in RE by (intros i j Hi Hj; apply CV; assumption).
    rewrite (quad_ext_mat (n + nsl) A (lsq_mat n nsl ce ae sl w) r) in RE by (intros i j Hi Hj; apply G2; assumption).
    rewrite (dot_ext (n + nsl) h _ r r G1 (fun i _ => eq_refl)) in RE. lra.
Qed.

(** *** exits with multipliers *)
Lemma scan_active k i y v xa : scan lb ub thr k i y = (v, xa) -> forall j, In j xa -> (i <= j < i + k)%nat /\
  (at_bound (/ 10 ^ 7) (y j) (lb j) \/ at_bound (/ 10 ^ 7) (y j) (ub j)).
Proof.
  revert i v xa. induction k as [|k IH]; intros i v xa E j J; [injection E as <- <-; contradiction|]. cbn [scan] in E.
  assert (T : forall v' xa', scan lb ub thr k (S i) y = (v', xa') -> In j xa' -> (i <= j < i + S k)%nat /\ (at_bound (/ 10 ^ 7) (y j) (lb j) \/ at_bound (/ 10 ^ 7) (y j) (ub j)))
    by (intros v' xa' E' J'; destruct (IH _ _ _ E' j J'); split; [lia|assumption]).
  destruct (under thr (y i) (lb i)); [injection E as <- <-; contradiction|].
  destruct (close (/ 10 ^ 7) (y i) (lb i)) eqn:C1.
  { destruct (scan lb ub thr k (S i) y) as [v' a]. injection E as <- <-. destruct J as [<-|J]; [|eapply T; eauto]. split; [lia|]. left. apply (close_iff restore cvx null cg mult n lb ub thr M0 ae sl), C1. }
  destruct (over thr (y i) (ub i)); [injection E as <- <-; contradiction|].
  destruct (close (/ 10 ^ 7) (y i) (ub i)) eqn:C2; [|eapply T; eauto].
  destruct (scan lb ub thr k (S i) y) as [v' a]. injection E as <- <-. destruct J as [<-|J]; [|eapply T; eauto]. split; [lia|]. right. apply (close_iff restore cvx null cg mult n lb ub thr M0 ae sl), C2.
Qed.

Lemma loop_exit f : forall k s o, tr_loop restore cvx null cg mult n nsl lb ub thr M0 ce sl f k s = TrOut o -> match tr_end o with
  | TrSigns => mult (tr_passes o) (tr_x o) = Some (tr_lm o) /\ tr_fix o <> [] /\ (forall i, In i (tr_fix o) -> 0 <= tr_lm o i)
  | TrRelease => mult (tr_passes o) (tr_x o) = Some (tr_lm o) /\
      (forall i, In i (tr_fix o) -> (i < n)%nat /\ (at_bound (/ 10 ^ 7) (tr_x o i) (lb i) \/ at_bound (/ 10 ^ 7) (tr_x o i) (ub i))) /\
      exists i, In i (tr_fix o) /\ tr_lm o i < 0 /\ (forall j, In j (tr_fix o) -> tr_lm o i <= tr_lm o j)
  | TrZero => tr_fix o = []
  | _ => True
  end.
Proof.
  induction f as [|f IH]; intros k s o E; [discriminate|].
  destruct (pass_more restore cvx null cg mult n nsl lb ub thr M0 ce sl k s) as [(res & E' & O)|(s' & E' & O)]; rewrite E' in E; [|exact (IH _ _ _ E)].
  destruct (O o E) as (r & t & rp & actr & actt & v & xa & (B1 & B2 & B3) & X1 & P & _ & _ & _ & _ & _ & FX & EX). rewrite P.
  destruct (tr_end o); auto; [|exact (proj1 EX)].
  destruct EX as (E1 & E2 & E3). split; [exact E1|]. split; [|exact E3]. intros i Hi. apply E2 in Hi. rewrite X1.
  destruct (scan_active _ _ _ _ _ B3 i Hi) as [I1 I2]. split; [lia|exact I2].
Qed.

Lemma d_exit o : run = TrOut o -> match tr_end o with
  | TrSigns => mult (tr_passes o) (tr_x o) = Some (tr_lm o) /\ tr_fix o <> [] /\ (forall i, In i (tr_fix o) -> 0 <= tr_lm o i)
  | TrRelease => mult (tr_passes o) (tr_x o) = Some (tr_lm o) /\
      (forall i, In i (tr_fix o) -> (i < n)%nat /\ (at_bound (/ 10 ^ 7) (tr_x o i) (lb i) \/ at_bound (/ 10 ^ 7) (tr_x o i) (ub i))) /\
      exists i, In i (tr_fix o) /\ tr_lm o i < 0 /\ (forall j, In j (tr_fix o) -> tr_lm o i <= tr_lm o j)
  | TrZero => tr_fix o = []
  | _ => True
  end.
Proof. exact (loop_exit fuel 1 _ o). Qed.

Lemma d_low o : signed_near n lb ub mult -> run = TrOut o -> tr_end o = TrRelease ->
  exists i, In i (tr_fix o) /\ tr_lm o i < 0 /\ at_bound (/ 10 ^ 5) (tr_x o i) (lb i) /\
    (forall j, In j (tr_fix o) -> tr_lm o i <= tr_lm o j) /\
    (forall j, In j (tr_fix o) -> ~ at_bound (/ 10 ^ 5) (tr_x o j) (lb j) -> 0 <= tr_lm o j /\ at_bound (/ 10 ^ 7) (tr_x o j) (ub j)).
Proof.
  intros SN E TE. pose proof (d_exit o E) as D. rewrite TE in D. destruct D as (D1 & D2 & i & I1 & I2 & I3).
  exists i. destruct (D2 i I1) as [Hi _]. destruct (SN _ _ _ D1 i Hi) as [S1 _].
  split; [exact I1|]. split; [exact I2|]. split; [exact (S1 I2)|]. split; [exact I3|].
  intros j J NB. destruct (D2 j J) as [Hj B]. destruct (SN _ _ _ D1 j Hj) as [S2 _]. split.
  - destruct (Rle_lt_dec 0 (tr_lm o j)) as [Q|Q]; [exact Q|]. exfalso. apply NB, S2, Q.
  - destruct B as [B|B]; [|exact B]. exfalso. apply NB. destruct (lb j) as [l| |]; try contradiction. unfold at_bound in *.
    eapply Rlt_le_trans; [exact B|]. apply Rinv_le_contravar; [apply pow_lt; lra|]. apply Rle_pow; [lra|lia].
Qed.

End Top.

(** only the square of the radius matters *)
Lemma comp_dir_abs n dc dn D : comp_dir n dc dn (Rabs D) = comp_dir n dc dn D.
Proof. unfold comp_dir. rewrite pow2_abs. reflexivity. Qed.
Lemma tcg_abs n A D tol2 m rem iter x g prev : tcg_loop n A (Rabs D) tol2 m rem iter x g prev = tcg_loop n A D tol2 m rem iter x g prev.
Proof.
  assert (S : Rabs D * Rabs D = D * D) by (rewrite <- Rabs_mult; apply Rabs_pos_eq; nra).
  revert iter x g prev. induction rem as [|rem IH]; intros iter x g prev; cbn [tcg_loop]; [reflexivity|].
  rewrite !comp_dir_abs, S. repeat (destruct (Rleb _ _) || destruct (Rltb _ _)); try reflexivity. apply IH.
Qed.
Lemma descends_of m tol : cg_descends (cg_of m tol).
Proof.
  intros k A b D u a HA E. unfold cg_of, truncated_cg in E. rewrite <- tcg_abs in E. injection E as <- _.
  fold (truncated_cg k A b (Rabs D) m tol). split; [apply cg_descent|apply cg_forward]; try assumption; apply Rabs_pos.
Qed.

(** *** ratio with a single bound *)
Lemma ratio_up n nsl lb ub y t j b : (j < n + nsl)%nat -> (forall i, lb i = NInf) -> (forall i, i <> j -> ub i = PInf) ->
  ub j = Fin b -> / 10 ^ 15 <= t j -> minratio n nsl lb ub y t = Fin ((b - y j) / t j).
Proof.
  intros J LB UB UJ T. pose proof e15' as E15.
  assert (D : divisor (t j) = t j) by (apply div_cases; lra).
  assert (LE : xleq (minratio n nsl lb ub y t) (Fin ((b - y j) / t j))).
  { unfold minratio. apply fold_min. apply (in_ratios n nsl lb ub _ t j); [exact J|]. left. rewrite D. split; [lra|]. rewrite UJ. reflexivity. }
  assert (GE : rle_x ((b - y j) / t j) (minratio n nsl lb ub y t)).
  { unfold minratio. apply fold_ge. intros e I. unfold ratios in I. apply in_flat_map in I. destruct I as (i & Hi & I).
    apply in_app_or in I. destruct I as [I|I].
    - destruct (Nat.eq_dec i j) as [->|NE].
      + rewrite D in I. rewrite (proj2 (Rltb_true _ _)) in I by lra. destruct I as [<-|[]]. rewrite UJ. cbn. apply Rle_refl.
      + rewrite (UB i NE) in I. destruct (Rltb 0 _) in I; [|contradiction]. destruct I as [<-|[]]. exact Logic.I.
    - rewrite LB in I. destruct (Rltb 0 _) in I; [|contradiction]. destruct I as [<-|[]]. exact Logic.I. }
  destruct (minratio n nsl lb ub y t); cbn in *; try contradiction. f_equal. lra.
Qed.

Lemma ratio_low n nsl lb ub y t j b : (j < n + nsl)%nat -> (forall i, ub i = PInf) -> (forall i, i <> j -> lb i = NInf) ->
  lb j = Fin b -> / 10 ^ 15 <= - t j -> minratio n nsl lb ub y t = Fin ((y j - b) / - t j).
Proof.
  intros J UB LB LJ T. pose proof e15' as E15.
  assert (D : divisor (- t j) = - t j) by (apply div_cases; lra).
  assert (Q : (- b - - y j) / - t j = (y j - b) / - t j) by (f_equal; ring).
  assert (LE : xleq (minratio n nsl lb ub y t) (Fin ((y j - b) / - t j))).
  { unfold minratio. apply fold_min. apply (in_ratios n nsl lb ub _ t j); [exact J|]. right. rewrite D. split; [lra|]. rewrite LJ, <- Q. reflexivity. }
  assert (GE : rle_x ((y j - b) / - t j) (minratio n nsl lb ub y t)).
  { unfold minratio. apply fold_ge. intros e I. unfold ratios in I. apply in_flat_map in I. destruct I as (i & Hi & I).
    apply in_app_or in I. destruct I as [I|I].
    - rewrite UB in I. destruct (Rltb 0 _) in I; [|contradiction]. destruct I as [<-|[]]. exact Logic.I.
    - destruct (Nat.eq_dec i j) as [->|NE].
      + rewrite D in I. rewrite (proj2 (Rltb_true _ _)) in I by lra. destruct I as [<-|[]]. rewrite LJ. cbn. rewrite Q. apply Rle_refl.
      + rewrite (LB i NE) in I. destruct (Rltb 0 _) in I; [|contradiction]. destruct I as [<-|[]]. exact Logic.I. }
  destruct (minratio n nsl lb ub y t); cbn in *; try contradiction. f_equal. lra.
Qed.

(** *** test solvers that keep their specification by construction *)
Definition null_chk (dim : nat) (cand : nat -> nat * mat) (rows : list vec) : option (nat * mat) :=
  let p := cand (length rows) in
  if forallb (fun a => forallb (fun j => Reqb (dot dim a (fun i => snd p i j)) 0) (seq 0 (fst p))) rows then Some p else None.
Lemma null_chk_in dim cand : null_in dim (null_chk dim cand).
Proof.
  intros rows k Z E a j A J. unfold null_chk in E. destruct (forallb _ rows) eqn:F; [|discriminate]. injection E as E.
  rewrite forallb_forall in F. specialize (F a A). rewrite forallb_forall in F. rewrite E in F. apply Reqb_true, F. apply in_seq. cbn [fst]. lia.
Qed.
Definition cg_chk (cand : nat -> vec) (k : nat) (A : mat) (b : vec) (D : R) : option (vec * bool) :=
  let u := cand k in
  if (Rleb (dot k u u) (D * D) && Rleb (cost k A b u) 0 && Rleb 0 (dot k b u))%bool then Some (u, false) else Some (vzero, false).
Lemma cg_chk_short cand : cg_short (cg_chk cand).
Proof.
  intros k A b D u a Z E. unfold cg_chk in E. destruct (_ && _)%bool eqn:F; injection E as <- _.
  - apply andb_prop in F. destruct F as [F _]. apply andb_prop in F. destruct F as [F _]. rb.
    unfold norm. rewrite <- (sqrt_square D Z). apply sqrt_le_1_alt, F.
  - rewrite (norm_vzero k). exact Z.
Qed.
Lemma cost_vzero k A b : cost k A b vzero = 0.
Proof. unfold cost, quad. rewrite dot_zero_r, dot_zero_l. ring. Qed.
Lemma cg_chk_descends cand : cg_descends (cg_chk cand).
Proof.
  intros k A b D u a _ E. unfold cg_chk in E. destruct (_ && _)%bool eqn:F; injection E as <- _.
  - apply andb_prop in F. destruct F as [F F2]. apply andb_prop in F. destruct F as [_ F1]. rb. split; assumption.
  - rewrite cost_vzero, dot_zero_r. lra.
Qed.

(** *** two passes leave the linearised constraints *)
Definition up1 : nat -> xR := fun i => if (i =? 1)%nat then Fin 1 else PInf.
Definition m34 : mat := fun i j => match i, j with 1%nat, 2%nat => 3 / 4 | 2%nat, 1%nat => 3 / 4 | _, _ => 0 end.
Definition g22 : vec := fun i => match i with O => 0 | _ => -2 end.
Definition z1 : mat := fun i j => match i, j with 1%nat, 0%nat => 1 | 2%nat, 1%nat => 1 | _, _ => 0 end.
Definition z2 : mat := fun i _ => match i with 0%nat => - (3 / 5) | 2%nat => 4 / 5 | _ => 0 end.
Definition candZ (l : nat) : nat * mat := if (l =? 1)%nat then (2%nat, z1) else (1%nat, z2).
Definition candU (k : nat) : vec := fun i => match i with O => if (k =? 2)%nat then 2 else 1 | _ => 0 end.
Notation null1 := (null_chk 3 candZ).
Notation cg1 := (cg_chk candU).
Lemma null1_orth : null_orth 3 null1.
Proof.
  intros rows k Z E. unfold null_chk in E. destruct (forallb _ rows); [|discriminate]. injection E as E. unfold candZ in E.
  destruct (length rows =? 1)%nat; injection E as <- <-; intros a b Ha Hb.
  - unfold idm, dot, z1. destruct a as [|[|a]]; destruct b as [|[|b]]; try lia; cbn; ring.
  - unfold idm, dot, z2. assert (a = 0%nat) by lia. assert (b = 0%nat) by lia. subst. cbn. field.
Qed.
Lemma m34_sym : symmetric 3 m34.
Proof. intros i j _ _. unfold m34. destruct i as [|[|[|i]]]; destruct j as [|[|[|j]]]; reflexivity. Qed.

Definition loop1 := tr_loop (guard vzero) (fun A => A) null1 cg1 multz 3 0 loi up1 (/ 10 ^ 8) m34 [0] vzero.

Lemma linear_case : exists o, solve_con (guard vzero) (fun A => A) null1 cg1 multz 3 0 loi up1 (/ 10 ^ 8) m34 [0] [unitv 0] vzero 100 vzero 4 g22 vzero = TrOut o /\
  tr_end o = TrFeasible /\ tr_passes o = 2%nat /\ tr_x o 0%nat = - (3 / 5) /\ tr_x o 1%nat = 1 /\ tr_x o 2%nat = 4 / 5.
Proof.
  pose proof e16 as E16. pose proof e14 as E14. pose proof e8 as E8. pose proof e7 as E7. pose proof e15' as E15.
  assert (E5 : 0 < / 10 ^ 5 < / 100).
  { split; [apply Rinv_0_lt_compat, pow_lt; lra|]. apply Rinv_lt_contravar; [apply Rmult_lt_0_compat; [lra|apply pow_lt; lra]|]. replace 100 with (10 ^ 2) by ring. apply Rlt_pow; [lra|lia]. }
  unfold solve_con. set (s := mkst _ _ _ _ _ _ _ _ _ _).
  assert (AC : active0 3 0 loi up1 [0] [unitv 0] vzero vzero g22 vzero = []).
  { assert (C2 : forall i, TR_Model.close (/ 10 ^ 5) (vzero i) (up1 i) = false).
    { intros i. unfold TR_Model.close, up1. destruct (i =? 1)%nat; [|reflexivity]. apply Rltb_false. unfold vzero. rewrite Rabs_left; lra. }
    unfold active0. cbn [seq flat_map]. rewrite !C2, !andb_false_r. reflexivity. }
  assert (CON : s_con s = [0]) by (unfold s; rewrite AC; reflexivity).
  assert (GC : exists a, s_gcon s = [a] /\ a 0%nat = 1 /\ a 1%nat = 0 /\ a 2%nat = 0).
  { unfold s. rewrite AC. eexists. split; [reflexivity|]. cbn. repeat split; reflexivity. }
  destruct GC as (a & GC & GA0 & GA1 & GA2).
  assert (R1 : restoration (guard vzero) (fun A => A) 3 0 loi up1 vzero 1 s = Some (vzero, 0, false)).
  { unfold restoration. cbn [Nat.eqb andb].
    assert (NG : norm (dim 3 0) (rows_t (s_con s) (s_gcon s)) = 0).
    { apply norm_zero. intros j _. rewrite CON, GC. unfold rows_t. cbn. unfold vzero. ring. }
    rewrite NG, (proj2 (Rltb_false _ _)) by lra. reflexivity. }
  assert (T1 : exists t, tangent null1 cg1 3 0 m34 s vzero = Some (t, false) /\ t 0%nat = 0 /\ t 1%nat = 2 /\ t 2%nat = 0).
  { unfold tangent. rewrite CON, GC. cbn [length Nat.ltb Nat.leb dim Nat.add]. unfold null_chk. cbn [length]. change (candZ 1) with (2%nat, z1). cbn [fst snd seq forallb].
    assert (Z0 : forall j, (j < 2)%nat -> Reqb (dot 3 a (fun i => z1 i j)) 0 = true).
    { intros j J. apply Reqb_true. unfold dot, z1. destruct j as [|[|j]]; [| |lia]; cbn; rewrite GA0, GA1, GA2; ring. }
    rewrite !Z0 by lia. cbn [andb]. unfold cg_chk. 
    match goal with |- context [cost 2 ?A ?b _] => set (A1 := A); set (b1 := b) end.
    assert (B0 : b1 0%nat = 2) by (unfold b1, vneg, mv, vadd, vzero, z1, s, g22; cbn; ring).
    assert (B1 : b1 1%nat = 2) by (unfold b1, vneg, mv, vadd, vzero, z1, s, g22; cbn; ring).
    assert (A00 : A1 0%nat 0%nat = 0) by (unfold A1, dot, mv, z1, Mx, m34; cbn; ring).
    assert (A10 : A1 1%nat 0%nat = 3 / 4) by (unfold A1, dot, mv, z1, Mx, m34; cbn; ring).
    clearbody A1 b1.
    rewrite (proj2 (Rleb_true _ _)) by (change (s_del s) with 4; unfold dot, candU; cbn; lra).
    rewrite (proj2 (Rleb_true _ _)) by (unfold cost, quad, dot, mv, candU; cbn; rewrite B0, A00, A10; lra).
    rewrite (proj2 (Rleb_true _ _)) by (unfold dot, candU; cbn; rewrite B0, B1; lra). cbn [andb].
    eexists. split; [reflexivity|]. unfold mv, z1, candU. cbn. repeat split; ring. }
  destruct T1 as (t & T1 & T10 & T11 & T12).
  assert (SC : scan loi up1 (/ 10 ^ 8) 3 0 (vadd (vadd (s_x s) vzero) t) = (Some 1%nat, [])).
  { change (s_x s) with vzero. cbn [scan]. unfold under, TR_Model.close, over, loi, up1, vadd, vzero. cbn [Nat.eqb]. rewrite T11.
    rewrite (proj2 (Rltb_true _ _)) by lra. reflexivity. }
  assert (MR : minratio 3 0 loi up1 (restored 3 vzero s vzero) t = Fin (/ 2)).
  { rewrite (ratio_up 3 0 loi up1 _ t 1 1); [|lia|reflexivity|intros i NE; unfold up1; destruct (Nat.eqb_spec i 1); [contradiction|reflexivity]|reflexivity|lra].
    f_equal. rewrite T11. unfold restored, join, vadd. cbn. unfold vzero. field. }
  assert (P1 : exists s3, (forall f, loop1 (S f) 1 s = loop1 f 2 s3) /\ (forall i, s_x s3 i = / 2 * t i) /\ s_con s3 = [0; 0] /\
    (exists b, s_gcon s3 = [b; unitv 1] /\ b 0%nat = 1 /\ b 1%nat = 0 /\ b 2%nat = 3 / 4) /\ s_fix s3 = [1%nat] /\ s_del s3 = 7 / 2 /\ s_g s3 0%nat = 0 /\ s_g s3 2%nat = - (5 / 4)).
  { unfold loop1. cbn [tr_loop]. rewrite R1, T1, SC.
    match goal with |- context [choose _ _ _ _ ?s1 _ _ _ _] => set (s2 := s1) end.
    assert (CH : choose multz 3 [0] 1 s2 (vadd (vadd (s_x s) vzero) t) (vadd vzero t) true [] = ChGo (s_lm s2) (s_fix s2) (s_con s2) (s_gcon s2)).
    { unfold choose. rewrite (proj2 (Rleb_false _ _)); [reflexivity|].
      pose proof (norm_entry 3 (vadd vzero t) 1 ltac:(lia)) as NE. unfold vadd at 1, vzero at 1 in NE. rewrite T11 in NE. rewrite Rabs_pos_eq in NE by lra. lra. }
    rewrite CH. clear CH.
    match goal with |- context [shorten _ _ _ _ _ _ _ _ ?s1 _ _ ?q] => set (s2' := s1); set (sln := q) end.
    unfold shorten. change (join 3 (vadd (s_x s2') vzero) (vadd vzero (slpart 3 vzero))) with (restored 3 vzero s vzero). rewrite MR.
    rewrite (proj2 (Rltb_false _ _)) by lra. eexists. split; [reflexivity|].
    cbn [s_x s_con s_gcon s_fix s_del s_g]. unfold s2', s2. cbn [s_x s_con s_gcon s_fix s_del s_g].
    change (s_x s) with vzero. change (s_fix s) with (@nil nat). change (s_del s) with 4. rewrite CON, GC. cbn [app].
    split; [intros i; unfold vadd, vscal, vzero; ring|]. split; [reflexivity|].
    assert (MV : forall i, (i < 3)%nat -> mv (dim 3 0) (Mx 3 m34) (vadd vzero (vscal (/ 2) t)) i = if (i =? 2)%nat then 3 / 4 else 0).
    { intros i Hi. unfold mv, vadd, vscal, vzero, Mx, m34. destruct i as [|[|[|i]]]; [| | |lia]; cbn; rewrite T10, T11, T12; field. }
    split; [|split; [reflexivity|split; [|split]]].
    - eexists. split; [reflexivity|]. cbn [fst snd].
      change (Nat.ltb 0 (me [0])) with true. cbv iota.
      assert (VA : forall (p q : vec) i, vadd p q i = p i + q i) by reflexivity. rewrite !(VA a), !MV by lia. cbn. rewrite GA0, GA1, GA2. repeat split; ring.
    - assert (NR : norm 3 (vadd vzero (vscal (/ 2) t)) = 1).
      { unfold norm, dot, vadd, vscal, vzero. cbn. rewrite T10, T11, T12. transitivity (sqrt 1); [f_equal; field|apply sqrt_1]. }
      rewrite NR. lra.
    - unfold vadd at 1. rewrite MV by lia. cbn. ring.
    - unfold vadd at 1. rewrite MV by lia. cbn. field. }
  destruct P1 as (s3 & P1 & AX & A1 & (b & A2 & B0 & B1 & B2) & A4 & A5 & AG0 & AG2).
  change 100%nat with (S (S 98)). generalize 98%nat as f1. intros f1. unfold loop1 in P1. rewrite P1. clear P1 MR SC T1 R1 GC CON AC. clearbody s. clear s.
  assert (T2 : exists t', tangent null1 cg1 3 0 m34 s3 vzero = Some (t', false) /\ t' 0%nat = - (3 / 5) /\ t' 1%nat = 0 /\ t' 2%nat = 4 / 5).
  { unfold tangent. rewrite A1, A2. cbn [length Nat.ltb Nat.leb dim Nat.add]. unfold null_chk. cbn [length]. change (candZ 2) with (1%nat, z2). cbn [fst snd seq forallb].
    rewrite (proj2 (Reqb_true (dot 3 b _) 0)) by (unfold dot, z2; cbn; rewrite B0, B1, B2; field).
    rewrite (proj2 (Reqb_true (dot 3 (unitv 1) _) 0)) by (unfold dot, z2, unitv; cbn; field). cbn [andb]. unfold cg_chk.
    match goal with |- context [cost 1 ?A ?b _] => set (A1' := A); set (b1 := b) end.
    assert (Q0 : b1 0%nat = 1).
    { unfold b1, vneg, mv, vadd, vzero, z2. cbn. rewrite AG0, AG2. field. }
    assert (A00 : A1' 0%nat 0%nat = 0) by (unfold A1', dot, mv, z2, Mx, m34; cbn; ring).
    clearbody A1' b1.
    rewrite (proj2 (Rleb_true _ _)) by (rewrite A5; unfold dot, candU; cbn; lra).
    rewrite (proj2 (Rleb_true _ _)) by (unfold cost, quad, dot, mv, candU; cbn; rewrite Q0, A00; lra).
    rewrite (proj2 (Rleb_true _ _)) by (unfold dot, candU; cbn; rewrite Q0; lra). cbn [andb].
    eexists. split; [reflexivity|]. unfold mv, z2, candU. cbn. repeat split; field. }
  destruct T2 as (t' & T2 & T20 & T21 & T22).
  assert (R2 : restoration (guard vzero) (fun A => A) 3 0 loi up1 vzero 2 s3 = Some (vzero, s_rpred s3, false)) by (apply rest_later; lia).
  assert (SC : scan loi up1 (/ 10 ^ 8) 3 0 (vadd (vadd (s_x s3) vzero) t') = (None, [1%nat])).
  { cbn [scan]. unfold under, TR_Model.close, over, loi, up1. cbn [Nat.eqb]. unfold vadd, vzero. rewrite T21, AX, T11.
    rewrite (proj2 (Rltb_false _ _)) by lra. replace (/ 2 * 2 + 0 + 0 - 1) with 0 by field. rewrite Rabs_R0, (proj2 (Rltb_true _ _)) by lra. reflexivity. }
  cbn [tr_loop]. rewrite R2, T2, SC. unfold choose. rewrite (proj2 (Rleb_false _ _)).
  2:{ pose proof (norm_entry 3 (vadd vzero t') 2 ltac:(lia)) as NE. unfold vadd at 1, vzero at 1 in NE. rewrite T22 in NE. rewrite Rabs_pos_eq in NE by lra. lra. }
  eexists. split; [reflexivity|]. cbn [tr_x tr_end tr_passes]. unfold vadd, vzero. rewrite !AX, T10, T11, T12, T20, T21, T22. repeat split; field.
Qed.

Lemma r_linear : ~ forall restore cvx null cg mult n nsl lb ub thr M0 ce ae sl fuel x delta g lm o,
  length ae = length ce -> (nsl <= length ce)%nat -> symmetric n M0 -> 0 <= delta -> / 10 ^ 15 <= thr -> keeps_bounds restore -> in_bounds n lb ub x ->
  restore_short restore -> cg_short cg -> cg_descends cg -> null_orth (n + nsl) null -> null_in (n + nsl) null ->
  (forall k, (k < length ce)%nat -> lin_con n nsl ce ae sl vzero k = 0) -> nsl = 0%nat ->
  solve_con restore cvx null cg mult n nsl lb ub thr M0 ce ae sl fuel x delta g lm = TrOut o ->
  forall k, (k < length ce)%nat -> lin_con n nsl ce ae sl (vsub (tr_x o) x) k = 0.
Proof.
  intros F. destruct linear_case as (o & E & _ & _ & X0 & _).
  assert (Q : lin_con 3 0 [0] [unitv 0] vzero (vsub (tr_x o) vzero) 0 = 0).
  { refine (F _ _ _ _ _ 3%nat 0%nat loi up1 _ _ [0] [unitv 0] _ _ vzero 4 _ _ o eq_refl _ m34_sym _ e15_8 (guard_bounds vzero) _ (guard_short vzero) (cg_chk_short candU) (cg_chk_descends candU) null1_orth (null_chk_in 3 candZ) _ eq_refl E 0%nat _).
    - cbn. lia.
    - lra.
    - intros i Hi. unfold loi, up1, vzero. destruct (i =? 1)%nat; cbn; lra.
    - intros k K. cbn in K. assert (k = 0%nat) by lia. subst k. unfold lin_con, dot, vzero. cbn. ring.
    - cbn. lia. }
  unfold lin_con, dot, vsub, vzero in Q. cbn in Q. rewrite X0 in Q. lra.
Qed.

(** *** "release" at a point that satisfies the first-order conditions *)
Lemma e5' : 0 < / 10 ^ 5 < / 100.
Proof. split; [apply Rinv_0_lt_compat, pow_lt; lra|]. apply Rinv_lt_contravar; [apply Rmult_lt_0_compat; [lra|apply pow_lt; lra]|]. replace 100 with (10 ^ 2) by ring. apply Rlt_pow; [lra|lia]. Qed.

Definition low0 : nat -> xR := fun i => if (i =? 0)%nat then Fin 0 else NInf.
Definition first1 : vec := fun i => match i with O => 1 | _ => 0 end.
Definition candZ0 (_ : nat) : nat * mat := (1%nat, fun i _ => match i with O => 1 | _ => 0 end).
Definition candU2 (_ : nat) : vec := fun i => match i with O => -2 | _ => 0 end.
Definition mult1 (_ : nat) (y : vec) : option vec :=
  if Rltb (Rabs (y 0%nat)) (/ 10 ^ 5) then Some (fun i => match i with O => -1 | _ => 0 end) else Some vzero.
Lemma mult1_near : signed_near 2 low0 hii mult1.
Proof.
  intros k y l E i Hi. unfold mult1 in E. destruct (Rltb _ _) eqn:F; injection E as <-; [|unfold vzero; split; intros; lra].
  rb. destruct i as [|i]; [|split; intros; lra]. split; intros; [|lra]. cbn -[pow]. rewrite Rminus_0_r. exact F.
Qed.
Lemma candZ0_orth : null_orth 2 (null_chk 2 candZ0).
Proof.
  intros rows k Z E. unfold null_chk in E. destruct (forallb _ rows); [|discriminate]. injection E as <- <-. intros a b Ha Hb.
  assert (a = 0%nat) by lia. assert (b = 0%nat) by lia. subst. unfold idm, dot. cbn. ring.
Qed.

Definition loop2 := tr_loop (guard vzero) (fun A => A) (null_chk 2 candZ0) (cg_chk candU2) mult1 2 0 low0 hii (/ 10 ^ 8) zmat [0] vzero.

Lemma release_case : exists o, solve_con (guard vzero) (fun A => A) (null_chk 2 candZ0) (cg_chk candU2) mult1 2 0 low0 hii (/ 10 ^ 8) zmat [0] [unitv 1] vzero 100 first1 4 first1 vzero = TrOut o /\
  tr_end o = TrRelease /\ tr_fix o = [0%nat] /\ tr_x o 0%nat = 0 /\ tr_x o 1%nat = 0.
Proof.
  pose proof e16 as E16. pose proof e14 as E14. pose proof e8 as E8. pose proof e7 as E7. pose proof e15' as E15. pose proof e5' as E5.
  unfold solve_con. set (s := mkst _ _ _ _ _ _ _ _ _ _).
  assert (AC : active0 2 0 low0 hii [0] [unitv 1] vzero first1 first1 vzero = []).
  { assert (C1 : forall i, TR_Model.close (/ 10 ^ 5) (first1 i) (low0 i) = false).
    { intros i. unfold TR_Model.close, low0. destruct i as [|i]; [|reflexivity]. cbn [Nat.eqb first1]. apply Rltb_false. rewrite Rabs_pos_eq; lra. }
    unfold active0. cbn [seq flat_map]. rewrite !C1, !andb_false_r. reflexivity. }
  assert (CON : s_con s = [0]) by (unfold s; rewrite AC; reflexivity).
  assert (GC : exists a, s_gcon s = [a] /\ a 0%nat = 0 /\ a 1%nat = 1).
  { unfold s. rewrite AC. eexists. split; [reflexivity|]. cbn. repeat split; reflexivity. }
  destruct GC as (a & GC & GA0 & GA1).
  assert (R1 : restoration (guard vzero) (fun A => A) 2 0 low0 hii vzero 1 s = Some (vzero, 0, false)).
  { unfold restoration. cbn [Nat.eqb andb].
    assert (NG : norm (dim 2 0) (rows_t (s_con s) (s_gcon s)) = 0).
    { apply norm_zero. intros j _. rewrite CON, GC. unfold rows_t. cbn. unfold vzero. ring. }
    rewrite NG, (proj2 (Rltb_false _ _)) by lra. reflexivity. }
  assert (T1 : exists t, tangent (null_chk 2 candZ0) (cg_chk candU2) 2 0 zmat s vzero = Some (t, false) /\ t 0%nat = -2 /\ t 1%nat = 0).
  { unfold tangent. rewrite CON, GC. cbn [length Nat.ltb Nat.leb dim Nat.add]. unfold null_chk. unfold candZ0. cbn [length fst snd seq forallb].
    rewrite (proj2 (Reqb_true (dot 2 a _) 0)) by (unfold dot; cbn; rewrite GA0, GA1; ring). cbn [andb]. unfold cg_chk.
    match goal with |- context [cost 1 ?A ?b _] => set (A1 := A); set (b1 := b) end.
    assert (B0 : b1 0%nat = -1) by (unfold b1, vneg, mv, vadd, vzero, s, first1; cbn; unfold gx0, Mx, zmat, first1; cbn; ring).
    assert (A00 : A1 0%nat 0%nat = 0) by (unfold A1, dot, mv, Mx, zmat; cbn; ring).
    clearbody A1 b1.
    rewrite (proj2 (Rleb_true _ _)) by (change (s_del s) with 4; unfold dot, candU2; cbn; lra).
    rewrite (proj2 (Rleb_true _ _)) by (unfold cost, quad, dot, mv, candU2; cbn; rewrite B0, A00; lra).
    rewrite (proj2 (Rleb_true _ _)) by (unfold dot, candU2; cbn; rewrite B0; lra). cbn [andb].
    eexists. split; [reflexivity|]. unfold mv, candU2. cbn. repeat split; ring. }
  destruct T1 as (t & T1 & T10 & T11).
  assert (SC : scan low0 hii (/ 10 ^ 8) 2 0 (vadd (vadd (s_x s) vzero) t) = (Some 0%nat, [])).
  { change (s_x s) with first1. cbn [scan]. unfold under, low0, vadd, vzero, first1. cbn [Nat.eqb]. rewrite T10.
    rewrite (proj2 (Rltb_true _ _)) by lra. reflexivity. }
  assert (MR : minratio 2 0 low0 hii (restored 2 vzero s vzero) t = Fin (/ 2)).
  { rewrite (ratio_low 2 0 low0 hii _ t 0 0); [|lia|reflexivity|intros i NE; unfold low0; destruct (Nat.eqb_spec i 0); [contradiction|reflexivity]|reflexivity|lra].
    f_equal. rewrite T10. unfold restored, join, vadd. cbn. unfold vzero. field. }
  assert (P1 : exists s3, (forall f, loop2 (S f) 1 s = loop2 f 2 s3) /\ (forall i, s_x s3 i = first1 i + / 2 * t i) /\ length (s_con s3) = 2%nat /\
    s_fix s3 = [0%nat] /\ s_del s3 = 7 / 2).
  { unfold loop2. cbn [tr_loop]. rewrite R1, T1, SC.
    match goal with |- context [choose _ _ _ _ ?s1 _ _ _ _] => set (s2 := s1) end.
    assert (CH : choose mult1 2 [0] 1 s2 (vadd (vadd (s_x s) vzero) t) (vadd vzero t) true [] = ChGo (s_lm s2) (s_fix s2) (s_con s2) (s_gcon s2)).
    { unfold choose. rewrite (proj2 (Rleb_false _ _)); [reflexivity|].
      pose proof (norm_entry 2 (vadd vzero t) 0 ltac:(lia)) as NE. unfold vadd at 1, vzero at 1 in NE. rewrite T10 in NE. rewrite Rabs_left in NE by lra. lra. }
    rewrite CH. clear CH.
    match goal with |- context [shorten _ _ _ _ _ _ _ _ ?s1 _ _ ?q] => set (s2' := s1); set (sln := q) end.
    unfold shorten. change (join 2 (vadd (s_x s2') vzero) (vadd vzero (slpart 2 vzero))) with (restored 2 vzero s vzero). rewrite MR.
    rewrite (proj2 (Rltb_false _ _)) by lra. eexists. split; [reflexivity|].
    cbn [s_x s_con s_fix s_del]. unfold s2', s2. cbn [s_x s_con s_fix s_del].
    change (s_x s) with first1. change (s_fix s) with (@nil nat). change (s_del s) with 4. rewrite CON. cbn [app].
    split; [intros i; unfold vadd, vscal, vzero; ring|]. split; [reflexivity|]. split; [reflexivity|].
    assert (NR : norm 2 (vadd vzero (vscal (/ 2) t)) = 1).
    { unfold norm, dot, vadd, vscal, vzero. cbn. rewrite T10, T11. transitivity (sqrt 1); [f_equal; field|apply sqrt_1]. }
    rewrite NR. lra. }
  destruct P1 as (s3 & P1 & AX & A1 & A4 & A5).
  change 100%nat with (S (S 98)). generalize 98%nat as f1. intros f1. unfold loop2 in P1. rewrite P1. clear P1 MR SC T1 R1 GC CON AC. clearbody s. clear s.
  assert (T2 : tangent (null_chk 2 candZ0) (cg_chk candU2) 2 0 zmat s3 vzero = Some (vzero, false)) by (unfold tangent; rewrite A1; reflexivity).
  assert (R2 : restoration (guard vzero) (fun A => A) 2 0 low0 hii vzero 2 s3 = Some (vzero, s_rpred s3, false)) by (apply rest_later; lia).
  assert (X0 : vadd (vadd (s_x s3) vzero) vzero 0%nat = 0) by (unfold vadd, vzero; rewrite AX, T10; cbn; lra).
  assert (X1 : vadd (vadd (s_x s3) vzero) vzero 1%nat = 0) by (unfold vadd, vzero; rewrite AX, T11; cbn; lra).
  assert (SC : scan low0 hii (/ 10 ^ 8) 2 0 (vadd (vadd (s_x s3) vzero) vzero) = (None, [0%nat])).
  { cbn [scan]. unfold under, TR_Model.close, over, low0, hii. cbn [Nat.eqb]. rewrite X0.
    rewrite (proj2 (Rltb_false _ _)) by lra. rewrite Rminus_0_r, Rabs_R0, (proj2 (Rltb_true _ _)) by lra. reflexivity. }
  cbn [tr_loop]. rewrite R2, T2, SC. unfold choose.
  rewrite (proj2 (Rleb_true _ _)).
  2:{ assert (NZ : norm 2 (vadd vzero vzero) = 0) by (apply norm_zero; intros i _; unfold vadd, vzero; ring). rewrite NZ. lra. }
  cbn [s_del s_fix]. rewrite A5, A4. rewrite (proj2 (Rltb_false _ _)) by lra. change ((10 * 2 <=? 2)%nat || false)%bool with false. cbv iota.
  unfold mult1. rewrite X0, Rabs_R0, (proj2 (Rltb_true _ _)) by lra.
  cbn [map argmin]. rewrite (proj2 (Rltb_true (-1) 0)) by lra.
  change (same_set [0%nat] [0%nat]) with true. cbv iota beta zeta.
  eexists. split; [reflexivity|]. cbn [tr_x tr_end tr_fix]. repeat split; assumption.
Qed.

Lemma r_release : ~ forall restore cvx null cg mult n nsl lb ub thr M0 ce ae sl fuel x delta g lm o,
  length ae = length ce -> (nsl <= length ce)%nat -> symmetric n M0 -> 0 <= delta -> / 10 ^ 15 <= thr -> keeps_bounds restore -> in_bounds n lb ub x ->
  restore_short restore -> cg_short cg -> cg_descends cg -> null_orth (n + nsl) null -> null_in (n + nsl) null -> signed_near n lb ub mult -> nsl = 0%nat ->
  solve_con restore cvx null cg mult n nsl lb ub thr M0 ce ae sl fuel x delta g lm = TrOut o -> tr_end o = TrRelease ->
  ~ first_order_conditions n nsl (length ce) (tr_x o) lb ub (vadd g (mv n M0 (vsub (tr_x o) x))) (lin_con n nsl ce ae sl (vsub (tr_x o) x)) (fun k => nth k ae vzero).
Proof.
  intros F. destruct release_case as (o & E & TE & _ & X0 & X1).
  refine (F _ _ _ _ _ 2%nat 0%nat low0 hii _ _ [0] [unitv 1] vzero _ first1 4 first1 _ o eq_refl _ _ _ e15_8 (guard_bounds vzero) _ (guard_short vzero) (cg_chk_short candU2) (cg_chk_descends candU2) candZ0_orth (null_chk_in 2 candZ0) mult1_near eq_refl E TE _).
  - cbn. lia.
  - intros i j _ _. reflexivity.
  - lra.
  - intros i Hi. unfold low0, hii, first1. destruct i as [|i]; cbn; lra.
  - exists (fun i => match i with O => -1 | _ => 0 end), vzero.
    split; [|split; [|split; [|split]]].
    + intros j J. unfold lagr, vadd, vzero, mv, zmat, unitv, first1. destruct j as [|[|j]]; [| |lia]; cbn; ring.
    + intros j J H. destruct j as [|j]; [|lra]. rewrite X0. reflexivity.
    + intros j J H. destruct j as [|j]; lra.
    + intros k K. cbn in K. assert (k = 0%nat) by lia. subst k. unfold lin_con, dot, vsub, unitv, first1. cbn. rewrite X0, X1. ring.
    + intros k K. cbn in K. lia.
Qed.

(** *** a run of a single pass with restoration and a slack at its bound *)
Definition half1 : nat -> xR := fun i => if (i =? 1)%nat then Fin (/ 2) else PInf.
Definition candZ1 (_ : nat) : nat * mat := (1%nat, fun i _ => match i with 1%nat => 1 | _ => 0 end).
Definition candU1 (_ : nat) : vec := fun i => match i with O => 1 | _ => 0 end.

Lemma single_case : exists o, solve_con (guard back1) (fun A => A) (null_chk 2 candZ1) (cg_chk candU1) multz 1 1 loi half1 (/ 10 ^ 8) zmat [1] [unitv 0] vzero 100 vzero 1 vzero vzero = TrOut o /\
  tr_end o = TrFeasible /\ tr_passes o = 1%nat /\ tr_x o 0%nat = -1 /\ tr_sl o 0%nat = 0 /\ tr_actr o = true.
Proof.
  pose proof e16 as E16. pose proof e14 as E14. pose proof e8 as E8. pose proof e7 as E7. pose proof e15' as E15. pose proof e5' as E5.
  unfold solve_con. set (s := mkst _ _ _ _ _ _ _ _ _ _).
  assert (AC : active0 1 1 loi half1 [1] [unitv 0] vzero vzero vzero vzero = []) by reflexivity.
  assert (CON : s_con s = [1 - 0 ^ 2]) by (unfold s; rewrite AC; reflexivity).
  assert (GC : exists a, s_gcon s = [a] /\ a 0%nat = 1 /\ a 1%nat = 0).
  { unfold s. rewrite AC. eexists. split; [reflexivity|]. cbn. unfold vzero. split; ring. }
  destruct GC as (a & GC & GA0 & GA1).
  assert (N1 : norm 2 back1 = 1) by (unfold norm, dot, back1; cbn; transitivity (sqrt 1); [f_equal; ring|apply sqrt_1]).
  assert (N1' : norm 1 back1 = 1) by (unfold norm, dot, back1; cbn; transitivity (sqrt 1); [f_equal; ring|apply sqrt_1]).
  assert (R : exists rp, restoration (guard back1) (fun A => A) 1 1 loi half1 vzero 1 s = Some (back1, rp, true)).
  { unfold restoration. change (1 =? 1)%nat with true. cbn [andb]. change (dim 1 1) with 2%nat.
    assert (NG : norm 2 (rows_t (s_con s) (s_gcon s)) = 1).
    { rewrite CON, GC. unfold norm, dot, rows_t. cbn. rewrite GA0, GA1. transitivity (sqrt 1); [f_equal; ring|apply sqrt_1]. }
    rewrite NG, (proj2 (Rltb_true _ _)) by lra. unfold guard.
    match goal with |- context [forallb ?f (seq 0 2)] => assert (FB : forallb f (seq 0 2) = true) end.
    { cbn [seq forallb]. unfold loi, half1, back1, join, vzero. cbn. rewrite (proj2 (Rleb_true _ _)) by lra. reflexivity. }
    rewrite FB. change (s_del s) with 1. rewrite N1, (proj2 (Rleb_true _ _)) by lra. cbn [andb]. rewrite N1', (proj2 (Rltb_true _ _)) by lra. eexists. reflexivity. }
  destruct R as (rp & R).
  assert (T : exists t, tangent (null_chk 2 candZ1) (cg_chk candU1) 1 1 zmat s back1 = Some (t, false) /\ t 0%nat = 0 /\ t 1%nat = 1).
  { unfold tangent. rewrite CON, GC. cbn [length Nat.ltb Nat.leb dim Nat.add]. unfold null_chk. unfold candZ1. cbn [length fst snd seq forallb].
    rewrite (proj2 (Reqb_true (dot 2 a _) 0)) by (unfold dot; cbn; rewrite GA0, GA1; ring). cbn [andb]. unfold cg_chk.
    match goal with |- context [cost 1 ?A ?b _] => set (A1 := A); set (b1 := b) end.
    assert (B0 : b1 0%nat = 0) by (unfold b1, vneg, mv, vadd, vzero, s; cbn; unfold gx0, Mx, zmat, vzero; cbn; ring).
    assert (A00 : A1 0%nat 0%nat = 0) by (unfold A1, dot, mv, Mx, zmat; cbn; ring).
    clearbody A1 b1.
    rewrite (proj2 (Rleb_true _ _)) by (change (s_del s) with 1; unfold dot, candU1; cbn; lra).
    rewrite (proj2 (Rleb_true _ _)) by (unfold cost, quad, dot, mv, candU1; cbn; rewrite B0, A00; lra).
    rewrite (proj2 (Rleb_true _ _)) by (unfold dot, candU1; cbn; rewrite B0; lra). cbn [andb].
    eexists. split; [reflexivity|]. unfold mv, candU1. cbn. repeat split; ring. }
  destruct T as (t & T & T0 & T1).
  assert (SC : scan loi half1 (/ 10 ^ 8) 1 0 (vadd (vadd (s_x s) back1) t) = (None, [])) by reflexivity.
  change 100%nat with (S 99). generalize 99%nat as f. intros f. cbn [tr_loop]. rewrite R, T, SC.
  unfold choose. rewrite (proj2 (Rleb_false _ _)).
  2:{ pose proof (norm_entry 1 (vadd back1 t) 0 ltac:(lia)) as NE. unfold vadd at 1, back1 at 1 in NE. cbn [Nat.eqb] in NE. rewrite T0, Rabs_left in NE by lra. lra. }
  eexists. split; [reflexivity|]. cbn [tr_x tr_end tr_passes tr_sl tr_actr Nat.eqb]. change (s_x s) with vzero.
  split; [reflexivity|]. split; [reflexivity|]. split; [unfold vadd, vzero, back1; cbn; rewrite T0; ring|]. split; [|reflexivity].
  unfold clip, loi, half1. cbn [Nat.eqb Nat.add xler negb]. unfold rlex, vadd, slpart, vzero. cbn [Nat.add]. rewrite T1. unfold back1. cbn [Nat.eqb].
  rewrite (proj2 (Rleb_false _ _)) by lra. cbn [negb]. ring.
Qed.

Lemma no_held_lag n lb ub me ae x g : lag_grad n lb ub me ae x g vzero g.
Proof.
  assert (Z : forall i, rsum me (fun k => vzero (n + k)%nat * nth k ae vzero i) = 0) by (intros i; apply rsum_zero; intros k _; unfold vzero at 1; ring).
  intros i _. rewrite Z. unfold vzero. split; intros; ring.
Qed.
Lemma no_held_count lb ub x L i : ~ at_bound (/ 10 ^ 5) (x i) (lb i) -> ~ at_bound (/ 10 ^ 5) (x i) (ub i) -> held_count lb ub x L vzero i.
Proof.
  intros A B. exists 0, 0. split; [unfold vzero; ring|]. split; right; (split; [|reflexivity]); intros [H _]; contradiction.
Qed.
