(** C56: the slacks of the constrained step and their bounds. *)
From Coq Require Import Reals List Arith Lra Lia.
From Verif Require Import RVec RBool ProjGrad_Spec TR_Model TR_Spec TR_Proofs.
Import ListNotations.
Open Scope R_scope.

Section S.
Variable restore : nat -> vec -> mat -> (nat -> xR) -> (nat -> xR) -> R -> option (vec * rmsg).
Variable cvx : mat -> mat.
Variable null : list vec -> option (nat * mat).
Variable cg : nat -> mat -> vec -> R -> option (vec * bool).
Variable mult : nat -> vec -> option vec.
Variables (n nsl : nat) (lb ub : nat -> xR) (thr : R).
Variables (M0 : mat) (ce : list R) (sl : vec).
Notation dim := (dim n nsl).
Notation restoration := (restoration restore cvx n nsl lb ub sl).
Notation tangent := (tangent null cg n nsl M0).
Notation scan := (scan lb ub thr).
Notation choose := (choose mult n ce).
Notation shorten := (shorten n nsl lb ub M0 ce sl).
Notation tr_loop := (tr_loop restore cvx null cg mult n nsl lb ub thr M0 ce sl).
Notation slpart := (slpart n).
Notation clip := (clip n lb ub).
Notation restored := (restored n sl).

Definition sin (z : vec) : Prop := forall i, (i < nsl)%nat -> xle_r (lb (n + i)%nat) (z i) /\ rle_x (z i) (ub (n + i)%nat).

Lemma rlex_ok a b : rlex a b = true <-> rle_x a b.
Proof. destruct b; cbn; try rewrite Rleb_true; intuition (try discriminate; auto). Qed.
Lemma xler_ok a b : xler a b = true <-> xle_r a b.
Proof. destruct a; cbn; try rewrite Rleb_true; intuition (try discriminate; auto). Qed.

(** the check of the slacks: the tangential part is taken back where a bound is violated *)
Lemma clip_sin z t : sin z -> sin (clip (vadd z t) t).
Proof.
  intros Z i Hi. destruct (Z i Hi) as [L U]. unfold TR_Model.clip, vadd.
  destruct (rlex (z i + t i) (ub (n + i)%nat)) eqn:E1; cbn [negb].
  - destruct (xler (lb (n + i)%nat) (z i + t i)) eqn:E2; cbn [negb]; [split; [apply xler_ok, E2|apply rlex_ok, E1]|].
    replace (z i + t i - t i) with (z i) by ring. auto.
  - replace (z i + t i - t i) with (z i) by ring. rewrite (proj2 (xler_ok _ _) L). cbn [negb]. auto.
Qed.

Lemma clip_same z t i : xle_r (lb (n + i)%nat) (z i) -> rle_x (z i) (ub (n + i)%nat) -> clip z t i = z i.
Proof.
  intros L U. unfold TR_Model.clip. rewrite (proj2 (rlex_ok _ _) U). cbn [negb]. rewrite (proj2 (xler_ok _ _) L). reflexivity.
Qed.

Lemma restored_sin s r : in_bounds dim lb ub (restored s r) -> sin (vadd sl (slpart r)).
Proof.
  intros B i Hi. specialize (B (n + i)%nat ltac:(unfold TR_Model.dim; lia)).
  unfold TR_Proofs.restored, join in B. destruct (Nat.ltb_spec (n + i) n); [lia|]. replace (n + i - n)%nat with i in B by lia. exact B.
Qed.

(** a step this short violates no bound *)
Lemma short_none s r t i xa : / 10 ^ 15 <= thr -> in_bounds n lb ub (s_x s) -> norm n (vadd r t) <= / 10 ^ 16 ->
  scan n 0 (vadd (vadd (s_x s) r) t) = (Some i, xa) -> False.
Proof.
  intros T X Z SC. apply scan_some in SC. destruct SC as [I V]. destruct (X i ltac:(lia)) as [XL XU].
  pose proof (norm_entry n (vadd r t) i ltac:(lia)) as NE. unfold vadd in NE, Z, V.
  assert (SM : / 10 ^ 16 < / 10 ^ 15) by (apply Rinv_lt_contravar; [apply Rmult_lt_0_compat; apply pow_lt; lra|apply Rlt_pow; [lra|lia]]).
  pose proof (Rle_abs (r i + t i)). pose proof (Rle_abs (- (r i + t i))) as A2. rewrite Rabs_Ropp in A2.
  destruct V as [V|V].
  - destruct (lb i); cbn in *; try discriminate; try contradiction. apply Rltb_true in V. lra.
  - destruct (ub i); cbn in *; try discriminate; try contradiction. apply Rltb_true in V. lra.
Qed.

Lemma pass_sl k s r rp actr f o : / 10 ^ 15 <= thr -> in_bounds n lb ub (s_x s) ->
  in_bounds dim lb ub (restored s r) -> restoration k s = Some (r, rp, actr) -> (k = 1%nat \/ (1 < k)%nat /\ sin (s_slnew s)) ->
  tr_loop (S f) k s = TrOut o ->
  (sin (tr_sl o) /\ tr_passes o = k /\ (k = 1%nat -> exists m, tr_moves o = s_moves s ++ [m] /\
      forall i, (i < nsl)%nat -> xle_r (lb (n + i)%nat) (sl i + m (n + i)%nat) -> rle_x (sl i + m (n + i)%nat) (ub (n + i)%nat) ->
      tr_sl o i = sl i + m (n + i)%nat)) \/
  (exists s', tr_loop f (S k) s' = TrOut o /\ in_bounds n lb ub (s_x s') /\ (k = 1%nat -> sin (s_slnew s'))).
Proof.
  intros T X Y R SI. cbn [TR_Model.tr_loop]. rewrite R.
  destruct (tangent s r) as [[t actt]|]; [|discriminate].
  destruct (scan n 0 (vadd (vadd (s_x s) r) t)) as [v xa] eqn:SC.
  set (sln := clip _ _).
  assert (SL : sin sln).
  { unfold sln. destruct SI as [->|[K SI]].
    - cbn [Nat.eqb]. apply clip_sin. exact (restored_sin _ _ Y).
    - destruct (Nat.eqb_spec k 1); [lia|]. apply clip_sin. exact SI. }
  assert (SM : k = 1%nat -> exists m, s_moves s ++ [vadd r t] = s_moves s ++ [m] /\
      forall i, (i < nsl)%nat -> xle_r (lb (n + i)%nat) (sl i + m (n + i)%nat) -> rle_x (sl i + m (n + i)%nat) (ub (n + i)%nat) ->
      sln i = sl i + m (n + i)%nat).
  { intros K. exists (vadd r t). split; [reflexivity|]. intros i Hi L U. unfold sln. rewrite K. cbn [Nat.eqb].
    assert (E : vadd (vadd sl (slpart r)) (slpart t) i = sl i + vadd r t (n + i)%nat)
      by (unfold vadd, TR_Model.slpart; ring).
    rewrite <- E. apply clip_same; rewrite E; assumption. }
  destruct v as [i|].
  - set (s1 := mkst _ _ _ _ _ _ _ _ _ _).
    assert (LG : / 10 ^ 16 < norm n (vadd r t)).
    { destruct (Rle_lt_dec (norm n (vadd r t)) (/ 10 ^ 16)) as [Z|Z]; [|exact Z]. exfalso. exact (short_none _ _ _ _ _ T X Z SC). }
    unfold TR_Model.choose. destruct (Rleb_spec (norm n (vadd r t)) (/ 10 ^ 16)) as [Z|Z]; [lra|].
    set (s2 := mkst _ _ _ _ _ _ _ _ _ _).
    pose proof (shorten_spec n nsl lb ub M0 ce sl k s2 r t sln) as SH.
    destruct (shorten k s2 r t sln) as [s3|]; [|discriminate]. intros E. right. exists s3. split; [exact E|].
    destruct SH as (rho & R0 & R1 & R2 & R3 & R4 & R5 & R6 & R7 & R8).
    change (TR_Proofs.restored n sl s2 r) with (restored s r) in *.
    pose proof (ratio_nonneg n nsl lb ub _ t Y) as NN. destruct (minratio n nsl lb ub (restored s r) t) as [a| |] eqn:ER; [|contradiction|contradiction].
    cbn in NN. rewrite Rmax_left in R1 by lra. subst rho. destruct (ratio_in n nsl lb ub _ _ _ Y ER) as [_ B].
    split.
    + intros j Hj. specialize (B j ltac:(unfold TR_Model.dim; lia)). rewrite R2. change (s_x s2) with (s_x s).
      unfold vadd, vscal, TR_Proofs.restored, join in *. destruct (Nat.ltb_spec j n); [exact B|lia].
    + intros ->. rewrite R8. cbn [Nat.eqb]. intros j Hj. specialize (B (n + j)%nat ltac:(unfold TR_Model.dim; lia)).
      unfold vadd, vscal, TR_Proofs.restored, join in B. destruct (Nat.ltb_spec (n + j) n); [lia|].
      replace (n + j - n)%nat with j in B by lia. exact B.
  - set (s1 := mkst _ _ _ _ _ _ _ _ _ _).
    destruct (choose k s1 _ (vadd r t) false xa) as [| |how lm ff c gc|lm ff c gc]; intros E.
    + discriminate.
    + injection E as <-. left. cbn [tr_sl tr_passes tr_moves]. split; [exact SL|]. split; [reflexivity|exact SM].
    + injection E as <-. left. cbn [tr_sl tr_passes tr_moves]. split; [exact SL|]. split; [reflexivity|exact SM].
    + right. eexists. split; [exact E|]. cbn [s_x s_slnew]. split; [exact X|]. intros _. exact SL.
Qed.
End S.

Lemma slack_bounds restore cvx null cg mult n nsl lb ub thr M0 ce ae sl fuel x delta g lm o :
  / 10 ^ 15 <= thr -> keeps_bounds restore ->
  (forall i, (i < nsl)%nat -> xle_r (lb (n + i)%nat) (sl i) /\ rle_x (sl i) (ub (n + i)%nat)) -> in_bounds n lb ub x ->
  solve_con restore cvx null cg mult n nsl lb ub thr M0 ce ae sl fuel x delta g lm = TrOut o -> (tr_passes o <= 2)%nat ->
  (forall i, (i < nsl)%nat -> xle_r (lb (n + i)%nat) (tr_sl o i) /\ rle_x (tr_sl o i) (ub (n + i)%nat)) /\
  (tr_passes o = 1%nat -> exists m, tr_moves o = [m] /\
     forall i, (i < nsl)%nat -> xle_r (lb (n + i)%nat) (sl i + m (n + i)%nat) -> rle_x (sl i + m (n + i)%nat) (ub (n + i)%nat) ->
     tr_sl o i = sl i + m (n + i)%nat).
Proof.
  intros T KB SI X E P. unfold solve_con in E. destruct fuel as [|fuel]; [discriminate|].
  set (s := mkst _ _ _ _ _ _ _ _ _ _) in E.
  destruct (restoration restore cvx n nsl lb ub sl 1 s) as [[[r rp] actr]|] eqn:R.
  2:{ cbn [tr_loop] in E. rewrite R in E. discriminate. }
  pose proof (restored_in _ _ _ _ _ _ _ 1 s r rp actr KB SI X R) as Y.
  destruct (pass_sl restore cvx null cg mult n nsl lb ub thr M0 ce sl 1 s r rp actr fuel o T X Y R (or_introl eq_refl) E)
    as [(S1 & S2 & S3)|(s' & E' & X' & S')].
  - split; [exact S1|]. intros _. exact (S3 eq_refl).
  - pose proof (passes_le restore cvx null cg mult n nsl lb ub thr M0 ce sl fuel 2 s' o E') as PL.
    split; [|lia]. specialize (S' eq_refl). destruct fuel as [|fuel]; [discriminate|].
    destruct (restoration restore cvx n nsl lb ub sl 2 s') as [[[r' rp'] actr']|] eqn:R'.
    2:{ cbn [tr_loop] in E'. rewrite R' in E'. discriminate. }
    pose proof (restored_in _ _ _ _ _ _ _ 2 s' r' rp' actr' KB SI X' R') as Y'.
    destruct (pass_sl restore cvx null cg mult n nsl lb ub thr M0 ce sl 2 s' r' rp' actr' fuel o T X' Y' R'
                (or_intror (conj (Nat.lt_succ_diag_r 1) S')) E') as [(S1 & _)|(s'' & E'' & _)]; [exact S1|].
    apply passes_le in E''. lia.
Qed.
