(** C48: what the matrix factorised in minimum-Frobenius-norm mode is for. *)
From Coq Require Import Reals List Arith Lra Lia.
From Verif Require Import RVec RBool Tri Poly_Model Poly_Spec Poly_Proofs Int_Model Int_Spec Int_Proofs.
Open Scope R_scope.

Lemma frobenius qr ill cure shift n p1 Y b : (1 <= n)%nat -> (1 <= p1)%nat -> (p1 <= full n)%nat -> (p1 <> n + 1 /\ p1 <> full n)%nat ->
  build qr ill cure 1 shift n p1 Y = Some b -> exactly_built qr ill 1 shift n p1 Y ->
  forall f z : vec,
  (forall i, (i < p1 + (n + 1))%nat -> mv (p1 + (n + 1)) (b_Q b) (mv (p1 + (n + 1)) (b_R b) z) i = if (i <? p1)%nat then f i else 0) ->
  exists P, (forall i, (i < n + 1)%nat -> P i = z (p1 + i)%nat) /\
    (forall j, (j < p1)%nat -> value shift n (full n) P b (Y j) = Some (f j)) /\
    forall P', (forall j, (j < p1)%nat -> value shift n (full n) P' b (Y j) = Some (f j)) ->
    rsum (full n - (n + 1)) (fun k => P (n + 1 + k)%nat ^ 2) <= rsum (full n - (n + 1)) (fun k => P' (n + 1 + k)%nat ^ 2).
Proof.
  intros Hn Hp Hf [N1 N2] B EX f z SYS.
  destruct (build_facts _ _ _ _ _ _ _ _ _ B EX) as [D F]. change (eff_mode 1 n p1) with 1%nat in F. cbn [to_factor] in F.
  assert (CF : compl n p1 = false).
  { unfold compl. destruct (Nat.eqb_spec p1 (n + 1)); [lia|]. destruct (Nat.eqb_spec p1 (full n)); [lia|reflexivity]. }
  rewrite CF in F. destruct F as [F _]. set (M := zmat n (full n) (pts shift n p1 Y)) in *.
  assert (S2 : sizes 2 n p1) by (split; [exact Hn|split; [exact Hp|split; [left; right; left; reflexivity|intros _; exact Hf]]]).
  assert (V : forall P j, value shift n (full n) P b (Y j) = Some (rsum (full n) (fun i => P i * M i j))) by (intros P j; exact (value_pts 2 shift n p1 Y b P j S2 D)).
  set (d := (full n - (n + 1))%nat) in *. set (c := (p1 + (n + 1))%nat) in *.
  assert (FN : full n = (n + 1 + d)%nat).
  { unfold d. assert (n + 1 <= full n)%nat by (rewrite full_tri; lia). lia. }
  (* the rows of the system *)
  assert (ROW : forall i, (i < c)%nat -> rsum c (fun j => (if (i <? p1)%nat then if (j <? p1)%nat then rsum d (fun k => M (n + 1 + k)%nat i * M (n + 1 + k)%nat j) else M (j - p1)%nat i
       else if (j <? p1)%nat then M (i - p1)%nat j else 0) * z j) = if (i <? p1)%nat then f i else 0).
  { intros i Hi. rewrite <- (SYS i Hi). unfold mv.
    transitivity (rsum c (fun j => rsum c (fun k => b_Q b i k * b_R b k j) * z j)).
    - apply rsum_ext. intros j Hj. rewrite (F i j Hi Hj). reflexivity.
    - transitivity (rsum c (fun j => rsum c (fun k => b_Q b i k * (b_R b k j * z j)))).
      + apply rsum_ext. intros j Hj. rewrite <- rsum_scal_r. apply rsum_ext. intros k Hk. ring.
      + rewrite rsum_swap. apply rsum_ext. intros k Hk. rewrite rsum_scal. reflexivity. }
  set (q := fun k => rsum p1 (fun j => M (n + 1 + k)%nat j * z j)).
  assert (R1 : forall i, (i < p1)%nat -> rsum d (fun k => q k * M (n + 1 + k)%nat i) + rsum (n + 1) (fun l => z (p1 + l)%nat * M l i) = f i).
  { intros i Hi. pose proof (ROW i ltac:(unfold c; lia)) as H. rewrite (proj2 (Nat.ltb_lt i p1) Hi) in H. unfold c in H.
    rewrite rsum_split in H. rewrite <- H. f_equal.
    - transitivity (rsum d (fun k => rsum p1 (fun j => M (n + 1 + k)%nat i * M (n + 1 + k)%nat j * z j))).
      + apply rsum_ext. intros k Hk. unfold q. rewrite <- rsum_scal_r. apply rsum_ext. intros j Hj. ring.
      + rewrite rsum_swap. apply rsum_ext. intros j Hj. rewrite (proj2 (Nat.ltb_lt j p1) Hj). rewrite <- rsum_scal_r. reflexivity.
    - apply rsum_ext. intros l Hl. rewrite (proj2 (Nat.ltb_ge (p1 + l) p1)) by lia. replace (p1 + l - p1)%nat with l by lia. ring. }
  assert (R2 : forall l, (l < n + 1)%nat -> rsum p1 (fun j => M l j * z j) = 0).
  { intros l Hl. pose proof (ROW (p1 + l)%nat ltac:(unfold c; lia)) as H. rewrite (proj2 (Nat.ltb_ge (p1 + l) p1)) in H by lia. unfold c in H.
    rewrite rsum_split in H. replace (p1 + l - p1)%nat with l in H by lia.
    rewrite (rsum_zero (n + 1)) in H.
    - rewrite Rplus_0_r in H. rewrite <- H. apply rsum_ext. intros j Hj. rewrite (proj2 (Nat.ltb_lt j p1) Hj). reflexivity.
    - intros j Hj. rewrite (proj2 (Nat.ltb_ge (p1 + j) p1)) by lia. ring. }
  set (P := fun i => if (i <? n + 1)%nat then z (p1 + i)%nat else q (i - (n + 1))%nat).
  assert (PL : forall i, (i < n + 1)%nat -> P i = z (p1 + i)%nat) by (intros i Hi; unfold P; rewrite (proj2 (Nat.ltb_lt i (n + 1)) Hi); reflexivity).
  assert (PQ : forall k, P (n + 1 + k)%nat = q k).
  { intros k. unfold P. rewrite (proj2 (Nat.ltb_ge (n + 1 + k) (n + 1))) by lia. f_equal. lia. }
  assert (PV : forall j, (j < p1)%nat -> rsum (full n) (fun i => P i * M i j) = f j).
  { intros j Hj. rewrite FN, rsum_split. rewrite <- (R1 j Hj). rewrite Rplus_comm. f_equal; apply rsum_ext; intros k Hk; [rewrite PQ|rewrite PL by exact Hk]; reflexivity. }
  exists P. split; [exact PL|]. split; [intros j Hj; rewrite V, PV by exact Hj; reflexivity|].
  intros P' H'.
  assert (DV : forall j, (j < p1)%nat -> rsum d (fun k => (P' (n + 1 + k)%nat - q k) * M (n + 1 + k)%nat j) = - rsum (n + 1) (fun l => (P' l - P l) * M l j)).
  { intros j Hj. specialize (H' j Hj). rewrite V in H'. injection H' as H'. pose proof (PV j Hj) as H0. rewrite FN, rsum_split in H', H0.
    assert (A : rsum d (fun k => (P' (n + 1 + k)%nat - q k) * M (n + 1 + k)%nat j) =
                rsum d (fun k => P' (n + 1 + k)%nat * M (n + 1 + k)%nat j) - rsum d (fun k => P (n + 1 + k)%nat * M (n + 1 + k)%nat j)).
    { rewrite <- rsum_minus. apply rsum_ext. intros k Hk. rewrite PQ. ring. }
    assert (A2 : rsum (n + 1) (fun l => (P' l - P l) * M l j) = rsum (n + 1) (fun l => P' l * M l j) - rsum (n + 1) (fun l => P l * M l j)).
    { rewrite <- rsum_minus. apply rsum_ext. intros l Hl. ring. }
    lra. }
  assert (ORT : rsum d (fun k => (P' (n + 1 + k)%nat - q k) * q k) = 0).
  { transitivity (rsum p1 (fun j => z j * rsum d (fun k => (P' (n + 1 + k)%nat - q k) * M (n + 1 + k)%nat j))).
    - transitivity (rsum d (fun k => rsum p1 (fun j => z j * ((P' (n + 1 + k)%nat - q k) * M (n + 1 + k)%nat j)))).
      + apply rsum_ext. intros k Hk. unfold q at 2. rewrite <- rsum_scal. apply rsum_ext. intros j Hj. ring.
      + rewrite rsum_swap. apply rsum_ext. intros j Hj. rewrite rsum_scal. reflexivity.
    - transitivity (rsum p1 (fun j => rsum (n + 1) (fun l => - (P' l - P l) * (M l j * z j)))).
      + apply rsum_ext. intros j Hj. rewrite DV by exact Hj. replace (z j * - rsum (n + 1) (fun l => (P' l - P l) * M l j)) with ((- z j) * rsum (n + 1) (fun l => (P' l - P l) * M l j)) by ring.
        rewrite <- rsum_scal. apply rsum_ext. intros l Hl. ring.
      + rewrite rsum_swap. apply rsum_zero. intros l Hl. rewrite rsum_scal, R2 by exact Hl. ring. }
  assert (SQ : rsum d (fun k => P' (n + 1 + k)%nat ^ 2) = rsum d (fun k => P (n + 1 + k)%nat ^ 2) +
     (rsum d (fun k => (P' (n + 1 + k)%nat - q k) * (P' (n + 1 + k)%nat - q k)) + 2 * rsum d (fun k => (P' (n + 1 + k)%nat - q k) * q k))).
  { rewrite <- rsum_scal, <- !rsum_plus. apply rsum_ext. intros k Hk. rewrite PQ. ring. }
  pose proof (rsum_nonneg d (fun k => (P' (n + 1 + k)%nat - q k) * (P' (n + 1 + k)%nat - q k)) ltac:(intros; exact (Rle_0_sqr _))) as NN.
  rewrite SQ, ORT. lra.
Qed.

(** C31: the value computed by element-wise division where no divisor is zero *)
Lemma xsum_some m f g : (forall i, (i < m)%nat -> f i = Some (g i)) -> xsum m f = Some (rsum m g).
Proof.
  intros E. induction m as [|m IH]; [reflexivity|]. cbn [xsum rsum].
  rewrite IH by (intros; apply E; lia). rewrite E by lia. reflexivity.
Qed.

Lemma elementwise slv pinv shift n p1 b choice x : (1 <= n)%nat -> (p1 = n + 1 \/ p1 = full n)%nat ->
  (forall i j, (i < p1)%nat -> (j < p1)%nat -> b_R b i j <> 0) ->
  exists v, evalL slv pinv 1 shift n p1 b choice x = LVals v /\
  forall j, (j < p1)%nat -> In j choice ->
  v j = Some (rsum p1 (fun i => b_Q b j i / b_R b i j *
    nth i (evalZ n p1 (if shift then fun t => (x t - b_base b t) * b_scale b 1%nat else x)) 0)).
Proof.
  intros Hn C NZ. pose proof (full_gt n Hn). unfold evalL.
  change (eff_mode 1 n p1) with 1%nat. cbn match. rewrite (proj2 (compl_true n p1) C).
  rewrite value_sum by lia. eexists. split; [reflexivity|]. intros j Hj I. cbn beta.
  rewrite (proj2 (existsb_In j choice) I). unfold frob_value. apply xsum_some. intros i Hi.
  assert (ROW : frob_row p1 (b_Q b) (b_R b) j i = Some (b_Q b j i / b_R b i j)).
  { unfold frob_row. rewrite (xsum_some p1 _ (fun k => idm j k * (b_Q b k i / b_R b i k))).
    - f_equal. rewrite (rsum_single p1 j); [unfold idm; rewrite Nat.eqb_refl; ring|exact Hj|].
      intros k Hk N. unfold idm. destruct (Nat.eqb_spec j k); [lia|ring].
    - intros k Hk. unfold xdiv. rewrite (proj2 (Reqb_false (b_R b i k) 0)) by (apply NZ; assumption). reflexivity. }
  rewrite ROW. reflexivity.
Qed.
