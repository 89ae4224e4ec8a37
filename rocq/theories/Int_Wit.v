(** Witnesses for the interpolation properties. *)
From Coq Require Import Reals Lra Psatz Lia List Arith Bool.
From Verif Require Import RVec RBool Tri Poly_Model Poly_Spec Poly_Proofs Int_Model Int_Spec Int_Proofs.
Import ListNotations.
Open Scope R_scope.

(** ** Exact solvers exist *)

Definition lowerb (n : nat) (T : mat) : bool :=
  forallb (fun i => forallb (fun j => (negb (i <? j)%nat || Reqb (T i j) 0)%bool) (seq 0 n)) (seq 0 n).

Lemma lowerb_spec n T : lowerb n T = true <-> lower n T.
Proof.
  unfold lowerb, lower. rewrite forallb_forall. split.
  - intros H i j Hi Hj L. specialize (H i ltac:(apply in_seq; lia)). rewrite forallb_forall in H.
    specialize (H j ltac:(apply in_seq; lia)). rewrite (proj2 (Nat.ltb_lt i j) L) in H. cbn in H.
    unfold Reqb in H. destruct (Req_EM_T (T i j) 0); [assumption|discriminate].
  - intros H i Hi. apply forallb_forall. intros j Hj. apply in_seq in Hi, Hj.
    destruct (Nat.ltb_spec i j) as [L|L]; [|reflexivity]. cbn. rewrite H by lia.
    unfold Reqb. destruct (Req_EM_T 0 0); [reflexivity|contradiction].
Qed.

Definition slv0 (n : nat) (T B : mat) : option mat :=
  Some (fun i j => if lowerb n T then fwd T (fun k => B k j) n i else bwd T (fun k => B k j) n i).
Definition pinv0 (n : nat) (T : mat) : mat :=
  fun i j => if lowerb n T then fwd T (fun k => idm k j) n i else bwd T (fun k => idm k j) n i.

Lemma slv0_solves n T (B : mat) : triangle n T -> forall i j, (i < n)%nat ->
  rsum n (fun k => T i k * (if lowerb n T then fwd T (fun k => B k j) n k else bwd T (fun k => B k j) n k)) = B i j.
Proof.
  intros (LU & D) i j Hi. pose proof (lowerb_spec n T) as S. destruct (lowerb n T).
  - apply (fwd_solves n T (fun k => B k j) (proj1 S eq_refl) D i Hi).
  - destruct LU as [L|U]; [apply S in L; discriminate|]. apply (bwd_solves n T (fun k => B k j) U D i Hi).
Qed.

Lemma slv0_exact : tri_exact slv0.
Proof. intros n T B H. eexists. split; [reflexivity|]. intros i j Hi. apply (slv0_solves n T B H i j Hi). Qed.

Lemma pinv0_exact : pinv_exact pinv0.
Proof.
  intros n A i j T Hi Hj.
  transitivity (rsum n (fun l => rsum n (fun k => A i k * pinv0 n A k l) * A l j)).
  - transitivity (rsum n (fun k => rsum n (fun l => A i k * pinv0 n A k l * A l j))).
    + apply rsum_ext. intros k Hk. rewrite <- rsum_scal. apply rsum_ext. intros l Hl. ring.
    + rewrite rsum_swap. apply rsum_ext. intros l Hl. rewrite rsum_scal_r. reflexivity.
  - rewrite (rsum_ext n _ (fun l => idm i l * A l j)).
    + apply (mv_idm_l n (fun l => A l j) i Hi).
    + intros l Hl. f_equal. apply (slv0_solves n A idm T i l Hi).
Qed.

(** ** A square set: n = 1, points 0 and 1, subbasis mode, no shift *)

Definition Y01 (j : nat) : vec := fun _ => INR j.
Definition Z01 : mat := fun i j => match i, j with O, _ => 1 | S O, S O => 1 | _, _ => 0 end.
Definition qr01 (r c : nat) (A : mat) : mat * mat := (idm, Z01).
Definition ill0 (r c : nat) (A : mat) : bool := false.
Definition cure0 (r c : nat) (A : mat) : mat := A.
Definition b01 : built := mkbuilt idm Z01 vzero (fun _ => 1).

Lemma square_case : regular_case slv0 pinv0 qr01 ill0 cure0 0 false 1 2 Y01 b01.
Proof.
  split; [|split; [exact slv0_exact|split; [exact pinv0_exact|split; [reflexivity|split]]]].
  - split; [lia|]. split; [lia|]. split; [left; left; reflexivity|]. intros _. vm_compute. lia.
  - cbn. split; [reflexivity|]. split; [|split].
    + intros i j Hi Hj. destruct i as [|[|i]], j as [|[|j]]; try lia; cbn; unfold idm; cbn; lra.
    + intros i j Hi Hj. destruct i as [|[|i]], j as [|[|j]]; try lia; cbn; unfold idm; cbn; lra.
    + intros i j Hi Hj L. destruct i as [|[|i]], j as [|[|j]]; try lia; reflexivity.
  - unfold poised. cbn [unknowns]. rewrite Nat.ltb_irrefl. intros P H.
    pose proof (H 0%nat ltac:(lia)) as H0. pose proof (H 1%nat ltac:(lia)) as H1.
    cbn in H0, H1. unfold Y01, evalP in *. cbn in *. injection H0 as H0. injection H1 as H1.
    intros i Hi. destruct i as [|[|i]]; [lra|lra|lia].
Qed.

(** ** An underdetermined set: n = 1, the point 1, minimum norm mode, no shift *)

Definition Y1 (j : nat) : vec := fun _ => 1.
Definition Q1 : mat := fun i j => match i with O => 2 / 3 | S O => 2 / 3 | _ => 1 / 3 end.
Definition R1 : mat := fun i j => 3 / 2.
Definition qr1 (r c : nat) (A : mat) : mat * mat := (Q1, R1).
Definition b1 : built := mkbuilt Q1 R1 vzero (fun _ => 1).

Lemma under_case : regular_case slv0 pinv0 qr1 ill0 cure0 2 false 1 1 Y1 b1.
Proof.
  split; [|split; [exact slv0_exact|split; [exact pinv0_exact|split; [reflexivity|split]]]].
  - split; [lia|]. split; [lia|]. split; [left; right; left; reflexivity|]. intros _. vm_compute. lia.
  - unfold exactly_built. change (eff_mode 2 1 1) with 2%nat. cbn [to_factor]. split; [reflexivity|].
    change (full 1) with 3%nat. unfold qr1. split; [|split].
    + intros i j Hi Hj. destruct i as [|[|[|i]]], j as [|j]; try lia; cbn; unfold Q1, R1, zmat, pts, Y1; cbn; lra.
    + intros i j Hi Hj. destruct i as [|i], j as [|j]; try lia. cbn. unfold Q1, idm. cbn. lra.
    + intros i j Hi Hj L. lia.
  - unfold poised. change (1 <? unknowns 2 1 1)%nat with true. cbn match. intros c H j Hj.
    destruct j as [|j]; [|lia]. specialize (H (unitv 0) (fun _ => 1)). cbn [rsum] in H.
    enough (0 + c 0%nat * 1 = 0) by lra. apply H. intros j Hj'. apply const_value; vm_compute; lia.
Qed.

Lemma fwd1 b : fwd (tr R1) b 1 0%nat = b 0%nat * (2 / 3).
Proof. cbn. unfold tr, R1. field. Qed.
Lemma low1 T : lowerb 1 T = true.
Proof. apply lowerb_spec. intros i j Hi Hj L. lia. Qed.

Lemma value3 P : value false 1 3 P b1 vzero = Some (P 0%nat).
Proof.
  unfold value. rewrite evalP_some by (vm_compute; lia). f_equal. apply pdot_vzero_tail; vm_compute; lia.
Qed.

Lemma under_P f : exists P, computeP slv0 pinv0 2 1 1 (b_Q b1) (b_R b1) f = Some (3%nat, P) /\
  value false 1 3 P b1 vzero = Some (4 / 9 * f 0%nat).
Proof.
  eexists. split; [reflexivity|]. rewrite value3. f_equal. unfold mv. cbn [rsum]. rewrite low1.
  cbn [b_Q b_R b1]. rewrite fwd1. unfold Q1. field.
Qed.

Lemma no_reproduction : exists slv pinv qr ill cure mode shift n p1 Y b f len P P0 x,
  regular_case slv pinv qr ill cure mode shift n p1 Y b /\ (p1 < unknowns mode n p1)%nat /\
  computeP slv pinv mode n p1 (b_Q b) (b_R b) f = Some (len, P) /\
  (forall j, (j < p1)%nat -> value shift n (unknowns mode n p1) P0 b (Y j) = Some (f j)) /\
  value shift n len P b x <> value shift n (unknowns mode n p1) P0 b x.
Proof.
  destruct (under_P (fun _ => 1)) as (P & E & V).
  exists slv0, pinv0, qr1, ill0, cure0, 2%nat, false, 1%nat, 1%nat, Y1, b1, (fun _ => 1), 3%nat, P, (unitv 0), vzero.
  split; [exact under_case|]. split; [vm_compute; lia|]. split; [exact E|].
  split; [intros j Hj; apply const_value; vm_compute; lia|].
  rewrite V. rewrite const_value by (vm_compute; lia). intros C. injection C as C. lra.
Qed.

Lemma under_L : exists L, computeLj slv0 pinv0 2 1 1 (b_Q b1) (b_R b1) 0 = Some (3%nat, L) /\
  value false 1 3 L b1 vzero = Some (4 / 9).
Proof.
  eexists. split; [reflexivity|]. rewrite value3. f_equal. unfold mv. cbn [rsum]. unfold pinv0. rewrite low1.
  cbn [b_Q b_R b1]. rewrite fwd1. unfold Q1, unitv, idm. cbn [Nat.eqb]. field.
Qed.

Lemma no_sum_one : exists slv pinv qr ill cure mode shift n p1 Y b (L : nat -> nat * vec) x (v : vec),
  regular_case slv pinv qr ill cure mode shift n p1 Y b /\
  (forall j, (j < p1)%nat -> computeLj slv pinv mode n p1 (b_Q b) (b_R b) j = Some (L j) /\
     value shift n (fst (L j)) (snd (L j)) b x = Some (v j)) /\
  rsum p1 v <> 1.
Proof.
  destruct under_L as (L & E & V).
  exists slv0, pinv0, qr1, ill0, cure0, 2%nat, false, 1%nat, 1%nat, Y1, b1, (fun _ => (3%nat, L)), vzero, (fun _ => 4 / 9).
  split; [exact under_case|]. split.
  - intros j Hj. destruct j as [|j]; [|lia]. split; [exact E|exact V].
  - cbn. lra.
Qed.

(** ** A regression set: n = 1, points -1, 0, 1 *)

Definition Y3 (j : nat) : vec := fun _ => INR j - 1.
Definition Q3 : mat := fun i j => match j, i with
  | O, _ => / sqrt 3
  | S O, O => - / sqrt 2 | S O, S O => 0 | S O, _ => / sqrt 2
  | _, S O => - 2 / sqrt 6 | _, _ => / sqrt 6
  end.
Definition R3 : mat := fun i j => match i, j with
  | O, O => sqrt 3 | O, S O => 0 | O, _ => / sqrt 3
  | S O, S O => sqrt 2
  | S (S O), S (S O) => / sqrt 6
  | _, _ => 0
  end.
Definition qr3 (r c : nat) (A : mat) : mat * mat := (Q3, R3).
Definition b3 : built := mkbuilt Q3 R3 vzero (fun _ => 1).

Lemma regression_case : regular_case slv0 pinv0 qr3 ill0 cure0 3 false 1 3 Y3 b3.
Proof.
  assert (S2 : sqrt 2 * sqrt 2 = 2) by (apply sqrt_def; lra).
  assert (S3 : sqrt 3 * sqrt 3 = 3) by (apply sqrt_def; lra).
  assert (S6 : sqrt 6 * sqrt 6 = 6) by (apply sqrt_def; lra).
  assert (P2 : sqrt 2 <> 0) by (intros E; rewrite E in S2; lra).
  assert (P3 : sqrt 3 <> 0) by (intros E; rewrite E in S3; lra).
  assert (P6 : sqrt 6 <> 0) by (intros E; rewrite E in S6; lra).
  assert (I2 : / sqrt 2 * / sqrt 2 = / 2) by (rewrite <- Rinv_mult, S2; reflexivity).
  assert (I3 : / sqrt 3 * / sqrt 3 = / 3) by (rewrite <- Rinv_mult, S3; reflexivity).
  assert (I6 : / sqrt 6 * / sqrt 6 = / 6) by (rewrite <- Rinv_mult, S6; reflexivity).
  assert (M2 : / sqrt 2 * sqrt 2 = 1) by (apply Rinv_l; assumption).
  assert (M3 : / sqrt 3 * sqrt 3 = 1) by (apply Rinv_l; assumption).
  assert (M6 : / sqrt 6 * sqrt 6 = 1) by (apply Rinv_l; assumption).
  split; [|split; [exact slv0_exact|split; [exact pinv0_exact|split; [reflexivity|split]]]].
  - split; [lia|]. split; [lia|]. split; [left; right; right; reflexivity|]. lia.
  - unfold exactly_built. change (eff_mode 3 1 3) with 3%nat. cbn [to_factor]. split; [reflexivity|].
    change (full 1) with 3%nat. unfold qr3. split; [|split].
    + intros i j Hi Hj. destruct i as [|[|[|i]]], j as [|[|[|j]]]; try lia; cbn; unfold tr, zmat, pts, Q3, R3, Y3; cbn;
        unfold Rdiv; nra.
    + intros i j Hi Hj. destruct i as [|[|[|i]]], j as [|[|[|j]]]; try lia; cbn; unfold Q3, idm; cbn; unfold Rdiv; nra.
    + intros i j Hi Hj L. destruct i as [|[|[|i]]], j as [|[|[|j]]]; try lia; reflexivity.
  - unfold poised. change (3 <? unknowns 3 1 3)%nat with false. cbn match. intros P H.
    pose proof (H 0%nat ltac:(lia)) as H0. pose proof (H 1%nat ltac:(lia)) as H1. pose proof (H 2%nat ltac:(lia)) as H2.
    cbn in H0, H1, H2. unfold Y3, evalP in *. cbn in *. injection H0 as H0. injection H1 as H1. injection H2 as H2.
    intros i Hi. destruct i as [|[|[|i]]]; [lra|lra|lra|]. change (unknowns 3 1 3) with 3%nat in Hi. lia.
Qed.

(** ** A shifted underdetermined set exists: n = 1, points 0 and 1, minimum norm mode *)

Definition Q5 : mat := fun i j => match j, i with
  | O, O => 1 | O, _ => 0 | _, O => 0 | _, S O => 2 / sqrt 5 | _, _ => 1 / sqrt 5 end.
Definition R5 : mat := fun i j => match i, j with O, _ => 1 | S O, S O => sqrt 5 / 2 | _, _ => 0 end.
Definition qr5 (r c : nat) (A : mat) : mat * mat := (Q5, R5).
Definition b5 : built := mkbuilt Q5 R5 (Y01 0) (scale_vec 1 (/ scaleY 1 2 Y01)).

Lemma norm1 x : norm 1 x = Rabs (x 0%nat).
Proof. unfold norm, dot. cbn. rewrite Rplus_0_l. change (x 0%nat * x 0%nat) with (Rsqr (x 0%nat)). apply sqrt_Rsqr_abs. Qed.
Lemma scaleY01 : scaleY 1 2 Y01 = 1.
Proof.
  unfold scaleY. cbn [seq fold_left]. rewrite !norm1. unfold vsub, Y01. cbn [INR].
  replace (0 - 0) with 0 by lra. replace (1 - 0) with 1 by lra. rewrite Rabs_R0, Rabs_R1.
  rewrite (Rmax_left 0 0) by lra. apply Rmax_right. lra.
Qed.

Lemma shifted_case : regular_case slv0 pinv0 qr5 ill0 cure0 2 true 1 2 Y01 b5 /\ shifts true 2 = true.
Proof.
  assert (S5 : sqrt 5 * sqrt 5 = 5) by (apply sqrt_def; lra).
  assert (P5 : sqrt 5 <> 0) by (intros E; rewrite E in S5; lra).
  assert (I5 : / sqrt 5 * / sqrt 5 = / 5) by (rewrite <- Rinv_mult, S5; reflexivity).
  assert (M5 : / sqrt 5 * sqrt 5 = 1) by (apply Rinv_l; assumption).
  split; [|reflexivity].
  split; [|split; [exact slv0_exact|split; [exact pinv0_exact|split; [|split]]]].
  - split; [lia|]. split; [lia|]. split; [left; right; left; reflexivity|]. intros _. vm_compute. lia.
  - unfold build. change (shifts true 2) with true. cbn [andb]. unfold Reqb.
    destruct (Req_EM_T (scaleY 1 2 Y01) 0) as [E|E]; [rewrite scaleY01 in E; lra|]. reflexivity.
  - unfold exactly_built. change (eff_mode 2 1 2) with 2%nat. cbn [to_factor]. split; [reflexivity|].
    change (full 1) with 3%nat. unfold qr5, pts. change (shifts true 2) with true. cbn match. rewrite scaleY01. split; [|split].
    + intros i j Hi Hj. destruct i as [|[|[|i]]], j as [|[|j]]; try lia; cbn; unfold zmat, Q5, R5, Y01; cbn; unfold Rdiv; nra.
    + intros i j Hi Hj. destruct i as [|[|i]], j as [|[|j]]; try lia; cbn; unfold Q5, idm; cbn; unfold Rdiv; nra.
    + intros i j Hi Hj L. destruct i as [|[|i]], j as [|[|j]]; try lia; reflexivity.
  - unfold poised. change (2 <? unknowns 2 1 2)%nat with true. cbn match. intros c H.
    change (unknowns 2 1 2) with 3%nat in H.
    pose proof (H (unitv 0) (fun _ => 1)) as A. pose proof (H (unitv 1) INR) as B. clear H.
    assert (E1 : rsum 2 (fun j => c j * 1) = 0) by (apply A; intros j Hj; apply const_value; vm_compute; lia).
    assert (E2 : rsum 2 (fun j => c j * INR j) = 0).
    { apply B. intros j Hj. unfold value, evalP_shift, evalP. cbn [b5 b_base b_scale evalZ]. rewrite scaleY01. cbn. f_equal.
      unfold Y01, unitv, scale_vec. cbn. lra. }
    cbn in E1, E2. intros j Hj. destruct j as [|[|j]]; [lra|lra|lia].
Qed.

Lemma frob_example : (2 = 1 + 1 \/ 2 = full 1)%nat /\ upper 2 (b_R b01) /\ triangle 2 (b_R b01).
Proof.
  split; [left; reflexivity|]. split; [|split; [right|]].
  - intros i j Hi Hj L. destruct i as [|[|i]], j as [|[|j]]; try lia; reflexivity.
  - intros i j Hi Hj L. destruct i as [|[|i]], j as [|[|j]]; try lia; reflexivity.
  - intros i Hi. destruct i as [|[|i]]; try lia; cbn; lra.
Qed.

Lemma distinct_example : ~ (forall j, (j < 2)%nat -> veq 1 (Y01 j) (Y01 0%nat)).
Proof. intros H. specialize (H 1%nat ltac:(lia) 0%nat ltac:(lia)). unfold Y01 in H. cbn in H. lra. Qed.
