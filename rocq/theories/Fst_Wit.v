(** Instances for the theorems about the first models. *)
From Coq Require Import Reals Lra Psatz Lia List Arith Bool ZArith QArith Qreals.
From Verif Require Import QB Book_Model Book_Spec Book_Wit Main_Model Main_Spec Main_Wit Ver_Spec Ver_Wit.
From Verif Require Import RVec RBool Tri Poly_Model Poly_Spec Poly_Proofs Int_Model Int_Spec Int_Proofs Int_Wit
  New_Model New_Spec New_Proofs New_Wit Acc_Model Acc_Spec Acc_Proofs Acc_Wit Fst_Spec Fst_Proofs.
Import ListNotations.
Open Scope R_scope.

(** ** mode 0, any number of variables: the matrix is upper triangular *)
Definition b_low (n : nat) (x0 : vec) (d : R) : built :=
  mkbuilt idm (zmat n (n + 1) (pts true n (n + 1) (lowered x0 d))) (base true (n + 1) (lowered x0 d)) (scl true n (n + 1) (lowered x0 d)).

Lemma low_build n x0 d : (1 <= n)%nat -> 0 < d -> build qr2 ill0 cure0 0 true n (n + 1) (lowered x0 d) = Some (b_low n x0 d).
Proof.
  intros Hn Hd. unfold build. rewrite (low_scale n x0 d Hn Hd). destruct (Reqb_spec d 0) as [E|_]; [lra|]. rewrite andb_false_r. reflexivity.
Qed.

Lemma low_exact n x0 d : (1 <= n)%nat -> 0 < d -> exactly_built qr2 ill0 0 true n (n + 1) (lowered x0 d).
Proof.
  intros Hn Hd. unfold exactly_built. change (eff_mode 0 n (n + 1)) with 0%nat. cbn [to_factor]. split; [reflexivity|]. unfold qr2.
  set (Z := zmat n (n + 1) (pts true n (n + 1) (lowered x0 d))). split; [|split].
  - intros i j Hi Hj. rewrite (rsum_single _ i); [|exact Hi|].
    + unfold idm. rewrite Nat.eqb_refl. ring.
    + intros k _ N. unfold idm. destruct (Nat.eqb_spec i k) as [X|]; [congruence|ring].
  - intros p q Hp Hq. rewrite (rsum_single _ p); [|exact Hp|].
    + unfold idm. rewrite Nat.eqb_refl. ring.
    + intros k _ N. unfold idm. destruct (Nat.eqb_spec k p) as [X|]; [congruence|ring].
  - intros i j Hi Hj L. unfold Z, zmat. destruct i as [|t]; [lia|]. unfold evalZ. destruct (Nat.eqb_spec (n + 1) 1); [lia|].
    rewrite Nat.leb_refl. cbn [nth]. rewrite (nth_indep _ 0 (pts true n (n + 1) (lowered x0 d) j 0%nat)) by (rewrite map_length, seq_length; lia).
    rewrite map_nth, seq_nth by lia. cbn [Nat.add]. unfold pts. destruct (shifts true (n + 1)) eqn:SH.
    + rewrite (low_scale n x0 d Hn Hd). change (lowered x0 d j t - lowered x0 d 0%nat t) with (vsub (lowered x0 d j) (lowered x0 d 0%nat) t).
      destruct j as [|k]; [unfold vsub; field; lra|]. rewrite low_diff. unfold unitv. destruct (Nat.eqb_spec t k); [lia|]. field. lra.
    + unfold shifts in SH. destruct (Nat.ltb_spec 1 (n + 1)); [discriminate|lia].
Qed.

(** ** minimum norm mode, one variable *)
Definition Q6 : mat := fun i j => match j, i with
  | O, O => 1 | O, _ => 0 | _, O => 0 | _, S O => - (2 / sqrt 5) | _, _ => 1 / sqrt 5 end.
Definition qr6 (r c : nat) (A : mat) : mat * mat := (Q6, R5).
Definition b6 (d : R) : built := mkbuilt Q6 R5 (base true 2 (lowered vzero d)) (scl true 1 2 (lowered vzero d)).

Lemma b6_build d : 0 < d -> build qr6 ill0 cure0 2 true 1 (1 + 1) (lowered vzero d) = Some (b6 d).
Proof.
  intros Hd. unfold build. rewrite (low_scale 1 vzero d (le_n 1) Hd). destruct (Reqb_spec d 0) as [E|_]; [lra|]. rewrite andb_false_r. reflexivity.
Qed.
Lemma b6_exact d : 0 < d -> exactly_built qr6 ill0 2 true 1 (1 + 1) (lowered vzero d).
Proof.
  intros Hd.
  assert (S5 : sqrt 5 * sqrt 5 = 5) by (apply sqrt_def; lra).
  assert (P5 : sqrt 5 <> 0) by (intros E; rewrite E in S5; lra).
  assert (I5 : / sqrt 5 * / sqrt 5 = / 5) by (rewrite <- Rinv_mult, S5; reflexivity).
  assert (M5 : / sqrt 5 * sqrt 5 = 1) by (apply Rinv_l; assumption).
  assert (HI : d * / d = 1) by (apply Rinv_r; lra).
  change (1 + 1)%nat with 2%nat. unfold exactly_built. change (eff_mode 2 1 2) with 2%nat. cbn [to_factor]. split; [reflexivity|].
  change (full 1) with 3%nat. unfold qr6, pts. change (shifts true 2) with true. cbn match. change (scaleY 1 2 (lowered vzero d)) with (scaleY 1 (1 + 1) (lowered vzero d)). rewrite (low_scale 1 vzero d (le_n 1) Hd). split; [|split].
  - intros i j Hi Hj. destruct i as [|[|[|i]]], j as [|[|j]]; try lia; cbn; unfold zmat, Q6, R5, lowered, vzero; cbn; unfold Rdiv; nra.
  - intros i j Hi Hj. destruct i as [|[|i]], j as [|[|j]]; try lia; cbn; unfold Q6, idm; cbn; unfold Rdiv; nra.
  - intros i j Hi Hj L. destruct i as [|[|i]], j as [|[|j]]; try lia; reflexivity.
Qed.

(** in this mode the model of an affine function is another function *)
Lemma r_affine : ~ forall slv pinv qr ill cure mode n x0 d b F f0 g len P x, (1 <= n)%nat -> 0 < d -> (mode = 2 \/ mode = 3)%nat ->
  tri_exact slv -> pinv_exact pinv -> build qr ill cure mode true n (n + 1) (lowered x0 d) = Some b -> exactly_built qr ill mode true n (n + 1) (lowered x0 d) ->
  (forall j, (j <= n)%nat -> F j = affine n x0 f0 g (lowered x0 d j)) ->
  computeP slv pinv mode n (n + 1) (b_Q b) (b_R b) F = Some (len, P) -> value true n len P b x = Some (affine n x0 f0 g x).
Proof.
  intros A. set (F := fun j => affine 1 vzero 0 (fun _ => 1) (lowered vzero 1 j)).
  destruct (f_short_model 1 vzero 1 (le_n 1) Rlt_0_1 slv0 pinv0 qr6 ill0 cure0 2 true (b6 1) slv0_exact pinv0_exact (b6_build 1 Rlt_0_1) (b6_exact 1 Rlt_0_1) eq_refl (or_introl eq_refl) F)
    as (P & EP & V & _).
  specialize (A slv0 pinv0 qr6 ill0 cure0 2%nat 1%nat vzero 1 (b6 1) F 0 (fun _ => 1) (full 1) P (fun _ => 1) (le_n 1) Rlt_0_1 (or_introl eq_refl)
    slv0_exact pinv0_exact (b6_build 1 Rlt_0_1) (b6_exact 1 Rlt_0_1) (fun j _ => eq_refl) EP).
  rewrite V in A. injection A as A. revert A. unfold affine, dot, quotients, vscal, F, affine, dot, vsub, vzero, lowered. cbn. lra.
Qed.

(** ** one variable, a pass of the main loop: f(x) = x/200, points 0 and -1 *)
Definition low_s : st Q :=
  match start verE [0%Q; (-1)%Q] [0%Q; (-1)%Q] [slope 0; slope (-1)] [] [] 1 with Some s => s | None => ver_s end.

Lemma low_ne : lowered vzero 1 0%nat 0%nat <> lowered vzero 1 1%nat 0%nat.
Proof. unfold lowered, vzero. cbn. lra. Qed.
Lemma low_poised : poisedness slv0 pinv0 lin_solver false 1 0 true 1 (1 + 1) (b_pair (lowered vzero 1)) (lowered vzero 1) = Some (1, 1).
Proof.
  change (1 + 1)%nat with 2%nat. rewrite (lin_pair_poised _ low_ne). do 2 f_equal. unfold lowered, vzero. cbn.
  replace (0 - 1 - 0) with (-1) by ring. rewrite Rabs_left by lra. ring.
Qed.
Lemma lin_within : within_radius 1 0 lin_solver.
Proof.
  intros g H D s v _ HD E. unfold lin_solver in E. destruct (Reqb _ _); [|discriminate]. injection E as <- _. rewrite norm1.
  destruct (Rltb _ _); [rewrite Rabs_pos_eq by lra|rewrite Rabs_Ropp, Rabs_pos_eq by lra]; lra.
Qed.
Lemma low_pass : exists s' f, build qr2 ill0 cure0 0 true 1 (1 + 1) (lowered vzero 1) = Some (b_pair (lowered vzero 1)) /\
  exactly_built qr2 ill0 0 true 1 (1 + 1) (lowered vzero 1) /\
  poisedness slv0 pinv0 lin_solver false 1 0 true 1 (1 + 1) (b_pair (lowered vzero 1)) (lowered vzero 1) = Some (Q2R (a_poised ver_a), Q2R (a_yrad ver_a)) /\
  / 1000 < (1 - (0 + 0)) * 1 /\ s_Y (iS (sI low_s)) = [0%Q; (-1)%Q] /\
  pass verE low_s ver_a = Return 0 s' f /\ niter (sN s') = (niter (sN low_s) + 2)%nat.
Proof.
  destruct (pair_case _ low_ne) as (_ & _ & _ & B & E & _). do 2 eexists. split; [exact B|]. split; [exact E|]. split.
  { rewrite low_poised. cbn [ver_a a_poised a_yrad]. do 2 f_equal; unfold Q2R; cbn; lra. }
  split; [lra|]. split; [reflexivity|]. split; [vm_compute; reflexivity|]. reflexivity.
Qed.

Lemma low_model : forall n x0 d F, (1 <= n)%nat -> 0 < d -> exists len P,
  computeP slv0 pinv0 0 n (n + 1) (b_Q (b_low n x0 d)) (b_R (b_low n x0 d)) F = Some (len, P) /\
  (forall x, value true n len P (b_low n x0 d) x = Some (affine n x0 (F 0%nat) (quotients F d) x)) /\
  forall k, (k < n)%nat -> grad_at_first true n len P (b_low n x0 d) (lowered x0 d) k = quotients F d k.
Proof.
  intros n x0 d F Hn Hd. exact (f_affine_model n x0 d Hn Hd slv0 pinv0 qr2 ill0 cure0 0 true (b_low n x0 d) slv0_exact pinv0_exact
    (low_build n x0 d Hn Hd) (low_exact n x0 d Hn Hd) F (Nat.le_0_l 1)).
Qed.
Lemma quot_two : quotients (fun j => affine 2 vzero 7 (fun i => INR i + 1) (lowered vzero 3 j)) 3 1%nat = 2.
Proof. unfold quotients, affine, dot, vsub, vzero, lowered. cbn. field. Qed.
Lemma square_error : forall d, 0 < d -> curved 1 (1 + 1) (lowered vzero d) (fun j => lowered vzero d j 0%nat * lowered vzero d j 0%nat) (fun _ => 0) 1 /\
  quotients (fun j => lowered vzero d j 0%nat * lowered vzero d j 0%nat) d 0%nat = - d.
Proof.
  intros d Hd. split.
  - intros j Hj. rewrite !norm1. unfold dot, vsub, lowered, vzero. destruct j as [|[|j]]; [| |lia]; cbn.
    + replace (0 * 0 - (0 * 0 + (0 + 0 * (0 - 0)))) with 0 by ring. replace (0 - 0) with 0 by ring. rewrite Rabs_R0. lra.
    + replace ((0 - d) * (0 - d) - (0 * 0 + (0 + 0 * (0 - d - 0)))) with (d * d) by ring. replace (0 - d - 0) with (- d) by ring.
      rewrite Rabs_Ropp, !Rabs_pos_eq by nra. lra.
  - unfold quotients, lowered, vzero. cbn. field. lra.
Qed.
