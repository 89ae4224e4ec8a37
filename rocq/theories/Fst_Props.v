(** Properties of the first models. *)
From Coq Require Import Reals Lra Lia List Arith ZArith QArith Qreals.
From Verif Require Import QB Book_Model Main_Model Main_Spec Ver_Wit.
From Verif Require Import RVec RBool Tri Poly_Model Poly_Spec Int_Model Int_Spec Int_Wit New_Model New_Spec New_Wit Acc_Model Acc_Spec Fst_Spec Fst_Proofs Fst_Wit.
From Verif Require Pre_Model.
Import ListNotations.
Open Scope R_scope.

(** the first points are the start and the start with one component lowered by the radius *)
Theorem C74_points : forall x d j i, (j <= length x)%nat -> (i < length x)%nat ->
  Q2R (nth i (nth j (Pre_Model.simplex x d) []) 0%Q) = lowered (fun t => Q2R (nth t x 0%Q)) (Q2R d) j i.
Proof. exact f_points. Qed.
Print Assumptions C74_points.

Example C74_points_ex : Pre_Model.simplex [3; 5]%Q 1 = [[3; 5]; [2; 5]; [3; 4]]%Q.
Proof. reflexivity. Qed.

(** they determine a linear interpolant, and allow one of least norm *)
Theorem C74_poised : forall n x0 d, (1 <= n)%nat -> 0 < d -> forall slv pinv qr ill cure mode shift b, (mode <= 3)%nat ->
  tri_exact slv -> pinv_exact pinv -> build qr ill cure mode shift n (n + 1) (lowered x0 d) = Some b ->
  exactly_built qr ill mode shift n (n + 1) (lowered x0 d) ->
  regular_case slv pinv qr ill cure mode shift n (n + 1) (lowered x0 d) b.
Proof. exact f_regular. Qed.
Print Assumptions C74_poised.

Example C74_poised_ex : forall n x0 d, (1 <= n)%nat -> 0 < d -> tri_exact slv0 /\ pinv_exact pinv0 /\
  build qr2 ill0 cure0 0 true n (n + 1) (lowered x0 d) = Some (b_low n x0 d) /\ exactly_built qr2 ill0 0 true n (n + 1) (lowered x0 d).
Proof. intros n x0 d Hn Hd. exact (conj slv0_exact (conj pinv0_exact (conj (low_build n x0 d Hn Hd) (low_exact n x0 d Hn Hd)))). Qed.

(** subbasis and Frobenius-norm models: affine, with the difference quotients as gradient *)
Theorem C74_model : forall n x0 d, (1 <= n)%nat -> 0 < d -> forall slv pinv qr ill cure mode shift b,
  tri_exact slv -> pinv_exact pinv -> build qr ill cure mode shift n (n + 1) (lowered x0 d) = Some b ->
  exactly_built qr ill mode shift n (n + 1) (lowered x0 d) ->
  forall F, (mode <= 1)%nat -> exists len P, computeP slv pinv mode n (n + 1) (b_Q b) (b_R b) F = Some (len, P) /\
  (forall x, value shift n len P b x = Some (affine n x0 (F 0%nat) (quotients F d) x)) /\
  forall k, (k < n)%nat -> grad_at_first shift n len P b (lowered x0 d) k = quotients F d k.
Proof. exact f_affine_model. Qed.
Print Assumptions C74_model.

Example C74_model_ex : forall n x0 d F, (1 <= n)%nat -> 0 < d -> exists len P,
  computeP slv0 pinv0 0 n (n + 1) (b_Q (b_low n x0 d)) (b_R (b_low n x0 d)) F = Some (len, P) /\
  (forall x, value true n len P (b_low n x0 d) x = Some (affine n x0 (F 0%nat) (quotients F d) x)) /\
  forall k, (k < n)%nat -> grad_at_first true n len P (b_low n x0 d) (lowered x0 d) k = quotients F d k.
Proof. exact low_model. Qed.

(** an affine function is reproduced by these models *)
Theorem C74_affine : forall n x0 d f0 g F, 0 < d -> (forall j, (j <= n)%nat -> F j = affine n x0 f0 g (lowered x0 d j)) ->
  forall x, affine n x0 (F 0%nat) (quotients F d) x = affine n x0 f0 g x.
Proof. exact f_affine_exact. Qed.
Print Assumptions C74_affine.

Example C74_affine_ex : quotients (fun j => affine 2 vzero 7 (fun i => INR i + 1) (lowered vzero 3 j)) 3 1%nat = 2.
Proof. exact quot_two. Qed.

(** minimum-norm and regression models: four fifths of the quotients, and curvature *)
Theorem C74_shortest : forall n x0 d, (1 <= n)%nat -> 0 < d -> forall slv pinv qr ill cure mode shift b,
  tri_exact slv -> pinv_exact pinv -> build qr ill cure mode shift n (n + 1) (lowered x0 d) = Some b ->
  exactly_built qr ill mode shift n (n + 1) (lowered x0 d) -> shift = true -> (mode = 2 \/ mode = 3)%nat ->
  forall F, exists P, computeP slv pinv mode n (n + 1) (b_Q b) (b_R b) F = Some (full n, P) /\
  (forall x, value shift n (full n) P b x = Some (affine n x0 (F 0%nat) (vscal (4 / 5) (quotients F d)) x
     - / 5 * rsum n (fun k => quotients F d k * ((x k - x0 k) * (x k - x0 k)) / d))) /\
  forall k, (k < n)%nat -> grad_at_first shift n (full n) P b (lowered x0 d) k = 4 / 5 * quotients F d k.
Proof. exact f_short_model. Qed.
Print Assumptions C74_shortest.

Example C74_shortest_ex : forall d, 0 < d -> tri_exact slv0 /\ pinv_exact pinv0 /\
  build qr6 ill0 cure0 2 true 1 (1 + 1) (lowered vzero d) = Some (b6 d) /\ exactly_built qr6 ill0 2 true 1 (1 + 1) (lowered vzero d).
Proof. intros d Hd. exact (conj slv0_exact (conj pinv0_exact (conj (b6_build d Hd) (b6_exact d Hd)))). Qed.

(** so they do not reproduce affine functions *)
Theorem C74_shortest_affine_refuted : ~ forall slv pinv qr ill cure mode n x0 d b F f0 g len P x, (1 <= n)%nat -> 0 < d -> (mode = 2 \/ mode = 3)%nat ->
  tri_exact slv -> pinv_exact pinv -> build qr ill cure mode true n (n + 1) (lowered x0 d) = Some b -> exactly_built qr ill mode true n (n + 1) (lowered x0 d) ->
  (forall j, (j <= n)%nat -> F j = affine n x0 f0 g (lowered x0 d j)) ->
  computeP slv pinv mode n (n + 1) (b_Q b) (b_R b) F = Some (len, P) -> value true n len P b x = Some (affine n x0 f0 g x).
Proof. exact r_affine. Qed.
Print Assumptions C74_shortest_affine_refuted.

(** error of the quotients *)
Theorem C74_error : forall n x0 d F g K k, 0 < d -> (k < n)%nat -> curved n (n + 1) (lowered x0 d) F g K ->
  Rabs (quotients F d k - g k) <= K * d.
Proof. exact f_error. Qed.
Print Assumptions C74_error.

Example C74_error_ex : forall d, 0 < d -> curved 1 (1 + 1) (lowered vzero d) (fun j => lowered vzero d j 0%nat * lowered vzero d j 0%nat) (fun _ => 0) 1 /\
  quotients (fun j => lowered vzero d j 0%nat * lowered vzero d j 0%nat) d 0%nat = - d.
Proof. exact square_error. Qed.

(** poisedness and radius of the first set *)
Theorem C74_poisedness : forall n x0 d, (1 <= n)%nat -> 0 < d -> forall slv pinv qr ill cure mode shift b,
  tri_exact slv -> pinv_exact pinv -> build qr ill cure mode shift n (n + 1) (lowered x0 d) = Some b ->
  exactly_built qr ill mode shift n (n + 1) (lowered x0 d) ->
  forall solver lSolver eps tau e lam r, (mode <= 1)%nat -> lSolver <> 2%nat -> 0 <= eps -> 0 <= tau ->
  within_radius n eps solver -> honest n tau solver -> optimal n e solver ->
  poisedness slv pinv solver false lSolver mode shift n (n + 1) b (lowered x0 d) = Some (lam, r) ->
  r = d /\ 1 - (e + tau) <= lam <= 1 + eps + tau.
Proof. exact f_poisedness. Qed.
Print Assumptions C74_poisedness.

Example C74_poisedness_ex : within_radius 1 0 lin_solver /\ honest 1 0 lin_solver /\ optimal 1 0 lin_solver /\
  poisedness slv0 pinv0 lin_solver false 1 0 true 1 (1 + 1) (b_pair (lowered vzero 1)) (lowered vzero 1) = Some (1, 1).
Proof. exact (conj lin_within (conj lin_honest (conj lin_optimal low_poised))). Qed.

(** with this set the first test of a pass fails *)
Theorem C74_first_test : forall P (E : env P) s a s' f n x0 d slv pinv solver qr ill cure lSolver mode shift b tau e,
  (1 <= n)%nat -> 0 < d -> (mode <= 1)%nat -> tri_exact slv -> pinv_exact pinv ->
  build qr ill cure mode shift n (n + 1) (lowered x0 d) = Some b -> exactly_built qr ill mode shift n (n + 1) (lowered x0 d) ->
  honest n tau solver -> optimal n e solver ->
  poisedness slv pinv solver false lSolver mode shift n (n + 1) b (lowered x0 d) = Some (Q2R (a_poised a), Q2R (a_yrad a)) ->
  / 1000 < (1 - (e + tau)) * d -> pass E s a = Return 0 s' f -> niter (sN s') <> (niter (sN s) + 1)%nat.
Proof. exact f_first_test. Qed.
Print Assumptions C74_first_test.

Example C74_first_test_ex : exists s' f, build qr2 ill0 cure0 0 true 1 (1 + 1) (lowered vzero 1) = Some (b_pair (lowered vzero 1)) /\
  exactly_built qr2 ill0 0 true 1 (1 + 1) (lowered vzero 1) /\
  poisedness slv0 pinv0 lin_solver false 1 0 true 1 (1 + 1) (b_pair (lowered vzero 1)) (lowered vzero 1) = Some (Q2R (a_poised ver_a), Q2R (a_yrad ver_a)) /\
  / 1000 < (1 - (0 + 0)) * 1 /\ s_Y (iS (sI low_s)) = [0%Q; (-1)%Q] /\
  pass verE low_s ver_a = Return 0 s' f /\ niter (sN s') = (niter (sN low_s) + 2)%nat.
Proof. exact low_pass. Qed.
