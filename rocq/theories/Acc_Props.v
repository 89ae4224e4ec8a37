(** C61: accuracy of the interpolation models. *)
From Coq Require Import Reals List QArith Qreals.
From Verif Require Import QB Book_Model Main_Model Main_Spec Main_Wit Ver_Spec.
From Verif Require Import RVec Poly_Model Poly_Spec Int_Model Int_Spec Int_Wit MS_Model MS_Spec MS_Proofs MS_Wit New_Model New_Spec New_Wit Acc_Model Acc_Spec Acc_Proofs Acc_Wit.
Import ListNotations.
Open Scope R_scope.

(** values of the model in the ball *)
Theorem C61_value : forall slv pinv qr ill cure mode shift n p1 Y b,
  regular_case slv pinv qr ill cure mode shift n p1 Y b -> (n + 1 <= p1)%nat -> (unknowns mode n p1 <= p1)%nat -> (p1 <= full n)%nat ->
  forall F len P g K Lam r x v, 0 <= K -> curved n p1 Y F g K -> lagrange_bounded slv pinv mode shift n p1 b Y Lam r ->
  computeP slv pinv mode n p1 (b_Q b) (b_R b) F = Some (len, P) ->
  norm n (vsub x (Y 0%nat)) <= r -> value shift n len P b x = Some v ->
  Rabs (v - (F 0%nat + dot n g (vsub x (Y 0%nat)))) <= (INR p1 - 1) * (K * (r * r) * Lam).
Proof. exact a_value. Qed.
Print Assumptions C61_value.

Example C61_value_ex : exists Lam r, lagrange_bounded slv0 pinv0 0 false 1 2 b01 Y01 Lam r.
Proof. exact sq_bounded. Qed.

(** gradient of the model at the first point *)
Theorem C61_gradient : forall slv pinv qr ill cure mode shift n p1 Y b,
  regular_case slv pinv qr ill cure mode shift n p1 Y b -> (n + 1 <= p1)%nat -> (unknowns mode n p1 <= p1)%nat -> (p1 <= full n)%nat ->
  forall F len P g K Lam r, 0 <= K -> curved n p1 Y F g K -> lagrange_bounded slv pinv mode shift n p1 b Y Lam r ->
  computeP slv pinv mode n p1 (b_Q b) (b_R b) F = Some (len, P) ->
  norm n (vsub (grad_at_first shift n len P b Y) g) <= (INR p1 - 1) * (K * r * Lam).
Proof. exact a_gradient. Qed.
Print Assumptions C61_gradient.

Example C61_gradient_ex : curved 1 2 Y01 (fun j => Y01 j 0%nat * Y01 j 0%nat) (fun _ => 0) 1.
Proof. exact sq_curved. Qed.

(** the same with the numbers of the poisedness routine *)
Theorem C61_poised : forall slv pinv solver qr ill cure lSolver mode shift n p1 Y b tau e lam r F len P g K,
  regular_case slv pinv qr ill cure mode shift n p1 Y b -> (n + 1 <= p1)%nat -> (unknowns mode n p1 <= p1)%nat -> (p1 <= full n)%nat ->
  honest n tau solver -> optimal n e solver ->
  poisedness slv pinv solver false lSolver mode shift n p1 b Y = Some (lam, r) ->
  0 <= K -> curved n p1 Y F g K ->
  computeP slv pinv mode n p1 (b_Q b) (b_R b) F = Some (len, P) ->
  norm n (vsub (grad_at_first shift n len P b Y) g) <= (INR p1 - 1) * (K * r * (lam + e + tau)).
Proof. exact t_acc_gradient. Qed.
Print Assumptions C61_poised.

Example C61_poised_ex : exists lam r len P,
  regular_case slv0 pinv0 qr01 ill0 cure0 0 false 1 2 Y01 b01 /\ (1 + 1 <= 2)%nat /\ (unknowns 0 1 2 <= 2)%nat /\ (2 <= full 1)%nat /\
  honest 1 0 lin_solver /\ optimal 1 0 lin_solver /\ poisedness slv0 pinv0 lin_solver false 1 0 false 1 2 b01 Y01 = Some (lam, r) /\
  0 <= 1 /\ curved 1 2 Y01 (fun j => Y01 j 0%nat * Y01 j 0%nat) (fun _ => 0) 1 /\
  computeP slv0 pinv0 0 1 2 (b_Q b01) (b_R b01) (fun j => Y01 j 0%nat * Y01 j 0%nat) = Some (len, P).
Proof. exact sq_case. Qed.

(** gradient of a Lagrangian *)
Theorem C61_lagrangian : forall slv pinv solver qr ill cure lSolver mode shift n p1 Y b tau e lam r k (w : nat -> R) (F : nat -> nat -> R) len P (g : nat -> vec) K,
  regular_case slv pinv qr ill cure mode shift n p1 Y b -> (n + 1 <= p1)%nat -> (unknowns mode n p1 <= p1)%nat -> (p1 <= full n)%nat ->
  honest n tau solver -> optimal n e solver ->
  poisedness slv pinv solver false lSolver mode shift n p1 b Y = Some (lam, r) ->
  (forall i, (i < k)%nat -> 0 <= K i /\ curved n p1 Y (F i) (g i) (K i) /\
     computeP slv pinv mode n p1 (b_Q b) (b_R b) (F i) = Some (len i, P i)) ->
  norm n (vsub (combo k w (fun i => grad_at_first shift n (len i) (P i) b Y)) (combo k w g)) <=
    (INR p1 - 1) * (r * (lam + e + tau)) * rsum k (fun i => Rabs (w i) * K i).
Proof. exact t_acc_combo. Qed.
Print Assumptions C61_lagrangian.

Example C61_lagrangian_ex : exists lam r len P,
  regular_case slv0 pinv0 qr01 ill0 cure0 0 false 1 2 Y01 b01 /\ (1 + 1 <= 2)%nat /\ (unknowns 0 1 2 <= 2)%nat /\ (2 <= full 1)%nat /\
  honest 1 0 lin_solver /\ optimal 1 0 lin_solver /\ poisedness slv0 pinv0 lin_solver false 1 0 false 1 2 b01 Y01 = Some (lam, r) /\
  0 <= 1 /\ curved 1 2 Y01 (fun j => Y01 j 0%nat * Y01 j 0%nat) (fun _ => 0) 1 /\
  computeP slv0 pinv0 0 1 2 (b_Q b01) (b_R b01) (fun j => Y01 j 0%nat * Y01 j 0%nat) = Some (len, P).
Proof. exact sq_case. Qed.

(** return with exit code 0 at the first accuracy test of a pass of the main loop *)
Theorem C61_exit : forall Pt (E : env Pt) s a s' f slv pinv solver qr ill cure lSolver mode shift n p1 Y b tau e k (w : nat -> R) (F : nat -> nat -> R) len P
    (g : nat -> vec) K t,
  regular_case slv pinv qr ill cure mode shift n p1 Y b -> (n + 1 <= p1)%nat -> (unknowns mode n p1 <= p1)%nat -> (p1 <= full n)%nat ->
  honest n tau solver -> optimal n e solver ->
  poisedness slv pinv solver false lSolver mode shift n p1 b Y = Some (Q2R (a_poised a), Q2R (a_yrad a)) ->
  (forall i, (i < k)%nat -> 0 <= K i /\ curved n p1 Y (F i) (g i) (K i) /\
     computeP slv pinv mode n p1 (b_Q b) (b_R b) (F i) = Some (len i, P i)) ->
  (t < n)%nat -> Rabs (combo k w (fun i => grad_at_first shift n (len i) (P i) b Y) t) <= Q2R (a_glagn1 a) ->
  pass E s a = Return 0 s' f -> niter (sN s') = (niter (sN s) + 1)%nat ->
  Rabs (combo k w g t) <= Q2R (e_tolg E) +
    (INR p1 - 1) * (/ 1000 + (e + tau) * Q2R (a_yrad a)) * rsum k (fun i => Rabs (w i) * K i).
Proof. exact t_exit. Qed.
Print Assumptions C61_exit.

Example C61_exit_ex : exists P s' f,
  regular_case slv0 pinv0 qr2 ill0 cure0 0 true 1 2 near (b_pair near) /\ (1 + 1 <= 2)%nat /\ (unknowns 0 1 2 <= 2)%nat /\ (2 <= full 1)%nat /\
  honest 1 0 lin_solver /\ optimal 1 0 lin_solver /\
  poisedness slv0 pinv0 lin_solver false 1 0 true 1 2 (b_pair near) near = Some (Q2R (a_poised near_a), Q2R (a_yrad near_a)) /\
  curved 1 2 near (fun j => Q2R (nth j (s_f (iS (sI near_s))) 0%Q)) (fun _ => 0) 1 /\
  computeP slv0 pinv0 0 1 2 (b_Q (b_pair near)) (b_R (b_pair near)) (fun j => Q2R (nth j (s_f (iS (sI near_s))) 0%Q)) = Some (2%nat, P) /\
  Rabs (combo 1 (fun _ => 1) (fun _ => grad_at_first true 1 2 P (b_pair near) near) 0%nat) <= Q2R (a_glagn1 near_a) /\
  pass nearE near_s near_a = Return 0 s' f /\ niter (sN s') = (niter (sN near_s) + 1)%nat.
Proof. exact near_exit. Qed.

(** after an improvement that replaced no point the same bound fails, even with a factor 100 *)
Theorem C61_quiet_exit_refuted : ~ forall slv pinv qr ill cure chol slvv eig mode shift (E : env Q) k0 d0 s a s' f g K,
  tri_exact slv -> pinv_exact pinv -> chol_exact 1 chol -> slv_exact 1 slvv ->
  sane E -> begins E k0 d0 s -> (1 # 1000 < a_glagn1 a)%Q ->
  proposed slv pinv qr ill cure (ms_solver chol slvv eig 1 (/ 1000)) 1 mode shift (qmax (delta (sG s)) (1 # 100000)) (a_newpt a) ->
  measured slv pinv qr ill cure (ms_solver chol slvv eig 1 (/ 1000)) 1 mode shift (s_Y (iS (sI s))) (a_poised a, a_yrad a) ->
  model_slope slv pinv qr ill cure mode shift (s_Y (iS (sI s))) (s_f (iS (sI s))) (a_glagn1 a) ->
  model_slope slv pinv qr ill cure mode shift (s_Y (iS (sI s))) (s_f (iS (sI s))) (a_glagn2 a) ->
  0 <= K -> curved 1 (length (s_Y (iS (sI s)))) (line_set (s_Y (iS (sI s)))) (fun j => Q2R (nth j (s_f (iS (sI s))) 0%Q)) (fun _ => g) K ->
  pass E s a = Return 0 s' f -> improved s s' -> s_Y (iS (sI s')) = s_Y (iS (sI s)) ->
  Rabs g <= 100 * (Q2R (e_tolg E) + (INR (length (s_Y (iS (sI s)))) - 1) * / 1000 * K).
Proof. exact r_quiet_exit. Qed.
Print Assumptions C61_quiet_exit_refuted.

Example C61_quiet_exit_refuted_ex : exists s' f,
  proposed slv0 pinv0 qr2 ill0 cure0 (ms_solver chol1 slv1 eig0 1 (/ 1000)) 1 0 true (qmax (delta (sG bow_s)) (1 # 100000)) (a_newpt bow_a) /\
  measured slv0 pinv0 qr2 ill0 cure0 (ms_solver chol1 slv1 eig0 1 (/ 1000)) 1 0 true (s_Y (iS (sI bow_s))) (a_poised bow_a, a_yrad bow_a) /\
  model_slope slv0 pinv0 qr2 ill0 cure0 0 true (s_Y (iS (sI bow_s))) (s_f (iS (sI bow_s))) (a_glagn1 bow_a) /\
  curved 1 2 (line_set (s_Y (iS (sI bow_s)))) (fun j => Q2R (nth j (s_f (iS (sI bow_s))) 0%Q)) (fun _ => - 499 / 500) 1 /\
  pass bowE bow_s bow_a = Return 0 s' f /\ improved bow_s s' /\ s_Y (iS (sI s')) = s_Y (iS (sI bow_s)).
Proof. exact bow_example. Qed.

(** with fewer points than unknowns no such bound holds *)
Theorem C61_minimum_norm_refuted : exists Lam, ~ exists c, forall slv pinv qr ill cure mode shift n p1 Y b F len P g K r,
  regular_case slv pinv qr ill cure mode shift n p1 Y b -> (n + 1 <= p1)%nat -> (p1 <= full n)%nat ->
  0 <= K -> curved n p1 Y F g K -> lagrange_bounded slv pinv mode shift n p1 b Y Lam r ->
  computeP slv pinv mode n p1 (b_Q b) (b_R b) F = Some (len, P) ->
  norm n (vsub (grad_at_first shift n len P b Y) g) <= c * (1 + K) * r.
Proof. exact r_minimum_norm. Qed.
Print Assumptions C61_minimum_norm_refuted.

Example C61_minimum_norm_refuted_ex : exists Lam, forall h, 0 < h -> exists P,
  regular_case slv0 pinv0 qr5 ill0 cure0 2 true 1 2 (Yh h) (bh h) /\ curved 1 2 (Yh h) (fun j => Yh h j 0%nat) (fun _ => 1) 0 /\
  lagrange_bounded slv0 pinv0 2 true 1 2 (bh h) (Yh h) Lam h /\
  computeP slv0 pinv0 2 1 2 (b_Q (bh h)) (b_R (bh h)) (fun j => Yh h j 0%nat) = Some (3%nat, P) /\
  grad_at_first true 1 3 P (bh h) (Yh h) 0%nat = 4 / 5.
Proof. exact h_example. Qed.
