(** Properties of interpolation and of Lagrange polynomials (C29-C32, C48). *)
From Coq Require Import Reals List Arith.
From Verif Require Import RVec Tri Poly_Model Poly_Spec Int_Model Int_Spec Int_Proofs Int_Wit Frb_Proofs Frb_Wit.
Open Scope R_scope.

Theorem C29_interpolates : forall slv pinv qr ill cure mode shift n p1 Y b,
  regular_case slv pinv qr ill cure mode shift n p1 Y b -> forall f, (p1 <= full n)%nat ->
  exists len P, computeP slv pinv mode n p1 (b_Q b) (b_R b) f = Some (len, P) /\
    forall j, (j < p1)%nat -> value shift n len P b (Y j) = Some (f j).
Proof. exact t_interpolates. Qed.
Print Assumptions C29_interpolates.

Theorem C29_linear : forall slv pinv qr ill cure mode shift n p1 Y b,
  regular_case slv pinv qr ill cure mode shift n p1 Y b ->
  forall f g u w len1 P1 len2 P2 len3 P3 x v1 v2,
  computeP slv pinv mode n p1 (b_Q b) (b_R b) f = Some (len1, P1) ->
  computeP slv pinv mode n p1 (b_Q b) (b_R b) g = Some (len2, P2) ->
  computeP slv pinv mode n p1 (b_Q b) (b_R b) (fun j => u * f j + w * g j) = Some (len3, P3) ->
  value shift n len1 P1 b x = Some v1 -> value shift n len2 P2 b x = Some v2 ->
  value shift n len3 P3 b x = Some (u * v1 + w * v2).
Proof. exact t_linear. Qed.
Print Assumptions C29_linear.

(** Functions of the model space are reproduced if there are at least as many points as
    coefficients. *)
Theorem C29_reproduces : forall slv pinv qr ill cure mode shift n p1 Y b,
  regular_case slv pinv qr ill cure mode shift n p1 Y b ->
  forall f len P P0 x, (unknowns mode n p1 <= p1)%nat ->
  computeP slv pinv mode n p1 (b_Q b) (b_R b) f = Some (len, P) ->
  (forall j, (j < p1)%nat -> value shift n (unknowns mode n p1) P0 b (Y j) = Some (f j)) ->
  value shift n len P b x = value shift n (unknowns mode n p1) P0 b x.
Proof. exact t_reproduces. Qed.
Print Assumptions C29_reproduces.

(** With fewer points not even constants are. *)
Theorem C29_reproduces_underdetermined_refuted : exists slv pinv qr ill cure mode shift n p1 Y b f len P P0 x,
  regular_case slv pinv qr ill cure mode shift n p1 Y b /\ (p1 < unknowns mode n p1)%nat /\
  computeP slv pinv mode n p1 (b_Q b) (b_R b) f = Some (len, P) /\
  (forall j, (j < p1)%nat -> value shift n (unknowns mode n p1) P0 b (Y j) = Some (f j)) /\
  value shift n len P b x <> value shift n (unknowns mode n p1) P0 b x.
Proof. exact no_reproduction. Qed.
Print Assumptions C29_reproduces_underdetermined_refuted.

(** Fewer points than coefficients: the coefficients are the shortest possible. *)
Theorem C29_minimum_norm : forall slv pinv qr ill cure mode shift n p1 Y b,
  regular_case slv pinv qr ill cure mode shift n p1 Y b ->
  forall f len P P', (mode = 2 \/ mode = 3)%nat -> (p1 < full n)%nat ->
  computeP slv pinv mode n p1 (b_Q b) (b_R b) f = Some (len, P) ->
  (forall j, (j < p1)%nat -> value shift n (full n) P' b (Y j) = Some (f j)) ->
  len = full n /\ dot (full n) P P <= dot (full n) P' P'.
Proof. exact t_minnorm. Qed.
Print Assumptions C29_minimum_norm.

(** More points than coefficients: the sum of squared residuals is minimal. *)
Theorem C29_least_squares : forall slv pinv qr ill cure mode shift n p1 Y b,
  regular_case slv pinv qr ill cure mode shift n p1 Y b ->
  forall f len P P' (v v' : vec), mode = 3%nat -> (full n <= p1)%nat ->
  computeP slv pinv mode n p1 (b_Q b) (b_R b) f = Some (len, P) ->
  (forall j, (j < p1)%nat -> value shift n len P b (Y j) = Some (v j)) ->
  (forall j, (j < p1)%nat -> value shift n (full n) P' b (Y j) = Some (v' j)) ->
  rsum p1 (fun j => (v j - f j) ^ 2) <= rsum p1 (fun j => (v' j - f j) ^ 2).
Proof. exact t_least. Qed.
Print Assumptions C29_least_squares.

Example C29_example_square : regular_case slv0 pinv0 qr01 ill0 cure0 0 false 1 2 Y01 b01.
Proof. exact square_case. Qed.
Example C29_example_minimum_norm :
  regular_case slv0 pinv0 qr5 ill0 cure0 2 true 1 2 Y01 b5 /\ shifts true 2 = true.
Proof. exact shifted_case. Qed.
Example C29_example_regression : regular_case slv0 pinv0 qr3 ill0 cure0 3 false 1 3 Y3 b3.
Proof. exact regression_case. Qed.

Theorem C30_delta : forall slv pinv qr ill cure mode shift n p1 Y b,
  regular_case slv pinv qr ill cure mode shift n p1 Y b ->
  forall j i, (p1 <= full n)%nat -> (j < p1)%nat -> (i < p1)%nat ->
  exists len L, computeLj slv pinv mode n p1 (b_Q b) (b_R b) j = Some (len, L) /\
    value shift n len L b (Y i) = Some (if (i =? j)%nat then 1 else 0).
Proof. exact t_lagrange_delta. Qed.
Print Assumptions C30_delta.

Theorem C30_model_value : forall slv pinv qr ill cure mode shift n p1 Y b,
  regular_case slv pinv qr ill cure mode shift n p1 Y b ->
  forall f len P x (L : nat -> nat * vec) (v : vec),
  computeP slv pinv mode n p1 (b_Q b) (b_R b) f = Some (len, P) ->
  (forall j, (j < p1)%nat -> computeLj slv pinv mode n p1 (b_Q b) (b_R b) j = Some (L j) /\
     value shift n (fst (L j)) (snd (L j)) b x = Some (v j)) ->
  value shift n len P b x = Some (rsum p1 (fun j => f j * v j)).
Proof. exact t_lagrange_sum. Qed.
Print Assumptions C30_model_value.

Theorem C30_sum_one : forall slv pinv qr ill cure mode shift n p1 Y b,
  regular_case slv pinv qr ill cure mode shift n p1 Y b ->
  forall x (L : nat -> nat * vec) (v : vec), (unknowns mode n p1 <= p1)%nat \/ shifts shift p1 = true ->
  (forall j, (j < p1)%nat -> computeLj slv pinv mode n p1 (b_Q b) (b_R b) j = Some (L j) /\
     value shift n (fst (L j)) (snd (L j)) b x = Some (v j)) ->
  rsum p1 v = 1.
Proof. exact t_sum_one. Qed.
Print Assumptions C30_sum_one.

Theorem C30_sum_one_without_shift_refuted :
  exists slv pinv qr ill cure mode shift n p1 Y b (L : nat -> nat * vec) x (v : vec),
  regular_case slv pinv qr ill cure mode shift n p1 Y b /\
  (forall j, (j < p1)%nat -> computeLj slv pinv mode n p1 (b_Q b) (b_R b) j = Some (L j) /\
     value shift n (fst (L j)) (snd (L j)) b x = Some (v j)) /\
  rsum p1 v <> 1.
Proof. exact no_sum_one. Qed.
Print Assumptions C30_sum_one_without_shift_refuted.

(** The routine that evaluates Lagrange polynomials agrees with the one that computes
    their coefficients, and returns 0 for indices not asked for. *)
Theorem C30_routines_agree : forall slv pinv qr ill cure mode shift n p1 Y b,
  regular_case slv pinv qr ill cure mode shift n p1 Y b ->
  forall choice x, mode <> 1%nat ->
  exists v, evalL slv pinv mode shift n p1 b choice x = LVals v /\
    (forall j, In j choice -> (j < p1)%nat -> forall len L,
      computeLj slv pinv mode n p1 (b_Q b) (b_R b) j = Some (len, L) -> v j = value shift n len L b x) /\
    (forall j, ~ In j choice -> v j = Some 0).
Proof. exact t_evalL. Qed.
Print Assumptions C30_routines_agree.

Example C30_example : regular_case slv0 pinv0 qr01 ill0 cure0 0 false 1 2 Y01 b01.
Proof. exact square_case. Qed.
Example C30_example_shifted :
  regular_case slv0 pinv0 qr5 ill0 cure0 2 true 1 2 Y01 b5 /\ shifts true 2 = true.
Proof. exact shifted_case. Qed.

(** In minimum Frobenius norm mode no requested Lagrange value is finite. *)
Theorem C31_never_finite : forall slv pinv shift n p1 b choice x,
  (1 <= n)%nat -> (p1 = n + 1 \/ p1 = full n)%nat -> upper p1 (b_R b) ->
  exists v, evalL slv pinv 1 shift n p1 b choice x = LVals v /\ forall j, In j choice -> v j = None.
Proof. exact t_frobenius. Qed.
Print Assumptions C31_never_finite.

(** without a zero entry the value is the sum over the element-wise quotients *)
Theorem C31_elementwise : forall slv pinv shift n p1 b choice x, (1 <= n)%nat -> (p1 = n + 1 \/ p1 = full n)%nat ->
  (forall i j, (i < p1)%nat -> (j < p1)%nat -> b_R b i j <> 0) ->
  exists v, evalL slv pinv 1 shift n p1 b choice x = LVals v /\
  forall j, (j < p1)%nat -> In j choice ->
  v j = Some (rsum p1 (fun i => b_Q b j i / b_R b i j *
    nth i (evalZ n p1 (if shift then fun t => (x t - b_base b t) * b_scale b 1%nat else x)) 0)).
Proof. exact elementwise. Qed.
Print Assumptions C31_elementwise.

Example C31_elementwise_ex : (2 = 1 + 1)%nat /\ forall i j, (i < 2)%nat -> (j < 2)%nat -> b_R b2 i j <> 0.
Proof. exact elementwise_case. Qed.

Theorem C31_incomplete_raises : forall slv pinv shift n p1 b choice x, (p1 <> n + 1 /\ p1 <> full n)%nat ->
  evalL slv pinv 1 shift n p1 b choice x = LRaise.
Proof. exact t_evalL_raises. Qed.
Print Assumptions C31_incomplete_raises.

(** any other mode gives zeros *)
Theorem C31_unknown_mode : forall slv pinv mode shift n p1 b choice x, (3 < mode)%nat ->
  evalL slv pinv mode shift n p1 b choice x = LVals (fun _ => Some 0).
Proof. exact t_evalL_unknown. Qed.
Print Assumptions C31_unknown_mode.

Example C31_example : (2 = 1 + 1 \/ 2 = full 1)%nat /\ upper 2 (b_R b01) /\ triangle 2 (b_R b01).
Proof. exact frob_example. Qed.

Theorem C32_when_it_raises : forall slv pinv mode n p1 Q R f j,
  (forall m A B, slv m A B <> None) -> (mode <= 3)%nat ->
  (computeP slv pinv mode n p1 Q R f = None <-> (mode = 1 /\ p1 <> n + 1 /\ p1 <> full n)%nat) /\
  (computeLj slv pinv mode n p1 Q R j = None <-> (mode = 1 /\ p1 <> n + 1 /\ p1 <> full n)%nat).
Proof. exact t_raises. Qed.
Print Assumptions C32_when_it_raises.

Example C32_example : forall m A B, slv0 m A B <> None.
Proof. discriminate. Qed.

Theorem C48_fails_only_if_coincident : forall qr ill cure mode shift n p1 Y,
  build qr ill cure mode shift n p1 Y = None <->
  shift = true /\ (1 < p1)%nat /\ forall j, (j < p1)%nat -> veq n (Y j) (Y 0%nat).
Proof. exact t_build_fails. Qed.
Print Assumptions C48_fails_only_if_coincident.

Theorem C48_unit_ball : forall n p1 Y, (1 < p1)%nat ->
  ~ (forall j, (j < p1)%nat -> veq n (Y j) (Y 0%nat)) ->
  veq n (pts true n p1 Y 0) vzero /\
  (forall j, (j < p1)%nat -> norm n (pts true n p1 Y j) <= 1) /\
  (exists j, (j < p1)%nat /\ norm n (pts true n p1 Y j) = 1).
Proof. exact t_ball. Qed.
Print Assumptions C48_unit_ball.

(** Multiplying the coefficients by the scale vector gives the same polynomial in the
    unscaled displacement from the base point. *)
Theorem C48_scale_vector : forall qr ill cure mode shift n p1 Y b q P x,
  (1 <= n)%nat -> (1 <= q)%nat -> (q <= full n)%nat ->
  build qr ill cure mode shift n p1 Y = Some b ->
  value shift n q P b x = evalP n q (fun i => P i * b_scale b i) (vsub x (b_base b)).
Proof. exact t_scale. Qed.
Print Assumptions C48_scale_vector.

(** Minimum-Frobenius-norm mode with a set that is neither linear nor complete: a solution of
    the factorised system gives an interpolating quadratic with the smallest second-order
    coefficients. *)
Theorem C48_frobenius : forall qr ill cure shift n p1 Y b,
  (1 <= n)%nat -> (1 <= p1)%nat -> (p1 <= full n)%nat -> (p1 <> n + 1 /\ p1 <> full n)%nat ->
  build qr ill cure 1 shift n p1 Y = Some b -> exactly_built qr ill 1 shift n p1 Y ->
  forall f z : vec,
  (forall i, (i < p1 + (n + 1))%nat -> mv (p1 + (n + 1)) (b_Q b) (mv (p1 + (n + 1)) (b_R b) z) i = if (i <? p1)%nat then f i else 0) ->
  exists P, (forall i, (i < n + 1)%nat -> P i = z (p1 + i)%nat) /\
    (forall j, (j < p1)%nat -> value shift n (full n) P b (Y j) = Some (f j)) /\
    forall P', (forall j, (j < p1)%nat -> value shift n (full n) P' b (Y j) = Some (f j)) ->
    rsum (full n - (n + 1)) (fun k => P (n + 1 + k)%nat ^ 2) <= rsum (full n - (n + 1)) (fun k => P' (n + 1 + k)%nat ^ 2).
Proof. exact frobenius. Qed.
Print Assumptions C48_frobenius.

Example C48_frobenius_ex : build qr0 ill0 cure0 1 false 1 1 Y0 = Some b0 /\ exactly_built qr0 ill0 1 false 1 1 Y0 /\
  forall i, (i < 1 + (1 + 1))%nat -> mv (1 + (1 + 1)) (b_Q b0) (mv (1 + (1 + 1)) (b_R b0) z5) i = if (i <? 1)%nat then 5 else 0.
Proof. exact frob_case. Qed.

Example C48_example : ~ (forall j, (j < 2)%nat -> veq 1 (Y01 j) (Y01 0%nat)).
Proof. exact distinct_example. Qed.
