(** The Hessian of the interpolation model used by sqpdfo_computeHessian.py, and lemmas
    about the conditioning test and the model mode. *)
From Coq Require Import Reals List Arith ZArith Bool Lra Lia.
From Verif Require Import RVec RBool Tri Poly_Model Poly_Spec Poly_Proofs Int_Model Int_Spec Int_Proofs
  Hess_Model Hess_Spec Hess_Proofs.
Open Scope R_scope.

(** sqpdfo_computeHessian.py 105-112 and 115: bcdfo_computeP_ of the values, then
    bcdfo_hessP_ of the coefficients; an exception of the former is not distinguished
    from a zero matrix here *)
Definition model_hess (slv : nat -> mat -> mat -> option mat) (pinv : nat -> mat -> mat) (mode : nat) (shift : bool)
  (n p1 : nat) (b : built) (v : vec) : mat :=
  match computeP slv pinv mode n p1 (b_Q b) (b_R b) v with
  | Some (len, P) => if shift then hessP_shift n len P (b_scale b) else hessP n len P
  | None => fun _ _ => 0
  end.

(** ** conditioning *)
Lemma cond_number n sv : (1 <= n)%nat ->
  (cond_ n sv = None <-> sv (n - 1)%nat = 0) /\
  forall c, cond_ n sv = Some c -> c * sv (n - 1)%nat = sv 0%nat.
Proof.
  intros Hn. unfold cond_. destruct (Reqb_spec (sv (n - 1)%nat) 0) as [E|E].
  - split; [split; auto|discriminate].
  - split; [split; [discriminate|contradiction]|]. intros c H. injection H as <-. field. exact E.
Qed.
Lemma cond_repaired n A t U sv V :
  snd (check_cond n A t U sv V) = true <-> (sv (n - 1)%nat = 0 \/ t < sv 0%nat / sv (n - 1)%nat /\ sv (n - 1)%nat <> 0).
Proof.
  unfold check_cond, cond_. destruct (Reqb_spec (sv (n - 1)%nat) 0) as [E|E]; [cbn; tauto|].
  destruct (Rltb_spec t (sv 0%nat / sv (n - 1)%nat)); cbn; [tauto|]. split; [discriminate|]. intros [H|[H _]]; [contradiction|lra].
Qed.

(** ** model mode *)
Lemma hess_model n me r niter M s gx gce lb lm con fY ceY slk hP fH info :
  exists M' info', compute_hessian n me false HModel r niter M s gx gce lb lm con fY ceY slk hP fH info = HRes M' 1 info' /\
    hi_g info' = gx /\ hi_ae info' = gce /\ hi_flag info' = hi_flag info /\
    (con = true -> M' = hP (fun j => fY j + rsum me (fun k => lm k * (ceY k j - slk k)))) /\
    (con = false -> M' = fH).
Proof.
  eexists. eexists. split; [reflexivity|]. cbn [hi_g hi_ae hi_flag]. split; [reflexivity|]. split; [reflexivity|].
  split; [reflexivity|]. split; intros ->; reflexivity.
Qed.

Lemma quad_entries n A B : symmetric n A -> symmetric n B -> (forall h, quad n A h = quad n B h) ->
  forall i j, (i < n)%nat -> (j < n)%nat -> A i j = B i j.
Proof.
  intros SA SB H i j Hi Hj.
  assert (F : forall (C : mat) k l, (k < n)%nat -> (l < n)%nat -> mv n C (unitv l) k = C k l).
  { intros C k l Hk Hl. unfold mv. rewrite (rsum_single n l); [|exact Hl|].
    - unfold unitv. rewrite Nat.eqb_refl. ring.
    - intros m Hm N. unfold unitv. destruct (Nat.eqb_spec m l); [contradiction|ring]. }
  pose proof (H (vadd (unitv i) (unitv j))) as G. rewrite !quad_add in G by assumption.
  rewrite (H (unitv i)), (H (unitv j)) in G. rewrite !dot_unitv, !F in G by assumption. lra.
Qed.

(** the Hessian of a polynomial that equals a quadratic function is the second derivative
    of that function *)
Lemma hess_of_quadratic (shift : bool) n q P b c g A si : symmetric n A -> (1 <= n)%nat -> (1 <= q)%nat -> (q <= full n)%nat ->
  (shift = true -> b_scale b = scale_vec n si) ->
  (forall x, value shift n q P b x = Some (quadratic n c g A x)) ->
  forall i j, (i < n)%nat -> (j < n)%nat -> (if shift then hessP_shift n q P (b_scale b) else hessP n q P) i j = A i j.
Proof.
  intros SA Hn H1 H2 HS H. set (G := if shift then gradP_shift n q P vzero (b_base b) (b_scale b) else gradP n q P vzero).
  set (Hm := if shift then hessP_shift n q P (b_scale b) else hessP n q P).
  assert (X : exact_expansion n (fun y => value shift n q P b y) vzero G Hm).
  { unfold G, Hm, value. destruct shift; [|apply taylor; assumption]. rewrite (HS eq_refl). apply taylor_shift; assumption. }
  assert (SH : symmetric n Hm) by (unfold Hm; destruct shift; intros a d _ _; apply hessP_sym).
  assert (L : forall h, c + dot n g h + / 2 * quad n A h = c + dot n G h + / 2 * quad n Hm h).
  { intros h. destruct (X h) as (m0 & mh & E0 & Eh & E). rewrite H in E0, Eh. injection E0 as <-. injection Eh as <-.
    assert (Z : quadratic n c g A (vadd vzero h) = quadratic n c g A h).
    { unfold quadratic. assert (V : veq n (vadd vzero h) h) by (intros k _; unfold vadd, vzero; ring).
      rewrite (quad_ext n A _ _ V). rewrite (dot_ext n g g (vadd vzero h) h); [reflexivity|intros k _; reflexivity|exact V]. }
    assert (Z0 : quadratic n c g A vzero = c).
    { unfold quadratic. assert (D : dot n g vzero = 0) by (unfold dot; apply rsum_zero; intros k _; unfold vzero; ring).
      assert (Q0 : quad n A vzero = 0) by (unfold quad, dot; apply rsum_zero; intros k _; unfold vzero; ring). rewrite D, Q0. ring. }
    rewrite Z, Z0 in E. unfold quadratic in E. exact E. }
  intros i j Hi Hj. symmetry. apply (quad_entries n A Hm SA SH); [|exact Hi|exact Hj]. intros h.
  pose proof (L h) as L1. pose proof (L (vscal (-1) h)) as L2. rewrite !quad_scal in L2.
  assert (DS : forall u, dot n u (vscal (-1) h) = - dot n u h).
  { intros u. rewrite dot_scal_r. ring. }
  rewrite !DS in L2. lra.
Qed.

Lemma build_data qr ill cure mode shift n p1 Y b : build qr ill cure mode shift n p1 Y = Some b ->
  b_base b = base shift p1 Y /\ b_scale b = scl shift n p1 Y.
Proof.
  unfold build. destruct (_ && _)%bool; [discriminate|]. destruct (to_factor _ _ _ _) as [[r c] Z]. destruct (qr r c _).
  intros B. inversion B; subst b. split; reflexivity.
Qed.

Lemma full_three n : (1 <= n)%nat -> (3 <= full n)%nat.
Proof.
  intros Hn. unfold full. apply (Nat.div_le_lower_bound _ 2); [lia|]. nia.
Qed.

(** moving the origin of a quadratic function *)
Lemma quadratic_moved n c g A a : symmetric n A ->
  exists c' g', forall x, quadratic n c' g' A (vsub x a) = quadratic n c g A x.
Proof.
  intros SA. exists (quadratic n c g A a), (vadd g (mv n A a)). intros x. unfold quadratic.
  assert (V : veq n x (vadd a (vsub x a))) by (intros k _; unfold vadd, vsub; ring).
  rewrite (quad_ext n A _ _ V), quad_add by exact SA.
  rewrite (dot_ext n g g x (vadd a (vsub x a)) (fun k _ => eq_refl) V).
  rewrite dot_add_r, dot_add_l. rewrite (dot_sym n (mv n A a)), (dot_mv_sym n A (vsub x a) a) by exact SA. lra.
Qed.

Section Exact.
Variable slv : nat -> mat -> mat -> option mat.
Variable pinv : nat -> mat -> mat.
Variable qr : nat -> nat -> mat -> mat * mat.
Variable ill : nat -> nat -> mat -> bool.
Variable cure : nat -> nat -> mat -> mat.
Variables (mode : nat) (shift : bool) (n p1 : nat) (Y : nat -> vec) (b : built).
Hypothesis HR : regular_case slv pinv qr ill cure mode shift n p1 Y b.
Hypothesis HF : (full n <= p1)%nat.

Lemma all_unknown : unknowns mode n p1 = full n.
Proof.
  destruct HR as ((_ & _ & W & Z) & _). destruct mode as [|[|m]]; cbn [unknowns]; try reflexivity; specialize (Z ltac:(lia)); lia.
Qed.
Lemma all_length f len P : computeP slv pinv mode n p1 (b_Q b) (b_R b) f = Some (len, P) -> len = full n.
Proof.
  destruct HR as ((Hn & _ & W & Z) & _). pose proof (full_three n Hn). unfold computeP.
  assert (EM : eff_mode mode n p1 = 0%nat -> p1 = full n).
  { intros E. destruct (le_lt_dec mode 2) as [L|L]; [specialize (Z L); lia|].
    unfold works in W. assert (mode = 3)%nat by lia. subst mode. unfold eff_mode in E. revert E.
    repeat (match goal with |- context [if ?t then _ else _] => destruct t end); try discriminate; lia. }
  destruct (eff_mode mode n p1) as [|[|[|[|]]]]; intros E.
  - destruct (slv _ _ _); [|discriminate]. injection E as <- _. apply EM. reflexivity.
  - destruct (compl n p1); [|discriminate]. destruct (slv _ _ _); [|discriminate]. inversion E; reflexivity.
  - destruct (slv _ _ _); [|discriminate]. inversion E; reflexivity.
  - inversion E; reflexivity.
  - discriminate.
Qed.

Lemma scale_nonzero i : (i < full n)%nat -> b_scale b i <> 0.
Proof.
  intros Hi Z. destruct HR as ((Hn & _) & _ & _ & B & _ & PO). pose proof (full_three n Hn) as F3.
  unfold poised in PO. rewrite all_unknown in PO. destruct (Nat.ltb_spec p1 (full n)); [lia|].
  assert (U : unitv i i = 0); [|unfold unitv in U; rewrite Nat.eqb_refl in U; lra].
  apply (PO (unitv i)); [|exact Hi]. intros j Hj.
  rewrite (t_scale qr ill cure mode shift n p1 Y b) by (assumption || lia). rewrite evalP_some by lia. f_equal.
  rewrite (pdot_ext _ (fun _ => 0)).
  - generalize (evalZ n (full n) (vsub (Y j) (b_base b))). intros l. generalize 0%nat. induction l as [|x l IH]; intros m; cbn; [reflexivity|]. rewrite IH. ring.
  - intros k _. unfold unitv. destruct (Nat.eqb_spec k i) as [->|]; [rewrite Z; ring|ring].
Qed.

(** every quadratic function is in the model space *)
Lemma in_space c g A : symmetric n A ->
  exists P0, forall x, value shift n (full n) P0 b x = Some (quadratic n c g A x).
Proof.
  intros SA. destruct HR as ((Hn & _) & _ & _ & B & _). pose proof (full_three n Hn) as F3.
  destruct (quadratic_moved n c g A (b_base b) SA) as (c' & g' & Q).
  destruct (represent_ex n c' g' A SA Hn) as (P & HP).
  exists (fun i => P i / b_scale b i). intros x.
  rewrite (t_scale qr ill cure mode shift n p1 Y b) by (assumption || lia).
  rewrite <- Q, <- HP. rewrite !evalP_some by lia. f_equal.
  assert (G : forall l m, (m + length l <= full n)%nat -> pdot (fun i => P i / b_scale b i * b_scale b i) m l = pdot P m l).
  { induction l as [|y l IH]; intros m L; cbn [pdot length] in *; [reflexivity|]. rewrite IH by lia. f_equal. f_equal. field. apply scale_nonzero. lia. }
  apply G. rewrite evalZ_length by lia. lia.
Qed.

Lemma model_hess_exact c g A (v : vec) : symmetric n A ->
  (forall j, (j < p1)%nat -> v j = quadratic n c g A (Y j)) ->
  forall i j, (i < n)%nat -> (j < n)%nat -> model_hess slv pinv mode shift n p1 b v i j = A i j.
Proof.
  intros SA V i j Hi Hj. destruct HR as ((Hn & _) & _ & _ & B & _). pose proof (full_three n Hn) as F3.
  destruct (in_space c g A SA) as (P0 & H0).
  destruct (r_P slv pinv qr ill cure mode shift n p1 Y b HR v) as (len & P & E & _).
  assert (L := all_length v len P E). subst len. unfold model_hess. rewrite E.
  destruct (build_data qr ill cure mode shift n p1 Y b B) as (_ & ES).
  apply (hess_of_quadratic shift n (full n) P b c g A (/ scaleY n p1 Y)); try assumption; try lia.
  - intros ->. rewrite ES. unfold scl, shifts. cbn [andb]. destruct (Nat.ltb_spec 1 p1); [reflexivity|lia].
  - intros x. rewrite <- (H0 x). rewrite <- all_unknown at 2.
    apply (t_reproduces slv pinv qr ill cure mode shift n p1 Y b HR v (full n) P P0 x).
    + rewrite all_unknown. exact HF.
    + exact E.
    + intros l Hl. rewrite all_unknown, H0. f_equal. symmetry. apply V. exact Hl.
Qed.

(** quadratic objective and constraints *)
Lemma lag_quadratic me c g A ck gk B (lm slk : vec) x : 
  quadratic n c g A x + rsum me (fun k => lm k * (quadratic n (ck k) (gk k) (B k) x - slk k)) =
  quadratic n (c + rsum me (fun k => lm k * (ck k - slk k))) (fun i => g i + rsum me (fun k => lm k * gk k i))
    (fun i j => A i j + rsum me (fun k => lm k * B k i j)) x.
Proof.
  induction me as [|m IH].
  - cbn [rsum]. unfold quadratic. rewrite (quad_ext_mat n A (fun i j => A i j + 0)) by (intros; ring).
    rewrite (dot_ext n g (fun i => g i + 0) x x); [ring|intros k _; ring|intros k _; reflexivity].
  - cbn [rsum]. rewrite <- Rplus_assoc, IH. unfold quadratic.
    rewrite (dot_ext n (fun i => g i + (rsum m (fun k => lm k * gk k i) + lm m * gk m i))
      (vadd (fun i => g i + rsum m (fun k => lm k * gk k i)) (vscal (lm m) (gk m))) x x);
      [|intros k _; unfold vadd, vscal; ring|intros k _; reflexivity].
    rewrite dot_add_l, dot_scal_l.
    assert (Q : quad n (fun i j => A i j + (rsum m (fun k => lm k * B k i j) + lm m * B m i j)) x =
      quad n (fun i j => A i j + rsum m (fun k => lm k * B k i j)) x + lm m * quad n (B m) x).
    { unfold quad, dot. rewrite <- rsum_scal, <- rsum_plus. apply rsum_ext. intros i _.
      transitivity (x i * (mv n (fun i j => A i j + rsum m (fun k => lm k * B k i j)) x i + lm m * mv n (B m) x i)); [|ring].
      f_equal. unfold mv. rewrite <- rsum_scal, <- rsum_plus. apply rsum_ext. intros k _. ring. }
    rewrite Q. ring.
Qed.

Lemma hess_model_exact me r niter M s gx gce lb lm fY ceY slk fH info c g A ck gk B M' pc info' :
  symmetric n A -> (forall k, (k < me)%nat -> symmetric n (B k)) ->
  (forall j, (j < p1)%nat -> fY j = quadratic n c g A (Y j)) ->
  (forall k j, (k < me)%nat -> (j < p1)%nat -> ceY k j = quadratic n (ck k) (gk k) (B k) (Y j)) ->
  compute_hessian n me false HModel r niter M s gx gce lb lm true fY ceY slk
    (model_hess slv pinv mode shift n p1 b) fH info = HRes M' pc info' ->
  forall i j, (i < n)%nat -> (j < n)%nat -> M' i j = A i j + rsum me (fun k => lm k * B k i j).
Proof.
  intros SA SB F1 F2 E i j Hi Hj.
  destruct (hess_model n me r niter M s gx gce lb lm true fY ceY slk (model_hess slv pinv mode shift n p1 b) fH info)
    as (M0 & i0 & E0 & _ & _ & _ & HM & _).
  rewrite E in E0. inversion E0; subst. rewrite (HM eq_refl).
  refine (model_hess_exact (c + rsum me (fun k => lm k * (ck k - slk k))) (fun i => g i + rsum me (fun k => lm k * gk k i))
    (fun i j => A i j + rsum me (fun k => lm k * B k i j)) _ _ _ i j Hi Hj).
  - intros a d Ha Hd. rewrite (SA a d Ha Hd). f_equal. apply rsum_ext. intros k Hk. rewrite (SB k Hk a d Ha Hd). reflexivity.
  - intros l Hl. rewrite <- lag_quadratic. rewrite F1 by exact Hl. f_equal. apply rsum_ext. intros k Hk. rewrite F2 by assumption. reflexivity.
Qed.
End Exact.
