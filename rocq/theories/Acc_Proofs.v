(** Accuracy of the models: error of value and gradient in terms of poisedness and radius. *)
From Coq Require Import Reals Lra Psatz Lia List Arith Bool QArith Qreals.
From Verif Require Import QB Book_Model Main_Model Main_Spec Ver_Spec Ver_Proofs.
From Verif Require Import RVec RBool Tri Poly_Model Poly_Spec Poly_Proofs Int_Model Int_Spec Int_Proofs
  New_Model New_Spec New_Proofs Acc_Model Acc_Spec.
Import ListNotations.
Open Scope R_scope.

(** ** linear polynomials *)
Definition linco (n : nat) (c0 : R) (g : vec) : vec :=
  fun i => if (i =? 0)%nat then c0 else if (i <=? n)%nat then g (i - 1)%nat else 0.

Lemma pdot_zero P k l : (forall i, (k <= i)%nat -> P i = 0) -> pdot P k l = 0.
Proof.
  revert k. induction l as [|z l IH]; intros k H; cbn; [reflexivity|]. rewrite (H k) by lia. rewrite IH; [lra|]. intros i Hi. apply H. lia.
Qed.

Lemma full_gt n : (n + 1 <= full n)%nat.
Proof. rewrite full_tri. lia. Qed.

Lemma linco_value n q c0 g x : (1 <= n)%nat -> (n + 1 <= q)%nat -> (q <= full n)%nat -> evalP n q (linco n c0 g) x = Some (c0 + dot n g x).
Proof.
  intros Hn H1 H2. unfold evalP. rewrite (evalZ_length n q x) by lia. rewrite Nat.eqb_refl. f_equal.
  unfold evalZ. destruct (Nat.eqb_spec q 1) as [X|_]; [lia|].
  assert (M : pdot (linco n c0 g) 1 (map x (seq 0 n)) = dot n g x).
  { rewrite pdot_map. unfold dot. apply rsum_ext. intros i Hi. unfold linco. destruct (Nat.eqb_spec (1 + i) 0); [lia|].
    destruct (Nat.leb_spec (1 + i) n); [|lia]. rewrite Nat.add_0_l. f_equal. f_equal. lia. }
  destruct (Nat.leb_spec q (n + 1)) as [L|L].
  - replace (Nat.min (n + 1) q - 1)%nat with n by lia. cbn [pdot]. rewrite M. unfold linco. cbn. ring.
  - cbn [pdot]. rewrite pdot_app, M, pdot_zero.
    + unfold linco. cbn [Nat.eqb]. ring.
    + intros i Hi. rewrite map_length, seq_length in Hi. unfold linco. destruct (Nat.eqb_spec i 0); [lia|]. destruct (Nat.leb_spec i n); [lia|reflexivity].
Qed.

Lemma value_some shift n len P b x : (1 <= len)%nat -> (len <= full n)%nat -> exists v, value shift n len P b x = Some v.
Proof.
  intros H1 H2. unfold value, evalP_shift, evalP. destruct shift; rewrite evalZ_length by assumption; rewrite Nat.eqb_refl; eauto.
Qed.

Section A.
Variable slv : nat -> mat -> mat -> option mat.
Variable pinv : nat -> mat -> mat.
Variables (qr : nat -> nat -> mat -> mat * mat) (ill : nat -> nat -> mat -> bool) (cure : nat -> nat -> mat -> mat).
Variables (mode : nat) (shift : bool) (n p1 : nat) (Y : nat -> vec) (b : built).
Hypothesis RC : regular_case slv pinv qr ill cure mode shift n p1 Y b.
Hypothesis HN : (n + 1 <= p1)%nat.

Lemma a_n : (1 <= n)%nat.
Proof. apply RC. Qed.

Lemma a_data : has_data shift n p1 Y b.
Proof. destruct RC as (_ & _ & _ & B & E & _). exact (proj1 (build_facts _ _ _ _ _ _ _ _ _ B E)). Qed.

Lemma a_shifts : shifts shift p1 = shift.
Proof. unfold shifts. destruct (Nat.ltb_spec 1 p1); [apply andb_true_r|]. pose proof a_n. lia. Qed.

(** the affine function with value [c0] and gradient [g] at the first point *)
Lemma affine_poly c0 g : exists P0, forall q x, (n + 1 <= q)%nat -> (q <= full n)%nat ->
  value shift n q P0 b x = Some (c0 + dot n g (vsub x (Y 0%nat))).
Proof.
  pose proof a_n as Hn. destruct a_data as (B & S & NZ). rewrite a_shifts in NZ. unfold base in B. unfold scl in S. rewrite a_shifts in B, S.
  unfold value. destruct shift.
  - specialize (NZ eq_refl). set (s := scaleY n p1 Y) in *.
    exists (linco n c0 (fun i => g i * s)). intros q x H1 H2. unfold evalP_shift. rewrite linco_value by assumption.
    f_equal. f_equal. unfold dot. apply rsum_ext. intros i Hi. rewrite B, S. unfold scale_vec, vsub. cbn [Nat.eqb].
    destruct (Nat.leb_spec 1 n); [|lia]. field. exact NZ.
  - exists (linco n (c0 - dot n g (Y 0%nat)) g). intros q x H1 H2. rewrite linco_value by assumption. rewrite dot_sub_r. f_equal. ring.
Qed.

Hypothesis HU : (unknowns mode n p1 <= p1)%nat.
Hypothesis HF : (p1 <= full n)%nat.

Lemma a_unknowns : (n + 1 <= unknowns mode n p1 <= full n)%nat.
Proof. pose proof (full_gt n). destruct mode as [|[|m]]; cbn [unknowns]; lia. Qed.

Lemma computeP_len f len P : computeP slv pinv mode n p1 (b_Q b) (b_R b) f = Some (len, P) -> len = p1 \/ len = full n.
Proof.
  unfold computeP. destruct (eff_mode mode n p1) as [|[|[|[|m]]]].
  - destruct (slv _ _ _); intros H; [injection H as <- _; auto|discriminate].
  - destruct (compl n p1); [|discriminate]. destruct (slv _ _ _); intros H; [injection H as <- _; auto|discriminate].
  - destruct (slv _ _ _); intros H; [injection H as <- _; auto|discriminate].
  - intros H; injection H as <- _; auto.
  - discriminate.
Qed.

Definition Lr (j : nat) : nat * vec := match computeLj slv pinv mode n p1 (b_Q b) (b_R b) j with Some l => l | None => (0%nat, vzero) end.
Definition lv (x : vec) (j : nat) : R := match value shift n (fst (Lr j)) (snd (Lr j)) b x with Some v => v | None => 0 end.

Lemma Lr_spec x j : (j < p1)%nat -> computeLj slv pinv mode n p1 (b_Q b) (b_R b) j = Some (Lr j) /\
  value shift n (fst (Lr j)) (snd (Lr j)) b x = Some (lv x j).
Proof.
  intros Hj. destruct (t_lagrange_delta _ _ _ _ _ _ _ _ _ _ _ RC j 0 HF Hj ltac:(lia)) as (len & L & E & _).
  unfold lv, Lr. rewrite E. split; [reflexivity|]. cbn [fst snd].
  assert (H : (1 <= len <= full n)%nat) by (apply computeLj_len in E; pose proof (full_gt n); lia).
  destruct (value_some shift n len L b x) as (v & ->); [lia|lia|reflexivity].
Qed.

(** the model minus an affine function *)
Lemma model_minus_affine F len P c0 g x :
  computeP slv pinv mode n p1 (b_Q b) (b_R b) F = Some (len, P) ->
  value shift n len P b x = Some (c0 + dot n g (vsub x (Y 0%nat)) +
    rsum p1 (fun j => (F j - (c0 + dot n g (vsub (Y j) (Y 0%nat)))) * lv x j)).
Proof.
  intros EP. set (T := fun j => c0 + dot n g (vsub (Y j) (Y 0%nat))).
  rewrite (t_lagrange_sum _ _ _ _ _ _ _ _ _ _ _ RC F len P x Lr (lv x) EP (fun j Hj => Lr_spec x j Hj)).
  destruct (affine_poly c0 g) as (P0 & A). pose proof a_unknowns as UU.
  destruct (t_interpolates _ _ _ _ _ _ _ _ _ _ _ RC T HF) as (len' & P' & E' & _).
  assert (RP := t_reproduces _ _ _ _ _ _ _ _ _ _ _ RC T len' P' P0 x HU E'
    (fun j Hj => A (unknowns mode n p1) (Y j) ltac:(lia) ltac:(lia))).
  rewrite (t_lagrange_sum _ _ _ _ _ _ _ _ _ _ _ RC T len' P' x Lr (lv x) E' (fun j Hj => Lr_spec x j Hj)) in RP.
  rewrite (A (unknowns mode n p1) x) in RP by lia. injection RP as RP. rewrite <- RP, <- rsum_plus. f_equal. apply rsum_ext.
  intros j Hj. unfold T. ring.
Qed.

Lemma rsum_abs m f : Rabs (rsum m f) <= rsum m (fun j => Rabs (f j)).
Proof.
  induction m as [|m IH]; cbn [rsum]; [rewrite Rabs_R0; lra|]. eapply Rle_trans; [apply Rabs_triang|]. lra.
Qed.
Lemma rsum_const m a : rsum m (fun _ => a) = INR m * a.
Proof. induction m as [|m IH]; cbn [rsum]; [cbn; ring|]. rewrite IH, S_INR. ring. Qed.

Lemma rsum_first m f : (1 <= m)%nat -> rsum m f = f 0%nat + rsum (m - 1) (fun i => f (S i)).
Proof. intros H. destruct m as [|m]; [lia|]. rewrite rsum_S_first. replace (S m - 1)%nat with m by lia. reflexivity. Qed.

Lemma vsub_self x : veq n (vsub x x) vzero.
Proof. intros i Hi. unfold vsub, vzero. ring. Qed.

Lemma err_sum F g K Lam r x : 0 <= K -> curved n p1 Y F g K -> lagrange_bounded slv pinv mode shift n p1 b Y Lam r ->
  norm n (vsub x (Y 0%nat)) <= r ->
  Rabs (rsum p1 (fun j => (F j - (F 0%nat + dot n g (vsub (Y j) (Y 0%nat)))) * lv x j)) <= (INR p1 - 1) * (K * (r * r) * Lam).
Proof.
  intros K0 CV (IN & LB) Hx. eapply Rle_trans; [apply rsum_abs|].
  rewrite rsum_first by lia.
  assert (Z : F 0%nat - (F 0%nat + dot n g (vsub (Y 0%nat) (Y 0%nat))) = 0).
  { rewrite (dot_ext n g g _ vzero) by (try apply vsub_self; intros i Hi; reflexivity). rewrite dot_zero_r. ring. }
  rewrite Z, Rmult_0_l, Rabs_R0, Rplus_0_l. replace (INR p1 - 1) with (INR (p1 - 1)) by (rewrite minus_INR by lia; reflexivity).
  rewrite <- rsum_const.
  apply rsum_le. intros j Hj. rewrite Rabs_mult.
  destruct (LB (S j) ltac:(lia)) as (len & L & E & B). destruct (B x Hx) as (v & V & AV).
  assert (LV : lv x (S j) = v) by (unfold lv, Lr; rewrite E; cbn [fst snd]; rewrite V; reflexivity). rewrite LV.
  pose proof (CV (S j) ltac:(lia)) as C1. pose proof (IN (S j) ltac:(lia)) as I1. pose proof (norm_nonneg n (vsub (Y (S j)) (Y 0%nat))) as N0.
  apply Rmult_le_compat; try apply Rabs_pos; [|exact AV]. eapply Rle_trans; [exact C1|]. apply Rmult_le_compat_l; [exact K0|]. nra.
Qed.

Lemma a_value F len P g K Lam r x v : 0 <= K -> curved n p1 Y F g K -> lagrange_bounded slv pinv mode shift n p1 b Y Lam r ->
  computeP slv pinv mode n p1 (b_Q b) (b_R b) F = Some (len, P) ->
  norm n (vsub x (Y 0%nat)) <= r -> value shift n len P b x = Some v ->
  Rabs (v - (F 0%nat + dot n g (vsub x (Y 0%nat)))) <= (INR p1 - 1) * (K * (r * r) * Lam).
Proof.
  intros K0 CV LB EP Hx V. rewrite (model_minus_affine F len P (F 0%nat) g x EP) in V. injection V as <-.
  match goal with |- Rabs (?a + ?s - ?a) <= _ => replace (a + s - a) with s by ring end. exact (err_sum F g K Lam r x K0 CV LB Hx).
Qed.

Lemma a_expansion len P : (1 <= len)%nat -> (len <= full n)%nat -> exists H,
  exact_expansion n (value shift n len P b) (Y 0%nat) (grad_at_first shift n len P b Y) H.
Proof.
  intros H1 H2. pose proof a_n as Hn. destruct a_data as (B & S & _). unfold base in B. unfold scl in S. rewrite a_shifts in B, S.
  unfold grad_at_first, value. destruct shift.
  - rewrite B, S. eexists. apply taylor_shift; assumption.
  - eexists. apply taylor; assumption.
Qed.

Lemma a_rpos Lam r : lagrange_bounded slv pinv mode shift n p1 b Y Lam r -> 0 < r.
Proof.
  intros (IN & _). pose proof a_n as Hn. pose proof (IN 1%nat ltac:(lia)) as I1. pose proof (norm_nonneg n (vsub (Y 1%nat) (Y 0%nat))) as N0.
  destruct (Rle_lt_dec r 0) as [Z|]; [|assumption]. exfalso.
  assert (N : norm n (vsub (Y 1%nat) (Y 0%nat)) = 0) by lra. apply norm_zero in N.
  destruct (t_lagrange_delta _ _ _ _ _ _ _ _ _ _ _ RC 1 1 HF ltac:(lia) ltac:(lia)) as (len & L & E & V1).
  destruct (t_lagrange_delta _ _ _ _ _ _ _ _ _ _ _ RC 1 0 HF ltac:(lia) ltac:(lia)) as (len' & L' & E' & V0).
  rewrite E in E'. injection E' as <- <-.
  rewrite (value_ext shift n len L b (Y 1%nat) (Y 0%nat)) in V1.
  - rewrite V0 in V1. cbn in V1. injection V1 as V1. lra.
  - intros i Hi. pose proof (N i Hi) as X. unfold vsub, vzero in X. lra.
Qed.

Lemma a_gradient F len P g K Lam r : 0 <= K -> curved n p1 Y F g K -> lagrange_bounded slv pinv mode shift n p1 b Y Lam r ->
  computeP slv pinv mode n p1 (b_Q b) (b_R b) F = Some (len, P) ->
  norm n (vsub (grad_at_first shift n len P b Y) g) <= (INR p1 - 1) * (K * r * Lam).
Proof.
  intros K0 CV LB EP. pose proof (a_rpos Lam r LB) as RP.
  assert (HL : (1 <= len <= full n)%nat) by (apply computeP_len in EP; pose proof (full_gt n); lia).
  destruct (a_expansion len P) as (H & EX); [lia|lia|]. set (G := grad_at_first shift n len P b Y) in *.
  set (w := vsub G g). set (C := (INR p1 - 1) * (K * (r * r) * Lam)).
  assert (D : forall d, norm n d <= r -> Rabs (dot n w d) <= C).
  { intros d Hd.
    assert (B1 : norm n (vsub (vadd (Y 0%nat) d) (Y 0%nat)) <= r).
    { rewrite (norm_ext n _ d); [exact Hd|]. intros i Hi. unfold vsub, vadd. ring. }
    assert (Nd : norm n (vscal (-1) d) <= r) by (rewrite norm_scal, Rabs_left by lra; lra).
    assert (B2 : norm n (vsub (vadd (Y 0%nat) (vscal (-1) d)) (Y 0%nat)) <= r).
    { rewrite (norm_ext n _ (vscal (-1) d)); [exact Nd|]. intros i Hi. unfold vsub, vadd. ring. }
    destruct (EX d) as (m0 & m1 & E0 & E1 & X1). destruct (EX (vscal (-1) d)) as (m0' & m2 & E0' & E2 & X2).
    rewrite E0 in E0'. injection E0' as <-.
    pose proof (a_value F len P g K Lam r _ m1 K0 CV LB EP B1 E1) as A1. pose proof (a_value F len P g K Lam r _ m2 K0 CV LB EP B2 E2) as A2.
    fold C in A1, A2.
    rewrite (dot_ext n g g _ d) in A1 by (try (intros i Hi; reflexivity); intros i Hi; unfold vsub, vadd; ring).
    rewrite (dot_ext n g g _ (vscal (-1) d)) in A2 by (try (intros i Hi; reflexivity); intros i Hi; unfold vsub, vadd; ring).
    rewrite dot_scal_r in A2, X2. rewrite quad_scal in X2. unfold w. rewrite dot_sub_l.
    revert A1 A2. unfold Rabs. repeat destruct (Rcase_abs _); intros; nra. }
  destruct (Req_dec (norm n w) 0) as [Z|NZ].
  - rewrite Z. pose proof (D (vscal 0 w)) as D0. rewrite norm_scal, Rabs_R0, Rmult_0_l in D0. specialize (D0 ltac:(lra)).
    pose proof (Rabs_pos (dot n w (vscal 0 w))) as AP. unfold C in D0.
    apply Rmult_le_reg_r with r; [exact RP|]. rewrite Rmult_0_l. nra.
  - pose proof (norm_nonneg n w) as N0. assert (NP : 0 < norm n w) by lra.
    pose proof (D (vscal (r / norm n w) w)) as D1. rewrite norm_scal in D1.
    assert (Q : 0 < r / norm n w) by (apply Rdiv_lt_0_compat; assumption).
    rewrite (Rabs_pos_eq (r / norm n w)) in D1 by lra.
    specialize (D1 ltac:(apply Req_le; field; lra)). rewrite dot_scal_r, <- norm_sq in D1.
    replace (r / norm n w * (norm n w * norm n w)) with (r * norm n w) in D1 by (field; lra).
    rewrite Rabs_pos_eq in D1 by nra. unfold C in D1. apply Rmult_le_reg_l with r; [exact RP|]. nra.
Qed.
End A.

(** ** with the poisedness routine *)
Lemma poised_bounded slv pinv solver qr ill cure lSolver mode shift n p1 Y b tau e lam r :
  regular_case slv pinv qr ill cure mode shift n p1 Y b -> (p1 <= full n)%nat ->
  honest n tau solver -> optimal n e solver ->
  poisedness slv pinv solver false lSolver mode shift n p1 b Y = Some (lam, r) ->
  lagrange_bounded slv pinv mode shift n p1 b Y (lam + e + tau) r.
Proof.
  intros RC HF HT OE PO. split.
  - destruct (t_poisedness _ _ _ _ _ _ _ _ _ _ _ _ PO) as (H & _). exact H.
  - exact (t_poisedness_bound _ _ _ _ _ _ _ _ _ _ _ _ _ _ _ _ _ RC HF HT OE PO).
Qed.

Lemma t_acc_gradient slv pinv solver qr ill cure lSolver mode shift n p1 Y b tau e lam r F len P g K :
  regular_case slv pinv qr ill cure mode shift n p1 Y b -> (n + 1 <= p1)%nat -> (unknowns mode n p1 <= p1)%nat -> (p1 <= full n)%nat ->
  honest n tau solver -> optimal n e solver ->
  poisedness slv pinv solver false lSolver mode shift n p1 b Y = Some (lam, r) ->
  0 <= K -> curved n p1 Y F g K ->
  computeP slv pinv mode n p1 (b_Q b) (b_R b) F = Some (len, P) ->
  norm n (vsub (grad_at_first shift n len P b Y) g) <= (INR p1 - 1) * (K * r * (lam + e + tau)).
Proof.
  intros RC HN HU HF HT OE PO K0 CV EP.
  exact (a_gradient _ _ _ _ _ _ _ _ _ _ _ RC HN HU HF F len P g K _ r K0 CV (poised_bounded _ _ _ _ _ _ _ _ _ _ _ _ _ _ _ _ _ RC HF HT OE PO) EP).
Qed.

(** ** combinations *)

Lemma combo_bound n k w (u v : nat -> vec) (B : nat -> R) :
  (forall i, (i < k)%nat -> norm n (vsub (u i) (v i)) <= B i) ->
  norm n (vsub (combo k w u) (combo k w v)) <= rsum k (fun i => Rabs (w i) * B i).
Proof.
  induction k as [|k IH]; intros H.
  - unfold combo. cbn [rsum]. apply Req_le. apply norm_zero. intros t Ht. unfold vsub, vzero. ring.
  - cbn [rsum]. rewrite (norm_ext n _ (vadd (vsub (combo k w u) (combo k w v)) (vscal (w k) (vsub (u k) (v k))))).
    + eapply Rle_trans; [apply norm_triangle|]. rewrite norm_scal. apply Rplus_le_compat; [apply IH; intros; apply H; lia|].
      apply Rmult_le_compat_l; [apply Rabs_pos|]. apply H. lia.
    + intros t Ht. unfold vsub, vadd, vscal, combo. cbn [rsum]. ring.
Qed.

Lemma comp_le_norm n x t : (t < n)%nat -> Rabs (x t) <= norm n x.
Proof.
  intros Ht. pose proof (cauchy_schwarz n (unitv t) x) as C. rewrite dot_unitv in C by exact Ht.
  assert (U : norm n (unitv t) = 1).
  { unfold norm. rewrite dot_unitv by exact Ht. unfold unitv. rewrite Nat.eqb_refl. apply sqrt_1. }
  rewrite U in C. lra.
Qed.

Lemma t_acc_combo slv pinv solver qr ill cure lSolver mode shift n p1 Y b tau e lam r k (w : nat -> R) (F : nat -> nat -> R) len C (g : nat -> vec) K :
  regular_case slv pinv qr ill cure mode shift n p1 Y b -> (n + 1 <= p1)%nat -> (unknowns mode n p1 <= p1)%nat -> (p1 <= full n)%nat ->
  honest n tau solver -> optimal n e solver ->
  poisedness slv pinv solver false lSolver mode shift n p1 b Y = Some (lam, r) ->
  (forall i, (i < k)%nat -> 0 <= K i /\ curved n p1 Y (F i) (g i) (K i) /\
     computeP slv pinv mode n p1 (b_Q b) (b_R b) (F i) = Some (len i, C i)) ->
  norm n (vsub (combo k w (fun i => grad_at_first shift n (len i) (C i) b Y)) (combo k w g)) <=
    (INR p1 - 1) * (r * (lam + e + tau)) * rsum k (fun i => Rabs (w i) * K i).
Proof.
  intros RC HN HU HF HT OE PO H.
  eapply Rle_trans; [apply (combo_bound n k w _ g (fun i => (INR p1 - 1) * (K i * r * (lam + e + tau))))|].
  - intros i Hi. destruct (H i Hi) as (K0 & CV & EP). eapply t_acc_gradient; eauto.
  - rewrite <- rsum_scal. apply Req_le. apply rsum_ext. intros i Hi. ring.
Qed.

(** ** exit code 0 at the first test of a pass *)
Lemma first_exit P (E : env P) s a s' f : pass E s a = Return 0 s' f -> niter (sN s') = (niter (sN s) + 1)%nat ->
  (a_glagn1 a <= e_tolg E)%Q /\ (a_poised a * a_yrad a <= 1 # 1000)%Q.
Proof.
  intros PS NI. revert PS. unfold pass. cbv zeta. destruct (_ <=? _)%nat; [discriminate|]. destruct (_ <=? _)%nat; [discriminate|].
  destruct (a_exc1 a); [discriminate|]. destruct (_ || _)%bool.
  - destruct (_ && _)%bool eqn:B.
    + intros _. apply andb_prop in B. destruct B as (B & B2). apply andb_prop in B. destruct B as (B & _). apply andb_prop in B. destruct B as (B1 & _).
      qb. split; [exact B1|]. unfold factor_CV, epsilon, Qdiv in B2. change (/ 100)%Q with (1 # 100)%Q in B2. Lqa.lra.
    + match goal with |- context [improve E ?s1 a] => set (s1' := s1) end.
      destruct (improve E s1' a) as [s2|fl s2 f'|] eqn:IM; intros H.
      * exfalso. exact (step_no0 _ _ _ _ _ _ H).
      * injection H as -> -> ->. destruct (improve_acc _ _ _ _ _ IM) as (_ & K). destruct (K s' f eq_refl) as (N1 & _).
        unfold s1' in N1. cbn [sN niter] in N1. lia.
      * discriminate.
  - intros H. exfalso. exact (step_no0 _ _ _ _ _ _ H).
Qed.

Lemma t_exit P (E : env P) s a s' f slv pinv solver qr ill cure lSolver mode shift n p1 Y b tau e k (w : nat -> R) (F : nat -> nat -> R) len C
    (g : nat -> vec) K t :
  regular_case slv pinv qr ill cure mode shift n p1 Y b -> (n + 1 <= p1)%nat -> (unknowns mode n p1 <= p1)%nat -> (p1 <= full n)%nat ->
  honest n tau solver -> optimal n e solver ->
  poisedness slv pinv solver false lSolver mode shift n p1 b Y = Some (Q2R (a_poised a), Q2R (a_yrad a)) ->
  (forall i, (i < k)%nat -> 0 <= K i /\ curved n p1 Y (F i) (g i) (K i) /\
     computeP slv pinv mode n p1 (b_Q b) (b_R b) (F i) = Some (len i, C i)) ->
  (t < n)%nat -> Rabs (combo k w (fun i => grad_at_first shift n (len i) (C i) b Y) t) <= Q2R (a_glagn1 a) ->
  pass E s a = Return 0 s' f -> niter (sN s') = (niter (sN s) + 1)%nat ->
  Rabs (combo k w g t) <= Q2R (e_tolg E) +
    (INR p1 - 1) * (/ 1000 + (e + tau) * Q2R (a_yrad a)) * rsum k (fun i => Rabs (w i) * K i).
Proof.
  intros RC HN HU HF HT OE PO H Ht GL PS NI. destruct (first_exit _ _ _ _ _ _ PS NI) as (G1 & G2).
  apply Qle_Rle in G1, G2. rewrite Q2R_mult in G2. replace (Q2R (1 # 1000)) with (/ 1000) in G2 by (unfold Q2R; cbn; lra).
  pose proof (t_acc_combo _ _ _ _ _ _ _ _ _ _ _ _ _ _ _ _ _ k w F len C g K RC HN HU HF HT OE PO H) as B.
  set (GG := combo k w (fun i => grad_at_first shift n (len i) (C i) b Y)) in *.
  pose proof (comp_le_norm n (vsub GG (combo k w g)) t Ht) as B2. unfold vsub at 1 in B2.
  set (W := rsum k (fun i => Rabs (w i) * K i)) in *.
  assert (W0 : 0 <= W) by (apply rsum_nonneg; intros i Hi; apply Rmult_le_pos; [apply Rabs_pos|apply (H i Hi)]).
  assert (PP : 0 <= INR p1 - 1).
  { pose proof (le_INR 1 p1 ltac:(lia)) as X. cbn in X. lra. }
  assert (X : (INR p1 - 1) * (Q2R (a_yrad a) * (Q2R (a_poised a) + e + tau)) * W <=
              (INR p1 - 1) * (/ 1000 + (e + tau) * Q2R (a_yrad a)) * W).
  { apply Rmult_le_compat_r; [exact W0|]. apply Rmult_le_compat_l; [exact PP|]. lra. }
  revert B2 GL. unfold Rabs. repeat destruct (Rcase_abs _); intros; lra.
Qed.
