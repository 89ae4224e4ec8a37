(** The first models. *)
From Coq Require Import Reals Lra Psatz Lia List Arith Bool QArith Qreals.
From Verif Require Import QB Book_Model Main_Model Main_Spec Ver_Spec Ver_Proofs.
From Verif Require Pre_Model.
From Verif Require Import RVec RBool Tri Poly_Model Poly_Spec Poly_Proofs Int_Model Int_Spec Int_Proofs
  New_Model New_Spec New_Proofs Acc_Model Acc_Spec Acc_Proofs Fst_Spec.
Import ListNotations.
Open Scope R_scope.

Lemma fold_max_le (f : nat -> R) l s c : s <= c -> (forall i, In i l -> f i <= c) -> fold_left (fun r i => Rmax r (f i)) l s <= c.
Proof.
  revert s. induction l as [|i l IH]; intros s Hs H; cbn; [exact Hs|]. apply IH; [apply Rmax_lub; [exact Hs|apply H; left; reflexivity]|].
  intros k Hk. apply H. right. exact Hk.
Qed.
Lemma fold_max_ge (f : nat -> R) l s c : (c <= s \/ exists i, In i l /\ c <= f i) -> c <= fold_left (fun r i => Rmax r (f i)) l s.
Proof.
  revert s. induction l as [|i l IH]; intros s H; cbn.
  - destruct H as [H|(i & [] & _)]. exact H.
  - apply IH. destruct H as [H|(k & [->|Hk] & H)].
    + left. eapply Rle_trans; [exact H|apply Rmax_l].
    + left. eapply Rle_trans; [exact H|apply Rmax_r].
    + right. exists k. auto.
Qed.

Section F.
Variables (n : nat) (x0 : vec) (d : R).
Hypothesis Hn : (1 <= n)%nat.
Hypothesis Hd : 0 < d.
Let Y := lowered x0 d.

Lemma low_diff k i : vsub (Y (S k)) (Y 0%nat) i = - d * unitv k i.
Proof. unfold vsub, Y, lowered, unitv. destruct (i =? k)%nat; ring. Qed.

Lemma low_norm k : (k < n)%nat -> norm n (vsub (Y (S k)) (Y 0%nat)) = d.
Proof.
  intros Hk. rewrite (norm_ext n _ (vscal (- d) (unitv k))) by (intros i _; rewrite low_diff; reflexivity).
  rewrite norm_scal, Rabs_left by lra. unfold norm. rewrite dot_unitv by exact Hk. unfold unitv. rewrite Nat.eqb_refl, sqrt_1. ring.
Qed.
Lemma low_norm0 : norm n (vsub (Y 0%nat) (Y 0%nat)) = 0.
Proof. apply norm_zero. intros i _. unfold vsub, vzero. ring. Qed.

Lemma low_scale : scaleY n (n + 1) Y = d.
Proof.
  unfold scaleY. apply Rle_antisym.
  - apply fold_max_le; [lra|]. intros [|k] Hk; [rewrite low_norm0; lra|]. apply in_seq in Hk. rewrite low_norm by lia. lra.
  - apply fold_max_ge. right. exists 1%nat. split; [apply in_seq; lia|]. rewrite low_norm by lia. lra.
Qed.

Lemma low_dot g k : (k < n)%nat -> dot n g (vsub (Y (S k)) (Y 0%nat)) = - d * g k.
Proof.
  intros Hk. rewrite (dot_ext n g g _ (vscal (- d) (unitv k))) by (intros i _; try reflexivity; apply low_diff).
  rewrite dot_scal_r, dot_sym, dot_unitv by exact Hk. ring.
Qed.

Section B.
Variables (shift : bool) (b : built).
Hypothesis HD : has_data shift n (n + 1) Y b.

Lemma f_shifts : shifts shift (n + 1) = shift.
Proof. unfold shifts. destruct (Nat.ltb_spec 1 (n + 1)); [apply andb_true_r|lia]. Qed.

Lemma f_affine c0 g : exists P0, forall q x, (n + 1 <= q)%nat -> (q <= full n)%nat ->
  value shift n q P0 b x = Some (c0 + dot n g (vsub x (Y 0%nat))).
Proof.
  destruct HD as (B & S & NZ). rewrite f_shifts in NZ. unfold base in B. unfold scl in S. rewrite f_shifts in B, S.
  unfold value. destruct shift.
  - specialize (NZ eq_refl). set (s := scaleY n (n + 1) Y) in *.
    exists (linco n c0 (fun i => g i * s)). intros q x H1 H2. unfold evalP_shift. rewrite linco_value by assumption.
    f_equal. f_equal. unfold dot. apply rsum_ext. intros i Hi. rewrite B, S. unfold scale_vec, vsub. cbn [Nat.eqb].
    destruct (Nat.leb_spec 1 n); [|lia]. field. exact NZ.
  - exists (linco n (c0 - dot n g (Y 0%nat)) g). intros q x H1 H2. rewrite linco_value by assumption. rewrite dot_sub_r. f_equal. ring.
Qed.

Lemma lin_value P y : evalP n (n + 1) P y = Some (P 0%nat + dot n (fun i => P (S i)) y).
Proof.
  pose proof (Int_Proofs.full_gt n Hn) as FG. rewrite <- (linco_value n (n + 1) (P 0%nat) (fun i => P (S i)) y) by lia.
  unfold evalP. rewrite evalZ_length by lia. rewrite Nat.eqb_refl. f_equal. apply pdot_ext. intros i Hi.
  rewrite evalZ_length in Hi by lia. unfold linco. destruct (Nat.eqb_spec i 0) as [->|]; [reflexivity|].
  destruct (Nat.leb_spec i n); [|lia]. f_equal. lia.
Qed.

Lemma f_determining : determining shift n (n + 1) (n + 1) b Y.
Proof.
  intros P H. destruct HD as (B & S & _). unfold base in B. unfold scl in S. rewrite f_shifts in B, S.
  set (s := if shift then b_scale b 1%nat else 1).
  assert (s0 : s <> 0).
  { unfold s. destruct shift; [|lra]. rewrite S, low_scale. unfold scale_vec. cbn [Nat.eqb]. destruct (Nat.leb_spec 1 n); [|lia].
    apply Rinv_neq_0_compat. lra. }
  assert (A : exists a : vec, forall j, (j < n + 1)%nat -> P 0%nat + dot n (fun i => P (Datatypes.S i)) (fun i => a i + s * vsub (Y j) (Y 0%nat) i) = 0).
  { exists (if shift then vzero else Y 0%nat). intros j Hj. specialize (H j Hj). unfold value, evalP_shift, s in *.
    destruct shift; rewrite lin_value in H; injection H as H; rewrite <- H; f_equal; apply rsum_ext; intros i _; unfold vsub, vzero; [rewrite B|]; ring. }
  destruct A as (a & A).
  assert (Z : forall k, (k < n)%nat -> P (Datatypes.S k) = 0).
  { intros k Hk. pose proof (A 0%nat ltac:(lia)) as A0. pose proof (A (Datatypes.S k) ltac:(lia)) as A1.
    rewrite (dot_ext n _ (fun i => P (Datatypes.S i)) _ (vadd a (vscal s (vsub (Y (Datatypes.S k)) (Y 0%nat))))) in A1 by (intros i _; reflexivity).
    rewrite dot_add_r, dot_scal_r, low_dot in A1 by exact Hk.
    rewrite (dot_ext n _ (fun i => P (Datatypes.S i)) _ a) in A0 by (intros i _; try reflexivity; unfold vsub; ring).
    assert (E : s * (- d * P (Datatypes.S k)) = 0) by lra. apply Rmult_integral in E. destruct E as [E|E]; [contradiction|].
    apply Rmult_integral in E. destruct E as [E|E]; [lra|exact E]. }
  intros [|i] Hi; [|apply Z; lia]. pose proof (A 0%nat ltac:(lia)) as A0.
  unfold dot in A0. rewrite rsum_zero in A0; [lra|]. intros i Hi'. rewrite Z by exact Hi'. ring.
Qed.

Lemma aff_at F j : (j < n + 1)%nat -> F 0%nat + dot n (quotients F d) (vsub (Y j) (Y 0%nat)) = F j.
Proof.
  intros Hj. destruct j as [|k].
  - rewrite (dot_ext n _ (quotients F d) _ vzero) by (intros i _; try reflexivity; unfold vsub, vzero; ring). rewrite dot_zero_r. ring.
  - rewrite low_dot by lia. unfold quotients. field. lra.
Qed.

Lemma f_independent : independent shift n (full n) (n + 1) b Y.
Proof.
  intros cc H j Hj. set (F := fun i => if (i =? j)%nat then 1 else 0). destruct (f_affine (F 0%nat) (quotients F d)) as (P0 & A).
  pose proof (Int_Proofs.full_gt n Hn) as FG. specialize (H P0 F). rewrite (rsum_single _ j) in H.
  - unfold F in H at 2. rewrite Nat.eqb_refl, Rmult_1_r in H. apply H. intros i Hi. rewrite A by lia. f_equal. apply aff_at. exact Hi.
  - exact Hj.
  - intros i Hi N. unfold F. destruct (Nat.eqb_spec i j); [contradiction|ring].
Qed.

Lemma f_poised mode : (mode <= 3)%nat -> poised mode shift n (n + 1) b Y.
Proof.
  intros M. pose proof (Int_Proofs.full_gt n Hn) as FG. unfold poised.
  destruct mode as [|[|m]]; cbn [unknowns].
  - rewrite Nat.ltb_irrefl. exact f_determining.
  - rewrite Nat.ltb_irrefl. exact f_determining.
  - destruct (Nat.ltb_spec (n + 1) (full n)); [exact f_independent|lia].
Qed.
End B.

Lemma f_regular slv pinv qr ill cure mode shift b : (mode <= 3)%nat -> tri_exact slv -> pinv_exact pinv ->
  build qr ill cure mode shift n (n + 1) Y = Some b -> exactly_built qr ill mode shift n (n + 1) Y ->
  regular_case slv pinv qr ill cure mode shift n (n + 1) Y b.
Proof.
  intros M T PI B E. pose proof (Int_Proofs.full_gt n Hn) as FG. split; [|split; [exact T|split; [exact PI|split; [exact B|split; [exact E|]]]]].
  - split; [exact Hn|]. split; [lia|]. split; [|lia]. unfold works. lia.
  - apply f_poised; [|exact M]. exact (proj1 (build_facts _ _ _ _ _ _ _ _ _ B E)).
Qed.

(** the gradient of a known quadratic function *)
Lemma f_gradient m x G H c0 g (q : vec -> R) : exact_expansion n m x G H -> (forall h, q (vscal (-1) h) = q h) ->
  (forall h, m (vadd x h) = Some (c0 + dot n g h + q h)) -> forall k, (k < n)%nat -> G k = g k.
Proof.
  intros EX QE V k Hk. destruct (EX (unitv k)) as (m0 & m1 & E0 & E1 & X1). destruct (EX (vscal (-1) (unitv k))) as (m0' & m2 & E0' & E2 & X2).
  rewrite E0 in E0'. injection E0' as <-. rewrite V in E1, E2. injection E1 as E1. injection E2 as E2.
  rewrite QE in E2. rewrite dot_scal_r in E2, X2. rewrite quad_scal in X2. rewrite (dot_sym n g), dot_unitv in E1, E2 by exact Hk.
  rewrite (dot_sym n G), dot_unitv in X1, X2 by exact Hk. lra.
Qed.

Section M.
Variables (slv : nat -> mat -> mat -> option mat) (pinv : nat -> mat -> mat).
Variables (qr : nat -> nat -> mat -> mat * mat) (ill : nat -> nat -> mat -> bool) (cure : nat -> nat -> mat -> mat).
Variables (mode : nat) (shift : bool) (b : built).
Hypothesis ST : tri_exact slv.
Hypothesis SP : pinv_exact pinv.
Hypothesis BB : build qr ill cure mode shift n (n + 1) Y = Some b.
Hypothesis BE : exactly_built qr ill mode shift n (n + 1) Y.

Lemma f_affine_model F : (mode <= 1)%nat -> exists len P, computeP slv pinv mode n (n + 1) (b_Q b) (b_R b) F = Some (len, P) /\
  (forall x, value shift n len P b x = Some (affine n x0 (F 0%nat) (quotients F d) x)) /\
  forall k, (k < n)%nat -> grad_at_first shift n len P b Y k = quotients F d k.
Proof.
  intros M. pose proof (f_regular slv pinv qr ill cure mode shift b ltac:(lia) ST SP BB BE) as RC. pose proof (Int_Proofs.full_gt n Hn) as FG.
  destruct (t_interpolates _ _ _ _ _ _ _ _ _ _ _ RC F ltac:(lia)) as (len & P & EP & _). exists len, P. split; [exact EP|].
  assert (V : forall x, value shift n len P b x = Some (F 0%nat + dot n (quotients F d) (vsub x (Y 0%nat)))).
  { intros x. rewrite (model_minus_affine _ _ _ _ _ _ _ _ _ _ _ RC ltac:(lia) ltac:(destruct mode as [|[|m]]; cbn [unknowns]; lia) ltac:(lia) F len P (F 0%nat) (quotients F d) x EP).
    f_equal. rewrite rsum_zero; [ring|]. intros j Hj. rewrite aff_at by exact Hj. ring. }
  split; [exact V|]. intros k Hk.
  assert (HL : (1 <= len <= full n)%nat) by (apply computeP_len in EP; lia).
  destruct (a_expansion _ _ _ _ _ _ _ _ _ _ _ RC ltac:(lia) len P ltac:(lia) ltac:(lia)) as (H & EX).
  apply (f_gradient _ _ _ H (F 0%nat) (quotients F d) (fun _ => 0) EX); [reflexivity| |exact Hk].
  intros h. rewrite V. f_equal. rewrite Rplus_0_r. f_equal. apply dot_ext; [intros i _; reflexivity|]. intros i _. unfold vsub, vadd. ring.
Qed.


(** a Lagrange polynomial is the model of its values *)
Lemma lagrange_affine k len L x : (mode <= 1)%nat -> (k < n)%nat -> computeLj slv pinv mode n (n + 1) (b_Q b) (b_R b) (S k) = Some (len, L) ->
  value shift n len L b x = Some (- (x k - x0 k) / d).
Proof.
  intros M Hk EL. pose proof (f_regular slv pinv qr ill cure mode shift b ltac:(lia) ST SP BB BE) as RC. pose proof (Int_Proofs.full_gt n Hn) as FG.
  set (F := fun i => if (i =? S k)%nat then 1 else 0).
  assert (HU : (unknowns mode n (n + 1) <= n + 1)%nat) by (destruct mode as [|[|m]]; cbn [unknowns]; lia).
  destruct (f_affine_model F M) as (lenP & P & EP & V & _). specialize (V x).
  rewrite (t_lagrange_sum _ _ _ _ _ _ _ _ _ _ _ RC F lenP P x (Lr slv pinv mode n (n + 1) b) (lv slv pinv mode shift n (n + 1) b x) EP
     (fun j Hj => Lr_spec _ _ _ _ _ _ _ _ _ _ _ RC ltac:(lia) HU ltac:(lia) x j Hj)) in V.
  injection V as V. destruct (Lr_spec _ _ _ _ _ _ _ _ _ _ _ RC ltac:(lia) HU ltac:(lia) x (S k) ltac:(lia)) as (E1 & E2).
  rewrite EL in E1. injection E1 as E1. rewrite <- E1 in E2. cbn [fst snd] in E2. rewrite E2. f_equal.
  assert (FZ : forall i, i <> S k -> F i = 0) by (intros i N; unfold F; destruct (Nat.eqb_spec i (S k)) as [X|_]; [contradiction|reflexivity]).
  rewrite (rsum_single _ (S k)) in V by (try lia; intros i Hi N; rewrite FZ by exact N; ring).
  unfold F in V at 1. rewrite Nat.eqb_refl, Rmult_1_l in V. rewrite V. unfold affine. cbn [F Nat.eqb].
  unfold dot. rewrite (rsum_single _ k).
  - unfold quotients, F, vsub. cbn [Nat.eqb]. rewrite Nat.eqb_refl. field. lra.
  - exact Hk.
  - intros i Hi N. unfold quotients, F. cbn [Nat.eqb]. destruct (Nat.eqb_spec i k); [contradiction|]. field. lra.
Qed.

Lemma f_poised_low solver lSolver tau e lam r : (mode <= 1)%nat -> honest n tau solver -> optimal n e solver ->
  poisedness slv pinv solver false lSolver mode shift n (n + 1) b Y = Some (lam, r) -> r = d /\ 1 - (e + tau) <= lam.
Proof.
  intros M HT OE PO. pose proof (f_regular slv pinv qr ill cure mode shift b ltac:(lia) ST SP BB BE) as RC. pose proof (Int_Proofs.full_gt n Hn) as FG.
  destruct (t_poisedness _ _ _ _ _ _ _ _ _ _ _ _ PO) as (R1 & R2 & R3 & R4).
  assert (RD : r = d).
  { pose proof (R1 1%nat ltac:(lia)) as A. rewrite low_norm in A by lia. destruct R2 as [->|(j & Hj & ->)]; [lra|].
    destruct j as [|k]; [lia|]. apply low_norm. lia. }
  assert (LB : 1 - (e + tau) <= lam).
  { destruct (t_poisedness_bound slv pinv solver qr ill cure lSolver mode shift n (n + 1) Y b tau e lam r RC ltac:(lia) HT OE PO 1%nat ltac:(lia)) as (len & L & EL & B).
    destruct (B (Y 1%nat)) as (v & EV & BV); [apply R1; lia|]. rewrite (lagrange_affine 0 len L _ M ltac:(lia) EL) in EV. injection EV as EV.
    unfold Y, lowered in EV. cbn [Nat.eqb] in EV. replace (- (x0 0%nat - d - x0 0%nat) / d) with 1 in EV by (field; lra).
    rewrite <- EV, Rabs_R1 in BV. lra. }
  split; [exact RD|]. exact LB.
Qed.

Lemma f_poisedness solver lSolver eps tau e lam r : (mode <= 1)%nat -> lSolver <> 2%nat -> 0 <= eps -> 0 <= tau -> within_radius n eps solver -> honest n tau solver -> optimal n e solver ->
  poisedness slv pinv solver false lSolver mode shift n (n + 1) b Y = Some (lam, r) -> 
  r = d /\ 1 - (e + tau) <= lam <= 1 + eps + tau.
Proof.
  intros M L2 EP0 TA0 WR HT OE PO. pose proof (f_regular slv pinv qr ill cure mode shift b ltac:(lia) ST SP BB BE) as RC. pose proof (Int_Proofs.full_gt n Hn) as FG.
  destruct (t_poisedness _ _ _ _ _ _ _ _ _ _ _ _ PO) as (R1 & R2 & R3 & R4).
  destruct (f_poised_low solver lSolver tau e lam r M HT OE PO) as (RD & LB).
  split; [exact RD|]. split; [exact LB|].
  destruct R4 as [->|(j & y & Hj & FN)]; [lra|].
  assert (r0 : 0 <= r) by lra. destruct j as [|k]; [lia|].
  pose proof (t_radius slv pinv solver qr ill cure lSolver mode shift n (n + 1) Y b (S k) r eps y lam RC Hj r0 WR FN) as N.
  destruct (Nat.eqb_spec lSolver 2) as [|_]; [contradiction|].
  destruct (t_improvement slv pinv solver qr ill cure lSolver mode shift n (n + 1) Y b (S k) r tau y lam RC ltac:(lia) Hj r0 HT FN) as (len & L & v & EL & EV & B).
  rewrite (lagrange_affine k len L _ M ltac:(lia) EL) in EV. injection EV as EV.
  pose proof (comp_le_norm n (vsub y (Y 0%nat)) k ltac:(lia)) as C. unfold vsub at 1 in C. change (Y 0%nat k) with (x0 k) in C.
  assert (AV : Rabs v <= 1 + eps).
  { rewrite <- EV. unfold Rdiv. rewrite Rabs_mult, Rabs_Ropp, Rabs_inv, (Rabs_pos_eq d) by lra.
    apply Rmult_le_reg_r with d; [exact Hd|]. rewrite Rmult_assoc, Rinv_l, Rmult_1_r by lra. rewrite RD in N. lra. }
  revert B. unfold Rabs at 1. destruct (Rcase_abs _); intros; lra.
Qed.

(** ** the shortest model *)
Definition short (F : nat -> R) : vec := fun i =>
  if (i =? 0)%nat then F 0%nat else if (i <=? n)%nat then - (4 / 5) * (F i - F 0%nat)
  else if (i <=? 2 * n)%nat then 2 / 5 * (F (i - n)%nat - F 0%nat) else 0.

Lemma full_split : exists m, full n = (1 + (n + (n + m)))%nat.
Proof. rewrite full_tri. exists (tri n). lia. Qed.

Lemma short_lin F k : (k < n)%nat -> short F (S k) = - (4 / 5) * (F (S k) - F 0%nat).
Proof. intros Hk. unfold short. cbn [Nat.eqb]. destruct (Nat.leb_spec (S k) n); [reflexivity|lia]. Qed.
Lemma short_sq F k : (k < n)%nat -> short F (S (n + k)) = 2 / 5 * (F (S k) - F 0%nat).
Proof.
  intros Hk. unfold short. destruct (Nat.eqb_spec (S (n + k)) 0); [lia|]. destruct (Nat.leb_spec (S (n + k)) n); [lia|].
  destruct (Nat.leb_spec (S (n + k)) (2 * n)); [|lia]. replace (S (n + k) - n)%nat with (S k) by lia. reflexivity.
Qed.
Lemma short_rest F i : (2 * n < i)%nat -> short F i = 0.
Proof.
  intros Hi. unfold short. destruct (Nat.eqb_spec i 0); [lia|]. destruct (Nat.leb_spec i n); [lia|]. destruct (Nat.leb_spec i (2 * n)); [lia|reflexivity].
Qed.

Lemma axis_value P t k : (k < n)%nat ->
  evalP n (full n) P (vscal t (unitv k)) = Some (P 0%nat + t * P (S k) + / 2 * (t * t * P (S (n + k)))).
Proof.
  intros Hk. pose proof (Int_Proofs.full_gt n Hn) as FG. destruct full_split as (m & FS). rewrite evalP_some by lia. f_equal.
  rewrite (evalZ_ext n (full n) _ (vadd vzero (vscal t (unitv k)))) by (intros i _; unfold vadd, vzero; ring).
  rewrite taylor_aux by lia. rewrite pdot_vzero_tail by lia. rewrite dot_scal_r, (dot_sym n (gradP _ _ _ _)), dot_unitv by exact Hk.
  rewrite gradP_vzero by lia. rewrite quad_scal, quad_unitv by exact Hk. cbn [Nat.add]. f_equal. f_equal. f_equal.
  unfold hessP. destruct (Nat.ltb_spec 0 (full n - n - 1)) as [_|]; [|lia].
  assert (D0 : (if (k =? k)%nat then (if (k <? Nat.min (full n - n - 1) n)%nat then P (n + 1 + k)%nat else 0) else 0) = P (S (n + k))).
  { rewrite Nat.eqb_refl. destruct (Nat.ltb_spec k (Nat.min (full n - n - 1) n)); [f_equal; lia|lia]. }
  destruct (0 <? full n - n - 1 - _)%nat; [|exact D0]. rewrite hessP_sub_keep by lia. exact D0.
Qed.

Hypothesis SH : shift = true.
Hypothesis M23 : (mode = 2 \/ mode = 3)%nat.

Lemma f_scale1 : b_scale b 1%nat = / d /\ b_base b = Y 0%nat.
Proof.
  destruct (build_facts _ _ _ _ _ _ _ _ _ BB BE) as (HD & _). destruct HD as (B & S & NZ) eqn:E. clear E. unfold base in B. unfold scl in S. rewrite (f_shifts shift b HD), SH in B, S.
  split; [|exact B]. rewrite S, low_scale. unfold scale_vec. cbn [Nat.eqb]. destruct (Nat.leb_spec 1 n); [reflexivity|lia].
Qed.

Lemma value_lowered P k : (k < n)%nat ->
  value shift n (full n) P b (Y (S k)) = Some (P 0%nat - P (S k) + / 2 * P (S (n + k))).
Proof.
  intros Hk. destruct f_scale1 as (S1 & B1). unfold value. rewrite SH. unfold evalP_shift.
  assert (E := axis_value P (-1) k Hk). unfold evalP in *.
  rewrite (evalZ_ext n (full n) _ (vscal (-1) (unitv k))).
  - rewrite E. f_equal. ring.
  - intros i _. rewrite S1, B1. change (Y (S k) i - Y 0%nat i) with (vsub (Y (S k)) (Y 0%nat) i). rewrite low_diff. unfold vscal. field. lra.
Qed.
Lemma value_first P : value shift n (full n) P b (Y 0%nat) = Some (P 0%nat).
Proof.
  destruct f_scale1 as (S1 & B1). pose proof (Int_Proofs.full_gt n Hn) as FG. unfold value. rewrite SH. unfold evalP_shift. rewrite evalP_some by lia.
  rewrite (evalZ_ext n (full n) _ vzero), pdot_vzero_tail by (try lia; intros i _; rewrite B1; unfold vzero; ring). reflexivity.
Qed.

Lemma short_dot F P : dot (full n) (short F) P =
  F 0%nat * P 0%nat + rsum n (fun k => 4 / 5 * (F (S k) - F 0%nat) * (- P (S k) + / 2 * P (S (n + k)))).
Proof.
  destruct full_split as (m & ->). unfold dot. cbn [Nat.add]. rewrite rsum_S_first, !rsum_split. change (short F 0%nat) with (F 0%nat).
  rewrite (rsum_zero m) by (intros i Hi; rewrite short_rest by lia; ring). rewrite Rplus_0_r. f_equal. rewrite <- rsum_plus. apply rsum_ext.
  intros k Hk. rewrite short_lin, short_sq by exact Hk. field.
Qed.

Definition interp (P : vec) (F : nat -> R) : Prop := P 0%nat = F 0%nat /\ forall k, (k < n)%nat -> - P (S k) + / 2 * P (S (n + k)) = F (S k) - F 0%nat.

Lemma short_dot_interp F P : interp P F -> dot (full n) (short F) P = dot (full n) (short F) (short F).
Proof.
  intros (I0 & I1). rewrite !short_dot. rewrite I0. f_equal. apply rsum_ext. intros k Hk. rewrite I1, short_lin, short_sq by exact Hk. field.
Qed.

Lemma interp_of P F : (forall j, (j < n + 1)%nat -> value shift n (full n) P b (Y j) = Some (F j)) -> interp P F.
Proof.
  intros H. pose proof (H 0%nat ltac:(lia)) as H0. rewrite value_first in H0. injection H0 as H0. split; [exact H0|].
  intros k Hk. pose proof (H (S k) ltac:(lia)) as H1. rewrite value_lowered in H1 by exact Hk. injection H1 as H1. lra.
Qed.
Lemma short_values F j : (j < n + 1)%nat -> value shift n (full n) (short F) b (Y j) = Some (F j).
Proof.
  intros Hj. destruct j as [|k]; [exact (value_first (short F))|]. rewrite value_lowered, short_lin, short_sq by lia. f_equal. change (short F 0%nat) with (F 0%nat). field.
Qed.

Lemma short_poly F y : pdot (short F) 0 (evalZ n (full n) y) =
  F 0%nat + rsum n (fun k => (F (S k) - F 0%nat) * (- (4 / 5) * y k + / 5 * (y k * y k))).
Proof.
  pose proof (Int_Proofs.full_gt n Hn) as FG. destruct full_split as (m & FS). unfold evalZ. destruct (Nat.eqb_spec (full n) 1); [lia|].
  destruct (Nat.leb_spec (full n) (n + 1)); [lia|]. cbn [pdot]. rewrite !pdot_app, !pdot_map, !map_length, !seq_length.
  replace (Nat.min n (full n - Nat.min (n + 1) (full n))) with n by lia.
  assert (Z : forall l, pdot (short F) (1 + n + n) l = 0) by (intros l; apply pdot_zero; intros i Hi; apply short_rest; lia).
  rewrite Z. change (short F 0%nat) with (F 0%nat). rewrite Rmult_1_r, Rplus_0_r. f_equal. rewrite <- rsum_plus. apply rsum_ext. intros k Hk.
  change (1 + k)%nat with (S k). change (1 + n + k)%nat with (S (n + k)). change (0 + k)%nat with k. rewrite short_lin, short_sq by exact Hk. field.
Qed.

Lemma f_short_model F : exists P, computeP slv pinv mode n (n + 1) (b_Q b) (b_R b) F = Some (full n, P) /\
  (forall x, value shift n (full n) P b x = Some (affine n x0 (F 0%nat) (vscal (4 / 5) (quotients F d)) x
     - / 5 * rsum n (fun k => quotients F d k * ((x k - x0 k) * (x k - x0 k)) / d))) /\
  forall k, (k < n)%nat -> grad_at_first shift n (full n) P b Y k = 4 / 5 * quotients F d k.
Proof.
  pose proof (f_regular slv pinv qr ill cure mode shift b ltac:(lia) ST SP BB BE) as RC. pose proof (Int_Proofs.full_gt n Hn) as FG.
  destruct (t_interpolates _ _ _ _ _ _ _ _ _ _ _ RC F ltac:(lia)) as (len & P & EP & IP).
  destruct (t_minnorm _ _ _ _ _ _ _ _ _ _ _ RC F len P (short F) M23 FG EP (short_values F)) as (-> & MN).
  exists P. split; [exact EP|]. apply interp_of in IP. pose proof (short_dot_interp F P IP) as SD.
  assert (PE : forall i, (i < full n)%nat -> P i = short F i).
  { assert (Z : dot (full n) (vsub P (short F)) (vsub P (short F)) = 0).
    { apply Rle_antisym; [|apply dot_self_nonneg]. rewrite dot_sub_r, !dot_sub_l. rewrite (dot_sym (full n) P (short F)). lra. }
    intros i Hi. pose proof (proj1 (dot_self_zero _ _) Z i Hi) as V. unfold vsub, vzero in V. lra. }
  assert (V : forall x, value shift n (full n) P b x = Some (affine n x0 (F 0%nat) (vscal (4 / 5) (quotients F d)) x
     - / 5 * rsum n (fun k => quotients F d k * ((x k - x0 k) * (x k - x0 k)) / d))).
  { intros x. destruct f_scale1 as (S1 & B1). unfold value. rewrite SH. unfold evalP_shift. rewrite evalP_some by lia. f_equal.
    rewrite (pdot_ext P (short F)) by (intros i Hi; rewrite evalZ_length in Hi by lia; apply PE; lia). rewrite short_poly.
    unfold affine. rewrite <- rsum_scal. unfold dot. unfold Rminus. rewrite Rplus_assoc. f_equal.
    replace (- rsum n (fun i => / 5 * (quotients F d i * ((x i + - x0 i) * (x i + - x0 i)) / d)))
      with (-1 * rsum n (fun i => / 5 * (quotients F d i * ((x i + - x0 i) * (x i + - x0 i)) / d))) by ring.
    rewrite <- rsum_scal, <- rsum_plus. apply rsum_ext. intros k Hk. rewrite S1, B1. unfold vscal, quotients, vsub, Y, lowered. field. lra. }
  split; [exact V|]. intros k Hk.
  destruct (a_expansion _ _ _ _ _ _ _ _ _ _ _ RC ltac:(lia) (full n) P ltac:(lia) ltac:(lia)) as (H & EX).
  apply (f_gradient _ _ _ H (F 0%nat) (vscal (4 / 5) (quotients F d)) (fun h => - (/ 5 * rsum n (fun k => quotients F d k * (h k * h k) / d))) EX).
  - intros h. f_equal. f_equal. apply rsum_ext. intros i _. unfold vscal. field. lra.
  - intros h. rewrite V. f_equal. unfold affine, Rminus. f_equal.
    + f_equal. apply dot_ext; [intros i _; reflexivity|]. intros i _. unfold vsub, vadd, Y, lowered. ring.
    + f_equal. f_equal. apply rsum_ext. intros i _. unfold vadd, Y, lowered. field. lra.
  - exact Hk.
Qed.
End M.
End F.

Lemma f_affine_exact n x0 d f0 g F : 0 < d -> (forall j, (j <= n)%nat -> F j = affine n x0 f0 g (lowered x0 d j)) ->
  forall x, affine n x0 (F 0%nat) (quotients F d) x = affine n x0 f0 g x.
Proof.
  intros Hd HF x. assert (Z : F 0%nat = f0).
  { rewrite HF by lia. unfold affine. replace (dot n g (vsub (lowered x0 d 0%nat) x0)) with 0; [ring|]. symmetry. rewrite <- (dot_zero_r n g). apply dot_ext; intros i _; [reflexivity|]. unfold vsub, vzero, lowered. ring. }
  unfold affine. rewrite Z. f_equal. apply dot_ext; intros k Hk; [|reflexivity]. unfold quotients. rewrite Z, HF by lia. unfold affine.
  change (vsub (lowered x0 d (S k)) x0) with (vsub (lowered x0 d (S k)) (lowered x0 d 0%nat)). rewrite low_dot by (try assumption; lia). field. lra.
Qed.

Lemma f_error n x0 d F g K k : 0 < d -> (k < n)%nat -> curved n (n + 1) (lowered x0 d) F g K -> Rabs (quotients F d k - g k) <= K * d.
Proof.
  intros Hd Hk CV. specialize (CV (S k) ltac:(lia)). rewrite low_norm, low_dot in CV by (try assumption; lia).
  unfold quotients. replace ((F 0%nat - F (S k)) / d - g k) with (- (F (S k) - (F 0%nat + - d * g k)) * / d) by (field; lra).
  rewrite Rabs_mult, Rabs_Ropp, Rabs_inv, (Rabs_pos_eq d) by lra. apply Rmult_le_reg_r with d; [exact Hd|].
  rewrite Rmult_assoc, Rinv_l, Rmult_1_r by lra. lra.
Qed.

Lemma f_first_test P (E : env P) s a s' f n x0 d slv pinv solver qr ill cure lSolver mode shift b tau e :
  (1 <= n)%nat -> 0 < d -> (mode <= 1)%nat -> tri_exact slv -> pinv_exact pinv ->
  build qr ill cure mode shift n (n + 1) (lowered x0 d) = Some b -> exactly_built qr ill mode shift n (n + 1) (lowered x0 d) ->
  honest n tau solver -> optimal n e solver ->
  poisedness slv pinv solver false lSolver mode shift n (n + 1) b (lowered x0 d) = Some (Q2R (a_poised a), Q2R (a_yrad a)) ->
  / 1000 < (1 - (e + tau)) * d -> pass E s a = Return 0 s' f -> niter (sN s') <> (niter (sN s) + 1)%nat.
Proof.
  intros Hn Hd M ST SP BB BE HT OE PO BIG PS NI. destruct (first_exit _ _ _ _ _ _ PS NI) as (_ & G2).
  apply Qle_Rle in G2. rewrite Q2R_mult in G2. replace (Q2R (1 # 1000)) with (/ 1000) in G2 by (unfold Q2R; cbn; lra).
  destruct (f_poised_low n x0 d Hn Hd slv pinv qr ill cure mode shift b ST SP BB BE solver lSolver tau e _ _ M HT OE PO) as (RD & LB).
  rewrite RD in G2. nra.
Qed.

Lemma f_points x d j i : (j <= length x)%nat -> (i < length x)%nat ->
  Q2R (nth i (nth j (Pre_Model.simplex x d) []) 0%Q) = lowered (fun t => Q2R (nth t x 0%Q)) (Q2R d) j i.
Proof.
  intros Hj Hi. unfold Pre_Model.simplex. destruct j as [|k]; [reflexivity|]. cbn [nth].
  rewrite (nth_indep _ [] (Pre_Model.step_down x d 0)) by (rewrite map_length, seq_length; lia).
  rewrite map_nth, seq_nth by lia. cbn [Nat.add]. unfold Pre_Model.step_down, lowered. destruct (Nat.eqb_spec i k) as [->|N].
  - rewrite (nth_error_nth _ _ _ (nth_error_upd_eq x k (nth k x 0 - d)%Q Hi)), Q2R_minus. reflexivity.
  - f_equal. apply nth_error_nth. rewrite nth_error_upd_neq by (intros X; apply N; symmetry; exact X). apply nth_error_nth'. exact Hi.
Qed.
