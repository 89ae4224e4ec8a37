(** Proofs about the first multipliers. *)
From Coq Require Import Reals Arith List Bool Lra Lia.
From Verif Require Import RVec RBool ProjGrad_Spec BL_Spec Hess_Model Mult_Model Mult_Spec Mult_Proofs Ini_Model.
Import ListNotations.
Open Scope R_scope.

Lemma any_near_ok n x lb ub : any_near n x lb ub = true <->
  exists j, (j < n)%nat /\ (close (1 / 10 ^ 5) (x j) (lb j) \/ close (1 / 10 ^ 5) (x j) (ub j)).
Proof.
  unfold any_near. rewrite existsb_exists. split.
  - intros (j & Hj & E). apply in_seq in Hj. exists j. split; [lia|]. rewrite <- !near_close. apply orb_true_iff, E.
  - intros (j & Hj & E). exists j. split; [apply in_seq; lia|]. apply orb_true_iff. rewrite !near_close. exact E.
Qed.

Lemma norm_le_pad n m v w : (forall j, (j < n)%nat -> v j = w j) -> norm n v <= norm (n + m) w.
Proof.
  intros E. unfold norm. apply sqrt_le_1; try apply dot_self_nonneg. unfold dot. rewrite rsum_split.
  rewrite (rsum_ext n (fun i => v i * v i) (fun i => w i * w i)) by (intros i Hi; rewrite E by exact Hi; reflexivity).
  assert (0 <= rsum m (fun i => w (n + i)%nat * w (n + i)%nat)); [|lra].
  apply rsum_nonneg. intros i Hi. apply Rle_0_sqr.
Qed.

Lemma feas_meaning nsl me sl ce : (nsl <= me)%nat ->
  (forall k, (k < me - nsl)%nat -> opt_feas nsl me sl ce k = ce k) /\
  (forall t, (t < nsl)%nat -> opt_feas nsl me sl ce (me - nsl + t)%nat = ce (me - nsl + t)%nat - sl t * sl t).
Proof.
  intros Hs. unfold opt_feas. split.
  - intros k Hk. destruct (Nat.ltb_spec k (me - nsl)); [reflexivity|lia].
  - intros t Ht. destruct (Nat.ltb_spec (me - nsl + t) (me - nsl)); [lia|].
    replace (me - nsl + t - (me - nsl))%nat with t by lia. reflexivity.
Qed.

Section F.
Variables (empty_ok : bool) (n nsl me counted : nat) (x : vec) (lb ub : nat -> xR) (oinf : xR) (dxmin : R).
Variables (g ce : vec) (ae : mat) (sl : vec) (evneg : bool) (ev : vec) (evec : mat) (solver : lsq_solver).
Hypothesis Hs : (nsl <= me)%nat.

Lemma first_form glag feas compl lm : (1 <= counted + me)%nat ->
  first_measures empty_ok n nsl me counted x lb ub oinf dxmin g ce ae sl evneg ev evec solver = Some (glag, feas, compl, lm) ->
  compute_multiplier n nsl me x (fun _ => xneg oinf) (fun _ => oinf) oinf dxmin g ae sl evneg ev evec solver = Some lm /\
  glag = opt_glag n nsl me x lb ub g ae sl lm /\ feas = opt_feas nsl me sl ce.
Proof.
  intros C. unfold first_measures. destruct (Nat.eqb_spec (counted + me) 0); [lia|].
  destruct (compute_multiplier _ _ _ _ _ _ _ _ _ _ _ _ _ _ _) as [l|]; [|discriminate].
  intros H. injection H as <- <- <- <-. repeat split.
Qed.

Lemma first_ok glag feas compl lm : answers_solve solver -> negative_sound (n + nsl + me) (gram (n + nsl) (stacked n nsl me ae sl)) evneg ->
  (1 <= counted + me)%nat ->
  first_measures empty_ok n nsl me counted x lb ub oinf dxmin g ce ae sl evneg ev evec solver = Some (glag, feas, compl, lm) ->
  (forall i, (i < n)%nat -> lm i = 0) /\
  (forall j, (j < n)%nat -> glag j = lagr me g vzero (fun k => lm (n + k)%nat) ae j) /\
  (forall lam, lagr_norm n nsl me g vzero (fun k => lm (n + k)%nat) ae sl <= lagr_norm n nsl me g vzero lam ae sl) /\
  (forall k, (k < me - nsl)%nat -> dot n (ae k) glag = 0) /\
  (forall t, (t < nsl)%nat -> dot n (ae (me - nsl + t)%nat) glag = - 4 * (sl t * sl t) * lm (n + (me - nsl + t))%nat) /\
  norm n glag <= norm n g.
Proof.
  intros AS NS C H. destruct (first_form _ _ _ _ C H) as (HL & -> & ->).
  destruct (mult_free n nsl me x (fun _ => xneg oinf) (fun _ => oinf) oinf dxmin g ae sl evneg ev evec solver NS Hs lm AS) as [Z HM]; [|exact HL|].
  { intros i Hi. rewrite xneg_opp. split; destruct oinf; cbn; auto with real. }
  set (J := slack_jac n nsl me ae sl) in *. set (lam := fun k => lm (n + k)%nat) in *.
  assert (GL : forall j, (j < n)%nat -> opt_glag n nsl me x lb ub g ae sl lm j = lagr me g vzero lam ae j).
  { intros j Hj. unfold opt_glag, lagr. rewrite (Z j Hj). unfold vzero. destruct (_ || _); f_equal; apply rsum_ext; intros k Hk; unfold jac;
      (destruct (Nat.ltb_spec j n); [reflexivity|lia]). }
  assert (EL : forall l j, (j < n + nsl)%nat -> lagr me (pad n g) (pad n vzero) l J j = vadd (pad n g) (fun j => rsum me (fun k => J k j * l k)) j).
  { intros l j Hj. unfold lagr, vadd. unfold pad at 2, vzero. destruct (Nat.ltb j n); lra. }
  assert (EG : forall j, (j < n)%nat -> lagr me (pad n g) (pad n vzero) lam J j = opt_glag n nsl me x lb ub g ae sl lm j).
  { intros j Hj. rewrite GL by exact Hj. unfold lagr, pad, vzero. destruct (Nat.ltb_spec j n); [|lia]. f_equal.
    apply rsum_ext. intros k Hk. unfold J, slack_jac. destruct (Nat.ltb_spec j n); [reflexivity|lia]. }
  assert (NM : forall k, (k < me)%nat -> mv (n + nsl) J (lagr me (pad n g) (pad n vzero) lam J) k = 0).
  { intros k Hk.
    assert (HM' : forall t, norm (n + nsl) (vadd (pad n g) (fun j => rsum me (fun k => J k j * lam k)))
       <= norm (n + nsl) (vadd (pad n g) (fun j => rsum me (fun k => J k j * t k)))).
    { intros l. rewrite <- (norm_ext _ _ _ (EL l)), <- (norm_ext _ _ _ (EL lam)). apply HM. }
    pose proof (normal_of_min me (n + nsl) J (pad n g) lam HM' k Hk) as NM. rewrite <- NM. unfold mv. apply rsum_ext.
    intros j Hj. f_equal. apply EL, Hj. }
  assert (SP : forall k, (k < me)%nat -> dot n (ae k) (opt_glag n nsl me x lb ub g ae sl lm) =
     - rsum nsl (fun t => J k (n + t)%nat * lagr me (pad n g) (pad n vzero) lam J (n + t)%nat)).
  { intros k Hk. specialize (NM k Hk). unfold mv in NM. rewrite rsum_split in NM.
    rewrite (rsum_ext n _ (fun j => ae k j * opt_glag n nsl me x lb ub g ae sl lm j)) in NM.
    - unfold dot. lra.
    - intros j Hj. rewrite EG by exact Hj. unfold J, slack_jac. destruct (Nat.ltb_spec j n); [reflexivity|lia]. }
  assert (JS : forall k t, (t < nsl)%nat -> J k (n + t)%nat = if Nat.eqb k (me - nsl + t) then -2 * sl t else 0).
  { intros k t Ht. unfold J, slack_jac. destruct (Nat.ltb_spec (n + t) n); [lia|]. replace (n + t - n)%nat with t by lia. reflexivity. }
  assert (LS : forall t, (t < nsl)%nat -> lagr me (pad n g) (pad n vzero) lam J (n + t)%nat = -2 * sl t * lam (me - nsl + t)%nat).
  { intros t Ht. unfold lagr, pad. destruct (Nat.ltb_spec (n + t) n); [lia|]. rewrite (rsum_single me (me - nsl + t)).
    - rewrite JS, Nat.eqb_refl by exact Ht. lra.
    - lia.
    - intros k Hk N. rewrite JS by exact Ht. destruct (Nat.eqb_spec k (me - nsl + t)); [contradiction|lra]. }
  split; [exact Z|]. split; [exact GL|]. split; [exact HM|]. split; [|split].
  - intros k Hk. rewrite SP by lia. rewrite rsum_zero; [lra|]. intros t Ht. rewrite JS by exact Ht.
    destruct (Nat.eqb_spec k (me - nsl + t)); [lia|lra].
  - intros t Ht. rewrite SP by lia. rewrite (rsum_single nsl t).
    + rewrite JS, LS, Nat.eqb_refl by exact Ht. unfold lam. lra.
    + exact Ht.
    + intros u Hu N. rewrite JS by exact Hu. destruct (Nat.eqb_spec (me - nsl + t) (me - nsl + u)); [lia|lra].
  - apply Rle_trans with (lagr_norm n nsl me g vzero lam ae sl).
    + unfold lagr_norm. apply norm_le_pad. intros j Hj. symmetry. apply EG, Hj.
    + apply Rle_trans with (lagr_norm n nsl me g vzero vzero ae sl); [apply HM|]. unfold lagr_norm.
      apply Req_le. transitivity (norm (n + nsl) (pad n g)).
      * apply norm_ext. intros j Hj. unfold lagr. rewrite rsum_zero by (intros k Hk; unfold vzero; lra).
        unfold pad, vzero. destruct (Nat.ltb j n); lra.
      * unfold norm, dot. f_equal. rewrite rsum_split. rewrite (rsum_zero nsl).
        -- rewrite Rplus_0_r. apply rsum_ext. intros j Hj. unfold pad. destruct (Nat.ltb_spec j n); [reflexivity|lia].
        -- intros t Ht. unfold pad. destruct (Nat.ltb_spec (n + t) n); [lia|lra].
Qed.

Lemma first_none : counted = 0%nat -> me = 0%nat ->
  ((exists j, (j < n)%nat /\ (close (1 / 10 ^ 5) (x j) (lb j) \/ close (1 / 10 ^ 5) (x j) (ub j))) ->
   first_measures empty_ok n nsl me counted x lb ub oinf dxmin g ce ae sl evneg ev evec solver = None) /\
  (forall glag feas compl lm, first_measures empty_ok n nsl me counted x lb ub oinf dxmin g ce ae sl evneg ev evec solver = Some (glag, feas, compl, lm) ->
   forall j, (j < n)%nat -> glag j = g j).
Proof.
  intros -> M. unfold first_measures. rewrite M. cbn [Nat.add Nat.eqb]. rewrite <- any_near_ok. destruct (any_near n x lb ub) eqn:E.
  - split; [reflexivity|]. discriminate.
  - split; [discriminate|]. destruct empty_ok; [|discriminate]. cbn [orb negb]. intros glag feas compl lm H j Hj. injection H as <- <- <- <-.
    unfold opt_glag. cbn [rsum]. unfold vzero. destruct (_ || _); lra.
Qed.

Lemma first_feas glag feas compl lm :
  first_measures empty_ok n nsl me counted x lb ub oinf dxmin g ce ae sl evneg ev evec solver = Some (glag, feas, compl, lm) ->
  (forall i, compl i = 0) /\ (forall k, (k < me - nsl)%nat -> feas k = ce k) /\
  (forall t, (t < nsl)%nat -> feas (me - nsl + t)%nat = ce (me - nsl + t)%nat - sl t * sl t).
Proof.
  unfold first_measures. intros H.
  assert (E : compl = opt_compl /\ feas = opt_feas nsl me sl ce).
  { destruct (_ =? _)%nat; [destruct (any_near _ _ _ _ || _); [discriminate|]|destruct (compute_multiplier _ _ _ _ _ _ _ _ _ _ _ _ _ _ _); [|discriminate]];
      injection H as <- <- <- <-; split; reflexivity. }
  destruct E as [-> ->]. split; [reflexivity|]. apply feas_meaning, Hs.
Qed.
End F.
