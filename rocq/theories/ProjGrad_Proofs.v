From Coq Require Import Reals Lra Lia Arith Psatz.
From Verif Require Import RVec RBool ProjGrad_Model ProjGrad_Spec.
Open Scope R_scope.

Ltac mm := unfold Rmin, Rmax, Rabs in *;
  repeat match goal with
  | |- context [Rle_dec ?a ?b] => destruct (Rle_dec a b)
  | |- context [Rcase_abs ?a] => destruct (Rcase_abs a)
  | H : context [Rle_dec ?a ?b] |- _ => destruct (Rle_dec a b)
  | H : context [Rcase_abs ?a] |- _ => destruct (Rcase_abs a)
  end; try lra.

Lemma projgrad1_proj x g bl bu : xle_r bl x -> rle_x x bu ->
  projgrad1 x g bl bu = x - proj bl bu (x - g).
Proof.
  intros H1 H2. unfold projgrad1, min_dist, proj.
  destruct (Rltb_spec g 0); destruct bl; destruct bu; cbn in *; try tauto; mm.
Qed.

Lemma norm_nonneg' k gn : 0 <= projgrad_norm k gn.
Proof. induction k as [|k IH]; cbn; [lra|]. mm. Qed.

Lemma norm_ge k gn i : (i < k)%nat -> Rabs (gn i) <= projgrad_norm k gn.
Proof.
  induction k as [|k IH]; intros Hi; [lia|]. cbn.
  destruct (Nat.eq_dec i k) as [->|Hne]; [apply Rmax_r|].
  eapply Rle_trans; [apply IH; lia|apply Rmax_l].
Qed.

Lemma norm_attained k gn : (0 < k)%nat -> exists i, (i < k)%nat /\ projgrad_norm k gn = Rabs (gn i).
Proof.
  induction k as [|k IH]; intros Hk; [lia|]. cbn.
  destruct (Nat.eq_dec k 0) as [->|Hne].
  - exists 0%nat. split; [lia|]. cbn. mm.
  - destruct (IH ltac:(lia)) as [i [Hi E]].
    destruct (Rle_dec (projgrad_norm k gn) (Rabs (gn k))).
    + exists k. split; [lia|]. apply Rmax_right. assumption.
    + exists i. split; [lia|]. rewrite <- E. apply Rmax_left. lra.
Qed.

Lemma norm_zero_iff k gn : projgrad_norm k gn = 0 <-> forall i, (i < k)%nat -> gn i = 0.
Proof.
  split.
  - intros H i Hi. pose proof (norm_ge k gn i Hi). pose proof (Rabs_pos (gn i)).
    destruct (Req_dec (gn i) 0) as [E|E]; [exact E|]. apply Rabs_pos_lt in E. lra.
  - intros H. destruct (Nat.eq_dec k 0) as [->|Hne]; [reflexivity|].
    destruct (norm_attained k gn ltac:(lia)) as [i [Hi E]]. rewrite E, H by exact Hi. apply Rabs_R0.
Qed.

Lemma projgrad1_zero_iff x g bl bu : xle_r bl x -> rle_x x bu ->
  (projgrad1 x g bl bu = 0 <-> forall t, xle_r bl t -> rle_x t bu -> 0 <= g * (t - x)).
Proof.
  intros H1 H2. split.
  - intros H t Ht1 Ht2. unfold projgrad1, min_dist in H.
    destruct (Rltb_spec g 0).
    + destruct bu as [u| |]; cbn in *; try tauto; try lra.
      assert (u = x) by (mm). subst. nra.
    + destruct bl as [l| |]; cbn in *; try tauto.
      * assert (g = 0 \/ l = x) as [->| ->] by (destruct (Req_dec g 0); [left; assumption|right; mm]); nra.
      * subst. lra.
  - intros H. rewrite projgrad1_proj by assumption.
    set (p := proj bl bu (x - g)).
    assert (Hp : xle_r bl p /\ rle_x p bu).
    { unfold p, proj. destruct bl; destruct bu; cbn in *; try tauto; split; try tauto; mm. }
    specialize (H p (proj1 Hp) (proj2 Hp)).
    destruct (Rtotal_order g 0) as [L|[E|L]].
    + assert (x <= p) by (unfold p, proj; destruct bl; destruct bu; cbn in *; try tauto; mm).
      assert (g * (p - x) <= 0) by nra. assert (g * (p - x) = 0) by lra.
      apply Rmult_integral in H4. destruct H4; lra.
    + assert (p = x) by (unfold p, proj; destruct bl; destruct bu; cbn in *; try tauto; mm). lra.
    + assert (p <= x) by (unfold p, proj; destruct bl; destruct bu; cbn in *; try tauto; mm).
      assert (g * (p - x) <= 0) by nra. assert (g * (p - x) = 0) by lra.
      apply Rmult_integral in H4. destruct H4; lra.
Qed.

Lemma projgrad_is_projection n nb x g bl bu : (n <= nb)%nat -> in_bounds n bl bu x ->
  forall i, (i < n)%nat -> snd (projgrad n nb x g bl bu) i = x i - proj (bl i) (bu i) (x i - g i).
Proof. intros _ HB i Hi. cbn. destruct (HB i Hi). apply projgrad1_proj; assumption. Qed.

Lemma projgrad_max n nb x g bl bu : (n <= nb)%nat -> (0 < n)%nat ->
  (forall i, (i < n)%nat -> Rabs (snd (projgrad n nb x g bl bu) i) <= fst (projgrad n nb x g bl bu)) /\
  exists i, (i < n)%nat /\ fst (projgrad n nb x g bl bu) = Rabs (snd (projgrad n nb x g bl bu) i).
Proof.
  intros Hn H0. unfold projgrad. cbn [fst snd]. replace (Nat.min n nb) with n by lia. split.
  - intros i Hi. exact (norm_ge n _ i Hi).
  - exact (norm_attained n _ H0).
Qed.

Lemma projgrad_zero_iff n nb x g bl bu : (n <= nb)%nat -> in_bounds n bl bu x ->
  (fst (projgrad n nb x g bl bu) = 0 <-> first_order n bl bu x g).
Proof.
  intros Hn HB. unfold projgrad. cbn [fst]. replace (Nat.min n nb) with n by lia.
  rewrite norm_zero_iff. unfold first_order. split; intros H i Hi; destruct (HB i Hi) as [B1 B2].
  - apply projgrad1_zero_iff; auto.
  - apply projgrad1_zero_iff; auto.
Qed.

(** Outside the bounds: x = -1, g = 1, bounds [0, inf): the value is 1, the
    projected step is -1; and with x = 2 > u = 1, g = 1, l = 2 the value 0
    does not certify the first-order condition. *)
Lemma projgrad_outside_refuted :
  exists x g bl bu, ~ in_bounds 1 bl bu x /\
    snd (projgrad 1 1 x g bl bu) 0%nat <> x 0%nat - proj (bl 0%nat) (bu 0%nat) (x 0%nat - g 0%nat).
Proof.
  exists (fun _ => -1), (fun _ => 1), (fun _ => Fin 0), (fun _ => PInf). split.
  - intros H. destruct (H 0%nat ltac:(lia)) as [H1 _]. cbn in H1. lra.
  - cbn. unfold projgrad1, min_dist, proj. destruct (Rltb_spec 1 0); mm.
Qed.
