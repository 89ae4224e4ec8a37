From Coq Require Import Reals Lra Lia Arith List Bool ZArith Psatz.
From Verif Require Import RVec RBool ProjGrad_Spec ProjGrad_Model ProjGrad_Proofs BL_Model BL_Spec.
Import ListNotations.
Open Scope R_scope.

(** ** Generic facts *)

Lemma mem_In l i : mem l i = true <-> In i l.
Proof.
  unfold mem. rewrite existsb_exists. split.
  - intros [x [Hx E]]. apply Nat.eqb_eq in E. subst. exact Hx.
  - intros H. exists i. split; [exact H|apply Nat.eqb_refl].
Qed.

Lemma in_others n l u i : In i (others n l u) <-> (i < n)%nat /\ mem l i = false /\ mem u i = false.
Proof.
  unfold others. rewrite filter_In, in_seq, andb_true_iff, !negb_true_iff. intuition lia.
Qed.

Lemma clip_in l u t : (exists q, xle_r l q /\ rle_x q u) -> xle_r l (clip l u t) /\ rle_x (clip l u t) u.
Proof.
  intros [q [H1 H2]]. unfold clip. destruct l, u; cbn in *; try tauto; split; try tauto; mm.
Qed.

Lemma clip_proj l u t : (exists q, xle_r l q /\ rle_x q u) -> clip l u t = proj l u t.
Proof.
  intros [q [H1 H2]]. unfold clip, proj. destruct l, u; cbn in *; try tauto; mm.
Qed.

Lemma clip_id l u t : xle_r l t -> rle_x t u -> clip l u t = t.
Proof. intros H1 H2. unfold clip. destruct l, u; cbn in *; try tauto; mm. Qed.

(** the projection inequality *)
Lemma clip_vi l u t q : xle_r l q -> rle_x q u -> 0 <= (clip l u t - t) * (q - clip l u t).
Proof. intros H1 H2. unfold clip. destruct l, u; cbn in *; try tauto; try (subst; lra); mm; nra. Qed.

Lemma dot_tmv m n A x y : dot n (tmv m A y) x = dot m y (mv n A x).
Proof.
  unfold dot, tmv, mv.
  rewrite (rsum_ext n _ (fun j => rsum m (fun i => A i j * y i * x j))) by (intros; rewrite <- rsum_scal_r; reflexivity).
  rewrite rsum_swap. apply rsum_ext. intros i Hi. rewrite <- rsum_scal. apply rsum_ext. intros. ring.
Qed.

Lemma tmv_ext m A r r' j : veq m r r' -> tmv m A r j = tmv m A r' j.
Proof. intros H. apply rsum_ext. intros i Hi. rewrite (H i Hi). reflexivity. Qed.

Lemma norm_le_sq k x y : norm k x <= norm k y <-> dot k x x <= dot k y y.
Proof.
  unfold norm. split; intros H.
  - apply sqrt_le_0; [apply dot_self_nonneg|apply dot_self_nonneg|exact H].
  - apply sqrt_le_1_alt. exact H.
Qed.

Section P.
Variables (m n : nat) (A : mat) (b : vec) (lb ub : nat -> xR).
Variable pin : list nat -> vec -> option vec.

Let res_of (s : vec) : vec := resid n A b s.

(** ** Convexity *)

Lemma misfit_expand s t :
  dot m (vsub (mv n A t) b) (vsub (mv n A t) b) =
  dot m (vsub (mv n A s) b) (vsub (mv n A s) b)
  + 2 * dot n (misfit_grad m n A b s) (vsub t s)
  + dot m (mv n A (vsub t s)) (mv n A (vsub t s)).
Proof.
  change (misfit_grad m n A b s) with (tmv m A (vsub (mv n A s) b)).
  rewrite dot_tmv.
  set (r := vsub (mv n A s) b). set (d := mv n A (vsub t s)).
  assert (E : veq m (vsub (mv n A t) b) (vadd r d)).
  { intros i Hi. unfold vsub, vadd, r, d. rewrite mv_sub. unfold vsub. lra. }
  rewrite (dot_ext _ _ _ _ _ E E). rewrite dot_add_l, !dot_add_r, (dot_sym m d r). lra.
Qed.

Lemma first_order_solves s : in_bounds n lb ub s ->
  (forall i, (i < n)%nat -> proj (lb i) (ub i) (s i - misfit_grad m n A b s i) = s i) ->
  solves m n A b lb ub s.
Proof.
  intros Hb H. split; [exact Hb|]. intros t Ht. unfold misfit. apply norm_le_sq.
  rewrite (misfit_expand s t).
  pose proof (dot_self_nonneg m (mv n A (vsub t s))).
  assert (0 <= dot n (misfit_grad m n A b s) (vsub t s)); [|lra].
  apply rsum_nonneg. intros i Hi. unfold vsub.
  destruct (Hb i Hi) as [B1 B2]. destruct (Ht i Hi) as [B3 B4].
  specialize (H i Hi). rewrite <- clip_proj in H by (exists (s i); auto).
  pose proof (clip_vi (lb i) (ub i) (s i - misfit_grad m n A b s i) (t i) B3 B4) as V.
  rewrite H in V. nra.
Qed.

Lemma near_solves s t : in_bounds n lb ub s -> in_bounds n lb ub t ->
  misfit m n A b s * misfit m n A b s <=
  misfit m n A b t * misfit m n A b t
  + 2 * stationarity m n A b lb ub s * (norm n (misfit_grad m n A b s) + norm n (vsub t s)).
Proof.
  intros Hb Ht. unfold misfit. rewrite !norm_sq, (misfit_expand s t).
  pose proof (dot_self_nonneg m (mv n A (vsub t s))) as Hq.
  unfold stationarity.
  set (g := misfit_grad m n A b s).
  set (d := vsub (fun j => proj (lb j) (ub j) (s j - g j)) s).
  assert (V : 0 <= dot n (vadd d g) (vsub (vsub t s) d)).
  { apply rsum_nonneg. intros i Hi. unfold vadd, vsub, d, vsub.
    destruct (Hb i Hi) as [B1 B2]. destruct (Ht i Hi) as [B3 B4].
    rewrite <- clip_proj by (exists (s i); auto).
    pose proof (clip_vi (lb i) (ub i) (s i - g i) (t i) B3 B4) as V. nra. }
  rewrite dot_add_l, !dot_sub_r in V.
  pose proof (cauchy_schwarz n g d) as C1. pose proof (cauchy_schwarz n d (vsub t s)) as C2.
  rewrite dot_sub_r in C2.
  assert (L1 : - (norm n g * norm n d) <= dot n g d).
  { pose proof (Rle_abs (- dot n g d)). rewrite Rabs_Ropp in H. lra. }
  pose proof (Rle_abs (dot n d t - dot n d s)) as L2.
  pose proof (dot_self_nonneg n d). rewrite (dot_sub_r n g). lra.
Qed.

Lemma stationarity_zero s : in_bounds n lb ub s ->
  (stationarity m n A b lb ub s = 0 <-> solves m n A b lb ub s).
Proof.
  intros Hb. split.
  - intros H. apply first_order_solves; [exact Hb|].
    apply (proj1 (norm_zero _ _)) in H. intros i Hi. specialize (H i Hi). unfold vsub, vzero in H. lra.
  - intros [_ H].
    (* move along the projected direction *)
    set (g := misfit_grad m n A b s).
    set (d := vsub (fun j => proj (lb j) (ub j) (s j - g j)) s).
    unfold stationarity. fold g. fold d.
    destruct (Req_dec (dot n d d) 0) as [E|E].
    { apply norm_zero. apply dot_self_zero. exact E. }
    exfalso. assert (Hd : 0 < dot n d d) by (pose proof (dot_self_nonneg n d); lra).
    assert (Hg : dot n g d <= - dot n d d).
    { assert (0 <= dot n (vneg (vadd d g)) d).
      { apply rsum_nonneg. intros i Hi. unfold vneg, vadd, d, vsub.
        destruct (Hb i Hi) as [B1 B2]. rewrite <- clip_proj by (exists (s i); auto).
        pose proof (clip_vi (lb i) (ub i) (s i - g i) (s i) B1 B2). nra. }
      rewrite dot_neg_l, dot_add_l in H0. lra. }
    set (q := dot m (mv n A d) (mv n A d)).
    assert (Hq : 0 <= q) by apply dot_self_nonneg.
    set (al := dot n d d / (dot n d d + q)).
    assert (Ha : 0 < al <= 1).
    { unfold al. split; [apply Rdiv_lt_0_compat; lra|]. apply (Rmult_le_reg_r (dot n d d + q)); [lra|].
      unfold Rdiv. rewrite Rmult_assoc, Rinv_l by lra. lra. }
    specialize (H (vadd s (vscal al d))).
    assert (In' : in_bounds n lb ub (vadd s (vscal al d))).
    { intros i Hi. destruct (Hb i Hi) as [B1 B2]. unfold vadd, vscal, d, vsub.
      destruct (clip_in (lb i) (ub i) (s i - g i)) as [C1 C2]; [exists (s i); auto|].
      rewrite <- clip_proj by (exists (s i); auto).
      revert B1 B2 C1 C2. set (c := clip (lb i) (ub i) (s i - g i)). intros.
      destruct (lb i); destruct (ub i); cbn in *; try tauto; split; try tauto; nra. }
    specialize (H In'). unfold misfit in H. apply norm_le_sq in H.
    rewrite (misfit_expand s (vadd s (vscal al d))) in H. fold g in H.
    assert (E1 : veq n (vsub (vadd s (vscal al d)) s) (vscal al d)).
    { intros i Hi. unfold vsub, vadd, vscal. lra. }
    rewrite (dot_ext n g g (vsub (vadd s (vscal al d)) s) _ (fun i _ => eq_refl) E1) in H.
    assert (E2 : veq m (mv n A (vsub (vadd s (vscal al d)) s)) (vscal al (mv n A d))).
    { intros i Hi. rewrite (mv_ext _ _ _ _ _ E1), mv_scal. reflexivity. }
    rewrite (dot_ext m _ _ _ _ E2 E2), dot_scal_r, dot_scal_l, dot_scal_r in H. fold q in H.
    assert (Eq : al * (dot n d d + q) = dot n d d) by (unfold al; field; lra).
    assert (al * (al * q) <= al * dot n d d) by (apply Rmult_le_compat_l; [lra|]; nra).
    assert (2 * (al * dot n g d) <= - 2 * (al * dot n d d)) by nra.
    assert (0 < al * dot n d d) by nra. lra.
Qed.

(** ** The bounds *)

Hypothesis HP : proper_bounds n lb ub.

Lemma clipv_in v : in_bounds n lb ub (clipv lb ub v).
Proof. intros i Hi. apply clip_in. apply HP. exact Hi. Qed.

Lemma cauchy_in tries s g al stry : cauchy m n A lb ub tries s g al = Some stry -> in_bounds n lb ub stry.
Proof.
  revert al. induction tries as [|k IH]; intros al H; cbn in H; [discriminate|].
  destruct (Rleb _ _); [injection H as <-; apply clipv_in|eapply IH; exact H].
Qed.

Definition finl (l : list nat) : Prop := forall i, In i l -> exists a, lb i = Fin a.
Definition finu (l : list nat) : Prop := forall i, In i l -> exists a, ub i = Fin a.

Lemma not_xler_fin l t : xler l t = false -> l <> PInf -> exists a, l = Fin a /\ t < a.
Proof. destruct l; cbn; intros H1 H2; [|congruence|discriminate]. rb. eauto. Qed.

Lemma not_rlex_fin u t : rlex t u = false -> u <> NInf -> exists a, u = Fin a /\ a < t.
Proof. destruct u; cbn; intros H1 H2; [|discriminate|congruence]. rb. eauto. Qed.

Lemma lb_np i : (i < n)%nat -> lb i <> PInf.
Proof. intros Hi E. destruct (HP i Hi) as [t [H _]]. rewrite E in H. exact H. Qed.
Lemma ub_nn i : (i < n)%nat -> ub i <> NInf.
Proof. intros Hi E. destruct (HP i Hi) as [t [_ H]]. rewrite E in H. exact H. Qed.

Lemma finl_app l l' : finl l -> finl l' -> finl (l ++ l').
Proof. intros H1 H2 i Hi. apply in_app_or in Hi. destruct Hi; auto. Qed.
Lemma finu_app l l' : finu l -> finu l' -> finu (l ++ l').
Proof. intros H1 H2 i Hi. apply in_app_or in Hi. destruct Hi; auto. Qed.

(** what the backtracking loop guarantees *)
Definition bk_ok (bk : bkt) : Prop :=
  finl (bk_lt bk) /\ finu (bk_ut bk) /\
  forall st r rn, bk_found bk = Some (st, r, rn) ->
    in_bounds n lb ub st /\ r = resid n A b st /\ rn = norm m r.

Lemma backtrack_ok tries s ssub free resn rred al lt ut :
  (forall i, In i free -> (i < n)%nat) -> finl lt -> finu ut ->
  bk_ok (backtrack m n A b lb ub tries s ssub free resn rred al lt ut).
Proof.
  intros Hf. revert al lt ut. induction tries as [|k IH]; intros al lt ut Hl Hu.
  { cbn. repeat split; cbn; auto; discriminate. }
  cbn [backtrack].
  set (st0 := vadd (vscal (1 - al) s) (vscal al ssub)).
  set (lt' := filter _ free). set (ut' := filter _ free).
  assert (Hl' : finl lt').
  { intros i Hi. apply filter_In in Hi. destruct Hi as [Hi E]. apply negb_true_iff in E.
    apply not_xler_fin in E; [|apply lb_np; auto]. destruct E as [a [E _]]. eauto. }
  assert (Hu' : finu ut').
  { intros i Hi. apply filter_In in Hi. destruct Hi as [Hi E]. apply negb_true_iff in E.
    apply not_rlex_fin in E; [|apply ub_nn; auto]. destruct E as [a [E _]]. eauto. }
  assert (Main : bk_ok (if Rleb (norm m (resid n A b (clipv lb ub st0))) (resn - 1 / 100 * al * rred)
     then Bkt (Some (clipv lb ub st0, resid n A b (clipv lb ub st0), norm m (resid n A b (clipv lb ub st0)))) lt' ut' (Nat.eqb k 0)
     else backtrack m n A b lb ub k s ssub free resn rred (1 / 2 * al) lt' ut')).
  { destruct (Rleb _ _); [|apply IH; assumption].
    split; [exact Hl'|]. split; [exact Hu'|]. intros st r rn E. cbn in E. injection E as <- <- <-.
    split; [apply clipv_in|]. split; reflexivity. }
  destruct lt' as [|i lt']; [destruct ut' as [|i ut']|]; try exact Main.
  split; [exact Hl'|]. split; [exact Hu'|]. discriminate.
Qed.

(** the maximum step *)
Definition mstep_f (s d : vec) (al : R) (i : nat) : R :=
    if Rleb (1 / 10 ^ 14) (d i) then
      match ub i with Fin u => Rmin al ((u - s i) / d i) | _ => al end
    else if Rleb (d i) (- (1 / 10 ^ 14)) then
      match lb i with Fin l => Rmin al ((l - s i) / d i) | _ => al end
    else al.

Lemma eps_pos : 0 < 1 / 10 ^ 14.
Proof. apply Rdiv_lt_0_compat; [lra|apply pow_lt; lra]. Qed.

Lemma mstep_f_le s d al i : mstep_f s d al i <= al.
Proof.
  unfold mstep_f. destruct (Rleb _ _); [destruct (ub i); try lra; apply Rmin_l|].
  destruct (Rleb _ _); [destruct (lb i); try lra; apply Rmin_l|lra].
Qed.

Lemma mstep_f_nonneg s d al i : xle_r (lb i) (s i) -> rle_x (s i) (ub i) -> 0 <= al -> 0 <= mstep_f s d al i.
Proof.
  intros B1 B2 Ha. unfold mstep_f. pose proof eps_pos.
  destruct (Rleb_spec (1 / 10 ^ 14) (d i)).
  - destruct (ub i) as [u| |]; try lra. apply Rmin_glb; [exact Ha|].
    cbn in B2. apply Rmult_le_pos; [lra|]. left. apply Rinv_0_lt_compat. lra.
  - destruct (Rleb_spec (d i) (- (1 / 10 ^ 14))); [|exact Ha].
    destruct (lb i) as [l| |]; try lra. apply Rmin_glb; [exact Ha|].
    cbn in B1. replace ((l - s i) / d i) with ((s i - l) / (- d i)) by (field; lra).
    apply Rmult_le_pos; [lra|]. left. apply Rinv_0_lt_compat. lra.
Qed.

Lemma mstep_fold_le free s d al : fold_left (mstep_f s d) free al <= al.
Proof.
  revert al. induction free as [|i l IH]; intros al; cbn; [lra|].
  eapply Rle_trans; [apply IH|apply mstep_f_le].
Qed.

Lemma mstep_nonneg free s d al : in_bounds n lb ub s -> (forall i, In i free -> (i < n)%nat) -> 0 <= al ->
  0 <= fold_left (mstep_f s d) free al.
Proof.
  intros Hs. revert al. induction free as [|i l IH]; intros al Hf Ha; cbn; [exact Ha|].
  apply IH; [intros; apply Hf; right; assumption|].
  destruct (Hs i (Hf i (or_introl eq_refl))). apply mstep_f_nonneg; assumption.
Qed.

(** along the step, a free variable stays inside *)
Lemma mstep_free free s d al i : In i free -> in_bounds n lb ub s -> (forall j, In j free -> (j < n)%nat) ->
  0 <= al <= 1 -> (d i = 0 \/ 1 / 10 ^ 14 <= Rabs (d i)) ->
  let a := fold_left (mstep_f s d) free al in
  xle_r (lb i) (s i + a * d i) /\ rle_x (s i + a * d i) (ub i).
Proof.
  intros Hin Hs. revert al. induction free as [|j l IH]; intros al Hf Ha Hd a; [destruct Hin|].
  destruct Hin as [->|Hin].
  2:{ unfold a. cbn [fold_left]. apply (IH Hin); [intros; apply Hf; right; assumption| |exact Hd].
      pose proof (mstep_f_le s d al j). destruct (Hs j (Hf j (or_introl eq_refl))).
      pose proof (mstep_f_nonneg s d al j H0 H1 (proj1 Ha)). lra. }
  cbn [fold_left] in a.
  assert (Hi : (i < n)%nat) by (apply Hf; left; reflexivity).
  destruct (Hs i Hi) as [B1 B2].
  pose proof (mstep_f_nonneg s d al i B1 B2 (proj1 Ha)) as P0.
  assert (P1 : 0 <= a) by (apply mstep_nonneg; [exact Hs|intros; apply Hf; right; assumption|exact P0]).
  pose proof (mstep_fold_le l s d (mstep_f s d al i)) as P2. fold a in P2.
  pose proof eps_pos.
  unfold mstep_f in P2.
  destruct (Rleb_spec (1 / 10 ^ 14) (d i)) as [L|L].
  - split.
    + destruct (lb i); cbn in *; try tauto. nra.
    + destruct (ub i) as [u| |]; cbn in *; try tauto.
      assert (a <= (u - s i) / d i) by (eapply Rle_trans; [exact P2|apply Rmin_r]).
      assert (a * d i <= (u - s i) / d i * d i) by (apply Rmult_le_compat_r; lra).
      replace ((u - s i) / d i * d i) with (u - s i) in H1 by (field; lra). lra.
  - destruct (Rleb_spec (d i) (- (1 / 10 ^ 14))) as [L'|L'].
    + split.
      * destruct (lb i) as [v| |]; cbn in *; try tauto.
        assert (a <= (v - s i) / d i) by (eapply Rle_trans; [exact P2|apply Rmin_r]).
        assert ((v - s i) / d i * d i <= a * d i) by nra.
        replace ((v - s i) / d i * d i) with (v - s i) in H1 by (field; lra). lra.
      * destruct (ub i); cbn in *; try tauto. nra.
    + destruct Hd as [->|Hd]; [rewrite Rmult_0_r, Rplus_0_r; auto|].
      exfalso. revert Hd. unfold Rabs. destruct (Rcase_abs _); lra.
Qed.

(** ** The nested loop *)

Record ninv (t : nst) : Prop := {
  ni_in : in_bounds n lb ub (n_s t);
  ni_free : n_free t = others n (n_atlb t) (n_atub t);
  ni_l : finl (n_atlb t); ni_u : finu (n_atub t);
  ni_lt : finl (n_lt t); ni_ut : finu (n_ut t);
  ni_path : forall x r, In (x, r) (n_path t) -> in_bounds n lb ub x }.

Lemma dirs_grow k t t' : nested m n A b lb ub pin k t = Some t' -> incl (n_dirs t) (n_dirs t').
Proof.
  revert t. induction k as [|k IH]; intros t H; cbn [nested] in H; [injection H as <-; apply incl_refl|].
  destruct (subspace _ _ _ _ _ _ _ _) as [ssub|]; [|discriminate].
  destruct (existsb _ _); [|injection H as <-; apply incl_refl].
  destruct (bk_found _) as [[[st r] rn]|]; [injection H as <-; apply incl_refl|].
  apply IH in H. cbn in H. intros x Hx. apply H. apply in_or_app. left. exact Hx.
Qed.

Lemma subspace_in free atlb atub ssub :
  subspace A b lb ub pin free atlb atub = Some ssub -> free = others n atlb atub -> finl atlb -> finu atub ->
  forall i, (i < n)%nat -> ~ In i free -> xle_r (lb i) (ssub i) /\ rle_x (ssub i) (ub i).
Proof.
  intros H -> Hl Hu i Hi Hn. unfold subspace in H. destruct (pin _ _) as [p|]; [|discriminate].
  injection H as <-. destruct (HP i Hi) as [t [T1 T2]].
  destruct (mem atub i) eqn:Eu.
  - destruct (Hu i) as [u E]; [apply mem_In; exact Eu|]. rewrite E in *. cbn in *.
    split; [|lra]. destruct (lb i); cbn in *; try tauto; lra.
  - destruct (mem atlb i) eqn:El.
    + destruct (Hl i) as [l E]; [apply mem_In; exact El|]. rewrite E in *. cbn in *.
      split; [lra|]. destruct (ub i); cbn in *; try tauto; lra.
    + exfalso. apply Hn. apply in_others. auto.
Qed.

Lemma nested_inv k t t' : nested m n A b lb ub pin k t = Some t' -> not_tiny (n_dirs t') -> ninv t -> ninv t'.
Proof.
  revert t. induction k as [|k IH]; intros t H HD I; cbn [nested] in H; [injection H as <-; exact I|].
  destruct I as [I1 I2 I3 I4 I5 I6 I7].
  destruct (subspace _ _ _ _ _ _ _ _) as [ssub|] eqn:Es; [|discriminate].
  pose proof (subspace_in _ _ _ _ Es I2 I3 I4) as Hns.
  assert (Hf : forall i, In i (n_free t) -> (i < n)%nat).
  { intros i Hi. rewrite I2 in Hi. apply in_others in Hi. tauto. }
  destruct (existsb _ _) eqn:Ex.
  - set (bk := backtrack _ _ _ _ _ _ _ _ _ _ _ _ _ _ _) in *.
    destruct (backtrack_ok (4 * (1 - n_nuns t)) (n_s t) ssub (n_free t) (n_resn t)
      (norm m (resid n A b ssub) - n_resn t) 1 (n_lt t) (n_ut t) Hf I5 I6) as [K1 [K2 K3]].
    fold bk in K1, K2, K3.
    destruct (bk_found bk) as [[[st r] rn]|].
    + injection H as <-. destruct (K3 _ _ _ eq_refl) as [Q1 _].
      constructor; cbn; auto using finl_app, finu_app.
      intros x r' Hx. apply in_app_or in Hx. destruct Hx as [Hx|[Hx|[]]]; [eauto|]. injection Hx as <- <-. exact Q1.
    + pose proof (dirs_grow _ _ _ H) as G. cbn in G.
      specialize (IH _ H HD). apply IH. clear IH H.
      assert (Q : in_bounds n lb ub (vadd (n_s t) (vscal (max_step lb ub (n_free t) (n_s t) (vsub ssub (n_s t))) (vsub ssub (n_s t))))).
      { set (d := vsub ssub (n_s t)). set (a := max_step lb ub (n_free t) (n_s t) d).
        assert (Ea : a = fold_left (mstep_f (n_s t) d) (n_free t) 1) by reflexivity.
        assert (A0 : 0 <= a) by (rewrite Ea; apply mstep_nonneg; [exact I1|exact Hf|lra]).
        assert (A1 : a <= 1) by (rewrite Ea; apply mstep_fold_le).
        intros i Hi. unfold vadd, vscal.
        destruct (in_dec Nat.eq_dec i (n_free t)) as [Hin|Hout].
        - rewrite Ea. apply mstep_free; auto; [lra|].
          apply (HD (n_free t) d i); [|exact Hin]. apply G. apply in_or_app. right. left. reflexivity.
        - destruct (I1 i Hi) as [B1 B2]. destruct (Hns i Hi Hout) as [B3 B4]. unfold d, vsub.
          destruct (lb i); destruct (ub i); cbn in *; try tauto; split; try tauto; nra. }
      constructor; cbn [n_s n_free n_atlb n_atub n_lt n_ut n_path]; auto using finl_app, finu_app.
      intros x r' Hx. apply in_app_or in Hx. destruct Hx as [Hx|[Hx|[]]]; [eauto|]. injection Hx as <- <-. exact Q.
  - assert (Q : in_bounds n lb ub ssub).
    { intros i Hi. destruct (in_dec Nat.eq_dec i (n_free t)) as [Hin|Hout]; [|apply Hns; assumption].
      destruct (xler (lb i) (ssub i)) eqn:E1; [destruct (rlex (ssub i) (ub i)) eqn:E2|].
      - split; [apply xler_true; exact E1|apply rlex_true; exact E2].
      - exfalso. rewrite <- not_true_iff_false in Ex. apply Ex. apply existsb_exists. exists i.
        split; [exact Hin|]. rewrite E2. apply orb_true_r.
      - exfalso. rewrite <- not_true_iff_false in Ex. apply Ex. apply existsb_exists. exists i.
        split; [exact Hin|]. rewrite E1. reflexivity. }
    injection H as <-. constructor; cbn; auto.
    intros x r' Hx. apply in_app_or in Hx. destruct Hx as [Hx|[Hx|[]]]; [eauto|]. injection Hx as <- <-. exact Q.
Qed.

(** residual and its norm belong to the point, along the path too *)
Definition rok (s res : vec) (resn : R) (path : list (vec * R)) : Prop :=
  veq m res (resid n A b s) /\ resn = misfit m n A b s /\
  (forall x r, In (x, r) path -> r = misfit m n A b x) /\ (exists p0, path = p0 ++ [(s, resn)]).

Lemma resid_misfit s : norm m (resid n A b s) = misfit m n A b s.
Proof. reflexivity. Qed.

Lemma rok_app s res path : veq m res (resid n A b s) ->
  (forall x r, In (x, r) path -> r = misfit m n A b x) -> rok s res (norm m res) (path ++ [(s, norm m res)]).
Proof.
  intros E Hp. assert (En : norm m res = misfit m n A b s) by (unfold misfit; apply norm_ext; exact E).
  split; [exact E|]. split; [exact En|]. split; [|eexists; reflexivity].
  intros x r Hx. apply in_app_or in Hx. destruct Hx as [Hx|[Hx|[]]]; [auto|]. injection Hx as <- <-. exact En.
Qed.

Lemma backtrack_found tries s ssub free resn rred al lt ut st r rn :
  bk_found (backtrack m n A b lb ub tries s ssub free resn rred al lt ut) = Some (st, r, rn) ->
  r = resid n A b st /\ rn = norm m r.
Proof.
  revert al lt ut. induction tries as [|k IH]; intros al lt ut H; cbn [backtrack] in H; [discriminate|].
  revert H. set (lt' := filter _ free). set (ut' := filter _ free).
  destruct lt' as [|i lt']; [destruct ut' as [|i ut']|]; [discriminate| |];
    (destruct (Rleb _ _); [intros H; cbn in H; injection H as <- <- <-; auto|apply IH]).
Qed.

Lemma nested_rok k t t' : nested m n A b lb ub pin k t = Some t' ->
  rok (n_s t) (n_res t) (n_resn t) (n_path t) -> rok (n_s t') (n_res t') (n_resn t') (n_path t').
Proof.
  revert t. induction k as [|k IH]; intros t H I; cbn [nested] in H; [injection H as <-; exact I|].
  destruct I as [I1 [I2 [I3 I4]]].
  destruct (subspace _ _ _ _ _ _ _ _) as [ssub|] eqn:Es; [|discriminate].
  destruct (existsb _ _) eqn:Ex.
  - set (bk := backtrack _ _ _ _ _ _ _ _ _ _ _ _ _ _ _) in *.
    destruct (bk_found bk) as [[[st r] rn]|] eqn:Eb.
    + injection H as <-. apply backtrack_found in Eb. destruct Eb as [-> ->].
      cbn [n_s n_res n_resn n_path]. apply rok_app; [intros i Hi; reflexivity|exact I3].
    + apply IH in H; [exact H|]. cbn [n_s n_res n_resn n_path]. apply rok_app; [|exact I3].
      intros i Hi. set (al := max_step _ _ _ _ _).
      change ((1 - al) * n_res t i + al * (mv n A ssub i - b i)
        = mv n A (vadd (n_s t) (vscal al (vsub ssub (n_s t)))) i - b i).
      rewrite (I1 i Hi), mv_add, mv_scal, mv_sub. unfold resid, vsub. ring.
  - injection H as <-. cbn [n_s n_res n_resn n_path]. apply rok_app; [intros i Hi; reflexivity|exact I3].
Qed.

(** ** The whole run *)

Lemma idirs_grow left : forall nit nuns lt ut s res resn opt path dirs r,
  iterate m n A b lb ub pin left nit nuns lt ut s res resn opt path dirs = Some r -> incl dirs (r_dirs r).
Proof.
  induction left as [|left IH]; intros nit nuns lt ut s res resn opt path dirs r H; cbn [iterate] in H.
  { injection H as <-. apply incl_refl. }
  destruct (cauchy _ _ _ _ _ _ _ _ _) as [stry|]; [|injection H as <-; apply incl_refl].
  destruct (Nat.eqb _ 0 || _); [injection H as <-; apply incl_refl|].
  destruct (nested _ _ _ _ _ _ _ _ _) as [t|] eqn:En; [|discriminate].
  apply dirs_grow in En. cbn [n_dirs] in En.
  destruct (_ || _); [injection H as <-; exact En|].
  apply IH in H. eapply incl_tran; eassumption.
Qed.

Lemma at_bound_fin e t : at_bound e t = true -> exists a, e = Fin a.
Proof. destruct e; cbn; [eauto|discriminate|discriminate]. Qed.

(** the point after fixing the active bounds at the Cauchy point (171-183) *)
Lemma fixed_in stry atlb atub : in_bounds n lb ub stry ->
  finl atlb -> finu atub ->
  in_bounds n lb ub (fun i => if mem atub i then xval (ub i) else if mem atlb i then xval (lb i) else stry i).
Proof.
  intros Hs Hl Hu i Hi. cbn beta. destruct (HP i Hi) as [t [T1 T2]].
  destruct (mem atub i) eqn:Eu.
  - destruct (Hu i) as [u E]; [apply mem_In; exact Eu|]. rewrite E in *. cbn in *.
    split; [|lra]. destruct (lb i); cbn in *; try tauto; lra.
  - destruct (mem atlb i) eqn:El; [|apply Hs; exact Hi].
    destruct (Hl i) as [l E]; [apply mem_In; exact El|]. rewrite E in *. cbn in *.
    split; [lra|]. destruct (ub i); cbn in *; try tauto; lra.
Qed.

Lemma atb_finl stry : finl (filter (fun i => at_bound (lb i) (stry i)) (seq 0 n)).
Proof. intros i Hi. apply filter_In in Hi. eapply at_bound_fin. apply Hi. Qed.
Lemma atb_finu stry : finu (filter (fun i => at_bound (ub i) (stry i)) (seq 0 n)).
Proof. intros i Hi. apply filter_In in Hi. eapply at_bound_fin. apply Hi. Qed.

Lemma iterate_in left : forall nit nuns lt ut s res resn opt path dirs r,
  iterate m n A b lb ub pin left nit nuns lt ut s res resn opt path dirs = Some r ->
  not_tiny (r_dirs r) ->
  in_bounds n lb ub s -> finl lt -> finu ut -> (forall x q, In (x, q) path -> in_bounds n lb ub x) ->
  in_bounds n lb ub (r_s r) /\ (forall x q, In (x, q) (r_path r) -> in_bounds n lb ub x).
Proof.
  induction left as [|left IH]; intros nit nuns lt ut s res resn opt path dirs r H HD Hs Hl Hu Hp; cbn [iterate] in H.
  { injection H as <-. auto. }
  destruct (cauchy _ _ _ _ _ _ _ _ _) as [stry|] eqn:Ec; [|injection H as <-; auto].
  pose proof (cauchy_in _ _ _ _ _ Ec) as Hst.
  pose proof (fixed_in _ _ _ Hst (atb_finl stry) (atb_finu stry)) as Hfx.
  set (s1 := fun i : nat => if mem _ i then _ else _) in *.
  assert (Hp1 : forall x q, In (x, q) (path ++ [(s1, norm m (resid n A b s1))]) -> in_bounds n lb ub x).
  { intros x q Hx. apply in_app_or in Hx. destruct Hx as [Hx|[Hx|[]]]; [eauto|]. injection Hx as <- <-. exact Hfx. }
  destruct (Nat.eqb _ 0 || _); [injection H as <-; cbn; auto|].
  destruct (nested _ _ _ _ _ _ _ _ _) as [t|] eqn:En; [|discriminate].
  assert (HDt : not_tiny (n_dirs t)).
  { destruct (_ || _) in H; [injection H as <-; exact HD|].
    apply idirs_grow in H. intros f d i Hfd Hi. apply (HD f d i); [apply H; exact Hfd|exact Hi]. }
  apply nested_inv in En; [|exact HDt|constructor; cbn; auto using atb_finl, atb_finu].
  destruct En as [J1 J2 J3 J4 J5 J6 J7].
  destruct (_ || _); [injection H as <-; cbn; auto|].
  apply IH in H; auto.
Qed.

Lemma blls_in r : blls m n A b lb ub pin = Some r -> not_tiny (r_dirs r) ->
  in_bounds n lb ub (r_s r) /\ (forall x q, In (x, q) (r_path r) -> in_bounds n lb ub x).
Proof.
  unfold blls. intros H HD. destruct (pin _ _) as [p|]; [|discriminate].
  apply iterate_in in H; auto; try apply clipv_in; try (intros i []).
  intros x q [Hx|[]]. injection Hx as <- <-. apply clipv_in.
Qed.

End P.

Section Q.
Variables (m n : nat) (A : mat) (b : vec) (lb ub : nat -> xR).
Variable pin : list nat -> vec -> option vec.

Lemma iterate_rok left : forall nit nuns lt ut s res resn opt path dirs r,
  iterate m n A b lb ub pin left nit nuns lt ut s res resn opt path dirs = Some r ->
  rok m n A b s res resn path ->
  r_resn r = misfit m n A b (r_s r) /\
  (forall x q, In (x, q) (r_path r) -> q = misfit m n A b x) /\ (exists p0, r_path r = p0 ++ [(r_s r, r_resn r)]).
Proof.
  induction left as [|left IH]; intros nit nuns lt ut s res resn opt path dirs r H I; cbn [iterate] in H.
  { destruct I as [_ [I2 [I3 I4]]]. injection H as <-. cbn. auto. }
  destruct (cauchy _ _ _ _ _ _ _ _ _) as [stry|] eqn:Ec.
  2:{ destruct I as [_ [I2 [I3 I4]]]. injection H as <-. cbn. auto. }
  set (s1 := fun i : nat => if mem _ i then _ else _) in *.
  assert (I1 : rok m n A b s1 (resid n A b s1) (norm m (resid n A b s1)) (path ++ [(s1, norm m (resid n A b s1))])).
  { apply rok_app; [intros i Hi; reflexivity|apply I]. }
  destruct (Nat.eqb _ 0 || _).
  { destruct I1 as [_ [I2 [I3 I4]]]. injection H as <-. cbn. auto. }
  destruct (nested _ _ _ _ _ _ _ _ _) as [t|] eqn:En; [|discriminate].
  apply nested_rok in En; [|exact I1].
  destruct (_ || _).
  { destruct En as [_ [I2 [I3 I4]]]. injection H as <-. cbn. auto. }
  apply IH in H; auto.
Qed.

Lemma blls_rok r : blls m n A b lb ub pin = Some r ->
  r_resn r = misfit m n A b (r_s r) /\
  (forall x q, In (x, q) (r_path r) -> q = misfit m n A b x) /\ (exists p0, r_path r = p0 ++ [(r_s r, r_resn r)]).
Proof.
  unfold blls. intros H. destruct (pin _ _) as [p|]; [|discriminate].
  apply iterate_rok in H; [exact H|]. apply (rok_app m n A b _ _ []); [intros i Hi; reflexivity|intros x q []].
Qed.

(** ** What the exit code says *)

Definition all_at (s : vec) : Prop := forall i, (i < n)%nat -> lb i = Fin (s i) \/ ub i = Fin (s i).

Hypothesis HP : proper_bounds n lb ub.

Lemma optm_stat s res : veq m res (resid n A b s) -> optm m n A lb ub s res = stationarity m n A b lb ub s.
Proof.
  intros E. unfold optm, stationarity. apply norm_ext. intros i Hi. unfold vsub, clipv.
  rewrite (tmv_ext m A res (resid n A b s) i E). rewrite clip_proj by (apply HP; exact Hi). reflexivity.
Qed.

Lemma leb_exit k : ((if Nat.leb (2 * n) k then 1 else 0)%Z = 0%Z \/ (if Nat.leb (2 * n) k then 1 else 0)%Z = 1%Z).
Proof. destruct (Nat.leb _ _); auto. Qed.

Lemma iterate_exit left : forall nit nuns lt ut s res resn opt path dirs r,
  iterate m n A b lb ub pin left nit nuns lt ut s res resn opt path dirs = Some r ->
  rok m n A b s res resn path ->
  (left = O -> (2 * n <= nit)%nat \/ stationarity m n A b lb ub s <= 1 / 10 ^ 10 \/ resn <= 1 / 10 ^ 11) ->
  (left <> O -> (left + nit = 2 * n)%nat) ->
  (r_exitc r = 0%Z \/ r_exitc r = 1%Z \/ r_exitc r = (-1)%Z) /\
  (r_nit r <= nit + left)%nat /\
  (r_exitc r = 1%Z -> (2 * n <= r_nit r)%nat) /\
  (r_exitc r = 0%Z -> stationarity m n A b lb ub (r_s r) <= 1 / 10 ^ 10 \/ r_resn r <= 1 / 10 ^ 11 \/
                     all_at (r_s r)).
Proof.
  induction left as [|left IH]; intros nit nuns lt ut s res resn opt path dirs r H I H0 HN; cbn [iterate] in H;
    change (n + (n + 0))%nat with (2 * n)%nat in H.
  { specialize (H0 eq_refl). injection H as <-. cbn [r_exitc r_nit r_s r_resn]; change (n + (n + 0))%nat with (2 * n)%nat.
    split; [destruct (Nat.leb _ _); auto|]. split; [lia|]. split.
    - destruct (Nat.leb_spec (2 * n) nit); intros E; [assumption|discriminate].
    - destruct (Nat.leb_spec (2 * n) nit); intros E; [discriminate|]. destruct H0 as [H0|[H0|H0]]; [lia|auto|auto]. }
  specialize (HN ltac:(discriminate)).
  destruct (cauchy _ _ _ _ _ _ _ _ _) as [stry|] eqn:Ec.
  2:{ injection H as <-. cbn. split; [auto|]. split; [lia|]. split; intros E; discriminate E. }
  set (atlb := filter (fun i => at_bound (lb i) (stry i)) (seq 0 n)) in *.
  set (atub := filter (fun i => at_bound (ub i) (stry i)) (seq 0 n)) in *.
  set (s1 := fun i : nat => if mem _ i then _ else _) in *.
  assert (I1 : rok m n A b s1 (resid n A b s1) (norm m (resid n A b s1)) (path ++ [(s1, norm m (resid n A b s1))])).
  { apply rok_app; [intros i Hi; reflexivity|apply I]. }
  destruct (Nat.eqb _ 0 || _) eqn:Ef.
  { injection H as <-. cbn [r_exitc r_nit r_s r_resn]; change (n + (n + 0))%nat with (2 * n)%nat.
    split; [destruct (leb_exit (S nit)) as [->| ->]; auto|]. split; [lia|]. split.
    - destruct (Nat.leb_spec (2 * n) (S nit)); intros E; [assumption|discriminate].
    - intros _. apply orb_true_iff in Ef. destruct Ef as [Ef|Ef]; [|rb; auto].
      right. right. apply Nat.eqb_eq in Ef. apply length_zero_iff_nil in Ef. intros i Hi.
      unfold s1. destruct (mem atub i) eqn:Eu.
      + right. apply mem_In in Eu. destruct (atb_finu n ub stry i Eu) as [u E]. rewrite E. reflexivity.
      + destruct (mem atlb i) eqn:El.
        * left. apply mem_In in El. destruct (atb_finl n lb stry i El) as [u E]. rewrite E. reflexivity.
        * exfalso. assert (X : In i (others n atlb atub)) by (apply in_others; auto). rewrite Ef in X. exact X. }
  destruct (nested _ _ _ _ _ _ _ _ _) as [t|] eqn:En; [|discriminate].
  apply nested_rok in En; [|exact I1].
  assert (Eo : optm m n A lb ub (n_s t) (n_res t) = stationarity m n A b lb ub (n_s t)) by (apply optm_stat; apply En).
  match type of H with (if ?c then _ else _) = _ => destruct c eqn:Eq end.
  { injection H as <-. cbn [r_exitc r_nit r_s r_resn]; change (n + (n + 0))%nat with (2 * n)%nat.
    split; [destruct (leb_exit (S nit)) as [->| ->]; auto|]. split; [lia|]. split.
    - destruct (Nat.leb_spec (2 * n) (S nit)); intros E; [assumption|discriminate].
    - intros _. apply orb_true_iff in Eq. rewrite Eo in Eq. destruct Eq as [Eq|Eq]; rb; auto. }
  apply IH in H; [|exact En|intros ->; left; lia|intros; lia].
  destruct H as [H1 [H2 [H3 H4]]]. split; [exact H1|]. split; [lia|]. auto.
Qed.

Lemma blls_exit r : blls m n A b lb ub pin = Some r ->
  (r_exitc r = 0%Z \/ r_exitc r = 1%Z \/ r_exitc r = (-1)%Z) /\
  (r_nit r <= 2 * n)%nat /\
  (r_exitc r = 1%Z -> (2 * n <= r_nit r)%nat) /\
  (r_exitc r = 0%Z -> stationarity m n A b lb ub (r_s r) <= 1 / 10 ^ 10 \/ r_resn r <= 1 / 10 ^ 11 \/
                     all_at (r_s r)).
Proof.
  unfold blls. intros H. destruct (pin _ _) as [p|]; [|discriminate].
  set (s := clipv lb ub p) in *.
  set (b0 := Rleb _ _ || _) in H.
  assert (HR : rok m n A b s (resid n A b s) (norm m (resid n A b s)) [(s, norm m (resid n A b s))]).
  { apply (rok_app m n A b _ _ []); [intros i Hi; reflexivity|intros x q []]. }
  apply iterate_exit in H; [|exact HR| |].
  - destruct H as [H1 [H2 H3]]. split; [exact H1|]. split; [destruct b0; lia|exact H3].
  - intros E. destruct b0 eqn:Eb.
    + unfold b0 in Eb. rewrite (optm_stat s (resid n A b s)) in Eb by (intros i Hi; reflexivity).
      apply orb_true_iff in Eb. destruct Eb as [Eb|Eb]; rb; auto.
    + left. lia.
  - intros E. destruct b0; [congruence|lia].
Qed.

(** ** Starting at the solution *)

Lemma lsq_grad_zero p : (forall t, misfit m n A b p <= misfit m n A b t) ->
  forall i, (i < n)%nat -> misfit_grad m n A b p i = 0.
Proof.
  intros H.
  set (nolb := fun _ : nat => NInf). set (noub := fun _ : nat => PInf).
  assert (Hin : forall t, in_bounds n nolb noub t) by (intros t i Hi; cbn; auto).
  assert (Hs : solves m n A b nolb noub p) by (split; [apply Hin|intros; apply H]).
  apply stationarity_zero in Hs; [|apply Hin].
  apply (proj1 (norm_zero _ _)) in Hs. intros i Hi. specialize (Hs i Hi). cbn in Hs. unfold vsub, vzero, proj in Hs. cbn in Hs. lra.
Qed.

Lemma blls_start p : pin (seq 0 n) b = Some p -> (0 < n)%nat ->
  (forall t, misfit m n A b p <= misfit m n A b t) -> in_bounds n lb ub p ->
  exists r, blls m n A b lb ub pin = Some r /\ r_exitc r = 0%Z /\ r_nit r = O /\
    veq n (r_s r) p /\ r_dirs r = [] /\ solves m n A b lb ub (r_s r).
Proof.
  intros Ep Hn Hmin Hin. unfold blls. rewrite Ep.
  set (s := clipv lb ub p).
  assert (Es : veq n s p).
  { intros i Hi. destruct (Hin i Hi). apply clip_id; assumption. }
  assert (Em : misfit m n A b s = misfit m n A b p).
  { apply norm_ext. intros i Hi. unfold vsub. rewrite (mv_ext n A s p i Es). reflexivity. }
  assert (Hsin : in_bounds n lb ub s) by (intros i Hi; rewrite (Es i Hi); apply Hin; exact Hi).
  assert (Hsol : solves m n A b lb ub s) by (split; [exact Hsin|intros; rewrite Em; apply Hmin]).
  assert (E0 : optm m n A lb ub s (resid n A b s) = 0).
  { rewrite optm_stat by (intros i Hi; reflexivity). apply stationarity_zero; assumption. }
  rewrite E0.
  assert (L : Rleb 0 (1 / 10 ^ 10) = true).
  { apply Rleb_true. left. apply Rdiv_lt_0_compat; [lra|apply pow_lt; lra]. }
  rewrite L. cbn [orb iterate]. eexists. split; [reflexivity|]. cbn [r_exitc r_nit r_s r_dirs].
  split; [destruct (Nat.leb_spec (2 * n) 0); [lia|reflexivity]|]. auto.
Qed.

(** ** Evaluation helpers *)

Lemma step_ratio (g : vec) : dot m (mv n A g) (mv n A g) <> 0 ->
  norm n g / norm m (mv n A g) * (norm n g / norm m (mv n A g)) = dot n g g / dot m (mv n A g) (mv n A g).
Proof.
  intros H. rewrite <- (norm_sq m (mv n A g)) in H |- *. rewrite <- (norm_sq n g). field.
  intros E. apply H. rewrite E. ring.
Qed.

Lemma cauchy_first s g al :
  dot n g (vsub (clipv lb ub (vsub s (vscal al g))) s)
  + 1 / 2 * dot m (mv n A (vsub (clipv lb ub (vsub s (vscal al g))) s)) (mv n A (vsub (clipv lb ub (vsub s (vscal al g))) s))
  <= 1 / 100 * dot n g (vsub (clipv lb ub (vsub s (vscal al g))) s) ->
  cauchy m n A lb ub 14 s g al = Some (clipv lb ub (vsub s (vscal al g))).
Proof.
  intros H. change 14%nat with (S 13). generalize 13%nat. intros k. cbn [cauchy].
  rewrite norm_sq. apply Rleb_true in H. rewrite H. reflexivity.
Qed.

(** the whole run when the first projected step ends with no free variable *)
Lemma blls_vertex p (stry : vec) :
  pin (seq 0 n) b = Some p -> (0 < n)%nat ->
  let s := clipv lb ub p in let g := tmv m A (resid n A b s) in
  1 / 10 ^ 10 < optm m n A lb ub s (resid n A b s) -> 1 / 10 ^ 11 < norm m (resid n A b s) ->
  cauchy m n A lb ub 14 s g (norm n g / norm m (mv n A g) * (norm n g / norm m (mv n A g))) = Some stry ->
  let atlb := filter (fun i => at_bound (lb i) (stry i)) (seq 0 n) in
  let atub := filter (fun i => at_bound (ub i) (stry i)) (seq 0 n) in
  let s1 : vec := fun i => if mem atub i then xval (ub i) else if mem atlb i then xval (lb i) else stry i in
  others n atlb atub = [] ->
  blls m n A b lb ub pin = Some (BlRes s1 (norm m (resid n A b s1)) 0 0%Z 1
    [(s, norm m (resid n A b s)); (s1, norm m (resid n A b s1))] []).
Proof.
  intros Ep Hn s g Ho Hr Hc atlb atub s1 Hf. unfold blls. rewrite Ep. fold s.
  apply Rleb_false in Ho, Hr. rewrite Ho, Hr. cbn [orb].
  assert (E1 : (n + (n + 0) <=? 1)%nat = false) by (apply Nat.leb_gt; lia).
  replace (2 * n)%nat with (S (2 * n - 1)) by lia.
  generalize (2 * n - 1)%nat. intros left. cbn [iterate]. fold g.
  rewrite Hc. fold atlb atub. rewrite Hf. cbn [length Nat.eqb orb]. fold s1.
  change (2 * n)%nat with (n + (n + 0))%nat. rewrite E1. reflexivity.
Qed.

(** ** The path only grows, and the solver fails only if the pseudo-inverse does *)

Lemma npath_grow k : forall t t', nested m n A b lb ub pin k t = Some t' -> exists q, n_path t' = n_path t ++ q.
Proof.
  induction k as [|k IH]; intros t t' H; cbn [nested] in H; [injection H as <-; exists []; symmetry; apply app_nil_r|].
  destruct (subspace _ _ _ _ _ _ _ _) as [ssub|]; [|discriminate].
  destruct (existsb _ _); [|injection H as <-; eexists; reflexivity].
  destruct (bk_found _) as [[[st r] rn]|]; [injection H as <-; eexists; reflexivity|].
  apply IH in H. destruct H as [q H]. cbn in H. rewrite <- app_assoc in H. eauto.
Qed.

Lemma ipath_grow left : forall nit nuns lt ut s res resn opt path dirs r,
  iterate m n A b lb ub pin left nit nuns lt ut s res resn opt path dirs = Some r -> exists q, r_path r = path ++ q.
Proof.
  induction left as [|left IH]; intros nit nuns lt ut s res resn opt path dirs r H; cbn [iterate] in H.
  { injection H as <-. exists []. symmetry. apply app_nil_r. }
  destruct (cauchy _ _ _ _ _ _ _ _ _) as [stry|]; [|injection H as <-; exists []; symmetry; apply app_nil_r].
  destruct (Nat.eqb _ 0 || _); [injection H as <-; eexists; reflexivity|].
  destruct (nested _ _ _ _ _ _ _ _ _) as [t|] eqn:En; [|discriminate].
  apply npath_grow in En. destruct En as [q En]. cbn [n_path] in En. rewrite <- app_assoc in En.
  destruct (_ || _); [injection H as <-; eexists; exact En|].
  apply IH in H. destruct H as [q' H]. rewrite En, <- app_assoc in H. eauto.
Qed.

Lemma nested_total k : (forall l v, pin l v <> None) -> forall t, nested m n A b lb ub pin k t <> None.
Proof.
  intros HT. induction k as [|k IH]; intros t; cbn [nested]; [discriminate|].
  unfold subspace. destruct (pin _ _) as [p|] eqn:Ep; [|exfalso; exact (HT _ _ Ep)].
  destruct (existsb _ _); [|discriminate].
  destruct (bk_found _) as [[[st r] rn]|]; [discriminate|]. apply IH.
Qed.

Lemma iterate_total left : (forall l v, pin l v <> None) -> forall nit nuns lt ut s res resn opt path dirs,
  iterate m n A b lb ub pin left nit nuns lt ut s res resn opt path dirs <> None.
Proof.
  intros HT. induction left as [|left IH]; intros nit nuns lt ut s res resn opt path dirs; cbn [iterate]; [discriminate|].
  destruct (cauchy _ _ _ _ _ _ _ _ _) as [stry|]; [|discriminate].
  destruct (Nat.eqb _ 0 || _); [discriminate|].
  destruct (nested _ _ _ _ _ _ _ _ _) as [t|] eqn:En; [|exfalso; exact (nested_total _ HT _ En)].
  destruct (_ || _); [discriminate|]. apply IH.
Qed.

Lemma blls_total : (forall l v, pin l v <> None) -> exists r, blls m n A b lb ub pin = Some r.
Proof.
  intros HT. destruct (blls m n A b lb ub pin) as [r|] eqn:E; [eauto|exfalso]. revert E. unfold blls.
  destruct (pin _ _) as [p|] eqn:Ep; [|intros _; exact (HT _ _ Ep)]. apply iterate_total. exact HT.
Qed.

(** one iteration with a nested search *)
Lemma iterate_nested left nit nuns lt ut s res resn opt path dirs r stry t :
  iterate m n A b lb ub pin (S left) nit nuns lt ut s res resn opt path dirs = Some r ->
  let g := tmv m A res in
  cauchy m n A lb ub 14 s g (norm n g / norm m (mv n A g) * (norm n g / norm m (mv n A g))) = Some stry ->
  let atlb := filter (fun i => at_bound (lb i) (stry i)) (seq 0 n) in
  let atub := filter (fun i => at_bound (ub i) (stry i)) (seq 0 n) in
  let s1 : vec := fun i => if mem atub i then xval (ub i) else if mem atlb i then xval (lb i) else stry i in
  others n atlb atub <> [] -> 1 / 10 ^ 11 < norm m (resid n A b s1) ->
  nested m n A b lb ub pin n (NSt s1 (resid n A b s1) (norm m (resid n A b s1)) (others n atlb atub) atlb atub
    nuns lt ut (path ++ [(s1, norm m (resid n A b s1))]) dirs) = Some t ->
  exists q, r_path r = n_path t ++ q.
Proof.
  intros H g Hc atlb atub s1 Hf Hr Hn. cbn [iterate] in H. fold g in H. rewrite Hc in H.
  fold atlb atub s1 in H. apply Rleb_false in Hr. rewrite Hr in H.
  destruct (others n atlb atub) as [|i0 l0] eqn:Ef; [congruence|]. cbn [length Nat.eqb orb] in H.
  rewrite Hn in H. destruct (_ || _) in H.
  - injection H as <-. exists []. symmetry. apply app_nil_r.
  - apply ipath_grow in H. exact H.
Qed.

End Q.

(** A point whose residual is orthogonal to the chosen columns is a
    least-squares solution. *)
Lemma csum_add A l v w i : csum A l (vadd v w) i = csum A l v i + csum A l w i.
Proof. unfold csum. induction l as [|j l IH]; cbn; [lra|]. rewrite IH. unfold vadd. lra. Qed.

Lemma csum_ext A l v w i : (forall j, v j = w j) -> csum A l v i = csum A l w i.
Proof. intros H. unfold csum. induction l as [|j l IH]; cbn; [reflexivity|]. rewrite IH, H. reflexivity. Qed.

Lemma csum_cross m A l (r d : vec) :
  (forall j, In j l -> rsum m (fun i => A i j * r i) = 0) -> dot m r (fun i => csum A l d i) = 0.
Proof.
  unfold dot. induction l as [|j l IH]; intros H.
  - apply rsum_zero. intros. cbn. lra.
  - rewrite (rsum_ext m _ (fun i => d j * (A i j * r i) + r i * csum A l d i)).
    2:{ intros i Hi. cbn. unfold csum. ring. }
    rewrite rsum_plus, rsum_scal, (H j) by (left; reflexivity). rewrite IH; [lra|].
    intros k Hk. apply H. right. exact Hk.
Qed.

Lemma orth_min m A l (p rhs : vec) :
  (forall j, In j l -> rsum m (fun i => A i j * (csum A l p i - rhs i)) = 0) ->
  forall q, norm m (fun i => csum A l p i - rhs i) <= norm m (fun i => csum A l q i - rhs i).
Proof.
  intros H q. apply norm_le_sq.
  set (r := fun i => csum A l p i - rhs i). set (d := vsub q p).
  assert (E : veq m (fun i => csum A l q i - rhs i) (vadd r (fun i => csum A l d i))).
  { intros i Hi. unfold vadd, r.
    replace (csum A l q i) with (csum A l (vadd p d) i).
    - rewrite csum_add. lra.
    - apply csum_ext. intros j. unfold vadd, d, vsub. lra. }
  rewrite (dot_ext _ _ _ _ _ E E), dot_add_l, !dot_add_r, (dot_sym m (fun i => csum A l d i) r).
  rewrite (csum_cross m A l r d H). pose proof (dot_self_nonneg m (fun i => csum A l d i)). lra.
Qed.
