(** The step of truncated conjugate gradients compared with the steps along the
    right-hand side, and the lengths of its iterates. *)
From Coq Require Import Reals Lra Lia Arith ZArith.
From Verif Require Import RVec RBool CG_Model CG_Spec CG_Proofs.
Open Scope R_scope.

Lemma cost_along n A b t : symmetric n A ->
  cost n A b (vscal t b) = - t * dot n b b + / 2 * (t * t) * quad n A b.
Proof.
  intros _. unfold cost. rewrite quad_scal, dot_scal_r. ring.
Qed.

(** one round from the origin *)
Lemma cg_first_round n A b delta tol t : symmetric n A -> 0 <= delta -> tol * tol < dot n b b ->
  0 <= t -> t * t * dot n b b <= delta * delta ->
  cost n A b (tcg_x (truncated_cg n A b delta 1 tol)) <= cost n A b (vscal t b).
Proof.
  intros HA Hd Hb Ht HT. unfold truncated_cg. rewrite cg_unfold. cbv zeta.
  assert (GG : dot n (vneg b) (vneg b) = dot n b b) by (rewrite dot_neg_l, dot_neg_r; ring).
  rewrite GG. destruct (Rleb_spec (dot n b b) (tol * tol)) as [L|L]; [lra|]. clear L.
  cbn [cg_dir]. assert (DB : veq n (vneg (vneg b)) b) by (intros i Hi; unfold vneg; ring).
  set (d := vneg (vneg b)) in *.
  assert (DD : dot n d d = dot n b b) by (apply dot_ext; exact DB).
  assert (QQ : dot n d (mv n A d) = quad n A b) by (apply quad_ext; exact DB).
  assert (GD : dot n (vneg b) d = - dot n b b) by (rewrite dot_neg_l, (dot_ext_r n b _ _ DB); reflexivity).
  rewrite QQ, GD. set (s := dot n b b) in *. set (q := quad n A b) in *.
  assert (S0 : 0 < s) by nra.
  assert (AL : forall y u, veq n y (vadd vzero (vscal u d)) -> cost n A b y = - u * s + / 2 * (u * u) * q /\ dot n y y = u * u * s).
  { intros y u E. assert (E' : veq n y (vscal u b)).
    { intros i Hi. rewrite (E i Hi). unfold vadd, vscal, vzero. rewrite (DB i Hi). ring. }
    split; [rewrite (cost_ext n A b _ _ E'); apply cost_along; exact HA|].
    rewrite (dot_ext n y (vscal u b) y (vscal u b) E' E'), dot_scal_l, dot_scal_r. unfold s. ring. }
  assert (BIG : forall u, 0 <= u -> u * u * s = delta * delta -> t <= u).
  { intros u U E. destruct (Rle_or_lt t u) as [P|P]; [exact P|]. assert (u * u < t * t) by nra. nra. }
  assert (X0 : dot n vzero vzero <= delta * delta) by (rewrite dot_zero_l; nra).
  rewrite (cost_along n A b t HA). fold s. fold q.
  destruct (Rleb_spec q 0) as [C|C]; cbn [tcg_x].
  - assert (NZ : dot n (vsub (vadd vzero d) vzero) (vsub (vadd vzero d) vzero) <> 0) by (rewrite dir_dot, DD; lra).
    destruct (comp_dir_spec n vzero (vadd vzero d) delta Hd X0 NZ) as [u [U [E N]]].
    set (y := fst (comp_dir n vzero (vadd vzero d) delta)) in *.
    destruct (AL y u) as [C1 C2]; [intros i Hi; rewrite E; unfold vadd, vscal, vzero; ring|].
    rewrite C1. rewrite C2 in N. pose proof (BIG u U N). assert (t * t <= u * u) by nra.
    assert (0 <= (u - t) * s) by (apply Rmult_le_pos; lra). nra.
  - set (al := - - s / q) in *. assert (AQ : al * q = s) by (unfold al; field; lra).
    assert (A0 : 0 < al) by (unfold al; replace (- - s) with s by ring; apply Rmult_lt_0_compat; [lra|apply Rinv_0_lt_compat; lra]).
    (* the cost decreases along the direction as long as [u <= al] *)
    assert (DEC : forall u, t <= u -> u <= al -> - u * s + / 2 * (u * u) * q <= - t * s + / 2 * (t * t) * q).
    { intros u P1 P2. replace (- u * s + / 2 * (u * u) * q) with (- t * s + / 2 * (t * t) * q - (u - t) * (/ 2 * ((al - u) + (al - t)) * q))
        by (rewrite <- AQ; field).
      assert (0 <= (u - t) * (/ 2 * ((al - u) + (al - t)) * q)) by (apply Rmult_le_pos; [lra|]; apply Rmult_le_pos; lra). lra. }
    destruct (AL (vadd vzero (vscal al d)) al) as [C1 C2]; [intros i Hi; reflexivity|].
    rewrite C2. destruct (Rltb_spec (delta * delta) (al * al * s)) as [O|O]; cbn [tcg_x].
    + assert (NZ : dot n (vsub (vadd vzero (vscal al d)) vzero) (vsub (vadd vzero (vscal al d)) vzero) <> 0).
      { rewrite dir_dot, dot_scal_l, dot_scal_r, DD. nra. }
      destruct (comp_dir_spec n vzero _ delta Hd X0 NZ) as [u [U [E N]]].
      set (y := fst (comp_dir n vzero (vadd vzero (vscal al d)) delta)) in *.
      destruct (AL y (u * al)) as [D1 D2]; [intros i Hi; rewrite E; unfold vadd, vscal, vzero; ring|].
      rewrite D1. rewrite D2 in N. assert (U0 : 0 <= u * al) by (apply Rmult_le_pos; lra).
      apply DEC; [apply BIG; assumption|].
      destruct (Rle_or_lt (u * al) al) as [P|P]; [exact P|]. assert (al * al < u * al * (u * al)) by nra. nra.
    + rewrite cg_unfold. cbv zeta.
      match goal with |- context [tcg_x (if ?c then _ else _)] => destruct c end; cbn [tcg_x]; rewrite C1;
      destruct (Rle_or_lt t al) as [P|P].
      1,3: apply DEC; lra.
      all: replace (- al * s + / 2 * (al * al) * q) with (- t * s + / 2 * (t * t) * q - / 2 * (t - al) * (t - al) * q)
        by (rewrite <- AQ; field);
      assert (0 <= / 2 * (t - al) * (t - al) * q) by (apply Rmult_le_pos; [nra|lra]); lra.
Qed.

(** The step is at least as good as any feasible step along the right-hand side. *)
Lemma cg_cauchy n A b delta k tol t : symmetric n A -> 0 <= delta -> tol * tol < dot n b b ->
  0 <= t -> t * t * dot n b b <= delta * delta ->
  cost n A b (tcg_x (truncated_cg n A b delta (S k) tol)) <= cost n A b (vscal t b).
Proof.
  intros HA Hd Hb Ht HT. induction k as [|k IH]; [apply cg_first_round; assumption|].
  pose proof (cg_more n A b delta (S k) tol HA Hd). lra.
Qed.

(** In the usual form: with [beta] bounding the curvature along [b]. *)
Lemma cg_decrease n A b delta k tol beta : symmetric n A -> 0 <= delta -> tol * tol < dot n b b ->
  0 < beta -> quad n A b <= beta * dot n b b ->
  cost n A b (tcg_x (truncated_cg n A b delta (S k) tol)) <= - / 2 * norm n b * Rmin delta (norm n b / beta).
Proof.
  intros HA Hd Hb Hbe HQ. assert (S0 : 0 < dot n b b) by (pose proof (Rle_0_sqr tol) as Q; unfold Rsqr in Q; lra).
  set (s := dot n b b) in *. assert (NN : norm n b * norm n b = s) by (unfold norm; apply sqrt_sqrt, Rlt_le; exact S0).
  assert (N0 : 0 < norm n b) by (unfold norm; apply sqrt_lt_R0; exact S0).
  set (m := Rmin delta (norm n b / beta)).
  assert (M0 : 0 <= m) by (unfold m; apply Rmin_glb; [exact Hd|apply Rlt_le, Rmult_lt_0_compat; [exact N0|apply Rinv_0_lt_compat; exact Hbe]]).
  assert (M1 : m <= delta) by apply Rmin_l.
  assert (M2 : m * beta <= norm n b).
  { pose proof (Rmin_r delta (norm n b / beta)) as R. fold m in R.
    apply (Rmult_le_compat_r beta) in R; [|lra]. replace (norm n b / beta * beta) with (norm n b) in R by (field; lra). exact R. }
  set (t := m / norm n b). assert (TN : t * norm n b = m) by (unfold t; field; lra).
  assert (T0 : 0 <= t) by (apply Rmult_le_pos; [exact M0|apply Rlt_le, Rinv_0_lt_compat; exact N0]).
  pose proof (cg_cauchy n A b delta k tol t HA Hd Hb T0) as H.
  assert (E : t * t * s = m * m) by (rewrite <- NN, <- TN; ring).
  fold s in H. rewrite E in H. specialize (H ltac:(nra)).
  rewrite (cost_along n A b t HA) in H. fold s in H.
  assert (T1 : t * s = m * norm n b) by (rewrite <- NN, <- TN; ring).
  assert (Q1 : / 2 * (t * t) * quad n A b <= / 2 * (m * norm n b)).
  { assert (0 <= / 2 * (t * t)) by nra.
    apply Rle_trans with (/ 2 * (t * t) * (beta * s)); [apply Rmult_le_compat_l; assumption|].
    replace (/ 2 * (t * t) * (beta * s)) with (/ 2 * (m * (m * beta))) by (replace (m * (m * beta)) with (m * m * beta) by ring; rewrite <- E; ring).
    apply Rmult_le_compat_l; [lra|]. apply Rmult_le_compat_l; assumption. }
  replace (- t * s) with (- (m * norm n b)) in H by lra. lra.
Qed.

(** *** The iterates never get shorter *)

(** what is kept besides the history: the step lies in the span of the
    directions used so far and makes no obtuse angle with the last of them *)
Definition growing (n : nat) (x : vec) (k : nat) (D : nat -> vec) : Prop :=
  (forall v, (forall j, (j < k)%nat -> dot n (D j) v = 0) -> dot n x v = 0) /\
  (forall j, k = S j -> 0 <= dot n x (D j)).

Lemma growing_dir n A x k G D al : cg_hist n A k G D al -> growing n x k D ->
  0 <= dot n x (cg_dir n (G k) (hist_prev n k G D)).
Proof.
  intros H (F1 & F2).
  assert (GB : dot n x (G k) = 0).
  { apply F1. intros j Hj. rewrite dot_sym. apply (h_gd _ _ _ _ _ _ H); lia. }
  destruct k as [|k]; cbn [hist_prev cg_dir]; [rewrite dot_neg_r; lra|].
  rewrite dot_add_r, dot_neg_r, dot_scal_r, GB. specialize (F2 k eq_refl).
  pose proof (h_nz _ _ _ _ _ _ H k ltac:(lia)). pose proof (dot_self_nonneg n (G (S k))).
  assert (0 <= dot n (G (S k)) (G (S k)) / dot n (G k) (G k))
    by (apply Rmult_le_pos; [assumption|apply Rlt_le, Rinv_0_lt_compat; lra]).
  assert (0 <= dot n (G (S k)) (G (S k)) / dot n (G k) (G k) * dot n x (D k)) by (apply Rmult_le_pos; assumption).
  lra.
Qed.

Lemma longer_along n x d t : 0 <= dot n x d -> 0 <= t ->
  dot n x x <= dot n (vadd x (vscal t d)) (vadd x (vscal t d)).
Proof.
  intros H T. rewrite dot_add_l, !dot_add_r, !dot_scal_l, !dot_scal_r, (dot_sym n d x).
  assert (0 <= t * dot n x d) by (apply Rmult_le_pos; assumption).
  assert (0 <= t * (t * dot n d d)) by (apply Rmult_le_pos; [exact T|]; apply Rmult_le_pos; [exact T|apply dot_self_nonneg]). lra.
Qed.

Lemma cg_loop_longer n A delta tol2 mi1 mi2 rem i1 i2 x k G D al :
  symmetric n A -> 0 <= delta -> 0 <= tol2 -> cg_hist n A k G D al -> growing n x k D ->
  dot n x x <= delta * delta ->
  let a := tcg_x (tcg_loop n A delta tol2 mi2 rem i2 x (G k) (hist_prev n k G D)) in
  let b := tcg_x (tcg_loop n A delta tol2 mi1 (S rem) i1 x (G k) (hist_prev n k G D)) in
  dot n a a <= dot n b b.
Proof.
  intros HA Hd Ht. revert i1 i2 x k G D al. induction rem as [|rem IH]; intros i1 i2 x k G D al H F X; cbv zeta.
  - rewrite (cg_unfold n A delta tol2 mi2 0), (cg_unfold n A delta tol2 mi1 1). cbv zeta.
    destruct (Rleb_spec (dot n (G k) (G k)) tol2) as [L|L]; cbn [tcg_x]; [lra|].
    pose proof (growing_dir n A x k G D al H F) as FD.
    pose proof (hist_prev_ok n A k G D al H) as HP.
    pose proof (cg_dir_nonzero n (G k) _ HP ltac:(lra)) as Hnz.
    pose proof (cg_dir_descent n (G k) _ HP) as Hgd.
    set (d := cg_dir n (G k) (hist_prev n k G D)) in *.
    destruct (Rleb_spec (dot n d (mv n A d)) 0) as [C|C]; cbn [tcg_x].
    + destruct (comp_dir_spec n x (vadd x d) delta Hd X ltac:(rewrite dir_dot; exact Hnz)) as [t [T [_ N]]]. rewrite N. exact X.
    + set (alpha := - dot n (G k) d / dot n d (mv n A d)) in *.
      assert (AL : 0 <= alpha).
      { unfold alpha. rewrite Hgd. apply Rmult_le_pos; [lra|apply Rlt_le, Rinv_0_lt_compat; lra]. }
      destruct (Rltb_spec (delta * delta) (dot n (vadd x (vscal alpha d)) (vadd x (vscal alpha d)))) as [O|O]; cbn [tcg_x].
      * assert (Hdd : dot n (vsub (vadd x (vscal alpha d)) x) (vsub (vadd x (vscal alpha d)) x) <> 0).
        { intros E. apply dot_self_zero in E.
          assert (dot n (vadd x (vscal alpha d)) (vadd x (vscal alpha d)) = dot n x x).
          { apply dot_ext; intros i Hi; specialize (E i Hi); unfold vsub, vzero in E; lra. }
          lra. }
        destruct (comp_dir_spec n x _ delta Hd X Hdd) as [t [T [_ N]]]. rewrite N. exact X.
      * rewrite cg_unfold. cbv zeta.
        match goal with |- context [tcg_x (if ?c then _ else _)] => destruct c end; cbn [tcg_x]; apply longer_along; assumption.
  - rewrite (cg_unfold n A delta tol2 mi2 (S rem)), (cg_unfold n A delta tol2 mi1 (S (S rem))). cbv zeta.
    destruct (Rleb_spec (dot n (G k) (G k)) tol2) as [L|L]; cbn [tcg_x]; [lra|].
    pose proof (growing_dir n A x k G D al H F) as FD.
    pose proof (cg_dir_descent n (G k) _ (hist_prev_ok n A k G D al H)) as Hgd.
    assert (HS0 := hist_step n A k G D al HA H ltac:(lra)). cbv zeta in HS0.
    set (d := cg_dir n (G k) (hist_prev n k G D)) in *.
    destruct (Rleb_spec (dot n d (mv n A d)) 0) as [C|C]; cbn [tcg_x]; [lra|].
    set (alpha := - dot n (G k) d / dot n d (mv n A d)) in *.
    destruct (Rltb_spec (delta * delta) (dot n (vadd x (vscal alpha d)) (vadd x (vscal alpha d)))) as [O|O]; cbn [tcg_x]; [lra|].
    assert (AL : 0 <= alpha).
    { unfold alpha. rewrite Hgd. apply Rmult_le_pos; [lra|apply Rlt_le, Rinv_0_lt_compat; lra]. }
    specialize (HS0 ltac:(lra)). destruct F as (F1 & F2).
    specialize (IH (S i1) (S i2) (vadd x (vscal alpha d)) (S k) _ _ _ HS0).
    rewrite fupd_eq in IH. cbn [hist_prev] in IH. rewrite fupd_eq, fupd_ne in IH by lia.
    apply IH; [|lra]. split.
    + intros v Hv. rewrite dot_add_l, dot_scal_l.
      pose proof (Hv k ltac:(lia)) as V. rewrite fupd_eq in V. rewrite V, (F1 v); [ring|].
      intros j Hj. specialize (Hv j ltac:(lia)). rewrite fupd_ne in Hv by lia. exact Hv.
    + intros j E. injection E as <-. rewrite fupd_eq, dot_add_l, dot_scal_l.
      assert (0 <= alpha * dot n d d) by (apply Rmult_le_pos; [exact AL|apply dot_self_nonneg]). lra.
Qed.

Lemma cg_longer n A b delta max_iter tol : symmetric n A -> 0 <= delta ->
  norm n (tcg_x (truncated_cg n A b delta max_iter tol)) <= norm n (tcg_x (truncated_cg n A b delta (S max_iter) tol)).
Proof.
  intros HA Hd. unfold norm. apply sqrt_le_1_alt. unfold truncated_cg.
  assert (H : cg_hist n A 0 (fun _ => vneg b) (fun _ => vzero) (fun _ => 0)) by (constructor; intros; lia).
  apply (cg_loop_longer n A delta (tol * tol) (S max_iter) max_iter max_iter 1 1 vzero 0 _ _ _ HA Hd ltac:(nra) H).
  - split; [intros; apply dot_zero_l|intros j E; discriminate].
  - rewrite dot_zero_l. nra.
Qed.
