(** The step of truncated conjugate gradients has a non-negative product with
    the right-hand side. *)
From Coq Require Import Reals Lra Lia Arith ZArith.
From Verif Require Import RVec RBool CG_Model CG_Spec CG_Proofs.
Open Scope R_scope.

(** what is kept besides the history: the first gradient is [-b], and neither
    the step nor the last direction points against [b] *)
Definition forward (n : nat) (b x : vec) (k : nat) (G D : nat -> vec) : Prop :=
  veq n (G 0%nat) (vneg b) /\ 0 <= dot n b x /\ (forall j, k = S j -> 0 <= dot n b (D j)).

Lemma forward_dir n A b x k G D al : cg_hist n A k G D al -> forward n b x k G D ->
  0 <= dot n b (cg_dir n (G k) (hist_prev n k G D)).
Proof.
  intros H (F0 & F1 & F2).
  assert (GB : dot n b (G k) <= 0).
  { replace (dot n b (G k)) with (- dot n (G 0%nat) (G k)).
    2:{ rewrite (dot_ext_l n _ _ _ F0), dot_neg_l. ring. }
    destruct k as [|k]; [pose proof (dot_self_nonneg n (G 0%nat)); lra|].
    rewrite dot_sym, (h_gg _ _ _ _ _ _ H 0 (S k)) by lia. lra. }
  destruct k as [|k]; cbn [hist_prev cg_dir]; [rewrite dot_neg_r; lra|].
  rewrite dot_add_r, dot_neg_r, dot_scal_r. specialize (F2 k eq_refl).
  pose proof (h_nz _ _ _ _ _ _ H k ltac:(lia)). pose proof (dot_self_nonneg n (G (S k))).
  assert (0 <= dot n (G (S k)) (G (S k)) / dot n (G k) (G k))
    by (apply Rmult_le_pos; [assumption|apply Rlt_le, Rinv_0_lt_compat; lra]).
  assert (0 <= dot n (G (S k)) (G (S k)) / dot n (G k) (G k) * dot n b (D k)) by (apply Rmult_le_pos; assumption).
  lra.
Qed.

Lemma cg_loop_forward n A b delta tol2 max_iter rem iter x k G D al :
  symmetric n A -> 0 <= delta -> 0 <= tol2 -> cg_hist n A k G D al -> forward n b x k G D ->
  dot n x x <= delta * delta ->
  0 <= dot n b (tcg_x (tcg_loop n A delta tol2 max_iter rem iter x (G k) (hist_prev n k G D))).
Proof.
  intros HA Hdl Htol. revert iter x k G D al. induction rem as [|rem IH]; intros iter x k G D al H F X;
    rewrite cg_unfold; cbv zeta; destruct (Rleb_spec (dot n (G k) (G k)) tol2) as [L|L];
    cbn [tcg_x]; try apply F.
  pose proof (forward_dir n A b x k G D al H F) as FD.
  pose proof (hist_prev_ok n A k G D al H) as HP.
  pose proof (cg_dir_nonzero n (G k) _ HP ltac:(lra)) as Hnz.
  pose proof (cg_dir_descent n (G k) _ HP) as Hgd.
  assert (HS0 := hist_step n A k G D al HA H ltac:(lra)). cbv zeta in HS0.
  set (d := cg_dir n (G k) (hist_prev n k G D)) in *.
  destruct F as (F0 & F1 & F2).
  assert (ON : forall y t, 0 <= t -> veq n y (vadd x (vscal t d)) -> 0 <= dot n b y).
  { intros y t T E. rewrite (dot_ext_r n b _ _ E), dot_add_r, dot_scal_r.
    assert (0 <= t * dot n b d) by (apply Rmult_le_pos; assumption). lra. }
  destruct (Rleb_spec (dot n d (mv n A d)) 0) as [C|C]; cbn [tcg_x].
  - destruct (comp_dir_spec n x (vadd x d) delta Hdl X ltac:(rewrite dir_dot; exact Hnz)) as [t [Ht [Hx _]]].
    apply (ON _ t Ht). intros i Hi. rewrite Hx. unfold vadd, vscal. ring.
  - set (alpha := - dot n (G k) d / dot n d (mv n A d)) in *.
    assert (AL : 0 <= alpha).
    { unfold alpha. rewrite Hgd. apply Rmult_le_pos; [lra|apply Rlt_le, Rinv_0_lt_compat; lra]. }
    destruct (Rltb_spec (delta * delta) (dot n (vadd x (vscal alpha d)) (vadd x (vscal alpha d)))) as [O|O]; cbn [tcg_x].
    + assert (Hdd : dot n (vsub (vadd x (vscal alpha d)) x) (vsub (vadd x (vscal alpha d)) x) <> 0).
      { intros E. apply dot_self_zero in E.
        assert (dot n (vadd x (vscal alpha d)) (vadd x (vscal alpha d)) = dot n x x).
        { apply dot_ext; intros i Hi; specialize (E i Hi); unfold vsub, vzero in E; lra. }
        lra. }
      destruct (comp_dir_spec n x _ delta Hdl X Hdd) as [t [Ht [Hx _]]].
      apply (ON _ (t * alpha)); [apply Rmult_le_pos; assumption|]. intros i Hi. rewrite Hx. unfold vadd, vscal. ring.
    + specialize (HS0 ltac:(lra)).
      specialize (IH (S iter) (vadd x (vscal alpha d)) (S k) _ _ _ HS0).
      rewrite fupd_eq in IH. cbn [hist_prev] in IH. rewrite fupd_eq, fupd_ne in IH by lia.
      apply IH; [|lra]. split; [|split].
      * rewrite fupd_ne by lia. exact F0.
      * apply (ON _ alpha AL). intros i Hi. reflexivity.
      * intros j E. injection E as <-. rewrite fupd_eq. exact FD.
Qed.

Lemma cg_forward n A b delta max_iter tol : symmetric n A -> 0 <= delta ->
  0 <= dot n b (tcg_x (truncated_cg n A b delta max_iter tol)).
Proof.
  intros HA Hd. unfold truncated_cg.
  assert (H : cg_hist n A 0 (fun _ => vneg b) (fun _ => vzero) (fun _ => 0)) by (constructor; intros; lia).
  apply (cg_loop_forward n A b delta (tol * tol) max_iter max_iter 1 vzero 0 _ _ _ HA Hd ltac:(nra) H).
  - split; [intros i _; reflexivity|]. split; [rewrite dot_zero_r; lra|intros j E; discriminate].
  - rewrite dot_zero_l. nra.
Qed.
