(** Proofs about the trust-region solver. *)
From Coq Require Import Reals Lra Psatz Lia List Arith Bool.
From Verif Require Import RVec RBool Tri MS_Model MS_Spec.
Import ListNotations.
Open Scope R_scope.

(** ** The sub-problem *)

Lemma vsub_self n s : veq n (vsub s s) vzero.
Proof. intros i Hi. unfold vsub, vzero. ring. Qed.

Lemma dot_vsub_sq n d s : dot n (vsub d s) (vsub d s) = dot n d d - 2 * dot n d s + dot n s s.
Proof. rewrite dot_sub_l, !dot_sub_r, (dot_sym n s d). ring. Qed.

Lemma quad_vsub n A d s : symmetric n A -> quad n A (vsub d s) = quad n A d - 2 * dot n d (mv n A s) + quad n A s.
Proof.
  intros S. unfold quad. rewrite dot_sub_l, !dot_mv_sub. rewrite (dot_mv_sym n A s d S). ring.
Qed.

Lemma stationary_dot n g H lam s d : stationary n g H lam s -> dot n d (mv n H s) + lam * dot n d s = - dot n g d.
Proof.
  intros S. unfold dot. rewrite <- rsum_scal, <- rsum_plus.
  transitivity (rsum n (fun i => -1 * (g i * d i))); [|rewrite rsum_scal; ring].
  apply rsum_ext. intros i Hi. pose proof (S i Hi) as E.
  transitivity (d i * (mv n H s i + lam * s i)); [ring|]. rewrite E. ring.
Qed.

Lemma gain n g H lam s d : symmetric n H -> stationary n g H lam s ->
  qmodel n g H d - qmodel n g H s =
  / 2 * (quad n H (vsub d s) + lam * dot n (vsub d s) (vsub d s)) + lam / 2 * (dot n s s - dot n d d).
Proof.
  intros SH S. pose proof (stationary_dot n g H lam s d S) as E1. pose proof (stationary_dot n g H lam s s S) as E2.
  unfold qmodel. rewrite quad_vsub, dot_vsub_sq by exact SH. unfold quad in *. lra.
Qed.

Lemma shift_pd_psd n H lam : shift_pd n H lam -> shift_psd n H lam.
Proof.
  intros P x. destruct (Req_EM_T (dot n x x) 0) as [E|E].
  - apply dot_self_zero in E. rewrite (quad_ext n H x vzero E), (dot_ext n x vzero x vzero E E).
    unfold quad. rewrite !dot_zero_l. lra.
  - apply Rlt_le, P. intros Z. apply E. apply dot_self_zero. exact Z.
Qed.

Lemma norm_le_dot n x y : norm n x <= norm n y -> dot n x x <= dot n y y.
Proof.
  intros L. pose proof (norm_nonneg n x). pose proof (norm_nonneg n y). rewrite <- !norm_sq. nra.
Qed.
Lemma norm_le_sq n x r : norm n x <= r -> dot n x x <= r * r.
Proof. intros L. pose proof (norm_nonneg n x). rewrite <- norm_sq. nra. Qed.

Lemma opt_bound n g H lam s d : symmetric n H -> stationary n g H lam s -> shift_psd n H lam ->
  qmodel n g H s <= qmodel n g H d + lam / 2 * (dot n d d - dot n s s).
Proof.
  intros SH S P. pose proof (gain n g H lam s d SH S) as E. pose proof (P (vsub d s)) as Q. lra.
Qed.

Lemma opt_minimises n g H lam s r : symmetric n H -> stationary n g H lam s -> shift_psd n H lam -> 0 <= lam -> 0 <= r ->
  minimises n g H r (lam / 2 * (r * r - dot n s s)) s.
Proof.
  intros SH S P L Hr d Hd. pose proof (opt_bound n g H lam s d SH S P). pose proof (norm_le_sq n d r Hd). nra.
Qed.

Lemma opt_own n g H lam s : symmetric n H -> stationary n g H lam s -> shift_psd n H lam -> 0 <= lam ->
  minimises n g H (norm n s) 0 s.
Proof.
  intros SH S P L d Hd. pose proof (opt_bound n g H lam s d SH S P). apply norm_le_dot in Hd. nra.
Qed.

Lemma opt_descent n g H lam s : symmetric n H -> stationary n g H lam s -> shift_psd n H lam -> 0 <= lam ->
  qmodel n g H s <= - (lam / 2 * dot n s s).
Proof.
  intros SH S P L. pose proof (opt_bound n g H lam s vzero SH S P) as E.
  unfold qmodel at 2, quad in E. rewrite dot_zero_r, !dot_zero_l in E. lra.
Qed.

(** the length of the step decreases with lambda *)
Lemma secular_mono n g H lam lam' s s' : symmetric n H ->
  stationary n g H lam s -> shift_psd n H lam -> stationary n g H lam' s' -> shift_psd n H lam' ->
  lam < lam' -> norm n s' <= norm n s.
Proof.
  intros SH S P S' P' L.
  pose proof (opt_bound n g H lam s s' SH S P). pose proof (opt_bound n g H lam' s' s SH S' P').
  assert (dot n s' s' <= dot n s s) by nra.
  unfold norm. apply sqrt_le_1_alt. assumption.
Qed.

(** ** The factorisation *)

Lemma quad_shifted n H lam x : quad n (shifted H lam) x = quad n H x + lam * dot n x x.
Proof.
  unfold quad. rewrite <- (quad_idm n x). unfold quad. unfold dot at 1 2 3. rewrite <- rsum_scal, <- rsum_plus. apply rsum_ext. intros i Hi.
  unfold mv, shifted. rewrite (rsum_ext n _ (fun j => H i j * x j + lam * (idm i j * x j))) by (intros; ring).
  rewrite rsum_plus, rsum_scal. ring.
Qed.
Lemma symmetric_shifted n H lam : symmetric n H -> symmetric n (shifted H lam).
Proof. intros S i j Hi Hj. unfold shifted. rewrite (S i j Hi Hj). unfold idm. rewrite (Nat.eqb_sym i j). reflexivity. Qed.
Lemma mv_shifted n H lam x i : (i < n)%nat -> mv n (shifted H lam) x i = mv n H x i + lam * x i.
Proof.
  intros Hi. transitivity (mv n H x i + lam * mv n idm x i); [|rewrite (mv_idm n x i Hi); reflexivity]. unfold mv, shifted. rewrite <- rsum_scal, <- rsum_plus. apply rsum_ext. intros j Hj. ring.
Qed.

Lemma square_mv n U A x i : (i < n)%nat -> (forall i j, (i < n)%nat -> (j < n)%nat -> rsum n (fun k => U k i * U k j) = A i j) ->
  mv n (tr U) (mv n U x) i = mv n A x i.
Proof.
  intros Hi E. rewrite mv_comp. apply mv_ext_mat. intros j Hj. rewrite <- (E i j Hi Hj). reflexivity.
Qed.

Lemma square_quad n U A x : (forall i j, (i < n)%nat -> (j < n)%nat -> rsum n (fun k => U k i * U k j) = A i j) ->
  quad n A x = dot n (mv n U x) (mv n U x).
Proof.
  intros E. unfold quad. rewrite (dot_mv_tr n n U x (mv n U x)). apply dot_ext; [intros i Hi; reflexivity|].
  intros i Hi. symmetry. apply square_mv; assumption.
Qed.

Lemma chol_pd n chol H lam U : chol_exact n chol -> symmetric n H -> chol (shifted H lam) = Some U -> shift_pd n H lam.
Proof.
  intros C SH E x NX. destruct (C _ (symmetric_shifted n H lam SH)) as [C1 _]. destruct (C1 U E) as (UP & D & SQ).
  rewrite <- quad_shifted, (square_quad n U _ x SQ). apply dot_self_pos. intros Z. apply NX.
  apply (upper_inj n U UP D). exact Z.
Qed.

Lemma chol_none n chol H lam : chol_exact n chol -> symmetric n H -> chol (shifted H lam) = None -> ~ shift_pd n H lam.
Proof.
  intros C SH E P. destruct (C _ (symmetric_shifted n H lam SH)) as [_ C2]. apply C2; [|exact E].
  intros x NX. rewrite quad_shifted. apply P. exact NX.
Qed.

Lemma neg_triangle n U : upper n U -> diag_nz n U -> triangle n (fun i j => - U i j).
Proof.
  intros U1 D. split; [right|].
  - intros i j Hi Hj L. rewrite U1 by assumption. ring.
  - intros i Hi E. apply (D i Hi). lra.
Qed.

Lemma chol_solution n chol slv H g lam U y s : chol_exact n chol -> slv_exact n slv -> symmetric n H ->
  chol (shifted H lam) = Some U -> slv (tr U) g = Some y -> slv (fun i j => - U i j) y = Some s ->
  stationary n g H lam s.
Proof.
  intros C S SH E E1 E2. destruct (C _ (symmetric_shifted n H lam SH)) as [C1 _]. destruct (C1 U E) as (UP & D & SQ).
  destruct (S (tr U) g) as (y' & Ey & Hy); [apply triangle_tr; split; [right; exact UP|exact D]|].
  rewrite E1 in Ey. injection Ey as <-.
  destruct (S (fun i j => - U i j) y (neg_triangle n U UP D)) as (s' & Es & Hs). rewrite E2 in Es. injection Es as <-.
  intros i Hi. rewrite <- (mv_shifted n H lam s i Hi). rewrite <- (square_mv n U (shifted H lam) s i Hi SQ).
  rewrite <- (Hy i Hi).
  transitivity (mv n (tr U) (vscal (-1) y) i).
  - apply mv_ext. intros k Hk. unfold vscal. rewrite <- (Hs k Hk). unfold mv. rewrite <- rsum_scal. apply rsum_ext. intros; ring.
  - rewrite mv_scal. ring.
Qed.

(** ** The loop *)

Lemma theta_range : 0 < ms_theta < 1.
Proof. unfold ms_theta. split; [apply Rinv_0_lt_compat, pow_lt; lra|]. rewrite <- Rinv_1. apply Rinv_lt_contravar; [|apply Rlt_pow_R1; [lra|lia]]. rewrite Rmult_1_l. apply pow_lt. lra. Qed.
Lemma epsilon_pos : 0 < ms_epsilon.
Proof. unfold ms_epsilon. apply Rinv_0_lt_compat, pow_lt. lra. Qed.

Lemma inner_between l u : 0 <= l <= u -> l <= ms_inner l u <= u.
Proof.
  intros (L & U). unfold ms_inner. pose proof theta_range as T.
  assert (A : l <= sqrt (l * u)) by (rewrite <- (sqrt_square l L) at 1; apply sqrt_le_1_alt; nra).
  assert (B : sqrt (l * u) <= u) by (rewrite <- (sqrt_square u) at 2 by lra; apply sqrt_le_1_alt; nra).
  split; [eapply Rle_trans; [exact A|apply Rmax_l]|]. apply Rmax_lub; [exact B|]. nra.
Qed.

Lemma first_between l u : 0 <= l <= u -> l <= ms_first l u <= u.
Proof. intros B. unfold ms_first. destruct (Reqb_spec l 0); [lra|]. apply inner_between. exact B. Qed.

Lemma norminf_nonneg n H : 0 <= norminf n H.
Proof.
  unfold norminf. enough (forall l m, 0 <= m -> 0 <= fold_left (fun m i => Rmax m (rsum n (fun j => Rabs (H i j)))) l m) as E by (apply E; lra).
  induction l as [|a l IH]; intros m Hm; cbn [fold_left]; [exact Hm|]. apply IH. eapply Rle_trans; [exact Hm|apply Rmax_l].
Qed.
Lemma hn_nonneg n H : 0 <= ms_hn n H.
Proof. unfold ms_hn. apply Rmin_glb; [apply norminf_nonneg|apply sqrt_pos]. Qed.

Lemma start_between n g H D : 0 < D -> 0 <= ms_lower n g H D <= ms_upper n g H D.
Proof.
  intros HD. unfold ms_lower, ms_upper. pose proof (hn_nonneg n H). split; [apply Rmax_l|].
  apply Rle_max_compat_l. lra.
Qed.

Section Loop.
Variable chol : mat -> option mat.
Variable slv : mat -> vec -> option vec.
Variables (n : nat) (g : vec) (H : mat) (Delta eps_D : R).
Let step := ms_step chol slv n g H Delta eps_D.
Let loop := ms_loop chol slv n g H Delta eps_D.

(** any answers: the bounds stay ordered and lambda between them *)
Lemma step_between l u lam l' u' lam' st : 0 <= l <= lam -> lam <= u ->
  step l u lam = PNext l' u' lam' st -> 0 <= l' <= lam' /\ lam' <= u' /\ l <= l' /\ u' <= u.
Proof.
  intros L U E. unfold step, ms_step in E. pose proof theta_range as T.
  destruct (chol (shifted H lam)) as [W|].
  - destruct (slv (tr W) g) as [y|]; [|discriminate]. destruct (slv _ y) as [s|]; [|discriminate].
    destruct (_ || _)%bool; [discriminate|]. destruct (slv (tr W) s) as [w|]; [|discriminate].
    set (new := lam + _) in E. clearbody new.
    destruct (Rltb ((1 + eps_D) * Delta) (norm n s)).
    + destruct (_ && _)%bool eqn:C; inversion E; subst; clear E.
      * apply andb_true_iff in C. destruct C as [C1 C2]. rb. repeat split; nra.
      * pose proof (inner_between l' u' ltac:(lra)). lra.
    + destruct (_ && _)%bool eqn:C; inversion E; subst; clear E.
      * apply andb_true_iff in C. destruct C as [C1 C2]. rb. repeat split; nra.
      * pose proof (inner_between l' u' ltac:(lra)). lra.
  - inversion E; subst; clear E. lra.
Qed.

Lemma loop_count k nf l u lam r m : loop k nf l u lam = Some (r, m) -> (nf <= m <= nf + k)%nat.
Proof.
  revert nf l u lam. induction k as [|k IH]; intros nf l u lam E; cbn in E.
  - inversion E; subst; lia.
  - destruct (ms_step _ _ _ _ _ _ _ _ _ _) as [|s|l' u' lam' st]; [discriminate|inversion E; subst; lia|].
    destruct st; [inversion E; subst; lia|]. apply IH in E. lia.
Qed.

Lemma loop_exit k nf l u lam s mu m : 0 <= l <= lam -> lam <= u ->
  loop k nf l u lam = Some (Some (s, mu), m) ->
  0 <= mu /\ exists l u, step l u mu = PExit s.
Proof.
  revert nf l u lam. induction k as [|k IH]; intros nf l u lam L U E; cbn in E; [discriminate|].
  destruct (ms_step _ _ _ _ _ _ _ _ _ _) as [|s'|l' u' lam' st] eqn:ST; [discriminate| |].
  - inversion E; subst. split; [lra|]. exists l, u. exact ST.
  - destruct st; [discriminate|]. destruct (step_between _ _ _ _ _ _ _ L U ST) as (L' & U' & _).
    exact (IH _ _ _ _ L' U' E).
Qed.

Lemma exit_props l u lam s : chol_exact n chol -> slv_exact n slv -> symmetric n H ->
  step l u lam = PExit s ->
  stationary n g H lam s /\ shift_pd n H lam /\ norm n s <= (1 + eps_D) * Delta /\
  (lam <= ms_epsilon \/ (1 - eps_D) * Delta <= norm n s).
Proof.
  intros C S SH E. unfold step, ms_step in E.
  destruct (chol (shifted H lam)) as [W|] eqn:EC; [|discriminate].
  destruct (slv (tr W) g) as [y|] eqn:E1; [|discriminate]. destruct (slv _ y) as [s'|] eqn:E2; [|discriminate].
  destruct (_ || _)%bool eqn:X.
  - inversion E; subst s'. split; [exact (chol_solution n chol slv H g lam W y s C S SH EC E1 E2)|].
    split; [exact (chol_pd n chol H lam W C SH EC)|].
    apply orb_true_iff in X. destruct X as [X|X]; apply andb_true_iff in X; destruct X as [X1 X2]; rb; auto.
  - destruct (slv (tr W) s') as [w|]; discriminate.
Qed.

(** exact answers: no exception *)
Lemma step_total l u lam : chol_exact n chol -> slv_exact n slv -> symmetric n H -> step l u lam <> PRaise.
Proof.
  intros C S SH. unfold step, ms_step. destruct (chol (shifted H lam)) as [W|] eqn:EC; [|discriminate].
  destruct (C _ (symmetric_shifted n H lam SH)) as [C1 _]. destruct (C1 W EC) as (UP & D & SQ).
  assert (TT : triangle n (tr W)) by (apply triangle_tr; split; [right; exact UP|exact D]).
  destruct (S (tr W) g TT) as (y & -> & _).
  destruct (S (fun i j => - W i j) y (neg_triangle n W UP D)) as (s & -> & _).
  destruct (_ || _)%bool; [discriminate|]. destruct (S (tr W) s TT) as (w & -> & _). discriminate.
Qed.

Lemma loop_total k nf l u lam : chol_exact n chol -> slv_exact n slv -> symmetric n H -> loop k nf l u lam <> None.
Proof.
  intros C S SH. revert nf l u lam. induction k as [|k IH]; intros nf l u lam; cbn; [discriminate|].
  pose proof (step_total l u lam C S SH) as T. unfold step in T.
  destruct (ms_step _ _ _ _ _ _ _ _ _ _) as [|s|l' u' lam' st]; [congruence|discriminate|].
  destruct st; [discriminate|]. apply IH.
Qed.

(** the bounds keep enclosing the optimal lambda *)
Lemma step_bracket l u lam l' u' lam' st mu z : chol_exact n chol -> slv_exact n slv -> symmetric n H ->
  0 <= eps_D -> 0 < Delta ->
  stationary n g H mu z -> shift_psd n H mu -> norm n z = Delta ->
  l <= mu <= u -> step l u lam = PNext l' u' lam' st -> l' <= mu <= u'.
Proof.
  intros C S SH HE HD SZ PZ NZ B E. unfold step, ms_step in E.
  destruct (chol (shifted H lam)) as [W|] eqn:EC.
  - destruct (slv (tr W) g) as [y|] eqn:E1; [|discriminate]. destruct (slv _ y) as [s|] eqn:E2; [|discriminate].
    destruct (_ || _)%bool eqn:X; [discriminate|]. destruct (slv (tr W) s) as [w|]; [|discriminate].
    pose proof (chol_solution n chol slv H g lam W y s C S SH EC E1 E2) as SS.
    pose proof (shift_pd_psd _ _ _ (chol_pd n chol H lam W C SH EC)) as PS.
    destruct (Rltb_spec ((1 + eps_D) * Delta) (norm n s)) as [G|G].
    + assert (lam <= mu).
      { apply Rnot_lt_le. intros LT. pose proof (secular_mono n g H mu lam z s SH SZ PZ SS PS LT). nra. }
      destruct (_ && _)%bool; inversion E; subst; lra.
    + assert (NS : norm n s < (1 - eps_D) * Delta).
      { apply orb_false_iff in X. destruct X as [_ X]. apply andb_false_iff in X. destruct X as [X|X]; rb; lra. }
      assert (mu <= lam).
      { apply Rnot_lt_le. intros LT. pose proof (secular_mono n g H lam mu s z SH SS PS SZ PZ LT). nra. }
      destruct (_ && _)%bool; inversion E; subst; lra.
  - inversion E; subst; clear E. split; [|lra]. apply Rnot_lt_le. intros LT.
    apply (chol_none n chol H l' C SH EC). intros x NX. pose proof (PZ x). pose proof (dot_self_pos n x NX). nra.
Qed.
End Loop.

(** ** Matrix norms *)

Lemma mv_row_bound n H s i : mv n H s i * mv n H s i <=
  rsum n (fun j => Rabs (H i j)) * rsum n (fun j => Rabs (H i j) * (s j * s j)).
Proof.
  pose proof (cauchy_schwarz_sq n (fun j => sqrt (Rabs (H i j))) (fun j => sqrt (Rabs (H i j)) * Rabs (s j))) as C.
  unfold dot in C.
  rewrite (rsum_ext n (fun j => sqrt (Rabs (H i j)) * sqrt (Rabs (H i j))) (fun j => Rabs (H i j))) in C
    by (intros; apply sqrt_sqrt, Rabs_pos).
  rewrite (rsum_ext n (fun j => sqrt (Rabs (H i j)) * (sqrt (Rabs (H i j)) * Rabs (s j))) (fun j => Rabs (H i j * s j))) in C
    by (intros; rewrite <- Rmult_assoc, sqrt_sqrt, Rabs_mult by apply Rabs_pos; reflexivity).
  rewrite (rsum_ext n (fun j => sqrt (Rabs (H i j)) * Rabs (s j) * (sqrt (Rabs (H i j)) * Rabs (s j))) (fun j => Rabs (H i j) * (s j * s j))) in C.
  - eapply Rle_trans; [|exact C].
    assert (A : Rabs (mv n H s i) <= rsum n (fun j => Rabs (H i j * s j))).
    { unfold mv. clear C. generalize n at 1 2. intros m. induction m as [|m IH]; cbn [rsum]; [rewrite Rabs_R0; lra|].
      eapply Rle_trans; [apply Rabs_triang|]. lra. }
    rewrite <- (Rabs_pos_eq (mv n H s i * mv n H s i)) by nra. rewrite Rabs_mult.
    pose proof (Rabs_pos (mv n H s i)). nra.
  - intros j Hj. transitivity (sqrt (Rabs (H i j)) * sqrt (Rabs (H i j)) * (Rabs (s j) * Rabs (s j))); [ring|].
    rewrite sqrt_sqrt by apply Rabs_pos. rewrite <- Rabs_mult, (Rabs_pos_eq (s j * s j)) by nra. reflexivity.
Qed.

Lemma norminf_row n H i : (i < n)%nat -> rsum n (fun j => Rabs (H i j)) <= norminf n H.
Proof.
  intros Hi. unfold norminf. set (f := fun i => rsum n (fun j => Rabs (H i j))).
  change (f i <= fold_left (fun m i => Rmax m (f i)) (seq 0 n) 0).
  assert (G : forall l m, m <= fold_left (fun m i => Rmax m (f i)) l m).
  { induction l as [|a l IH]; intros m; cbn [fold_left]; [lra|]. eapply Rle_trans; [apply (Rmax_l m (f a))|apply IH]. }
  assert (I : In i (seq 0 n)) by (apply in_seq; lia). revert I. generalize (seq 0 n) 0.
  induction l as [|a l IH]; intros m [].
  - subst a. cbn [fold_left]. eapply Rle_trans; [apply (Rmax_r m (f i))|apply G].
  - cbn [fold_left]. apply IH. assumption.
Qed.

Lemma norm_mv_inf n H s : symmetric n H -> norm n (mv n H s) <= norminf n H * norm n s.
Proof.
  intros SH. pose proof (norminf_nonneg n H) as N0. pose proof (norm_nonneg n s) as N1.
  set (N := norminf n H) in *.
  assert (E : dot n (mv n H s) (mv n H s) <= (N * norm n s) * (N * norm n s)).
  { replace ((N * norm n s) * (N * norm n s)) with (N * (N * (norm n s * norm n s))) by ring. rewrite norm_sq.
    eapply Rle_trans.
    - unfold dot at 1. apply (rsum_le n _ (fun i => N * rsum n (fun j => Rabs (H i j) * (s j * s j)))).
      intros i Hi. eapply Rle_trans; [apply mv_row_bound|]. apply Rmult_le_compat_r; [|apply norminf_row; exact Hi].
      apply rsum_nonneg. intros j Hj. pose proof (Rabs_pos (H i j)). nra.
    - rewrite rsum_scal. apply Rmult_le_compat_l; [exact N0|]. rewrite rsum_swap.
      unfold dot. rewrite <- rsum_scal. apply rsum_le. intros j Hj. rewrite rsum_scal_r.
      apply Rmult_le_compat_r; [nra|].
      rewrite (rsum_ext n _ (fun i => Rabs (H j i))) by (intros i Hi; rewrite (SH i j Hi Hj); reflexivity).
      apply norminf_row. exact Hj. }
  rewrite <- (sqrt_square (N * norm n s)) by (apply Rmult_le_pos; assumption). unfold norm at 1. apply sqrt_le_1_alt. exact E.
Qed.

Lemma norm_mv_fro n H s : norm n (mv n H s) <= normfro n H * norm n s.
Proof.
  unfold normfro, norm. rewrite <- sqrt_mult_alt.
  - apply sqrt_le_1_alt. rewrite <- rsum_scal_r. unfold dot at 1. apply rsum_le. intros i Hi.
    exact (cauchy_schwarz_sq n (H i) s).
  - apply rsum_nonneg. intros i Hi. apply rsum_nonneg. intros j Hj. nra.
Qed.

Lemma norm_mv_hn n H s : symmetric n H -> norm n (mv n H s) <= ms_hn n H * norm n s.
Proof.
  intros SH. unfold ms_hn, Rmin. destruct (Rle_dec _ _); [apply norm_mv_inf; exact SH|apply norm_mv_fro].
Qed.

Lemma norm_neg n x : norm n (vneg x) = norm n x.
Proof. unfold norm. rewrite dot_neg_l, dot_neg_r. f_equal. ring. Qed.

(** the initial bounds enclose the optimal lambda *)
Lemma start_bracket n g H D mu z : symmetric n H -> 0 < D ->
  stationary n g H mu z -> 0 <= mu -> norm n z = D -> ms_lower n g H D <= mu <= ms_upper n g H D.
Proof.
  intros SH HD S M N. pose proof (norm_mv_hn n H z SH) as B. rewrite N in B. set (h := ms_hn n H) in *.
  assert (A1 : norm n g <= (h + mu) * D).
  { rewrite <- (norm_neg n g). rewrite (norm_ext n (vneg g) (vadd (mv n H z) (vscal mu z))).
    - eapply Rle_trans; [apply norm_triangle|]. rewrite norm_scal, N, Rabs_pos_eq by exact M. lra.
    - intros i Hi. unfold vneg, vadd, vscal. rewrite <- (S i Hi). reflexivity. }
  assert (A2 : mu * D <= norm n g + h * D).
  { rewrite <- N at 1. rewrite <- (Rabs_pos_eq mu M) at 1. rewrite <- norm_scal.
    rewrite (norm_ext n (vscal mu z) (vadd (vneg g) (vneg (mv n H z)))).
    - eapply Rle_trans; [apply norm_triangle|]. rewrite !norm_neg. lra.
    - intros i Hi. unfold vneg, vadd, vscal. pose proof (S i Hi). lra. }
  unfold ms_lower, ms_upper. fold h. split.
  - apply Rmax_lub; [exact M|]. apply (Rmult_le_reg_r D); [exact HD|].
    replace ((norm n g / D - h) * D) with (norm n g - h * D) by (field; lra). lra.
  - eapply Rle_trans; [|apply Rmax_r]. apply (Rmult_le_reg_r D); [exact HD|].
    replace ((norm n g / D + h) * D) with (norm n g + h * D) by (field; lra). lra.
Qed.

(** ** The pseudo hard case *)

Lemma norm_eq_sq n x r : 0 <= r -> dot n x x = r * r -> norm n x = r.
Proof. intros Hr E. unfold norm. rewrite E. apply sqrt_square. exact Hr. Qed.

Lemma hard_norm eigv eigd n g Delta mu v : 0 <= Delta -> 0 < norm n v ->
  norm n (hard_step eigv eigd n g Delta mu v) = Delta.
Proof.
  intros HD NV. unfold hard_step. set (sc := hard_scri eigv eigd n g mu). clearbody sc.
  destruct (Rleb_spec (norm n sc) Delta) as [L|L].
  - apply norm_eq_sq; [exact HD|]. set (a := norm n v ^ 2). set (b := dot n v sc). set (c := norm n sc ^ 2 - Delta ^ 2).
    assert (Ha : 0 < a) by (unfold a; nra).
    assert (Ea : dot n v v = a) by (rewrite <- norm_sq; unfold a; ring).
    pose proof (norm_nonneg n sc) as N0.
    assert (Hc : c <= 0) by (unfold c; nra).
    assert (Es : dot n sc sc = c + Delta * Delta) by (rewrite <- norm_sq; unfold c; ring).
    rewrite dot_add_l, !dot_add_r, !dot_scal_l, !dot_scal_r, (dot_sym n sc v). fold b. rewrite Ea, Es.
    unfold hard_root. set (q := sqrt (b * b - a * c)).
    assert (Q : q * q = b * b - a * c) by (apply sqrt_sqrt; nra).
    transitivity (Delta * Delta + c + 2 * ((- b + q) / a) * b + ((- b + q) / a) * ((- b + q) / a) * a); [ring|].
    transitivity (Delta * Delta + (c * a - b * b + q * q) / a); [field; lra|]. rewrite Q. field. lra.
  - assert (P : 0 < norm n sc) by lra. rewrite norm_scal, Rabs_pos_eq.
    + field. lra.
    + apply Rmult_le_pos; [exact HD|]. apply Rlt_le, Rinv_0_lt_compat, P.
Qed.

Lemma argmin_spec n d : (0 < n)%nat -> (argmin n d < n)%nat /\ forall i, (i < n)%nat -> d (argmin n d) <= d i.
Proof.
  induction n as [|n IH]; intros Hn; [lia|]. destruct n as [|n].
  - cbn. split; [lia|]. intros i Hi. assert (i = 0%nat) as -> by lia. lra.
  - destruct IH as (A & B); [lia|]. change (argmin (S (S n)) d) with
      (let j := argmin (S n) d in if Rltb (d (S n)) (d j) then S n else j). cbv zeta.
    set (j := argmin (S n) d) in *. destruct (Rltb_spec (d (S n)) (d j)) as [L|L].
    + split; [lia|]. intros i Hi. destruct (Nat.eq_dec i (S n)) as [->|N]; [lra|]. specialize (B i ltac:(lia)). lra.
    + split; [lia|]. intros i Hi. destruct (Nat.eq_dec i (S n)) as [->|N]; [lra|]. apply B. lia.
Qed.

Lemma filter_none {A} (f : A -> bool) l : length (filter f l) = 0%nat -> forall x, In x l -> f x = false.
Proof.
  intros E x I. destruct (f x) eqn:F; [|reflexivity]. assert (J : In x (filter f l)) by (apply filter_In; split; assumption).
  destruct (filter f l); [contradiction|discriminate].
Qed.
Lemma filter_all {A} (f : A -> bool) l : (length l <= length (filter f l))%nat -> forall x, In x l -> f x = true.
Proof.
  induction l as [|a l IH]; intros E x I; [contradiction|]. cbn in E.
  assert (FL : forall l' : list A, (length (filter f l') <= length l')%nat).
  { induction l' as [|b l' IL]; cbn; [lia|]. destruct (f b); cbn; lia. }
  pose proof (FL l). destruct (f a) eqn:F; cbn [length] in E; [|lia].
  destruct I as [->|I]; [exact F|]. apply IH; [lia|exact I].
Qed.

Section Hard.
Variables (n : nat) (g : vec) (H : mat) (V : mat) (d : vec).
Hypothesis EX : eigen_exact n H d V.

Lemma eig_mv x i : (i < n)%nat -> mv n H x i = rsum n (fun k => V i k * (d k * mv n (tr V) x k)).
Proof.
  intros Hi. destruct EX as [_ E]. unfold mv at 1.
  transitivity (rsum n (fun j => rsum n (fun k => V i k * (d k * (V j k * x j))))).
  - apply rsum_ext. intros j Hj. rewrite E by assumption. rewrite <- rsum_scal_r. apply rsum_ext. intros; ring.
  - rewrite rsum_swap. apply rsum_ext. intros k Hk. unfold mv, tr. rewrite <- !rsum_scal. reflexivity.
Qed.

Lemma eig_expand x i : (i < n)%nat -> x i = rsum n (fun k => V i k * mv n (tr V) x k).
Proof.
  intros Hi. destruct EX as [O _]. apply orthonormal_tr in O. symmetry. exact (orth_mv n n (tr V) x O i Hi).
Qed.

Lemma eig_quad x : quad n H x = rsum n (fun k => d k * (mv n (tr V) x k * mv n (tr V) x k)).
Proof.
  unfold quad. unfold dot.
  transitivity (rsum n (fun i => rsum n (fun k => x i * (V i k * (d k * mv n (tr V) x k))))).
  - apply rsum_ext. intros i Hi. rewrite eig_mv by exact Hi. rewrite <- rsum_scal. reflexivity.
  - rewrite rsum_swap. apply rsum_ext. intros k Hk.
    transitivity ((d k * mv n (tr V) x k) * rsum n (fun i => V i k * x i)).
    + rewrite <- rsum_scal. apply rsum_ext. intros; ring.
    + change (rsum n (fun i => V i k * x i)) with (mv n (tr V) x k). ring.
Qed.
Lemma eig_norm x : dot n x x = rsum n (fun k => mv n (tr V) x k * mv n (tr V) x k).
Proof.
  destruct EX as [O _]. apply orthonormal_tr in O. symmetry. exact (orth_norm n n (tr V) x O).
Qed.

Lemma eig_sym : symmetric n H.
Proof. intros i j Hi Hj. destruct EX as [_ E]. rewrite (E i j Hi Hj), (E j i Hj Hi). apply rsum_ext. intros; ring. Qed.

Lemma eig_psd mu : (forall i, (i < n)%nat -> mu <= d i) -> shift_psd n H (- mu).
Proof.
  intros M x. rewrite eig_quad, eig_norm, <- rsum_scal, <- rsum_plus. apply rsum_nonneg. intros k Hk.
  pose proof (M k Hk). set (y := mv n (tr V) x k). nra.
Qed.

Lemma eig_column k : (k < n)%nat -> 0 < norm n (fun i => V i k).
Proof.
  intros Hk. destruct EX as [O _]. pose proof (norm_nonneg n (fun i => V i k)) as N.
  pose proof (norm_sq n (fun i => V i k)) as S. unfold dot in S. rewrite (O k k Hk Hk) in S. unfold idm in S.
  rewrite Nat.eqb_refl in S. nra.
Qed.

Lemma eig_vec k i : (k < n)%nat -> (i < n)%nat -> mv n H (fun i => V i k) i = d k * V i k.
Proof.
  intros Hk Hi. rewrite eig_mv by exact Hi. destruct EX as [O _]. rewrite (rsum_single n k); [|exact Hk|].
  - unfold mv, tr. rewrite (O k k Hk Hk). unfold idm. rewrite Nat.eqb_refl. ring.
  - intros l Hl NE. unfold mv, tr. rewrite (O l k Hl Hk). unfold idm. destruct (Nat.eqb_spec l k); [contradiction|ring].
Qed.

Lemma scri_solves mu : let dd := fun i => d i - mu in
  (exists i, (i < n)%nat /\ hard_small (maxentry n dd) dd i = true) ->
  (exists i, (i < n)%nat /\ hard_small (maxentry n dd) dd i = false) ->
  (forall i, (i < n)%nat -> hard_small (maxentry n dd) dd i = true -> mv n (tr V) g i = 0) ->
  (forall i, (i < n)%nat -> hard_small (maxentry n dd) dd i = false -> d i <> mu) ->
  stationary n g H (- mu) (hard_scri V d n g mu).
Proof.
  cbv zeta. intros E1 E2 OG NZ i Hi. unfold hard_scri. set (sm := hard_small _ _) in *.
  set (ii := filter sm (seq 0 n)).
  assert (G : ((length ii <? n)%nat && negb (length ii =? 0)%nat)%bool = true).
  { apply andb_true_iff. split.
    - apply Nat.ltb_lt. destruct (Nat.lt_ge_cases (length ii) n) as [L|L]; [exact L|exfalso].
      destruct E2 as (k & Hk & F). pose proof (filter_all sm (seq 0 n)) as A. rewrite seq_length in A.
      specialize (A L k ltac:(apply in_seq; lia)). congruence.
    - apply negb_true_iff, Nat.eqb_neq. intros Z. destruct E1 as (k & Hk & F).
      pose proof (filter_none sm (seq 0 n) Z k ltac:(apply in_seq; lia)). congruence. }
  rewrite G. set (c := fun i => if sm i then 0 else mv n (tr V) g i / (d i - mu)).
  assert (T : forall k, (k < n)%nat -> mv n (tr V) (vneg (mv n V c)) k = - c k).
  { intros k Hk. transitivity (mv n (tr V) (vscal (-1) (mv n V c)) k).
    - apply mv_ext. intros l Hl. unfold vneg, vscal. ring.
    - rewrite mv_scal. destruct EX as [O _]. rewrite (orth_mv n n V c O k Hk). ring. }
  rewrite eig_mv by exact Hi. rewrite (eig_expand (vneg (mv n V c)) i Hi), (eig_expand g i Hi).
  rewrite <- rsum_scal, <- rsum_plus.
  transitivity (rsum n (fun k => -1 * (V i k * mv n (tr V) g k))); [|rewrite rsum_scal; ring].
  apply rsum_ext. intros k Hk. rewrite T by exact Hk. unfold c. destruct (sm k) eqn:F.
  - rewrite OG by assumption. ring.
  - pose proof (NZ k Hk F). field. lra.
Qed.

Lemma hard_stationary Delta mu k : (k < n)%nat -> d k = mu ->
  stationary n g H (- mu) (hard_scri V d n g mu) -> norm n (hard_scri V d n g mu) <= Delta ->
  stationary n g H (- mu) (hard_step V d n g Delta mu (fun i => V i k)).
Proof.
  intros Hk Dk S L i Hi. unfold hard_step. set (sc := hard_scri V d n g mu) in *.
  destruct (Rleb_spec (norm n sc) Delta); [|contradiction]. set (t := hard_root _ _ _).
  rewrite mv_add, mv_scal, (eig_vec k i Hk Hi), Dk. unfold vadd, vscal. rewrite <- (S i Hi). ring.
Qed.
End Hard.

(** ** The whole routine *)

Section Top.
Variable chol : mat -> option mat.
Variable slv : mat -> vec -> option vec.
Variable eigv : mat.
Variable eigd : vec.
Variables (n : nat) (g : vec) (H : mat) (Delta eps_D : R).
Let solve := solve_MS chol slv eigv eigd n g H Delta eps_D.

Lemma t_total : chol_exact n chol -> slv_exact n slv -> symmetric n H -> solve <> None.
Proof.
  intros C S SH. unfold solve, solve_MS. destruct (Reqb Delta 0); [discriminate|].
  destruct (Rltb _ _); [discriminate|].
  pose proof (loop_total chol slv n g H Delta eps_D ms_nitmax 0 (ms_lower n g H Delta) (ms_upper n g H Delta)
    (ms_first (ms_lower n g H Delta) (ms_upper n g H Delta)) C S SH) as T.
  destruct (ms_loop _ _ _ _ _ _ _ _ _ _ _ _) as [[[[s lam]|] k]|]; [discriminate|discriminate|congruence].
Qed.

Lemma t_count o : solve = Some o -> (ms_nfact o <= 300)%nat /\ (ms_neigd o <= 1)%nat /\ (ms_neigd o = 1%nat <-> ms_hard o = true).
Proof.
  unfold solve, solve_MS. intros E. destruct (Reqb Delta 0); [inversion E; subst; cbn; repeat split; auto; try lia; discriminate|].
  destruct (Rltb _ _); [inversion E; subst; cbn; repeat split; auto; try lia; discriminate|].
  destruct (ms_loop _ _ _ _ _ _ _ _ _ _ _ _) as [[[[s lam]|] k]|] eqn:L; [| |discriminate];
    apply loop_count in L; unfold ms_nitmax in L; inversion E; subst; clear E; cbn [ms_nfact ms_neigd ms_hard hard_case];
    repeat split; auto; try lia; discriminate.
Qed.

Lemma t_zero o : Delta = 0 \/ norm n g ^ 2 < / 10 ^ 12 -> solve = Some o ->
  ms_s o = vzero /\ ms_norms o = 0 /\ ms_value o = 0 /\ ms_nfact o = 0%nat /\ ms_hard o = false.
Proof.
  intros C E. unfold solve, solve_MS in E. destruct (Reqb_spec Delta 0) as [Z|Z]; [inversion E; subst; auto|].
  destruct C as [C|C]; [contradiction|]. unfold ms_epsilon in E.
  destruct (Rltb_spec (norm n g ^ 2) (/ 10 ^ 12)); [inversion E; subst; auto|contradiction].
Qed.

Lemma t_regular o : chol_exact n chol -> slv_exact n slv -> symmetric n H -> 0 < Delta -> / 10 ^ 12 <= norm n g ^ 2 ->
  solve = Some o -> ms_hard o = false ->
  0 <= ms_lambda o /\ stationary n g H (ms_lambda o) (ms_s o) /\ shift_pd n H (ms_lambda o) /\
  ms_norms o = norm n (ms_s o) /\ ms_norms o <= (1 + eps_D) * Delta /\
  (ms_lambda o <= / 10 ^ 12 \/ (1 - eps_D) * Delta <= ms_norms o) /\
  ms_value o = qmodel n g H (ms_s o) /\ ms_gplus o = vadd g (mv n H (ms_s o)).
Proof.
  intros C S SH HD HG E NH. unfold solve, solve_MS in E. destruct (Reqb_spec Delta 0) as [Z|Z]; [lra|].
  unfold ms_epsilon at 1 in E. destruct (Rltb_spec (norm n g ^ 2) (/ 10 ^ 12)); [lra|].
  destruct (ms_loop _ _ _ _ _ _ _ _ _ _ _ _) as [[[[s lam]|] k]|] eqn:L; [| |discriminate].
  - inversion E; subst; clear E. cbn [ms_s ms_lambda ms_norms ms_value ms_gplus].
    pose proof (start_between n g H Delta HD) as SB. pose proof (first_between _ _ SB) as FB.
    apply loop_exit in L; [|lra|lra]. destruct L as (L0 & l & u & X).
    destruct (exit_props chol slv n g H Delta eps_D l u lam s C S SH X) as (A1 & A2 & A3 & A4).
    repeat split; auto.
  - inversion E; subst. cbn in NH. discriminate.
Qed.

Lemma t_optimal o : chol_exact n chol -> slv_exact n slv -> symmetric n H -> 0 < Delta -> / 10 ^ 12 <= norm n g ^ 2 ->
  solve = Some o -> ms_hard o = false ->
  minimises n g H (ms_norms o) 0 (ms_s o) /\
  minimises n g H Delta (ms_lambda o / 2 * (Delta * Delta - ms_norms o * ms_norms o)) (ms_s o) /\
  ms_value o <= - (ms_lambda o / 2 * (ms_norms o * ms_norms o)).
Proof.
  intros C S SH HD HG E NH. destruct (t_regular o C S SH HD HG E NH) as (A0 & A1 & A2 & A3 & A4 & A5 & A6 & A7).
  apply shift_pd_psd in A2. rewrite A3, A6, norm_sq. split; [|split].
  - eapply opt_own; eassumption.
  - apply opt_minimises; try assumption. lra.
  - eapply opt_descent; eassumption.
Qed.

(** how far from the optimum over the ball a regular step is, without the multiplier *)
Lemma t_gap o : chol_exact n chol -> slv_exact n slv -> symmetric n H -> 0 < Delta -> / 10 ^ 12 <= norm n g ^ 2 ->
  0 <= eps_D <= 1 ->
  solve = Some o -> ms_hard o = false ->
  minimises n g H Delta (Rmax (/ 10 ^ 12 / 2 * (Delta * Delta)) (ms_lambda o * (eps_D * (Delta * Delta)))) (ms_s o).
Proof.
  intros C S SH HD HG HE E NH. destruct (t_regular o C S SH HD HG E NH) as (A0 & A1 & A2 & A3 & A4 & A5 & A6 & A7).
  destruct (t_optimal o C S SH HD HG E NH) as (_ & B & _). intros d Hd. specialize (B d Hd).
  eapply Rle_trans; [exact B|]. apply Rplus_le_compat_l.
  pose proof (norm_nonneg n (ms_s o)) as N. rewrite <- A3 in N.
  destruct A5 as [A5|A5].
  - eapply Rle_trans; [|apply Rmax_l]. generalize dependent (/ 10 ^ 12). intros. nra.
  - eapply Rle_trans; [|apply Rmax_r].
    assert ((1 - eps_D) * Delta * ((1 - eps_D) * Delta) <= ms_norms o * ms_norms o).
    { apply Rmult_le_compat; try assumption; apply Rmult_le_pos; lra. }
    assert (Delta * Delta - ms_norms o * ms_norms o <= 2 * (eps_D * (Delta * Delta))) by nra.
    nra.
Qed.

Lemma t_newton o z : chol_exact n chol -> slv_exact n slv -> symmetric n H -> 0 < Delta -> / 10 ^ 12 <= norm n g ^ 2 ->
  0 <= eps_D -> posdef n H -> (forall i, (i < n)%nat -> mv n H z i = - g i) -> norm n z <= Delta ->
  solve = Some o -> veq n (ms_s o) z /\ ms_lambda o = 0 /\ ms_nfact o = 1%nat /\ ms_hard o = false.
Proof.
  intros C S SH HD HG HE PD NZ NB E. unfold solve, solve_MS in E. destruct (Reqb_spec Delta 0) as [Z|Z]; [lra|].
  unfold ms_epsilon at 1 in E. destruct (Rltb_spec (norm n g ^ 2) (/ 10 ^ 12)); [lra|]. clear Z.
  assert (LO : ms_lower n g H Delta = 0).
  { unfold ms_lower. apply Rmax_left. pose proof (norm_mv_hn n H z SH) as B. pose proof (hn_nonneg n H) as P.
    assert (G : norm n g = norm n (mv n H z)).
    { rewrite <- (norm_neg n g). apply norm_ext. intros i Hi. rewrite (NZ i Hi). reflexivity. }
    apply (Rmult_le_reg_r Delta); [exact HD|].
    replace ((norm n g / Delta - ms_hn n H) * Delta) with (norm n g - ms_hn n H * Delta) by (field; lra).
    rewrite G. nra. }
  unfold ms_first in E. rewrite LO in E. destruct (Reqb_spec 0 0) as [_|X]; [|contradiction].
  unfold ms_nitmax in E. cbn [ms_loop] in E.
  destruct (ms_step chol slv n g H Delta eps_D 0 (ms_upper n g H Delta) 0) as [|s|l' u' lam' st] eqn:ST.
  - exfalso. exact (step_total chol slv n g H Delta eps_D 0 (ms_upper n g H Delta) 0 C S SH ST).
  - inversion E; subst; clear E. cbn [ms_s ms_lambda ms_nfact ms_hard]. repeat split; auto.
    destruct (exit_props chol slv n g H Delta eps_D _ _ 0 s C S SH ST) as (A1 & A2 & _).
    apply (inj_unique n H).
    + intros x X i Hi. destruct (Req_EM_T (dot n x x) 0) as [D|D].
      * apply dot_self_zero in D. exact (D i Hi).
      * exfalso. assert (NV : ~ veq n x vzero) by (intros V; apply D, dot_self_zero, V).
        specialize (PD x NV). unfold quad in PD. rewrite (dot_ext n x x (mv n H x) vzero) in PD; [|intros k Hk; reflexivity|intros k Hk; exact (X k Hk)].
        rewrite dot_zero_r in PD. lra.
    + intros i Hi. rewrite (NZ i Hi), <- (A1 i Hi). ring.
  - exfalso. unfold ms_step in ST.
    destruct (chol (shifted H 0)) as [W|] eqn:EC.
    + destruct (slv (tr W) g) as [y|] eqn:E1; [|discriminate]. destruct (slv _ y) as [s|] eqn:E2; [|discriminate].
      pose proof (chol_solution n chol slv H g 0 W y s C S SH EC E1 E2) as SS.
      assert (NS : norm n s <= (1 + eps_D) * Delta).
      { assert (D : veq n s z).
        { pose proof (gain n g H 0 s z SH SS) as G1. intros i Hi.
          destruct (Req_EM_T (dot n (vsub s z) (vsub s z)) 0) as [D|D].
          - apply dot_self_zero in D. specialize (D i Hi). unfold vsub, vzero in D. lra.
          - exfalso. assert (NV : ~ veq n (vsub s z) vzero) by (intros V; apply D, dot_self_zero, V).
            specialize (PD _ NV). unfold quad in PD.
            rewrite (dot_ext n (vsub s z) (vsub s z) (mv n H (vsub s z)) vzero) in PD.
            + rewrite dot_zero_r in PD. lra.
            + intros k Hk; reflexivity.
            + intros k Hk. rewrite mv_sub, (NZ k Hk). pose proof (SS k Hk). unfold vzero. lra. }
        rewrite (norm_ext n s z D). nra. }
      destruct (Rleb_spec 0 ms_epsilon) as [L|L]; [|pose proof epsilon_pos; lra].
      destruct (Rleb_spec (norm n s) ((1 + eps_D) * Delta)) as [L'|L']; [|contradiction].
      cbn [andb orb] in ST. discriminate.
    + apply (chol_none n chol H 0 C SH EC). intros x NX. specialize (PD x NX). lra.
Qed.

Lemma t_bracket k l u lam mu z : chol_exact n chol -> slv_exact n slv -> symmetric n H -> 0 <= eps_D -> 0 < Delta ->
  stationary n g H mu z -> shift_psd n H mu -> 0 <= mu -> norm n z = Delta ->
  passes chol slv n g H Delta eps_D k (ms_lower n g H Delta) (ms_upper n g H Delta) (ms_first (ms_lower n g H Delta) (ms_upper n g H Delta)) = Some (l, u, lam) ->
  l <= mu <= u /\ l <= lam <= u.
Proof using.
  clear solve eigv eigd.
  intros C S SH HE HD SZ PZ MU NZ.
  pose proof (start_bracket n g H Delta mu z SH HD SZ MU NZ) as B.
  pose proof (start_between n g H Delta HD) as SB. pose proof (first_between _ _ SB) as FB.
  revert B SB FB. generalize (ms_lower n g H Delta) (ms_upper n g H Delta) (ms_first (ms_lower n g H Delta) (ms_upper n g H Delta)).
  induction k as [|k IH]; intros l0 u0 lam0 B SB FB E; cbn [passes] in E.
  - inversion E; subst. split; assumption.
  - destruct (ms_step _ _ _ _ _ _ _ _ _ _) as [|s|l' u' lam' st] eqn:ST; try discriminate.
    pose proof (step_bracket chol slv n g H Delta eps_D l0 u0 lam0 l' u' lam' st mu z C S SH HE HD SZ PZ NZ B ST) as B'.
    destruct (step_between chol slv n g H Delta eps_D l0 u0 lam0 l' u' lam' st ltac:(lra) ltac:(lra) ST) as (X1 & X2 & _).
    apply (IH l' u' lam'); [exact B'|lra|lra|exact E].
Qed.

Lemma t_hard_norm o : 0 < Delta -> (forall k, (k < n)%nat -> 0 < norm n (fun i => eigv i k)) -> (0 < n)%nat ->
  solve = Some o -> ms_hard o = true ->
  ms_norms o = Delta /\
  ((/ 10 ^ 15 < Rabs (ms_value o) /\ norm n (ms_s o) = Delta /\ ms_value o = qmodel n g H (ms_s o)) \/
   (Rabs (ms_value o) <= / 10 ^ 15 /\ ms_s o = vzero)).
Proof.
  intros HD NV Hn E HC. unfold solve, solve_MS in E. destruct (Reqb_spec Delta 0) as [Z|Z]; [lra|].
  destruct (Rltb _ _); [inversion E; subst; discriminate HC|].
  destruct (ms_loop _ _ _ _ _ _ _ _ _ _ _ _) as [[[[s lam]|] k]|] eqn:L; [| |discriminate]; inversion E; subst; clear E; [discriminate HC|].
  clear HC. unfold hard_case. cbn [ms_norms ms_value ms_s].
  pose proof (hard_norm eigv eigd n g Delta (eigd (argmin n eigd)) (fun i => eigv i (argmin n eigd)) ltac:(lra)
     (NV _ (proj1 (argmin_spec n eigd Hn)))) as N.
  set (s := hard_step _ _ _ _ _ _ _) in *. split; [exact N|].
  destruct (Rleb_spec (Rabs (ms_model n g H s)) (/ 10 ^ 15)) as [A|A]; [right; auto|left].
  split; [lra|]. split; [exact N|reflexivity].
Qed.

Lemma t_hard_true o mu0 : 0 < Delta -> (0 < n)%nat -> eigen_exact n H eigd eigv ->
  hard_instance n g H eigd mu0 Delta ->
  solve = Some o -> ms_hard o = true ->
  ms_lambda o = - mu0 /\ shift_psd n H (ms_lambda o) /\ minimises n g H Delta (/ 10 ^ 15) (ms_s o) /\
  (/ 10 ^ 15 < Rabs (ms_value o) -> minimises n g H Delta 0 (ms_s o) /\ stationary n g H (ms_lambda o) (ms_s o)).
Proof.
  intros HD Hn EX (MU & ((k & Hk & MK) & SEP) & z & SZ & NZ) E HC.
  assert (OGZ : forall i, (i < n)%nat -> mv n (tr eigv) g i = - ((eigd i - mu0) * mv n (tr eigv) z i)).
  { intros i Hi. transitivity (mv n (tr eigv) (vadd (vscal (-1) (mv n H z)) (vscal mu0 z)) i).
    - apply mv_ext. intros l Hl. unfold vadd, vscal. pose proof (SZ l Hl). lra.
    - rewrite mv_add, !mv_scal.
      enough (X : mv n (tr eigv) (mv n H z) i = eigd i * mv n (tr eigv) z i) by (rewrite X; ring).
      transitivity (mv n (tr eigv) (mv n eigv (fun k => eigd k * mv n (tr eigv) z k)) i).
      + apply mv_ext. intros l Hl. rewrite (eig_mv n H eigv eigd EX z l Hl). reflexivity.
      + destruct EX as [O _]. rewrite (orth_mv n n eigv _ O i Hi). reflexivity. }
  unfold solve, solve_MS in E. destruct (Reqb_spec Delta 0) as [Z|Z]; [lra|].
  destruct (Rltb_spec (norm n g ^ 2) ms_epsilon) as [GG|GG]; [inversion E; subst; discriminate HC|].
  destruct (ms_loop _ _ _ _ _ _ _ _ _ _ _ _) as [[[[s lam]|] nf]|] eqn:L; [| |discriminate]; inversion E; subst; clear E; [discriminate HC|].
  clear HC L. unfold hard_case in *. cbn [ms_norms ms_value ms_s ms_lambda] in *.
  assert (PEX : exists p, (p < n)%nat /\ eigd k < eigd p).
  { destruct (existsb (fun i => Rltb (eigd k) (eigd i)) (seq 0 n)) eqn:B.
    - apply existsb_exists in B. destruct B as (p & I & F). apply in_seq in I. exists p. split; [lia|]. apply Rltb_true. exact F.
    - exfalso. apply GG. enough (N0 : norm n g = 0) by (rewrite N0; pose proof epsilon_pos; lra).
      apply norm_zero. intros i Hi. rewrite (eig_expand n H eigv eigd EX g i Hi). apply rsum_zero. intros l Hl.
      rewrite (OGZ l Hl). destruct (SEP l Hl) as [X|[X _]]; [rewrite X; ring|].
      exfalso. assert (T : existsb (fun i => Rltb (eigd k) (eigd i)) (seq 0 n) = true).
      { apply existsb_exists. exists l. split; [apply in_seq; lia|apply Rltb_true; exact X]. } congruence. }
  destruct PEX as (p & Hp & Pp).
  assert (MIN : forall i, (i < n)%nat -> eigd k <= eigd i) by (intros i Hi; destruct (SEP i Hi) as [X|[X _]]; lra).
  destruct (argmin_spec n eigd Hn) as (A1 & A2). set (im := argmin n eigd) in *.
  assert (EM : eigd im = eigd k) by (pose proof (A2 k Hk); pose proof (MIN im A1); lra).
  set (mu := eigd im) in *. set (dd := fun i => eigd i - mu).
  assert (MX : eigd p - mu <= maxentry n dd /\ exists q, (q < n)%nat /\ maxentry n dd = dd q).
  { assert (G : forall l m, (forall i, In i l -> (i < n)%nat) -> (exists q, (q < n)%nat /\ m = dd q) ->
       let r := fold_left (fun m i => Rmax m (dd i)) l m in
       m <= r /\ (forall i, In i l -> dd i <= r) /\ exists q, (q < n)%nat /\ r = dd q).
    { induction l as [|a l IH]; intros m Hl Hm; cbn [fold_left].
      - split; [lra|]. split; [intros i []|exact Hm].
      - destruct (IH (Rmax m (dd a))) as (B1 & B2 & B3).
        + intros i I. apply Hl. right. exact I.
        + unfold Rmax. destruct (Rle_dec m (dd a)); [exists a; split; [apply Hl; left; reflexivity|reflexivity]|exact Hm].
        + cbv zeta in *. split; [eapply Rle_trans; [apply (Rmax_l m (dd a))|exact B1]|]. split; [|exact B3].
          intros i [->|I]; [eapply Rle_trans; [apply (Rmax_r m (dd i))|exact B1]|exact (B2 i I)]. }
    destruct (G (seq 1 (n - 1)) (dd 0%nat)) as (B1 & B2 & B3).
    - intros i I. apply in_seq in I. lia.
    - exists 0%nat. split; [exact Hn|reflexivity].
    - cbv zeta in *. split; [|exact B3]. unfold maxentry. change (dd p <= fold_left (fun m i => Rmax m (dd i)) (seq 1 (n - 1)) (dd 0%nat)).
      destruct p as [|p]; [exact B1|]. apply B2. apply in_seq. lia. }
  destruct MX as (MX1 & q & Hq & MX2).
  assert (TEN : 0 < / 10 ^ 10) by (apply Rinv_0_lt_compat, pow_lt; lra).
  assert (SM : forall i, (i < n)%nat -> hard_small (maxentry n dd) dd i = true <-> eigd i = mu).
  { intros i Hi. unfold hard_small. rewrite Rltb_true. unfold dd at 1. split; intros X.
    - destruct (SEP i Hi) as [Y|[Y2 Y1]]; [lra|]. specialize (Y1 q Hq). rewrite MX2 in X. unfold dd in X.
      rewrite Rabs_pos_eq in X by lra. rewrite EM in X. lra.
    - rewrite X, Rminus_diag_eq, Rabs_R0 by reflexivity. apply Rmult_lt_0_compat; [exact TEN|]. lra. }
  assert (SC : stationary n g H (- mu) (hard_scri eigv eigd n g mu)).
  { apply (scri_solves n g H eigv eigd EX).
    - exists im. split; [exact A1|]. apply SM; [exact A1|reflexivity].
    - exists p. split; [exact Hp|]. destruct (hard_small (maxentry n dd) dd p) eqn:F; [|exact F]. apply SM in F; [lra|exact Hp].
    - intros i Hi F. apply SM in F; [|exact Hi]. rewrite (OGZ i Hi), F, EM. ring.
    - intros i Hi F X. apply SM in X; [|exact Hi]. unfold dd in X. congruence. }
  assert (NS : norm n (hard_scri eigv eigd n g mu) <= Delta).
  { eapply Rle_trans; [|exact NZ]. unfold norm. apply sqrt_le_1_alt.
    rewrite (eig_norm n H eigv eigd EX (hard_scri eigv eigd n g mu)), (eig_norm n H eigv eigd EX z). apply rsum_le. intros i Hi.
    set (sc := hard_scri eigv eigd n g mu) in *.
    destruct (Req_EM_T (eigd i) mu) as [X|X].
    - assert (Y : mv n (tr eigv) sc i = 0); [|rewrite Y; nra].
      unfold sc, hard_scri. fold dd. destruct (_ && _)%bool; [|apply mv_zero].
      match goal with |- mv n _ (vneg (mv n eigv ?c)) i = 0 => set (cc := c) end.
      transitivity (mv n (tr eigv) (vscal (-1) (mv n eigv cc)) i).
      + apply mv_ext. intros l Hl. unfold vneg, vscal. ring.
      + rewrite mv_scal. destruct EX as [O _]. rewrite (orth_mv n n eigv cc O i Hi). unfold cc.
        rewrite (proj2 (SM i Hi) X). ring.
    - assert (Y : mv n (tr eigv) sc i = mv n (tr eigv) z i); [|rewrite Y; lra].
      assert (W : (eigd i - mu) * mv n (tr eigv) sc i = (eigd i - mu) * mv n (tr eigv) z i).
      { pose proof (OGZ i Hi) as W1. rewrite <- EM in W1.
        enough (W2 : mv n (tr eigv) g i = - ((eigd i - mu) * mv n (tr eigv) sc i)) by lra.
        transitivity (mv n (tr eigv) (vadd (vscal (-1) (mv n H sc)) (vscal mu sc)) i).
        - apply mv_ext. intros l Hl. unfold vadd, vscal. pose proof (SC l Hl). lra.
        - rewrite mv_add, !mv_scal.
          enough (V : mv n (tr eigv) (mv n H sc) i = eigd i * mv n (tr eigv) sc i) by (rewrite V; ring).
          transitivity (mv n (tr eigv) (mv n eigv (fun k => eigd k * mv n (tr eigv) sc k)) i).
          + apply mv_ext. intros l Hl. rewrite (eig_mv n H eigv eigd EX sc l Hl). reflexivity.
          + destruct EX as [O _]. rewrite (orth_mv n n eigv _ O i Hi). reflexivity. }
      apply Rmult_eq_reg_l in W; [exact W|lra]. }
  pose proof (hard_stationary n g H eigv eigd EX Delta mu im A1 eq_refl SC NS) as HS.
  pose proof (hard_norm eigv eigd n g Delta mu (fun i => eigv i im) ltac:(lra) (eig_column n H eigv eigd EX im A1)) as HN.
  set (s := hard_step _ _ _ _ _ _ _) in *.
  pose proof (eig_psd n H eigv eigd EX mu A2) as PS.
  assert (MM : minimises n g H Delta 0 s).
  { intros x Hx. pose proof (opt_bound n g H (- mu) s x (eig_sym n H eigv eigd EX) HS PS) as OB.
    apply norm_le_sq in Hx. rewrite <- (norm_sq n s), HN in OB. nra. }
  split; [rewrite EM; reflexivity|]. split; [exact PS|].
  destruct (Rleb_spec (Rabs (ms_model n g H s)) (/ 10 ^ 15)) as [T|T].
  - split; [|intros X; lra]. intros x Hx. specialize (MM x Hx). unfold qmodel at 1, quad. rewrite dot_zero_r, dot_zero_l.
    change (ms_model n g H s) with (qmodel n g H s) in T. pose proof (Rle_abs (- qmodel n g H s)) as Q. rewrite Rabs_Ropp in Q. lra.
  - split; [|intros _; split; assumption]. intros x Hx. specialize (MM x Hx).
    assert (0 < / 10 ^ 15) by (apply Rinv_0_lt_compat, pow_lt; lra). lra.
Qed.
End Top.
