From Coq Require Import Reals Lra Psatz Lia Arith ZArith List.
Import ListNotations.
From Verif Require Import RVec RBool CG_Model CG_Spec Ortho.
Open Scope R_scope.

(** ** comp_dir_in_delta *)

Lemma dot_shift n x d t : dot n (vadd x (vscal t d)) (vadd x (vscal t d))
  = dot n x x + 2 * t * dot n x d + t * t * dot n d d.
Proof. rewrite !dot_add_l, !dot_add_r, !dot_scal_l, !dot_scal_r, (dot_sym n d x). ring. Qed.

(** The point is [dc + t (dn - dc)] with [t >= 0], on the sphere. *)
Lemma comp_dir_spec n dc dn delta : 0 <= delta -> dot n dc dc <= delta * delta ->
  dot n (vsub dn dc) (vsub dn dc) <> 0 ->
  let r := comp_dir n dc dn delta in
  exists t, 0 <= t /\ (forall i, fst r i = dc i + t * (dn i - dc i)) /\
    dot n (fst r) (fst r) = delta * delta.
Proof.
  intros Hd Hdc Hdir. unfold comp_dir.
  destruct (Reqb_spec (dot n (vsub dn dc) (vsub dn dc)) 0) as [E|E]; [contradiction|].
  assert (Hpos : 0 < dot n (vsub dn dc) (vsub dn dc)) by (pose proof (dot_self_nonneg n (vsub dn dc)); lra).
  set (D := dot n (vsub dn dc) (vsub dn dc)) in *. set (bb := dot n dc (vsub dn dc)).
  destruct (Rleb_spec 0 (dot n dc dc - delta ^ 2)) as [L|L]; cbn [fst].
  - exists 0. split; [lra|]. split; [intros; lra|]. simpl in L. lra.
  - set (disc := bb ^ 2 - D * (dot n dc dc - delta ^ 2)).
    assert (Hdisc : bb * bb < disc) by (unfold disc; simpl; nra).
    assert (Hs : sqrt disc * sqrt disc = disc) by (apply sqrt_sqrt; nra).
    assert (Hsb : Rabs bb < sqrt disc).
    { rewrite <- (sqrt_Rsqr_abs bb). apply sqrt_lt_1; unfold Rsqr; nra. }
    pose proof (Rle_abs bb) as Hb1. pose proof (Rle_abs (- bb)) as Hb2. rewrite Rabs_Ropp in Hb2.
    set (t := (sqrt disc - bb) / D).
    assert (Ht : t * D = sqrt disc - bb) by (unfold t; field; lra).
    exists t. split; [|split].
    + unfold t. apply Rmult_le_pos; [lra|]. left. apply Rinv_0_lt_compat. exact Hpos.
    + intros i. unfold vadd, vscal, vsub. lra.
    + rewrite dot_shift. fold bb. fold D.
      assert (HE : D * (dot n dc dc + 2 * t * bb + t * t * D) = D * (delta * delta)).
      { replace (D * (dot n dc dc + 2 * t * bb + t * t * D))
          with (D * dot n dc dc + 2 * (t * D) * bb + (t * D) * (t * D)) by ring.
        rewrite Ht. unfold disc in Hs. simpl in Hs.
        replace ((sqrt disc - bb) * (sqrt disc - bb)) with (sqrt disc * sqrt disc - 2 * sqrt disc * bb + bb * bb) by ring.
        unfold disc. simpl. rewrite Hs. ring. }
      apply (Rmult_eq_reg_l D); lra.
Qed.

(** If the far point is outside, the factor is at most one. *)
Lemma comp_dir_factor n dc dn delta t : dot n dc dc <= delta * delta ->
  delta * delta < dot n dn dn ->
  0 <= t -> dot n (vadd dc (vscal t (vsub dn dc))) (vadd dc (vscal t (vsub dn dc))) = delta * delta ->
  t <= 1.
Proof.
  intros Hdc Hdn Ht HE. rewrite dot_shift in HE.
  assert (HN : dot n dn dn = dot n dc dc + 2 * dot n dc (vsub dn dc) + dot n (vsub dn dc) (vsub dn dc)).
  { rewrite !dot_sub_l, !dot_sub_r, (dot_sym n dn dc). ring. }
  set (u := dot n dc (vsub dn dc)) in *. set (D := dot n (vsub dn dc) (vsub dn dc)) in *.
  assert (HD : 0 <= D) by apply dot_self_nonneg.
  destruct (Rle_dec t 1) as [L|L]; [exact L|exfalso]. assert (1 < t) by lra.
  (* phi(s) = c + 2 s u + s^2 D; phi(0) <= d2, phi(1) > d2, phi(t) = d2, t > 1 : convexity contradiction *)
  assert (K : dot n dc dc + 2 * u + D <= (1 - / t) * dot n dc dc + / t * (dot n dc dc + 2 * t * u + t * t * D)).
  { replace ((1 - / t) * dot n dc dc + / t * (dot n dc dc + 2 * t * u + t * t * D))
      with (dot n dc dc + 2 * u + t * D) by (field; lra). nra. }
  rewrite HE in K.
  assert (0 < / t < 1). { split; [apply Rinv_0_lt_compat; lra|]. rewrite <- Rinv_1. apply Rinv_lt_contravar; lra. }
  nra.
Qed.

(** ** Loop invariant *)

Lemma dot_vneg_self n g : dot n (vneg g) (vneg g) = dot n g g.
Proof. rewrite dot_neg_l, dot_neg_r. lra. Qed.

(** direction chosen in the loop *)
Definition cg_dir (n : nat) (g : vec) (prev : option (vec * R)) : vec :=
  match prev with
  | None => vneg g
  | Some (d_, g2_) => vadd (vneg g) (vscal (dot n g g / g2_) d_)
  end.

(** the previous direction is orthogonal to the present gradient *)
Definition prev_ok (n : nat) (g : vec) (prev : option (vec * R)) : Prop :=
  match prev with None => True | Some (d_, _) => dot n g d_ = 0 end.

Lemma cg_dir_descent n g prev : prev_ok n g prev -> dot n g (cg_dir n g prev) = - dot n g g.
Proof.
  intros H. unfold cg_dir. destruct prev as [[d_ g2_]|].
  - rewrite dot_add_r, dot_neg_r, dot_scal_r. cbn in H. rewrite H. ring.
  - rewrite dot_neg_r. reflexivity.
Qed.

Lemma cost_step n A b x g d t : symmetric n A -> veq n g (residual n A b x) ->
  cost n A b (vadd x (vscal t d)) = cost n A b x + t * dot n g d + / 2 * (t * t) * quad n A d.
Proof.
  intros HA Hg. unfold cost. rewrite quad_add by exact HA. rewrite quad_scal, dot_add_r, dot_scal_r, dot_mv_scal.
  rewrite (dot_ext n g (residual n A b x) d d Hg (fun i _ => eq_refl)).
  unfold residual. rewrite dot_sub_l, (dot_sym n (mv n A x) d), (dot_mv_sym n A x d HA). field.
Qed.

Definition cg_inv (n : nat) (A : mat) (b : vec) (delta : R) (x g : vec) (prev : option (vec * R)) : Prop :=
  dot n x x <= delta * delta /\ veq n g (residual n A b x) /\ prev_ok n g prev.

Lemma cg_inv_step n A b delta x g prev :
  cg_inv n A b delta x g prev ->
  let d := cg_dir n g prev in
  let alpha := - dot n g d / dot n d (mv n A d) in
  0 < dot n d (mv n A d) ->
  dot n (vadd x (vscal alpha d)) (vadd x (vscal alpha d)) <= delta * delta ->
  cg_inv n A b delta (vadd x (vscal alpha d)) (vadd g (vscal alpha (mv n A d))) (Some (d, dot n g g)).
Proof.
  intros [H1 [H2 H3]] d alpha Hd Hx. split; [exact Hx|]. split.
  - intros i Hi. change (g i + alpha * mv n A d i = mv n A (vadd x (vscal alpha d)) i - b i).
    rewrite mv_add, mv_scal. rewrite (H2 i Hi). unfold residual, vsub. ring.
  - cbn. rewrite dot_add_l, dot_scal_l, (dot_sym n (mv n A d) d). unfold alpha. field. lra.
Qed.

Lemma cg_step_decrease n A b x g d : symmetric n A -> veq n g (residual n A b x) ->
  dot n g d <= 0 -> 0 < dot n d (mv n A d) ->
  forall t, 0 <= t <= 1 ->
  let alpha := - dot n g d / dot n d (mv n A d) in
  cost n A b (vadd x (vscal (t * alpha) d)) <= cost n A b x.
Proof.
  intros HA Hg Hgd Hd t Ht alpha. rewrite (cost_step n A b x g d) by assumption.
  change (quad n A d) with (dot n d (mv n A d)).
  assert (E : alpha * dot n d (mv n A d) = - dot n g d) by (unfold alpha; field; lra).
  assert (Ha : 0 <= alpha).
  { unfold alpha. apply Rmult_le_pos; [lra|]. left. apply Rinv_0_lt_compat. exact Hd. }
  replace (/ 2 * (t * alpha * (t * alpha)) * dot n d (mv n A d))
    with (/ 2 * t * t * alpha * (alpha * dot n d (mv n A d))) by ring.
  rewrite E.
  assert (0 <= t * alpha * (- dot n g d)) by (apply Rmult_le_pos; [apply Rmult_le_pos|]; lra).
  nra.
Qed.

Lemma cost_ext n A b x y : veq n x y -> cost n A b x = cost n A b y.
Proof.
  intros H. unfold cost. rewrite (quad_ext n A x y H). f_equal. apply dot_ext; [intros i Hi; reflexivity|exact H].
Qed.

(** Properties of the final result, from any state satisfying the invariant. *)
Definition cg_good (n : nat) (A : mat) (b : vec) (delta tol2 : R) (max_iter : nat) (r : tcg_res) : Prop :=
  dot n (tcg_x r) (tcg_x r) <= delta * delta /\
  (tcg_flag r = 0%Z \/ tcg_flag r = (-1)%Z \/ tcg_flag r = 1%Z \/ tcg_flag r = 2%Z) /\
  (tcg_flag r = 0%Z -> dot n (residual n A b (tcg_x r)) (residual n A b (tcg_x r)) <= tol2) /\
  (tcg_flag r = 1%Z \/ tcg_flag r = 2%Z -> dot n (tcg_x r) (tcg_x r) = delta * delta) /\
  (tcg_flag r = 0%Z \/ tcg_flag r = (-1)%Z ->
     tcg_prec r = sqrt (dot n (residual n A b (tcg_x r)) (residual n A b (tcg_x r)))).

Lemma cg_unfold n A delta tol2 max_iter rem iter x g prev :
  tcg_loop n A delta tol2 max_iter rem iter x g prev =
  let g2 := dot n g g in
  if Rleb g2 tol2 then {| tcg_x := x; tcg_flag := 0; tcg_iter := iter; tcg_prec := sqrt g2 |}
  else match rem with
    | O => {| tcg_x := x; tcg_flag := -1; tcg_iter := max_iter; tcg_prec := sqrt g2 |}
    | S rem' =>
        let d := cg_dir n g prev in
        if Rleb (dot n d (mv n A d)) 0 then
          {| tcg_x := fst (comp_dir n x (vadd x d) delta); tcg_flag := 2; tcg_iter := iter; tcg_prec := sqrt g2 |}
        else
          let alpha := - dot n g d / dot n d (mv n A d) in
          let xx := vadd x (vscal alpha d) in
          if Rltb (delta * delta) (dot n xx xx) then
            {| tcg_x := fst (comp_dir n x xx delta); tcg_flag := 1; tcg_iter := iter; tcg_prec := sqrt g2 |}
          else tcg_loop n A delta tol2 max_iter rem' (S iter) xx (vadd g (vscal alpha (mv n A d))) (Some (d, g2))
    end.
Proof. destruct rem; reflexivity. Qed.

Lemma cg_dir_nonzero n g prev : prev_ok n g prev -> 0 < dot n g g -> dot n (cg_dir n g prev) (cg_dir n g prev) <> 0.
Proof.
  intros Hp Hg E. apply dot_self_zero in E.
  pose proof (cg_dir_descent n g prev Hp) as D.
  rewrite (dot_ext n g g (cg_dir n g prev) vzero (fun i _ => eq_refl) E) in D. rewrite dot_zero_r in D. lra.
Qed.

Lemma residual_dot n A b x g : veq n g (residual n A b x) ->
  dot n (residual n A b x) (residual n A b x) = dot n g g.
Proof. intros H. symmetry. apply dot_ext; exact H. Qed.

Lemma vsub_vadd n x d : veq n (vsub (vadd x d) x) d.
Proof. intros i Hi. unfold vsub, vadd. lra. Qed.

Lemma dir_dot n x d : dot n (vsub (vadd x d) x) (vsub (vadd x d) x) = dot n d d.
Proof. apply dot_ext; apply vsub_vadd. Qed.

Lemma cg_loop_good n A b delta tol2 max_iter rem iter x g prev :
  0 <= delta -> 0 <= tol2 -> cg_inv n A b delta x g prev ->
  cg_good n A b delta tol2 max_iter (tcg_loop n A delta tol2 max_iter rem iter x g prev).
Proof.
  intros Hdl Htol. revert iter x g prev.
  induction rem as [|rem IH]; intros iter x g prev HI; rewrite cg_unfold; cbv zeta;
    destruct HI as [H1 [H2 H3]]; destruct (Rleb_spec (dot n g g) tol2) as [L|L].
  - unfold cg_good; cbn. rewrite (residual_dot n A b x g H2). intuition (try discriminate; try reflexivity; try lra).
  - unfold cg_good; cbn. rewrite (residual_dot n A b x g H2). intuition (try discriminate; try reflexivity; try lra).
  - unfold cg_good; cbn. rewrite (residual_dot n A b x g H2). intuition (try discriminate; try reflexivity; try lra).
  - pose proof (cg_dir_nonzero n g prev H3 ltac:(lra)) as Hnz.
    set (d := cg_dir n g prev) in *.
    destruct (Rleb_spec (dot n d (mv n A d)) 0) as [C|C].
    + destruct (comp_dir_spec n x (vadd x d) delta Hdl H1 ltac:(rewrite dir_dot; exact Hnz)) as [t [Ht [Hx Hn]]].
      unfold cg_good; cbn [tcg_x tcg_flag tcg_prec]. rewrite Hn.
      intuition (try discriminate; try reflexivity; try lra).
    + set (alpha := - dot n g d / dot n d (mv n A d)).
      set (xx := vadd x (vscal alpha d)).
      destruct (Rltb_spec (delta * delta) (dot n xx xx)) as [F|F].
      * assert (Hal : alpha <> 0).
        { unfold alpha. unfold d. rewrite cg_dir_descent by exact H3. fold d.
          intros E. apply Rmult_integral in E. destruct E as [E|E]; [lra|].
          apply (Rinv_neq_0_compat (dot n d (mv n A d))); [lra|exact E]. }
        assert (Hdd : dot n (vsub xx x) (vsub xx x) <> 0).
        { unfold xx. rewrite dir_dot, dot_scal_l, dot_scal_r. apply Rmult_integral_contrapositive_currified; [exact Hal|].
          apply Rmult_integral_contrapositive_currified; assumption. }
        destruct (comp_dir_spec n x xx delta Hdl H1 Hdd) as [t [Ht [Hx Hn]]].
        unfold cg_good; cbn [tcg_x tcg_flag tcg_prec]. rewrite Hn.
        intuition (try discriminate; try reflexivity; try lra).
      * apply IH. apply cg_inv_step; [split; [exact H1|split; assumption]|fold d; lra|]. fold d. fold alpha. fold xx. lra.
Qed.

Lemma cg_init_inv n A b delta : 0 <= delta -> cg_inv n A b delta vzero (vneg b) None.
Proof.
  intros Hd. split; [rewrite dot_zero_l; nra|]. split; [|exact I].
  intros i Hi. unfold vneg, residual, vsub. rewrite mv_zero. lra.
Qed.

Lemma cg_good_final n A b delta max_iter tol : 0 <= delta ->
  cg_good n A b delta (tol * tol) max_iter (truncated_cg n A b delta max_iter tol).
Proof.
  intros Hd. apply cg_loop_good; [exact Hd|nra|apply cg_init_inv; exact Hd].
Qed.

(** ** Descent *)

Lemma cg_loop_descent n A b delta tol2 max_iter rem iter x g prev :
  symmetric n A -> 0 <= delta -> 0 <= tol2 -> cg_inv n A b delta x g prev ->
  cost n A b (tcg_x (tcg_loop n A delta tol2 max_iter rem iter x g prev)) <= cost n A b x.
Proof.
  intros HA Hdl Htol. revert iter x g prev.
  induction rem as [|rem IH]; intros iter x g prev HI; rewrite cg_unfold; cbv zeta;
    pose proof HI as HI0; destruct HI as [H1 [H2 H3]]; destruct (Rleb_spec (dot n g g) tol2) as [L|L];
    try (cbn [tcg_x]; lra).
  pose proof (cg_dir_nonzero n g prev H3 ltac:(lra)) as Hnz.
  pose proof (cg_dir_descent n g prev H3) as Hgd.
  pose proof (dot_self_nonneg n g) as Hgg.
  set (d := cg_dir n g prev) in *.
  destruct (Rleb_spec (dot n d (mv n A d)) 0) as [C|C].
  - cbn [tcg_x].
    destruct (comp_dir_spec n x (vadd x d) delta Hdl H1 ltac:(rewrite dir_dot; exact Hnz)) as [t [Ht [Hx Hn]]].
    rewrite (cost_ext n A b _ (vadd x (vscal t d))).
    2:{ intros i Hi. rewrite Hx. unfold vadd, vscal. ring. }
    rewrite (cost_step n A b x g d t HA H2). change (quad n A d) with (dot n d (mv n A d)).
    rewrite Hgd. assert (0 <= t * dot n g g) by nra. assert (0 <= t * t) by nra. nra.
  - set (alpha := - dot n g d / dot n d (mv n A d)).
    set (xx := vadd x (vscal alpha d)).
    assert (Hd1 : forall t, 0 <= t <= 1 -> cost n A b (vadd x (vscal (t * alpha) d)) <= cost n A b x).
    { intros t Ht. apply (cg_step_decrease n A b x g d HA H2); lra. }
    destruct (Rltb_spec (delta * delta) (dot n xx xx)) as [F|F].
    + cbn [tcg_x].
      assert (Hdd : dot n (vsub xx x) (vsub xx x) <> 0).
      { intros E. apply dot_self_zero in E.
        assert (dot n xx xx = dot n x x).
        { apply dot_ext; intros i Hi; specialize (E i Hi); unfold vsub, vzero in E; lra. }
        lra. }
      destruct (comp_dir_spec n x xx delta Hdl H1 Hdd) as [t [Ht [Hx Hn]]].
      assert (Ht1 : t <= 1).
      { apply (comp_dir_factor n x xx delta t H1 F Ht). rewrite <- Hn.
        apply dot_ext; intros i Hi; rewrite Hx; unfold vadd, vscal, vsub; ring. }
      rewrite (cost_ext n A b _ (vadd x (vscal (t * alpha) d))).
      2:{ intros i Hi. rewrite Hx. unfold xx, vadd, vscal. ring. }
      apply Hd1. lra.
    + eapply Rle_trans; [apply IH|].
      * apply cg_inv_step; [exact HI0|fold d; lra|]. fold d. fold alpha. fold xx. lra.
      * specialize (Hd1 1 ltac:(lra)). rewrite Rmult_1_l in Hd1. exact Hd1.
Qed.

Lemma cost_zero n A b : cost n A b vzero = 0.
Proof.
  unfold cost, quad. rewrite dot_zero_l, dot_zero_r. lra.
Qed.

Lemma cg_descent n A b delta max_iter tol : symmetric n A -> 0 <= delta ->
  cost n A b (tcg_x (truncated_cg n A b delta max_iter tol)) <= 0.
Proof.
  intros HA Hd. rewrite <- (cost_zero n A b). apply cg_loop_descent; try assumption; [nra|apply cg_init_inv; exact Hd].
Qed.

(** ** Number of iterations *)

Lemma cg_loop_iter n A delta tol2 max_iter rem iter x g prev :
  (iter + rem = S max_iter)%nat ->
  (tcg_iter (tcg_loop n A delta tol2 max_iter rem iter x g prev) <= S max_iter)%nat /\
  (tcg_flag (tcg_loop n A delta tol2 max_iter rem iter x g prev) <> 0%Z ->
   (tcg_iter (tcg_loop n A delta tol2 max_iter rem iter x g prev) <= max_iter)%nat).
Proof.
  revert iter x g prev. induction rem as [|rem IH]; intros iter x g prev HI; rewrite cg_unfold; cbv zeta;
    destruct (Rleb _ tol2); cbn [tcg_iter tcg_flag]; try (split; [lia|intros Hc; try lia; congruence]).
  destruct (Rleb _ 0); cbn [tcg_iter tcg_flag]; [split; [lia|intros; lia]|].
  destruct (Rltb _ _); cbn [tcg_iter tcg_flag]; [split; [lia|intros; lia]|].
  apply IH. lia.
Qed.

Lemma cg_iter n A b delta max_iter tol :
  (tcg_iter (truncated_cg n A b delta max_iter tol) <= S max_iter)%nat /\
  (tcg_flag (truncated_cg n A b delta max_iter tol) <> 0%Z ->
   (tcg_iter (truncated_cg n A b delta max_iter tol) <= max_iter)%nat).
Proof. apply cg_loop_iter. lia. Qed.

(** ** Finite termination: conjugate directions *)

Record cg_hist (n : nat) (A : mat) (k : nat) (G D : nat -> vec) (al : nat -> R) : Prop := {
  h_upd : forall i, (i < k)%nat -> veq n (G (S i)) (vadd (G i) (vscal (al i) (mv n A (D i))));
  h_nz : forall i, (i < k)%nat -> 0 < dot n (G i) (G i);
  h_al : forall i, (i < k)%nat -> al i * dot n (D i) (mv n A (D i)) = dot n (G i) (G i);
  h_d0 : (0 < k)%nat -> veq n (D 0%nat) (vneg (G 0%nat));
  h_dS : forall i, (S i < k)%nat -> veq n (D (S i))
           (vadd (vneg (G (S i))) (vscal (dot n (G (S i)) (G (S i)) / dot n (G i) (G i)) (D i)));
  h_gg : forall i j, (i < j)%nat -> (j <= k)%nat -> dot n (G j) (G i) = 0;
  h_dd : forall i j, (i < j)%nat -> (j < k)%nat -> dot n (D j) (mv n A (D i)) = 0;
  h_gd : forall i j, (i < j)%nat -> (j <= k)%nat -> dot n (G j) (D i) = 0 }.

Definition fupd {T} (f : nat -> T) (k : nat) (v : T) : nat -> T := fun i => if (i =? k)%nat then v else f i.
Lemma fupd_eq {T} (f : nat -> T) k v : fupd f k v k = v.
Proof. unfold fupd. rewrite Nat.eqb_refl. reflexivity. Qed.
Lemma fupd_ne {T} (f : nat -> T) k v i : i <> k -> fupd f k v i = f i.
Proof. intros H. unfold fupd. destruct (Nat.eqb_spec i k); [contradiction|reflexivity]. Qed.

Lemma dot_ext_l n x x' y : veq n x x' -> dot n x y = dot n x' y.
Proof. intros H. apply dot_ext; [exact H|intros i Hi; reflexivity]. Qed.
Lemma dot_ext_r n x y y' : veq n y y' -> dot n x y = dot n x y'.
Proof. intros H. apply dot_ext; [intros i Hi; reflexivity|exact H]. Qed.

(** the direction of the loop in terms of the history *)
Definition hist_prev (n : nat) (k : nat) (G D : nat -> vec) : option (vec * R) :=
  match k with O => None | S j => Some (D j, dot n (G j) (G j)) end.

Lemma hist_conj n A k G D al : symmetric n A -> cg_hist n A k G D al -> 
  let d := cg_dir n (G k) (hist_prev n k G D) in
  forall i, (i < k)%nat -> dot n d (mv n A (D i)) = 0.
Proof.
  intros HA H d i Hi. destruct k as [|k]; [lia|]. unfold d. cbn [hist_prev cg_dir].
  rewrite dot_add_l, dot_neg_l, dot_scal_l.
  pose proof (h_nz _ _ _ _ _ _ H i Hi) as Hg. pose proof (h_al _ _ _ _ _ _ H i Hi) as Hal.
  assert (Hne : al i <> 0) by (intros E; rewrite E in Hal; lra).
  (* A D_i from the update of the gradients *)
  assert (HAD : dot n (G (S k)) (mv n A (D i)) = (dot n (G (S k)) (G (S i)) - dot n (G (S k)) (G i)) / al i).
  { rewrite (dot_ext_r n (G (S k)) (G (S i)) _ (h_upd _ _ _ _ _ _ H i Hi)).
    rewrite dot_add_r, dot_scal_r. field. exact Hne. }
  rewrite HAD. rewrite (h_gg _ _ _ _ _ _ H i (S k)) by lia.
  destruct (Nat.eq_dec i k) as [->|Hik].
  - pose proof (h_al _ _ _ _ _ _ H k ltac:(lia)) as Halk.
    replace (dot n (D k) (mv n A (D k))) with (dot n (G k) (G k) / al k) by (rewrite <- Halk; field; exact Hne).
    field. split; lra.
  - rewrite (h_gg _ _ _ _ _ _ H (S i) (S k)) by lia.
    rewrite (h_dd _ _ _ _ _ _ H i k) by lia. field. split; [|lra].
    pose proof (h_nz _ _ _ _ _ _ H k ltac:(lia)). lra.
Qed.

Lemma hist_prev_ok n A k G D al : cg_hist n A k G D al -> prev_ok n (G k) (hist_prev n k G D).
Proof. intros H. destruct k as [|k]; [exact I|]. cbn. apply (h_gd _ _ _ _ _ _ H); lia. Qed.

Lemma hist_step n A k G D al : symmetric n A -> cg_hist n A k G D al -> 0 < dot n (G k) (G k) ->
  let d := cg_dir n (G k) (hist_prev n k G D) in
  let alpha := - dot n (G k) d / dot n d (mv n A d) in
  dot n d (mv n A d) <> 0 ->
  cg_hist n A (S k) (fupd G (S k) (vadd (G k) (vscal alpha (mv n A d)))) (fupd D k d) (fupd al k alpha).
Proof.
  intros HA H Hgk d alpha Hd.
  pose proof (hist_conj n A k G D al HA H) as HC. fold d in HC.
  pose proof (cg_dir_descent n (G k) _ (hist_prev_ok n A k G D al H)) as Hgd. fold d in Hgd.
  assert (Hal : alpha * dot n d (mv n A d) = dot n (G k) (G k)) by (unfold alpha; rewrite Hgd; field; exact Hd).
  set (gn := vadd (G k) (vscal alpha (mv n A d))).
  assert (GE : forall i, (i <= k)%nat -> fupd G (S k) gn i = G i) by (intros; apply fupd_ne; lia).
  assert (DE : forall i, (i < k)%nat -> fupd D k d i = D i) by (intros; apply fupd_ne; lia).
  (* new gradient against all directions *)
  assert (HGD : forall i, (i < S k)%nat -> dot n gn (fupd D k d i) = 0).
  { intros i Hi. unfold gn. rewrite dot_add_l, dot_scal_l, (dot_sym n (mv n A d)).
    destruct (Nat.eq_dec i k) as [->|Hne].
    - rewrite fupd_eq, Hgd, Hal. lra.
    - rewrite DE by lia. rewrite (h_gd _ _ _ _ _ _ H i k) by lia.
      rewrite (dot_mv_sym n A (D i) d HA), HC by lia. lra. }
  (* the old gradients in terms of directions *)
  assert (HGdir : forall x, (forall i, (i < S k)%nat -> dot n x (fupd D k d i) = 0) ->
            forall i, (i < S k)%nat -> dot n x (G i) = 0).
  { intros x Hx i Hi.
    assert (Ei : exists c, veq n (G i) (vadd (vneg (fupd D k d i)) (vscal c (match i with O => vzero | S j => fupd D k d j end)))).
    { destruct (Nat.eq_dec i k) as [->|Hne].
      - rewrite fupd_eq. unfold d. destruct k as [|k]; cbn [hist_prev cg_dir].
        + exists 0. intros j Hj. unfold vadd, vneg, vscal, vzero. lra.
        + exists (dot n (G (S k)) (G (S k)) / dot n (G k) (G k)). intros j Hj.
          rewrite fupd_ne by lia. unfold vadd, vneg, vscal. lra.
      - rewrite DE by lia. destruct i as [|i].
        + exists 0. intros j Hj. pose proof (h_d0 _ _ _ _ _ _ H ltac:(lia) j Hj) as E. unfold vadd, vneg, vscal, vzero in *. lra.
        + rewrite DE by lia. exists (dot n (G (S i)) (G (S i)) / dot n (G i) (G i)). intros j Hj.
          pose proof (h_dS _ _ _ _ _ _ H i ltac:(lia) j Hj) as E. unfold vadd, vneg, vscal in *. lra. }
    destruct Ei as [c Ei]. rewrite (dot_ext_r n x _ _ Ei), dot_add_r, dot_neg_r, dot_scal_r.
    rewrite Hx by exact Hi. destruct i as [|i].
    - rewrite dot_zero_r. lra.
    - rewrite Hx by lia. lra. }
  constructor.
  - intros i Hi. destruct (Nat.eq_dec i k) as [->|Hne].
    + rewrite !fupd_eq, GE by lia. intros j Hj. reflexivity.
    + rewrite !GE, DE, fupd_ne by lia. apply (h_upd _ _ _ _ _ _ H). lia.
  - intros i Hi. rewrite GE by lia. destruct (Nat.eq_dec i k) as [->|Hne]; [exact Hgk|]. apply (h_nz _ _ _ _ _ _ H). lia.
  - intros i Hi. rewrite GE by lia. destruct (Nat.eq_dec i k) as [->|Hne].
    + rewrite !fupd_eq. exact Hal.
    + rewrite DE, fupd_ne by lia. apply (h_al _ _ _ _ _ _ H). lia.
  - intros _. rewrite GE by lia. destruct k as [|k].
    + rewrite fupd_eq. unfold d. cbn. intros j Hj. reflexivity.
    + rewrite DE by lia. apply (h_d0 _ _ _ _ _ _ H). lia.
  - intros i Hi. rewrite !GE by lia. destruct (Nat.eq_dec (S i) k) as [E|Hne].
    + subst k. rewrite fupd_eq, fupd_ne by lia. unfold d. cbn [hist_prev cg_dir]. intros j Hj. reflexivity.
    + rewrite !DE by lia. apply (h_dS _ _ _ _ _ _ H). lia.
  - intros i j Hij Hj. rewrite (GE i) by lia. destruct (Nat.eq_dec j (S k)) as [->|Hne].
    + rewrite fupd_eq. apply HGdir; [exact HGD|lia].
    + rewrite GE by lia. apply (h_gg _ _ _ _ _ _ H); lia.
  - intros i j Hij Hj. destruct (Nat.eq_dec j k) as [->|Hne].
    + rewrite fupd_eq, DE by lia. apply HC. lia.
    + rewrite !DE by lia. apply (h_dd _ _ _ _ _ _ H); lia.
  - intros i j Hij Hj. destruct (Nat.eq_dec j (S k)) as [->|Hne].
    + rewrite fupd_eq. apply HGD. lia.
    + rewrite GE, DE by lia. apply (h_gd _ _ _ _ _ _ H); lia.
Qed.

Lemma hist_orthogonal n A k G D al : cg_hist n A k G D al -> 0 < dot n (G k) (G k) -> (S k <= n)%nat.
Proof.
  intros H Hk. apply (orthogonal_count n (S k) G).
  - intros i j Hi Hj Hne. destruct (Nat.lt_ge_cases i j) as [L|L].
    + rewrite dot_sym. apply (h_gg _ _ _ _ _ _ H); lia.
    + apply (h_gg _ _ _ _ _ _ H); lia.
  - intros i Hi. destruct (Nat.eq_dec i k) as [->|Hne]; [lra|].
    pose proof (h_nz _ _ _ _ _ _ H i ltac:(lia)). lra.
Qed.

Lemma hist_weaken n A k G D al : cg_hist n A (S k) G D al -> cg_hist n A k G D al.
Proof.
  intros H. constructor.
  - intros i Hi. apply (h_upd _ _ _ _ _ _ H). lia.
  - intros i Hi. apply (h_nz _ _ _ _ _ _ H). lia.
  - intros i Hi. apply (h_al _ _ _ _ _ _ H). lia.
  - intros Hk. apply (h_d0 _ _ _ _ _ _ H). lia.
  - intros i Hi. apply (h_dS _ _ _ _ _ _ H). lia.
  - intros i j Hi Hj. apply (h_gg _ _ _ _ _ _ H); lia.
  - intros i j Hi Hj. apply (h_dd _ _ _ _ _ _ H); lia.
  - intros i j Hi Hj. apply (h_gd _ _ _ _ _ _ H); lia.
Qed.

Lemma cg_loop_finite n A delta tol2 max_iter rem iter x k G D al :
  symmetric n A -> 0 <= tol2 -> cg_hist n A k G D al -> (n <= k + rem)%nat ->
  tcg_flag (tcg_loop n A delta tol2 max_iter rem iter x (G k) (hist_prev n k G D)) <> (-1)%Z /\
  (tcg_iter (tcg_loop n A delta tol2 max_iter rem iter x (G k) (hist_prev n k G D)) + k <= iter + n)%nat.
Proof.
  intros HA Htol. revert iter x k G D al. induction rem as [|rem IH]; intros iter x k G D al H Hn;
    rewrite cg_unfold; cbv zeta; destruct (Rleb_spec (dot n (G k) (G k)) tol2) as [L|L];
    cbn [tcg_flag tcg_iter].
  - split; [discriminate|].
    destruct k as [|k]; [lia|]. pose proof (hist_orthogonal n A k G D al) as HO.
    specialize (HO (hist_weaken _ _ _ _ _ _ H) (h_nz _ _ _ _ _ _ H k ltac:(lia))). lia.
  - exfalso. pose proof (hist_orthogonal n A k G D al H ltac:(lra)). lia.
  - split; [discriminate|].
    destruct k as [|k]; [lia|]. pose proof (hist_orthogonal n A k G D al) as HO.
    specialize (HO (hist_weaken _ _ _ _ _ _ H) (h_nz _ _ _ _ _ _ H k ltac:(lia))). lia.
  - pose proof (hist_orthogonal n A k G D al H ltac:(lra)) as Hkn.
    destruct (Rleb_spec (dot n (cg_dir n (G k) (hist_prev n k G D)) (mv n A (cg_dir n (G k) (hist_prev n k G D)))) 0) as [C|C];
      cbn [tcg_flag tcg_iter]; [split; [discriminate|lia]|].
    destruct (Rltb _ _); cbn [tcg_flag tcg_iter]; [split; [discriminate|lia]|].
    pose proof (hist_step n A k G D al HA H ltac:(lra) ltac:(lra)) as HS.
    set (d := cg_dir n (G k) (hist_prev n k G D)) in *.
    set (alpha := - dot n (G k) d / dot n d (mv n A d)) in *.
    set (gn := vadd (G k) (vscal alpha (mv n A d))) in *.
    specialize (IH (S iter) (vadd x (vscal alpha d)) (S k) _ _ _ HS ltac:(lia)).
    rewrite fupd_eq in IH. cbn [hist_prev] in IH. rewrite fupd_eq, fupd_ne in IH by lia.
    destruct IH as [I1 I2]. split; [exact I1|lia].
Qed.

Lemma cg_finite n A b delta max_iter tol : symmetric n A -> (n <= max_iter)%nat ->
  tcg_flag (truncated_cg n A b delta max_iter tol) <> (-1)%Z /\
  (tcg_iter (truncated_cg n A b delta max_iter tol) <= n + 1)%nat.
Proof.
  intros HA Hn. unfold truncated_cg.
  assert (H : cg_hist n A 0 (fun _ => vneg b) (fun _ => vzero) (fun _ => 0)) by (constructor; intros; lia).
  pose proof (cg_loop_finite n A delta (tol * tol) max_iter max_iter 1 vzero 0 _ _ _ HA ltac:(nra) H ltac:(lia)) as [H1 H2].
  cbn [hist_prev] in H1, H2. split; [exact H1|lia].
Qed.

(** The residual reported at a boundary stop belongs to the previous iterate. *)
Lemma cg_prec_refuted :
  let r := truncated_cg 1 (fun _ _ => 1) (fun _ => 4) 1 5 0 in
  tcg_flag r = 1%Z /\ tcg_prec r <> sqrt (dot 1 (residual 1 (fun _ _ => 1) (fun _ => 4) (tcg_x r)) (residual 1 (fun _ _ => 1) (fun _ => 4) (tcg_x r))).
Proof.
  cbv zeta. unfold truncated_cg. rewrite cg_unfold. cbn [cg_dir]. cbv zeta.
  assert (E1 : dot 1 (vneg (fun _ => 4)) (vneg (fun _ => 4)) = 16) by (unfold dot, vneg; cbn; lra).
  rewrite !E1. destruct (Rleb_spec 16 (0 * 0)); [lra|].
  assert (E2 : dot 1 (vneg (vneg (fun _ => 4))) (mv 1 (fun _ _ => 1) (vneg (vneg (fun _ => 4)))) = 16) by (unfold dot, mv, vneg; cbn; lra).
  rewrite !E2. destruct (Rleb_spec 16 0); [lra|].
  assert (E3 : dot 1 (vneg (fun _ => 4)) (vneg (vneg (fun _ => 4))) = -16) by (unfold dot, vneg; cbn; lra).
  rewrite !E3.
  set (xx := vadd vzero (vscal (- -16 / 16) (vneg (vneg (fun _ => 4))))).
  assert (Exx : forall i, xx i = 4) by (intros; unfold xx, vadd, vscal, vneg, vzero; field).
  assert (E4 : dot 1 xx xx = 16) by (unfold dot; cbn; rewrite Exx; lra).
  destruct (Rltb_spec (1 * 1) (dot 1 xx xx)) as [L|L]; [|lra].
  cbn [tcg_flag tcg_prec tcg_x]. split; [reflexivity|].
  destruct (comp_dir_spec 1 vzero xx 1 ltac:(lra)) as [t [Ht [Hx Hn]]].
  { rewrite dot_zero_l. lra. }
  { unfold dot, vsub, vzero. cbn. rewrite Exx. lra. }
  set (y := fst (comp_dir 1 vzero xx 1)) in *.
  assert (Hy : y 0%nat = 1).
  { unfold dot in Hn. cbn in Hn. rewrite Hx in *. unfold vzero in *. rewrite Exx in *. nra. }
  assert (E5 : dot 1 (residual 1 (fun _ _ => 1) (fun _ => 4) y) (residual 1 (fun _ _ => 1) (fun _ => 4) y) = 9).
  { unfold dot, residual, vsub, mv. cbn. rewrite Hy. lra. }
  rewrite E5. intros C.
  assert (sqrt 9 * sqrt 9 = 9) by (apply sqrt_sqrt; lra).
  assert (sqrt 16 * sqrt 16 = 16) by (apply sqrt_sqrt; lra). rewrite C in H0. lra.
Qed.

(** ** Statements for the property file *)

Lemma cg_inside n A b delta max_iter tol : 0 <= delta ->
  norm n (tcg_x (truncated_cg n A b delta max_iter tol)) <= delta.
Proof.
  intros Hd. destruct (cg_good_final n A b delta max_iter tol Hd) as [H _].
  apply Rsqr_incr_0_var; [|exact Hd]. unfold Rsqr. rewrite norm_sq. exact H.
Qed.

Lemma cg_solved n A b delta max_iter tol : 0 <= delta -> 0 <= tol ->
  tcg_flag (truncated_cg n A b delta max_iter tol) = 0%Z ->
  norm n (residual n A b (tcg_x (truncated_cg n A b delta max_iter tol))) <= tol.
Proof.
  intros Hd Ht Hf. destruct (cg_good_final n A b delta max_iter tol Hd) as (_ & _ & H & _).
  apply Rsqr_incr_0_var; [|exact Ht]. unfold Rsqr. rewrite norm_sq. exact (H Hf).
Qed.

Lemma cg_boundary n A b delta max_iter tol : 0 <= delta ->
  tcg_flag (truncated_cg n A b delta max_iter tol) = 1%Z \/ tcg_flag (truncated_cg n A b delta max_iter tol) = 2%Z ->
  norm n (tcg_x (truncated_cg n A b delta max_iter tol)) = delta.
Proof.
  intros Hd Hf. destruct (cg_good_final n A b delta max_iter tol Hd) as (_ & _ & _ & H & _).
  unfold norm. rewrite (H Hf). apply sqrt_square. exact Hd.
Qed.

Lemma cg_flags n A b delta max_iter tol : 0 <= delta ->
  In (tcg_flag (truncated_cg n A b delta max_iter tol)) [0; -1; 1; 2]%Z.
Proof.
  intros Hd. destruct (cg_good_final n A b delta max_iter tol Hd) as (_ & H & _). cbn.
  destruct H as [H|[H|[H|H]]]; rewrite H; auto.
Qed.

Lemma cg_prec_exact n A b delta max_iter tol : 0 <= delta ->
  tcg_flag (truncated_cg n A b delta max_iter tol) = 0%Z \/ tcg_flag (truncated_cg n A b delta max_iter tol) = (-1)%Z ->
  tcg_prec (truncated_cg n A b delta max_iter tol) = norm n (residual n A b (tcg_x (truncated_cg n A b delta max_iter tol))).
Proof.
  intros Hd Hf. destruct (cg_good_final n A b delta max_iter tol Hd) as (_ & _ & _ & _ & H). exact (H Hf).
Qed.

(** One more allowed iteration never makes the result worse. *)
Lemma cg_loop_more n A b delta tol2 mi1 mi2 rem i1 i2 x g prev :
  symmetric n A -> 0 <= delta -> 0 <= tol2 -> cg_inv n A b delta x g prev ->
  cost n A b (tcg_x (tcg_loop n A delta tol2 mi1 (S rem) i1 x g prev))
  <= cost n A b (tcg_x (tcg_loop n A delta tol2 mi2 rem i2 x g prev)).
Proof.
  intros HA Hd Ht. revert i1 i2 x g prev. induction rem as [|rem IH]; intros i1 i2 x g prev HI.
  - rewrite (cg_unfold n A delta tol2 mi2 0). cbv zeta.
    pose proof (cg_loop_descent n A b delta tol2 mi1 1 i1 x g prev HA Hd Ht HI) as H.
    destruct (Rleb_spec (dot n g g) tol2); exact H.
  - rewrite (cg_unfold n A delta tol2 mi2 (S rem)), (cg_unfold n A delta tol2 mi1 (S (S rem))). cbv zeta.
    destruct (Rleb_spec (dot n g g) tol2); [cbn; lra|].
    destruct (Rleb_spec (dot n (cg_dir n g prev) (mv n A (cg_dir n g prev))) 0); [cbn [tcg_x]; lra|].
    destruct (Rltb_spec (delta * delta) (dot n
        (vadd x (vscal (- dot n g (cg_dir n g prev) / dot n (cg_dir n g prev) (mv n A (cg_dir n g prev))) (cg_dir n g prev)))
        (vadd x (vscal (- dot n g (cg_dir n g prev) / dot n (cg_dir n g prev) (mv n A (cg_dir n g prev))) (cg_dir n g prev)))));
      [cbn [tcg_x]; lra|].
    apply IH. apply cg_inv_step; [exact HI| |]; lra.
Qed.

Lemma cg_more n A b delta max_iter tol : symmetric n A -> 0 <= delta ->
  cost n A b (tcg_x (truncated_cg n A b delta (S max_iter) tol)) <= cost n A b (tcg_x (truncated_cg n A b delta max_iter tol)).
Proof.
  intros HA Hd. unfold truncated_cg. apply cg_loop_more; try assumption; [nra|apply cg_init_inv; exact Hd].
Qed.
