(** The trust-region step with the solvers of the library: no exception, length, decrease. *)
From Coq Require Import Reals Lra Psatz Lia List Arith Bool.
From Verif Require Import RVec RBool Tri ProjGrad_Spec MS_Model MS_Spec BC_Model BC_Spec Hom_Model Hom_Spec Hom_Proofs Hom_Fin Hom_Len Hess_Model Null_Model Null_Proofs
  CG_Model TR_Model TR_Spec TR_Proofs TR_Wit Step_Spec Step_Wit Mult_Model Mult_Wit BL_Model BL_Proofs Lib_Model Lib_Spec Lib_Proofs.
Import ListNotations.
Open Scope R_scope.

(** *** only the first pass restores *)
Section Same.
Variables ra rb : nat -> vec -> mat -> (nat -> xR) -> (nat -> xR) -> R -> option (vec * rmsg).
Variable cvx : mat -> mat.
Variable null : list vec -> option (nat * mat).
Variable cg : nat -> mat -> vec -> R -> option (vec * bool).
Variable mult : nat -> vec -> option vec.
Variables (n nsl : nat) (lb ub : nat -> xR) (thr : R) (M0 : mat) (ce : list R) (sl : vec).
Notation loop r := (tr_loop r cvx null cg mult n nsl lb ub thr M0 ce sl).
Notation rest r := (restoration r cvx n nsl lb ub sl).

Lemma one_pass fuel k s : rest ra k s = rest rb k s -> (forall s', loop ra fuel (S k) s' = loop rb fuel (S k) s') -> loop ra (S fuel) k s = loop rb (S fuel) k s.
Proof.
  intros E IH. cbn [tr_loop]. rewrite E. destruct (rest rb k s) as [[[r rp] actr]|]; [|reflexivity].
  destruct (tangent _ _ _ _ _ _ _) as [[t actt]|]; [|reflexivity].
  destruct (scan _ _ _ _ _ _) as [v xa]. set (s1 := match v with Some _ => _ | None => _ end).
  destruct (choose _ _ _ _ _ _ _ _ _) as [| |how lm f cc gc|lm f cc gc]; try reflexivity.
  destruct v; [|apply IH]. destruct (shorten _ _ _ _ _ _ _ _ _ _ _) as [s3|]; [apply IH|reflexivity].
Qed.

Lemma later_same fuel : forall k s, (1 < k)%nat -> loop ra fuel k s = loop rb fuel k s.
Proof.
  induction fuel as [|fuel IH]; intros k s K; [reflexivity|]. apply one_pass; [rewrite !rest_later by exact K; reflexivity|].
  intros s'. apply IH. lia.
Qed.

Lemma loop_same fuel s : rest ra 1 s = rest rb 1 s -> loop ra fuel 1 s = loop rb fuel 1 s.
Proof. intros E. destruct fuel as [|fuel]; [reflexivity|]. apply one_pass; [exact E|]. intros s'. apply later_same. lia. Qed.
End Same.

Lemma convex_sym eig k A : symmetric k A -> symmetric k (cvx_lib eig k A).
Proof.
  intros SA. unfold cvx_lib. destruct (eig k A) as [[neg d] V]. unfold check_convex. destruct neg; [|exact SA].
  intros i j Hi Hj. apply rsum_ext. intros l _. ring.
Qed.

Lemma gram_sym k rows : symmetric k (rows_gram rows).
Proof. intros i j _ _. unfold rows_gram. induction rows as [|a l IH]; [reflexivity|]. cbn [fold_right]. rewrite IH. ring. Qed.

Section Far.
Variable restore : nat -> vec -> mat -> (nat -> xR) -> (nat -> xR) -> R -> option (vec * rmsg).
Variable cvx : mat -> mat.
Variable null : list vec -> option (nat * mat).
Variable cg : nat -> mat -> vec -> R -> option (vec * bool).
Variable mult : nat -> vec -> option vec.
Variables (n nsl : nat) (lb ub : nat -> xR) (thr : R) (M0 : mat) (ce : list R) (sl : vec).
Notation loop := (tr_loop restore cvx null cg mult n nsl lb ub thr M0 ce sl).

(** a longer first step; the radius left decides *)
Lemma loop_far fuel k s x0 d0 e : (1 <= k)%nat -> 0 <= e -> / 10 ^ 15 <= thr -> keeps_bounds restore -> slack_in n nsl lb ub sl ->
  cg_short cg -> null_orth (n + nsl) null -> in_bounds n lb ub (s_x s) -> s_del s <= d0 -> norm n (vsub (s_x s) x0) <= 2 * (d0 - s_del s) ->
  (k = 1%nat -> s_x s = x0 /\ s_del s = d0 /\ forall r rp a, restoration restore cvx n nsl lb ub sl 1 s = Some (r, rp, a) -> norm n r <= d0 + e) ->
  match loop fuel k s with
  | TrOut o => tr_delta o <= s_del s /\ (0 <= tr_delta o -> norm n (vsub (tr_x o) x0) <= 2 * d0 + e)
  | _ => True
  end.
Proof.
  intros K1 E0 T KB SI CS NO. revert k s K1. induction fuel as [|fuel IH]; intros k s K1 X F1 F2 F3; [exact Logic.I|].
  assert (SPLIT : forall r t rp actr actt v xa, begun restore cvx null cg n nsl lb ub thr M0 sl k s r t rp actr actt v xa ->
    (0 <= s_del s -> norm n (vsub (vadd (vadd (s_x s) r) t) x0) <= 2 * d0 + e) /\
    (forall i x' d' m', v = Some i -> shortened n nsl lb ub sl s r t x' d' m' -> d' <= s_del s /\ norm n (vsub x' x0) <= 2 * (d0 - d'))).
  { intros r t rp actr actt v xa (B1 & B2 & B3). split.
    - intros D0. pose proof (tan_short _ _ _ _ _ _ _ _ _ CS NO D0 B2) as NT.
      assert (EQ : veq n (vsub (vadd (vadd (s_x s) r) t) x0) (vadd (vsub (s_x s) x0) (vadd r t))) by (intros i _; unfold vsub, vadd; ring).
      rewrite (norm_ext _ _ _ EQ). pose proof (norm_triangle n (vsub (s_x s) x0) (vadd r t)). pose proof (norm_triangle n r t).
      destruct (Nat.eq_dec k 1) as [->|NE].
      + destruct (F3 eq_refl) as (<- & <- & NR). specialize (NR _ _ _ B1). assert (N0 : norm n (vsub (s_x s) (s_x s)) = 0) by (apply norm_zero; intros i _; unfold vsub, vzero; ring). lra.
      + rewrite rest_later in B1 by lia. injection B1 as <- _ _. rewrite norm_vzero in *. lra.
    - intros i x' d' m' -> (rho & P0 & P1 & -> & -> & _).
      set (st := vadd r (vscal rho t)) in *. pose proof (norm_nonneg n st) as NN.
      assert (EQ : veq n (vsub (vadd (vadd (s_x s) r) (vscal rho t)) x0) (vadd (vsub (s_x s) x0) st)) by (intros j _; unfold st, vsub, vadd; ring).
      rewrite (norm_ext _ _ _ EQ). pose proof (norm_triangle n (vsub (s_x s) x0) st). lra. }
  destruct (pass restore cvx null cg mult n nsl lb ub thr M0 ce sl k s) as [(res & E & EN)|(s' & E & G)]; rewrite E.
  - destruct res as [| | |o]; try exact Logic.I.
    destruct EN as (r & t & rp & actr & actt & v & xa & B & X1 & _ & _ & TAG & DEL). rewrite X1.
    destruct (SPLIT _ _ _ _ _ _ _ B) as [S1 S2]. destruct DEL as [->|(i & x' & m' & V & SH)]; [split; [lra|exact S1]|].
    destruct (S2 _ _ _ _ V SH). split; [assumption|]. intros Q. apply S1. lra.
  - destruct G as (r & t & rp & actr & actt & v & xa & B & _ & _ & _ & G4). destruct (SPLIT _ _ _ _ _ _ _ B) as [S1 S2].
    assert (D' : s_del s' <= s_del s /\ norm n (vsub (s_x s') x0) <= 2 * (d0 - s_del s') /\ in_bounds n lb ub (s_x s')).
    { destruct v as [i|]; [|destruct G4 as (_ & E1 & E2 & _); rewrite E1, E2; split; [lra|split; assumption]].
      destruct (S2 _ _ _ _ eq_refl G4). split; [assumption|]. split; [assumption|].
      exact (shortened_in _ _ _ _ _ _ _ _ _ _ _ (restored_in _ _ _ _ _ _ _ _ _ _ _ _ KB SI X (proj1 B)) G4). }
    destruct D' as (D1 & D2 & D3). specialize (IH (Datatypes.S k) s' ltac:(lia) D3 ltac:(lra) D2 ltac:(lia)).
    destruct (loop fuel (Datatypes.S k) s') as [| | |o]; try exact Logic.I. destruct IH as [I1 I2]. split; [lra|exact I2].
Qed.
End Far.

Section Step.
Variable ms : nat -> nat -> vec -> mat -> R -> option ms_out.
Variable chol : nat -> mat -> option mat.
Variable slv : nat -> mat -> vec -> option vec.
Variable eig : nat -> mat -> bool * vec * mat.
Variable svd : nat -> nat -> mat -> vec * mat.
Variable pin : nat -> mat -> list nat -> vec -> option vec.
Variables (tol : R) (oinf : xR) (dxmin : R) (gi : vec) (n nsl : nat) (lb ub : nat -> xR) (thr : R) (M0 : mat) (ce : list R) (ae : list vec) (sl : vec) (fuel : nat) (x : vec) (delta : R) (g lm : vec).
Notation run := (step_lib ms chol slv eig svd pin tol oinf dxmin gi n nsl lb ub thr M0 ce ae sl fuel x delta g lm).
Notation dim := (n + nsl)%nat.
Notation slack_ok := (forall i, (i < nsl)%nat -> xle_r (lb (n + i)%nat) (sl i) /\ rle_x (sl i) (ub (n + i)%nat)).

Lemma mult_some k y : pin_total pin -> mult_lib eig pin n nsl lb ub oinf dxmin gi ae sl k y <> None.
Proof.
  intros PT. unfold mult_lib. destruct (eig _ _) as [[neg d] V]. unfold compute_multiplier. destruct (kept _ _ _ _ _ _ _ _) as [|a b] eqn:K; [discriminate|]. rewrite <- K.
  unfold lib_solver. match goal with |- context [blls ?p ?q ?M ?b0 ?l ?u ?f] => destruct (blls_total p q M b0 l u f) as (r & ->) end; [|discriminate].
  intros l v. apply PT.
Qed.

Lemma lib_ends : (0 < n)%nat -> (10 * n + (n + nsl - length ce) <= fuel)%nat -> / 10 ^ 15 <= thr -> ordered n lb ub ->
  (forall k, chol_exact k (chol k)) -> (forall k, slv_exact k (slv k)) -> ms_total ms -> pin_total pin ->
  in_bounds n lb ub x -> slack_ok -> exists o, run = TrOut o.
Proof.
  intros N F T OR CE SE MT PT X SI.
  set (rt := fun k h A l u D => match restore_lib ms chol slv k h A l u D with None => Some (vzero, MsgOther) | a => a end).
  destruct run as [| | |o] eqn:E; [exfalso|exfalso|exfalso|eauto].
  - assert (Q : run = solve_con rt (cvx_lib eig dim) (null_lib svd dim) (cg_of (20 * (n + nsl - length ce)) tol)
      (mult_lib eig pin n nsl lb ub oinf dxmin gi ae sl) n nsl lb ub thr M0 ce ae sl fuel x delta g lm).
    { unfold step_lib, solve_con. apply loop_same. unfold restoration. destruct (_ && _); [|reflexivity]. cbn [s_x s_con s_gcon s_del].
      set (z := TR_Model.join n x sl). unfold rt.
      match goal with |- context [restore_lib ms chol slv ?k ?h ?A ?l ?u delta] => assert (NN : restore_lib ms chol slv k h A l u delta <> None) end.
      { unfold restore_lib. match goal with |- context [solve_bcx ms chol slv ?k ?A ?l ?u ?h delta] => destruct (t_ends_x ms chol slv k A l u h delta CE SE) as (b & EB) end.
        - apply convex_sym, gram_sym.
        - apply (lib_within n nsl lb ub sl x X SI z). intros i Hi. reflexivity.
        - exact MT.
        - rewrite EB. discriminate. }
      destruct (restore_lib _ _ _ _ _ _ _ _ _) as [a|]; [reflexivity|congruence]. }
    rewrite Q in E. revert E. apply t_raise. repeat split.
    + intros k h A l u D. unfold rt. destruct (restore_lib _ _ _ _ _ _ _ _ _); discriminate.
    + intros rows. unfold null_lib. destruct (svd _ _ _); discriminate.
    + intros k A b D. unfold cg_of. discriminate.
    + intros k y. apply mult_some, PT.
  - exact (proj1 (t_bounds _ _ _ _ _ _ _ _ _ _ _ _ _ _ _ _ _ _ _ T OR (lib_bounds ms chol slv) SI X) E).
  - exact (t_terminates _ _ _ _ _ _ _ _ _ _ _ _ _ _ _ _ _ _ _ N F E).
Qed.

Lemma lib_feasible o : / 10 ^ 15 <= thr -> ordered n lb ub -> in_bounds n lb ub x -> slack_ok -> run = TrOut o ->
  violates_at_most n lb ub (Rmax thr (/ 10 ^ 7)) (tr_x o).
Proof. intros T OR X SI E. exact (proj2 (t_bounds _ _ _ _ _ _ _ _ _ _ _ _ _ _ _ _ _ _ _ T OR (lib_bounds ms chol slv) SI X) o E). Qed.

Lemma lib_decrease L w o : length ae = length ce -> (nsl <= length ce)%nat -> lag_grad n lb ub (length ce) ae x g lm L ->
  (forall i, (i < n)%nat -> held_count lb ub x L w i) -> symmetric n M0 -> / 10 ^ 15 <= thr -> in_bounds n lb ub x -> slack_ok -> run = TrOut o ->
  exists r a, restores (restore_lib ms chol slv) (cvx_lib eig dim) n nsl lb ub ce ae sl w x delta r a /\ lag_model n M0 g (vsub (tr_x o) x) <= lag_model n M0 g r.
Proof.
  intros LA LS HL HW HM T X SI E.
  exact (d_decrease _ _ _ _ _ _ _ _ _ _ _ _ _ _ _ _ _ _ _ L w o LA LS HL HW HM T (lib_bounds ms chol slv) SI X (descends_of _ _) E).
Qed.

(** *** length *)
Lemma lib_orth : svd_orth svd -> null_orth dim (null_lib svd dim).
Proof.
  intros SO rows k Z E. unfold null_lib in E. specialize (SO (length rows) dim (rows_mat rows)). destruct (svd (length rows) dim (rows_mat rows)) as [sv vh].
  injection E as <- <-. exact (z_orth (length rows) dim sv vh SO).
Qed.

Lemma lib_length o eps : / 10 ^ 15 <= thr -> (forall k, chol_exact k (chol k)) -> (forall k, slv_exact k (slv k)) -> ms_sound ms eps -> 0 <= eps -> 0 <= delta ->
  svd_orth svd -> in_bounds n lb ub x -> slack_ok -> run = TrOut o ->
  tr_delta o <= delta /\ (0 <= tr_delta o -> norm n (vsub (tr_x o) x) <= (2 + eps) * delta + sqrt (INR dim) / 10 ^ 5).
Proof.
  intros T CE SE MS E0 D0 SO X SI E. unfold step_lib, solve_con in E. set (s := mkst _ _ _ _ _ _ _ _ _ _) in E.
  set (e := eps * delta + sqrt (INR dim) / 10 ^ 5).
  assert (P0 : 0 <= e).
  { unfold e. assert (0 < / 10 ^ 5) by (apply Rinv_0_lt_compat, pow_lt; lra). pose proof (sqrt_pos (INR dim)). unfold Rdiv. nra. }
  pose proof (loop_far (restore_lib ms chol slv) (cvx_lib eig dim) (null_lib svd dim) (cg_of (20 * (n + nsl - length ce)) tol)
    (mult_lib eig pin n nsl lb ub oinf dxmin gi ae sl) n nsl lb ub thr M0 ce sl fuel 1 s x delta e (le_n 1) P0 T (lib_bounds ms chol slv) SI (short_of _ _) (lib_orth SO) X) as L.
  rewrite E in L. cbn [s s_del s_x] in L.
  assert (N0 : norm n (vsub x x) = 0) by (apply norm_zero; intros i _; unfold vsub, vzero; ring).
  destruct L as [L1 L2]; [lra|rewrite N0; lra| |].
  - intros _. split; [reflexivity|]. split; [reflexivity|]. intros r rp a RE. unfold restoration in RE. cbn [s_x s_con s_gcon s_del s_rpred s] in RE.
    destruct (_ && _); [|injection RE as <- _ _; rewrite norm_vzero; lra]. unfold restore_lib in RE.
    match type of RE with context [solve_bcx ms chol slv ?k ?A ?l ?u ?h delta] => destruct (solve_bcx ms chol slv k A l u h delta) as [[b|]|] eqn:SB end; try discriminate.
    injection RE as <- _ _. eapply Rle_trans; [apply (norm_sub n dim); lia|].
    assert (EQ : delta + e = (1 + eps) * delta + sqrt (INR dim) / 10 ^ 5) by (unfold e; ring). rewrite EQ.
    apply (Hom_Fin.f_length _ _ _ _ _ _ _ _ _ _ _ CE SE (convex_sym _ _ _ (gram_sym _ _)) MS E0 D0) in SB; [exact SB|].
    apply (lib_within n nsl lb ub sl x X SI). intros i Hi. reflexivity.
  - split; [exact L1|]. intros Q. specialize (L2 Q). unfold e in L2. lra.
Qed.
End Step.

(** the gradient of the Lagrangian and the bounds held always exist *)
Lemma lag_some n lb ub m ae x g lm : exists L w, lag_grad n lb ub m ae x g lm L /\ forall i, (i < n)%nat -> held_count lb ub x L w i.
Proof.
  set (L := fun i => g i + (if TR_Model.close (/ 10 ^ 5) (x i) (lb i) || TR_Model.close (/ 10 ^ 5) (x i) (ub i) then lm i else 0) + rsum m (fun k => lm (n + k)%nat * nth k ae vzero i)).
  set (w := fun i => (if TR_Model.close (/ 10 ^ 5) (x i) (lb i) && rlex (x i - L i) (lb i) then 1 else 0) + (if TR_Model.close (/ 10 ^ 5) (x i) (ub i) && xler (ub i) (x i - L i) then 1 else 0)).
  assert (CL : forall y b, TR_Model.close (/ 10 ^ 5) y b = true <-> Step_Spec.at_bound (/ 10 ^ 5) y b).
  { intros y b. unfold TR_Model.close, Step_Spec.at_bound. destruct b; [apply Rltb_true| |]; split; try discriminate; tauto. }
  assert (RL : forall a e, rlex a e = true <-> rle_x a e).
  { intros a e. destruct e; cbn; [apply Rleb_true| |]; split; try discriminate; tauto. }
  assert (XL : forall e a, xler e a = true <-> xle_r e a).
  { intros e a. destruct e; cbn; [apply Rleb_true| |]; split; try discriminate; tauto. }
  exists L, w. split.
  - intros i Hi. unfold L. split; intros A.
    + replace (TR_Model.close (/ 10 ^ 5) (x i) (lb i) || TR_Model.close (/ 10 ^ 5) (x i) (ub i))%bool with true; [ring|]. symmetry. apply orb_true_iff. rewrite !CL. exact A.
    + replace (TR_Model.close (/ 10 ^ 5) (x i) (lb i) || TR_Model.close (/ 10 ^ 5) (x i) (ub i))%bool with false; [ring|]. symmetry. apply not_true_is_false. rewrite orb_true_iff, !CL. exact A.
  - intros i Hi. eexists _, _. split; [reflexivity|]. unfold held_low, held_up. rewrite <- !CL, <- RL, <- XL.
    split; (destruct (_ && _) eqn:B; [left|right]; (split; [|reflexivity]); rewrite <- andb_true_iff, B; [reflexivity|discriminate]).
Qed.

Lemma lib_inside_any ms chol slv eig svd pin tol oinf dxmin gi n nsl lb ub thr M0 ce ae sl fuel x delta g lm o eps :
  length ae = length ce -> (nsl <= length ce)%nat -> eig_convex eig -> ms_sound ms eps -> 0 <= eps -> 0 <= delta ->
  (forall i, (i < n + nsl)%nat -> xle_r (lb i) (both n x sl i - (1 + eps) * delta) /\ rle_x (both n x sl i + (1 + eps) * delta) (ub i)) ->
  step_lib ms chol slv eig svd pin tol oinf dxmin gi n nsl lb ub thr M0 ce ae sl fuel x delta g lm = TrOut o -> 0 <= tr_rpred o.
Proof.
  intros LA LS EC MS E0 D0 IN E. destruct (lag_some n lb ub (length ce) ae x g lm) as (L & w & HL & HW).
  exact (lib_inside _ _ _ _ _ _ _ _ _ _ _ _ _ _ _ _ _ _ _ _ _ _ _ _ L w o eps LA LS HL HW EC MS E0 D0 IN E).
Qed.
