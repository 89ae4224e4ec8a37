(** The runs of the model of blls.py are those described in BLP_Spec.v. *)
From Coq Require Import Reals Lra Lia Arith List Bool ZArith.
From Verif Require Import RVec RBool ProjGrad_Spec BL_Model BL_Spec BL_Proofs BLP_Spec.
Import ListNotations.
Open Scope R_scope.

Section P.
Variables (m n : nat) (A : mat) (b : vec) (lb ub : nat -> xR).
Variable pin : list nat -> vec -> option vec.
Hypothesis HP : proper_bounds n lb ub.

Notation misf := (misfit m n A b).

Lemma misfit_ext x y : veq n x y -> misf x = misf y.
Proof. intros E. unfold misfit. apply norm_ext. intros i Hi. unfold vsub. rewrite (mv_ext _ _ _ _ _ E). reflexivity. Qed.

Lemma clipv_inside x i : (i < n)%nat -> clipv lb ub x i = inside lb ub x i.
Proof. intros Hi. unfold clipv, inside. apply clip_proj. apply HP. exact Hi. Qed.

Lemma filter_pw (f g : nat -> bool) l : (forall i, f i = g i) -> filter f l = filter g l.
Proof. intros H. apply filter_ext. exact H. Qed.

Definition seg (s t : vec) (al : R) : vec := vadd (vscal (1 - al) s) (vscal al t).

Lemma seg_trial s t k i : seg s t (/ 2 ^ k) i = trial s t k i.
Proof. unfold seg, trial, vadd, vscal. ring. Qed.

Lemma seg_under l s t k : filter (fun i => negb (xler (lb i) (seg s t (/ 2 ^ k) i))) l = under lb l (trial s t k).
Proof. apply filter_pw. intros i. rewrite seg_trial. reflexivity. Qed.
Lemma seg_over l s t k : filter (fun i => negb (rlex (seg s t (/ 2 ^ k) i) (ub i))) l = over ub l (trial s t k).
Proof. apply filter_pw. intros i. rewrite seg_trial. reflexivity. Qed.

Lemma clip_seg s t k i : (i < n)%nat -> clipv lb ub (seg s t (/ 2 ^ k)) i = inside lb ub (trial s t k) i.
Proof. intros Hi. rewrite clipv_inside by exact Hi. unfold inside. rewrite seg_trial. reflexivity. Qed.

Lemma acc_iff s t k :
  norm m (resid n A b (clipv lb ub (seg s t (/ 2 ^ k)))) <= misf s - 1 / 100 * / 2 ^ k * (misf t - misf s) <->
  accepted m n A b lb ub s t k.
Proof.
  unfold accepted. rewrite resid_misfit.
  rewrite (misfit_ext _ (inside lb ub (trial s t k))) by (intros i Hi; apply clip_seg; exact Hi).
  split; intros H; lra.
Qed.

Lemma bk_half k : 1 / 2 * / 2 ^ k = / 2 ^ S k.
Proof. rewrite <- tech_pow_Rmult, Rinv_mult. lra. Qed.

(** the backtracking loop *)
Lemma backtrack_spec l s t tries : forall j al lt ut, al = / 2 ^ j ->
  let bk := backtrack m n A b lb ub tries s t l (misf s) (misf t - misf s) al lt ut in
  (exists k st r rn, (j <= k < j + tries)%nat /\ bk_found bk = Some (st, r, rn) /\
     (forall i, (j <= i < k)%nat -> rejected m n A b lb ub l s t i) /\
     outside lb ub l (trial s t k) /\ accepted m n A b lb ub s t k /\
     (forall i, (i < n)%nat -> st i = inside lb ub (trial s t k) i) /\
     bk_lt bk = under lb l (trial s t k) /\ bk_ut bk = over ub l (trial s t k)) \/
  (bk_found bk = None /\
    ((exists k, (j <= k < j + tries)%nat /\ (forall i, (j <= i < k)%nat -> rejected m n A b lb ub l s t i) /\
       ~ outside lb ub l (trial s t k) /\ bk_last bk = Nat.eqb (S k) (j + tries) /\ bk_lt bk = [] /\ bk_ut bk = []) \/
     ((forall i, (j <= i < j + tries)%nat -> rejected m n A b lb ub l s t i) /\ bk_last bk = true /\
       match tries with
       | O => bk_lt bk = lt /\ bk_ut bk = ut
       | S tr => bk_lt bk = under lb l (trial s t (j + tr)) /\ bk_ut bk = over ub l (trial s t (j + tr))
       end))).
Proof.
  induction tries as [|tr IH]; intros j al lt ut Hal; cbv zeta.
  { right. split; [reflexivity|]. right. split; [intros i Hi; lia|]. repeat split. }
  subst al. cbn [backtrack]. fold (seg s t (/ 2 ^ j)). rewrite seg_under, seg_over.
  set (ul := under lb l (trial s t j)). set (ol := over ub l (trial s t j)).
  assert (Main : outside lb ub l (trial s t j) -> forall X,
    X = (if Rleb (norm m (resid n A b (clipv lb ub (seg s t (/ 2 ^ j))))) (misf s - 1 / 100 * / 2 ^ j * (misf t - misf s))
     then Bkt (Some (clipv lb ub (seg s t (/ 2 ^ j)), resid n A b (clipv lb ub (seg s t (/ 2 ^ j))),
                norm m (resid n A b (clipv lb ub (seg s t (/ 2 ^ j)))))) ul ol (Nat.eqb tr 0)
     else backtrack m n A b lb ub tr s t l (misf s) (misf t - misf s) (1 / 2 * / 2 ^ j) ul ol) ->
    (exists k st r rn, (j <= k < j + S tr)%nat /\ bk_found X = Some (st, r, rn) /\
     (forall i, (j <= i < k)%nat -> rejected m n A b lb ub l s t i) /\
     outside lb ub l (trial s t k) /\ accepted m n A b lb ub s t k /\
     (forall i, (i < n)%nat -> st i = inside lb ub (trial s t k) i) /\
     bk_lt X = under lb l (trial s t k) /\ bk_ut X = over ub l (trial s t k)) \/
    (bk_found X = None /\
     ((exists k, (j <= k < j + S tr)%nat /\ (forall i, (j <= i < k)%nat -> rejected m n A b lb ub l s t i) /\
       ~ outside lb ub l (trial s t k) /\ bk_last X = Nat.eqb (S k) (j + S tr) /\ bk_lt X = [] /\ bk_ut X = []) \/
     ((forall i, (j <= i < j + S tr)%nat -> rejected m n A b lb ub l s t i) /\ bk_last X = true /\
      bk_lt X = under lb l (trial s t (j + tr)) /\ bk_ut X = over ub l (trial s t (j + tr)))))).
  { intros Ho X ->.
    destruct (Rleb_spec (norm m (resid n A b (clipv lb ub (seg s t (/ 2 ^ j))))) (misf s - 1 / 100 * / 2 ^ j * (misf t - misf s))) as [Ha|Ha].
    - left. apply acc_iff in Ha. exists j. eexists. eexists. eexists. split; [lia|]. split; [reflexivity|].
      split; [intros i Hi; lia|]. split; [exact Ho|]. split; [exact Ha|].
      split; [intros i Hi; apply clip_seg; exact Hi|]. split; reflexivity.
    - assert (Hj : rejected m n A b lb ub l s t j) by (split; [exact Ho|intros H; apply Ha; apply acc_iff; exact H]).
      assert (Hrej : forall k, (forall i, (S j <= i < k)%nat -> rejected m n A b lb ub l s t i) ->
        forall i, (j <= i < k)%nat -> rejected m n A b lb ub l s t i).
      { intros k H i Hi. destruct (Nat.eq_dec i j) as [->|Hn]; [exact Hj|]. apply H. lia. }
      specialize (IH (S j) (1 / 2 * / 2 ^ j) ul ol (bk_half j)). cbv zeta in IH.
      set (X := backtrack _ _ _ _ _ _ _ _ _ _ _ _ _ _ _) in *.
      destruct IH as [[k [st [r [rn [H1 [H2 [H3 H4]]]]]]]|[H1 [[k [H2 [H3 [H4 [H5 H6]]]]]|[H2 [H3 H4]]]]].
      + left. exists k, st, r, rn. split; [lia|]. split; [exact H2|]. split; [apply Hrej; exact H3|exact H4].
      + right. split; [exact H1|]. left. exists k. split; [lia|]. split; [apply Hrej; exact H3|]. split; [exact H4|].
        split; [|exact H6]. rewrite H5. f_equal. lia.
      + right. split; [exact H1|]. right. split; [|split; [exact H3|]].
        * apply Hrej. intros i Hi. apply H2. lia.
        * destruct tr as [|tr]; [destruct H4 as [-> ->]; rewrite Nat.add_0_r; split; reflexivity|].
          replace (j + S tr)%nat with (S j + tr)%nat by lia. exact H4. }
  destruct ul as [|i0 ul'] eqn:Eu; [destruct ol as [|i0 ol'] eqn:Eo|].
  - right. split; [reflexivity|]. left. exists j. split; [lia|]. split; [intros i Hi; lia|].
    split; [intros [H|H]; [apply H; exact Eu|apply H; exact Eo]|]. split; [|split; reflexivity].
    cbn [bk_last]. destruct tr; [|].
    + symmetry. apply Nat.eqb_eq. lia.
    + symmetry. apply Nat.eqb_neq. lia.
  - apply Main; [right; intros H; change (ol = []) in H; congruence|reflexivity].
  - apply Main; [left; intros H; change (ul = []) in H; congruence|reflexivity].
Qed.

(** the longest step *)
Lemma longest_ind l s d : forall al0,
  let a := fold_left (mstep_f lb ub s d) l al0 in
  a <= al0 /\ (forall i r, In i l -> room lb ub s d i r -> a <= r) /\
  (a = al0 \/ exists i, In i l /\ room lb ub s d i a).
Proof.
  induction l as [|i l IH]; intros al0; cbn [fold_left]; cbv zeta.
  { split; [lra|]. split; [intros i r []|left; reflexivity]. }
  specialize (IH (mstep_f lb ub s d al0 i)). cbv zeta in IH. destruct IH as [I1 [I2 I3]].
  set (a := fold_left _ l _) in *. set (a1 := mstep_f lb ub s d al0 i) in *.
  assert (K : a1 <= al0 /\ (forall r, room lb ub s d i r -> a1 <= r) /\ (a1 = al0 \/ room lb ub s d i a1)).
  { unfold a1, mstep_f. pose proof eps_pos as He.
    destruct (Rleb_spec (1 / 10 ^ 14) (d i)) as [L|L]; [|destruct (Rleb_spec (d i) (- (1 / 10 ^ 14))) as [L'|L']].
    - destruct (ub i) as [u| |] eqn:Eu.
      + split; [apply Rmin_l|]. split.
        * intros r [[_ [u' [E ->]]]|[H _]]; [|lra]. rewrite Eu in E. injection E as <-. apply Rmin_r.
        * unfold Rmin. destruct (Rle_dec _ _); [left; reflexivity|right]. left. split; [exact L|]. exists u. split; [exact Eu|reflexivity].
      + split; [lra|]. split; [|left; reflexivity]. intros r [[_ [u' [E _]]]|[H _]]; [congruence|lra].
      + split; [lra|]. split; [|left; reflexivity]. intros r [[_ [u' [E _]]]|[H _]]; [congruence|lra].
    - destruct (lb i) as [u| |] eqn:Eu.
      + split; [apply Rmin_l|]. split.
        * intros r [[H _]|[_ [u' [E ->]]]]; [lra|]. rewrite Eu in E. injection E as <-. apply Rmin_r.
        * unfold Rmin. destruct (Rle_dec _ _); [left; reflexivity|right]. right. split; [exact L'|]. exists u. split; [exact Eu|reflexivity].
      + split; [lra|]. split; [|left; reflexivity]. intros r [[H _]|[_ [u' [E _]]]]; [lra|congruence].
      + split; [lra|]. split; [|left; reflexivity]. intros r [[H _]|[_ [u' [E _]]]]; [lra|congruence].
    - split; [lra|]. split; [|left; reflexivity]. intros r [[H _]|[H _]]; lra. }
  destruct K as [K1 [K2 K3]]. split; [lra|]. split.
  - intros j r [->|Hj] Hr; [|apply (I2 j); assumption]. apply Rle_trans with a1; [exact I1|apply K2; exact Hr].
  - destruct I3 as [->|[j [Hj Hr]]]; [|right; exists j; split; [right; exact Hj|exact Hr]].
    destruct K3 as [->|K3]; [left; reflexivity|right; exists i; split; [left; reflexivity|exact K3]].
Qed.

Lemma max_step_longest l s t : longest lb ub l s (fun i => t i - s i) (max_step lb ub l s (vsub t s)).
Proof. exact (longest_ind l s (vsub t s) 1). Qed.

(** one search *)
Definition spot (t : nst) : place :=
  Place (n_s t) (n_atlb t) (n_atub t) (negb (Nat.eqb (n_nuns t) 0)) (n_lt t) (n_ut t).

Definition sound (t : nst) : Prop :=
  n_free t = others n (n_atlb t) (n_atub t) /\ veq m (n_res t) (resid n A b (n_s t)) /\ n_resn t = misf (n_s t).

Lemma subspace_target lo up y : subspace A b lb ub pin (others n lo up) lo up = Some y ->
  target n A b lb ub pin lo up y.
Proof.
  unfold subspace. destruct (pin _ _) as [p|] eqn:E; [|discriminate]. intros H. injection H as <-.
  exists p. split; [exact E|]. intros i Hi. reflexivity.
Qed.

Lemma exists_outside l y :
  existsb (fun i => negb (xler (lb i) (y i)) || negb (rlex (y i) (ub i))) l = true <-> outside lb ub l y.
Proof.
  rewrite existsb_exists. unfold outside, under, over. split.
  - intros [i [Hi H]]. apply orb_true_iff in H. destruct H as [H|H].
    + left. intros E. assert (Hin : In i (filter (fun i => negb (xler (lb i) (y i))) l)) by (apply filter_In; auto).
      rewrite E in Hin. exact Hin.
    + right. intros E. assert (Hin : In i (filter (fun i => negb (rlex (y i) (ub i))) l)) by (apply filter_In; auto).
      rewrite E in Hin. exact Hin.
  - intros [H|H].
    + destruct (filter (fun i => negb (xler (lb i) (y i))) l) as [|i q] eqn:E; [congruence|].
      assert (Hin : In i (i :: q)) by (left; reflexivity). rewrite <- E in Hin. apply filter_In in Hin.
      destruct Hin as [H1 H2]. exists i. split; [exact H1|]. rewrite H2. reflexivity.
    + destruct (filter (fun i => negb (rlex (y i) (ub i))) l) as [|i q] eqn:E; [congruence|].
      assert (Hin : In i (i :: q)) by (left; reflexivity). rewrite <- E in Hin. apply filter_In in Hin.
      destruct Hin as [H1 H2]. exists i. split; [exact H1|]. rewrite H2. apply orb_true_r.
Qed.

Lemma nested_passes k : forall t t', nested m n A b lb ub pin k t = Some t' -> sound t ->
  passes m n A b lb ub pin k (spot t) (spot t') /\ sound t'.
Proof.
  induction k as [|k IH]; intros t t' H [S1 [S2 S3]]; cbn [nested] in H.
  { injection H as <-. split; [constructor|split; auto]. }
  rewrite S1 in H.
  destruct (subspace A b lb ub pin (others n (n_atlb t) (n_atub t)) (n_atlb t) (n_atub t)) as [y|] eqn:Es; [|discriminate].
  apply subspace_target in Es.
  destruct (existsb _ _) eqn:Ex.
  - apply exists_outside in Ex. change (norm m (resid n A b y)) with (misf y) in H. rewrite S3 in H.
    destruct (n_nuns t) as [|nu] eqn:En.
    + change (4 * (1 - 0))%nat with 4%nat in H.
      pose proof (backtrack_spec (others n (n_atlb t) (n_atub t)) (n_s t) y 4 0 1 (n_lt t) (n_ut t)) as HB.
      cbv zeta in HB. set (bk := backtrack _ _ _ _ _ _ _ _ _ _ _ _ _ _ _) in *.
      destruct HB as [[kk [st [r [rn [B1 [B2 [B3 [B4 [B5 [B6 [B7 B8]]]]]]]]]]]|[B0 HB]].
      { cbn. lra. }
      * pose proof (backtrack_found _ _ _ _ _ _ _ _ _ _ _ _ _ _ _ _ _ _ B2) as [-> ->].
        rewrite B2 in H. injection H as <-. split.
        -- apply passes_end. eapply (pass_projected m n A b lb ub pin _ _ y kk);
             unfold spot; cbn [where_ held_lo held_up failed crossed_lo crossed_up n_s n_atlb n_atub n_nuns n_lt n_ut];
             rewrite ?En; try reflexivity; try assumption; try lia.
           intros j Hj. apply B3. lia.
        -- split; [reflexivity|]. cbn [n_res n_s n_resn]. split; [intros i Hi; reflexivity|reflexivity].
      * rewrite B0 in H. apply IH in H.
        -- destruct H as [H Hs]. split; [|exact Hs]. eapply passes_more; [|exact H].
           eapply (pass_longest m n A b lb ub pin _ _ y (max_step lb ub (others n (n_atlb t) (n_atub t)) (n_s t) (vsub y (n_s t))));
             unfold spot; cbn [where_ held_lo held_up failed crossed_lo crossed_up n_s n_atlb n_atub n_nuns n_lt n_ut];
             rewrite ?En; try reflexivity; try assumption; [|apply max_step_longest].
           cbn [Nat.eqb negb]. destruct HB as [[kk [B1 [B2 [B3 [B4 [B5 B6]]]]]]|[B1 [B2 [B3 B4]]]].
           ++ left. exists kk. split; [lia|]. split; [intros j Hj; apply B2; lia|]. split; [exact B3|].
              split; [|split; assumption]. rewrite B4. change (0 + 4)%nat with 4%nat.
              destruct kk as [|[|[|[|kk]]]]; reflexivity.
           ++ right. split; [intros j Hj; apply B1; lia|]. rewrite B2. split; [reflexivity|]. split; assumption.
        -- split; [reflexivity|]. cbn [n_res n_s n_resn]. split.
           ++ intros i Hi. set (al := max_step _ _ _ _ _).
              change ((1 - al) * n_res t i + al * (mv n A y i - b i)
                = mv n A (vadd (n_s t) (vscal al (vsub y (n_s t)))) i - b i).
              rewrite (S2 i Hi), mv_add, mv_scal, mv_sub. unfold resid, vsub. ring.
           ++ unfold misfit. apply norm_ext. intros i Hi. set (al := max_step _ _ _ _ _).
              change ((1 - al) * n_res t i + al * (mv n A y i - b i)
                = mv n A (vadd (n_s t) (vscal al (vsub y (n_s t)))) i - b i).
              rewrite (S2 i Hi), mv_add, mv_scal, mv_sub. unfold resid, vsub. ring.
    + change (4 * (1 - S nu))%nat with 0%nat in H. cbn [backtrack bk_found bk_last bk_lt bk_ut] in H.
      apply IH in H.
      * destruct H as [H Hs]. split; [|exact Hs]. eapply passes_more; [|exact H].
        eapply (pass_longest m n A b lb ub pin _ _ y (max_step lb ub (others n (n_atlb t) (n_atub t)) (n_s t) (vsub y (n_s t))));
             unfold spot; cbn [where_ held_lo held_up failed crossed_lo crossed_up n_s n_atlb n_atub n_nuns n_lt n_ut];
             rewrite ?En; try reflexivity; try assumption; [|apply max_step_longest].
        cbn. repeat split.
      * split; [reflexivity|]. cbn [n_res n_s n_resn]. split.
        -- intros i Hi. set (al := max_step _ _ _ _ _).
              change ((1 - al) * n_res t i + al * (mv n A y i - b i)
                = mv n A (vadd (n_s t) (vscal al (vsub y (n_s t)))) i - b i).
              rewrite (S2 i Hi), mv_add, mv_scal, mv_sub. unfold resid, vsub. ring.
        -- unfold misfit. apply norm_ext. intros i Hi. set (al := max_step _ _ _ _ _).
              change ((1 - al) * n_res t i + al * (mv n A y i - b i)
                = mv n A (vadd (n_s t) (vscal al (vsub y (n_s t)))) i - b i).
              rewrite (S2 i Hi), mv_add, mv_scal, mv_sub. unfold resid, vsub. ring.
  - injection H as <-. split.
    + apply passes_end. eapply (pass_target m n A b lb ub pin _ _ y);
        unfold spot; cbn [where_ held_lo held_up failed crossed_lo crossed_up n_s n_atlb n_atub n_nuns n_lt n_ut];
        try reflexivity; try assumption.
      intros H. apply exists_outside in H. change (loose n (n_atlb t) (n_atub t)) with (others n (n_atlb t) (n_atub t)) in H.
      congruence.
    + split; [reflexivity|]. cbn [n_res n_s n_resn]. split; [intros i Hi; reflexivity|reflexivity].
Qed.

(** the projected gradient step *)
Lemma ratio_any g : norm n g / norm m (mv n A g) * (norm n g / norm m (mv n A g)) = dot n g g / dot m (mv n A g) (mv n A g).
Proof.
  destruct (Req_dec (dot m (mv n A g) (mv n A g)) 0) as [E|E]; [|apply step_ratio; exact E].
  assert (En : norm m (mv n A g) = 0). { unfold norm. rewrite E. apply sqrt_0. }
  rewrite En, E. unfold Rdiv. rewrite Rinv_0. ring.
Qed.

Definition gstep (g : vec) : R := dot n g g / dot m (mv n A g) (mv n A g).

Lemma cauchy_spec s res tries : veq m res (resid n A b s) -> forall j al, al = gstep (tmv m A res) * / 2 ^ j ->
  match cauchy m n A lb ub tries s (tmv m A res) al with
  | Some st => exists k, (j <= k < j + tries)%nat /\ cauchy_good m n A b lb ub s k /\
      (forall i, (j <= i < k)%nat -> ~ cauchy_good m n A b lb ub s i) /\
      (forall i, (i < n)%nat -> st i = cauchy_point m n A b lb ub s k i)
  | None => forall k, (j <= k < j + tries)%nat -> ~ cauchy_good m n A b lb ub s k
  end.
Proof.
  intros Er. assert (Eg : forall j, tmv m A res j = misfit_grad m n A b s j).
  { intros j. rewrite (tmv_ext m A res (resid n A b s) j Er). reflexivity. }
  assert (Egs : gstep (tmv m A res) = gstep (misfit_grad m n A b s)).
  { unfold gstep. rewrite (dot_ext n _ (misfit_grad m n A b s) _ (misfit_grad m n A b s)) by (intros i Hi; apply Eg).
    rewrite (dot_ext m (mv n A (tmv m A res)) (mv n A (misfit_grad m n A b s)) (mv n A (tmv m A res)) (mv n A (misfit_grad m n A b s)))
      by (intros i Hi; apply mv_ext; intros q Hq; apply Eg).
    reflexivity. }
  induction tries as [|tr IH]; intros j al Hal; cbn [cauchy]; [intros k Hk; lia|].
  assert (Est : veq n (clipv lb ub (vsub s (vscal al (tmv m A res)))) (cauchy_point m n A b lb ub s j)).
  { intros i Hi. rewrite clipv_inside by exact Hi. unfold inside, cauchy_point, vsub, vscal. f_equal.
    rewrite Hal, Eg, Egs. reflexivity. }
  set (st := clipv lb ub (vsub s (vscal al (tmv m A res)))) in *.
  assert (Ed : veq n (vsub st s) (vsub (cauchy_point m n A b lb ub s j) s)).
  { intros i Hi. unfold vsub. rewrite (Est i Hi). reflexivity. }
  rewrite norm_sq.
  rewrite (dot_ext n (tmv m A res) (misfit_grad m n A b s) (vsub st s) (vsub (cauchy_point m n A b lb ub s j) s))
    by (try exact Ed; intros i Hi; apply Eg).
  rewrite (dot_ext m (mv n A (vsub st s)) (mv n A (vsub (cauchy_point m n A b lb ub s j) s))
                     (mv n A (vsub st s)) (mv n A (vsub (cauchy_point m n A b lb ub s j) s)))
    by (intros i Hi; apply mv_ext; exact Ed).
  destruct (Rleb_spec (dot n (misfit_grad m n A b s) (vsub (cauchy_point m n A b lb ub s j) s) + 1 / 2 *
      dot m (mv n A (vsub (cauchy_point m n A b lb ub s j) s)) (mv n A (vsub (cauchy_point m n A b lb ub s j) s)))
      (1 / 100 * dot n (misfit_grad m n A b s) (vsub (cauchy_point m n A b lb ub s j) s))) as [L|L].
  - exists j. split; [lia|]. split; [exact L|]. split; [intros i Hi; lia|exact Est].
  - assert (Hj : ~ cauchy_good m n A b lb ub s j) by exact L.
    assert (Hal' : 1 / 2 * al = gstep (tmv m A res) * / 2 ^ S j).
    { rewrite Hal, <- bk_half. ring. }
    specialize (IH (S j) (1 / 2 * al) Hal').
    destruct (cauchy m n A lb ub tr s (tmv m A res) (1 / 2 * al)) as [st'|].
    + destruct IH as [k [I1 [I2 [I3 I4]]]]. exists k. split; [lia|]. split; [exact I2|]. split; [|exact I4].
      intros i Hi. destruct (Nat.eq_dec i j) as [->|Hn]; [exact Hj|apply I3; lia].
    + intros k Hk. destruct (Nat.eq_dec k j) as [->|Hn]; [exact Hj|apply IH; lia].
Qed.

Lemma at_bound_near e x x' i : x i = x' i -> at_bound (e i) (x i) = true <-> near_bound e x' i.
Proof.
  intros E. unfold near_bound. rewrite E. destruct (e i) as [a| |]; cbn [at_bound].
  - rewrite Rleb_true. split; [intros H; exists a; split; [reflexivity|exact H]|].
    intros [a' [Ea H]]. injection Ea as <-. exact H.
  - split; [discriminate|]. intros [a [H _]]. discriminate.
  - split; [discriminate|]. intros [a [H _]]. discriminate.
Qed.

Lemma reached_ok e x x' : veq n x x' ->
  bounds_reached n e x' (filter (fun i => at_bound (e i) (x i)) (seq 0 n)).
Proof.
  intros E. split; [|eexists; reflexivity]. intros i. rewrite filter_In, in_seq. split.
  - intros [Hi H]. split; [lia|]. apply (at_bound_near e x x' i) in H; [exact H|]. apply E. lia.
  - intros [Hi H]. split; [lia|]. apply (at_bound_near e x x' i); [apply E; lia|exact H].
Qed.

Lemma good_iff s res resn : veq m res (resid n A b s) -> resn = misf s ->
  Rleb (optm m n A lb ub s res) (1 / 10 ^ 10) || Rleb resn (1 / 10 ^ 11) = true <-> good m n A b lb ub s.
Proof.
  intros E ->. rewrite orb_true_iff, !Rleb_true, (optm_stat m n A b lb ub HP s res E). reflexivity.
Qed.

Lemma iterate_rounds left : forall nit nuns lt ut s res resn opt path dirs r,
  iterate m n A b lb ub pin left nit nuns lt ut s res resn opt path dirs = Some r ->
  veq m res (resid n A b s) ->
  rounds m n A b lb ub pin left nit s (negb (Nat.eqb nuns 0)) lt ut (r_s r) (r_exitc r) (r_nit r).
Proof.
  induction left as [|left IH]; intros nit nuns lt ut s res resn opt path dirs r H E; cbn [iterate] in H.
  { injection H as <-. cbn [r_s r_exitc r_nit]. constructor. }
  rewrite ratio_any in H. fold (gstep (tmv m A res)) in H.
  pose proof (cauchy_spec s res 14 E 0 (gstep (tmv m A res))) as HC.
  destruct (cauchy m n A lb ub 14 s (tmv m A res) (gstep (tmv m A res))) as [st|].
  2:{ injection H as <-. cbn [r_s r_exitc r_nit]. apply rounds_stuck. intros k Hk. apply HC; [|lia]. cbn. lra. }
  destruct HC as [k [C1 [C2 [C3 C4]]]]; [cbn; lra|].
  set (atlb := filter _ (seq 0 n)) in H. set (atub := filter _ (seq 0 n)) in H.
  set (y := fun i => if mem atub i then _ else _) in H.
  assert (HS : start_point m n A b lb ub s y atlb atub).
  { exists k. split; [lia|]. split; [exact C2|]. split; [intros j Hj; apply C3; lia|].
    split; [apply reached_ok; exact C4|]. split; [apply reached_ok; exact C4|].
    intros i Hi. unfold y. rewrite (C4 i Hi). reflexivity. }
  change (norm m (resid n A b y)) with (misf y) in H.
  destruct (Nat.eqb (length (others n atlb atub)) 0 || Rleb (misf y) (1 / 10 ^ 11)) eqn:Ev.
  - injection H as <-. cbn [r_s r_exitc r_nit]. eapply rounds_vertex; [exact HS|].
    apply orb_true_iff in Ev. destruct Ev as [Ev|Ev]; [left|right; apply Rleb_true; exact Ev].
    apply Nat.eqb_eq, length_zero_iff_nil in Ev. exact Ev.
  - apply orb_false_iff in Ev. destruct Ev as [Ev1 Ev2]. apply Rleb_false in Ev2.
    assert (Hl : loose n atlb atub <> []).
    { intros Hl. change (others n atlb atub) with (loose n atlb atub) in Ev1. rewrite Hl in Ev1. discriminate. }
    destruct (nested _ _ _ _ _ _ _ _ _) as [t|] eqn:En; [|discriminate].
    apply nested_passes in En; [|split; [reflexivity|split; [intros i Hi; reflexivity|reflexivity]]].
    destruct En as [Hp [T1 [T2 T3]]]. unfold spot at 1 in Hp. cbn [n_s n_atlb n_atub n_nuns n_lt n_ut] in Hp.
    pose proof (good_iff (n_s t) (n_res t) (n_resn t) T2 T3) as Hg.
    destruct (Rleb (optm m n A lb ub (n_s t) (n_res t)) (1 / 10 ^ 10) || Rleb (n_resn t) (1 / 10 ^ 11)) eqn:Eg.
    + injection H as <-. cbn [r_s r_exitc r_nit].
      change (n_s t) with (where_ (spot t)). eapply rounds_good; [exact HS|exact Hl|exact Ev2|exact Hp|]. apply Hg. reflexivity.
    + apply IH in H; [|exact T2]. eapply rounds_next; [exact HS|exact Hl|exact Ev2|exact Hp| |exact H].
      intros G. apply Hg in G. discriminate.
Qed.

Lemma blls_whole_run r : blls m n A b lb ub pin = Some r ->
  whole_run m n A b lb ub pin (r_s r) (r_exitc r) (r_nit r).
Proof.
  unfold blls. destruct (pin (seq 0 n) b) as [p|] eqn:Ep; [|discriminate]. intros H.
  exists p, (clipv lb ub p). split; [exact Ep|]. split; [intros i Hi; apply clipv_inside; exact Hi|].
  pose proof (good_iff (clipv lb ub p) (resid n A b (clipv lb ub p)) (norm m (resid n A b (clipv lb ub p)))
    (fun i _ => eq_refl) eq_refl) as Hg.
  destruct (Rleb _ _ || Rleb _ _).
  - left. cbn [iterate] in H. injection H as <-. split; [apply Hg; reflexivity|]. repeat split.
  - right. split; [intros G; apply Hg in G; discriminate|].
    apply iterate_rounds in H; [exact H|]. intros i Hi. reflexivity.
Qed.

End P.
