(** Bound-constrained solver with its search: how much the snapping to bounds can cost. *)
From Coq Require Import Reals Lra Psatz Lia List Arith Bool.
From Verif Require Import RVec RBool Tri ProjGrad_Spec MS_Model MS_Spec MS_Proofs MS_More BC_Model BC_Spec BC_Proofs BC_More Hom_Model Hom_Spec Hom_Proofs Hom_More Hom_Len.
Import ListNotations.
Open Scope R_scope.

Lemma model_shift n g0 H s f d g : symmetric n H -> NoDup f -> (forall i, In i f -> (i < n)%nat) -> veq n g (vadd g0 (mv n H s)) ->
  qmodel n g0 H (vadd s (expand f d)) = qmodel n g0 H s + qmodel (length f) (sub_vec f g) (sub_mat f H) d.
Proof.
  intros SH ND FB G. unfold qmodel. set (e := expand f d).
  assert (E1 : dot (length f) (sub_vec f g) d = dot n e g0 + dot n e (mv n H s)).
  { rewrite (dot_sym (length f)), <- (dot_expand n f d g ND FB). fold e. rewrite (dot_ext n _ _ _ _ (fun _ _ => eq_refl) G). apply dot_add_r. }
  assert (E2 : quad (length f) (sub_mat f H) d = quad n H e).
  { unfold quad. unfold e at 1. rewrite (dot_expand n f d _ ND FB). apply dot_ext; [intros i Hi; reflexivity|]. intros i Hi.
    exact (sub_mv n f H d i ND FB Hi). }
  rewrite E1, E2. rewrite dot_add_r. unfold quad at 1. rewrite dot_add_l.
  assert (M : veq n (mv n H (vadd s e)) (vadd (mv n H s) (mv n H e))) by (intros i Hi; apply mv_add).
  rewrite !(dot_ext n _ _ _ _ (fun _ _ => eq_refl) M), !dot_add_r.
  rewrite (dot_sym n g0 e). unfold quad. rewrite (dot_mv_sym n H s e SH). lra.
Qed.

Lemma sound_down k g A D eps o : symmetric k A -> answer_sound k g A D eps o -> qmodel k g A (ms_s o) <= 0.
Proof.
  intros SA (_ & B). destruct (Req_EM_T (norm k (ms_s o)) 0) as [Z|Z].
  - assert (V : veq k (ms_s o) vzero) by (intros i Hi; exact (proj1 (norm_zero k (ms_s o)) Z i Hi)).
    unfold qmodel, quad. rewrite (dot_ext k _ _ _ _ (fun _ _ => eq_refl) V), (dot_ext k _ _ _ _ V (fun _ _ => eq_refl)), dot_zero_r, dot_zero_l. lra.
  - destruct B as (L & S & P & _); [intros V; apply Z; apply norm_zero; exact V|].
    pose proof (opt_descent k g A _ _ SA S P L). pose proof (dot_self_nonneg k (ms_s o)). nra.
Qed.

Section Val.
Variable ms : nat -> nat -> vec -> mat -> R -> option ms_out.
Variable chol : nat -> mat -> option mat.
Variable slv : nat -> mat -> vec -> option vec.
Variables (n : nat) (H : mat) (lb ub : nat -> xR) (g0 : vec) (Delta0 eps : R).
Hypothesis CE : forall k, chol_exact k (chol k).
Hypothesis SE : forall k, slv_exact k (slv k).
Hypothesis SH : symmetric n H.
Hypothesis W0 : in_bounds n lb ub vzero.
Hypothesis MS : ms_sound ms eps.
Hypothesis D0 : 0 <= Delta0.
(** no bound within 1e-10 of zero *)
Hypothesis FAR : forall i, (i < n)%nat -> ~ rle_x (-1 / 10 ^ 10) (lb i) /\ ~ xle_r (ub i) (1 / 10 ^ 10).
(** a measure that falls with the objective and changes by at most [K*r] between points whose components differ by at most [r] *)
Variables (len : vec -> R) (K : R).
Hypothesis K0 : 0 <= K.
Hypothesis LQ : forall a b, qmodel n g0 H a <= qmodel n g0 H b -> len a <= len b.
Hypothesis LL : forall a b r, 0 <= r -> (forall i, (i < n)%nat -> Rabs (a i - b i) <= r) -> len a <= len b + K * r.
Notation unit5 := (K * / 10 ^ 5).

Lemma unit5_pos : 0 <= unit5.
Proof. pose proof eps_pos as EP. unfold bc_eps in EP. nra. Qed.

Lemma placed_near f s d s' : NoDup f -> (forall i, In i f -> (i < n)%nat) -> placed lb ub f s d s' ->
  forall i, (i < n)%nat -> Rabs (s' i - vadd s (expand f d) i) <= / 10 ^ 5.
Proof.
  intros ND FB (P1 & P2) i Hi. pose proof eps_pos as EP. unfold bc_eps in EP. destruct (memb i f) eqn:MB.
  - apply memb_spec in MB. destruct (In_nth f i 0%nat MB) as (k & Hk & EK). specialize (P2 k Hk). cbv zeta in P2. rewrite EK in P2.
    assert (XE : vadd s (expand f d) i = s i + d k) by (unfold vadd; rewrite <- EK, expand_at by assumption; reflexivity). rewrite XE.
    replace (1 / 10 ^ 5) with (/ 10 ^ 5) in P2 by (unfold Rdiv; ring).
    destruct P2 as [(_ & -> & _)|[(_ & _ & A)|(X & _)]]; [|exact A|].
    + unfold Rminus. rewrite Rplus_opp_r, Rabs_R0. lra.
    + exfalso. destruct (FAR i Hi) as [F1 F2]. destruct X as [(X & _)|(X & _)]; contradiction.
  - apply memb_false in MB. rewrite (P1 i MB). unfold vadd. rewrite expand_out by exact MB.
    replace (s i - (s i + 0)) with 0 by ring. rewrite Rabs_R0. lra.
Qed.

Lemma outer_value fuel : forall passes calls trials s g Delta norms value gplus active free tag,
  in_bounds n lb ub s -> good n active free -> Delta = Delta0 - norm n s -> 0 <= Delta ->
  (forall i, In i free -> s i = 0 \/ (lb i <> Fin (s i) /\ ub i <> Fin (s i))) ->
  veq n g (vadd g0 (mv n H s)) -> len s <= len vzero + INR passes * unit5 -> (passes + fuel = n)%nat ->
  match bcx_outer ms chol slv n H lb ub g0 Delta0 fuel passes calls trials s g Delta norms value gplus active free tag with
  | Some (Some o) => len (bc_s o) <= len vzero + INR n * unit5
  | _ => True
  end.
Proof.
  pose proof unit5_pos as U5.
  assert (UP : forall p x, (p <= n)%nat -> x <= len vzero + INR p * unit5 -> x <= len vzero + INR n * unit5).
  { intros p x P L. apply le_INR in P. nra. }
  induction fuel as [|k IH]; intros passes calls trials s g Delta norms value gplus active free tag W G ED DD RM EG LS PF;
    cbn [bcx_outer]; destruct free as [|f0 fr] eqn:FE; try exact Logic.I; try (cbn [bc_s]; apply (UP passes); [lia|exact LS]).
  rewrite <- FE in *. assert (NE : free <> []) by (rewrite FE; discriminate).
  pose proof (calls_spec (ms_part ms) (fun _ _ _ _ => HRaise) n H lb ub g0 (length free) calls s g Delta gplus active free G (le_n _) NE) as CS.
  destruct (ms_calls (ms_part ms) n H lb ub (length free) calls s g Delta gplus active free) as [|gp c|a1 f1 sa gp c|]; try exact Logic.I; [cbn [bc_s]; apply (UP passes); [lia|exact LS]|].
  destruct CS as (G1 & I1 & NE1 & CC1 & (d & gp' & MP & SA) & CR). unfold ms_part in MP.
  destruct (ms c (length f1) (sub_vec f1 g) (sub_mat f1 H) Delta) as [o|] eqn:MSO; [|discriminate]. injection MP as Ed Eg. subst d.
  assert (B1 : forall i, In i f1 -> (i < n)%nat) by (intros i X; apply G1; exact X).
  pose proof (sub_sym n H f1 SH B1) as SS. pose proof (MS _ _ _ _ _ _ SS DD MSO) as AS.
  assert (DOWN : forall d, qmodel (length f1) (sub_vec f1 g) (sub_mat f1 H) d <= 0 -> len (vadd s (expand f1 d)) <= len s).
  { intros d L. apply LQ. rewrite (model_shift n g0 H s f1 d g SH (proj2 G1) B1 EG). lra. }
  destruct (existsb (out_by lb ub 0 sa) f1) eqn:O.
  - assert (RM1 : room lb ub f1 s sa).
    { intros i II. destruct (CR i II) as (C1 & C2). pose proof tiny_pos. pose proof eps_pos. split; intros BY E.
      - destruct (RM i (I1 i II)) as [Z|(Z & _)]; [|contradiction]. rewrite Z in E. rewrite E in BY. cbn in BY.
        unfold l_crit, below in C2. rewrite E in C2. cbn in C2. rewrite !(proj2 (Rleb_true _ _)) in C2 by lra. discriminate.
      - destruct (RM i (I1 i II)) as [Z|(_ & Z)]; [|contradiction]. rewrite Z in E. rewrite E in BY. cbn in BY.
        unfold u_crit, above in C1. rewrite E in C1. cbn in C1. rewrite !(proj2 (Rleb_true _ _)) in C1 by lra. discriminate. }
    destruct (search_of ms chol slv n H lb ub c f1 s g sa Delta) as [| |i|s' i] eqn:SO; try exact Logic.I.
    + cbn [bc_s]. apply (UP 0%nat); [lia|cbn; lra].
    + destruct (t_found ms chol slv n H lb ub CE SE SH W0 f1 s g Delta eps c o sa s' i (proj2 G1) B1 W AS SA O RM1 MSO SO) as (W' & lam & d & LM & _ & ST & NS & QD & PL & _).
      assert (L0 : 0 <= lam).
      { destruct (sound_start ms n H lb ub SH f1 s g Delta eps c o sa (proj2 G1) B1 W AS SA O RM1 MSO) as (L0 & _). lra. }
      assert (LB : len s' <= len vzero + INR (S passes) * unit5).
      { pose proof (LL s' (vadd s (expand f1 d)) (/ 10 ^ 5) ltac:(pose proof eps_pos as EP; unfold bc_eps in EP; lra) (placed_near f1 s d s' (proj2 G1) B1 PL)) as A.
        assert (QN : qmodel (length f1) (sub_vec f1 g) (sub_mat f1 H) d <= 0) by (pose proof (dot_self_nonneg (length f1) d); nra).
        pose proof (DOWN d QN). rewrite S_INR. lra. }
      assert (LN : len s' <= len vzero + INR n * unit5) by (apply (UP (S passes)); [lia|exact LB]).
      cbv zeta. destruct (Rltb_spec (Delta0 - norm n s') (- bc_eps)) as [L|L]; [exact LN|].
      destruct (Rltb_spec (Delta0 - norm n s') 0) as [L'|L']; [exact LN|].
      destruct (complement n (filter (at_bound lb ub s') (seq 0 n))) as [|y ys] eqn:F2; [exact LN|].
      rewrite <- F2 in *. destruct (forallb _ _); [exact LN|].
      apply IH; auto; [|lra| |intros q _; reflexivity|lia].
      * split; [|apply NoDup_filter, complement_nodup]. intros k'. rewrite filter_In, negb_true_iff, memb_false.
        rewrite complement_in, in_app_iff. tauto.
      * intros q IQ. right. apply filter_In in IQ. destruct IQ as (IQ & _). apply complement_in in IQ. destruct IQ as (Hq & NQ).
        assert (AB : at_bound lb ub s' q = false).
        { destruct (at_bound lb ub s' q) eqn:X; [|reflexivity]. exfalso. apply NQ. apply filter_In. split; [apply in_seq; lia|exact X]. }
        unfold at_bound, above, below in AB. apply orb_false_iff in AB. destruct AB as (X1 & X2). pose proof eps_pos.
        split; intros E; [rewrite E in X2; cbn in X2|rewrite E in X1; cbn in X1]; rb; lra.
  - cbn [bc_s]. apply (UP passes); [lia|]. rewrite SA. pose proof (DOWN _ (sound_down _ _ _ _ _ _ SS AS)). lra.
Qed.

Lemma t_value o : solve_bcx ms chol slv n H lb ub g0 Delta0 = Some (Some o) -> len (bc_s o) <= len vzero + INR n * unit5.
Proof.
  intros E. unfold solve_bcx in E. pose proof (outer_value n 0 0 0 vzero g0 Delta0 0 0 g0 _ _ BcNoFree W0
    (good_complement n (filter (g_crit lb ub g0) (seq 0 n)))) as X. cbv zeta in E. rewrite E in X. apply X.
  - rewrite (proj2 (norm_zero n vzero)) by (intros j J; reflexivity). ring.
  - exact D0.
  - intros i _. left. reflexivity.
  - intros i Hi. unfold vadd, mv. rewrite rsum_zero; [ring|]. intros; unfold vzero; ring.
  - cbn. lra.
  - reflexivity.
Qed.

End Val.

(** with all bounds further away than the radius no search is needed *)
Lemma t_inside ms chol slv n H lb ub g0 Delta0 eps o : symmetric n H -> ms_sound ms eps -> 0 <= eps -> 0 <= Delta0 ->
  (forall i, (i < n)%nat -> xle_r (lb i) (- ((1 + eps) * Delta0)) /\ rle_x ((1 + eps) * Delta0) (ub i)) ->
  solve_bcx ms chol slv n H lb ub g0 Delta0 = Some (Some o) -> qmodel n g0 H (bc_s o) <= 0 /\ norm n (bc_s o) <= (1 + eps) * Delta0.
Proof.
  intros SH MS E0 D0 IN E. unfold solve_bcx in E. cbv zeta in E. set (act := filter (g_crit lb ub g0) (seq 0 n)) in E.
  pose proof (good_complement n act) as G. set (free := complement n act) in *.
  assert (Z0 : qmodel n g0 H vzero <= 0 /\ norm n vzero <= (1 + eps) * Delta0).
  { rewrite (proj2 (norm_zero n vzero)) by (intros j J; reflexivity). unfold qmodel, quad. rewrite dot_zero_r, dot_zero_l. nra. }
  assert (STEP : forall fuel, bcx_outer ms chol slv n H lb ub g0 Delta0 fuel 0 0 0 vzero g0 Delta0 0 0 g0 act free BcNoFree = Some (Some o) ->
    qmodel n g0 H (bc_s o) <= 0 /\ norm n (bc_s o) <= (1 + eps) * Delta0); [|exact (STEP n E)].
  clear E. intros [|k] E; cbn [bcx_outer] in E; destruct free as [|f0 fr] eqn:FE; try discriminate; try (injection E as <-; exact Z0).
  rewrite <- FE in *. assert (NE : free <> []) by (rewrite FE; discriminate).
  pose proof (calls_spec (ms_part ms) (fun _ _ _ _ => HRaise) n H lb ub g0 (length free) 0 vzero g0 Delta0 g0 act free G (le_n _) NE) as CS.
  destruct (ms_calls (ms_part ms) n H lb ub (length free) 0 vzero g0 Delta0 g0 act free) as [|gp c|a1 f1 sa gp c|]; try discriminate; [injection E as <-; exact Z0|].
  destruct CS as (G1 & I1 & NE1 & CC1 & (d & gp' & MP & SA) & CR). unfold ms_part in MP.
  destruct (ms c (length f1) (sub_vec f1 g0) (sub_mat f1 H) Delta0) as [a|] eqn:MSO; [|discriminate]. injection MP as Ed Eg. subst d.
  assert (B1 : forall i, In i f1 -> (i < n)%nat) by (intros i X; apply G1; exact X).
  pose proof (sub_sym n H f1 SH B1) as SS. pose proof (MS _ _ _ _ _ _ SS D0 MSO) as AS.
  assert (NS : norm n sa <= (1 + eps) * Delta0).
  { rewrite SA. eapply Rle_trans; [apply norm_triangle|]. rewrite (expand_norm n f1 _ (proj2 G1) B1), (proj2 (norm_zero n vzero)) by (intros j J; reflexivity).
    pose proof (proj1 AS). lra. }
  assert (O : existsb (out_by lb ub 0 sa) f1 = false).
  { destruct (existsb (out_by lb ub 0 sa) f1) eqn:X; [|reflexivity]. exfalso. apply existsb_exists in X. destruct X as (i & II & X).
    destruct (IN i (B1 i II)) as [A B]. pose proof (norm_comp n sa i (B1 i II)) as C. pose proof (Rle_abs (sa i)). pose proof (Rle_abs (- sa i)) as C2. rewrite Rabs_Ropp in C2.
    enough (Y : out_by lb ub 0 sa i = false) by congruence. apply out0. destruct (lb i), (ub i); cbn in *; repeat split; try tauto; lra. }
  rewrite O in E. injection E as <-. cbn [bc_s]. split; [|exact NS].
  rewrite SA, (model_shift n g0 H vzero f1 (ms_s a) g0 SH (proj2 G1) B1); [|intros i Hi; unfold vadd, mv; rewrite rsum_zero; [ring|intros; unfold vzero; ring]].
  pose proof (sound_down _ _ _ _ _ _ SS AS). lra.
Qed.
