(** The solver around the search with stratLam = 0. *)
From Coq Require Import Reals Lra Psatz Lia List Arith Bool.
From Verif Require Import RVec RBool Tri ProjGrad_Spec MS_Model MS_Spec MS_Proofs MS_More BC_Model BC_Spec BC_Proofs BC_More Hom_Model Hom_Spec Hom_Proofs Hom_More Hom_Len Hom_Fin Bis_Model Bis_Proofs.
Import ListNotations.
Open Scope R_scope.

Section Solver.
Variable ms : nat -> nat -> vec -> mat -> R -> option ms_out.
Variable chol : nat -> mat -> option mat.
Variable slv : nat -> mat -> vec -> option vec.
Variables (n : nat) (H : mat) (lb ub : nat -> xR) (g0 : vec) (Delta0 : R).
Notation srch := (bis_of ms n H lb ub chol slv).
Notation outer := (bcs_outer ms n H lb ub g0 Delta0 srch).

Lemma bis_outer_refines fuel : forall passes calls trials s g Delta norms value gplus active free tag,
  exists h : nat -> nat -> hans, forall hom, (forall p j f s, (passes < p)%nat -> hom p j f s = h p j) ->
  outer fuel passes calls trials s g Delta norms value gplus active free tag =
  bc_outer (ms_part ms) hom n H lb ub g0 Delta0 fuel passes calls trials s g Delta norms value gplus active free tag.
Proof.
  induction fuel as [|k IH]; intros passes calls trials s g Delta norms value gplus active free tag.
  - exists (fun _ _ => HRaise). intros hom _. reflexivity.
  - destruct free as [|f0 fr] eqn:FE; [exists (fun _ _ => HRaise); intros hom _; reflexivity|]. rewrite <- FE.
    destruct (ms_calls (ms_part ms) n H lb ub (length free) calls s g Delta gplus active free) as [|gp c|a1 f1 sa gp c|] eqn:MC;
      try (exists (fun _ _ => HRaise); intros hom _; cbn [bcs_outer bc_outer]; rewrite FE; cbv zeta; rewrite <- FE, MC; reflexivity).
    assert (HR : exists h : nat -> hans, forall hom, (forall j f s, hom (S passes) j f s = h j) ->
      srch c f1 s g sa Delta = hom_loop hom lb ub 99 0 (S passes) f1 s true
        (existsb (fun i => u_act ub sa i || l_act lb sa i)%bool f1)).
    { unfold bis_of. destruct (ms c (length f1) (sub_vec f1 g) (sub_mat f1 H) Delta) as [o|].
      - destruct (bis_refines (chol (length f1)) (slv (length f1)) lb ub f1 (sub_mat f1 H) (sub_vec f1 g) s 99 0
          (bis_start lb ub f1 s n g H (ms_lambda o) (ms_hard o) sa) true
          (existsb (fun i => u_act ub sa i || l_act lb sa i)%bool f1)) as (h & Hh).
        exists h. intros hom HH. apply Hh. intros j _. apply HH.
      - exists (fun _ => HRaise). intros hom HH. symmetry. apply raise_loop. apply HH. }
    destruct HR as (h1 & H1).
    destruct (srch c f1 s g sa Delta) as [| |i|s' i] eqn:SO.
    1-3: exists (fun p j => h1 j); intros hom HH; cbn [bcs_outer bc_outer]; rewrite FE; cbv zeta; rewrite <- FE, MC, SO;
      rewrite <- (H1 hom) by (intros; apply HH; lia); reflexivity.
    destruct (IH (S passes) c (trials + i)%nat s' (vadd g0 (mv n H s')) (Delta0 - norm n s') (norm n s') (bc_model n H g0 s') gp
      (filter (at_bound lb ub s') (seq 0 n) ++ filter (g_crit lb ub (vadd g0 (mv n H s'))) (complement n (filter (at_bound lb ub s') (seq 0 n))))
      (filter (fun i => negb (memb i (filter (at_bound lb ub s') (seq 0 n) ++ filter (g_crit lb ub (vadd g0 (mv n H s')))
        (complement n (filter (at_bound lb ub s') (seq 0 n)))))) (complement n (filter (at_bound lb ub s') (seq 0 n)))) BcNoFree) as (h2 & H2).
    exists (fun p j => if Nat.eqb p (S passes) then h1 j else h2 p j). intros hom HH. cbn [bcs_outer bc_outer]. rewrite FE. cbv zeta. rewrite <- FE, MC, SO.
    rewrite <- (H1 hom) by (intros; rewrite HH by lia; rewrite Nat.eqb_refl; reflexivity).
    rewrite (H2 hom); [reflexivity|]. intros p j f s0 Hp. rewrite HH by lia. destruct (Nat.eqb_spec p (S passes)); [lia|reflexivity].
Qed.

Lemma b_refines : exists hom, solve_bc0 ms n H lb ub g0 Delta0 chol slv = solve_bc (ms_part ms) hom n H lb ub g0 Delta0.
Proof.
  destruct (bis_outer_refines n 0 0 0 vzero g0 Delta0 0 0 g0 (filter (g_crit lb ub g0) (seq 0 n))
    (complement n (filter (g_crit lb ub g0) (seq 0 n))) BcNoFree) as (h & Hh).
  exists (fun p j _ _ => h p j). apply Hh. reflexivity.
Qed.
End Solver.

(** ** One pass *)
Section Pass.
Variable ms : nat -> nat -> vec -> mat -> R -> option ms_out.
Variable chol : nat -> mat -> option mat.
Variable slv : nat -> mat -> vec -> option vec.
Variables (n : nat) (H : mat) (lb ub : nat -> xR).
Hypothesis CE : forall k, chol_exact k (chol k).
Hypothesis SE : forall k, slv_exact k (slv k).
Hypothesis SH : symmetric n H.
Hypothesis W0 : in_bounds n lb ub vzero.
Notation srch := (bis_of ms n H lb ub chol slv).

Lemma bis_sound_start free s g Delta eps o sa : NoDup free -> (forall i, In i free -> (i < n)%nat) -> in_bounds n lb ub s -> 
  answer_sound (length free) (sub_vec free g) (sub_mat free H) Delta eps o ->
  sa = vadd s (expand free (ms_s o)) -> existsb (out_by lb ub 0 sa) free = true -> room lb ub free s sa ->
  0 <= ms_lambda o /\ stationary (length free) (sub_vec free g) (sub_mat free H) (ms_lambda o) (ms_s o) /\
  shift_psd (length free) (sub_mat free H) (ms_lambda o) /\ (ms_hard o = false -> shift_pd (length free) (sub_mat free H) (ms_lambda o)) /\
  binv (ms_lambda o) (bis_start lb ub free s n g H (ms_lambda o) (ms_hard o) sa).
Proof.
  intros ND FB WS (_ & AS) -> OUT RM.
  assert (NZ : ~ veq (length free) (ms_s o) vzero).
  { intros Z. apply existsb_exists in OUT. destruct OUT as (i & II & F). assert (X : out_by lb ub 0 (vadd s (expand free (ms_s o))) i = false); [|congruence].
    apply out0. destruct (In_nth free i 0%nat II) as (k & Hk & EK).
    replace (vadd s (expand free (ms_s o)) i) with (s i); [exact (WS i (FB i II))|].
    unfold vadd. rewrite <- EK, expand_at, (Z k Hk) by assumption. unfold vzero. ring. }
  destruct (AS NZ) as (A1 & A2 & A3 & A4 & A5). split; [exact A1|]. split; [exact A2|]. split; [exact A3|]. split; [exact A4|].
  destruct (start_inv n lb ub free s g H ND FB SH (ms_s o) WS RM OUT (ms_lambda o) true A1 A2 ltac:(discriminate) A5) as (_ & _ & _ & B). specialize (B eq_refl).
  unfold hom_start in B. cbn [h_lam h_upper] in B. unfold binv, bis_start. cbn [h_lam h_upper h_lower]. split; [lra|]. split; [exact B|].
  pose proof (Rmax_l 2 (2 * ms_lambda o)). pose proof (Rmax_r 2 (2 * ms_lambda o)). lra.
Qed.

Lemma b_found free s g Delta eps c o sa s' j : NoDup free -> (forall i, In i free -> (i < n)%nat) -> in_bounds n lb ub s -> 
  answer_sound (length free) (sub_vec free g) (sub_mat free H) Delta eps o ->
  sa = vadd s (expand free (ms_s o)) -> existsb (out_by lb ub 0 sa) free = true -> room lb ub free s sa ->
  ms c (length free) (sub_vec free g) (sub_mat free H) Delta = Some o ->
  srch c free s g sa Delta = HomBreak s' j ->
  in_bounds n lb ub s' /\
  exists lam d, ms_lambda o < lam /\ shift_pd (length free) (sub_mat free H) lam /\
    stationary (length free) (sub_vec free g) (sub_mat free H) lam d /\
    norm (length free) d <= norm (length free) (ms_s o) /\
    qmodel (length free) (sub_vec free g) (sub_mat free H) d <= - (lam / 2 * dot (length free) d d) /\
    placed lb ub free s d s' /\ exists i, In i free /\ (lb i = Fin (s' i) \/ ub i = Fin (s' i)).
Proof.
  intros ND FB WS AS SA OUT RM MSO E. destruct (bis_sound_start free s g Delta eps o sa ND FB WS AS SA OUT RM) as (L0 & S0 & P0 & _ & I0).
  unfold bis_of in E. rewrite MSO in E. pose proof (sub_sym n H free SH FB) as SS.
  destruct (bis_found _ _ lb ub free (sub_mat free H) (sub_vec free g) s (CE _) (SE _) SS (ms_lambda o) L0 _ _ _ _ _ _ _ I0 E)
    as (lam & d & A1 & A2 & A3 & A4 & A5 & A6).
  pose proof A4 as A4'. unfold near_in in A4'. apply negb_true_iff in A4'.
  destruct (move_in (ms_part ms) (fun _ _ _ _ => HRaise) n H lb ub vzero 0 free _ _ s d WS eq_refl eq_refl A4') as (MW & _).
  pose proof (placed_of n lb ub free s ND FB W0 d A4) as PL. rewrite A6. split; [exact MW|].
  exists lam, d. split; [exact A1|]. split; [exact A2|]. split; [exact A3|].
  split; [exact (step_short free (sub_mat free H) (sub_vec free g) SS (ms_lambda o) (ms_s o) S0 P0 lam d (Rlt_le _ _ A1) A2 A3)|].
  split; [apply opt_descent; [exact SS|exact A3|apply shift_pd_psd; exact A2|lra]|]. split; [exact PL|].
  unfold touching in A5. apply existsb_exists in A5. destruct A5 as (i & II & AC). exists i. split; [exact II|].
  unfold move. rewrite (proj2 (memb_spec i free) II). unfold u_act, l_act, near in *.
  destruct (lb i) as [a| |], (ub i) as [b| |]; cbn [xsub xabs_le xval] in AC |- *; try discriminate;
    repeat match goal with |- context [if ?b then _ else _] => destruct b eqn:?; cbn [xval] end; try (left; reflexivity); try (right; reflexivity);
    try rewrite orb_false_r in AC; try rewrite orb_false_l in AC; try congruence; try discriminate.
Qed.

(** ** Length of the step *)
Variables (g0 : vec) (Delta0 eps : R).
Hypothesis MS : ms_sound ms eps.
Hypothesis E0 : 0 <= eps.
Hypothesis D0 : 0 <= Delta0.
Notation bound := (bound n Delta0 eps).

Lemma bis_outer_length fuel : forall passes calls trials s g Delta norms value gplus active free tag,
  in_bounds n lb ub s -> good n active free -> Delta = Delta0 - norm n s -> 0 <= Delta ->
  (forall i, In i free -> s i = 0 \/ (lb i <> Fin (s i) /\ ub i <> Fin (s i))) ->
  match bcs_outer ms n H lb ub g0 Delta0 srch fuel passes calls trials s g Delta norms value gplus active free tag with
  | Some (Some o) => norm n (bc_s o) <= bound
  | _ => True
  end.
Proof.
  assert (SM : forall x, x <= Delta0 -> x <= bound) by (intros x L; apply bound_big; nra).
  induction fuel as [|k IH]; intros passes calls trials s g Delta norms value gplus active free tag W G ED DD RM;
    cbn [bcs_outer]; destruct free as [|f0 fr] eqn:FE; try exact Logic.I; try (cbn [bc_s]; apply SM; lra).
  rewrite <- FE in *. assert (NE : free <> []) by (rewrite FE; discriminate).
  pose proof (calls_spec (ms_part ms) (fun _ _ _ _ => HRaise) n H lb ub g0 (length free) calls s g Delta gplus active free G (le_n _) NE) as CS.
  destruct (ms_calls (ms_part ms) n H lb ub (length free) calls s g Delta gplus active free) as [|gp c|a1 f1 sa gp c|]; try exact Logic.I; [cbn [bc_s]; apply SM; lra|].
  destruct CS as (G1 & I1 & NE1 & CC1 & (d & gp' & MP & SA) & CR). unfold ms_part in MP.
  destruct (ms c (length f1) (sub_vec f1 g) (sub_mat f1 H) Delta) as [o|] eqn:MSO; [|discriminate]. injection MP as Ed Eg. subst d.
  assert (B1 : forall i, In i f1 -> (i < n)%nat) by (intros i X; apply G1; exact X).
  pose proof (sub_sym n H f1 SH B1) as SS. pose proof (MS _ _ _ _ _ _ SS DD MSO) as AS. pose proof (proj1 AS) as LEN.
  destruct (existsb (out_by lb ub 0 sa) f1) eqn:O.
  - assert (RM1 : room lb ub f1 s sa).
    { intros i II. destruct (CR i II) as (C1 & C2). pose proof tiny_pos. pose proof eps_pos. split; intros BY E.
      - destruct (RM i (I1 i II)) as [Z|(Z & _)]; [|contradiction]. rewrite Z in E. rewrite E in BY. cbn in BY.
        unfold l_crit, below in C2. rewrite E in C2. cbn in C2. rewrite !(proj2 (Rleb_true _ _)) in C2 by lra. discriminate.
      - destruct (RM i (I1 i II)) as [Z|(_ & Z)]; [|contradiction]. rewrite Z in E. rewrite E in BY. cbn in BY.
        unfold u_crit, above in C1. rewrite E in C1. cbn in C1. rewrite !(proj2 (Rleb_true _ _)) in C1 by lra. discriminate. }
    destruct (srch c f1 s g sa Delta) as [| |i|s' i] eqn:SO; try exact Logic.I.
    + cbn [bc_s]. rewrite (proj2 (norm_zero n vzero)) by (intros j J; reflexivity). apply SM. exact D0.
    + destruct (b_found f1 s g Delta eps c o sa s' i (proj2 G1) B1 W AS SA O RM1 MSO SO) as (W' & lam & d & _ & _ & _ & NS & _ & PL & _).
      pose proof (placed_norm n lb ub f1 s (proj2 G1) B1 d s' PL) as PN.
      assert (LB : norm n s' <= bound).
      { unfold Hom_Len.bound. pose proof (norm_nonneg n s). eapply Rle_trans; [exact PN|]. apply Rplus_le_compat_r.
        apply Rle_trans with (norm n s + (1 + eps) * Delta); [lra|]. rewrite ED. nra. }
      cbv zeta. destruct (Rltb_spec (Delta0 - norm n s') (- bc_eps)) as [L|L]; [exact LB|].
      destruct (Rltb_spec (Delta0 - norm n s') 0) as [L'|L']; [exact LB|].
      destruct (complement n (filter (at_bound lb ub s') (seq 0 n))) as [|y ys] eqn:F2; [exact LB|].
      rewrite <- F2 in *. destruct (forallb _ _); [exact LB|].
      apply IH; auto; [|lra|].
      * split; [|apply NoDup_filter, complement_nodup]. intros k'. rewrite filter_In, negb_true_iff, memb_false.
        rewrite complement_in, in_app_iff. tauto.
      * intros q IQ. right. apply filter_In in IQ. destruct IQ as (IQ & _). apply complement_in in IQ. destruct IQ as (Hq & NQ).
        assert (AB : at_bound lb ub s' q = false).
        { destruct (at_bound lb ub s' q) eqn:X; [|reflexivity]. exfalso. apply NQ. apply filter_In. split; [apply in_seq; lia|exact X]. }
        unfold at_bound, above, below in AB. apply orb_false_iff in AB. destruct AB as (X1 & X2). pose proof eps_pos.
        split; intros E; [rewrite E in X2; cbn in X2|rewrite E in X1; cbn in X1]; rb; lra.
  - cbn [bc_s]. apply bound_big. rewrite SA. eapply Rle_trans; [apply norm_triangle|]. rewrite (expand_norm n f1 _ (proj2 G1) B1).
    pose proof (norm_nonneg n s). nra.
Qed.

Lemma b_length o : solve_bc0 ms n H lb ub g0 Delta0 chol slv = Some (Some o) -> norm n (bc_s o) <= bound.
Proof.
  intros E. unfold solve_bc0 in E. pose proof (bis_outer_length n 0 0 0 vzero g0 Delta0 0 0 g0 _ _ BcNoFree W0
    (good_complement n (filter (g_crit lb ub g0) (seq 0 n)))) as X. cbv zeta in E. rewrite E in X. apply X.
  - rewrite (proj2 (norm_zero n vzero)) by (intros j J; reflexivity). ring.
  - exact D0.
  - intros i _. left. reflexivity.
Qed.
End Pass.

(** ** No exception *)
Lemma bis_outer_total ms chol slv n H lb ub g0 Delta0 fuel : (forall k, chol_exact k (chol k)) -> (forall k, slv_exact k (slv k)) -> symmetric n H ->
  (forall j k g A D, symmetric k A -> ms j k g A D <> None) ->
  forall passes calls trials s g Delta norms value gplus active free tag, good n active free ->
  bcs_outer ms n H lb ub g0 Delta0 (bis_of ms n H lb ub chol slv) fuel passes calls trials s g Delta norms value gplus active free tag <> None.
Proof.
  intros CE SE SH NR.
  assert (CALLS : forall k c s g Delta gp a f, (forall i, In i f -> (i < n)%nat) -> ms_calls (ms_part ms) n H lb ub k c s g Delta gp a f <> CRaise).
  { induction k as [|k IH]; intros c s g Delta gp a f B; cbn [ms_calls]; [discriminate|]. unfold ms_part at 1.
    pose proof (NR (S c) (length f) (sub_vec f g) (sub_mat f H) Delta (sub_sym n H f SH B)) as X.
    destruct (ms (S c) (length f) (sub_vec f g) (sub_mat f H) Delta) as [o|]; [|congruence]. cbv zeta.
    match goal with |- context [match ?l with nil => _ | _ :: _ => _ end] => destruct l as [|x cr] end; [discriminate|].
    match goal with |- context [complement n ?l] => remember (complement n l) as f2 eqn:F2; assert (B2 : forall i, In i f2 -> (i < n)%nat)
      by (intros i Q; rewrite F2 in Q; apply complement_in in Q; tauto) end.
    destruct f2 as [|y ys]; [discriminate|]. apply IH. exact B2. }
  induction fuel as [|k IH]; intros passes calls trials s g Delta norms value gplus active free tag G;
    cbn [bcs_outer]; destruct free as [|f0 fr] eqn:FE; try discriminate.
  rewrite <- FE in *. assert (NE : free <> []) by (rewrite FE; discriminate).
  pose proof (calls_spec (ms_part ms) (fun _ _ _ _ => HRaise) n H lb ub g0 (length free) calls s g Delta gplus active free G (le_n _) NE) as CS.
  pose proof (CALLS (length free) calls s g Delta gplus active free ltac:(intros i Q; apply G; exact Q)) as CR0.
  destruct (ms_calls (ms_part ms) n H lb ub (length free) calls s g Delta gplus active free) as [|gp c|a1 f1 sa gp c|]; try discriminate; [congruence|].
  destruct CS as (G1 & I1 & NE1 & CC1 & _ & CR).
  assert (B1 : forall i, In i f1 -> (i < n)%nat) by (intros i X; apply G1; exact X).
  destruct (existsb (out_by lb ub 0 sa) f1); [|discriminate].
  assert (ST : bis_of ms n H lb ub chol slv c f1 s g sa Delta <> HomRaise).
  { unfold bis_of. pose proof (NR c (length f1) (sub_vec f1 g) (sub_mat f1 H) Delta (sub_sym n H f1 SH B1)) as X.
    destruct (ms c (length f1) (sub_vec f1 g) (sub_mat f1 H) Delta) as [o|]; [|congruence]. apply bis_total; [apply CE|apply SE|exact (sub_sym n H f1 SH B1)]. }
  destruct (bis_of ms n H lb ub chol slv c f1 s g sa Delta) as [| |i|s' i]; try discriminate; [congruence|]. cbv zeta.
  destruct (Rltb _ _); [discriminate|]. destruct (Rltb _ _); [discriminate|].
  destruct (complement n (filter (at_bound lb ub s') (seq 0 n))) as [|y ys] eqn:F2; [discriminate|]. rewrite <- F2.
  destruct (forallb _ _); [discriminate|]. apply IH. split; [|apply NoDup_filter, complement_nodup].
  intros k'. rewrite filter_In, negb_true_iff, memb_false. rewrite complement_in, in_app_iff. tauto.
Qed.

Lemma b_ends ms chol slv n H lb ub g0 Delta0 : (forall k, chol_exact k (chol k)) -> (forall k, slv_exact k (slv k)) -> symmetric n H ->
  in_bounds n lb ub vzero -> (forall j k g A D, symmetric k A -> ms j k g A D <> None) ->
  exists o, solve_bc0 ms n H lb ub g0 Delta0 chol slv = Some (Some o).
Proof.
  intros CE SE SH W NR. destruct (b_refines ms chol slv n H lb ub g0 Delta0) as (hom & E).
  pose proof (solve_fin (ms_part ms) hom n H lb ub g0 Delta0 W) as F. rewrite <- E in F.
  pose proof (bis_outer_total ms chol slv n H lb ub g0 Delta0 n CE SE SH NR 0 0 0 vzero g0 Delta0 0 0 g0 _ _ BcNoFree
    (good_complement n (filter (g_crit lb ub g0) (seq 0 n)))) as T.
  unfold solve_bc0 in *. cbv zeta in *. destruct (bcs_outer _ _ _ _ _ _ _ _ _ _ _ _ _ _ _ _ _ _ _ _ _) as [[o|]|]; [exists o; reflexivity|contradiction|congruence].
Qed.
