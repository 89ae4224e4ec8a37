(** Instances for the theorems about the trust-region solver. *)
From Coq Require Import Reals Lra Psatz Lia List Arith Bool.
From Verif Require Import RVec RBool Tri MS_Model MS_Spec MS_Proofs MS_More.
Import ListNotations.
Open Scope R_scope.

Definition chol1 (A : mat) : option mat :=
  if Rltb 0 (A 0%nat 0%nat) then Some (fun _ _ => sqrt (A 0%nat 0%nat)) else None.
Definition slv1 (T : mat) (b : vec) : option vec := Some (fun i => b i / T 0%nat 0%nat).

Lemma chol1_exact : chol_exact 1 chol1.
Proof.
  intros A _. unfold chol1. split.
  - intros U E. destruct (Rltb_spec 0 (A 0%nat 0%nat)) as [P|P]; [|discriminate]. injection E as <-. repeat split.
    + intros i j Hi Hj L. lia.
    + intros i Hi. apply Rgt_not_eq, sqrt_lt_R0, P.
    + intros i j Hi Hj. assert (i = 0%nat) as -> by lia. assert (j = 0%nat) as -> by lia. cbn [rsum]. rewrite sqrt_sqrt by lra. ring.
  - intros P. destruct (Rltb_spec 0 (A 0%nat 0%nat)) as [Q|Q]; [discriminate|exfalso]. apply Q.
    assert (X : 0 < quad 1 A (unitv 0)).
    { apply P. intros V. specialize (V 0%nat ltac:(lia)). unfold unitv, vzero in V. cbn in V. lra. }
    unfold quad, dot, mv, unitv in X. cbn in X. lra.
Qed.
Lemma slv1_exact : slv_exact 1 slv1.
Proof.
  intros T b (_ & D). eexists. split; [reflexivity|]. intros i Hi. assert (i = 0%nat) as -> by lia.
  unfold mv. cbn [rsum]. field. apply D. lia.
Qed.

Definition c (x : R) : vec := fun _ => x.
Definition m1 (x : R) : mat := fun _ _ => x.
Lemma sym1 A : symmetric 1 A.
Proof. intros i j Hi Hj. assert (i = 0%nat) as -> by lia. assert (j = 0%nat) as -> by lia. reflexivity. Qed.
Lemma norm_c x : norm 1 x = Rabs (x 0%nat).
Proof. unfold norm, dot. cbn [rsum]. rewrite Rplus_0_l. apply sqrt_Rsqr_abs. Qed.
Lemma tiny_le k : / 10 ^ k <= 1.
Proof. rewrite <- Rinv_1. apply Rinv_le_contravar; [lra|]. apply pow_R1_Rle. lra. Qed.

(** Newton step inside *)
Definition newton_out : option ms_out := solve_MS chol1 slv1 idm (c 1) 1 (c 1) (m1 1) 2 (/ 10000).
Lemma newton_case : exists o, newton_out = Some o /\ veq 1 (ms_s o) (c (-1)) /\ ms_lambda o = 0 /\ ms_nfact o = 1%nat /\ ms_hard o = false.
Proof.
  destruct newton_out as [o|] eqn:E.
  - exists o. split; [reflexivity|].
    apply (t_newton chol1 slv1 idm (c 1) 1 (c 1) (m1 1) 2 (/ 10000) o (c (-1)) chol1_exact slv1_exact (sym1 _)); auto; try lra.
    + rewrite norm_c. unfold c. rewrite Rabs_R1, pow1. apply tiny_le.
    + intros x X. unfold quad, dot, mv, m1. cbn [rsum].
      assert (x 0%nat <> 0) by (intros Z; apply X; intros i Hi; assert (i = 0%nat) as -> by lia; exact Z). nra.
    + intros i Hi. unfold mv, m1, c. cbn [rsum]. lra.
    + rewrite norm_c. unfold c. unfold Rabs. destruct (Rcase_abs _); lra.
  - exfalso. revert E. apply t_total; [exact chol1_exact|exact slv1_exact|apply sym1].
Qed.

(** one pass, then the pseudo hard case *)
Section One.
Variables (g h Delta eps : R).
Hypothesis Hg : 0 < g.
Hypothesis HD : 0 < Delta.
Hypothesis Hh : 2 * Rabs h < g / Delta.
Hypothesis H0 : h <> 0.
Hypothesis Hg2 : ~ g ^ 2 < ms_epsilon.
Hypothesis Hth : 2 * Rabs h < ms_theta.
Hypothesis NX : forall lam, g / Delta - Rabs h < lam <= g / Delta ->
  ~ (lam <= ms_epsilon /\ g / (h + lam) <= (1 + eps) * Delta) /\
  ~ ((1 - eps) * Delta <= g / (h + lam) <= (1 + eps) * Delta).

Let l := g / Delta - Rabs h.
Let u := g / Delta + Rabs h.
Lemma hn1 : ms_hn 1 (m1 h) = Rabs h.
Proof.
  unfold ms_hn, norminf, normfro, m1. cbn [seq fold_left rsum]. rewrite !Rplus_0_l.
  rewrite Rmax_right by apply Rabs_pos. change (h * h) with (Rsqr h). rewrite sqrt_Rsqr_abs. apply Rmin_left. lra.
Qed.
Lemma lu1 : ms_lower 1 (c g) (m1 h) Delta = l /\ ms_upper 1 (c g) (m1 h) Delta = u.
Proof.
  unfold ms_lower, ms_upper. rewrite hn1, norm_c. unfold c. rewrite (Rabs_pos_eq g) by lra. fold l u.
  pose proof (Rabs_pos h). split; apply Rmax_right; unfold l, u; lra.
Qed.
Lemma inner1 : l < ms_inner l u <= g / Delta.
Proof.
  pose proof theta_range as T. pose proof (Rabs_pos_lt h H0) as P.
  assert (L0 : 0 < l) by (unfold l; lra).
  unfold ms_inner. split.
  - eapply Rlt_le_trans; [|apply Rmax_r]. assert (0 < u - l) by (unfold l, u; lra). nra.
  - apply Rmax_lub.
    + rewrite <- (sqrt_square (g / Delta)) by (unfold l in L0; lra). apply sqrt_le_1_alt. unfold l, u. nra.
    + unfold l, u in *. assert (ms_theta * (g / Delta + Rabs h - (g / Delta - Rabs h)) <= Rabs h); [|lra].
      assert (ms_theta < / 2).
      { unfold ms_theta. apply Rinv_lt_contravar; [|]. - pose proof (pow_lt 10 13). lra. - pose proof (Rlt_pow 10 0 13 ltac:(lra) ltac:(lia)) as W. pose proof (Rle_pow 10 1 13 ltac:(lra) ltac:(lia)). lra. }
      nra.
Qed.
Lemma one_step : exists l' u' lam', ms_step chol1 slv1 1 (c g) (m1 h) Delta eps l u (ms_inner l u) = PNext l' u' lam' true.
Proof.
  pose proof inner1 as I. destruct (NX (ms_inner l u) ltac:(unfold l in *; lra)) as (N1 & N2).
  set (lam := ms_inner l u) in *.
  assert (LH : 0 < h + lam).
  { unfold l in I. pose proof (Rle_abs (- h)) as W. rewrite Rabs_Ropp in W. lra. }
  assert (WI : u - l < ms_theta * 1) by (unfold u, l; lra).
  assert (ST : forall a b, l <= a -> b <= u -> ms_stop a b = true).
  { intros a b A B. unfold ms_stop. apply Rltb_true. pose proof (Rmax_l 1 b). pose proof theta_range. nra. }
  assert (CE : chol1 (shifted (m1 h) lam) = Some (fun _ _ => sqrt (h + lam))).
  { unfold chol1, shifted, m1, idm. cbn [Nat.eqb]. replace (h + lam * 1) with (h + lam) by ring.
    destruct (Rltb_spec 0 (h + lam)) as [_|X]; [reflexivity|contradiction]. }
  unfold ms_step. rewrite CE. unfold slv1.
  match goal with |- context [norm 1 ?x] => set (s := x) end.
  assert (NS : norm 1 s = g / (h + lam)).
  { rewrite norm_c. unfold s, tr, c.
    pose proof (sqrt_lt_R0 (h + lam) LH) as Q. pose proof (sqrt_sqrt (h + lam) ltac:(lra)) as QQ.
    replace (g / sqrt (h + lam) / - sqrt (h + lam)) with (- (g / (sqrt (h + lam) * sqrt (h + lam)))) by (field; lra).
    rewrite QQ, Rabs_Ropp. apply Rabs_pos_eq. apply Rlt_le. apply Rdiv_lt_0_compat; lra. }
  rewrite NS.
  match goal with |- context [if (?b)%bool then PExit _ else _] => destruct b eqn:B end.
  - exfalso. apply orb_true_iff in B. destruct B as [B|B]; apply andb_true_iff in B; destruct B as [B1 B2]; rb; tauto.
  - destruct (Rltb ((1 + eps) * Delta) (g / (h + lam))); do 3 eexists; f_equal; apply ST; unfold l, u in *; lra.
Qed.

Lemma one_hard eigv eigd : solve_MS chol1 slv1 eigv eigd 1 (c g) (m1 h) Delta eps =
  Some (hard_case eigv eigd 1 (c g) (m1 h) Delta eps 1).
Proof.
  unfold solve_MS. destruct (Reqb_spec Delta 0) as [X|_]; [lra|].
  rewrite norm_c. unfold c at 1. rewrite (Rabs_pos_eq g) by lra.
  destruct (Rltb_spec (g ^ 2) ms_epsilon) as [X|_]; [contradiction|].
  destruct lu1 as (-> & ->). unfold ms_first. destruct (Reqb_spec l 0) as [X|_]; [pose proof (Rabs_pos h); unfold l in X; lra|].
  destruct one_step as (l' & u' & lam' & E). unfold ms_nitmax. cbn [ms_loop]. rewrite E. reflexivity.
Qed.
End One.

Lemma hard1 g h Delta eps : 0 < Delta ->
  let o := hard_case idm (c h) 1 (c g) (m1 h) Delta eps 1 in
  ms_value o = g * Delta + / 2 * (h * (Delta * Delta)) /\ ms_norms o = Delta.
Proof.
  intros HD o. unfold o, hard_case. cbn [ms_value ms_norms argmin].
  assert (SC : hard_scri idm (c h) 1 (c g) h = vzero).
  { unfold hard_scri, maxentry, hard_small, c. cbn [seq fold_left Nat.sub filter].
    replace (h - h) with 0 by ring. rewrite Rabs_R0, Rmult_0_r. destruct (Rltb_spec 0 0); [lra|]. reflexivity. }
  set (s := hard_step _ _ _ _ _ _ _).
  assert (S0 : s 0%nat = Delta).
  { unfold s, hard_step. change (c h 0%nat) with h. rewrite SC, !norm_c. unfold vzero at 1. rewrite Rabs_R0.
    destruct (Rleb_spec 0 Delta) as [_|X]; [|lra]. unfold vadd, vscal, vzero, idm, hard_root, dot. cbn [Nat.eqb rsum].
    rewrite Rabs_R1, Rabs_R0. replace ((0 + 1 * 0) * (0 + 1 * 0) - 1 ^ 2 * (0 ^ 2 - Delta ^ 2)) with (Delta * Delta) by ring.
    rewrite sqrt_square by lra. field. }
  split.
  - unfold ms_model, dot, mv, c, m1. cbn [rsum]. rewrite S0. ring.
  - rewrite norm_c, S0. apply Rabs_pos_eq. lra.
Qed.

(** a positive definite-looking failure: g = 1, H = -1e-16, Delta = 1e14 *)
Lemma up_case : solve_MS chol1 slv1 idm (c (- / 10 ^ 16)) 1 (c 1) (m1 (- / 10 ^ 16)) (10 ^ 14) (/ 10 ^ 4) =
  Some (hard_case idm (c (- / 10 ^ 16)) 1 (c 1) (m1 (- / 10 ^ 16)) (10 ^ 14) (/ 10 ^ 4) 1).
Proof.
  assert (P14 : 0 < 10 ^ 14) by (apply pow_lt; lra). assert (P16 : 0 < 10 ^ 16) by (apply pow_lt; lra).
  assert (A : Rabs (- / 10 ^ 16) = / 10 ^ 16) by (rewrite Rabs_Ropp; apply Rabs_pos_eq, Rlt_le, Rinv_0_lt_compat, P16).
  assert (E16 : / 10 ^ 16 = / 100 * / 10 ^ 14) by (rewrite <- Rinv_mult; f_equal; ring).
  set (e := / 10 ^ 14) in *. assert (HE : 0 < e) by (apply Rinv_0_lt_compat, P14).
  assert (DE : 1 / 10 ^ 14 = e) by (unfold Rdiv; fold e; ring).
  apply one_hard; rewrite ?A, ?DE; try lra.
  - rewrite pow1. unfold ms_epsilon. pose proof (tiny_le 12). lra.
  - unfold ms_theta. assert (/ 10 ^ 13 = 10 * e) as -> by (unfold e; field). lra.
  - intros lam L. rewrite E16 in *.
    assert (X : (1 + / 10 ^ 4) * 10 ^ 14 < 1 / (- (/ 100 * e) + lam)).
    { assert (0 < - (/ 100 * e) + lam) by lra.
      apply (Rmult_lt_reg_r (- (/ 100 * e) + lam)); [assumption|].
      replace (1 / (- (/ 100 * e) + lam) * (- (/ 100 * e) + lam)) with 1 by (field; lra).
      assert (ED : 10 ^ 14 * e = 1) by (unfold e; apply Rinv_r; lra).
      apply Rle_lt_trans with ((1 + / 10 ^ 4) * 10 ^ 14 * (99 / 100 * e)).
      - apply Rmult_le_compat_l; [|lra]. apply Rmult_le_pos; [|lra]. pose proof (Rinv_0_lt_compat (10 ^ 4) ltac:(apply pow_lt; lra)). lra.
      - replace ((1 + / 10 ^ 4) * 10 ^ 14 * (99 / 100 * e)) with ((1 + / 10 ^ 4) * (99 / 100) * (10 ^ 14 * e)) by ring.
        rewrite ED. replace (10 ^ 4) with 10000 by ring. lra. }
    split; lra.
Qed.

Lemma up_value : exists o, solve_MS chol1 slv1 idm (c (- / 10 ^ 16)) 1 (c 1) (m1 (- / 10 ^ 16)) (10 ^ 14) (/ 10 ^ 4) = Some o /\ 0 < ms_value o.
Proof.
  eexists. split; [exact up_case|].
  destruct (hard1 1 (- / 10 ^ 16) (10 ^ 14) (/ 10 ^ 4) ltac:(apply pow_lt; lra)) as (V & _). cbv zeta in V. rewrite V.
  replace (10 ^ 14 * 10 ^ 14) with (10 ^ 16 * 10 ^ 12) by ring.
  replace (1 * 10 ^ 14 + / 2 * (- / 10 ^ 16 * (10 ^ 16 * 10 ^ 12))) with (10 ^ 14 - / 2 * 10 ^ 12) by field.
  replace (10 ^ 14) with (100 * 10 ^ 12) by ring. pose proof (pow_lt 10 12 ltac:(lra)). lra.
Qed.

(** tiny model: g = 1e-6, H = 1e-14, Delta = 1e-10, no tolerance *)
Lemma tiny_case : solve_MS chol1 slv1 idm (c (/ 10 ^ 14)) 1 (c (/ 10 ^ 6)) (m1 (/ 10 ^ 14)) (/ 10 ^ 10) 0 =
  Some (hard_case idm (c (/ 10 ^ 14)) 1 (c (/ 10 ^ 6)) (m1 (/ 10 ^ 14)) (/ 10 ^ 10) 0 1).
Proof.
  assert (P14 : 0 < 10 ^ 14) by (apply pow_lt; lra).
  set (e := / 10 ^ 14) in *. assert (HE : 0 < e) by (apply Rinv_0_lt_compat, P14).
  assert (E1 : e <= / 10) by (unfold e; replace (10 ^ 14) with (10 * 10 ^ 13) by ring; rewrite Rinv_mult; pose proof (tiny_le 13); lra).
  assert (A : Rabs e = e) by (apply Rabs_pos_eq; lra).
  assert (P10 : 0 < / 10 ^ 10) by (apply Rinv_0_lt_compat, pow_lt; lra).
  assert (P6 : 0 < / 10 ^ 6) by (apply Rinv_0_lt_compat, pow_lt; lra).
  assert (DE : / 10 ^ 6 / / 10 ^ 10 = 10000) by field.
  apply one_hard; rewrite ?A, ?DE; try lra.
  - unfold ms_epsilon. replace ((/ 10 ^ 6) ^ 2) with (/ 10 ^ 12) by field. lra.
  - unfold ms_theta. assert (/ 10 ^ 13 = 10 * e) as -> by (unfold e; field). lra.
  - intros lam L. assert (1 < lam) by lra. assert (ms_epsilon <= 1) by apply tiny_le.
    assert (X : / 10 ^ 6 / (e + lam) < / 10 ^ 10).
    { apply (Rmult_lt_reg_r (e + lam)); [lra|]. replace (/ 10 ^ 6 / (e + lam) * (e + lam)) with (/ 10 ^ 6) by (field; lra).
      replace (/ 10 ^ 6) with (/ 10 ^ 10 * 10000) by field. apply Rmult_lt_compat_l; [exact P10|lra]. }
    split; lra.
Qed.
Lemma tiny_value : exists o, solve_MS chol1 slv1 idm (c (/ 10 ^ 14)) 1 (c (/ 10 ^ 6)) (m1 (/ 10 ^ 14)) (/ 10 ^ 10) 0 = Some o /\
  ms_s o = vzero /\ 0 < ms_norms o /\ 0 < ms_value o.
Proof.
  eexists. split; [exact tiny_case|].
  destruct (hard1 (/ 10 ^ 6) (/ 10 ^ 14) (/ 10 ^ 10) 0 ltac:(apply Rinv_0_lt_compat, pow_lt; lra)) as (V & N). cbv zeta in V, N.
  rewrite N. assert (P10 : 0 < / 10 ^ 10) by (apply Rinv_0_lt_compat, pow_lt; lra).
  assert (P6 : 0 < / 10 ^ 6) by (apply Rinv_0_lt_compat, pow_lt; lra).
  assert (P14 : 0 < / 10 ^ 14) by (apply Rinv_0_lt_compat, pow_lt; lra).
  assert (VP : 0 < / 10 ^ 6 * / 10 ^ 10 + / 2 * (/ 10 ^ 14 * (/ 10 ^ 10 * / 10 ^ 10))).
  { apply Rplus_lt_0_compat; repeat apply Rmult_lt_0_compat; lra. }
  rewrite V. repeat split; try assumption.
  unfold hard_case in *. cbn [ms_value ms_s] in *. rewrite V.
  destruct (Rleb_spec (Rabs (/ 10 ^ 6 * / 10 ^ 10 + / 2 * (/ 10 ^ 14 * (/ 10 ^ 10 * / 10 ^ 10)))) (/ 10 ^ 15)) as [_|X]; [reflexivity|exfalso].
  apply X. rewrite Rabs_pos_eq by lra.
  replace (/ 10 ^ 6 * / 10 ^ 10) with (/ 10 * / 10 ^ 15) by field.
  replace (/ 10 ^ 14 * (/ 10 ^ 10 * / 10 ^ 10)) with (/ 10 ^ 15 * (/ 10 ^ 19)) by field.
  pose proof (tiny_le 19) as T. assert (0 < / 10 ^ 15) by (apply Rinv_0_lt_compat, pow_lt; lra). nra.
Qed.

(** the hard case: H = diag(-1, 1), g = (0, 1), Delta = 1 *)
Definition dd2 : vec := fun i => if (i =? 0)%nat then -1 else 1.
Definition H2 : mat := fun i j => if (i =? j)%nat then dd2 i else 0.
Definition g2 : vec := fun i => if (i =? 0)%nat then 0 else 1.
Definition nochol (_ : mat) : option mat := None.

Lemma loop_none slv n g H D e k nf l u lam : exists m, ms_loop nochol slv n g H D e k nf l u lam = Some (None, m).
Proof.
  revert nf l u lam. induction k as [|k IH]; intros nf l u lam; cbn [ms_loop]; [eexists; reflexivity|].
  unfold ms_step, nochol. destruct (ms_stop lam u); [eexists; reflexivity|]. apply IH.
Qed.

Lemma idm_orth n : orthonormal n n idm.
Proof.
  intros a b Ha Hb. rewrite (rsum_single n a); [|exact Ha|].
  - unfold idm. rewrite Nat.eqb_refl. ring.
  - intros i Hi N. unfold idm. destruct (Nat.eqb_spec i a); [contradiction|ring].
Qed.
Lemma two_cases i : (i < 2)%nat -> i = 0%nat \/ i = 1%nat.
Proof. lia. Qed.
Lemma eig2 : eigen_exact 2 H2 dd2 idm.
Proof.
  split; [apply idm_orth|]. intros i j Hi Hj.
  destruct (two_cases i Hi) as [->| ->]; destruct (two_cases j Hj) as [->| ->]; unfold H2, dd2, idm; cbn; ring.
Qed.
Lemma hard2 : hard_instance 2 g2 H2 dd2 (-1) 1.
Proof.
  split; [lra|]. split.
  - split; [exists 0%nat; split; [lia|reflexivity]|]. intros i Hi. destruct (two_cases i Hi) as [->| ->]; [left; reflexivity|right].
    unfold dd2. cbn. split; [lra|]. intros j Hj. pose proof (tiny_le 10) as T. cbn [pow] in T.
    destruct (two_cases j Hj) as [->| ->]; cbn; lra.
  - exists (fun i => if (i =? 0)%nat then 0 else - / 2). split.
    + intros i Hi. destruct (two_cases i Hi) as [->| ->]; unfold mv, H2, dd2, g2; cbn; lra.
    + rewrite <- sqrt_1. unfold norm. apply sqrt_le_1_alt. unfold dot. cbn. lra.
Qed.
Lemma hard2_out : exists o, solve_MS nochol slv1 idm dd2 2 g2 H2 1 (/ 10 ^ 4) = Some o /\ ms_hard o = true.
Proof.
  unfold solve_MS. destruct (Reqb_spec 1 0) as [X|_]; [lra|].
  assert (N : norm 2 g2 = 1) by (unfold norm, dot, g2; cbn; transitivity (sqrt 1); [f_equal; ring|apply sqrt_1]).
  rewrite N. rewrite pow1. unfold ms_epsilon. destruct (Rltb_spec 1 (/ 10 ^ 12)) as [X|_]; [pose proof (tiny_le 12); lra|].
  match goal with |- context [ms_loop ?a ?b ?c ?d ?e ?f ?g ?h ?i ?j ?k ?l] => destruct (loop_none b c d e f g h i j k l) as (m & E) end.
  rewrite E. eexists. split; reflexivity.
Qed.

(** the same run reports a step on the boundary *)
Lemma hard2_message : exists o, solve_MS nochol slv1 idm dd2 2 g2 H2 1 (/ 10 ^ 4) = Some o /\
  ms_norms o = 1 /\ ms_tag o = MsBoundary.
Proof.
  destruct hard2_out as (o & S & HC). exists o. split; [exact S|].
  assert (NO : ms_norms o = 1).
  { apply (t_hard_norm nochol slv1 idm dd2 2 g2 H2 1 (/ 10 ^ 4) o); auto; [lra|].
    intros k Hk. assert (E : norm 2 (fun i => idm i k) = 1).
    { destruct (two_cases k Hk) as [->| ->]; unfold norm, dot, idm; cbn; transitivity (sqrt 1);
        try apply sqrt_1; f_equal; ring. }
    rewrite E. lra. }
  split; [exact NO|].
  assert (N : norm 2 g2 = 1) by (unfold norm, dot, g2; cbn; transitivity (sqrt 1); [f_equal; ring|apply sqrt_1]).
  apply (t_message nochol slv1 idm dd2 2 g2 H2 1 (/ 10 ^ 4) o S); [lra| |].
  - rewrite N, pow1. pose proof (tiny_le 12). lra.
  - rewrite NO. assert (0 < / 10 ^ 4) by (apply Rinv_0_lt_compat, pow_lt; lra). lra.
Qed.

(** zero gradient with negative curvature *)
Lemma flat_case : exists o, solve_MS chol1 slv1 idm (c (-1)) 1 (c 0) (m1 (-1)) 1 (/ 10 ^ 4) = Some o /\ ~ minimises 1 (c 0) (m1 (-1)) 1 (/ 4) (ms_s o).
Proof.
  unfold solve_MS. destruct (Reqb_spec 1 0) as [X|_]; [lra|].
  rewrite norm_c. unfold c at 1. rewrite Rabs_R0. unfold ms_epsilon.
  destruct (Rltb_spec (0 ^ 2) (/ 10 ^ 12)) as [_|X].
  - eexists. split; [reflexivity|]. cbn [ms_s]. intros M. specialize (M (c 1)). rewrite norm_c in M. unfold c in M at 1. rewrite Rabs_R1 in M.
    specialize (M ltac:(lra)). unfold qmodel, quad, dot, mv, c, m1, vzero in M. cbn in M. lra.
  - exfalso. apply X. replace (0 ^ 2) with 0 by ring. apply Rinv_0_lt_compat, pow_lt. lra.
Qed.

Lemma r_flat : ~ forall chol slv eigv eigd n g H Delta eps_D o,
  chol_exact n chol -> slv_exact n slv -> symmetric n H -> 0 < Delta ->
  solve_MS chol slv eigv eigd n g H Delta eps_D = Some o -> minimises n g H Delta (/ 4) (ms_s o).
Proof.
  intros F. destruct flat_case as (o & E & N). apply N.
  exact (F chol1 slv1 idm (c (-1)) 1%nat (c 0) (m1 (-1)) 1 (/ 10 ^ 4) o chol1_exact slv1_exact (sym1 _) Rlt_0_1 E).
Qed.

Lemma eig1 x : eigen_exact 1 (m1 x) (c x) idm.
Proof.
  split; [apply idm_orth|]. intros i j Hi Hj. assert (i = 0%nat) as -> by lia. assert (j = 0%nat) as -> by lia.
  unfold m1, c, idm. cbn. ring.
Qed.

Lemma r_up : ~ forall chol slv eigv eigd n g H Delta o,
  chol_exact n chol -> slv_exact n slv -> symmetric n H -> eigen_exact n H eigd eigv -> 0 < Delta ->
  solve_MS chol slv eigv eigd n g H Delta (/ 10 ^ 4) = Some o -> ms_value o <= 0.
Proof.
  intros F. destruct up_value as (o & E & V).
  pose proof (F chol1 slv1 idm (c (- / 10 ^ 16)) 1%nat (c 1) (m1 (- / 10 ^ 16)) (10 ^ 14) o chol1_exact slv1_exact (sym1 _) (eig1 _) ltac:(apply pow_lt; lra) E). lra.
Qed.

Lemma r_norm : ~ forall chol slv eigv eigd n g H Delta eps_D o,
  chol_exact n chol -> slv_exact n slv -> symmetric n H -> eigen_exact n H eigd eigv -> 0 < Delta ->
  solve_MS chol slv eigv eigd n g H Delta eps_D = Some o -> ms_norms o = norm n (ms_s o).
Proof.
  intros F. destruct tiny_value as (o & E & S & N & _).
  pose proof (F chol1 slv1 idm (c (/ 10 ^ 14)) 1%nat (c (/ 10 ^ 6)) (m1 (/ 10 ^ 14)) (/ 10 ^ 10) 0 o chol1_exact slv1_exact (sym1 _) (eig1 _) ltac:(apply Rinv_0_lt_compat, pow_lt; lra) E) as X.
  rewrite S, norm_c in X. unfold vzero in X. rewrite Rabs_R0 in X. lra.
Qed.

Lemma bracket_case : exists l u lam,
  passes chol1 slv1 1 (c 1) (m1 1) (/ 2) 0 1 (ms_lower 1 (c 1) (m1 1) (/ 2)) (ms_upper 1 (c 1) (m1 1) (/ 2))
    (ms_first (ms_lower 1 (c 1) (m1 1) (/ 2)) (ms_upper 1 (c 1) (m1 1) (/ 2))) = Some (l, u, lam) /\
  stationary 1 (c 1) (m1 1) 1 (c (- / 2)) /\ shift_psd 1 (m1 1) 1 /\ norm 1 (c (- / 2)) = / 2.
Proof.
  set (l0 := ms_lower _ _ _ _). set (u0 := ms_upper _ _ _ _).
  assert (HL : l0 = 1 /\ u0 = 3).
  { unfold l0, u0, ms_lower, ms_upper. rewrite hn1, norm_c. unfold c. rewrite Rabs_R1.
    replace (1 / / 2 - 1) with 1 by field. replace (1 / / 2 + 1) with 3 by field. split; apply Rmax_right; lra. }
  destruct HL as (-> & ->). unfold ms_first. destruct (Reqb_spec 1 0) as [X|_]; [lra|].
  assert (I : 1 < ms_inner 1 3).
  { unfold ms_inner. eapply Rlt_le_trans; [|apply Rmax_r]. pose proof theta_range. lra. }
  set (lam := ms_inner 1 3) in *. cbn [passes]. unfold ms_step.
  assert (CE : chol1 (shifted (m1 1) lam) = Some (fun _ _ => sqrt (1 + lam))).
  { unfold chol1, shifted, m1, idm. cbn [Nat.eqb]. replace (1 + lam * 1) with (1 + lam) by ring.
    destruct (Rltb_spec 0 (1 + lam)) as [_|X]; [reflexivity|lra]. }
  rewrite CE. unfold slv1. match goal with |- context [norm 1 ?x] => set (s := x) end.
  assert (NS : norm 1 s < / 2).
  { rewrite norm_c. unfold s, tr, c.
    pose proof (sqrt_lt_R0 (1 + lam) ltac:(lra)) as Q. pose proof (sqrt_sqrt (1 + lam) ltac:(lra)) as QQ.
    replace (1 / sqrt (1 + lam) / - sqrt (1 + lam)) with (- (/ (sqrt (1 + lam) * sqrt (1 + lam)))) by (field; lra).
    rewrite QQ, Rabs_Ropp. rewrite Rabs_pos_eq by (apply Rlt_le, Rinv_0_lt_compat; lra). apply Rinv_lt_contravar; lra. }
  assert (EP : ms_epsilon <= 1) by apply tiny_le.
  destruct (Rleb_spec lam ms_epsilon); [lra|]. destruct (Rleb_spec ((1 - 0) * / 2) (norm 1 s)); [lra|]. cbn [andb orb].
  do 3 eexists. split; [reflexivity|]. split; [|split].
  - intros i Hi. unfold mv, m1, c. cbn. lra.
  - intros x. unfold quad, dot, mv, m1. cbn. nra.
  - rewrite norm_c. unfold c. rewrite Rabs_Ropp. apply Rabs_pos_eq. lra.
Qed.
