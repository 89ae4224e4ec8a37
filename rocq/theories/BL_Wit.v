(** Witnesses for the properties of the bounded least-squares solver. *)
From Coq Require Import Reals Lra Lia Arith List Bool ZArith Psatz.
From Verif Require Import RVec RBool ProjGrad_Spec ProjGrad_Model ProjGrad_Proofs BL_Model BL_Spec BL_Proofs.
Import ListNotations.
Open Scope R_scope.

Definition v2 (a b : R) : vec := fun i => match i with O => a | 1%nat => b | _ => 0 end.
Definition x2 (a b : xR) : nat -> xR := fun i => match i with O => a | _ => b end.

(** minimise (s1 - s0 - 4)^2 + (2 s1)^2 over [0,2] x [0,1] *)
Definition wA : mat := fun i j => match i, j with
  | O, O => -1 | O, 1%nat => 1 | 1%nat, 1%nat => 2 | _, _ => 0 end.
Definition wb : vec := v2 4 0.
Definition wl : nat -> xR := x2 (Fin 0) (Fin 0).
Definition wu : nat -> xR := x2 (Fin 2) (Fin 1).
Definition wpin (free : list nat) (r : vec) : option vec :=
  match free with
  | [0; 1]%nat => Some (v2 (r 1%nat / 2 - r 0%nat) (r 1%nat / 2))
  | [0]%nat => Some (v2 (- r 0%nat) 0)
  | [1]%nat => Some (v2 0 ((r 0%nat + 2 * r 1%nat) / 5))
  | _ => Some vzero
  end.

Lemma wpin_exact : pinv_exact 2 2 wA wpin.
Proof.
  intros f rhs. cbn -[norm]. destruct (f 0%nat), (f 1%nat); cbn -[norm].
  - eexists. split; [reflexivity|]. intros q. apply norm_le_sq.
    apply Rle_trans with 0; [right; unfold dot; cbn; field|apply dot_self_nonneg].
  - eexists. split; [reflexivity|]. intros q. apply norm_le_sq. unfold dot. cbn.
    set (a := rhs 0%nat). set (c := rhs 1%nat). set (q0 := q 0%nat).
    pose proof (Rle_0_sqr (q0 + a)). unfold Rsqr in H. nra.
  - eexists. split; [reflexivity|]. intros q. apply norm_le_sq. unfold dot. cbn.
    set (a := rhs 0%nat). set (c := rhs 1%nat). set (q1 := q 1%nat).
    pose proof (Rle_0_sqr (5 * q1 - a - 2 * c)). unfold Rsqr in H. nra.
  - eexists. split; [reflexivity|]. intros q. lra.
Qed.

Lemma w_proper : proper_bounds 2 wl wu.
Proof.
  intros i Hi. exists 0. destruct i as [|[|i]]; [| |lia]; cbn; lra.
Qed.

Definition ws1 : vec := fun i => if mem [1%nat] i then xval (wu i) else if mem [0%nat] i then xval (wl i)
  else clip (wl i) (wu i) (0 - 1 / 4 * v2 4 (-4) i).

Lemma w_run : exists s1 path, blls 2 2 wA wb wl wu wpin = Some (BlRes s1 (misfit 2 2 wA wb s1) 0 0%Z 1 path [])
  /\ s1 0%nat = 0 /\ s1 1%nat = 1.
Proof.
  set (p := v2 (0 / 2 - 4) (0 / 2)).
  assert (Es : veq 2 (clipv wl wu p) (v2 0 0)).
  { intros i Hi. destruct i as [|[|i]]; [| |lia]; unfold clipv, clip, p; cbn; mm. }
  assert (Er : veq 2 (resid 2 wA wb (clipv wl wu p)) (v2 (-4) 0)).
  { intros i Hi. unfold resid, vsub. rewrite (mv_ext _ _ _ _ _ Es).
    destruct i as [|[|i]]; [| |lia]; unfold mv; cbn; lra. }
  set (g := tmv 2 wA (resid 2 wA wb (clipv wl wu p))).
  assert (Eg0 : g 0%nat = 4). { unfold g. rewrite (tmv_ext _ _ _ _ _ Er). unfold tmv. cbn. lra. }
  assert (Eg1 : g 1%nat = -4). { unfold g. rewrite (tmv_ext _ _ _ _ _ Er). unfold tmv. cbn. lra. }
  pose proof (Es 0%nat ltac:(lia)) as Es0. pose proof (Es 1%nat ltac:(lia)) as Es1. cbn [v2] in Es0, Es1.
  set (s := clipv wl wu p) in *.
  set (al := norm 2 g / norm 2 (mv 2 wA g) * (norm 2 g / norm 2 (mv 2 wA g))).
  assert (Eal : al = 1 / 4).
  { unfold al. rewrite step_ratio; unfold dot, mv; cbn [rsum wA wl wu wb x2 v2]; rewrite Eg0, Eg1; [field|lra]. }
  set (stry := clipv wl wu (vsub s (vscal al g))).
  assert (Et0 : stry 0%nat = 0). { unfold stry, clipv, clip, vsub, vscal. cbn [rsum wA wl wu wb x2 v2]. rewrite Eal, Eg0, Es0. mm. }
  assert (Et1 : stry 1%nat = 1). { unfold stry, clipv, clip, vsub, vscal. cbn [rsum wA wl wu wb x2 v2]. rewrite Eal, Eg1, Es1. mm. }
  assert (Hc : cauchy 2 2 wA wl wu 14 s g al = Some stry).
  { apply cauchy_first. fold stry. unfold dot, mv, vsub. cbn [rsum wA wl wu wb x2 v2]. rewrite Et0, Et1, Es0, Es1, Eg0, Eg1. lra. }
  assert (Ho : 1 / 10 ^ 10 < optm 2 2 wA wl wu s (resid 2 wA wb s)).
  { unfold optm. fold g.
    replace (norm 2 _) with 1; [lra|].
    unfold norm. replace (dot 2 _ _) with 1; [symmetry; apply sqrt_1|].
    unfold dot, vsub, clipv, clip, vsub. cbn [rsum wA wl wu wb x2 v2]. rewrite Eg0, Eg1, Es0, Es1. mm. }
  assert (Hr : 1 / 10 ^ 11 < norm 2 (resid 2 wA wb s)).
  { replace (norm 2 _) with 4; [lra|].
    unfold norm. replace (dot 2 _ _) with (4 * 4).
    - symmetry. apply sqrt_square. lra.
    - unfold dot. cbn [rsum]. rewrite (Er 0%nat), (Er 1%nat) by lia. cbn [rsum wA wl wu wb x2 v2]. lra. }
  assert (Al : filter (fun i => at_bound (wl i) (stry i)) (seq 0 2) = [0%nat]).
  { cbn [seq filter wl x2 at_bound]. rewrite Et0, Et1.
    destruct (Rleb_spec (Rabs (0 - 0)) (1 / 10 ^ 12)) as [L|L].
    - destruct (Rleb_spec (Rabs (1 - 0)) (1 / 10 ^ 12)) as [L'|L']; [|reflexivity].
      exfalso. revert L'. unfold Rabs. destruct (Rcase_abs _); lra.
    - exfalso. apply L. unfold Rabs. destruct (Rcase_abs _); lra. }
  assert (Au : filter (fun i => at_bound (wu i) (stry i)) (seq 0 2) = [1%nat]).
  { cbn [seq filter wu x2 at_bound]. rewrite Et0, Et1.
    destruct (Rleb_spec (Rabs (0 - 2)) (1 / 10 ^ 12)) as [L|L].
    - exfalso. revert L. unfold Rabs. destruct (Rcase_abs _); lra.
    - destruct (Rleb_spec (Rabs (1 - 1)) (1 / 10 ^ 12)) as [L'|L']; [reflexivity|].
      exfalso. apply L'. unfold Rabs. destruct (Rcase_abs _); lra. }
  pose proof (blls_vertex 2 2 wA wb wl wu wpin p stry eq_refl ltac:(lia) Ho Hr Hc) as H.
  cbv zeta in H. rewrite Al, Au in H. specialize (H eq_refl).
  eexists. eexists. split; [exact H|]. split; reflexivity.
Qed.

Lemma w_not_solution s1 : s1 0%nat = 0 -> s1 1%nat = 1 -> ~ solves 2 2 wA wb wl wu s1.
Proof.
  intros E0 E1 [_ H]. specialize (H (v2 0 (4 / 5))).
  assert (B : in_bounds 2 wl wu (v2 0 (4 / 5))).
  { intros i Hi. destruct i as [|[|i]]; [| |lia]; cbn; lra. }
  specialize (H B). apply norm_le_sq in H. unfold dot, vsub, mv in H. cbn in H. rewrite E0, E1 in H. lra.
Qed.

Lemma exit0_refuted : ~ (forall m n A b lb ub pin r, proper_bounds n lb ub -> pinv_exact m n A pin ->
  blls m n A b lb ub pin = Some r -> r_exitc r = 0%Z -> solves m n A b lb ub (r_s r)).
Proof.
  intros H. destruct w_run as [s1 [path [E [E0 E1]]]].
  apply (w_not_solution s1 E0 E1).
  exact (H _ _ _ _ _ _ _ _ w_proper wpin_exact E eq_refl).
Qed.

(** ** A run along which the residual grows *)

Definition v3 (a b c : R) : vec := fun i => match i with O => a | 1%nat => b | 2%nat => c | _ => 0 end.
Definition x3 (a b c : xR) : nat -> xR := fun i => match i with O => a | 1%nat => b | _ => c end.
Definition zA : mat := fun i j => match i, j with
  | O, O => 2 | O, 1%nat => 2 | O, 2%nat => 1
  | 1%nat, O => 2 | 1%nat, 1%nat => 1
  | 2%nat, O => -1 | 2%nat, 2%nat => 1 | _, _ => 0 end.
Definition zb : vec := v3 1 3 (-4).
Definition zl : nat -> xR := x3 (Fin 0) (Fin 0) (Fin 0).
Definition zu : nat -> xR := x3 (Fin 2) PInf PInf.
Definition zpin (free : list nat) (r : vec) : option vec :=
  let h0 := 2 * r 0%nat + 2 * r 1%nat - r 2%nat in
  let h1 := 2 * r 0%nat + r 1%nat in
  let h2 := r 0%nat + r 2%nat in
  Some (match free with
  | [0; 1; 2]%nat => v3 (- r 0%nat + 2 * r 1%nat + r 2%nat) (2 * r 0%nat - 3 * r 1%nat - 2 * r 2%nat)
                        (- r 0%nat + 2 * r 1%nat + 2 * r 2%nat)
  | [0; 1]%nat => v3 ((5 * h0 - 6 * h1) / 9) ((9 * h1 - 6 * h0) / 9) 0
  | [0; 2]%nat => v3 ((2 * h0 - h2) / 17) 0 ((9 * h2 - h0) / 17)
  | [1; 2]%nat => v3 0 ((2 * h1 - 2 * h2) / 6) ((5 * h2 - 2 * h1) / 6)
  | [0]%nat => v3 (h0 / 9) 0 0
  | [1]%nat => v3 0 (h1 / 5) 0
  | [2]%nat => v3 0 0 (h2 / 2)
  | _ => vzero
  end).

Lemma zpin_exact : pinv_exact 3 3 zA zpin.
Proof.
  intros f rhs free. eexists. split; [reflexivity|]. apply (orth_min 3 zA free).
  unfold free. cbn [seq filter]. destruct (f 0%nat), (f 1%nat), (f 2%nat); cbn [zpin];
    intros j Hj; cbn in Hj; repeat destruct Hj as [<-|Hj]; try contradiction; cbn; field.
Qed.

Lemma z_proper : proper_bounds 3 zl zu.
Proof. intros i Hi. exists 0. destruct i as [|[|[|i]]]; [| | |lia]; cbn; lra. Qed.

Lemma backtrack_first m n A b lb ub k s ssub free resn rred lt ut :
  let st0 := vadd (vscal (1 - 1) s) (vscal 1 ssub) in
  let lt' := filter (fun i => negb (xler (lb i) (st0 i))) free in
  let ut' := filter (fun i => negb (rlex (st0 i) (ub i))) free in
  lt' <> [] -> norm m (resid n A b (clipv lb ub st0)) <= resn - 1 / 100 * 1 * rred ->
  backtrack m n A b lb ub (S k) s ssub free resn rred 1 lt ut =
  Bkt (Some (clipv lb ub st0, resid n A b (clipv lb ub st0), norm m (resid n A b (clipv lb ub st0)))) lt' ut' (Nat.eqb k 0).
Proof.
  intros st0 lt' ut' H1 H2. cbn [backtrack]. fold st0. fold lt' ut'. apply Rleb_true in H2. rewrite H2.
  destruct lt' as [|i l]; [congruence|]. reflexivity.
Qed.

Ltac ev3 := cbn [rsum zA zl zu zb x3 v3 csum fold_right].

Lemma z_path r : blls 3 3 zA zb zl zu zpin = Some r ->
  exists x0 x1 x2 q, r_path r = (x0, misfit 3 3 zA zb x0) :: (x1, misfit 3 3 zA zb x1) :: (x2, misfit 3 3 zA zb x2) :: q /\
    veq 3 x1 (v3 (2 / 3) (1 / 3) 0) /\ veq 3 x2 (v3 2 0 0).
Proof.
  unfold blls.
  set (p := v3 (- zb 0%nat + 2 * zb 1%nat + zb 2%nat) (2 * zb 0%nat - 3 * zb 1%nat - 2 * zb 2%nat)
               (- zb 0%nat + 2 * zb 1%nat + 2 * zb 2%nat)).
  change (zpin (seq 0 3) zb) with (Some p). cbv beta iota zeta.
  set (s := clipv zl zu p).
  assert (Es0 : s 0%nat = 1) by (unfold s, clipv, clip, p; cbn; mm).
  assert (Es1 : s 1%nat = 1) by (unfold s, clipv, clip, p; cbn; mm).
  assert (Es2 : s 2%nat = 0) by (unfold s, clipv, clip, p; cbn; mm).
  clearbody s. clear p.
  set (res := resid 3 zA zb s).
  assert (Er0 : res 0%nat = 3) by (unfold res, resid, vsub, mv; ev3; rewrite Es0, Es1, Es2; lra).
  assert (Er1 : res 1%nat = 0) by (unfold res, resid, vsub, mv; ev3; rewrite Es0, Es1, Es2; lra).
  assert (Er2 : res 2%nat = 3) by (unfold res, resid, vsub, mv; ev3; rewrite Es0, Es1, Es2; lra).
  assert (Em : norm 3 res = misfit 3 3 zA zb s) by reflexivity.
  clearbody res.
  assert (Hr : 1 / 10 ^ 11 < norm 3 res).
  { apply Rlt_le_trans with 1; [lra|]. rewrite <- sqrt_1. unfold norm. apply sqrt_le_1_alt.
    unfold dot. ev3. rewrite Er0, Er1, Er2. lra. }
  set (g := tmv 3 zA res).
  assert (Eg0 : g 0%nat = 3) by (unfold g, tmv; ev3; rewrite Er0, Er1, Er2; lra).
  assert (Eg1 : g 1%nat = 6) by (unfold g, tmv; ev3; rewrite Er0, Er1, Er2; lra).
  assert (Eg2 : g 2%nat = 6) by (unfold g, tmv; ev3; rewrite Er0, Er1, Er2; lra).
  assert (Ho : 1 / 10 ^ 10 < optm 3 3 zA zl zu s res).
  { unfold optm. fold g. apply Rlt_le_trans with 1; [lra|]. rewrite <- sqrt_1. unfold norm. apply sqrt_le_1_alt.
    unfold dot, vsub, clipv, clip. ev3. unfold vsub. rewrite Es0, Es1, Es2, Eg0, Eg1, Eg2. mm. }
  apply Rleb_false in Ho. rewrite Ho. pose proof Hr as Hr'. apply Rleb_false in Hr'. rewrite Hr'. cbn [orb].
  change (2 * 3)%nat with (S 5). generalize 5%nat. intros left H.
  set (al := norm 3 g / norm 3 (mv 3 zA g) * (norm 3 g / norm 3 (mv 3 zA g))).
  assert (Eal : al = 1 / 9).
  { unfold al. rewrite step_ratio; unfold dot, mv; ev3; rewrite Eg0, Eg1, Eg2; [field|lra]. }
  set (stry := clipv zl zu (vsub s (vscal al g))).
  assert (Et0 : stry 0%nat = 2 / 3).
  { unfold stry, clipv, clip, vsub, vscal. ev3. rewrite Eal, Eg0, Es0. mm. }
  assert (Et1 : stry 1%nat = 1 / 3).
  { unfold stry, clipv, clip, vsub, vscal. ev3. rewrite Eal, Eg1, Es1. mm. }
  assert (Et2 : stry 2%nat = 0).
  { unfold stry, clipv, clip, vsub, vscal. ev3. rewrite Eal, Eg2, Es2. mm. }
  assert (Hc : cauchy 3 3 zA zl zu 14 s g al = Some stry).
  { apply cauchy_first. fold stry. unfold dot, mv, vsub. ev3. rewrite Et0, Et1, Et2, Es0, Es1, Es2, Eg0, Eg1, Eg2. lra. }
  assert (Al : filter (fun i => at_bound (zl i) (stry i)) (seq 0 3) = [2%nat]).
  { cbn [seq filter zl x3 at_bound]. rewrite Et0, Et1, Et2.
    replace (Rleb (Rabs (2 / 3 - 0)) (1 / 10 ^ 12)) with false
      by (symmetry; apply Rleb_false; unfold Rabs; destruct (Rcase_abs _); lra).
    replace (Rleb (Rabs (1 / 3 - 0)) (1 / 10 ^ 12)) with false
      by (symmetry; apply Rleb_false; unfold Rabs; destruct (Rcase_abs _); lra).
    replace (Rleb (Rabs (0 - 0)) (1 / 10 ^ 12)) with true
      by (symmetry; apply Rleb_true; unfold Rabs; destruct (Rcase_abs _); lra).
    reflexivity. }
  assert (Au : filter (fun i => at_bound (zu i) (stry i)) (seq 0 3) = []).
  { cbn [seq filter zu x3 at_bound]. rewrite Et0.
    replace (Rleb (Rabs (2 / 3 - 2)) (1 / 10 ^ 12)) with false
      by (symmetry; apply Rleb_false; unfold Rabs; destruct (Rcase_abs _); lra).
    reflexivity. }
  pose proof (iterate_nested 3 3 zA zb zl zu zpin left 0 0 [] [] s res (norm 3 res) (optm 3 3 zA zl zu s res)
    [(s, norm 3 res)] [] r stry) as HN.
  cbv zeta in HN. fold g al in HN. rewrite Al, Au in HN.
  set (s1 := fun i : nat => if mem [] i then _ else _) in HN.
  assert (E10 : s1 0%nat = 2 / 3) by exact Et0.
  assert (E11 : s1 1%nat = 1 / 3) by exact Et1.
  assert (E12 : s1 2%nat = 0) by reflexivity.
  clearbody s1.
  set (res1 := resid 3 zA zb s1) in HN.
  assert (D1 : dot 3 res1 res1 = 125 / 9).
  { unfold dot, res1, resid, vsub, mv. ev3. rewrite E10, E11, E12. field. }
  assert (Hr1 : 3726 / 1000 < norm 3 res1 < 3727 / 1000).
  { unfold norm. rewrite D1. split.
    - rewrite <- (sqrt_square (3726 / 1000)) by lra. apply sqrt_lt_1_alt. lra.
    - rewrite <- (sqrt_square (3727 / 1000)) by lra. apply sqrt_lt_1_alt. lra. }
  set (t0 := NSt _ _ _ _ _ _ _ _ _ _ _) in HN.
  assert (En : exists t x2, nested 3 3 zA zb zl zu zpin 3 t0 = Some t /\
     n_path t = [(s, norm 3 res); (s1, norm 3 res1); (x2, misfit 3 3 zA zb x2)] /\ veq 3 x2 (v3 2 0 0)).
  { change 3%nat with (S 2) at 3. generalize 2%nat at 3. intros k. cbn [nested].
    unfold t0 at 1 2 3. cbn [n_free n_atlb n_atub].
    set (ss := subspace _ _ _ _ _ _ _ _).
    assert (Ess : exists y, ss = Some y /\ y 0%nat = 10 / 3 /\ y 1%nat = -3 /\ y 2%nat = 0).
    { unfold ss, subspace, zpin. change (others 3 [2%nat] []) with [0%nat; 1%nat]. cbn iota.
      eexists. split; [reflexivity|]. cbn. unfold vsub, csum. cbn. repeat split; field. }
    clearbody ss. destruct Ess as [y [-> [Y0 [Y1 Y2]]]].
    set (rs := resid 3 zA zb y).
    assert (Drs : norm 3 rs = 1).
    { unfold norm. replace (dot 3 rs rs) with 1; [apply sqrt_1|].
      unfold dot, rs, resid, vsub, mv. ev3. rewrite Y0, Y1, Y2. field. }
    change (others 3 [2%nat] []) with [0%nat; 1%nat].
    assert (Ex : existsb (fun i => negb (xler (zl i) (y i)) || negb (rlex (y i) (zu i))) (n_free t0) = true).
    { unfold t0. cbn [n_free]. change (others 3 [2%nat] []) with [0%nat; 1%nat].
      apply existsb_exists. exists 1%nat. split; [right; left; reflexivity|].
      cbn [zl x3 xler]. rewrite Y1. replace (Rleb 0 (-3)) with false; [reflexivity|].
      symmetry. apply Rleb_false. lra. }
    rewrite Ex. clear Ex. rewrite Drs.
    unfold t0. cbn [n_s n_res n_resn n_free n_atlb n_atub n_nuns n_lt n_ut n_path n_dirs].
    change (4 * (1 - 0))%nat with (S 3).
    pose (st0 := vadd (vscal (1 - 1) s1) (vscal 1 y)).
    assert (S0 : st0 0%nat = 10 / 3) by (unfold st0, vadd, vscal; rewrite E10, Y0; lra).
    assert (S1 : st0 1%nat = -3) by (unfold st0, vadd, vscal; rewrite E11, Y1; lra).
    assert (S2 : st0 2%nat = 0) by (unfold st0, vadd, vscal; rewrite E12, Y2; lra).
    pose (x2 := clipv zl zu st0).
    assert (X0 : x2 0%nat = 2) by (unfold x2, clipv, clip; ev3; rewrite S0; mm).
    assert (X1 : x2 1%nat = 0) by (unfold x2, clipv, clip; ev3; rewrite S1; mm).
    assert (X2 : x2 2%nat = 0) by (unfold x2, clipv, clip; ev3; rewrite S2; mm).
    assert (D2 : norm 3 (resid 3 zA zb x2) < 375 / 100).
    { unfold norm. replace (dot 3 _ _) with 14.
      - rewrite <- (sqrt_square (375 / 100)) by lra. apply sqrt_lt_1_alt. lra.
      - unfold dot, resid, vsub, mv. ev3. rewrite X0, X1, X2. lra. }
    rewrite backtrack_first; fold st0.
    2:{ change (others 3 [2%nat] []) with [0%nat; 1%nat].
        cbn [filter zl x3 xler]. rewrite S0, S1.
        replace (Rleb 0 (10 / 3)) with true by (symmetry; apply Rleb_true; lra).
        replace (Rleb 0 (-3)) with false by (symmetry; apply Rleb_false; lra). discriminate. }
    2:{ fold x2. lra. }
    fold x2.
    cbn [bk_found]. eexists. exists x2. split; [reflexivity|]. split; [reflexivity|].
    intros i Hi. destruct i as [|[|[|i]]]; [exact X0|exact X1|exact X2|lia]. }
  destruct En as [t [x2 [En [Ep Ex2]]]].
  destruct (HN t H Hc) as [q Hq]; [discriminate|lra|exact En|].
  exists s, s1, x2, q. split; [rewrite Hq, Ep, Em; reflexivity|]. split; [|exact Ex2].
  intros i Hi. destruct i as [|[|[|i]]]; [exact E10|exact E11|exact E12|lia].
Qed.

Lemma residual_growth_refuted : ~ (forall m n A b lb ub pin r, proper_bounds n lb ub -> pinv_exact m n A pin ->
  blls m n A b lb ub pin = Some r ->
  forall k x x' q q', nth_error (r_path r) k = Some (x, q) -> nth_error (r_path r) (S k) = Some (x', q') -> q' <= q).
Proof.
  intros H. destruct (blls_total 3 3 zA zb zl zu zpin) as [r E]; [discriminate|].
  destruct (z_path r E) as [x0 [x1 [x2 [q [P [E1 E2]]]]]].
  specialize (H _ _ _ _ _ _ _ _ z_proper zpin_exact E 1%nat x1 x2
    (misfit 3 3 zA zb x1) (misfit 3 3 zA zb x2)).
  rewrite P in H. specialize (H eq_refl eq_refl). apply norm_le_sq in H.
  unfold dot, vsub, mv in H. cbn [rsum zA zb v3] in H.
  rewrite !(E1 0%nat), !(E1 1%nat), !(E1 2%nat), !(E2 0%nat), !(E2 1%nat), !(E2 2%nat) in H by lia.
  cbn [v3] in H. lra.
Qed.
