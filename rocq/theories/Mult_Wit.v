(** Witnesses for the properties of the multipliers and optimality measures. *)
From Coq Require Import Reals Lra Lia Arith List Bool Psatz.
From Verif Require Import RVec RBool ProjGrad_Spec BL_Model BL_Spec BL_Proofs BL_Wit Hess_Model Mult_Model Mult_Spec Mult_Proofs.
Import ListNotations.
Open Scope R_scope.

(** A solver that knows the solution of one problem. *)
Definition one_solver (k0 : nat) (M0 : mat) (b0 : vec) (l0 u0 : nat -> xR) (s0 : vec) : lsq_solver :=
  fun k M b l u =>
    if Nat.eqb k k0 && forallb (fun p => Reqb (b p) (b0 p) && xeqb (l p) (l0 p) && xeqb (u p) (u0 p)
                                 && forallb (fun q => Reqb (M p q) (M0 p q)) (seq 0 k0)) (seq 0 k0)
    then Some s0 else None.

Lemma xeqb_eq e f : xeqb e f = true <-> e = f.
Proof.
  destruct e, f; cbn; try (split; congruence).
  destruct (Reqb_spec r r0); split; intros H; try congruence.
Qed.

Lemma one_match k0 M0 b0 l0 u0 s0 k M b l u : k = k0 ->
  (forall p, (p < k0)%nat -> b p = b0 p /\ l p = l0 p /\ u p = u0 p /\ forall q, (q < k0)%nat -> M p q = M0 p q) ->
  one_solver k0 M0 b0 l0 u0 s0 k M b l u = Some s0.
Proof.
  intros -> H. unfold one_solver. rewrite Nat.eqb_refl. cbn [andb].
  assert (E : forallb (fun p => Reqb (b p) (b0 p) && xeqb (l p) (l0 p) && xeqb (u p) (u0 p)
                                 && forallb (fun q => Reqb (M p q) (M0 p q)) (seq 0 k0)) (seq 0 k0) = true).
  { apply forallb_forall. intros p Hp. apply in_seq in Hp. destruct (H p ltac:(lia)) as [E1 [E2 [E3 E4]]].
    rewrite E1, E2, E3, (proj2 (xeqb_eq _ _) eq_refl), (proj2 (xeqb_eq _ _) eq_refl).
    destruct (Reqb_spec (b0 p) (b0 p)); [|congruence]. cbn [andb]. apply forallb_forall. intros q Hq.
    apply in_seq in Hq. rewrite E4 by lia. destruct (Reqb_spec (M0 p q) (M0 p q)); congruence. }
  rewrite E. reflexivity.
Qed.

Lemma one_solves k0 M0 b0 l0 u0 s0 : solves k0 k0 M0 b0 l0 u0 s0 -> answers_solve (one_solver k0 M0 b0 l0 u0 s0).
Proof.
  intros H k M b l u s _ E. unfold one_solver in E.
  destruct (Nat.eqb_spec k k0) as [->|]; [|discriminate]. cbn [andb] in E.
  destruct (forallb _ _) eqn:F in E; [|discriminate]. injection E as <-.
  rewrite forallb_forall in F.
  assert (X : forall p, (p < k0)%nat -> b p = b0 p /\ l p = l0 p /\ u p = u0 p /\ forall q, (q < k0)%nat -> M p q = M0 p q).
  { intros p Hp. specialize (F p ltac:(apply in_seq; lia)). rewrite !andb_true_iff in F.
    destruct F as [[[F1 F2] F3] F4]. rewrite forallb_forall in F4.
    split; [destruct (Reqb_spec (b p) (b0 p)); congruence|]. split; [apply xeqb_eq; exact F2|]. split; [apply xeqb_eq; exact F3|].
    intros q Hq. specialize (F4 q ltac:(apply in_seq; lia)). destruct (Reqb_spec (M p q) (M0 p q)); congruence. }
  assert (EM : forall t, misfit k0 k0 M b t = misfit k0 k0 M0 b0 t).
  { intros t. apply norm_ext. intros p Hp. unfold vsub. destruct (X p Hp) as [-> [_ [_ Y]]]. f_equal.
    unfold mv. apply rsum_ext. intros q Hq. rewrite Y by exact Hq. reflexivity. }
  assert (EB : forall t, in_bounds k0 l u t <-> in_bounds k0 l0 u0 t).
  { intros t. split; intros B p Hp; specialize (B p Hp); destruct (X p Hp) as [_ [E1 [E2 _]]]; rewrite ?E1, ?E2 in *; exact B. }
  destruct H as [H1 H2]. split; [apply EB; exact H1|]. intros t Ht. rewrite !EM. apply H2. apply EB. exact Ht.
Qed.

Lemma solves_respects solver : answers_solve solver -> respects_bounds solver.
Proof. intros H k M b l u s Hp E. apply (H _ _ _ _ _ _ Hp E). Qed.

(** ** A bound active: two variables, one constraint x0 + x1 = 0, gradient
    (0, 1), lower bound 0 on x0, at x = (0, 0). *)
Definition ax : vec := vzero.
Definition alb : nat -> xR := x2 (Fin 0) NInf.
Definition aub : nat -> xR := x2 PInf PInf.
Definition ag : vec := v2 0 1.
Definition aae : mat := fun _ _ => 1.
Definition asol : lsq_solver :=
  one_solver 2 (fun p q => match p, q with O, O => 1 | O, _ => 1 | _, O => 1 | _, _ => 2 end) (v2 0 (-1))
    (x2 NInf NInf) (x2 (Fin 0) PInf) (v2 0 (- (2 / 5))).
Definition adx : R := 1 / 10 ^ 8.
Definition alm : vec := fun i => if Nat.eqb i 2 then - (2 / 5) else 0.

Lemma small_pos k : 0 < 1 / 10 ^ k.
Proof. apply Rdiv_lt_0_compat; [lra|]. apply pow_lt. lra. Qed.

Lemma near_self d y : 0 < d -> near d y (Fin y) = true.
Proof.
  intros H. unfold near. replace (y - y) with 0 by lra. rewrite Rabs_R0. destruct (Rltb_spec 0 d); [reflexivity|lra].
Qed.

Lemma asol_solves : answers_solve asol.
Proof.
  apply one_solves. split.
  - intros i Hi. destruct i as [|[|i]]; [| |lia]; cbn; auto; lra.
  - intros t Ht. apply norm_le_sq. unfold dot, vsub, mv. cbn. 
    destruct (Ht 0%nat ltac:(lia)) as [_ T]. cbn in T. set (p := t 0%nat) in *. set (q := t 1%nat).
    pose proof (Rle_0_sqr (5 * q + 2 + 3 * p)). unfold Rsqr in H. nra.
Qed.

Lemma a_lo0 : mlo 2 0 ax alb aub PInf adx 0 = NInf /\ mup 2 0 ax alb aub PInf adx 0 = Fin 0.
Proof.
  unfold mlo, mup, ax, alb, aub, x2. cbn [Nat.ltb Nat.leb xleb xneg negb andb].
  unfold vzero. split; [reflexivity|]. destruct (near adx 0 (Fin 0)); reflexivity.
Qed.
Lemma a_kept : kept 2 0 1 ax alb aub PInf adx = [0; 2]%nat.
Proof.
  unfold kept. change (seq 0 (2 + 0 + 1)) with [0; 1; 2]%nat. cbn [filter].
  destruct a_lo0 as [-> ->].
  assert (E : mlo 2 0 ax alb aub PInf adx 1 = Fin 0 /\ mup 2 0 ax alb aub PInf adx 1 = Fin 0) by (split; reflexivity).
  destruct E as [-> ->].
  assert (E : mlo 2 0 ax alb aub PInf adx 2 = NInf /\ mup 2 0 ax alb aub PInf adx 2 = PInf) by (split; reflexivity).
  destruct E as [-> ->]. cbn [xeqb negb]. destruct (Reqb_spec 0 0); [|congruence]. reflexivity.
Qed.

Lemma a_run : exists lm, compute_multiplier 2 0 1 ax alb aub PInf adx ag aae vzero false vzero (fun _ _ => 0) asol = Some lm /\
  lm 0%nat = 0 /\ lm 1%nat = 0 /\ lm 2%nat = - (2 / 5).
Proof.
  unfold compute_multiplier. rewrite a_kept. unfold asol.
  rewrite one_match; [|reflexivity|].
  - eexists. split; [reflexivity|]. unfold drop_slack, full_mult. rewrite a_kept. cbn. repeat split; reflexivity.
  - intros p Hp. unfold red_lo, red_up, red_rhs, red_mat. rewrite a_kept.
    destruct a_lo0 as [L0 U0].
    destruct p as [|[|p]]; [| |lia]; cbn [nth].
    + rewrite L0, U0. split; [unfold mAg, mv, bigA, gloc, ag, v2, idm; cbn; lra|]. split; [reflexivity|]. split; [reflexivity|].
      intros q Hq. destruct q as [|[|q]]; [| |lia]; cbn [nth]; unfold mAA, check_convex, bigA, jac, idm, aae; cbn; lra.
    + split; [unfold mAg, mv, bigA, gloc, ag, v2, jac, aae; cbn; lra|]. split; [reflexivity|]. split; [reflexivity|].
      intros q Hq. destruct q as [|[|q]]; [| |lia]; cbn [nth]; unfold mAA, check_convex, bigA, jac, idm, aae; cbn; lra.
Qed.

Lemma least_squares_refuted : ~ (forall n nsl me x lb ub oinf dxmin g ae sl evneg ev evec solver lm,
  (nsl <= me)%nat -> answers_solve solver ->
  negative_sound (n + nsl + me) (gram (n + nsl) (stacked n nsl me ae sl)) evneg ->
  compute_multiplier n nsl me x lb ub oinf dxmin g ae sl evneg ev evec solver = Some lm ->
  forall mu lam, signs_ok n oinf dxmin x lb ub mu ->
  lagr_norm n nsl me g lm (fun k => lm (n + k)%nat) ae sl <= lagr_norm n nsl me g mu lam ae sl).
Proof.
  intros H. destruct a_run as [lm [E [L0 [L1 L2]]]].
  specialize (H 2%nat O 1%nat ax alb aub PInf adx ag aae vzero false vzero (fun _ _ => 0) asol lm
    ltac:(lia) asol_solves ltac:(intros X; discriminate) E vzero (fun _ => - (1 / 2))).
  assert (S : signs_ok 2 PInf adx ax alb aub vzero) by (intros i Hi; unfold sign_ok, vzero; split; intros; lra).
  specialize (H S). unfold lagr_norm in H. apply norm_le_sq in H. revert H.
  unfold dot, lagr, pad, slack_jac, aae, ag, v2, vzero. cbn -[Nat.sub]. cbn. rewrite L0, L1, L2. lra.
Qed.

(** ** A bound active and right: one variable, no constraint, gradient 1. *)
Definition bsol : lsq_solver := one_solver 1 (fun _ _ => 1) (fun _ => -1) (fun _ => NInf) (fun _ => Fin 0) (fun _ => -1).
Lemma bsol_solves : answers_solve bsol.
Proof.
  apply one_solves. split.
  - intros i Hi. cbn. split; auto; lra.
  - intros t Ht. apply norm_le_sq. apply Rle_trans with 0; [|apply dot_self_nonneg].
    unfold dot, vsub, mv. cbn. lra.
Qed.
Lemma b_lo : mlo 1 0 vzero (fun _ => Fin 0) (fun _ => PInf) PInf adx 0 = NInf /\ mup 1 0 vzero (fun _ => Fin 0) (fun _ => PInf) PInf adx 0 = Fin 0.
Proof.
  unfold mlo, mup. cbn [Nat.ltb Nat.leb xleb xneg negb andb].
  unfold vzero. split; [reflexivity|]. destruct (near adx 0 (Fin 0)); reflexivity.
Qed.
Lemma b_run : exists lm, compute_multiplier 1 0 0 vzero (fun _ => Fin 0) (fun _ => PInf) PInf adx (fun _ => 1) (fun _ _ => 0)
    vzero false vzero (fun _ _ => 0) bsol = Some lm /\ lm 0%nat = -1.
Proof.
  assert (EK : kept 1 0 0 vzero (fun _ => Fin 0) (fun _ => PInf) PInf adx = [0]%nat).
  { unfold kept. change (seq 0 (1 + 0 + 0)) with [0]%nat. cbn [filter]. destruct b_lo as [-> ->]. reflexivity. }
  unfold compute_multiplier. rewrite EK. unfold bsol. rewrite one_match; [|reflexivity|].
  - eexists. split; [reflexivity|]. unfold drop_slack, full_mult. rewrite EK. reflexivity.
  - intros p Hp. unfold red_lo, red_up, red_rhs, red_mat. rewrite EK. destruct b_lo as [L0 U0].
    destruct p as [|p]; [|lia]. cbn [nth]. rewrite L0, U0.
    split; [unfold mAg, mv, bigA, gloc, idm; cbn; lra|]. split; [reflexivity|]. split; [reflexivity|].
    intros q Hq. destruct q as [|q]; [|lia]. cbn [nth]; unfold mAA, check_convex, bigA, idm; cbn; lra.
Qed.
Lemma b_signed : exists mu lam, signs_ok 1 PInf adx vzero (fun _ => Fin 0) (fun _ => PInf) mu /\
  forall mu' lam', zero_where_forced 1 PInf adx vzero (fun _ => Fin 0) (fun _ => PInf) mu' ->
     lagr_norm 1 0 0 (fun _ => 1) mu lam (fun _ _ => 0) vzero <= lagr_norm 1 0 0 (fun _ => 1) mu' lam' (fun _ _ => 0) vzero.
Proof.
  exists (fun _ => -1), vzero. split.
  - intros i Hi. unfold sign_ok. split.
    + intros [H|[H _]]; cbn in H; tauto.
    + intros _. lra.
  - intros mu' lam' _. unfold lagr_norm. apply Rle_trans with 0; [|apply norm_nonneg].
    right. apply norm_zero. intros j Hj. unfold lagr, pad, vzero. destruct j as [|j]; [|lia]. cbn. lra.
Qed.

(** ** An inequality whose multiplier has the wrong sign: minimise -x subject
    to x >= 0, at x = 0 with slack 0: the optimality test is passed although
    x = 0 is the worst feasible point. *)
Definition csol : lsq_solver := one_solver 1 (fun _ _ => 1) (fun _ => 1) (fun _ => NInf) (fun _ => PInf) (fun _ => 1).
Definition cg : vec := fun _ => -1.
Lemma csol_solves : answers_solve csol.
Proof.
  apply one_solves. split.
  - intros i Hi. cbn. auto.
  - intros t Ht. apply norm_le_sq. apply Rle_trans with 0; [|apply dot_self_nonneg].
    unfold dot, vsub, mv. cbn. lra.
Qed.

Lemma c_run : exists glag feas compl lm,
  measures 1 1 1 vzero (fun _ => NInf) (fun _ => PInf) PInf adx cg vzero (fun _ _ => 1) vzero false vzero (fun _ _ => 0) csol
    = Some (glag, feas, compl, lm) /\
  glag 0%nat = 0 /\ feas 0%nat = 0 /\ lm 0%nat = 0 /\ lm 1%nat = 1.
Proof.
  assert (EK : kept 1 1 1 vzero (fun i => near_only NInf (vzero i) NInf) (fun i => near_only PInf (vzero i) PInf) PInf adx = [2]%nat).
  { unfold kept. change (seq 0 (1 + 1 + 1)) with [0; 1; 2]%nat. cbn. destruct (Reqb_spec 0 0); [|congruence]. reflexivity. }
  unfold measures, compute_multiplier. rewrite EK. unfold csol. rewrite one_match; [|reflexivity|].
  - eexists _, _, _, _. split; [reflexivity|].
    unfold opt_glag, opt_feas, drop_slack, full_mult. rewrite EK. cbn. unfold jac, cg, vzero. cbn.
    repeat split; lra.
  - intros p Hp. unfold red_lo, red_up, red_rhs, red_mat. rewrite EK.
    destruct p as [|p]; [|lia]. cbn [nth].
    split; [unfold mAg, mv, bigA, gloc, jac, cg, vzero; cbn; lra|]. split; [reflexivity|]. split; [reflexivity|].
    intros q Hq. destruct q as [|q]; [|lia]. cbn [nth]; unfold mAA, check_convex, bigA, jac, vzero; cbn; lra.
Qed.

Lemma kkt_refuted : ~ (forall n nsl me x lb ub oinf dxmin g ce ae sl evneg ev evec solver glag feas compl lm,
  (nsl <= me)%nat -> answers_solve solver ->
  negative_sound (n + nsl + me) (gram (n + nsl) (stacked n nsl me ae sl)) evneg ->
  measures n nsl me x lb ub oinf dxmin g ce ae sl evneg ev evec solver = Some (glag, feas, compl, lm) ->
  (forall j, (j < n)%nat -> glag j = 0 /\ compl j = 0) -> (forall k, (k < me)%nat -> feas k = 0) ->
  first_order_conditions n nsl me x lb ub g ce ae).
Proof.
  intros H. destruct c_run as [glag [feas [compl [lm [E [G [F _]]]]]]].
  pose proof (measures_meaning 1 1 1 _ _ _ _ _ _ _ _ _ _ _ _ _ _ _ _ _ (le_n 1) E) as [C _].
  assert (HN : negative_sound (1 + 1 + 1) (gram (1 + 1) (stacked 1 1 1 (fun _ _ => 1) vzero)) false) by (intros X; discriminate).
  specialize (H 1%nat 1%nat 1%nat _ _ _ _ _ _ _ _ _ _ _ _ _ _ _ _ _ (le_n 1) csol_solves HN E).
  destruct H as [mu [lam [H1 [H2 [H3 [_ H5]]]]]].
  - intros j Hj. destruct j as [|j]; [|lia]. split; [exact G|apply C].
  - intros k Hk. destruct k as [|k]; [|lia]. exact F.
  - specialize (H1 0%nat ltac:(lia)). unfold lagr, cg in H1. cbn in H1.
    destruct (H5 0%nat ltac:(lia)) as [_ [L _]].
    specialize (H2 0%nat ltac:(lia)). specialize (H3 0%nat ltac:(lia)). cbn in H2, H3.
    destruct (Rtotal_order (mu 0%nat) 0) as [X|[X|X]].
    + discriminate (H2 X).
    + lra.
    + discriminate (H3 X).
Qed.

(** ** The library's own solver. *)
Definition lib_solver (pin : nat -> mat -> list nat -> vec -> option vec) : lsq_solver :=
  fun k M b l u => option_map r_s (blls k k M b l u (pin k M)).

Lemma blls_signs n nsl me x lb ub oinf dxmin g ae sl evneg ev evec pin lm :
  (forall r, let K := kept n nsl me x lb ub oinf dxmin in
     let M := red_mat n nsl me x lb ub oinf dxmin ae sl evneg ev evec in
     blls (length K) (length K) M (red_rhs n nsl me x lb ub oinf dxmin g ae sl)
       (red_lo n nsl me x lb ub oinf dxmin) (red_up n nsl me x lb ub oinf dxmin) (pin (length K) M) = Some r ->
     not_tiny (r_dirs r)) ->
  compute_multiplier n nsl me x lb ub oinf dxmin g ae sl evneg ev evec (lib_solver pin) = Some lm ->
  signs_ok n oinf dxmin x lb ub lm.
Proof.
  cbv zeta. intros HT. apply mult_signs_call. intros sn E. unfold lib_solver in E.
  destruct (blls _ _ _ _ _ _ _) as [r|] eqn:EB; [|discriminate]. cbn in E. injection E as <-.
  apply (fun P => proj1 (blls_in _ _ _ _ _ _ _ P r EB (HT r eq_refl))). apply proper_red.
Qed.

(** the run of [blls] in the second example *)
Definition bpin (k : nat) (M : mat) (free : list nat) (r : vec) : option vec := Some r.
Lemma b_blls : exists lm, compute_multiplier 1 0 0 vzero (fun _ => Fin 0) (fun _ => PInf) PInf adx (fun _ => 1) (fun _ _ => 0)
    vzero false vzero (fun _ _ => 0) (lib_solver bpin) = Some lm /\ lm 0%nat = -1 /\
  forall r, let K := kept 1 0 0 vzero (fun _ => Fin 0) (fun _ => PInf) PInf adx in
     let M := red_mat 1 0 0 vzero (fun _ => Fin 0) (fun _ => PInf) PInf adx (fun _ _ => 0) vzero false vzero (fun _ _ => 0) in
     blls (length K) (length K) M (red_rhs 1 0 0 vzero (fun _ => Fin 0) (fun _ => PInf) PInf adx (fun _ => 1) (fun _ _ => 0) vzero)
       (red_lo 1 0 0 vzero (fun _ => Fin 0) (fun _ => PInf) PInf adx)
       (red_up 1 0 0 vzero (fun _ => Fin 0) (fun _ => PInf) PInf adx) (bpin (length K) M) = Some r ->
     not_tiny (r_dirs r).
Proof.
  assert (EK : kept 1 0 0 vzero (fun _ => Fin 0) (fun _ => PInf) PInf adx = [0]%nat).
  { unfold kept. change (seq 0 (1 + 0 + 0)) with [0]%nat. cbn [filter]. destruct b_lo as [-> ->]. reflexivity. }
  set (M := red_mat 1 0 0 vzero (fun _ => Fin 0) (fun _ => PInf) PInf adx (fun _ _ => 0) vzero false vzero (fun _ _ => 0)).
  set (b := red_rhs 1 0 0 vzero (fun _ => Fin 0) (fun _ => PInf) PInf adx (fun _ => 1) (fun _ _ => 0) vzero).
  set (l := red_lo 1 0 0 vzero (fun _ => Fin 0) (fun _ => PInf) PInf adx).
  set (u := red_up 1 0 0 vzero (fun _ => Fin 0) (fun _ => PInf) PInf adx).
  assert (EM : M 0%nat 0%nat = 1).
  { unfold M, red_mat. rewrite EK. cbn [nth]. unfold mAA, check_convex, bigA, idm. cbn. lra. }
  assert (Eb : b 0%nat = -1).
  { unfold b, red_rhs. rewrite EK. cbn [nth]. unfold mAg, mv, bigA, gloc, idm. cbn. lra. }
  assert (El : l 0%nat = NInf /\ u 0%nat = Fin 0).
  { unfold l, u, red_lo, red_up. rewrite EK. cbn [nth]. exact b_lo. }
  destruct El as [El Eu].
  destruct (blls_start 1 1 M b l u (bpin 1 M)) with (p := b) as [r [E [_ [_ [Ev [Ed _]]]]]].
  - intros i Hi. exists 0. destruct i as [|i]; [|lia]. rewrite El, Eu. cbn. lra.
  - reflexivity.
  - lia.
  - intros t. apply norm_le_sq. apply Rle_trans with 0; [|apply dot_self_nonneg].
    unfold dot, vsub, mv. cbn [rsum]. rewrite EM. lra.
  - intros i Hi. destruct i as [|i]; [|lia]. rewrite El, Eu, Eb. cbn. lra.
  - cbv zeta. rewrite EK. cbn [length].
    assert (C : compute_multiplier 1 0 0 vzero (fun _ => Fin 0) (fun _ => PInf) PInf adx (fun _ => 1) (fun _ _ => 0)
      vzero false vzero (fun _ _ => 0) (lib_solver bpin) = Some (drop_slack 1 0 (full_mult 1 0 0 vzero (fun _ => Fin 0) (fun _ => PInf) PInf adx (r_s r)))).
    { unfold compute_multiplier. rewrite EK. cbn [length]. fold M b l u. unfold lib_solver. rewrite E. reflexivity. }
    eexists. split; [exact C|]. split.
    + unfold drop_slack, full_mult. rewrite EK. cbn. rewrite (Ev 0%nat) by lia. exact Eb.
    + intros r' E'. rewrite E in E'. injection E' as <-. rewrite Ed. intros f d i [].
Qed.
