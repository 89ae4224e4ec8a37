From Coq Require Import Reals Lra Psatz Lia List Arith Bool.
From Verif Require Import RVec RBool Tri Poly_Model Poly_Spec Poly_Proofs Int_Model Int_Spec Int_Proofs
  MS_Model MS_Spec MS_Proofs TR_Proofs New_Model New_Spec.
Import ListNotations.
Open Scope R_scope.

Lemma value_ext shift n len P b x y : (forall i, (i < n)%nat -> x i = y i) -> value shift n len P b x = value shift n len P b y.
Proof.
  intros H. unfold value, evalP_shift, evalP. destruct shift.
  - rewrite (evalZ_ext n len _ (fun i => (y i - b_base b i) * b_scale b 1%nat)); [reflexivity|].
    intros i Hi. rewrite H by exact Hi. reflexivity.
  - rewrite (evalZ_ext n len x y H). reflexivity.
Qed.

Definition sc_of (shift : bool) (b : built) : R := if shift then b_scale b 1%nat else 1.
Definition g_of (shift : bool) (n len : nat) (L : vec) (Y : nat -> vec) : vec :=
  gradP n len L (if shift then vzero else Y 0%nat).

Lemma hess_symmetric n len L : symmetric n (hessP n len L).
Proof. intros i j _ _. apply hessP_sym. Qed.
Lemma hess_symmetric_opp n len L : symmetric n (fun a c => - hessP n len L a c).
Proof. intros i j _ _. f_equal. apply hessP_sym. Qed.

Lemma qmodel_opp n g H d : qmodel n (fun i => - g i) (fun a c => - H a c) d = - qmodel n g H d.
Proof.
  unfold qmodel, quad, dot, mv.
  rewrite (rsum_ext n (fun i => - g i * d i) (fun i => (-1) * (g i * d i))) by (intros; ring).
  rewrite (rsum_ext n (fun i => d i * rsum n (fun j => - H i j * d j)) (fun i => (-1) * (d i * rsum n (fun j => H i j * d j)))).
  - rewrite !rsum_scal. ring.
  - intros i Hi. rewrite (rsum_ext n (fun j => - H i j * d j) (fun j => (-1) * (H i j * d j))) by (intros; ring).
    rewrite rsum_scal. ring.
Qed.

Section N.
Variable slv : nat -> mat -> mat -> option mat.
Variable pinv : nat -> mat -> mat.
Variable solver : tr_solver.

Lemma computeLj_len mode n p1 Q R j len L : computeLj slv pinv mode n p1 Q R j = Some (len, L) -> len = p1 \/ len = full n.
Proof.
  unfold computeLj. destruct (eff_mode mode n p1) as [|[|[|[|m]]]].
  - destruct (slv _ _ _); intros H; [injection H as <- _; auto|discriminate].
  - destruct (compl n p1); [|discriminate]. destruct (slv _ _ _); intros H; [injection H as <- _; auto|discriminate].
  - destruct (p1 <? full n)%nat; [intros H; injection H as <- _; auto|].
    destruct (slv _ _ _); intros H; [injection H as <- _; auto|discriminate].
  - intros H; injection H as <- _; auto.
  - discriminate.
Qed.

Section One.
Variables (lSolver mode : nat) (shift : bool) (n p1 : nat) (b : built) (Y : nat -> vec) (j : nat) (Delta : R).
Hypothesis Hn : (1 <= n)%nat.
Hypothesis Hj : (1 <= j < p1)%nat.
Hypothesis Hb : has_data shift n p1 Y b.

Notation sc := (sc_of shift b).
Notation D := (used_radius lSolver n Delta).

Lemma sc_pos : 0 < sc.
Proof.
  unfold sc_of. destruct shift; [|lra]. destruct Hb as (_ & S & NZ). rewrite S. unfold scl, shifts in *. cbn [andb] in *.
  destruct (Nat.ltb_spec 1 p1); [|lia]. unfold scale_vec. cbn [Nat.eqb]. destruct (Nat.leb_spec 1 n); [|lia].
  apply Rinv_0_lt_compat. pose proof (scaleY_nonneg n p1 Y). specialize (NZ eq_refl). lra.
Qed.

(** the Lagrange polynomial around the first point *)
Lemma expand len L d : (1 <= len)%nat -> (len <= full n)%nat ->
  exists v0 v1, value shift n len L b (Y 0%nat) = Some v0 /\
    value shift n len L b (vadd (Y 0%nat) (vscal (/ sc) d)) = Some v1 /\
    v1 = v0 + qmodel n (g_of shift n len L Y) (hessP n len L) d.
Proof.
  intros H1 H2. pose proof sc_pos as P. unfold sc_of, g_of in *.
  destruct shift.
  - destruct (taylor n len L vzero H1 H2 d) as [m0 [mh [E0 [E1 E]]]].
    assert (B : b_base b = Y 0%nat).
    { destruct Hb as (B & _). rewrite B. unfold base, shifts. cbn [andb]. destruct (Nat.ltb_spec 1 p1); [reflexivity|lia]. }
    exists m0, mh. unfold value, evalP_shift, evalP in *. rewrite B.
    split; [|split].
    + rewrite <- E0. rewrite (evalZ_ext n len _ vzero); [reflexivity|]. intros i Hi. unfold vzero. ring.
    + rewrite <- E1. rewrite (evalZ_ext n len _ (vadd vzero d)); [reflexivity|]. intros i Hi.
      unfold vadd, vscal, vzero. field. lra.
    + rewrite E. unfold qmodel. ring.
  - destruct (taylor n len L (Y 0%nat) H1 H2 d) as [m0 [mh [E0 [E1 E]]]].
    exists m0, mh. unfold value. split; [exact E0|]. split; [|rewrite E; unfold qmodel; ring].
    rewrite <- E1. unfold evalP. rewrite (evalZ_ext n len _ (vadd (Y 0%nat) d)); [reflexivity|].
    intros i Hi. unfold vadd, vscal. field.
Qed.

Lemma find_form y imp : find_new slv pinv solver lSolver mode shift n p1 b Y j Delta = Some (y, imp) ->
  exists len L p m, computeLj slv pinv mode n p1 (b_Q b) (b_R b) j = Some (len, L) /\
    solver (g_of shift n len L Y) (hessP n len L) (D * sc) = Some p /\
    solver (fun i => - g_of shift n len L Y i) (fun a c => - hessP n len L a c) (D * sc) = Some m /\
    (y, imp) = pick (Y 0%nat) (/ sc) p m.
Proof.
  unfold find_new, sc_of, g_of. destruct (Nat.ltb_spec j 1) as [X|_]; [lia|].
  destruct (computeLj _ _ _ _ _ _ _ _) as [[len L]|]; [|discriminate]. cbv zeta.
  destruct shift.
  - destruct (solver (gradP n len L vzero) _ _) as [p|] eqn:E1; [|discriminate].
    destruct (solver (fun i => - gradP n len L vzero i) _ _) as [m|] eqn:E2; [|discriminate].
    intros H. injection H as H. exists len, L, p, m. auto.
  - rewrite Rmult_1_r, Rinv_1.
    destruct (solver (gradP n len L (Y 0%nat)) _ _) as [p|] eqn:E1; [|discriminate].
    destruct (solver (fun i => - gradP n len L (Y 0%nat) i) _ _) as [m|] eqn:E2; [|discriminate].
    intros H. injection H as H. exists len, L, p, m. auto.
Qed.

Lemma D_nonneg : 0 <= Delta -> 0 <= D.
Proof. intros H. unfold used_radius. destruct (_ =? _)%nat; [|exact H]. apply Rmult_le_pos; [apply sqrt_pos|exact H]. Qed.

Lemma new_radius eps y imp : 0 <= Delta -> within_radius n eps solver ->
  find_new slv pinv solver lSolver mode shift n p1 b Y j Delta = Some (y, imp) ->
  norm n (vsub y (Y 0%nat)) <= (1 + eps) * D.
Proof.
  intros HD W H. destruct (find_form y imp H) as (len & L & [ps pv] & [ms mv'] & _ & E1 & E2 & E).
  pose proof sc_pos as P. pose proof (D_nonneg HD) as DN.
  assert (DS : 0 <= D * sc) by (apply Rmult_le_pos; lra).
  pose proof (W _ _ _ _ _ (hess_symmetric n len L) DS E1) as N1.
  pose proof (W _ _ _ _ _ (hess_symmetric_opp n len L) DS E2) as N2.
  assert (G : forall s, norm n s <= (1 + eps) * (D * sc) -> norm n (vsub (vadd (Y 0%nat) (vscal (/ sc) s)) (Y 0%nat)) <= (1 + eps) * D).
  { intros s Hs. rewrite (norm_ext n _ (vscal (/ sc) s)) by (intros i Hi; unfold vsub, vadd; ring).
    rewrite norm_scal, Rabs_pos_eq by (left; apply Rinv_0_lt_compat; exact P).
    apply Rmult_le_reg_l with sc; [exact P|]. rewrite <- Rmult_assoc, Rinv_r by lra. lra. }
  unfold pick in E. cbn [fst snd] in E. destruct (Rltb mv' pv); injection E as -> ->; apply G; assumption.
Qed.

(** the improvement is the change of the polynomial *)
Lemma new_change tau y imp : 0 <= Delta -> (p1 <= full n)%nat -> honest n tau solver ->
  find_new slv pinv solver lSolver mode shift n p1 b Y j Delta = Some (y, imp) ->
  exists len L v0 v, computeLj slv pinv mode n p1 (b_Q b) (b_R b) j = Some (len, L) /\
    value shift n len L b (Y 0%nat) = Some v0 /\ value shift n len L b y = Some v /\
    Rabs (imp - Rabs (v - v0)) <= tau.
Proof.
  intros HD HP W H. destruct (find_form y imp H) as (len & L & [ps pv] & [ms mv'] & EL & E1 & E2 & E).
  pose proof sc_pos as P. pose proof (D_nonneg HD) as DN.
  assert (DS : 0 <= D * sc) by (apply Rmult_le_pos; lra).
  pose proof (W _ _ _ _ _ (hess_symmetric n len L) DS E1) as N1.
  pose proof (W _ _ _ _ _ (hess_symmetric_opp n len L) DS E2) as N2.
  rewrite qmodel_opp in N2.
  assert (LB : (1 <= len <= full n)%nat).
  { pose proof (full_pos n). destruct (computeLj_len _ _ _ _ _ _ _ _ EL); lia. }
  exists len, L. unfold pick in E. cbn [fst snd] in E.
  destruct (Rltb mv' pv); injection E as -> ->.
  - destruct (expand len L ms ltac:(lia) ltac:(lia)) as (v0 & v1 & X0 & X1 & X). exists v0, v1.
    split; [exact EL|]. split; [exact X0|]. split; [exact X1|]. rewrite X. revert N2. unfold Rabs. repeat destruct (Rcase_abs _); intros; lra.
  - destruct (expand len L ps ltac:(lia) ltac:(lia)) as (v0 & v1 & X0 & X1 & X). exists v0, v1.
    split; [exact EL|]. split; [exact X0|]. split; [exact X1|]. rewrite X. revert N1. unfold Rabs. repeat destruct (Rcase_abs _); intros; lra.
Qed.

(** no point of the ball changes it much more *)
Lemma new_best tau e y imp : 0 <= Delta -> (p1 <= full n)%nat -> honest n tau solver -> optimal n e solver ->
  find_new slv pinv solver lSolver mode shift n p1 b Y j Delta = Some (y, imp) ->
  exists len L v0, computeLj slv pinv mode n p1 (b_Q b) (b_R b) j = Some (len, L) /\
    value shift n len L b (Y 0%nat) = Some v0 /\
    forall x, norm n (vsub x (Y 0%nat)) <= D ->
      exists v, value shift n len L b x = Some v /\ Rabs (v - v0) <= imp + e + tau.
Proof.
  intros HD HP W O H. destruct (find_form y imp H) as (len & L & [ps pv] & [ms mv'] & EL & E1 & E2 & E).
  pose proof sc_pos as P. pose proof (D_nonneg HD) as DN.
  assert (DS : 0 <= D * sc) by (apply Rmult_le_pos; lra).
  pose proof (W _ _ _ _ _ (hess_symmetric n len L) DS E1) as N1.
  pose proof (W _ _ _ _ _ (hess_symmetric_opp n len L) DS E2) as N2.
  pose proof (O _ _ _ _ _ (hess_symmetric n len L) DS E1) as O1.
  pose proof (O _ _ _ _ _ (hess_symmetric_opp n len L) DS E2) as O2.
  assert (LB : (1 <= len <= full n)%nat).
  { pose proof (full_pos n). destruct (computeLj_len _ _ _ _ _ _ _ _ EL); lia. }
  assert (I : - pv <= imp /\ - mv' <= imp).
  { unfold pick in E. cbn [fst snd] in E. destruct (Rltb_spec mv' pv); injection E as _ ->; unfold Rabs; destruct (Rcase_abs _); lra. }
  destruct (expand len L vzero ltac:(lia) ltac:(lia)) as (v0 & _ & X0 & _ & _).
  exists len, L, v0. split; [exact EL|]. split; [exact X0|]. intros x Hx.
  set (d := vscal sc (vsub x (Y 0%nat))).
  assert (ND : norm n d <= D * sc).
  { unfold d. rewrite norm_scal, Rabs_pos_eq by lra. rewrite Rmult_comm. apply Rmult_le_compat_r; lra. }
  destruct (expand len L d ltac:(lia) ltac:(lia)) as (v0' & v1 & X0' & X1 & X).
  rewrite X0 in X0'. injection X0' as <-.
  exists v1. split.
  - rewrite <- X1. apply value_ext. intros i Hi. unfold vadd, vscal, d, vscal, vsub. field. lra.
  - specialize (O1 d ND). specialize (O2 d ND). rewrite !qmodel_opp in *.
    revert N1 N2. unfold Rabs. repeat destruct (Rcase_abs _); intros; lra.
Qed.

(** the larger of the two values found *)
Lemma new_larger y imp : find_new slv pinv solver lSolver mode shift n p1 b Y j Delta = Some (y, imp) ->
  (forall g H D s v, solver g H D = Some (s, v) -> v <= 0) ->
  exists len L p m, computeLj slv pinv mode n p1 (b_Q b) (b_R b) j = Some (len, L) /\
    solver (g_of shift n len L Y) (hessP n len L) (D * sc) = Some p /\
    solver (fun i => - g_of shift n len L Y i) (fun a c => - hessP n len L a c) (D * sc) = Some m /\
    imp = Rmax (Rabs (snd p)) (Rabs (snd m)).
Proof.
  intros H NP. destruct (find_form y imp H) as (len & L & [ps pv] & [ms mv'] & EL & E1 & E2 & E).
  exists len, L, (ps, pv), (ms, mv'). repeat (split; [assumption|]).
  pose proof (NP _ _ _ _ _ E1). pose proof (NP _ _ _ _ _ E2). cbn [snd].
  rewrite !Rabs_left1 by assumption. unfold pick in E. cbn [fst snd] in E.
  destruct (Rltb_spec mv' pv); injection E as _ ->; rewrite Rabs_left1 by assumption; unfold Rmax; destruct (Rle_dec _ _); lra.
Qed.
End One.

(** position 0 *)
Lemma new_origin lSolver mode shift n p1 b Y Delta :
  find_new slv pinv solver lSolver mode shift n p1 b Y 0 Delta = Some (vzero, 0).
Proof. reflexivity. Qed.

(** ** regular sets *)
Lemma regular_data qr ill cure mode shift n p1 Y b : regular_case slv pinv qr ill cure mode shift n p1 Y b ->
  (1 <= n)%nat /\ has_data shift n p1 Y b.
Proof. intros (S & _ & _ & B & E & _). split; [apply S|]. apply (build_facts _ _ _ _ _ _ _ _ _ B E). Qed.

Lemma regular_zero qr ill cure mode shift n p1 Y b j len L v0 : regular_case slv pinv qr ill cure mode shift n p1 Y b ->
  (p1 <= full n)%nat -> (1 <= j < p1)%nat -> computeLj slv pinv mode n p1 (b_Q b) (b_R b) j = Some (len, L) ->
  value shift n len L b (Y 0%nat) = Some v0 -> v0 = 0.
Proof.
  intros R HP Hj E V. destruct (t_lagrange_delta _ _ _ _ _ _ _ _ _ _ _ R j 0 HP ltac:(lia) ltac:(lia)) as (len' & L' & E' & V').
  rewrite E in E'. injection E' as <- <-. rewrite V in V'. destruct (Nat.eqb_spec 0 j); [lia|]. congruence.
Qed.

Lemma t_radius qr ill cure lSolver mode shift n p1 Y b j Delta eps y imp :
  regular_case slv pinv qr ill cure mode shift n p1 Y b -> (1 <= j < p1)%nat -> 0 <= Delta -> within_radius n eps solver ->
  find_new slv pinv solver lSolver mode shift n p1 b Y j Delta = Some (y, imp) ->
  norm n (vsub y (Y 0%nat)) <= (1 + eps) * (if (lSolver =? 2)%nat then sqrt (INR n) * Delta else Delta).
Proof. intros R Hj HD W. destruct (regular_data _ _ _ _ _ _ _ _ _ R). apply new_radius; assumption. Qed.

Lemma t_improvement qr ill cure lSolver mode shift n p1 Y b j Delta tau y imp :
  regular_case slv pinv qr ill cure mode shift n p1 Y b -> (p1 <= full n)%nat -> (1 <= j < p1)%nat -> 0 <= Delta -> honest n tau solver ->
  find_new slv pinv solver lSolver mode shift n p1 b Y j Delta = Some (y, imp) ->
  exists len L v, computeLj slv pinv mode n p1 (b_Q b) (b_R b) j = Some (len, L) /\
    value shift n len L b y = Some v /\ Rabs (imp - Rabs v) <= tau.
Proof.
  intros R HP Hj HD W H. destruct (regular_data _ _ _ _ _ _ _ _ _ R) as [Hn Hb].
  destruct (new_change lSolver mode shift n p1 b Y j Delta Hn Hj Hb tau y imp HD HP W H) as (len & L & v0 & v & EL & V0 & V & X).
  rewrite (regular_zero _ _ _ _ _ _ _ _ _ _ _ _ _ R HP Hj EL V0), Rminus_0_r in X. exists len, L, v. auto.
Qed.

Lemma t_best qr ill cure lSolver mode shift n p1 Y b j Delta tau e y imp :
  regular_case slv pinv qr ill cure mode shift n p1 Y b -> (p1 <= full n)%nat -> (1 <= j < p1)%nat -> 0 <= Delta ->
  honest n tau solver -> optimal n e solver ->
  find_new slv pinv solver lSolver mode shift n p1 b Y j Delta = Some (y, imp) ->
  exists len L, computeLj slv pinv mode n p1 (b_Q b) (b_R b) j = Some (len, L) /\
    forall x, norm n (vsub x (Y 0%nat)) <= (if (lSolver =? 2)%nat then sqrt (INR n) * Delta else Delta) ->
      exists v, value shift n len L b x = Some v /\ Rabs v <= imp + e + tau.
Proof.
  intros R HP Hj HD W O H. destruct (regular_data _ _ _ _ _ _ _ _ _ R) as [Hn Hb].
  destruct (new_best lSolver mode shift n p1 b Y j Delta Hn Hj Hb tau e y imp HD HP W O H) as (len & L & v0 & EL & V0 & X).
  rewrite (regular_zero _ _ _ _ _ _ _ _ _ _ _ _ _ R HP Hj EL V0) in X. exists len, L. split; [exact EL|].
  intros x Hx. destruct (X x Hx) as [v [V B]]. exists v. rewrite Rminus_0_r in B. auto.
Qed.

(** ** poisedness *)
Lemma loop_max f js : forall lam lam', poised_loop false f js lam = Some lam' ->
  lam <= lam' /\ (forall j, In j js -> exists y imp, f j = Some (y, imp) /\ imp <= lam') /\
  (lam' = lam \/ exists j y, In j js /\ f j = Some (y, lam')).
Proof.
  induction js as [|j js IH]; intros lam lam' H; cbn in H.
  - injection H as <-. split; [lra|]. split; [intros j []|auto].
  - destruct (f j) as [[y imp]|] eqn:E; [|discriminate]. destruct (IH _ _ H) as (A & B & C).
    pose proof (Rmax_l imp lam). pose proof (Rmax_r imp lam).
    split; [lra|]. split.
    + intros i [<-|Hi]; [exists y, imp; split; [exact E|lra]|apply B; exact Hi].
    + destruct C as [C|(i & y' & Hi & C)].
      * unfold Rmax in C. destruct (Rle_dec imp lam); [auto|]. right. exists j, y. split; [left; reflexivity|]. rewrite C. exact E.
      * right. exists i, y'. split; [right; exact Hi|exact C].
Qed.

Lemma t_poisedness lSolver mode shift n p1 b Y lam r :
  poisedness slv pinv solver false lSolver mode shift n p1 b Y = Some (lam, r) ->
  (forall j, (j < p1)%nat -> norm n (vsub (Y j) (Y 0%nat)) <= r) /\
  (r = 0 \/ exists j, (1 <= j < p1)%nat /\ r = norm n (vsub (Y j) (Y 0%nat))) /\
  (forall j, (1 <= j < p1)%nat -> exists y imp, find_new slv pinv solver lSolver mode shift n p1 b Y j r = Some (y, imp) /\ imp <= lam) /\
  (lam = 0 \/ exists j y, (1 <= j < p1)%nat /\ find_new slv pinv solver lSolver mode shift n p1 b Y j r = Some (y, lam)).
Proof.
  unfold poisedness. cbv zeta. destruct (poised_loop _ _ _ _) as [l|] eqn:E; [|discriminate].
  intros H. injection H as <- <-. apply loop_max in E. destruct E as (_ & B & C).
  assert (Q : forall j, (1 <= j < p1)%nat <-> In j (seq 1 (p1 - 1))) by (intros j; rewrite in_seq; lia).
  split; [|split; [|split]].
  - intros j Hj. unfold Y_radius. destruct j as [|j].
    + rewrite (norm_ext n _ vzero) by (intros i Hi; unfold vsub, vzero; ring).
      rewrite (proj2 (norm_zero n vzero)) by (intros i Hi; reflexivity). apply maxfold_ge.
    + apply (maxfold_in (fun j => norm n (vsub (Y j) (Y 0%nat)))). apply Q. lia.
  - unfold Y_radius. destruct (maxfold_is (fun j => norm n (vsub (Y j) (Y 0%nat))) (seq 1 (p1 - 1)) 0) as [X|(j & Hj & X)]; [auto|].
    right. exists j. rewrite Q. auto.
  - intros j Hj. apply B. apply Q. exact Hj.
  - destruct C as [C|(j & y & Hj & C)]; [auto|]. right. exists j, y. rewrite Q. auto.
Qed.

Lemma t_poisedness_bound qr ill cure lSolver mode shift n p1 Y b tau e lam r :
  regular_case slv pinv qr ill cure mode shift n p1 Y b -> (p1 <= full n)%nat ->
  honest n tau solver -> optimal n e solver ->
  poisedness slv pinv solver false lSolver mode shift n p1 b Y = Some (lam, r) ->
  forall j, (1 <= j < p1)%nat -> exists len L, computeLj slv pinv mode n p1 (b_Q b) (b_R b) j = Some (len, L) /\
    forall x, norm n (vsub x (Y 0%nat)) <= r -> exists v, value shift n len L b x = Some v /\ Rabs v <= lam + e + tau.
Proof.
  intros R HP W O H j Hj. pose proof (t_poisedness _ _ _ _ _ _ _ _ _ H) as (P1 & _ & P3 & _).
  destruct (P3 j Hj) as (y & imp & E & B).
  assert (HR : 0 <= r) by (eapply Rle_trans; [apply norm_nonneg|apply (P1 j); lia]).
  destruct (t_best _ _ _ _ _ _ _ _ _ _ _ _ _ _ _ _ R HP Hj HR W O E) as (len & L & EL & X). exists len, L. split; [exact EL|].
  intros x Hx. destruct (X x) as (v & V & Z).
  - destruct (lSolver =? 2)%nat; [|exact Hx]. eapply Rle_trans; [exact Hx|].
    destruct (regular_data _ _ _ _ _ _ _ _ _ R) as [Hn _].
    rewrite <- (Rmult_1_l r) at 1. apply Rmult_le_compat_r; [exact HR|]. rewrite <- sqrt_1. apply sqrt_le_1_alt.
    change 1 with (INR 1). apply le_INR. exact Hn.
  - exists v. split; [exact V|lra].
Qed.

Lemma t_hardcons lSolver mode shift n p1 b Y : (2 <= p1)%nat ->
  poisedness slv pinv solver true lSolver mode shift n p1 b Y = None.
Proof.
  intros H. unfold poisedness. cbv zeta. destruct (p1 - 1)%nat as [|k] eqn:E; [lia|]. reflexivity.
Qed.
End N.

(** ** the solver of the library *)
Section MSS.
Variables (chol : mat -> option mat) (slvv : mat -> vec -> option vec) (eig : mat -> mat * vec) (n : nat) (eps : R).
Hypothesis Hn : (1 <= n)%nat.
Hypothesis He : 0 <= eps.
Hypothesis HC : chol_exact n chol.
Hypothesis HS : slv_exact n slvv.
Hypothesis HE : forall A k, (k < n)%nat -> 0 < norm n (fun i => fst (eig A) i k).

Lemma ms_cases g H D o : symmetric n H -> 0 <= D ->
  solve_MS chol slvv (fst (eig H)) (snd (eig H)) n g H D eps = Some o ->
  norm n (ms_s o) <= (1 + eps) * D /\ Rabs (ms_value o - qmodel n g H (ms_s o)) <= / 10 ^ 15.
Proof.
  intros SH DD E.
  assert (T : 0 <= / 10 ^ 15) by (left; apply Rinv_0_lt_compat, pow_lt; lra).
  assert (Z : norm n vzero <= (1 + eps) * D).
  { rewrite (proj2 (norm_zero n vzero)) by (intros i Hi; reflexivity). apply Rmult_le_pos; lra. }
  assert (Q0 : qmodel n g H vzero = 0).
  { unfold qmodel, quad. unfold dot. rewrite !rsum_zero; [lra| |]; intros; unfold vzero; lra. }
  assert (X0 : D = 0 \/ norm n g ^ 2 < / 10 ^ 12 ->
    norm n (ms_s o) <= (1 + eps) * D /\ Rabs (ms_value o - qmodel n g H (ms_s o)) <= / 10 ^ 15).
  { intros C. destruct (t_zero _ _ _ _ _ _ _ _ _ o C E) as (S & _ & V & _). rewrite S, V, Q0, Rminus_0_r, Rabs_R0. split; [exact Z|exact T]. }
  destruct (Req_EM_T D 0) as [->|ND]; [apply X0; auto|].
  destruct (Rlt_or_le (norm n g ^ 2) (/ 10 ^ 12)) as [L|L]; [apply X0; auto|].
  assert (DP : 0 < D) by lra. assert (NP : (0 < n)%nat) by lia.
  destruct (ms_hard o) eqn:H1.
  - destruct (t_hard_norm _ _ _ _ _ _ _ _ _ o DP (HE H) NP E H1) as (_ & [(_ & N & V)|(V & N)]).
    + rewrite N, V, Rminus_diag_eq, Rabs_R0 by reflexivity. split; [nra|exact T].
    + rewrite N, Q0, Rminus_0_r. split; [exact Z|exact V].
  - destruct (t_regular _ _ _ _ _ _ _ _ _ o HC HS SH DP L E H1) as (_ & _ & _ & N & B & _ & V & _).
    rewrite <- N, V, Rminus_diag_eq, Rabs_R0 by reflexivity. split; [exact B|exact T].
Qed.

Lemma ms_within : within_radius n eps (ms_solver chol slvv eig n eps).
Proof.
  intros g H D s v SH DD E. unfold ms_solver in E. destruct (solve_MS _ _ _ _ _ _ _ _ _) as [o|] eqn:F; [|discriminate].
  injection E as <- <-. apply (ms_cases g H D o SH DD F).
Qed.
Lemma ms_honest : honest n (/ 10 ^ 15) (ms_solver chol slvv eig n eps).
Proof.
  intros g H D s v SH DD E. unfold ms_solver in E. destruct (solve_MS _ _ _ _ _ _ _ _ _) as [o|] eqn:F; [|discriminate].
  injection E as <- <-. apply (ms_cases g H D o SH DD F).
Qed.

(** with this solver every position gets an answer *)
Lemma ms_total slv pinv qr ill cure lSolver mode shift p1 Y b j Delta :
  regular_case slv pinv qr ill cure mode shift n p1 Y b -> (p1 <= full n)%nat -> (j < p1)%nat ->
  find_new slv pinv (ms_solver chol slvv eig n eps) lSolver mode shift n p1 b Y j Delta <> None.
Proof.
  intros R HP Hj. unfold find_new. destruct (j <? 1)%nat; [discriminate|].
  destruct (t_lagrange_delta _ _ _ _ _ _ _ _ _ _ _ R j j HP Hj Hj) as (len & L & -> & _). cbv zeta.
  assert (T : forall g H D, symmetric n H -> ms_solver chol slvv eig n eps g H D <> None).
  { intros g H D SH. unfold ms_solver. pose proof (t_total chol slvv (fst (eig H)) (snd (eig H)) n g H D eps HC HS SH) as X.
    destruct (solve_MS _ _ _ _ _ _ _ _ _); [discriminate|contradiction]. }
  pose proof (hess_symmetric n len L) as S1. pose proof (hess_symmetric_opp n len L) as S2.
  destruct shift.
  - pose proof (T (gradP n len L vzero) _ (used_radius lSolver n Delta * b_scale b 1%nat) S1) as T1.
    pose proof (T (fun i => - gradP n len L vzero i) _ (used_radius lSolver n Delta * b_scale b 1%nat) S2) as T2.
    destruct (ms_solver _ _ _ _ _ (gradP n len L vzero) _ _); [|contradiction].
    destruct (ms_solver _ _ _ _ _ (fun i => - gradP n len L vzero i) _ _); [discriminate|contradiction].
  - pose proof (T (gradP n len L (Y 0%nat)) _ (used_radius lSolver n Delta) S1) as T1.
    pose proof (T (fun i => - gradP n len L (Y 0%nat) i) _ (used_radius lSolver n Delta) S2) as T2.
    destruct (ms_solver _ _ _ _ _ (gradP n len L (Y 0%nat)) _ _); [|contradiction].
    destruct (ms_solver _ _ _ _ _ (fun i => - gradP n len L (Y 0%nat) i) _ _); [discriminate|contradiction].
Qed.

(** a bound that the first point obeys is exceeded by the radius at most *)
Lemma ms_excess slv pinv qr ill cure lSolver mode shift p1 Y b j Delta y imp :
  regular_case slv pinv qr ill cure mode shift n p1 Y b -> (1 <= j < p1)%nat -> 0 <= Delta ->
  find_new slv pinv (ms_solver chol slvv eig n eps) lSolver mode shift n p1 b Y j Delta = Some (y, imp) ->
  forall i l u, (i < n)%nat -> l <= Y 0%nat i <= u ->
    l - (1 + eps) * (if (lSolver =? 2)%nat then sqrt (INR n) * Delta else Delta) <= y i <=
    u + (1 + eps) * (if (lSolver =? 2)%nat then sqrt (INR n) * Delta else Delta).
Proof.
  intros R Hj HD F i l u Hi B. pose proof (t_radius _ _ _ _ _ _ _ _ _ _ _ _ _ _ _ _ _ _ R Hj HD ms_within F) as X.
  pose proof (norm_entry n (vsub y (Y 0%nat)) i Hi) as Z. unfold vsub at 1 in Z. revert Z. unfold Rabs. destruct (Rcase_abs _); lra.
Qed.
End MSS.
