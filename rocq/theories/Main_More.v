(** More about single passes: sufficient decrease, radius rules, stalling, and the
    constraint values of the incumbent. *)
From Coq Require Import List Arith ZArith QArith Qabs Bool Lia Lqa Psatz.
Import ListNotations.
From Verif Require Import QB Book_Model Book_Spec Book_Proofs Main_Model Main_Spec Main_Proofs Main_Proofs2 Main_Proofs3.
Local Open Scope Q_scope.

(** new radius: the largest of twice the step length and the old radius, at most 100000 *)
Lemma clamped_ok n d : clamped_radius n d (qmin (qmax (2 * n) d) Deltamax).
Proof.
  unfold clamped_radius, qmin, qmax, Deltamax. destruct (qleb (2 * n) d) eqn:A; qb.
  - destruct (qleb d 100000) eqn:B; qb; lra.
  - destruct (qleb (2 * n) 100000) eqn:B; qb; lra.
Qed.

Lemma in_soa_self {T} (l : list T) pos m : In m (set_or_append l pos m).
Proof.
  unfold set_or_append. destruct (pos <? length l)%nat eqn:H.
  - apply Nat.ltb_lt in H. apply (nth_error_In _ pos). apply nth_error_upd_eq. exact H.
  - apply in_or_app. right. left. reflexivity.
Qed.

Section More.
Context {P : Type}.
Variable E : env P.
Hypothesis SN : sane E.

Lemma store_in (S : iset P) Y pos m f c S1 : store E S Y pos m f c = Some S1 ->
  In m (s_ind S1) /\ (e_me E <> 0%nat -> length c = e_me E).
Proof.
  unfold store. destruct (e_me E) as [|me]; [intros H; injection H as <-; split; [apply in_soa_self|congruence]|].
  destruct (_ =? _)%nat eqn:L; [|discriminate]. apply Nat.eqb_eq in L.
  intros H; injection H as <-. split; [apply in_soa_self|auto].
Qed.

(** how a pass ends that goes on *)
Inductive ended (a : answers P) (A : arch P) (I : incu P) (N : inf) (G : glo) (succ : bool) (rho fxp : Q) (s' : st P) : Prop :=
| en_reduced : sI s' = I -> rej (sG s') = true -> ince (sN s') = ince N ->
    delta (sG s') = red_delta (delta G) (a_norms a) (pred G) (a_gTs a) (fxp - ifx I) ->
    tiny <= delta (sG s') -> ended a A I N G succ rho fxp s'
| en_included : succ = false -> In (mlast A) (s_ind (iS (sI s'))) -> ib (sI s') = ib I -> ince (sN s') = ince N ->
    rej (sG s') = true -> delta (sG s') = (if qltb epsilon (delta G) then gamma2 * delta G else delta G) ->
    ended a A I N G succ rho fxp s'
| en_moved : succ = true -> ib (sI s') = mlast A -> rej (sG s') = true ->
    (e_me E = 0%nat \/ s_ce (iS (sI s')) = [] \/ nth_error (s_ce (iS (sI s'))) 0 = Some (ince (sN s'))) ->
    delta (sG s') = qmin (qmax (gamma3 * a_norms a) (delta G)) Deltamax ->
    ended a A I N G succ rho fxp s'
| en_accepted : succ = true -> ib (sI s') = mlast A -> rej (sG s') = false ->
    (e_me E <> 0%nat -> ince (sN s') = ceplus G /\ length (ceplus G) = e_me E) ->
    delta (sG s') = succ_delta (delta G) rho (a_norms a) (a_active a) ->
    ended a A I N G succ rho fxp s'.

Lemma reduce_ended a A I N G succ rho fxp s' : reduce E a A I N G fxp = Continue s' -> rej G = true ->
  ended a A I N G succ rho fxp s'.
Proof.
  unfold reduce, finish_rej. destruct (_ || _)%bool eqn:ST; [discriminate|]. destruct (a_exc4 a); [discriminate|].
  intros H R; injection H as <-. apply orb_false_iff in ST. destruct ST as (_ & ST). qb.
  apply en_reduced; auto.
Qed.

Lemma replaced_ended a A I N G succ rho Y' pos x' fxp I' N' G' s' : rej G = true ->
  replaced_by_trial E a A I N G succ Y' pos x' fxp = Some (I', N', G') ->
  finish_rej a A I' N' G' = Continue s' -> ended a A I N G succ rho fxp s'.
Proof.
  intros R. unfold replaced_by_trial. destruct (store _ _ _ _ _ _ _) as [S1|] eqn:ST; [|discriminate].
  apply store_in in ST. destruct ST as (ST & _). destruct succ.
  - destruct (swap_in_Y _ _ _ _ _) as [(S2, x2)|] eqn:SS; [|discriminate]. intros H; injection H as <- <- <-.
    unfold finish_rej. destruct (a_exc4 a); [discriminate|]. intros H; injection H as <-.
    apply en_moved; auto. cbn [sI iS sN ince]. destruct (e_me E); auto. destruct (s_ce S2); auto.
  - intros H; injection H as <- <- <-. unfold finish_rej. destruct (a_exc4 a); [discriminate|]. intros H; injection H as <-.
    apply en_included; auto.
Qed.

Lemma reject_ended a A I N G succ rho fxp s' : reject E a A I N G succ fxp = Continue s' ->
  ended a A I N G succ rho fxp s'.
Proof.
  unfold reject. cbv zeta.
  set (G1 := mkG (delta G) (sigma G) (epsc G) (pred G) true (f0 G) (ce0n G) (merit0 G)
               (merit G) (pm G) (sl G) (ceplus G)).
  intros H. assert (K : ended a A I N G1 succ rho fxp s').
  { destruct (can_augment E (length (s_Y (iS I))) && negb succ)%bool eqn:CA.
    - apply andb_prop in CA. destruct CA as (_ & CA). apply negb_true_iff in CA.
      destruct (augment_Y _ _ _ _) as (p', Y'). destruct (store _ _ _ _ _ _ _) as [S1|] eqn:ST; [|discriminate].
      apply store_in in ST. unfold finish_rej in H. destruct (a_exc4 a); [discriminate|]. injection H as <-.
      apply en_included; try reflexivity; auto. apply ST.
    - destruct (negb (pm G1) || qleb (delta G1) (epsc G1))%bool; [|eapply reduce_ended; eauto].
      destruct (include_in_Y _ _ _ _ _ _ _ _ _ (a_L2 a)) as ((Y1, [pos|]), x1).
      + destruct (replaced_by_trial _ _ _ _ _ _ _ _ _ _ _) as [((I', N'), G')|] eqn:RB; [|discriminate].
        eapply replaced_ended; eauto.
      + destruct (include_in_Y _ _ _ _ _ _ _ _ _ (a_L3 a)) as ((Y2, [pos|]), x2).
        * destruct (replaced_by_trial _ _ _ _ _ _ _ _ _ _ _) as [((I', N'), G')|] eqn:RB; [|discriminate].
          eapply replaced_ended; eauto.
        * eapply reduce_ended; eauto. }
  destruct K; [apply en_reduced|apply en_included|apply en_moved|apply en_accepted]; auto.
Qed.

Lemma accept_ended a A I N G rho fxp s' : accept E a A I N G rho fxp = Continue s' ->
  ended a A I N G true rho fxp s'.
Proof.
  unfold accept.
  destruct (if can_augment E (length (s_Y (iS I))) then _ else _) as ((Y', [pos|]), x');
    [|apply reject_ended].
  destruct (store _ _ _ _ _ _ _) as [S1|] eqn:ST; [|discriminate]. apply store_in in ST.
  destruct (swap_in_Y _ _ _ _ _) as [(S2, x2)|]; [|discriminate].
  destruct (a_exc4 a); [discriminate|]. intros H; injection H as <-.
  apply en_accepted; auto. cbn [sN ince]. intros M. split; [destruct (e_me E); congruence|apply ST; auto].
Qed.

Lemma reduce_ret a A I N G fxp fl s' f : reduce E a A I N G fxp = Return fl s' f ->
  sA s' = A /\ sI s' = I /\ ince (sN s') = ince N.
Proof.
  unfold reduce, finish_rej. destruct (_ || _)%bool; [|destruct (a_exc4 a); discriminate].
  intros H; injection H as _ <- _. auto.
Qed.

Lemma reject_ret a A I N G succ fxp fl s' f : reject E a A I N G succ fxp = Return fl s' f ->
  sA s' = A /\ sI s' = I /\ ince (sN s') = ince N.
Proof.
  unfold reject. cbv zeta.
  assert (FR : forall I N G, finish_rej a A I N G <> Return fl s' f).
  { intros ? ? ?. unfold finish_rej. destruct (a_exc4 a); discriminate. }
  destruct (_ && _)%bool.
  - destruct (augment_Y _ _ _ _) as (p', Y'). destruct (store _ _ _ _ _ _ _) as [S1|]; [|discriminate].
    intros H. apply FR in H. contradiction.
  - destruct (_ || _)%bool; [|apply reduce_ret].
    destruct (include_in_Y _ _ _ _ _ _ _ _ _ (a_L2 a)) as ((Y1, [pos|]), x1).
    + destruct (replaced_by_trial _ _ _ _ _ _ _ _ _ _ _) as [((I', N'), G')|]; [|discriminate].
      intros H. apply FR in H. contradiction.
    + destruct (include_in_Y _ _ _ _ _ _ _ _ _ (a_L3 a)) as ((Y2, [pos|]), x2); [|apply reduce_ret].
      destruct (replaced_by_trial _ _ _ _ _ _ _ _ _ _ _) as [((I', N'), G')|]; [|discriminate].
      intros H. apply FR in H. contradiction.
Qed.

Lemma accept_ret a A I N G rho fxp fl s' f : accept E a A I N G rho fxp = Return fl s' f ->
  sA s' = A /\ sI s' = I /\ ince (sN s') = ince N.
Proof.
  unfold accept.
  destruct (if can_augment E (length (s_Y (iS I))) then _ else _) as ((Y', [pos|]), x'); [|apply reject_ret].
  destruct (store _ _ _ _ _ _ _) as [S1|]; [|discriminate].
  destruct (swap_in_Y _ _ _ _ _) as [(S2, x2)|]; [|discriminate].
  destruct (a_exc4 a); discriminate.
Qed.

Lemma qdiv_iff u p t : 0 < p -> t <= u / p <-> t * p <= u.
Proof.
  intros H. assert (K : u / p * p == u) by (field; lra). split; intros L.
  - apply (Qmult_le_compat_r _ _ p) in L; lra.
  - apply Qmult_lt_0_le_reg_r with p; auto. lra.
Qed.

Lemma reduction_ok d norms pr gTs df : exists g m,
  ((m == d /\ d <= norms) \/ (m == norms /\ norms <= d)) /\
  reduction g (- (1 # 10) * gTs) (df - gTs + (9 # 10) * (pr + gTs)) /\
  red_delta d norms pr gTs df == g * m.
Proof.
  unfold red_delta. set (num := (eta2 - 1) * gTs). set (den := df - gTs - eta2 * (- pr - gTs)).
  assert (HN : - (1 # 10) * gTs == num) by (unfold num, eta2; ring).
  assert (HD : df - gTs + (9 # 10) * (pr + gTs) == den) by (unfold den, eta2; ring).
  eexists _, (qmin d norms). split; [|split; [|reflexivity]].
  - unfold qmin. destruct (qleb d norms) eqn:K; qb; lra.
  - unfold reduction. setoid_rewrite HN. setoid_rewrite HD. clearbody num den. clear HN HD.
    destruct (qeqb den 0) eqn:Z; qb.
    + unfold gamma1, gamma2. destruct (qltb num 0) eqn:B; qb; repeat split; try lra; intros; lra.
    + assert (K : num / den * den == num) by (field; auto). unfold qmax, qmin, gamma1, gamma2.
      set (q := num / den) in *. clearbody q.
      destruct (qleb q (1 # 2)) eqn:B1; qb.
      * destruct (qleb (1 # 100) q) eqn:B2; qb; (split; [lra|]); (split; [|split]); intros DD; try (elim Z; exact DD).
        -- right. right. exact K.
        -- right. right. exact K.
        -- right. left. split; [reflexivity|]. nra.
        -- right. left. split; [reflexivity|]. nra.
      * change (qleb (1 # 100) (1 # 2)) with true. cbv iota. split; [lra|].
        split; [|split]; intros DD; try (elim Z; exact DD); left; (split; [reflexivity|nra]).
Qed.

Lemma halved_ok r d' : d' = (if qltb epsilon r then gamma2 * r else r) ->
  (1 # 100000 < r /\ d' == (1 # 2) * r) \/ (r <= 1 # 100000 /\ d' = r).
Proof.
  intros ->. unfold epsilon, gamma2. destruct (qltb _ r) eqn:K; qb; [left|right]; split; auto. reflexivity.
Qed.

Lemma step_decided s a s' : Inv E s -> step E s a = Continue s' ->
  decided a (delta (sG s)) s' /\ epsc (sG s') = epsc (sG s) /\ niter (sN s') = (niter (sN s) + 1)%nat.
Proof.
  intros IV ST. pose proof IV as (SO & D & S1 & Z & _).
  pose proof (step_ok E s a IV (proj2 SN)) as PO. rewrite ST in PO.
  split; [|split; [apply (sp_epsc _ _ _ _ PO)|rewrite (sp_niter _ _ _ _ PO); lia]].
  assert (SP : 0 < sigma (sG s)) by lra.
  assert (OLD : forall i, In i (s_ind (iS (sI s))) -> i <> mlast (sA s')).
  { rewrite (sp_mlast _ _ _ _ PO). destruct SO as (_ & (_ & _ & _ & _ & _ & _ & _ & S8 & _) & _).
    intros i H. apply S8 in H. lia. }
  assert (OI : ib (sI s) <> mlast (sA s')).
  { apply OLD. destruct SO as (_ & _ & (_ & I2 & _)). eapply nth_error_In; eauto. }
  assert (HI : In (ib (sI s')) (s_ind (iS (sI s')))).
  { destruct (sp_inv _ _ _ _ PO) as ((_ & _ & (_ & I2 & _)) & _). eapply nth_error_In; eauto. }
  pose proof (step_cases E s a SP) as SC. rewrite ST in SC.
  pose proof (G2_same E s a) as (G21 & _).
  inversion SC as [ | | | | A f c cX cp EA CE PE H0 | A f c cX cp pr rho EA CE PR PP RH ER LT H0
                  | A f c cX cp pr EA CE PR PP RH H0 ].
  - left. cbn [sG sA sI st_G3 pred delta mlast with_ce]. split; [reflexivity|]. split; [|rewrite <- G21; reflexivity].
    intros H. apply OLD in H. apply H. subst s'. reflexivity.
  - assert (SH := accept_shape E a (with_ce A cX) (sI s) (st_N3 s f) (st_G3 E s a pr f cp) rho (qmin c1e25 f)).
    rewrite H0 in SH. cbn [st_G3 delta] in SH. rewrite G21 in SH.
    destruct (SH D) as (_ & (_ & CP & _ & _ & CM0 & CM & _) & EAA & _). cbn [st_G3 pred merit0 merit] in CP, CM0, CM. clear SH.
    assert (DEC : forall t, decreases t s' <-> t <= rho).
    { intros t. unfold decreases. rewrite CP, CM0, CM, RH. symmetry. apply qdiv_iff. auto. }
    apply accept_ended in H0.
    destruct H0 as [H1 H2 H3 H4 H5|H1 H2 H3 H4 H5 H6|H1 H2 H3 H4 H5|H1 H2 H3 H4 H5];
      cbn [st_G3 delta pred] in *; rewrite ?G21 in *.
    + right. right. right. rewrite CP. split; [auto|]. rewrite H1. split.
      * intros K. apply OLD in K. congruence.
      * destruct (trial_ready E s a A f c cX cp (st_G3 E s a pr f cp) SO Z EA CE eq_refl)
          as (_ & (_ & _ & _ & _ & TF & _) & _).
        destruct (reduction_ok (delta (sG s)) (a_norms a) pr (a_gTs a) (qmin c1e25 f - ifx (sI s))) as (g & m & R1 & R2 & R3).
        exists g, m, (qmin c1e25 f). rewrite EAA, CP, H4, H1. unfold tiny in H5. rewrite H4 in H5. auto 10.
    + discriminate.
    + right. left. rewrite CP. split; [auto|]. split; [apply DEC; auto|]. rewrite EAA. split; [auto|].
      split; [rewrite <- H2; auto|]. right. split; auto. rewrite H5. apply clamped_ok.
    + right. left. rewrite CP. split; [auto|]. split; [apply DEC; auto|]. rewrite EAA. split; [auto|].
      split; [rewrite <- H2; auto|]. left. split; auto. unfold grown. rewrite H5, DEC. unfold succ_delta, eta2, tau2, tau3, gamma3.
      destruct (qleb (9 # 10) rho) eqn:B; qb.
      * destruct (a_active a); cbn [andb].
        -- destruct (qltb (delta (sG s)) 5) eqn:B5; qb.
           ++ left. repeat split; auto. ring.
           ++ right. right. split; [auto|apply clamped_ok].
        -- right. right. split; [auto|apply clamped_ok].
      * right. destruct (a_active a).
        -- left. split; [lra|]. split; [auto|ring].
        -- right. split; [auto|apply clamped_ok].
  - assert (SH := reject_shape E a (with_ce A cX) (sI s) (st_N3 s f) (st_G3 E s a pr f cp) false (qmin c1e25 f)).
    rewrite H0 in SH. cbn [st_G3 delta] in SH. rewrite G21 in SH.
    destruct (SH D) as (_ & (_ & CP & _ & _ & CM0 & CM & _) & EAA & _). cbn [st_G3 pred merit0 merit] in CP, CM0, CM. clear SH.
    assert (DEC : ~ decreases (1 # 10000) s').
    { unfold decreases. rewrite CP, CM0, CM. intros K. apply (proj2 (qdiv_iff _ _ _ PP)) in K. apply (Qle_not_lt _ _ K). exact RH. }
    apply (reject_ended _ _ _ _ _ _ 0) in H0.
    destruct H0 as [H1 H2 H3 H4 H5|H1 H2 H3 H4 H5 H6|H1 H2 H3 H4 H5|H1 H2 H3 H4 H5];
      cbn [st_G3 delta pred] in *; rewrite ?G21 in *.
    + right. right. right. rewrite CP. split; [auto|]. rewrite H1. split.
      * intros K. apply OLD in K. congruence.
      * destruct (trial_ready E s a A f c cX cp (st_G3 E s a pr f cp) SO Z EA CE eq_refl)
          as (_ & (_ & _ & _ & _ & TF & _) & _).
        destruct (reduction_ok (delta (sG s)) (a_norms a) pr (a_gTs a) (qmin c1e25 f - ifx (sI s))) as (g & m & R1 & R2 & R3).
        exists g, m, (qmin c1e25 f). rewrite EAA, CP, H4, H1. unfold tiny in H5. rewrite H4 in H5. auto 10.
    + right. right. left. rewrite CP. split; [auto|]. split; [auto|]. split; [congruence|]. rewrite EAA. split; [auto|].
      apply halved_ok; auto.
    + discriminate.
    + discriminate.
Qed.
Lemma linf_le l t : 0 <= t -> (linf l <= t <-> forall v, In v l -> Qabs v <= t).
Proof.
  intros T. induction l as [|v l IH].
  - cbn. split; [intros _ v []|auto].
  - change (linf (v :: l)) with (qmax (qabs v) (linf l)).
    assert (QA : qabs v == Qabs v).
    { unfold qabs. destruct (qleb 0 v) eqn:B; qb; [rewrite Qabs_pos|rewrite Qabs_neg]; lra. }
    split.
    + intros H w [<-|K].
      * pose proof (qmax_ge_l (qabs v) (linf l)). lra.
      * pose proof (qmax_ge_r (qabs v) (linf l)). apply IH; [lra|auto].
    + intros H. destruct (qmax_cases (qabs v) (linf l)) as [-> | ->].
      * rewrite QA. apply H. left. auto.
      * apply IH. intros w K. apply H. right. auto.
Qed.

Lemma subsq_length c : forall s, length (subsq c s) = length c.
Proof. induction c as [|v c IH]; intros [|w s]; cbn; auto. Qed.

Lemma resid_length s c : length (resid s c) = length c.
Proof. unfold resid. rewrite app_length, subsq_length, firstn_length, skipn_length. lia. Qed.

Lemma feasible_iff s : 0 <= e_tolf E -> (linf (resid (sl (sG s)) (ince (sN s))) <= e_tolf E <-> feasible E s).
Proof.
  intros T. rewrite linf_le by auto. unfold feasible. split.
  - intros H i L. destruct (nth_error_ex (resid (sl (sG s)) (ince (sN s))) i) as (v & V); [rewrite resid_length; auto|].
    pose proof (resid_residual (sl (sG s)) (ince (sN s)) i L) as (w & W & EQ). rewrite W in V. injection V as ->.
    rewrite <- EQ. apply H. eapply nth_error_In; eauto.
  - intros H v K. apply In_nth_error in K. destruct K as (i & K).
    assert (L : (i < length (ince (sN s)))%nat) by (apply nth_error_len in K; rewrite resid_length in K; auto).
    pose proof (resid_residual (sl (sG s)) (ince (sN s)) i L) as (w & W & EQ). rewrite W in K. injection K as ->.
    rewrite EQ. auto.
Qed.

(** the state before the step of a pass *)
Lemma pass_pre s a s' : Inv E s -> pass E s a = Continue s' -> exists s2, Inv E s2 /\ step E s2 a = Continue s' /\
  ((sA s2 = sA s /\ sI s2 = sI s /\ sG s2 = sG s /\ niter (sN s2) = niter (sN s) /\ ince (sN s2) = ince (sN s) /\
     inff (sN s2) = inff (sN s)) \/
   exists s1, Inv E s1 /\ improve E s1 a = Continue s2 /\ sA s1 = sA s /\ sI s1 = sI s /\ sG s1 = sG s /\
     ince (sN s1) = ince (sN s) /\
     niter (sN s1) = S (niter (sN s)) /\ glagn (sN s1) = a_glagn1 a /\
     feasn (sN s1) = linf (resid (sl (sG s)) (ince (sN s)))).
Proof.
  intros IV. unfold pass. destruct (_ <=? _)%nat; [discriminate|]. destruct (_ <=? _)%nat; [discriminate|].
  destruct (a_exc1 a); [discriminate|].
  destruct (_ || _)%bool.
  - destruct (_ && _)%bool; [discriminate|].
    match goal with |- context [improve E ?s1 a] => set (s1' := s1) end.
    assert (IV1 : Inv E s1') by exact IV.
    destruct (improve E s1' a) as [s2|fl s2 f|] eqn:IM; [|discriminate|discriminate].
    intros H. exists s2. pose proof (improve_ok E s1' a IV1 SN) as K1. rewrite IM in K1.
    split; [apply K1|]. split; auto. right. exists s1'. cbn. auto 12.
  - intros H. eexists. split; [|split; [exact H|left; cbn; auto 10]]. exact IV.
Qed.

Lemma smaller_ok u v : smaller u v (qmin u v).
Proof. unfold smaller, qmin. destruct (qleb u v) eqn:B; qb; lra. Qed.
Lemma larger_ok u v : larger u v (qmax u v).
Proof. unfold larger, qmax. destruct (qleb u v) eqn:B; qb; lra. Qed.

Lemma pass_decided s a s' : 0 <= e_tolf E -> Inv E s -> pass E s a = Continue s' ->
  exists r, working_radius E s a s' r /\ decided a r s'.
Proof.
  intros TF IV PS. destruct (pass_pre s a s' IV PS) as (s2 & IV2 & ST & H).
  destruct (step_decided s2 a s' IV2 ST) as (DC & EC & NI).
  exists (delta (sG s2)). split; [|exact DC].
  destruct H as [(_ & _ & H1 & H2 & _)|(s1 & _ & IM & _ & _ & H1 & _ & H2 & H3 & H4)].
  - left. rewrite EC, H1, NI, H2. auto.
  - right. pose proof (improve_scal E s1 a) as L. rewrite IM in L.
    destruct L as (L1 & L2 & _ & L4 & _). rewrite EC, NI, L1, H2. split; [lia|].
    rewrite L2, L4, H1. unfold new_radius. rewrite H3. unfold factor_CV, epsilon. split.
    + unfold threshold, new_epsc. rewrite H4. unfold mu, epsilon. destruct (qeqb (pred (sG s)) (-1)) eqn:PQ; qb.
      * destruct (qltb (e_tolf E) (linf (resid (sl (sG s)) (ince (sN s))))) eqn:FB; qb.
        -- left. split; [auto|]. split; [|reflexivity]. intros K. apply feasible_iff in K; auto. lra.
        -- right. left. split; [auto|]. split; [apply feasible_iff; auto|apply smaller_ok].
      * right. right. split; [auto|reflexivity].
    + destruct (qeqb (pred (sG s)) (-1)) eqn:PQ; qb; [left; split; [auto|apply smaller_ok]|right].
      destruct (qleb (a_glagn1 a) (100 * (1 # 100000))) eqn:GB; qb; [left|right]; (split; [auto|]).
      * split; [lra|apply smaller_ok].
      * split; [lra|apply larger_ok].
Qed.

Lemma radius_rules : 0 <= e_tolf E -> forall k0 d0 s0 s a s', begins E k0 d0 s0 -> reach E s0 s -> pass E s a = Continue s' ->
  exists r, working_radius E s a s' r /\ decided a r s'.
Proof. intros TF k0 d0 s0 s a s' B R. apply pass_decided; auto. eapply reach_inv; eauto. Qed.

Lemma decision k0 d0 s0 s a s' : begins E k0 d0 s0 -> reach E s0 s -> pass E s a = Continue s' ->
  let new := mlast (sA s') in let ind := s_ind (iS (sI s')) in
  (ib (sI s') = new -> 0 < pred (sG s') /\ decreases (1 # 10000) s' /\ In new ind) /\
  (0 < pred (sG s') -> decreases (1 # 10000) s' -> ib (sI s') = new \/ ~ In new ind) /\
  (0 < pred (sG s') \/ (pred (sG s') == -1 /\ ~ In new ind)).
Proof.
  intros B R PS. destruct (pass_pre s a s' (reach_inv E SN _ _ _ _ B R) PS) as (s2 & IV2 & ST & _).
  destruct (step_decided s2 a s' IV2 ST) as (DC & _).
  pose proof (step_ok E s2 a IV2 (proj2 SN)) as PO. rewrite ST in PO.
  assert (HI : In (ib (sI s')) (s_ind (iS (sI s')))).
  { destruct (sp_inv _ _ _ _ PO) as ((_ & _ & (_ & I2 & _)) & _). eapply nth_error_In; eauto. }
  cbv zeta. destruct DC as [(H1 & H2 & _)|[(H1 & H2 & H3 & H4 & _)|[(H1 & H2 & H3 & H4 & _)|(H1 & H2 & _)]]].
  - split; [intros K; rewrite K in HI; contradiction|]. split; [intros K; lra|auto].
  - auto 10.
  - split; [contradiction|]. split; [contradiction|auto].
  - split; [intros K; rewrite K in HI; contradiction|]. auto.
Qed.

(** C05: why a run stalls *)
Lemma step_stalled s a s' f : Inv E s -> step E s a = Return 15 s' f -> negligible E s' (delta (sG s')).
Proof.
  intros IV ST. pose proof (step_ok E s a IV (proj2 SN)) as PO. rewrite ST in PO.
  destruct PO as [_ _ H1 H2]. unfold negligible. rewrite H1. 
  destruct H2 as [(H2 & _)|[(H2 & _)|[(H2 & _)|(_ & _ & _ & H2)]]]; try discriminate.
  unfold stallfact, tiny in H2. tauto.
Qed.

Lemma stalled k0 d0 s0 s a s' f : begins E k0 d0 s0 -> reach E s0 s -> pass E s a = Return 15 s' f ->
  exists r, (r = delta (sG s') \/ r = epsc (sG s') \/ r == 1 # 100000) /\ negligible E s' r.
Proof.
  intros B R. pose proof (reach_inv E SN _ _ _ _ B R) as IV.
  unfold pass. destruct (_ <=? _)%nat; [discriminate|]. destruct (_ <=? _)%nat; [discriminate|].
  destruct (a_exc1 a); [discriminate|].
  destruct (_ || _)%bool.
  - destruct (_ && _)%bool; [discriminate|].
    match goal with |- context [improve E ?s1 a] => set (s1' := s1) end.
    assert (IV1 : Inv E s1') by exact IV.
    destruct (improve E s1' a) as [s2|fl s2 f2|] eqn:IM; [| |discriminate].
    + pose proof (improve_ok E s1' a IV1 SN) as K1. rewrite IM in K1.
      intros H. exists (delta (sG s')). split; auto. eapply step_stalled; [|exact H]. apply K1.
    + intros H; injection H as -> -> ->. revert IM. unfold improve.
      set (ec := new_epsc E (sG s1') (sN s1')). set (radius := new_radius (sG s1') (sN s1') ec).
      destruct (qltb radius (stallfact * e_norm E (ix (sI s1'))) || qltb radius tiny)%bool eqn:SB.
      * intros H; injection H as <- _. exists radius. cbn [sG delta epsc]. split.
        -- unfold radius, new_radius, epsilon. destruct (qeqb _ _).
           ++ destruct (qmin_cases (delta (sG s1')) ec) as [-> | ->]; auto.
           ++ destruct (qleb _ _); [destruct (qmin_cases (delta (sG s1')) (1 # 100000)) as [-> | ->]; auto; right; right; reflexivity|].
              destruct (qmax_cases (delta (sG s1')) ec) as [-> | ->]; auto.
        -- unfold negligible. cbn [sI]. apply orb_prop in SB. destruct SB as [SB|SB]; qb; auto.
      * destruct (repair_Y _ _ _ _ _ _ _ _ _ _ _) as [((((Y', repl), imp), rad), x')|]; [|discriminate].
        destruct (match a_repoised a with Some pr => pr | None => (imp, rad) end) as (po, yr).
        destruct (eval_replaced _ _ _ _ _ _ _) as [(((A', ind'), fY'), ceY')|]; [|discriminate].
        destruct (find_smallf _ _ _ _ _ _ _ _) as [r|] eqn:FS; [|discriminate].
        destruct (a_exc2 a); [discriminate|]. destruct (_ && _)%bool; discriminate.
  - intros H. exists (delta (sG s')). split; auto. eapply step_stalled; [|exact H]. exact IV.
Qed.

(** C06: the reported constraint values *)
Definition ceI (s : st P) : Prop := nth_error (ceXs (sA s)) (ib (sI s)) = Some (ince (sN s)).

Lemma col0 s : stOK E s -> tame E -> e_me E <> 0%nat ->
  nth_error (s_ce (iS (sI s))) 0 = Some (ince (sN s)) -> ceI s.
Proof.
  intros (_ & (_ & _ & _ & _ & _ & _ & _ & _ & _ & S10) & (_ & I2 & _)) T M H. unfold ceI.
  rewrite <- (S10 T M _ _ I2). exact H.
Qed.

Lemma nonempty_col s : stOK E s -> e_me E <> 0%nat -> s_ce (iS (sI s)) <> [].
Proof.
  intros (_ & (S1 & _ & _ & _ & _ & S6 & _) & _) M H. specialize (S6 M). rewrite H in S6. cbn in S6. lia.
Qed.

Lemma improve_ceI s a : Inv E s -> tame E -> e_me E <> 0%nat -> ceI s ->
  match improve E s a with Crash => True | Continue s2 => ceI s2 | Return _ s2 _ => ceI s2 end.
Proof.
  intros IV T M C. pose proof (improve_inv E s a (proj1 IV) (proj1 SN)) as K. revert K.
  unfold improve.
  set (ec := new_epsc E (sG s) (sN s)). set (radius := new_radius (sG s) (sN s) ec).
  destruct (_ || _)%bool; [intros _; exact C|].
  destruct (repair_Y _ _ _ _ _ _ _ _ _ _ _) as [((((Y', repl), imp), rad), x')|]; [|auto].
  destruct (match a_repoised a with Some pr => pr | None => (imp, rad) end) as (po, yr).
  destruct (eval_replaced _ _ _ _ _ _ _) as [(((A', ind'), fY'), ceY')|]; [|auto].
  destruct (find_smallf _ _ _ _ _ _ _ _) as [r|] eqn:FS; [|auto].
  destruct (a_exc2 a); [auto|].
  assert (RC : s_ce (r_set r) <> [] -> exists c, r_ce r = Some c /\ nth_error (s_ce (r_set r)) 0 = Some c).
  { revert FS. unfold find_smallf. destruct (argmin _) as [(fm, im)|]; [|discriminate].
    destruct (if (_ && _)%bool then _ else _) as [(((S', x2), fx'), i')|]; [|discriminate].
    destruct (s_f S') as [|f1 t] eqn:F; [discriminate|]. intros H; injection H as <-. cbn [r_set r_ce].
    destruct (s_ce S') as [|c0 ?]; [congruence|]. exists c0. auto. }
  destruct (_ && _)%bool; intros K; pose proof K as (SO & _);
    (destruct RC as (c & RC1 & RC2); [exact (nonempty_col _ SO M)|]); apply col0; auto;
    cbn [sI iS sN ince]; rewrite RC1; exact RC2.
Qed.

Lemma step_ceI s a : Inv E s -> tame E -> e_me E <> 0%nat -> ceI s ->
  match step E s a with Crash => True | Continue s2 => ceI s2 | Return _ s2 _ => ceI s2 end.
Proof.
  intros IV T M C. pose proof IV as (SO & D & S1 & Z & _). pose proof SO as (O & SS & IO).
  assert (SP : 0 < sigma (sG s)) by lra.
  assert (IB : (ib (sI s) <= mlast (sA s))%nat).
  { destruct IO as (_ & I2 & _). apply nth_error_In in I2. apply SS in I2. auto. }
  pose proof (step_ok E s a IV (proj2 SN)) as PO.
  pose proof (step_cases E s a SP) as SC.
  pose proof (G2_same E s a) as (G21 & _).
  assert (EXT : forall A f c cX cp, eval_at E (sA s) (a_xnew a) = EDone A f c -> new_ce A (ceplus (sG s)) cX cp ->
     nth_error cX (ib (sI s)) = Some (ince (sN s))).
  { intros A f c cX cp EA CE.
    destruct (eval_at_done _ _ _ _ _ _ O EA) as (O1 & X1 & XC & _).
    destruct (archOK_ce E A cX O1) as (_ & T2); [destruct CE as [(C1 & C2 & _)|(C1 & C2 & _)]; auto|].
    rewrite (T2 T), XC by auto. exact C. }
  assert (MAIN : forall A f c cX cp pr succ rho s', eval_at E (sA s) (a_xnew a) = EDone A f c -> new_ce A (ceplus (sG s)) cX cp ->
     stOK E s' -> sA s' = with_ce A cX ->
     ended a (with_ce A cX) (sI s) (st_N3 s f) (st_G3 E s a pr f cp) succ rho (qmin c1e25 f) s' -> ceI s').
  { intros A f c cX cp pr succ rho s' EA CE SO' EAA EN. specialize (EXT _ _ _ _ _ EA CE).
    destruct EN as [H1 H2 H3 H4 H5|H1 H2 H3 H4 H5 H6|H1 H2 H3 H4 H5|H1 H2 H3 H4 H5].
    - unfold ceI. rewrite EAA, H1, H3. exact EXT.
    - unfold ceI. rewrite EAA, H3, H4. exact EXT.
    - destruct H4 as [H4|[H4|H4]]; [contradiction| |apply col0; auto].
      exfalso. eapply nonempty_col; eauto.
    - destruct (H4 M) as (H6 & H7). unfold ceI. rewrite EAA, H2, H6.
      destruct (trial_ready E s a A f c cX cp (st_G3 E s a pr f cp) SO Z EA CE eq_refl)
          as (_ & (_ & _ & _ & _ & _ & TC) & _).
      apply TC; auto. intros K. rewrite K in H7. cbn in H7. congruence. }
  inversion SC as [ H0 | X1 X2 H0 | A v EA H0 | A f c cX cp EA CE MI H0
                  | A f c cX cp EA CE PE H0 | A f c cX cp pr rho EA CE PR PP RH ER LT H0
                  | A f c cX cp pr EA CE PR PP RH H0 ].
  - exact Logic.I.
  - exact C.
  - destruct (eval_at_fail _ _ _ _ _ O EA) as (_ & _ & _ & _ & _ & CC).
    unfold ceI. cbn [sA sI sN]. rewrite CC. exact C.
  - unfold ceI. cbn [sA sI sN with_ce ceXs]. eapply EXT; eauto.
  - unfold ceI. cbn [sA sI sN with_ce ceXs]. eapply EXT; eauto.
  - rewrite <- H0 in PO.
    destruct (accept E a _ _ _ _ _ _) as [s'|fl s' f'|] eqn:AC; [| |exact Logic.I].
    + assert (SH := accept_shape E a (with_ce A cX) (sI s) (st_N3 s f) (st_G3 E s a pr f cp) rho (qmin c1e25 f)).
      rewrite AC in SH. cbn [st_G3 delta] in SH. rewrite G21 in SH.
      destruct (SH D) as (_ & _ & EAA & _).
      apply accept_ended in AC. eapply MAIN; eauto. apply (sp_inv _ _ _ _ PO).
    + assert (RI := accept_ret _ _ _ _ _ _ _ _ _ _ AC). destruct RI as (R1 & R2 & R3).
      unfold ceI. rewrite R1, R2, R3. eapply EXT; eauto.
  - rewrite <- H0 in PO.
    destruct (reject E a _ _ _ _ _ _) as [s'|fl s' f'|] eqn:AC; [| |exact Logic.I].
    + assert (SH := reject_shape E a (with_ce A cX) (sI s) (st_N3 s f) (st_G3 E s a pr f cp) false (qmin c1e25 f)).
      rewrite AC in SH. cbn [st_G3 delta] in SH. rewrite G21 in SH.
      destruct (SH D) as (_ & _ & EAA & _).
      apply (reject_ended _ _ _ _ _ _ 0) in AC. eapply MAIN; eauto. apply (sp_inv _ _ _ _ PO).
    + assert (RI := reject_ret _ _ _ _ _ _ _ _ _ _ AC). destruct RI as (R1 & R2 & R3).
      unfold ceI. rewrite R1, R2, R3. eapply EXT; eauto.
Qed.

Lemma pass_ceI s a : Inv E s -> tame E -> e_me E <> 0%nat -> ceI s ->
  match pass E s a with Crash => True | Continue s2 => ceI s2 | Return _ s2 _ => ceI s2 end.
Proof.
  intros IV T M C. unfold pass. destruct (_ <=? _)%nat; [exact C|]. destruct (_ <=? _)%nat; [exact C|].
  destruct (a_exc1 a); [exact Logic.I|].
  destruct (_ || _)%bool.
  - destruct (_ && _)%bool; [exact C|].
    match goal with |- context [improve E ?s1 a] => set (s1' := s1) end.
    assert (IV1 : Inv E s1') by exact IV. assert (C1 : ceI s1') by exact C.
    pose proof (improve_ok E s1' a IV1 SN) as K1. pose proof (improve_ceI s1' a IV1 T M C1) as K2.
    destruct (improve E s1' a) as [s2|fl s2 f2|] eqn:IM; [|exact K2|exact Logic.I].
    apply step_ceI; auto. apply K1.
  - apply step_ceI; auto.
Qed.

Lemma begins_ceI k0 d0 s0 : begins E k0 d0 s0 -> e_me E <> 0%nat -> ceI s0.
Proof.
  intros (cl & X & fX & ceX & slk & (C1 & C2 & C3 & C4 & _) & _ & _ & ST) M. specialize (C4 M).
  unfold start in ST. destruct X as [|x0 X]; [discriminate|]. destruct fX as [|fx0 fX]; [discriminate|].
  injection ST as <-. unfold ceI. cbn [sA sI sN ceXs ib ince].
  destruct ceX; [discriminate|reflexivity].
Qed.

Lemma reach_ceI k0 d0 s0 s : begins E k0 d0 s0 -> reach E s0 s -> tame E -> e_me E <> 0%nat -> ceI s.
Proof.
  intros B R T M. induction R as [|s a s' R IH PS]; [eapply begins_ceI; eauto|].
  pose proof (pass_ceI s a (reach_inv E SN _ _ _ _ B R) T M IH) as K. rewrite PS in K. exact K.
Qed.

Lemma reported_constraints k0 d0 s0 s a fl s' f : begins E k0 d0 s0 -> reach E s0 s -> tame E -> e_me E <> 0%nat ->
  pass E s a = Return fl s' f ->
  nth_error (Xs (sA s')) (ib (sI s')) = Some (ix (sI s')) /\
  nth_error (ceXs (sA s')) (ib (sI s')) = Some (ince (sN s')).
Proof.
  intros B R T M PS. split; [eapply returned_evaluated; eauto|].
  pose proof (pass_ceI s a (reach_inv E SN _ _ _ _ B R) T M (reach_ceI _ _ _ _ B R T M)) as K. rewrite PS in K. exact K.
Qed.
(** C01: the certificate is also sufficient at the loop head *)
Lemma certificate_complete s a : (niter (sN s) < e_miter E)%nat -> (nsim (sA s) < e_msimul E)%nat ->
  a_exc1 a = false -> 0 <= e_tolf E -> 0 <= e_tolb E ->
  a_glagn1 a <= e_tolg E -> feasible E s -> a_poised a * a_yrad a <= 1 # 1000 ->
  exists s', pass E s a = Return 0 s' (Fin (inff (sN s))) /\ sI s' = sI s /\ sA s' = sA s.
Proof.
  intros H1 H2 H3 H4 H5 H6 H7 H8. apply feasible_iff in H7; auto. unfold pass.
  replace (e_miter E <=? niter (sN s))%nat with false by (symmetry; apply Nat.leb_gt; auto).
  replace (e_msimul E <=? nsim (sA s))%nat with false by (symmetry; apply Nat.leb_gt; auto).
  rewrite H3. cbv zeta.
  replace (qleb (a_glagn1 a) (e_tolg E)) with true by (symmetry; apply qleb_iff; auto).
  replace (qleb (linf (resid (sl (sG s)) (ince (sN s)))) (e_tolf E)) with true by (symmetry; apply qleb_iff; auto).
  replace (qleb 0 (e_tolb E)) with true by (symmetry; apply qleb_iff; auto).
  replace (qleb (a_poised a * a_yrad a / factor_CV) epsilon) with true.
  2:{ symmetry; apply qleb_iff. unfold factor_CV, epsilon.
      assert (K : a_poised a * a_yrad a / 100 == a_poised a * a_yrad a * (1 # 100)) by field. lra. }
  cbn [andb orb]. eexists. split; [reflexivity|]. auto.
Qed.

(** C08: the rule for the penalty parameter, and the predicted reduction *)
Lemma penalty_rule k0 d0 s0 s a s' : begins E k0 d0 s0 -> reach E s0 s -> pass E s a = Continue s' ->
  (a_rpred a == 0 -> sigma (sG s') = sigma (sG s)) /\
  (forall b, ~ a_rpred a == 0 -> b * ((7 # 10) * a_rpred a) == a_qcost a ->
     (b <= sigma (sG s) /\ sigma (sG s') = sigma (sG s)) \/
     (sigma (sG s) < b /\ larger b ((3 # 2) * sigma (sG s)) (sigma (sG s')))) /\
  (let p := - a_qcost a + sigma (sG s') * a_rpred a in
   (0 <= a_rpred a /\ 0 < p /\ pred (sG s') == p) \/
   ((a_rpred a < 0 \/ p <= 0) /\ pred (sG s') == -1)).
Proof.
  intros B R PS. pose proof (reach_inv E SN _ _ _ _ B R) as IV.
  destruct (pass_pre s a s' IV PS) as (s2 & IV2 & ST & H).
  pose proof (step_ok E s2 a IV2 (proj2 SN)) as PO. rewrite ST in PO.
  assert (SS : sigma (sG s2) = sigma (sG s)).
  { destruct H as [(_ & _ & -> & _)|(s1 & _ & IM & _ & _ & H1 & _)]; auto.
    pose proof (improve_scal E s1 a) as L. rewrite IM in L. destruct L as (_ & _ & _ & _ & L5 & _). congruence. }
  assert (NS : sigma (sG s') = (let sb := if qeqb (a_rpred a) 0 then 0 else a_qcost a / ((1 - rho_factor) * a_rpred a) in
     if qltb (sigma (sG s)) sb then qmax sb ((3 # 2) * sigma (sG s)) else sigma (sG s))).
  { rewrite (sp_sigma _ _ _ _ PO). unfold st_sg, new_sigma, st_G1.
    pose proof (memo_same E (sN s2) (sG s2)) as (M1 & _). rewrite M1, SS. reflexivity. }
  pose proof IV as (_ & _ & S1 & _).
  split; [|split].
  - intros K. rewrite NS. apply qeqb_iff in K. rewrite K. cbv zeta.
    replace (qltb (sigma (sG s)) 0) with false by (symmetry; apply qltb_false; lra). reflexivity.
  - intros b NZ HB. replace (qeqb (a_rpred a) 0) with false in NS by (symmetry; apply qeqb_false; auto).
    cbv zeta in NS. set (sb := a_qcost a / ((1 - rho_factor) * a_rpred a)) in *.
    assert (EB : sb == b).
    { unfold sb, rho_factor. rewrite <- HB. field. auto. }
    destruct (qltb (sigma (sG s)) sb) eqn:C; qb.
    + right. split; [lra|]. rewrite NS. pose proof (larger_ok sb ((3 # 2) * sigma (sG s))) as L.
      unfold larger in *. lra.
    + left. split; [lra|auto].
  - cbv zeta. rewrite (sp_pred _ _ _ _ PO), (sp_sigma _ _ _ _ PO).
    destruct (new_pred_cases (a_qcost a) (st_sg E s2 a) (a_rpred a)) as [(K1 & K2)|(K1 & K2 & K3)].
    + right. rewrite K1. split; [auto|reflexivity].
    + left. split; [auto|]. split; [rewrite <- K2; auto|]. rewrite K2. reflexivity.
Qed.

(** C07: reference values of the merit test *)
Lemma reference k0 d0 s0 s a s' : begins E k0 d0 s0 -> reach E s0 s -> pass E s a = Continue s' ->
  (rej (sG s) = false -> niter (sN s') = (niter (sN s) + 1)%nat ->
     f0 (sG s') = inff (sN s) /\ ce0n (sG s') = cn E (resid (sl (sG s)) (ince (sN s)))) /\
  (rej (sG s) = true -> f0 (sG s') = f0 (sG s) /\ ce0n (sG s') = ce0n (sG s)).
Proof.
  intros B R PS. pose proof (reach_inv E SN _ _ _ _ B R) as IV.
  destruct (pass_pre s a s' IV PS) as (s2 & IV2 & ST & H).
  pose proof (step_ok E s2 a IV2 (proj2 SN)) as PO. rewrite ST in PO.
  rewrite (sp_f0 _ _ _ _ PO), (sp_ce0n _ _ _ _ PO), (sp_niter _ _ _ _ PO).
  destruct H as [(_ & _ & H1 & H2 & H3 & H4)|(s1 & _ & IM & _ & _ & H1 & _ & H2 & _)].
  - rewrite <- H1, <- H3, <- H4. split.
    + intros RJ _. apply G2_f0. auto.
    + intros RJ. unfold st_G2, with_sigma, st_G1, memo. rewrite RJ. auto.
  - pose proof (improve_scal E s1 a) as L. rewrite IM in L.
    destruct L as (L1 & _ & _ & _ & _ & _ & L7 & L8 & L9 & _). rewrite L1, H2. rewrite H1 in *. split; [lia|].
    intros RJ. unfold st_G2, with_sigma, st_G1, memo. rewrite L7, RJ. cbn [f0 ce0n]. auto.
Qed.

(** further effects of a step *)
Record ended2 (A : arch P) (I : incu P) (N : inf) (G : glo) (s' : st P) : Prop := mken2 {
  e2_sl : ib (sI s') = mlast A \/ sl (sG s') = sl G;
  e2_f : (rej (sG s') = true /\ inff (sN s') = f0 G) \/
         (rej (sG s') = false /\ inff (sN s') = inff N /\ ib (sI s') = mlast A);
  e2_len : length (s_Y (iS (sI s'))) = length (s_Y (iS I)) \/
           (can_augment E (length (s_Y (iS I))) = true /\ length (s_Y (iS (sI s'))) = S (length (s_Y (iS I)))) }.

Lemma swapl_len {T} i j (l l' : list T) : swapl i j l = Some l' -> length l' = length l.
Proof.
  unfold swapl. destruct (nth_error l i); [|discriminate]. destruct (nth_error l j); [|discriminate].
  intros H; injection H as <-. rewrite !upd_length. reflexivity.
Qed.

Lemma swap_len (S S2 : iset P) i j x x2 : swap_in_Y (e_zero E) i j S x = Some (S2, x2) ->
  length (s_Y S2) = length (s_Y S).
Proof.
  unfold swap_in_Y. destruct (_ =? _)%nat; [intros H; injection H as <- _; auto|].
  destruct (swapl _ _ (s_Y S)) as [Y1|] eqn:Y; [|discriminate]. apply swapl_len in Y.
  destruct (swapl _ _ _) as [|]; [|discriminate]. destruct (swapl _ _ _) as [|]; [|discriminate].
  destruct (swapc _ _ _); [|discriminate]. destruct (swapc _ _ _); [|discriminate].
  intros H; injection H as <- _. exact Y.
Qed.

Lemma store_Y (S : iset P) Y pos m f c S1 : store E S Y pos m f c = Some S1 -> s_Y S1 = Y.
Proof.
  unfold store. destruct (e_me E); [intros H; injection H as <-; auto|].
  destruct (_ =? _)%nat; [|discriminate]. intros H; injection H as <-. auto.
Qed.

Lemma replaced2 a A I N G succ Y' pos x' fxp I' N' G' s' : rej G = true -> length Y' = length (s_Y (iS I)) ->
  replaced_by_trial E a A I N G succ Y' pos x' fxp = Some (I', N', G') ->
  finish_rej a A I' N' G' = Continue s' -> ended2 A I N G s'.
Proof.
  intros R L. unfold replaced_by_trial. destruct (store _ _ _ _ _ _ _) as [S1|] eqn:ST; [|discriminate].
  apply store_Y in ST. destruct succ.
  - destruct (swap_in_Y _ _ _ _ _) as [(S2, x2)|] eqn:SS; [|discriminate]. apply swap_len in SS.
    intros H; injection H as <- <- <-.
    unfold finish_rej. destruct (a_exc4 a); [discriminate|]. intros H; injection H as <-.
    constructor; cbn [sI sG sN iS ib sl rej inff f0]; auto. left. congruence.
  - intros H; injection H as <- <- <-. unfold finish_rej. destruct (a_exc4 a); [discriminate|]. intros H; injection H as <-.
    constructor; cbn [sI sG sN iS ib sl rej inff f0]; auto. left. congruence.
Qed.

Lemma include_len xp Y cset thr c xb succ L Y' j x' : 0 <= thr ->
  include_in_Y (e_zero E) (e_dist E) xp Y cset thr c xb succ L = (Y', Some j, x') -> length Y' = length Y.
Proof.
  intros T H. destruct (include_put _ _ _ _ _ _ _ _ _ _ _ _ T H) as ((_ & _ & [K|K]) & _ & _ & J); lia.
Qed.

Lemma reduce2 a A I N G fxp s' : rej G = true -> reduce E a A I N G fxp = Continue s' -> ended2 A I N G s'.
Proof.
  unfold reduce, finish_rej. intros R. destruct (_ || _)%bool; [discriminate|]. destruct (a_exc4 a); [discriminate|].
  intros H; injection H as <-. constructor; cbn [sI sG sN iS ib sl rej inff f0]; auto.
Qed.

Lemma reject2 a A I N G succ fxp s' : reject E a A I N G succ fxp = Continue s' -> ended2 A I N G s'.
Proof.
  unfold reject. cbv zeta.
  set (G1 := mkG (delta G) (sigma G) (epsc G) (pred G) true (f0 G) (ce0n G) (merit0 G)
               (merit G) (pm G) (sl G) (ceplus G)).
  intros H. assert (K : ended2 A I N G1 s').
  { destruct (can_augment E (length (s_Y (iS I))) && negb succ)%bool eqn:CA.
    - apply andb_prop in CA. destruct CA as (CA & _).
      destruct (augment_Y _ _ _ _) as (p', Y') eqn:AU.
      destruct (augment_put _ _ _ _ _ _ AU (can_augment_le _ _ (proj2 SN) CA)) as (EY & _ & _).
      destruct (store _ _ _ _ _ _ _) as [S1|] eqn:ST; [|discriminate].
      apply store_Y in ST. unfold finish_rej in H. destruct (a_exc4 a); [discriminate|]. injection H as <-.
      constructor; cbn [sI sG sN iS ib sl rej inff f0]; auto. right. split; [auto|].
      rewrite ST, EY, app_length. cbn. lia.
    - destruct (negb (pm G1) || qleb (delta G1) (epsc G1))%bool; [|eapply reduce2; eauto].
      destruct (include_in_Y _ _ _ _ _ _ _ _ _ (a_L2 a)) as ((Y1, [pos|]), x1) eqn:I1.
      + destruct (replaced_by_trial _ _ _ _ _ _ _ _ _ _ _) as [((I', N'), G')|] eqn:RB; [|discriminate].
        apply include_len in I1; [|discriminate]. eapply replaced2; eauto.
      + destruct (include_in_Y _ _ _ _ _ _ _ _ _ (a_L3 a)) as ((Y2, [pos|]), x2) eqn:I2.
        * destruct (replaced_by_trial _ _ _ _ _ _ _ _ _ _ _) as [((I', N'), G')|] eqn:RB; [|discriminate].
          apply include_len in I2; [|destruct succ; discriminate]. eapply replaced2; eauto.
        * eapply reduce2; eauto. }
  destruct K as [K1 K2 K3]. constructor; auto.
Qed.

Lemma accept2 a A I N G rho fxp s' : accept E a A I N G rho fxp = Continue s' -> ended2 A I N G s'.
Proof.
  unfold accept.
  destruct (if can_augment E (length (s_Y (iS I))) then _ else _) as ((Y', [pos|]), x') eqn:CH;
    [|apply reject2].
  destruct (store _ _ _ _ _ _ _) as [S1|] eqn:ST; [|discriminate]. apply store_Y in ST.
  destruct (swap_in_Y _ _ _ _ _) as [(S2, x2)|] eqn:SS; [|discriminate]. apply swap_len in SS.
  destruct (a_exc4 a); [discriminate|]. intros H; injection H as <-.
  constructor; cbn [sI sG sN iS ib sl rej inff f0]; auto. rewrite SS, ST.
  destruct (can_augment E (length (s_Y (iS I)))) eqn:CA.
  - destruct (augment_Y _ _ _ _) as (p', Y1) eqn:AU.
    destruct (augment_put _ _ _ _ _ _ AU (can_augment_le _ _ (proj2 SN) CA)) as (EY & _ & _).
    injection CH as <- _ _. right. split; [auto|]. rewrite EY, app_length. cbn. lia.
  - apply include_len in CH; [auto|discriminate].
Qed.

Lemma step2 s a s' : Inv E s -> step E s a = Continue s' ->
  (ib (sI s') = mlast (sA s') \/ sl (sG s') = sl (sG s)) /\
  ((rej (sG s') = true /\ inff (sN s') = f0 (sG s')) \/
   (rej (sG s') = false /\ capped (inff (sN s')) (ifx (sI s')) /\ ib (sI s') = mlast (sA s')) \/
   (pred (sG s') == -1 /\ ib (sI s') <> mlast (sA s') /\ rej (sG s') = rej (sG s) /\ exists c,
      answered E (length (calls (sA s))) (a_xnew a) (inff (sN s')) c)) /\
  (length (s_Y (iS (sI s'))) = length (s_Y (iS (sI s))) \/
     (can_augment E (length (s_Y (iS (sI s)))) = true /\
      length (s_Y (iS (sI s'))) = S (length (s_Y (iS (sI s)))))).
Proof.
  intros IV ST. pose proof IV as (SO & D & S1 & Z & _).
  pose proof (step_ok E s a IV (proj2 SN)) as PO. rewrite ST in PO.
  assert (SP : 0 < sigma (sG s)) by lra.
  pose proof (step_cases E s a SP) as SC. rewrite ST in SC.
  pose proof (G2_same E s a) as (G21 & _ & _ & G24 & _ & G26 & _).
  inversion SC as [ | | | | A f c cX cp EA CE PE H0 | A f c cX cp pr rho EA CE PR PP RH ER LT H0
                  | A f c cX cp pr EA CE PR PP RH H0 ].
  - cbn [sG sA sI sN st_G3 st_N3 sl rej inff pred]. split; [right; auto|]. split; [|left; auto]. right. right.
    split; [reflexivity|]. split; [|split; [auto|eapply done_answered; eauto]].
    destruct SO as (O & (_ & _ & _ & _ & _ & _ & _ & S8 & _) & (_ & I2 & _)). apply nth_error_In in I2. apply S8 in I2.
    destruct (eval_at_done _ _ _ _ _ _ O EA) as (_ & _ & _ & ML & _). cbn [with_ce mlast]. lia.
  - assert (SH := accept_shape E a (with_ce A cX) (sI s) (st_N3 s f) (st_G3 E s a pr f cp) rho (qmin c1e25 f)).
    rewrite H0 in SH. cbn [st_G3 delta] in SH. rewrite G21 in SH.
    destruct (SH D) as (_ & (_ & _ & FF & _) & EAA & _ & RJ & _). clear SH. cbn [st_G3 f0] in FF.
    apply accept2 in H0. destruct H0 as [K1 K2 K3]. cbn [st_G3 st_N3 sl f0 inff] in *. rewrite EAA, FF, <- G24.
    split; [auto|]. split; [|auto].
    destruct K2 as [K2|(K2 & K4 & K5)]; [left; auto|]. right. left. split; [auto|]. split; [|auto].
    destruct RJ as [RJ|(RJ1 & RJ2)]; [congruence|]. rewrite RJ2, K4. apply capped_qmin.
  - assert (SH := reject_shape E a (with_ce A cX) (sI s) (st_N3 s f) (st_G3 E s a pr f cp) false (qmin c1e25 f)).
    rewrite H0 in SH. cbn [st_G3 delta] in SH. rewrite G21 in SH.
    destruct (SH D) as (_ & (_ & _ & FF & _) & EAA & _ & RJ & _). clear SH. cbn [st_G3 f0] in FF.
    apply reject2 in H0. destruct H0 as [K1 K2 K3]. cbn [st_G3 st_N3 sl f0 inff] in *. rewrite EAA, FF, <- G24.
    split; [auto|]. split; [|auto].
    destruct K2 as [K2|(K2 & K4 & K5)]; [left; auto|]. right. left. split; [auto|]. split; [|auto].
    destruct RJ as [RJ|(RJ1 & RJ2)]; [congruence|]. rewrite RJ2, K4. apply capped_qmin.
Qed.

Lemma slacks k0 d0 s0 s a s' : begins E k0 d0 s0 -> reach E s0 s -> pass E s a = Continue s' ->
  ib (sI s') <> mlast (sA s') -> sl (sG s') = sl (sG s).
Proof.
  intros B R PS NE. destruct (pass_pre s a s' (reach_inv E SN _ _ _ _ B R) PS) as (s2 & IV2 & ST & H).
  destruct (step2 s2 a s' IV2 ST) as ([K|K] & _); [contradiction|]. rewrite K.
  destruct H as [(_ & _ & -> & _)|(s1 & _ & IM & _ & _ & H1 & _)]; auto.
  pose proof (improve_scal E s1 a) as L. rewrite IM in L.
  destruct L as (_ & _ & _ & _ & _ & _ & _ & _ & _ & _ & L11 & _). congruence.
Qed.

Lemma reported_f k0 d0 s0 s a s' : begins E k0 d0 s0 -> reach E s0 s -> pass E s a = Continue s' ->
  (rej (sG s') = true /\ inff (sN s') = f0 (sG s')) \/
  (rej (sG s') = false /\ capped (inff (sN s')) (ifx (sI s')) /\ ib (sI s') = mlast (sA s')) \/
  (pred (sG s') == -1 /\ ib (sI s') <> mlast (sA s') /\ rej (sG s') = rej (sG s) /\ exists k c,
      length (calls (sA s')) = (k + 1)%nat /\ answered E k (a_xnew a) (inff (sN s')) c).
Proof.
  intros B R PS. destruct (pass_pre s a s' (reach_inv E SN _ _ _ _ B R) PS) as (s2 & IV2 & ST & H).
  assert (RJ : rej (sG s2) = rej (sG s)).
  { destruct H as [(_ & _ & -> & _)|(s1 & _ & IM & _ & _ & H1 & _)]; auto.
    pose proof (improve_scal E s1 a) as L. rewrite IM in L.
    destruct L as (_ & _ & _ & _ & _ & _ & L7 & _). congruence. }
  destruct (step2 s2 a s' IV2 ST) as (_ & [K|[K|(K1 & K2 & K3 & c & K4)]] & _); auto.
  right. right. split; [auto|]. split; [auto|]. split; [congruence|]. exists (length (calls (sA s2))), c. split; auto.
  pose proof (step_ok E s2 a IV2 (proj2 SN)) as PO. rewrite ST in PO. rewrite (sp_calls _ _ _ _ PO), app_length. cbn. lia.
Qed.

(** C10: size of the set, archive *)
Lemma set_size k0 d0 s0 s a s' : begins E k0 d0 s0 -> reach E s0 s -> pass E s a = Continue s' ->
  length (s_Y (iS (sI s'))) = length (s_Y (iS (sI s))) \/
  (length (s_Y (iS (sI s'))) = (length (s_Y (iS (sI s))) + 1)%nat /\
   (length (s_Y (iS (sI s'))) <= e_pfinal E \/
    e_whichmodel E = 3 /\ length (s_Y (iS (sI s'))) <= 2 * e_pfinal E)%nat).
Proof.
  intros B R PS. destruct (pass_pre s a s' (reach_inv E SN _ _ _ _ B R) PS) as (s2 & IV2 & ST & H).
  assert (LL : length (s_Y (iS (sI s2))) = length (s_Y (iS (sI s)))).
  { destruct H as [(_ & -> & _)|(s1 & IV1 & IM & _ & H1 & _)]; auto.
    pose proof (improve_inv E s1 a (proj1 IV1) (proj1 SN)) as L. rewrite IM in L. destruct L as (_ & _ & _ & L & _). congruence. }
  destruct (step2 s2 a s' IV2 ST) as (_ & _ & [K|(K1 & K2)]); rewrite LL in *; [left; auto|right].
  split; [lia|]. unfold can_augment in K1. apply orb_prop in K1. destruct K1 as [K1|K1].
  - apply Nat.ltb_lt in K1. lia.
  - apply andb_prop in K1. destruct K1 as (K1 & K3). apply Nat.eqb_eq in K1. apply Nat.ltb_lt in K3. lia.
Qed.

Lemma archive_kept k0 d0 s0 s a s' : begins E k0 d0 s0 -> reach E s0 s -> pass E s a = Continue s' ->
  (exists tl, calls (sA s') = calls (sA s) ++ tl) /\ (mlast (sA s) < mlast (sA s'))%nat /\
  (forall i, (i <= mlast (sA s))%nat -> nth_error (Xs (sA s')) i = nth_error (Xs (sA s)) i /\
     nth_error (fXs (sA s')) i = nth_error (fXs (sA s)) i /\
     (tame E -> nth_error (ceXs (sA s')) i = nth_error (ceXs (sA s)) i)) /\
  nth_error (Xs (sA s')) (mlast (sA s')) = Some (a_xnew a).
Proof.
  intros B R PS. pose proof (reach_inv E SN _ _ _ _ B R) as IV.
  destruct (pass_pre s a s' IV PS) as (s2 & IV2 & ST & H).
  assert (X2 : ext (sA s) (sA s2) /\ extc (sA s) (sA s2)).
  { destruct H as [(-> & _)|(s1 & IV1 & IM & H1 & _)]; [split; [apply ext_refl|intros ? _; auto]|].
    pose proof (improve_inv E s1 a (proj1 IV1) (proj1 SN)) as L. rewrite IM in L. destruct L as (_ & L1 & L2 & _).
    rewrite <- H1. auto. }
  destruct X2 as (X2 & XC2).
  pose proof (step_ok E s2 a IV2 (proj2 SN)) as PO. rewrite ST in PO.
  pose proof (sp_ext _ _ _ _ PO) as X3. pose proof (ext_trans _ _ _ X2 X3) as (E1 & E2 & E3 & E4).
  split; [exact E4|]. split.
  { rewrite (sp_mlast _ _ _ _ PO). destruct X2 as (_ & _ & X2 & _). lia. }
  pose proof IV2 as (SO2 & D2 & S2 & Z2 & _).
  assert (SP : 0 < sigma (sG s2)) by lra.
  assert (XA : exists A f c cX cp, eval_at E (sA s2) (a_xnew a) = EDone A f c /\ new_ce A (ceplus (sG s2)) cX cp /\ sA s' = with_ce A cX).
  { pose proof (step_cases E s2 a SP) as SC. rewrite ST in SC.
    pose proof (G2_same E s2 a) as (G21 & _).
    inversion SC as [ | | | | A f c cX cp EA CE PE H0 | A f c cX cp pr rho EA CE PR PP RH ER LT H0
                  | A f c cX cp pr EA CE PR PP RH H0 ].
    - exists A, f, c, cX, cp. auto.
    - assert (SH := accept_shape E a (with_ce A cX) (sI s2) (st_N3 s2 f) (st_G3 E s2 a pr f cp) rho (qmin c1e25 f)).
      rewrite H0 in SH. cbn [st_G3 delta] in SH. rewrite G21 in SH. exists A, f, c, cX, cp. split; [auto|]. split; [auto|]. apply SH; auto.
    - assert (SH := reject_shape E a (with_ce A cX) (sI s2) (st_N3 s2 f) (st_G3 E s2 a pr f cp) false (qmin c1e25 f)).
      rewrite H0 in SH. cbn [st_G3 delta] in SH. rewrite G21 in SH. exists A, f, c, cX, cp. split; [auto|]. split; [auto|]. apply SH; auto. }
  destruct XA as (A & f & c & cX & cp & EA & CE & EAA).
  destruct (eval_at_done _ _ _ _ _ _ (proj1 SO2) EA) as (O1 & _ & XC & ML & _ & HX & _).
  split; [|rewrite EAA; exact HX]. intros i Hi. split; [auto|]. split; [auto|]. intros T. rewrite EAA. cbn [with_ce ceXs].
  destruct (archOK_ce E A cX O1) as (_ & T2); [destruct CE as [(C1 & C2 & _)|(C1 & C2 & _)]; auto|].
  rewrite (T2 T), XC, XC2; auto. destruct X2 as (_ & _ & X2 & _). lia.
Qed.

End More.
