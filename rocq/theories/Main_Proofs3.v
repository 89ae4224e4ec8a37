(** Main-loop properties over whole runs. *)
From Coq Require Import List Arith ZArith QArith Qabs Bool Lia Lqa Psatz.
Import ListNotations.
From Verif Require Import QB Book_Model Book_Spec Book_Proofs Main_Model Main_Spec Main_Proofs Main_Proofs2.
Local Open Scope Q_scope.

Section Proofs3.
Context {P : Type}.
Variable E : env P.

Lemma begins_inv k0 d0 s0 : begins E k0 d0 s0 -> Inv E s0.
Proof.
  intros (cl & X & fX & ceX & slk & (H1 & H2 & H3 & H4 & H5 & H6 & H7) & H8 & H9 & H10).
  unfold start in H10. destruct X as [|x0 X]; [discriminate|]. destruct fX as [|f0 fX]; [discriminate|].
  remember (seq 0 (length (x0 :: X))) as q eqn:EQ.
  injection H10 as <-.
  set (c0 := match ceX with c :: _ => c | [] => [] end).
  assert (LX : (length (x0 :: X) = S (length (x0 :: X) - 1))%nat) by (cbn [length] in *; lia).
  split; [|split; [|split; [|split; [|split; [|split]]]]]; cbn [sA sI sN sG delta sigma rej pred inff ifx ceplus ince].
  - split; [|split]; cbn [sA sI iS ix ifx ib].
    + unfold archOK. cbn [nsim calls mlast Xs fXs ceXs].
      split; [auto|]. split; [auto|]. split; [rewrite H2; auto|]. split; [intros M; apply H3; auto|].
      split; [intros M; rewrite H4; auto|]. auto.
    + rewrite EQ. unfold setOK. cbn [s_Y s_ind s_f s_ci s_ce mlast Xs fXs ceXs].
      split; [auto|]. split; [apply seq_length|]. split; [auto|]. split; [auto|].
      split; [intros M; apply H3; auto|]. split; [auto|]. split; [apply seq_NoDup|].
      split; [intros i I; apply in_seq in I; cbn [length] in *; lia|]. split.
      * intros j y J. pose proof (nth_error_len _ _ _ J) as L.
        destruct (nth_error_ex (f0 :: fX) j) as (f & F); [lia|].
        exists j, f. split; [|auto]. rewrite nth_error_nth' with (d := 0%nat) by (rewrite seq_length; auto).
        rewrite seq_nth by auto. reflexivity.
      * intros _ M j i J. pose proof (nth_error_len _ _ _ J) as L. rewrite seq_length in L.
        rewrite nth_error_nth' with (d := 0%nat) in J by (rewrite seq_length; auto).
        rewrite seq_nth in J by auto. injection J as <-. reflexivity.
    + rewrite EQ. split; [|split]; reflexivity.
  - auto.
  - lra.
  - intros _ _. reflexivity.
  - discriminate.
  - intros _. right. split; [reflexivity|]. intros L. exfalso.
    pose proof (H6 0%nat x0 f0 eq_refl eq_refl) as EV. apply evaluated_le in EV. lra.
  - intros M. split; auto. destruct (H3 M) as (-> & _). reflexivity.
Qed.

Hypothesis SN : sane E.

Lemma reach_inv k0 d0 s0 s : begins E k0 d0 s0 -> reach E s0 s -> Inv E s.
Proof.
  intros B R. induction R as [|s a s' R IH PS].
  - eapply begins_inv; eauto.
  - pose proof (pass_ok E s a IH SN) as K. rewrite PS in K. apply (pp_inv _ _ _ _ K).
Qed.

Lemma pass_continue k0 d0 s0 s a s' : begins E k0 d0 s0 -> reach E s0 s -> pass E s a = Continue s' ->
  Inv E s /\ pass_post E s a s'.
Proof.
  intros B R PS. pose proof (reach_inv _ _ _ _ B R) as I. split; auto.
  pose proof (pass_ok E s a I SN) as K. rewrite PS in K. exact K.
Qed.

Lemma pass_return k0 d0 s0 s a fl s' f : begins E k0 d0 s0 -> reach E s0 s -> pass E s a = Return fl s' f ->
  Inv E s /\ pass_ret E s a fl s' f.
Proof.
  intros B R PS. pose proof (reach_inv _ _ _ _ B R) as I. split; auto.
  pose proof (pass_ok E s a I SN) as K. rewrite PS in K. exact K.
Qed.

Lemma begins_facts k0 d0 s0 : begins E k0 d0 s0 ->
  niter (sN s0) = 0%nat /\ nsim (sA s0) = k0 /\ delta (sG s0) = d0 /\ sigma (sG s0) = 1 /\
  epsc (sG s0) = epsilon /\ 0 < d0.
Proof.
  intros (cl & X & fX & ceX & slk & _ & H8 & H9 & H10).
  unfold start in H10. destruct X as [|x0 X]; [discriminate|]. destruct fX as [|f0 fX]; [discriminate|].
  injection H10 as <-. cbn. auto 10.
Qed.

Lemma linf_ge l i v : nth_error l i = Some v -> Qabs v <= linf l.
Proof.
  revert i. induction l as [|h t IH]; intros [|i]; cbn [nth_error linf fold_right]; try discriminate.
  - intros H; injection H as ->. fold (linf t). pose proof (qmax_ge_l (qabs v) (linf t)) as K.
    assert (Q : qabs v == Qabs v); [|rewrite <- Q; exact K].
    unfold qabs. destruct (qleb 0 v) eqn:B; qb.
    + rewrite Qabs_pos; auto. reflexivity.
    + rewrite Qabs_neg; [reflexivity|lra].
  - intros H. apply IH in H. fold (linf t). pose proof (qmax_ge_r (qabs h) (linf t)). lra.
Qed.

Lemma subsq_nth c : forall s i v, nth_error c i = Some v ->
  exists w, nth_error (subsq c s) i = Some w /\ w == v - nth i s 0 * nth i s 0.
Proof.
  induction c as [|h t IH]; intros s [|i] v; cbn [nth_error]; try discriminate.
  - intros H; injection H as ->. destruct s as [|s0 s]; cbn; eexists; (split; [reflexivity|ring]).
  - intros H. destruct s as [|s0 s]; cbn [subsq nth_error nth].
    + exists v. split; auto. ring.
    + destruct (IH s i v H) as (w & W1 & W2). exists w. auto.
Qed.

Lemma resid_residual s c i : (i < length c)%nat ->
  exists w, nth_error (resid s c) i = Some w /\ w == residual s c i.
Proof.
  intros L. unfold resid, residual. set (k := (length c - length s)%nat).
  assert (KL : (k <= length c)%nat) by (unfold k; lia).
  assert (LF : length (firstn k c) = k) by (rewrite firstn_length; lia).
  destruct (i <? k)%nat eqn:B.
  - apply Nat.ltb_lt in B. rewrite nth_error_app1 by lia.
    rewrite nth_error_nth' with (d := 0) by lia.
    eexists; split; [reflexivity|].
    rewrite <- (firstn_skipn k c) at 2. rewrite app_nth1 by lia. ring.
  - apply Nat.ltb_ge in B. rewrite nth_error_app2 by lia. rewrite LF.
    assert (S : nth_error (skipn k c) (i - k) = Some (nth i c 0)).
    { rewrite nth_error_nth' with (d := 0) by (rewrite skipn_length; lia). f_equal.
      rewrite <- (firstn_skipn k c) at 2. rewrite app_nth2 by lia. rewrite LF. auto. }
    destruct (subsq_nth _ s _ _ S) as (w & W1 & W2). exists w. split; auto.
Qed.

Lemma run_reach s0 s n : forall ans k fl s' f, reach E s0 s -> run E n ans k s = Some (Return fl s' f) ->
  exists s1 a, reach E s0 s1 /\ pass E s1 a = Return fl s' f.
Proof.
  revert s. induction n as [|n IH]; intros s ans k fl s' f R; [discriminate|]. cbn [run].
  destruct (pass E s (ans k)) as [s2|fl2 s2 f2|] eqn:PS; try discriminate.
  - apply IH. econstructor; eauto.
  - intros H; injection H as -> -> ->. eauto.
Qed.

(** C01 *)
Lemma certificate k0 d0 s0 s a s' f : begins E k0 d0 s0 -> reach E s0 s -> pass E s a = Return 0 s' f ->
  (exists t, (t == 1 \/ t == 100) /\
     glagn (sN s') <= t * e_tolg E /\ feasn (sN s') <= t * e_tolf E /\ compl (sN s') <= t * e_tolb E) /\
  poised (sN s') * yrad (sN s') <= 100 * (1 # 100000) /\
  (forall i, (i < length (ince (sN s')))%nat -> Qabs (residual (sl (sG s')) (ince (sN s')) i) <= feasn (sN s')).
Proof.
  intros B R PS. destruct (pass_return _ _ _ _ _ _ _ _ B R PS) as (_ & K).
  destruct (pr_why _ _ _ _ _ _ K) as [(H & _)|[(H & _)|(_ & _ & _ & _ & H)]]; try discriminate.
  destruct H as [(_ & _ & (t & T & T1 & T2 & T3) & T4 & T5 & T6)|[(H & _)|[(H & _)|(H & _)]]]; try discriminate.
  split; [|split].
  - exists t. rewrite T4. auto.
  - exact T5.
  - intros i L. destruct (resid_residual (sl (sG s')) _ _ L) as (w & W1 & W2).
    rewrite <- W2, T6. eapply linf_ge; eauto.
Qed.

Lemma iterations k0 d0 s0 s : begins E k0 d0 s0 -> reach E s0 s -> (niter (sN s) <= e_miter E + 1)%nat.
Proof.
  intros B R. destruct R as [|s a s' R PS].
  - destruct (begins_facts _ _ _ B) as (-> & _). lia.
  - destruct (pass_continue _ _ _ _ _ _ B R PS) as (_ & K).
    pose proof (pp_enter _ _ _ _ K). pose proof (pp_niter _ _ _ _ K). lia.
Qed.

(** C02 *)
Lemma iterations_ret k0 d0 s0 s a fl s' f : begins E k0 d0 s0 -> reach E s0 s -> pass E s a = Return fl s' f ->
  (niter (sN s') <= e_miter E + 1)%nat.
Proof.
  intros B R PS. pose proof (iterations _ _ _ _ B R) as I.
  destruct (pass_return _ _ _ _ _ _ _ _ B R PS) as (_ & K).
  destruct (pr_why _ _ _ _ _ _ K) as [(_ & -> & _)|[(_ & -> & _)|(H1 & _ & H2 & _)]]; lia.
Qed.

Lemma evaluations k0 d0 s0 s : begins E k0 d0 s0 -> reach E s0 s ->
  nsim (sA s) = length (calls (sA s)) /\
  (nsim (sA s) <= Nat.max k0 (e_msimul E - 1 + length (s_Y (iS (sI s)))))%nat.
Proof.
  intros B R. split; [apply (reach_inv _ _ _ _ B R)|]. destruct R as [|s a s' R PS].
  - destruct (begins_facts _ _ _ B) as (_ & -> & _). lia.
  - destruct (pass_continue _ _ _ _ _ _ B R PS) as (_ & K).
    pose proof (pp_enter _ _ _ _ K). pose proof (pp_nsim _ _ _ _ K). lia.
Qed.

(** C03 *)
Lemma evaluations_ret k0 d0 s0 s a fl s' f : begins E k0 d0 s0 -> reach E s0 s -> pass E s a = Return fl s' f ->
  nsim (sA s') = length (calls (sA s')) /\
  (length (calls (sA s')) <= Nat.max k0 (e_msimul E - 1 + length (s_Y (iS (sI s')))))%nat.
Proof.
  intros B R PS. pose proof (evaluations _ _ _ _ B R) as (I1 & I2).
  destruct (pass_return _ _ _ _ _ _ _ _ B R PS) as (_ & K).
  assert (N : nsim (sA s') = length (calls (sA s'))) by apply (pr_ok _ _ _ _ _ _ K).
  split; auto.
  destruct (pr_why _ _ _ _ _ _ K) as [(_ & -> & _)|[(_ & -> & _)|(_ & H1 & _ & H2 & _)]]; lia.
Qed.

(** C04 *)
Lemma run_ends n : forall ans k s, Inv E s -> (e_miter E - niter (sN s) < n)%nat -> run E n ans k s <> None.
Proof.
  induction n as [|n IH]; intros ans k s I H; [lia|]. cbn [run].
  pose proof (pass_ok E s (ans k) I SN) as K.
  destruct (pass E s (ans k)) as [s'|fl s' f|] eqn:PS; try discriminate.
  apply IH; [apply (pp_inv _ _ _ _ K)|]. pose proof (pp_enter _ _ _ _ K). pose proof (pp_niter _ _ _ _ K). lia.
Qed.

Lemma terminates k0 d0 s0 : begins E k0 d0 s0 -> forall ans k, run E (S (e_miter E)) ans k s0 <> None.
Proof. intros B ans k. apply run_ends; [eapply begins_inv; eauto|lia]. Qed.

(** C05 *)
Lemma codes k0 d0 s0 s a fl s' f : begins E k0 d0 s0 -> reach E s0 s -> pass E s a = Return fl s' f ->
  In fl [0; 3; 5; 6; 15; 30]%nat /\
  (fl = 5%nat <-> (e_miter E <= niter (sN s))%nat) /\
  (fl = 6%nat <-> (niter (sN s) < e_miter E /\ e_msimul E <= nsim (sA s))%nat) /\
  (fl = 30%nat -> inject_Z (10 ^ 299) < sigma (sG s') \/ a_minf a = true).
Proof.
  intros B R PS. destruct (pass_return _ _ _ _ _ _ _ _ B R PS) as (_ & K).
  destruct (pr_why _ _ _ _ _ _ K) as [(-> & _ & H)|[(-> & _ & H1 & H2)|(H1 & H2 & _ & _ & H)]].
  - split; [cbn; auto 10|]. split; [tauto|]. split; [split; [discriminate|lia]|discriminate].
  - split; [cbn; auto 10|]. split; [split; [discriminate|lia]|]. split; [tauto|discriminate].
  - destruct H as [(-> & _)|[(-> & _)|[(-> & _ & H)|(-> & _)]]];
      (split; [cbn; auto 10|split; [split; [discriminate|lia]|split; [split; [discriminate|lia]|first [discriminate|auto]]]]).
Qed.

(** C06 *)
Lemma incumbent_evaluated k0 d0 s0 s : begins E k0 d0 s0 -> reach E s0 s ->
  evaluated E (calls (sA s)) (ix (sI s)) (ifx (sI s)) /\
  nth_error (Xs (sA s)) (ib (sI s)) = Some (ix (sI s)).
Proof. intros B R. apply ret_evaluated, stOK_ret, (reach_inv _ _ _ _ B R). Qed.

Lemma returned_evaluated k0 d0 s0 s a fl s' f : begins E k0 d0 s0 -> reach E s0 s -> pass E s a = Return fl s' f ->
  evaluated E (calls (sA s')) (ix (sI s')) (ifx (sI s')) /\
  nth_error (Xs (sA s')) (ib (sI s')) = Some (ix (sI s')).
Proof. 
  intros B R PS. destruct (pass_return _ _ _ _ _ _ _ _ B R PS) as (_ & K).
  apply ret_evaluated, (pr_ok _ _ _ _ _ _ K).
Qed.

(** C07 *)
Lemma accepted_merit k0 d0 s0 s a s' : begins E k0 d0 s0 -> reach E s0 s -> pass E s a = Continue s' ->
  ib (sI s') = mlast (sA s') ->
  ix (sI s') = a_xnew a /\ merit (sG s') < merit0 (sG s') /\
  merit0 (sG s') == f0 (sG s') + sigma (sG s') * ce0n (sG s') /\
  merit (sG s') = ifx (sI s') + sigma (sG s') * cn E (resid (a_slplus a) (ceplus (sG s'))).
Proof.
  intros B R PS IB. destruct (pass_continue _ _ _ _ _ _ B R PS) as (_ & K).
  destruct (pp_acc _ _ _ _ K IB) as (K1 & K2 & K3). split; auto. split; auto. split; auto. apply (pp_merit0 _ _ _ _ K).
Qed.

Lemma unconstrained_descent k0 d0 s0 s a s' : begins E k0 d0 s0 -> reach E s0 s -> pass E s a = Continue s' ->
  rej (sG s) = false -> e_me E = 0%nat -> ifx (sI s') <= ifx (sI s).
Proof. intros B R PS. destruct (pass_continue _ _ _ _ _ _ B R PS) as (_ & K). apply (pp_f0 _ _ _ _ K). Qed.

(** C08 *)
Lemma penalty k0 d0 s0 s a s' : begins E k0 d0 s0 -> reach E s0 s -> pass E s a = Continue s' ->
  sigma (sG s0) = 1 /\ 1 <= sigma (sG s) /\
  (sigma (sG s') = sigma (sG s) \/ (3 # 2) * sigma (sG s) <= sigma (sG s')) /\
  (0 < a_rpred a -> pred (sG s') == - a_qcost a + sigma (sG s') * a_rpred a /\
     (3 # 10) * sigma (sG s') * a_rpred a <= pred (sG s')).
Proof.
  intros B R PS. destruct (pass_continue _ _ _ _ _ _ B R PS) as (I & K).
  split; [apply (begins_facts _ _ _ B)|]. split; [apply I|]. split; [apply (pp_sigma _ _ _ _ K)|].
  apply (pp_pred _ _ _ _ K).
Qed.

(** C09 *)
Lemma radius_low k0 d0 s0 s : begins E k0 d0 s0 -> reach E s0 s ->
  0 < delta (sG s) /\ (d0 <= delta (sG s) \/ (1 # 10000000000) <= delta (sG s)).
Proof.
  intros B R. split; [apply (reach_inv _ _ _ _ B R)|]. induction R as [|s a s' R IH PS].
  - destruct (begins_facts _ _ _ B) as (_ & _ & -> & _). left. apply Qle_refl.
  - destruct (pass_continue _ _ _ _ _ _ B R PS) as (_ & K). pose proof (pp_dlo _ _ _ _ K). unfold tiny in *. lra.
Qed.

Notation reach_if := (reach_if E).

Lemma reach_if_reach Q s0 s : reach_if Q s0 s -> reach E s0 s.
Proof. intros H. induction H; [constructor|econstructor; eauto]. Qed.

Lemma radius_high k0 d0 s0 s : begins E k0 d0 s0 -> reach_if (fun a => a_active a = false) s0 s ->
  delta (sG s) <= d0 \/ delta (sG s) <= 100000.
Proof.
  intros B R. assert (H : delta (sG s) <= qmax d0 Deltamax /\ epsc (sG s) <= qmax d0 Deltamax).
  { induction R as [|s a s' R IH QA PS].
    - destruct (begins_facts _ _ _ B) as (_ & _ & -> & _ & -> & _).
      pose proof (qmax_ge_l d0 Deltamax). pose proof (qmax_ge_r d0 Deltamax). unfold epsilon, Deltamax in *. lra.
    - destruct (pass_continue _ _ _ _ _ _ B (reach_if_reach _ _ _ R) PS) as (_ & K).
      apply (pp_dhi _ _ _ _ K); try apply IH; auto. apply qmax_ge_r. }
  destruct (qmax_cases d0 Deltamax) as [M|M]; rewrite M in H; [left|right]; apply H.
Qed.

(** C10 *)
Lemma bookkeeping k0 d0 s0 s : begins E k0 d0 s0 -> reach E s0 s ->
  same_points E s /\ incumbent_first s /\ (tame E -> e_me E <> 0%nat -> same_constraints s).
Proof.
  intros B R. pose proof (reach_inv _ _ _ _ B R) as ((O & SO & IO) & _).
  destruct SO as (S1 & S2 & S3 & S4 & S5 & S6 & S7 & S8 & S9 & S10).
  pose proof O as (O1 & O2 & O3 & O4 & O5 & O6 & O7 & O8).
  split; [|split].
  - split; [auto|]. split; [auto|]. split; [auto|]. intros j y J.
    destruct (S9 _ _ J) as (i & f & K1 & K2 & K3 & K4). exists i, f. eauto 10.
  - exact IO.
  - intros T M. split; [apply S6; auto|]. intros j i J. rewrite (S10 T M _ _ J).
    destruct (nth_error_ex (ceXs (sA s)) i) as (c & C); [|eauto].
    rewrite O5 by auto. apply nth_error_In in J. apply S8 in J. lia.
Qed.

(** C16 *)
Lemma failures_continue k0 d0 s0 s a s' : begins E k0 d0 s0 -> reach E s0 s -> pass E s a = Continue s' ->
  new_calls_good E s s'.
Proof. intros B R PS. destruct (pass_continue _ _ _ _ _ _ B R PS) as (_ & K). apply (pp_good _ _ _ _ K). Qed.

Lemma failures_return k0 d0 s0 s a fl s' f : begins E k0 d0 s0 -> reach E s0 s -> pass E s a = Return fl s' f ->
  (fl <> 3%nat -> new_calls_good E s s') /\
  (fl = 3%nat -> exists cl, calls (sA s') = cl ++ [a_xnew a] /\ ~ good_call E (length cl) (a_xnew a) /\
     (forall k y, nth_error cl k = Some y -> (length (calls (sA s)) <= k)%nat -> good_call E k y)).
Proof.
  intros B R PS. destruct (pass_return _ _ _ _ _ _ _ _ B R PS) as (_ & K).
  assert (SG : forall s, new_calls_good E s s).
  { intros s1 k y H L. apply nth_error_len in H. lia. }
  destruct (pr_why _ _ _ _ _ _ K) as [(-> & -> & H)|[(-> & -> & H1 & H2)|(H1 & H2 & _ & _ & H)]].
  - split; [auto|discriminate].
  - split; [auto|discriminate].
  - destruct H as [(-> & H & _)|[(-> & H)|[(-> & H & _)|(-> & H)]]]; (split; [|try discriminate]); auto.
    intros H3; exfalso; apply H3; reflexivity.
Qed.

(** C53 *)
Lemma store_none (S : iset P) Y pos m f : e_me E <> 0%nat -> store E S Y pos m f [] = None.
Proof. unfold store. destruct (e_me E) eqn:M; [congruence|]. cbn. reflexivity. Qed.

Lemma reject_same a A I N G succ fxp s' : e_me E <> 0%nat -> ceplus G = [] ->
  reject E a A I N G succ fxp = Continue s' -> sI s' = I.
Proof.
  intros M C. unfold reject, reduce, finish_rej, replaced_by_trial.
  cbv zeta. cbn [delta sigma epsc pred rej f0 ce0n merit0 merit pm sl ceplus]. rewrite C.
  destruct (_ && _)%bool.
  { destruct (augment_Y _ _ _ _). rewrite store_none by auto. discriminate. }
  destruct (_ || _)%bool.
  - destruct (include_in_Y _ _ _ _ _ _ _ _ _ _) as ((Y1, [p1|]), x1); [rewrite store_none by auto; discriminate|].
    destruct (include_in_Y _ _ _ _ _ _ _ _ _ _) as ((Y2, [p2|]), x2); [rewrite store_none by auto; discriminate|].
    destruct (_ || _)%bool; [discriminate|]. destruct (a_exc4 a); [discriminate|]. intros H; injection H as <-. reflexivity.
  - destruct (_ || _)%bool; [discriminate|]. destruct (a_exc4 a); [discriminate|]. intros H; injection H as <-. reflexivity.
Qed.

Lemma accept_same a A I N G rho fxp s' : e_me E <> 0%nat -> ceplus G = [] ->
  accept E a A I N G rho fxp = Continue s' -> sI s' = I.
Proof.
  intros M C. unfold accept.
  destruct (if can_augment E _ then _ else _) as ((Y1, [p1|]), x1).
  - rewrite C, store_none by auto. discriminate.
  - apply reject_same; auto.
Qed.

(** the state before the step of a pass *)
Lemma pass_step s a s' : pass E s a = Continue s' -> exists s2,
  step E s2 a = Continue s' /\ ((sA s2 = sA s /\ sI s2 = sI s /\ sG s2 = sG s /\ inff (sN s2) = inff (sN s) /\
      ince (sN s2) = ince (sN s)) \/
    exists s1, improve E s1 a = Continue s2 /\ sA s1 = sA s /\ sI s1 = sI s /\ sG s1 = sG s /\
      inff (sN s1) = inff (sN s) /\ ince (sN s1) = ince (sN s)).
Proof.
  unfold pass. destruct (_ <=? _)%nat; [discriminate|]. destruct (_ <=? _)%nat; [discriminate|].
  destruct (a_exc1 a); [discriminate|].
  destruct (_ || _)%bool.
  - destruct (_ && _)%bool; [discriminate|].
    match goal with |- context [improve E ?s1 a] => set (s1' := s1) end.
    destruct (improve E s1' a) as [s2|fl s2 f|] eqn:IM; [|discriminate|discriminate].
    intros H. exists s2. split; auto. right. exists s1'. cbn. auto 10.
  - intros H. eexists. split; [exact H|]. left. cbn. auto 10.
Qed.

Lemma zero_constraints k0 d0 s0 s a s' : begins E k0 d0 s0 -> reach E s0 s -> pass E s a = Continue s' ->
  tame E -> e_me E <> 0%nat -> all_zero (ceXs (sA s')) ->
  ~ In (mlast (sA s')) (s_ind (iS (sI s'))) /\ ib (sI s') <> mlast (sA s').
Proof.
  intros B R PS T M AZ. destruct (pass_continue _ _ _ _ _ _ B R PS) as (IV & K).
  destruct (pass_step _ _ _ PS) as (s2 & ST & PRE).
  assert (IV2 : Inv E s2).
  { destruct PRE as [(P1 & P2 & P3 & P4 & P5)|(s1 & IM & P1 & P2 & P3 & P4 & P5)].
    - destruct s2 as [A2 I2 N2 G2]. cbn in *. subst. destruct IV as (V1 & V2 & V3 & V4 & V5 & V6 & V7).
      unfold Inv. cbn [sA sI sN sG]. rewrite P4, P5. auto 10.
    - assert (IV1 : Inv E s1).
      { destruct s1 as [A2 I2 N2 G2]. cbn in *. subst. destruct IV as (V1 & V2 & V3 & V4 & V5 & V6 & V7).
        unfold Inv. cbn [sA sI sN sG]. rewrite P4, P5. auto 10. }
      pose proof (improve_ok E s1 a IV1 SN) as K1. rewrite IM in K1. apply K1. }
  pose proof IV2 as (SO2 & D2 & S2 & Z2 & _).
  assert (SP : 0 < sigma (sG s2)) by lra.
  assert (SAME : sI s' = sI s2 /\ mlast (sA s') = S (mlast (sA s2))).
  { pose proof (step_ok E s2 a IV2 (proj2 SN)) as PO. rewrite ST in PO.
    split; [|apply (sp_mlast _ _ _ _ PO)].
    pose proof (pp_inv _ _ _ _ K) as (_ & _ & _ & Z' & _). specialize (Z' T AZ).
    pose proof (step_cases E s2 a SP) as SC. rewrite ST in SC.
    inversion SC as [ | | | | A f c cX cp EA CE PE H0 | A f c cX cp pr rho EA CE PR PP RH ER LT H0
                  | A f c cX cp pr EA CE PR PP RH H0 ].
    - reflexivity.
    - pose proof (G2_same E s2 a) as (G21 & _).
      assert (SH := accept_shape E a (with_ce A cX) (sI s2) (st_N3 s2 f) (st_G3 E s2 a pr f cp) rho (qmin c1e25 f)).
      rewrite H0 in SH. cbn [st_G3 delta] in SH. rewrite G21 in SH.
      destruct (SH D2) as (_ & (_ & _ & _ & _ & _ & _ & CC & _) & _). cbn [ceplus] in CC.
      eapply accept_same; [exact M| |exact H0]. congruence.
    - pose proof (G2_same E s2 a) as (G21 & _).
      assert (SH := reject_shape E a (with_ce A cX) (sI s2) (st_N3 s2 f) (st_G3 E s2 a pr f cp) false (qmin c1e25 f)).
      rewrite H0 in SH. cbn [st_G3 delta] in SH. rewrite G21 in SH.
      destruct (SH D2) as (_ & (_ & _ & _ & _ & _ & _ & CC & _) & _). cbn [ceplus] in CC.
      eapply reject_same; [exact M| |exact H0]. congruence. }
  destruct SAME as (SI & ML). rewrite SI, ML.
  destruct SO2 as (_ & (_ & _ & _ & _ & _ & _ & _ & S8 & _) & (_ & I2 & _)).
  split.
  - intros H. apply S8 in H. lia.
  - apply nth_error_In in I2. apply S8 in I2. lia.
Qed.

End Proofs3.
