(** Invariants of a whole pass of the main loop. *)
From Coq Require Import List Arith ZArith QArith Qabs Bool Lia Lqa Psatz.
Import ListNotations.
From Verif Require Import QB Book_Model Book_Spec Book_Proofs Main_Model Main_Spec Main_Proofs.
Local Open Scope Q_scope.

Lemma overwrite_tame c c' : overwrite_ce c = Some c' ->
  (forall col v, In col c -> In v col -> ~ huge v) -> c' = c.
Proof.
  intros H T. destruct (overwrite_finite _ _ H) as ((L & SH) & EQ).
  apply list_ext. intros i. destruct (nth_error c i) as [col|] eqn:C.
  - destruct (nth_error_ex c' i) as (col' & C'); [rewrite L; eapply nth_error_len; eauto|].
    rewrite C'. f_equal. pose proof (SH _ _ _ C C') as LC.
    apply list_ext. intros j. destruct (nth_error col j) as [v|] eqn:V.
    + destruct (nth_error_ex col' j) as (v' & V'); [rewrite LC; eapply nth_error_len; eauto|].
      rewrite V'. f_equal. apply (EQ i j v v'); [exists col; auto|exists col'; auto|].
      eapply T; eapply nth_error_In; eauto.
    + apply nth_error_None in V. apply nth_error_None. lia.
  - apply nth_error_None in C. apply nth_error_None. lia.
Qed.

Section Proofs2.
Context {P : Type}.
Variable E : env P.

Notation archOK := (archOK E).
Notation setOK := (setOK E).
Notation stOK := (stOK E).

Definition zOK (s : st P) : Prop := tame E -> all_zero (ceXs (sA s)) -> ceplus (sG s) = [].

Lemma archOK_ce A cX : archOK A ->
  (any_ce (ceXs A) = true /\ overwrite_ce (ceXs A) = Some cX) \/ cX = ceXs A ->
  archOK (with_ce A cX) /\ (tame E -> cX = ceXs A).
Proof.
  intros O [(_ & H)| ->].
  - pose proof O as (O1 & O2 & O3 & O4 & O5 & O6 & O7 & O8).
    assert (T : tame E -> cX = ceXs A) by (intros T; apply overwrite_tame; auto; intros; eapply O8; eauto).
    split; auto. destruct (overwrite_finite _ _ H) as ((L & SH) & _).
    unfold Main_Proofs.archOK, with_ce. cbn [nsim calls mlast Xs fXs ceXs].
    split; [auto|]. split; [auto|]. split; [auto|]. split; [|split; [|split; [|split]]]; auto.
    + intros M. rewrite (O4 M) in L. destruct cX; auto. discriminate.
    + intros M. rewrite L. auto.
    + intros c I. apply In_nth_error in I. destruct I as (i & I).
      destruct (nth_error_ex (ceXs A) i) as (c0 & C0); [rewrite <- L; eapply nth_error_len; eauto|].
      rewrite (SH _ _ _ C0 I). apply O6. eapply nth_error_In; eauto.
    + intros T' c v. rewrite (T T'). apply O8; auto.
  - split; auto.
Qed.

Lemma extc_in A A' c : archOK A -> extc A A' -> In c (ceXs A) -> In c (ceXs A').
Proof.
  intros (_ & _ & _ & O4 & O5 & _) X I. destruct (Nat.eq_dec (e_me E) 0) as [M|M].
  - rewrite (O4 M) in I. contradiction.
  - apply In_nth_error in I. destruct I as (i & I). apply (nth_error_In _ i). rewrite X; auto.
    apply nth_error_len in I. rewrite O5 in I by auto. lia.
Qed.

(** after the evaluation of the trial point *)
Lemma trial_ready s a A f c cX cp G3 : stOK s -> zOK s -> eval_at E (sA s) (a_xnew a) = EDone A f c ->
  new_ce A (ceplus (sG s)) cX cp -> ceplus G3 = cp ->
  archOK (with_ce A cX) /\ trialOK E (with_ce A cX) (sI s) G3 (a_xnew a) (qmin c1e25 f) (mlast (sA s)) /\
  ext (sA s) (with_ce A cX) /\ calls A = calls (sA s) ++ [a_xnew a] /\ mlast A = S (mlast (sA s)) /\
  good_call E (length (calls (sA s))) (a_xnew a) /\
  (tame E -> all_zero cX -> cp = []) /\
  (e_me E = 0%nat -> cp = ceplus (sG s)).
Proof.
  intros (O & SO & IO) Z EA CE EG.
  destruct (eval_at_done _ _ _ _ _ _ O EA) as (O1 & X1 & XC & M1 & CL & HX & HF & HC & LC & G).
  destruct (archOK_ce A cX O1) as (O2 & T2).
  { destruct CE as [(C1 & C2 & _)|(C1 & C2 & _)]; auto. }
  assert (X2 : ext (sA s) (with_ce A cX)) by exact X1.
  assert (ZZ : any_ce (ceXs A) = false -> tame E -> ceplus (sG s) = []).
  { intros AC T. apply Z; auto. apply any_ce_false in AC. intros col I v V. apply (AC col); auto.
    exact (extc_in _ _ _ O XC I). }
  split; auto. split; [|split; [auto|split; [auto|split; [auto|split; [auto|split]]]]].
  - split; [|split; [cbn; lia|split; [auto|split; [auto|split; [auto|]]]]].
    + eapply setOK_ext; eauto. intros T. unfold extc, with_ce. cbn [ceXs]. rewrite (T2 T). exact XC.
    + rewrite EG. intros T M NE. unfold with_ce. cbn [ceXs mlast].
      destruct CE as [(C1 & C2 & C3)|(C1 & C2 & C3)]; [exact C3|].
      exfalso. apply NE. rewrite C3. auto.
  - intros T AZ. destruct CE as [(C1 & C2 & C3)|(C1 & C2 & C3)].
    + exfalso. apply any_ce_true in C1. apply C1. rewrite <- (T2 T). exact AZ.
    + rewrite C3. auto.
  - intros M. destruct CE as [(C1 & _)|(_ & _ & C3)]; auto.
    destruct O1 as (_ & _ & _ & O4 & _). rewrite (O4 M) in C1. discriminate.
Qed.

(** the invariant *)
Definition Inv (s : st P) : Prop :=
  stOK s /\ 0 < delta (sG s) /\ 1 <= sigma (sG s) /\ zOK s /\
  (rej (sG s) = true -> merit0 (sG s) == f0 (sG s) + sigma (sG s) * ce0n (sG s)) /\
  (rej (sG s) = false -> pred (sG s) = -1 \/ capped (inff (sN s)) (ifx (sI s))) /\
  (e_me E = 0%nat -> ceplus (sG s) = [] /\ ince (sN s) = []).

(** what holds of a returned state *)
Definition retOK (s : st P) : Prop :=
  archW E (sA s) /\ setOK (sA s) (mlast (sA s)) (iS (sI s)) /\
  incOK (iS (sI s)) (ix (sI s)) (ifx (sI s)) (ib (sI s)).

Lemma stOK_ret s : stOK s -> retOK s.
Proof. intros (O & S & I). split; auto. apply archOK_W; auto. Qed.

Lemma sg_cases s a : 1 <= sigma (sG s) ->
  (st_sg E s a = sigma (sG s) \/ (3 # 2) * sigma (sG s) <= st_sg E s a) /\ 1 <= st_sg E s a /\
  (0 < a_rpred a -> a_qcost a <= (7 # 10) * st_sg E s a * a_rpred a).
Proof.
  intros S1. pose proof (memo_same E (sN s) (sG s)) as (M1 & _). unfold st_sg, st_G1.
  pose proof (new_sigma_cases (memo E (sN s) (sG s)) a) as K. cbv zeta in K. rewrite M1 in K.
  specialize (K ltac:(lra)). set (ns := new_sigma (memo E (sN s) (sG s)) a) in *.
  assert (QC : 0 < a_rpred a -> forall t, (if qeqb (a_rpred a) 0 then 0 else a_qcost a / ((1 - rho_factor) * a_rpred a)) <= t ->
     a_qcost a <= (7 # 10) * t * a_rpred a).
  { intros RP t. replace (qeqb (a_rpred a) 0) with false by (symmetry; apply qeqb_false; lra).
    intros H. assert (DP : 0 < (1 - rho_factor) * a_rpred a) by (unfold rho_factor; nra).
    apply (Qmult_le_compat_r _ _ ((1 - rho_factor) * a_rpred a)) in H; [|lra].
    setoid_replace (a_qcost a / ((1 - rho_factor) * a_rpred a) * ((1 - rho_factor) * a_rpred a))
      with (a_qcost a) in H by (field; unfold rho_factor; split; [lra|discriminate]).
    unfold rho_factor in H. setoid_replace ((7 # 10) * t * a_rpred a) with (t * ((1 - (3 # 10)) * a_rpred a)) by ring.
    exact H. }
  destruct K as [(K1 & K2)|(K1 & K2 & K3)].
  - split; [auto|]. rewrite K2. split; [auto|]. intros RP. apply QC; auto.
  - split; [auto|]. split; [lra|]. intros RP. apply QC; auto.
Qed.

Lemma G2_same s a : delta (st_G2 E s a) = delta (sG s) /\ sigma (st_G2 E s a) = st_sg E s a /\
  ceplus (st_G2 E s a) = ceplus (sG s) /\ sl (st_G2 E s a) = sl (sG s) /\
  epsc (st_G2 E s a) = epsc (sG s) /\ rej (st_G2 E s a) = rej (sG s) /\ pred (st_G2 E s a) = pred (sG s).
Proof.
  pose proof (memo_same E (sN s) (sG s)) as (M1 & M2 & M3 & M4 & M5 & M6 & M7 & M8).
  unfold st_G2, with_sigma, st_G1. cbn. auto 10.
Qed.

Lemma G2_merit0 s a : (rej (sG s) = true -> merit0 (sG s) == f0 (sG s) + sigma (sG s) * ce0n (sG s)) ->
  merit0 (st_G2 E s a) == f0 (st_G2 E s a) + st_sg E s a * ce0n (st_G2 E s a).
Proof.
  intros H. unfold st_G2, with_sigma. cbn [merit0 f0 ce0n].
  destruct (negb (qeqb (st_sg E s a) (sigma (st_G1 E s)))) eqn:C; [reflexivity|].
  apply negb_false_iff in C. apply qeqb_iff in C. rewrite C.
  unfold st_G1, memo. destruct (rej (sG s)) eqn:R; cbn [merit0 f0 ce0n sigma]; [auto|reflexivity].
Qed.

Lemma G2_f0 s a : rej (sG s) = false -> f0 (st_G2 E s a) = inff (sN s) /\
  ce0n (st_G2 E s a) = cn E (resid (sl (sG s)) (ince (sN s))).
Proof.
  intros R. unfold st_G2, with_sigma, st_G1, memo. rewrite R. cbn. auto.
Qed.

(** everything a step guarantees when the loop goes on *)
Record step_post (s : st P) (a : answers P) (s' : st P) : Prop := mksp {
  sp_inv : Inv s';
  sp_ext : ext (sA s) (sA s');
  sp_calls : calls (sA s') = calls (sA s) ++ [a_xnew a];
  sp_good : good_call E (length (calls (sA s))) (a_xnew a);
  sp_len : (length (s_Y (iS (sI s))) <= length (s_Y (iS (sI s'))))%nat;
  sp_niter : niter (sN s') = S (niter (sN s));
  sp_mlast : mlast (sA s') = S (mlast (sA s));
  sp_sigma : sigma (sG s') = st_sg E s a;
  sp_pred : pred (sG s') = new_pred (a_qcost a) (st_sg E s a) (a_rpred a);
  sp_dlo : delta (sG s) <= delta (sG s') \/ tiny <= delta (sG s');
  sp_dhi : delta (sG s') <= delta (sG s) \/ delta (sG s') <= Deltamax \/
           (a_active a = true /\ delta (sG s') == 2 * delta (sG s));
  sp_epsc : epsc (sG s') = epsc (sG s);
  sp_f0 : f0 (sG s') = f0 (st_G2 E s a);
  sp_ce0n : ce0n (sG s') = ce0n (st_G2 E s a);
  sp_merit0 : merit0 (sG s') == f0 (sG s') + sigma (sG s') * ce0n (sG s');
  sp_merit : exists v c, answered E (length (calls (sA s))) (a_xnew a) v c /\
     merit (sG s') = qmin c1e25 v + sigma (sG s') * cn E (resid (a_slplus a) (ceplus (sG s')));
  sp_new : ib (sI s') = ib (sI s) /\ ix (sI s') = ix (sI s) /\ ifx (sI s') = ifx (sI s) \/
     ib (sI s') = mlast (sA s') /\ ix (sI s') = a_xnew a /\ merit (sG s') < merit0 (sG s') /\
     (exists v c, answered E (length (calls (sA s))) (a_xnew a) v c /\ ifx (sI s') = qmin c1e25 v /\
        merit (sG s') = ifx (sI s') + sigma (sG s') * cn E (resid (a_slplus a) (ceplus (sG s'))))
}.

Record ret_post (s : st P) (a : answers P) (fl : nat) (s' : st P) (f : xQ) : Prop := mkrp {
  rp_ok : retOK s';
  rp_niter : niter (sN s') = S (niter (sN s));
  rp_inc : sI s' = sI s;
  rp_why :
    (fl = 30%nat /\ calls (sA s') = calls (sA s) /\ inject_Z (10 ^ 299) < sigma (sG s') /\
       f = Fin (inff (sN s))) \/
    (fl = 3%nat /\ calls (sA s') = calls (sA s) ++ [a_xnew a] /\
       ~ good_call E (length (calls (sA s))) (a_xnew a)) \/
    (fl = 30%nat /\ calls (sA s') = calls (sA s) ++ [a_xnew a] /\
       good_call E (length (calls (sA s))) (a_xnew a) /\ a_minf a = true) \/
    (fl = 15%nat /\ calls (sA s') = calls (sA s) ++ [a_xnew a] /\
       good_call E (length (calls (sA s))) (a_xnew a) /\
       (delta (sG s') < stallfact * e_norm E (ix (sI s)) \/ delta (sG s') < tiny))
}.

Lemma incumbent_same A b b' S S' x x' fx fx' i : setOK A b S -> setOK A b' S' ->
  incOK S x fx i -> incOK S' x' fx' i -> x' = x.
Proof.
  intros (_ & _ & _ & _ & _ & _ & _ & _ & H & _) (_ & _ & _ & _ & _ & _ & _ & _ & H' & _) (Y & I & _) (Y' & I' & _).
  destruct (H _ _ Y) as (n & g & N & X & _). destruct (H' _ _ Y') as (n' & g' & N' & X' & _). congruence.
Qed.

Lemma done_answered A y A' f c : eval_at E A y = EDone A' f c ->
  exists c0, answered E (length (calls A)) y f c0.
Proof.
  unfold eval_at. destruct (eval_user (e_user E (length (calls A)) y)) as [f' c'|] eqn:EU; [|discriminate].
  destruct (length c' =? e_me E)%nat; [|discriminate]. intros H; injection H as _ <- _.
  apply eval_user_ok in EU. destruct EU as (c0 & AN & _). eauto.
Qed.

Lemma step_ok s a : Inv s -> (e_pfinal E <= e_pquad E)%nat ->
  match step E s a with
  | Crash => True
  | Continue s' => step_post s a s'
  | Return fl s' f => ret_post s a fl s' f
  end.
Proof.
  intros (SO & D & S1 & Z & M0 & CF & C0) HQ.
  pose proof (sg_cases s a S1) as (SG1 & SG2 & SG3).
  pose proof (G2_same s a) as (G21 & G22 & G23 & G24 & G25 & G26 & G27).
  pose proof (G2_merit0 s a M0) as G2M.
  assert (SP : 0 < sigma (sG s)) by lra.
  pose proof (step_cases E s a SP) as SC.
  (* accepted and rejected steps together *)
  assert (MAIN : forall A f c cX cp pr succ o,
    eval_at E (sA s) (a_xnew a) = EDone A f c -> new_ce A (ceplus (sG s)) cX cp ->
    pr = new_pred (a_qcost a) (st_sg E s a) (a_rpred a) -> 0 < pr ->
    (succ = true -> st_mer E s a f cp < merit0 (st_G2 E s a)) ->
    good_end E (with_ce A cX) (sI s) o ->
    shape E a (with_ce A cX) (sI s) (st_N3 s f) (st_G3 E s a pr f cp) succ (qmin c1e25 f) o ->
    match o with
    | Crash => True
    | Continue s' => step_post s a s'
    | Return fl s' f => ret_post s a fl s' f
    end).
  { intros A f c cX cp pr succ o EA CE PR PP SM GE SH.
    destruct (trial_ready s a A f c cX cp (st_G3 E s a pr f cp) SO Z EA CE eq_refl) as (O2 & T2 & X2 & CL & ML & GC & ZC & ZC0').
    assert (ZC0 : e_me E = 0%nat -> cp = []) by (intros M; rewrite (ZC0' M); apply C0; auto).
    destruct (done_answered _ _ _ _ _ EA) as (c0 & AN).
    destruct o as [s'|fl s' fv|]; [| |exact Logic.I].
    - destruct GE as (GA & GS & GI & GL). destruct SH as (N1 & R & _ & INC & RJ & IC).
      destruct R as (R1 & R2 & R3 & R4 & R5 & R6 & R7 & R8 & R9 & R10).
      cbn [st_G3 sigma pred f0 ce0n merit0 merit ceplus epsc delta] in R1, R2, R3, R4, R5, R6, R7, R8, R9, R10.
      rewrite G21 in R9, R10.
      assert (M0' : merit0 (sG s') == f0 (sG s') + sigma (sG s') * ce0n (sG s')).
      { rewrite R5, R3, R1, R4. exact G2M. }
      constructor.
      + split; [|split; [|split; [|split; [|split; [|split]]]]].
        * split; [rewrite GA; auto|]. rewrite GA. auto.
        * destruct R9 as [R9|R9]; [lra|unfold tiny in R9; lra].
        * rewrite R1. exact SG2.
        * intros T AZ. rewrite R7. apply ZC; auto. rewrite GA in AZ. exact AZ.
        * intros _. exact M0'.
        * intros RF. right. destruct RJ as [RJ|(RJ1 & RJ2)]; [congruence|].
          rewrite RJ1, RJ2. apply capped_qmin.
        * intros M. rewrite (IC M), R7. split; [|apply C0; auto]. apply ZC0; auto.
      + rewrite GA. exact X2.
      + rewrite GA. exact CL.
      + exact GC.
      + exact GL.
      + exact N1.
      + rewrite GA. exact ML.
      + exact R1.
      + rewrite R2. exact PR.
      + exact R9.
      + exact R10.
      + rewrite R8. auto.
      + exact R3.
      + exact R4.
      + exact M0'.
      + exists f, c0. split; auto. rewrite R6, R1, R7. reflexivity.
      + destruct INC as [(I1 & I2)|(I0 & I1 & I2)].
        * left. split; auto. split; auto.
          destruct T2 as (T21 & _ & T23 & _). rewrite I2 in GI. eapply incumbent_same; [exact T21|exact GS|exact T23|exact GI].
        * right. rewrite GA. split; auto. split.
          -- destruct T2 as (_ & _ & _ & TX & _). destruct GI as (GI1 & GI2 & _).
             destruct GS as (_ & _ & _ & _ & _ & _ & _ & _ & GS & _).
             destruct (GS _ _ GI1) as (n & g & GS1 & GS2 & _). congruence.
          -- split; [rewrite R6, R5; auto|]. exists f, c0. split; auto. split; auto.
             rewrite R6, R1, R7, I2. reflexivity.
    - destruct GE as (GA & GS & GI & GL). destruct SH as (F15 & N1 & FV & DD & II).
      constructor; auto.
      + split; [rewrite GA; apply archOK_W; auto|]. rewrite GA. auto.
      + right. right. right. rewrite GA. auto. }
  inversion SC as [ H0 | X1 X2 H0 | A v EA H0 | A f c cX cp EA CE MI H0
                  | A f c cX cp EA CE PE H0 | A f c cX cp pr rho EA CE PR PP RH ER LT H0
                  | A f c cX cp pr EA CE PR PP RH H0 ].
  - exact Logic.I.
  - constructor; [apply stOK_ret in SO; exact SO|reflexivity|reflexivity|].
    left. cbn [sA sG with_sigma sigma]. split; [reflexivity|]. split; [reflexivity|]. split; [exact X2|reflexivity].
  - pose proof SO as (O & SS & IO).
    destruct (eval_at_fail _ _ _ _ _ O EA) as (W & X & ML & CL & NG & CC).
    constructor; [|reflexivity|reflexivity|].
    + split; [auto|]. cbn [sA sI]. split; [|exact IO].
      eapply setOK_ext; eauto; [|lia]. intros _ i Hi. rewrite CC. reflexivity.
    + right. left. auto.
  - destruct (trial_ready s a A f c cX cp (st_G3 E s a (pred (sG s)) f cp) SO Z EA CE eq_refl) as (O2 & T2 & X2 & CL & ML & GC & ZC & ZC0').
    assert (ZC0 : e_me E = 0%nat -> cp = []) by (intros M; rewrite (ZC0' M); apply C0; auto).
    pose proof (stepped_same E _ _ _ _ _ _ (st_N3 s f) (st_G3 E s a (pred (sG s)) f cp) T2) as (_ & K1 & K2 & _).
    constructor; [|reflexivity|reflexivity|].
    + split; [apply archOK_W; auto|]. auto.
    + right. right. left. auto.
  - destruct (trial_ready s a A f c cX cp (st_G3 E s a (-1) f cp) SO Z EA CE eq_refl) as (O2 & T2 & X2 & CL & ML & GC & ZC & ZC0').
    assert (ZC0 : e_me E = 0%nat -> cp = []) by (intros M; rewrite (ZC0' M); apply C0; auto).
    pose proof (stepped_same E _ _ _ _ _ _ (st_N3 s f) (st_G3 E s a (-1) f cp) T2) as (_ & K1 & K2 & _).
    destruct (done_answered _ _ _ _ _ EA) as (c0 & AN).
    constructor; cbn [sA sI sG sN st_G3 delta sigma pred epsc merit0 merit f0 ce0n ceplus rej]; auto.
    + split; [split; auto|]. cbn [sA sI sG sN st_G3 delta sigma pred epsc merit0 merit f0 ce0n ceplus rej].
      split; [rewrite G21; auto|]. split; [auto|]. split; [exact ZC|]. split; [intros _; exact G2M|].
      split; [auto|]. intros M. split; [apply ZC0; auto|apply C0; auto].
    + left. rewrite G21. apply Qle_refl.
    + left. rewrite G21. apply Qle_refl.
    + exists f, c0. split; auto. 
  - eapply MAIN with (succ := true); eauto.
    + destruct (trial_ready s a A f c cX cp (st_G3 E s a pr f cp) SO Z EA CE eq_refl) as (O2 & T2 & _).
      eapply accept_inv; eauto. cbn [st_G3 delta]. rewrite G21. auto.
    + apply accept_shape. cbn [st_G3 delta]. rewrite G21. auto.
  - eapply MAIN with (succ := false); eauto.
    + discriminate.
    + destruct (trial_ready s a A f c cX cp (st_G3 E s a pr f cp) SO Z EA CE eq_refl) as (O2 & T2 & _).
      eapply reject_inv; eauto. cbn [st_G3 delta]. rewrite G21. auto.
    + apply reject_shape. cbn [st_G3 delta]. rewrite G21. auto.
Qed.

(** ** Improvement, scalars *)

Lemma find_smallf_f (zero : P) ins cnm sg S x fx i r : find_smallf zero ins cnm sg S x fx i = Some r ->
  nth_error (s_f (r_set r)) 0 = Some (r_f r) /\ (s_ce (r_set r) = [] -> r_ce r = None).
Proof.
  unfold find_smallf. destruct (argmin _) as [(fm, im)|]; [|discriminate].
  destruct (if (_ && _)%bool then _ else _) as [(((S', x'), fx'), i')|]; [|discriminate].
  destruct (s_f S') as [|f1 t] eqn:F; [discriminate|]. intros H; injection H as <-. cbn. rewrite F. split; auto. intros ->. auto.
Qed.

(** the two ways of ending an improvement step *)
Definition cert2 (s2 : st P) : Prop :=
  glagn (sN s2) / factor_CV <= e_tolg E /\ feasn (sN s2) / factor_CV <= e_tolf E /\
  compl (sN s2) / factor_CV <= e_tolb E /\ errg (sN s2) <= epsilon.

Lemma improve_scal s a : 
  match improve E s a with
  | Crash => True
  | Continue s2 =>
      niter (sN s2) = niter (sN s) /\
      delta (sG s2) = new_radius (sG s) (sN s) (new_epsc E (sG s) (sN s)) /\
      tiny <= delta (sG s2) /\ epsc (sG s2) = new_epsc E (sG s) (sN s) /\
      sigma (sG s2) = sigma (sG s) /\ pred (sG s2) = pred (sG s) /\ rej (sG s2) = rej (sG s) /\
      f0 (sG s2) = f0 (sG s) /\ ce0n (sG s2) = ce0n (sG s) /\ merit0 (sG s2) = merit0 (sG s) /\
      sl (sG s2) = sl (sG s) /\ ceplus (sG s2) = ceplus (sG s) /\
      nth_error (s_f (iS (sI s2))) 0 = Some (inff (sN s2)) /\
      (s_ce (iS (sI s2)) = [] -> ince (sN s2) = ince (sN s))
  | Return fl s2 f =>
      (fl = 0%nat /\ niter (sN s2) = S (niter (sN s)) /\ cert2 s2 /\
         feasn (sN s2) = linf (resid (sl (sG s2)) (ince (sN s2))) /\ compl (sN s2) = 0 /\
         errg (sN s2) = poised (sN s2) * yrad (sN s2) / factor_CV) \/
      (fl = 15%nat /\ niter (sN s2) = niter (sN s) /\ sI s2 = sI s /\ sA s2 = sA s)
  end.
Proof.
  unfold improve.
  set (ec := new_epsc E (sG s) (sN s)). set (radius := new_radius (sG s) (sN s) ec).
  destruct (qltb radius (stallfact * e_norm E (ix (sI s))) || qltb radius tiny)%bool eqn:ST.
  { right. cbn. auto. }
  apply orb_false_iff in ST. destruct ST as (_ & ST). qb.
  destruct (repair_Y _ _ _ _ _ _ _ _ _ _ _) as [((((Y', repl), imp), rad), x')|]; [|exact Logic.I].
  destruct (match a_repoised a with Some pr => pr | None => (imp, rad) end) as (po, yr).
  destruct (eval_replaced _ _ _ _ _ _ _) as [(((A', ind'), fY'), ceY')|]; [|exact Logic.I].
  destruct (find_smallf _ _ _ _ _ _ _ _) as [r|] eqn:FS; [|exact Logic.I].
  apply find_smallf_f in FS. destruct FS as (FS & FC).
  destruct (a_exc2 a); [exact Logic.I|].
  destruct (_ && _)%bool eqn:TT; cbn [sN sG sI iS niter delta sigma epsc pred rej f0 ce0n merit0 sl ceplus inff].
  - left. repeat (apply andb_prop in TT; destruct TT as (TT & ?)).
    unfold cert2. cbn [sN glagn feasn compl errg ince poised yrad]. qb.
    split; [reflexivity|]. split; [reflexivity|]. split; [|repeat split; reflexivity]. split; [auto|split; [auto|split; auto]].
  - repeat (split; [reflexivity || exact ST|]). split; [exact FS|]. cbn [ince]. intros K. rewrite (FC K). reflexivity.
Qed.

Notation sane := (sane E).

Lemma evaluated_le cl y f : evaluated E cl y f -> f <= inject_Z (10 ^ 25).
Proof.
  intros (k & v & c & _ & _ & C1 & C2). destruct (Qlt_le_dec (inject_Z (10 ^ 25)) v) as [H|H].
  - rewrite (C2 H). apply Qle_refl.
  - rewrite (C1 H). exact H.
Qed.

Lemma ret_evaluated s : retOK s -> evaluated E (calls (sA s)) (ix (sI s)) (ifx (sI s)) /\
  nth_error (Xs (sA s)) (ib (sI s)) = Some (ix (sI s)).
Proof.
  intros ((_ & W) & (_ & _ & _ & _ & _ & _ & _ & _ & H & _) & (I1 & I2 & I3)).
  destruct (H _ _ I1) as (i & f & K1 & K2 & K3 & K4).
  assert (i = ib (sI s)) by congruence. assert (f = ifx (sI s)) by congruence. subst. split; eauto.
Qed.

Lemma improve_ok s a : Inv s -> sane ->
  match improve E s a with
  | Crash => True
  | Continue s2 => Inv s2 /\ improved E s s2 /\ inff (sN s2) = ifx (sI s2)
  | Return fl s2 f => retOK s2 /\ improved E s s2
  end.
Proof.
  intros (SO & D & S1 & Z & M0 & CF & C0) (SD & HQ).
  pose proof (improve_inv E s a SO SD) as K. pose proof (improve_scal s a) as L.
  destruct (improve E s a) as [s2|fl s2 f|]; [| |exact Logic.I].
  - destruct L as (L1 & L2 & L3 & L4 & L5 & L6 & L7 & L8 & L9 & L10 & L11 & L12 & L13 & L14).
    pose proof K as (K1 & K2 & K2c & _).
    assert (EI : inff (sN s2) = ifx (sI s2)).
    { destruct K1 as (_ & _ & _ & _ & K1). congruence. }
    split; [|split; auto]. split; [auto|]. split; [unfold tiny in L3; lra|].
    split; [rewrite L5; auto|]. split.
    + intros T AZ. rewrite L12. apply Z; auto. intros c I v V. apply (AZ c); auto.
      destruct SO as (O & _). exact (extc_in _ _ _ O K2c I).
    + split; [rewrite L7, L10, L8, L5, L9; auto|]. split.
      * intros _. right. rewrite EI. split; [reflexivity|].
        intros H. exfalso. pose proof (evaluated_le _ _ _ (proj1 (ret_evaluated s2 (stOK_ret _ K1)))). lra.
      * intros M. rewrite L12, L14; auto. destruct K1 as (_ & (_ & _ & _ & _ & K1 & _) & _). auto.
  - split; auto. apply stOK_ret. apply K.
Qed.

(** ** A whole pass *)

Notation new_good := (new_calls_good E).

Record pass_post (s : st P) (a : answers P) (s' : st P) : Prop := mkpp {
  pp_inv : Inv s';
  pp_ext : ext (sA s) (sA s');
  pp_good : new_good s s';
  pp_len : (length (s_Y (iS (sI s))) <= length (s_Y (iS (sI s'))))%nat;
  pp_nsim : (nsim (sA s') <= nsim (sA s) + length (s_Y (iS (sI s'))))%nat;
  pp_enter : (niter (sN s) < e_miter E)%nat /\ (nsim (sA s) < e_msimul E)%nat;
  pp_niter : (niter (sN s) < niter (sN s') <= niter (sN s) + 2)%nat;
  pp_nsim2 : (nsim (sA s) < nsim (sA s'))%nat;
  pp_sigma : sigma (sG s') = sigma (sG s) \/ (3 # 2) * sigma (sG s) <= sigma (sG s');
  pp_pred : 0 < a_rpred a -> pred (sG s') == - a_qcost a + sigma (sG s') * a_rpred a /\
              (3 # 10) * sigma (sG s') * a_rpred a <= pred (sG s');
  pp_dlo : delta (sG s) <= delta (sG s') \/ tiny <= delta (sG s');
  pp_dhi : forall B, Deltamax <= B -> delta (sG s) <= B -> epsc (sG s) <= B -> a_active a = false ->
     delta (sG s') <= B /\ epsc (sG s') <= B;
  pp_merit0 : merit0 (sG s') == f0 (sG s') + sigma (sG s') * ce0n (sG s');
  pp_acc : ib (sI s') = mlast (sA s') ->
     merit (sG s') < merit0 (sG s') /\ ix (sI s') = a_xnew a /\
     merit (sG s') = ifx (sI s') + sigma (sG s') * cn E (resid (a_slplus a) (ceplus (sG s')));
  pp_f0 : rej (sG s) = false -> e_me E = 0%nat -> ifx (sI s') <= ifx (sI s)
}.

Lemma cn_me0 s' sl' : Inv s' -> e_me E = 0%nat -> ceplus (sG s') = [] ->
  cn E (resid sl' (ceplus (sG s'))) = 0.
Proof. intros _ _ ->. unfold resid. destruct sl'; reflexivity. Qed.

(** reasons of a return *)
Record pass_ret (s : st P) (a : answers P) (fl : nat) (s' : st P) (f : xQ) : Prop := mkpr {
  pr_ok : retOK s';
  pr_ext : exists tl, calls (sA s') = calls (sA s) ++ tl;
  pr_len : length (s_Y (iS (sI s'))) = length (s_Y (iS (sI s)));
  pr_ifx : rej (sG s) = false -> e_me E = 0%nat -> ifx (sI s') <= ifx (sI s);
  pr_why :
    (fl = 5%nat /\ s' = s /\ (e_miter E <= niter (sN s))%nat) \/
    (fl = 6%nat /\ s' = s /\ (niter (sN s) < e_miter E)%nat /\ (e_msimul E <= nsim (sA s))%nat) \/
    ((niter (sN s) < e_miter E)%nat /\ (nsim (sA s) < e_msimul E)%nat /\
     (niter (sN s') <= niter (sN s) + 2)%nat /\
     (nsim (sA s') <= nsim (sA s) + length (s_Y (iS (sI s'))))%nat /\
     ((fl = 0%nat /\ new_good s s' /\
        (exists t, (t == 1 \/ t == 100) /\
           glagn (sN s') <= t * e_tolg E /\ feasn (sN s') <= t * e_tolf E /\ 0 <= t * e_tolb E) /\
        compl (sN s') = 0 /\ poised (sN s') * yrad (sN s') <= factor_CV * epsilon /\
        feasn (sN s') = linf (resid (sl (sG s')) (ince (sN s')))) \/
      (fl = 15%nat /\ new_good s s') \/
      (fl = 30%nat /\ new_good s s' /\ (inject_Z (10 ^ 299) < sigma (sG s') \/ a_minf a = true)) \/
      (fl = 3%nat /\ exists A', calls (sA s') = A' ++ [a_xnew a] /\ ~ good_call E (length A') (a_xnew a) /\
         (forall k y, nth_error A' k = Some y -> (length (calls (sA s)) <= k)%nat -> good_call E k y))))
}.

Lemma good_snoc (s s2 : st P) y cl :
  new_good s s2 -> good_call E (length (calls (sA s2))) y -> cl = calls (sA s2) ++ [y] ->
  forall k z, nth_error cl k = Some z -> (length (calls (sA s)) <= k)%nat -> good_call E k z.
Proof.
  intros H G -> k z K L. destruct (Nat.lt_ge_cases k (length (calls (sA s2)))) as [Q|Q].
  - rewrite nth_error_app1 in K by auto. eapply H; eauto.
  - rewrite nth_error_app2 in K by auto. pose proof (nth_error_len _ _ _ K). cbn in H0.
    assert (k = length (calls (sA s2))) by lia. subst. rewrite Nat.sub_diag in K. injection K as <-. auto.
Qed.

Lemma new_pred_pos s a : 1 <= sigma (sG s) -> 0 < a_rpred a ->
  let p := new_pred (a_qcost a) (st_sg E s a) (a_rpred a) in
  p == - a_qcost a + st_sg E s a * a_rpred a /\ (3 # 10) * st_sg E s a * a_rpred a <= p.
Proof.
  intros S1 RP. cbv zeta. destruct (sg_cases s a S1) as (_ & S2 & S3). specialize (S3 RP).
  destruct (new_pred_cases (a_qcost a) (st_sg E s a) (a_rpred a)) as [(_ & K)|(K1 & K2 & K3)].
  - exfalso. assert (0 < st_sg E s a * a_rpred a) by nra. destruct K as [K|K]; lra.
  - rewrite K2. split; [reflexivity|lra].
Qed.

(** combination of a prefix of the pass with a step *)
Lemma combine s s2 a : nsim (sA s) = length (calls (sA s)) -> improved E s s2 -> Inv s2 -> (e_pfinal E <= e_pquad E)%nat ->
  (niter (sN s) < e_miter E)%nat -> (nsim (sA s) < e_msimul E)%nat ->
  (niter (sN s) <= niter (sN s2) <= niter (sN s) + 1)%nat ->
  sigma (sG s2) = sigma (sG s) ->
  (delta (sG s) <= delta (sG s2) \/ tiny <= delta (sG s2)) ->
  (forall B, Deltamax <= B -> delta (sG s) <= B -> epsc (sG s) <= B -> delta (sG s2) <= B /\ epsc (sG s2) <= B) ->
  rej (sG s2) = rej (sG s) ->
  (rej (sG s) = false -> capped (inff (sN s2)) (ifx (sI s2))) ->
  match step E s2 a with
  | Crash => True
  | Continue s' => pass_post s a s'
  | Return fl s' f => pass_ret s a fl s' f
  end.
Proof.
  intros NS00 IM IV HQ HM HS HN SGE DLO DHI RE CP.
  pose proof (step_ok s2 a IV HQ) as K. pose proof IV as (SO & D & S1 & _ & _ & _ & C0).
  destruct IM as (I1 & I2 & I3 & I4 & I5 & I6 & I7).
  assert (NS : nsim (sA s2) = length (calls (sA s2))) by apply SO.
  assert (NS0 : (length (s_Y (iS (sI s2))) >= 2)%nat) by apply SO.
  destruct (step E s2 a) as [s'|fl s' f|]; [| |exact Logic.I].
  - assert (NS' : nsim (sA s') = length (calls (sA s'))) by apply (sp_inv _ _ _ K).
    assert (LC : length (calls (sA s')) = S (length (calls (sA s2)))).
    { rewrite (sp_calls _ _ _ K), app_length. cbn. lia. }
    assert (LS : (nsim (sA s) <= nsim (sA s2))%nat -> True) by auto.
    pose proof (sp_len _ _ _ K) as LN. pose proof (sp_niter _ _ _ K) as NI.
    constructor.
    + apply (sp_inv _ _ _ K).
    + eapply ext_trans; [eassumption|]. apply (sp_ext _ _ _ K).
    + intros k y. eapply good_snoc; [exact I6|apply (sp_good _ _ _ K)|apply (sp_calls _ _ _ K)].
    + lia.
    + lia.
    + auto.
    + lia.
    + destruct I2 as (_ & _ & _ & tl & CL). clear LS.
      apply (f_equal (@length P)) in CL. rewrite app_length in CL. lia.
    + rewrite (sp_sigma _ _ _ K). rewrite <- SGE. apply (sg_cases s2 a S1).
    + intros RP. rewrite (sp_pred _ _ _ K), (sp_sigma _ _ _ K). apply new_pred_pos; auto.
    + pose proof (sp_dlo _ _ _ K). lra.
    + intros B HB HD HE NA. destruct (DHI B HB HD HE) as (D1 & D2).
      rewrite (sp_epsc _ _ _ K). split; auto.
      destruct (sp_dhi _ _ _ K) as [H|[H|(H & _)]]; [lra|lra|congruence].
    + apply (sp_merit0 _ _ _ K).
    + intros IB. destruct (sp_new _ _ _ K) as [(N1 & _)|(N1 & N2 & N3 & v & c & N4 & N5 & N6)]; [|auto].
      exfalso. rewrite N1, (sp_mlast _ _ _ K) in IB. destruct SO as (_ & SS & (_ & SI & _)).
      apply nth_error_In in SI. apply SS in SI. lia.
    + intros R M. specialize (I7 M).
      destruct (sp_new _ _ _ K) as [(_ & _ & N1)|(N1 & N2 & N3 & v & c & N4 & N5 & N6)].
      * rewrite N1. exact I7.
      * specialize (CP R). rewrite <- RE in R. destruct (G2_f0 s2 a R) as (F1 & F2).
        rewrite <- (sp_f0 _ _ _ K) in F1. rewrite <- (sp_ce0n _ _ _ K) in F2.
        pose proof (sp_merit0 _ _ _ K) as MM. rewrite F1, F2 in MM.
        rewrite (proj2 (C0 M)) in MM.
        assert (Z : forall l, cn E (resid l []) = 0) by (intros [|]; reflexivity).
        rewrite Z in MM.
        pose proof (sp_inv _ _ _ K) as (_ & _ & _ & _ & _ & _ & C1).
        rewrite (proj1 (C1 M)), Z in N6. rewrite N6 in N3.
        assert (LT : ifx (sI s') < inff (sN s2)) by lra.
        destruct CP as (CP1 & CP2). destruct (Qlt_le_dec (inject_Z (10 ^ 25)) (inff (sN s2))) as [H|H].
        -- apply CP2 in H. pose proof (sp_inv _ _ _ K) as (SO' & _).
           pose proof (evaluated_le _ _ _ (proj1 (ret_evaluated s' (stOK_ret _ SO')))). lra.
        -- apply CP1 in H. lra.
  - destruct K as [K1 K2 K3 K4]. destruct I2 as (_ & _ & _ & tl & CL).
    assert (NS' : nsim (sA s') = length (calls (sA s'))) by apply K1.
    assert (LN : length (s_Y (iS (sI s'))) = length (s_Y (iS (sI s)))) by (rewrite K3; auto).
    constructor; auto.
    + destruct K4 as [(_ & H & _)|[(_ & H & _)|[(_ & H & _)|(_ & H & _)]]]; rewrite H, CL.
      * eauto.
      * rewrite <- app_assoc. eauto.
      * rewrite <- app_assoc. eauto.
      * rewrite <- app_assoc. eauto.
    + rewrite K3. auto.
    + right. right. split; [auto|]. split; [auto|]. split; [lia|].
      destruct K4 as [(-> & H & B & _)|[(-> & H & B)|[(-> & H & B1 & B2)|(-> & H & B1 & B2)]]].
      * split; [rewrite NS', H; lia|]. right. right. left. split; auto. split; auto. unfold new_good. rewrite H. auto.
      * split; [rewrite NS', H, app_length; cbn; lia|]. right. right. right. split; auto. exists (calls (sA s2)).
        auto.
      * split; [rewrite NS', H, app_length; cbn; lia|]. right. right. left. split; auto. split; auto.
        intros k y. eapply good_snoc; [exact I6|exact B1|exact H].
      * split; [rewrite NS', H, app_length; cbn; lia|]. right. left. split; auto.
        intros k y. eapply good_snoc; [exact I6|exact B1|exact H].
Qed.

Lemma improved_refl s : stOK s -> improved E s s.
Proof.
  intros O. split; [auto|split; [apply ext_refl|split; [intros ? ?; auto|split; [auto|split; [lia|split]]]]].
  - intros k y K L. apply nth_error_len in K. lia.
  - intros _. apply Qle_refl.
Qed.

Lemma div_le x t : x / factor_CV <= t -> x <= factor_CV * t.
Proof.
  unfold factor_CV. intros H. assert (x / 100 == x * (1 # 100)) by field. lra.
Qed.

Lemma radius_hi G N B : Deltamax <= B -> delta G <= B -> epsc G <= B -> 0 < delta G ->
  new_epsc E G N <= B /\ new_radius G N (new_epsc E G N) <= B.
Proof.
  intros HB HD HE DP. unfold Deltamax in HB.
  assert (H : new_epsc E G N <= B).
  { unfold new_epsc, mu. destruct (qeqb _ _).
    - destruct (qltb _ _); [lra|]. pose proof (qmin_le_r ((1 # 10) * epsc G) epsilon). unfold epsilon in *. lra.
    - unfold epsilon. lra. }
  split; auto. unfold new_radius. destruct (qeqb _ _).
  - pose proof (qmin_le_l (delta G) (new_epsc E G N)). lra.
  - destruct (qleb _ _).
    + pose proof (qmin_le_l (delta G) epsilon). lra.
    + destruct (qmax_cases (delta G) (new_epsc E G N)) as [-> | ->]; auto.
Qed.

Lemma pass_ok s a : Inv s -> sane ->
  match pass E s a with
  | Crash => True
  | Continue s' => pass_post s a s'
  | Return fl s' f => pass_ret s a fl s' f
  end.
Proof.
  intros IV SN. pose proof IV as (SO & D & S1 & Z & M0 & CF & C0).
  assert (NS : nsim (sA s) = length (calls (sA s))) by apply SO.
  unfold pass.
  destruct (e_miter E <=? niter (sN s))%nat eqn:B1.
  { apply Nat.leb_le in B1. constructor; auto.
    - apply stOK_ret; auto.
    - exists []. rewrite app_nil_r. auto.
    - intros _ _. apply Qle_refl. }
  apply Nat.leb_gt in B1.
  destruct (e_msimul E <=? nsim (sA s))%nat eqn:B2.
  { apply Nat.leb_le in B2. constructor; auto.
    - apply stOK_ret; auto.
    - exists []. rewrite app_nil_r. auto.
    - intros _ _. apply Qle_refl.
    - right. left. auto. }
  apply Nat.leb_gt in B2.
  destruct (a_exc1 a); [exact Logic.I|].
  set (fe := linf (resid (sl (sG s)) (ince (sN s)))).
  set (tols := (qleb (a_glagn1 a) (e_tolg E) && qleb fe (e_tolf E) && qleb 0 (e_tolb E))%bool).
  destruct (tols || qltb (delta (sG s)) tiny || qeqb (pred (sG s)) (-1))%bool eqn:B3.
  - set (er := a_poised a * a_yrad a / factor_CV).
    set (s1 := mkst (sA s) (sI s) (mkInfo (S (niter (sN s))) (inff (sN s)) (ince (sN s)) (a_glagn1 a) fe 0
                 er (a_poised a) (a_yrad a)) (sG s)).
    destruct (tols && qleb er epsilon)%bool eqn:B4.
    + apply andb_prop in B4. destruct B4 as (B4 & B5). unfold tols in B4.
      apply andb_prop in B4. destruct B4 as (B4 & B6). apply andb_prop in B4. destruct B4 as (B4 & B7). qb.
      constructor.
      * apply stOK_ret; auto.
      * exists []. rewrite app_nil_r. auto.
      * reflexivity.
      * intros _ _. apply Qle_refl.
      * right. right. cbn [s1 sN sA sI sG niter glagn feasn compl poised yrad ince]. split; [auto|]. split; [auto|].
        split; [lia|]. split; [lia|]. left. split; auto. split.
        { intros k y K L. apply nth_error_len in K. cbn in K. lia. }
        split; [exists 1; split; [left; reflexivity|]; split; [lra|split; lra]|].
        split; [reflexivity|]. split; [apply div_le; auto|]. reflexivity.
    + assert (IV1 : Inv s1) by exact IV.
      pose proof (improve_ok s1 a IV1 SN) as K. pose proof (improve_scal s1 a) as L.
      destruct (improve E s1 a) as [s2|fl s2 f|]; [| |exact Logic.I].
      * destruct K as (K1 & K2 & K3). destruct L as (L1 & L2 & L3 & L4 & L5 & L6 & L7 & _).
        apply (combine s s2 a); auto.
        -- apply SN.
        -- rewrite L1. cbn. lia.
        -- intros B HB HD HE. rewrite L2, L4. pose proof (radius_hi (sG s) (sN s1) B HB HD HE D) as (Q1 & Q2). auto.
        -- intros _. rewrite K3. split; [reflexivity|].
           intros H. exfalso. destruct K1 as (K1 & _).
           pose proof (evaluated_le _ _ _ (proj1 (ret_evaluated s2 (stOK_ret _ K1)))). lra.
      * destruct K as (K1 & K2). destruct K2 as (I1 & I2 & I3 & I4 & I5 & I6 & I7).
        pose proof I1 as (_ & (LY & _) & _).
        constructor; auto.
        -- apply I2.
        -- right. right. split; [auto|]. split; [auto|].
           cbn [s1 sA sI sN niter] in I4, I5.
           destruct L as [(-> & L1 & (Q1 & Q2 & Q3 & Q4) & L3 & L4 & L5)|(-> & L1 & L2 & L3)]; cbn [s1 sN niter] in L1.
           ++ split; [lia|]. split; [lia|]. left. split; auto. split; [exact I6|].
              apply div_le in Q1. apply div_le in Q2. rewrite L4 in Q3. apply div_le in Q3. unfold factor_CV in Q1, Q2, Q3.
              split; [exists 100; split; [right; reflexivity|split; [auto|split; auto]]|]. split; [auto|].
              split; [apply div_le; rewrite <- L5; auto|]. auto.
           ++ split; [lia|]. split; [lia|]. right. left. split; auto.
  - apply orb_false_iff in B3. destruct B3 as (_ & B3). qb.
    apply (combine s (mkst (sA s) (sI s) (mkInfo (niter (sN s)) (inff (sN s)) (ince (sN s)) (a_glagn1 a) fe 0 
             (errg (sN s)) (poised (sN s)) (yrad (sN s))) (sG s)) a); auto.
    + exact (improved_refl s SO).
    + apply SN.
    + cbn. lia.
    + left. apply Qle_refl.
    + intros R. destruct (CF R) as [CF'|CF']; auto. exfalso. apply B3. rewrite CF'. reflexivity.
Qed.

End Proofs2.
