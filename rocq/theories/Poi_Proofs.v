(** C88: when the interpolation set counts as poised, and what that decides. *)
From Coq Require Import List Arith ZArith QArith Bool Lia Lqa.
Import ListNotations.
From Verif Require Import QB Book_Model Book_Spec Book_Proofs Main_Model Main_Spec Main_Proofs Main_Proofs2 Main_Proofs3 Main_More.
Local Open Scope Q_scope.

Section Poi.
Context {P : Type}.
Variable E : env P.
Hypothesis SN : sane E.

(** what the end of a pass does to the flag and to the set *)
Definition poi (I : incu P) (G : glo) (m : nat) (s' : st P) : Prop :=
  (pm (sG s') = true -> pm G = true /\ length (s_Y (iS (sI s'))) = length (s_Y (iS I)) /\ ib (sI s') = ib I) /\
  (pm G = true -> epsc G < delta G ->
   ib (sI s') = m \/ sI s' = I \/
   (pm (sG s') = false /\ length (s_Y (iS (sI s'))) = S (length (s_Y (iS I))) /\
    can_augment E (length (s_Y (iS I))) = true)).

Lemma reduce_poi a A I N G fxp s' : reduce E a A I N G fxp = Continue s' -> poi I G (mlast A) s'.
Proof.
  unfold reduce, finish_rej. destruct (_ || _)%bool; [discriminate|]. destruct (a_exc4 a); [discriminate|].
  intros H; injection H as <-. split; cbn; auto.
Qed.

Lemma replaced_poi a A I N G succ Y' pos x' fxp I' N' G' s' : length Y' = length (s_Y (iS I)) ->
  replaced_by_trial E a A I N G succ Y' pos x' fxp = Some (I', N', G') ->
  finish_rej a A I' N' G' = Continue s' -> pm (sG s') = true ->
  pm G = true /\ length (s_Y (iS (sI s'))) = length (s_Y (iS I)) /\ ib (sI s') = ib I.
Proof.
  intros L. unfold replaced_by_trial. destruct (store _ _ _ _ _ _ _) as [S1|] eqn:ST; [|discriminate].
  apply store_Y in ST. destruct succ.
  - destruct (swap_in_Y _ _ _ _ _) as [(S2, x2)|] eqn:SS; [|discriminate].
    intros H; injection H as <- <- <-. unfold finish_rej. destruct (a_exc4 a); [discriminate|].
    intros H; injection H as <-. cbn. discriminate.
  - intros H; injection H as <- <- <-. unfold finish_rej. destruct (a_exc4 a); [discriminate|].
    intros H; injection H as <-. cbn [sG sI iS ib pm]. intros K. split; auto. split; congruence.
Qed.

Lemma reject_poi a A I N G succ fxp s' : reject E a A I N G succ fxp = Continue s' -> poi I G (mlast A) s'.
Proof.
  unfold reject. cbv zeta.
  set (G1 := mkG (delta G) (sigma G) (epsc G) (pred G) true (f0 G) (ce0n G) (merit0 G)
               (merit G) (pm G) (sl G) (ceplus G)).
  intros H. change (poi I G1 (mlast A) s').
  destruct (can_augment E (length (s_Y (iS I))) && negb succ)%bool eqn:CA.
  - apply andb_prop in CA. destruct CA as (CA & _).
    destruct (augment_Y _ _ _ _) as (p', Y') eqn:AU.
    destruct (augment_put _ _ _ _ _ _ AU (can_augment_le _ _ (proj2 SN) CA)) as (EY & _ & _).
    destruct (store _ _ _ _ _ _ _) as [S1|] eqn:ST; [|discriminate].
    apply store_Y in ST. unfold finish_rej in H. destruct (a_exc4 a); [discriminate|]. injection H as <-.
    split; [cbn; discriminate|].
    cbn [sG sI iS ib pm]. intros _ _. right. right. split; auto. split; auto. rewrite ST, EY, app_length. cbn. lia.
  - destruct (negb (pm G1) || qleb (delta G1) (epsc G1))%bool eqn:TT; [|eapply reduce_poi; eauto].
    assert (NO : pm G1 = true -> epsc G1 < delta G1 -> False).
    { intros Q1 Q2. rewrite Q1 in TT. cbn [negb orb] in TT. qb. lra. }
    assert (KEY : (pm (sG s') = true -> pm G1 = true /\ length (s_Y (iS (sI s'))) = length (s_Y (iS I)) /\ ib (sI s') = ib I) ->
                  poi I G1 (mlast A) s').
    { intros K. split; [exact K|]. intros Q1 Q2; destruct (NO Q1 Q2). }
    destruct (include_in_Y _ _ _ _ _ _ _ _ _ (a_L2 a)) as ((Y1, [pos|]), x1) eqn:I1.
    + destruct (replaced_by_trial _ _ _ _ _ _ _ _ _ _ _) as [((I', N'), G')|] eqn:RB; [|discriminate].
      apply include_len in I1; [|discriminate]. apply KEY. eapply replaced_poi; eauto.
    + destruct (include_in_Y _ _ _ _ _ _ _ _ _ (a_L3 a)) as ((Y2, [pos|]), x2) eqn:I2.
      * destruct (replaced_by_trial _ _ _ _ _ _ _ _ _ _ _) as [((I', N'), G')|] eqn:RB; [|discriminate].
        apply include_len in I2; [|destruct succ; discriminate]. apply KEY. eapply replaced_poi; eauto.
      * eapply reduce_poi; eauto.
Qed.

Lemma accept_poi a A I N G rho fxp s' : accept E a A I N G rho fxp = Continue s' -> poi I G (mlast A) s'.
Proof.
  unfold accept.
  destruct (if can_augment E (length (s_Y (iS I))) then _ else _) as ((Y', [pos|]), x') eqn:CH;
    [|apply reject_poi].
  destruct (store _ _ _ _ _ _ _) as [S1|] eqn:ST; [|discriminate].
  destruct (swap_in_Y _ _ _ _ _) as [(S2, x2)|] eqn:SS; [|discriminate].
  destruct (a_exc4 a); [discriminate|]. intros H; injection H as <-.
  split; [cbn; discriminate|]. cbn; auto.
Qed.

Lemma step_poi s a s' : Inv E s -> step E s a = Continue s' -> poi (sI s) (sG s) (mlast (sA s')) s'.
Proof.
  intros IV ST. pose proof IV as (SO & D & S1 & Z & _).
  assert (SP : 0 < sigma (sG s)) by lra.
  pose proof (memo_same E (sN s) (sG s)) as (M1 & M2 & M3 & M4 & M5 & M6 & M7 & M8).
  pose proof (step_cases E s a SP) as SC. rewrite ST in SC.
  assert (TR : forall pr f cp m, poi (sI s) (st_G3 E s a pr f cp) m s' -> poi (sI s) (sG s) m s').
  { intros pr f cp m. unfold poi, st_G3, st_G2, st_G1, with_sigma. cbn [pm epsc delta]. rewrite M2, M5, M8. auto. }
  inversion SC as [ | | | | A f c cX cp EA CE PE H0 | A f c cX cp pr rho EA CE PR PP RH ER LT H0
                  | A f c cX cp pr EA CE PR PP RH H0 ].
  - split.
    + cbn [sG sI]. unfold st_G3, st_G2, st_G1, with_sigma. cbn [pm]. rewrite M8. auto.
    + cbn. auto.
  - assert (EM : sA s' = with_ce A cX).
    { assert (SH := accept_shape E a (with_ce A cX) (sI s) (st_N3 s f) (st_G3 E s a pr f cp) rho (qmin c1e25 f)).
      rewrite H0 in SH. apply SH. unfold st_G3, st_G2, st_G1, with_sigma. cbn [delta]. rewrite M2. auto. }
    rewrite EM. apply TR with pr f cp. eapply accept_poi; eauto.
  - assert (EM : sA s' = with_ce A cX).
    { assert (SH := reject_shape E a (with_ce A cX) (sI s) (st_N3 s f) (st_G3 E s a pr f cp) false (qmin c1e25 f)).
      rewrite H0 in SH. apply SH. unfold st_G3, st_G2, st_G1, with_sigma. cbn [delta]. rewrite M2. auto. }
    rewrite EM. apply TR with pr f cp. eapply reject_poi; eauto.
Qed.

Lemma improve_pm s a s2 : improve E s a = Continue s2 -> pm (sG s2) = true -> sA s2 = sA s.
Proof.
  unfold improve. destruct (_ || _)%bool; [discriminate|].
  destruct (repair_Y _ _ _ _ _ _ _ _ _ _ _) as [((((Y', repl), imp), rad), x')|]; [|discriminate].
  destruct (match a_repoised a with Some pr => pr | None => (imp, rad) end) as (po, yr).
  destruct (eval_replaced _ _ _ _ _ _ _) as [(((A', ind'), fY'), ceY')|] eqn:ER; [|discriminate].
  destruct (find_smallf _ _ _ _ _ _ _ _) as [r|]; [|discriminate].
  destruct (a_exc2 a); [discriminate|].
  destruct (_ && _)%bool; [discriminate|]. intros H; injection H as <-. cbn [sG pm sA].
  destruct repl; [|discriminate]. intros _. cbn in ER. congruence.
Qed.

(** the flag after a pass *)
Lemma flag k0 d0 s0 s a s' : begins E k0 d0 s0 -> reach E s0 s -> pass E s a = Continue s' ->
  pm (sG s') = true ->
  ib (sI s') <> mlast (sA s') /\ length (calls (sA s')) = S (length (calls (sA s))) /\
  (niter (sN s') = (niter (sN s) + 1)%nat ->
   pm (sG s) = true /\ length (s_Y (iS (sI s'))) = length (s_Y (iS (sI s))) /\ ib (sI s') = ib (sI s)).
Proof.
  intros B R PS K. destruct (pass_pre E SN s a s' (reach_inv E SN _ _ _ _ B R) PS) as (s2 & IV2 & ST & PRE).
  destruct (step_poi s2 a s' IV2 ST) as (P1 & _). destruct (P1 K) as (K1 & K2 & K3).
  pose proof (step_ok E s2 a IV2 (proj2 SN)) as PO. rewrite ST in PO.
  assert (OI : ib (sI s2) <> mlast (sA s')).
  { rewrite (sp_mlast _ _ _ _ PO). destruct IV2 as ((_ & (_ & _ & _ & _ & _ & _ & _ & S8 & _) & (_ & I2 & _)) & _).
    apply nth_error_In in I2. apply S8 in I2. lia. }
  assert (CL : length (calls (sA s')) = S (length (calls (sA s2)))).
  { rewrite (sp_calls _ _ _ _ PO), app_length. cbn. lia. }
  pose proof (sp_niter _ _ _ _ PO) as NI.
  split; [congruence|]. destruct PRE as [(Q1 & Q2 & Q3 & Q4 & _)|(s1 & IV1 & IM & Q1 & Q2 & Q3 & _ & Q4 & _)].
  - rewrite Q1 in CL. split; auto. intros _. rewrite <- Q3, <- Q2. auto.
  - rewrite (improve_pm _ _ _ IM K1), Q1 in CL. split; auto. intros N1.
    pose proof (improve_scal E s1 a) as IS. rewrite IM in IS. destruct IS as (IS & _). lia.
Qed.

(** what the flag decides *)
Lemma kept k0 d0 s0 s a s' : begins E k0 d0 s0 -> reach E s0 s -> pass E s a = Continue s' ->
  niter (sN s') = (niter (sN s) + 1)%nat -> pm (sG s) = true -> epsc (sG s) < delta (sG s) ->
  ib (sI s') = mlast (sA s') \/ sI s' = sI s \/
  (pm (sG s') = false /\ length (s_Y (iS (sI s'))) = S (length (s_Y (iS (sI s)))) /\
   can_augment E (length (s_Y (iS (sI s)))) = true).
Proof.
  intros B R PS N1 K D. destruct (pass_pre E SN s a s' (reach_inv E SN _ _ _ _ B R) PS) as (s2 & IV2 & ST & PRE).
  destruct (step_poi s2 a s' IV2 ST) as (_ & P2).
  pose proof (step_ok E s2 a IV2 (proj2 SN)) as PO. rewrite ST in PO.
  pose proof (sp_niter _ _ _ _ PO) as NI.
  destruct PRE as [(Q1 & Q2 & Q3 & Q4 & _)|(s1 & IV1 & IM & Q1 & Q2 & Q3 & _ & Q4 & _)].
  - rewrite Q2, Q3 in P2. auto.
  - pose proof (improve_scal E s1 a) as IS. rewrite IM in IS. destruct IS as (IS & _). lia.
Qed.

(** first state: the set counts as poised, with the threshold 1e-5 *)
Lemma first k0 d0 s0 : begins E k0 d0 s0 -> pm (sG s0) = true /\ epsc (sG s0) == 1 # 100000 /\ delta (sG s0) = d0.
Proof.
  intros (cl & X & fX & ceX & slk & _ & _ & _ & H). unfold start in H.
  destruct X as [|x0 X]; [discriminate|]. destruct fX as [|fx0 fX]; [discriminate|]. injection H as <-.
  cbn. auto using Qeq_refl.
Qed.

(** with room for another point a set that goes on is not poised, or nothing was included *)
Lemma room p : can_augment E p = true <->
  (p < e_pfinal E)%nat \/ (e_whichmodel E = 3%nat /\ (p < e_pfinal E + e_pfinal E)%nat).
Proof.
  unfold can_augment. rewrite orb_true_iff, andb_true_iff, !Nat.ltb_lt, Nat.eqb_eq. tauto.
Qed.

Lemma kept' k0 d0 s0 s a s' : begins E k0 d0 s0 -> reach E s0 s -> pass E s a = Continue s' ->
  niter (sN s') = (niter (sN s) + 1)%nat -> pm (sG s) = true -> epsc (sG s) < delta (sG s) ->
  ib (sI s') = mlast (sA s') \/ sI s' = sI s \/
  (pm (sG s') = false /\ length (s_Y (iS (sI s'))) = S (length (s_Y (iS (sI s)))) /\
   (length (s_Y (iS (sI s))) < e_pfinal E \/
    (e_whichmodel E = 3 /\ length (s_Y (iS (sI s))) < e_pfinal E + e_pfinal E))%nat).
Proof. intros. rewrite <- room. eapply kept; eauto. Qed.
End Poi.
