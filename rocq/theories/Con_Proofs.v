(** The stored constraint values are those of the user functions (C75). *)
From Coq Require Import List Arith ZArith QArith Qabs Bool Lia Lqa Psatz.
Import ListNotations.
From Verif Require Import QB Book_Model Book_Spec Book_Proofs Main_Model Main_Spec Main_Proofs Main_Proofs2 Main_Proofs3 Main_More
  Pre_Spec Sol_Model Sol_Spec Con_Spec.
Local Open Scope Q_scope.

Section Con.
Context {P : Type}.
Variable E : env P.
Hypothesis SN : sane E.
Hypothesis T : tame E.

Definition rec (A : arch P) : Prop :=
  forall i y f c, nth_error (Xs A) i = Some y -> nth_error (fXs A) i = Some f -> nth_error (ceXs A) i = Some c -> answers_at E (calls A) y f c.

Lemma tame_clamp k y c : o_c (e_user E k y) = Some c -> map Fin (map clampx c) = c.
Proof.
  intros H. rewrite map_map, <- (map_id c) at 1. rewrite map_id. transitivity (map (fun x => x) c); [|apply map_id].
  apply map_ext_in. intros v I. destruct (T _ _ _ _ H I) as (q & -> & N). cbn. f_equal.
  apply not_huge in N. unfold clamp25. destruct (qltb c1e25 q) eqn:A1; [qb; lra|].
  destruct (qltb q (- c1e25)) eqn:A2; [qb; lra|]. reflexivity.
Qed.

Lemma answers_app cl tl y f c : answers_at E cl y f c -> answers_at E (cl ++ tl) y f c.
Proof.
  intros (k & v & H & G). exists k, v. split; [|exact G]. rewrite nth_error_app1; auto. eapply nth_error_len; eauto.
Qed.

Lemma rec_done A y A' f c : archOK E A -> rec A -> eval_at E A y = EDone A' f c -> rec A'.
Proof.
  intros (O1 & O2 & O3 & O4 & O5 & O6 & O7 & O8) RA H. unfold eval_at in H.
  destruct (eval_user (e_user E (length (calls A)) y)) as [f' c'|] eqn:EU; [|discriminate].
  destruct (length c' =? e_me E)%nat eqn:LC; [|discriminate]. injection H as <- <- <-.
  apply eval_user_ok in EU. destruct EU as (c0 & AN & ->).
  intros i z g d. cbn [calls Xs fXs ceXs]. intros HX HF HC.
  destruct (Nat.eq_dec (e_me E) 0) as [M|M].
  { rewrite M, (O4 M) in HC. destruct i; discriminate. }
  assert (HC' : nth_error (set_or_append (ceXs A) (S (mlast A)) (map clampx c0)) i = Some d) by (destruct (e_me E); [congruence|exact HC]).
  clear HC. destruct (Nat.eq_dec i (S (mlast A))) as [->|NE].
  - rewrite nth_error_soa_eq in HX by auto. rewrite nth_error_soa_eq in HF by auto. rewrite nth_error_soa_eq in HC' by (rewrite O5; auto).
    injection HX as <-. injection HF as <-. injection HC' as <-.
    exists (length (calls A)), f'. split; [apply nth_error_last|]. split; [|apply capped_qmin].
    destruct AN as (A1 & A2 & A3). rewrite (tame_clamp _ _ _ A2). split; auto.
  - assert (i < S (mlast A))%nat.
    { pose proof (nth_error_len _ _ _ HX) as L. rewrite (soa_length _ (S (mlast A))) in L by auto. lia. }
    rewrite nth_error_soa_old in HX by (auto; lia). rewrite nth_error_soa_old in HF by (auto; lia).
    rewrite nth_error_soa_old in HC' by (try (rewrite O5; auto); lia). apply answers_app. eapply RA; eauto.
Qed.

Lemma rec_fail A y A' v : archOK E A -> rec A -> eval_at E A y = EFail A' v -> rec A'.
Proof.
  intros (O1 & O2 & O3 & O4 & O5 & O6 & O7 & O8) RA H. unfold eval_at in H.
  destruct (eval_user (e_user E (length (calls A)) y)) as [f' c'|] eqn:EU; [destruct (length c' =? e_me E)%nat; discriminate|].
  injection H as <- <-. intros i z g d. cbn [calls Xs fXs ceXs]. intros HX HF HC. pose proof (nth_error_len _ _ _ HF).
  rewrite nth_error_soa_old in HX by (auto; lia). apply answers_app. eapply RA; eauto.
Qed.

Lemma rec_ce A cX old cp : archOK E A -> rec A -> new_ce A old cX cp -> rec (with_ce A cX).
Proof.
  intros O RA CE. destruct (archOK_ce E A cX O) as (_ & T2); [destruct CE as [(C1 & C2 & _)|(C1 & C2 & _)]; auto|].
  intros i y f c. cbn [with_ce calls Xs fXs ceXs]. rewrite (T2 T). apply RA.
Qed.

Lemma rec_replaced js : forall Y A ind fY ceY A' ind' fY' ceY', archOK E A -> rec A ->
  eval_replaced E js Y A ind fY ceY = Some (A', ind', fY', ceY') -> rec A'.
Proof.
  induction js as [|j t IH]; intros Y A ind fY ceY A' ind' fY' ceY' O RA H; cbn in H.
  - injection H as <- _ _ _. exact RA.
  - destruct (nth_error Y j) as [y|]; [|discriminate]. destruct (eval_at E A y) as [A1 f c| |] eqn:EA; try discriminate.
    destruct (eval_at_done _ _ _ _ _ _ O EA) as (O1 & _). exact (IH _ _ _ _ _ _ _ _ _ O1 (rec_done _ _ _ _ _ O RA EA) H).
Qed.

Lemma rec_improve s a : Inv E s -> recorded E s ->
  match improve E s a with Crash => True | Continue s2 => recorded E s2 | Return _ s2 _ => recorded E s2 end.
Proof.
  intros ((O & _) & _) RA. unfold improve.
  destruct (_ || _)%bool; [exact RA|].
  destruct (repair_Y _ _ _ _ _ _ _ _ _ _ _) as [((((Y', repl), imp), rad), x')|]; [|exact Logic.I].
  destruct (match a_repoised a with Some pr => pr | None => (imp, rad) end) as (po, yr).
  destruct (eval_replaced _ _ _ _ _ _ _) as [(((A', ind'), fY'), ceY')|] eqn:ER; [|exact Logic.I].
  destruct (find_smallf _ _ _ _ _ _ _ _) as [r|]; [|exact Logic.I]. destruct (a_exc2 a); [exact Logic.I|].
  destruct (_ && _)%bool; exact (rec_replaced _ _ _ _ _ _ _ _ _ _ O RA ER).
Qed.

Lemma rec_step s a : Inv E s -> recorded E s ->
  match step E s a with Crash => True | Continue s2 => recorded E s2 | Return _ s2 _ => recorded E s2 end.
Proof.
  intros IV RA. pose proof IV as ((O & _) & D & S1 & _). assert (SP : 0 < sigma (sG s)) by lra.
  pose proof (step_cases E s a SP) as SC. pose proof (G2_same E s a) as (G21 & _).
  assert (EXT : forall A f c cX cp s', eval_at E (sA s) (a_xnew a) = EDone A f c -> new_ce A (ceplus (sG s)) cX cp -> sA s' = with_ce A cX -> recorded E s').
  { intros A f c cX cp s' EA CE EQ. destruct (eval_at_done _ _ _ _ _ _ O EA) as (O1 & _). unfold recorded. rewrite EQ.
    exact (rec_ce _ _ _ _ O1 (rec_done _ _ _ _ _ O RA EA) CE). }
  inversion SC as [ H0 | X1 X2 H0 | A v EA H0 | A f c cX cp EA CE MI H0
                  | A f c cX cp EA CE PE H0 | A f c cX cp pr rho EA CE PR PP RH ER LT H0
                  | A f c cX cp pr EA CE PR PP RH H0 ].
  - exact Logic.I.
  - exact RA.
  - exact (rec_fail _ _ _ _ O RA EA).
  - eapply EXT; eauto.
  - eapply EXT; eauto.
  - destruct (accept E a _ _ _ _ _ _) as [s'|fl s' f'|] eqn:AC; [| |exact Logic.I].
    + assert (SH := accept_shape E a (with_ce A cX) (sI s) (st_N3 s f) (st_G3 E s a pr f cp) rho (qmin c1e25 f)).
      rewrite AC in SH. cbn [st_G3 delta] in SH. rewrite G21 in SH. destruct (SH D) as (_ & _ & EAA & _). eapply EXT; eauto.
    + destruct (accept_ret _ _ _ _ _ _ _ _ _ _ _ AC) as (R1 & _). eapply EXT; eauto.
  - destruct (reject E a _ _ _ _ _ _) as [s'|fl s' f'|] eqn:AC; [| |exact Logic.I].
    + assert (SH := reject_shape E a (with_ce A cX) (sI s) (st_N3 s f) (st_G3 E s a pr f cp) false (qmin c1e25 f)).
      rewrite AC in SH. cbn [st_G3 delta] in SH. rewrite G21 in SH. destruct (SH D) as (_ & _ & EAA & _). eapply EXT; eauto.
    + destruct (reject_ret _ _ _ _ _ _ _ _ _ _ _ AC) as (R1 & _). eapply EXT; eauto.
Qed.

Lemma rec_pass s a : Inv E s -> recorded E s ->
  match pass E s a with Crash => True | Continue s2 => recorded E s2 | Return _ s2 _ => recorded E s2 end.
Proof.
  intros IV RA. unfold pass. destruct (_ <=? _)%nat; [exact RA|]. destruct (_ <=? _)%nat; [exact RA|].
  destruct (a_exc1 a); [exact Logic.I|]. destruct (_ || _)%bool.
  - destruct (_ && _)%bool; [exact RA|].
    match goal with |- context [improve E ?s1 a] => set (s1' := s1) end.
    assert (IV1 : Inv E s1') by exact IV. assert (C1 : recorded E s1') by exact RA.
    pose proof (improve_ok E s1' a IV1 SN) as K1. pose proof (rec_improve s1' a IV1 C1) as K2.
    destruct (improve E s1' a) as [s2|fl s2 f2|] eqn:IM; [|exact K2|exact Logic.I].
    apply rec_step; auto. apply K1.
  - apply rec_step; auto.
Qed.

Lemma c_reach k0 d0 s0 s : begins E k0 d0 s0 -> recorded E s0 -> reach E s0 s -> recorded E s.
Proof.
  intros B R0 R. induction R as [|s a s' R IH PS]; [exact R0|].
  pose proof (rec_pass s a (reach_inv E SN _ _ _ _ B R) IH) as K. rewrite PS in K. exact K.
Qed.

Lemma c_returned k0 d0 s0 s a fl s' f : begins E k0 d0 s0 -> recorded E s0 -> reach E s0 s -> pass E s a = Return fl s' f -> recorded E s'.
Proof.
  intros B R0 R PS. pose proof (rec_pass s a (reach_inv E SN _ _ _ _ B R) (c_reach _ _ _ _ B R0 R)) as K. rewrite PS in K. exact K.
Qed.

Lemma c_value k0 d0 s0 s a fl s' f : begins E k0 d0 s0 -> reach E s0 s -> pass E s a = Return fl s' f ->
  nth_error (fXs (sA s')) (ib (sI s')) = Some (ifx (sI s')).
Proof.
  intros B R PS. destruct (pass_return E SN _ _ _ _ _ _ _ _ B R PS) as (_ & K). destruct (pr_ok _ _ _ _ _ _ K) as (_ & SO & (I1 & I2 & I3)).
  destruct SO as (_ & _ & _ & _ & _ & _ & _ & _ & S9 & _). destruct (S9 _ _ I1) as (i & g & K1 & K2 & K3 & K4). congruence.
Qed.

(** the certificate, in terms of the answers of the user functions *)
Lemma c_feasible k0 d0 s0 s a s' f : begins E k0 d0 s0 -> recorded E s0 -> reach E s0 s -> e_me E <> 0%nat -> pass E s a = Return 0 s' f ->
  exists c, answers_at E (calls (sA s')) (ix (sI s')) (ifx (sI s')) c /\ within (100 * e_tolf E) (length (sl (sG s'))) c.
Proof.
  intros B R0 R M PS. pose proof (c_returned _ _ _ _ _ _ _ _ B R0 R PS) as RS.
  destruct (reported_constraints E SN _ _ _ _ _ _ _ _ B R T M PS) as (HX & HC).
  destruct (certificate E SN _ _ _ _ _ _ _ B R PS) as ((t & Tt & _ & TF & _) & _ & RE).
  exists (ince (sN s')). split.
  - assert (HF : nth_error (fXs (sA s')) (ib (sI s')) = Some (ifx (sI s'))) by (eapply c_value; eauto).
    exact (RS _ _ _ _ HX HF HC).
  - assert (RB : forall i v, nth_error (ince (sN s')) i = Some v -> Qabs (residual (sl (sG s')) (ince (sN s')) i) <= 100 * e_tolf E).
    { intros i v V. specialize (RE i ltac:(eapply nth_error_len; eauto)). pose proof (Qabs_nonneg (residual (sl (sG s')) (ince (sN s')) i)) as NN.
      destruct Tt as [Tt|Tt]; rewrite Tt in TF; lra. }
    split; intros i v V.
    + specialize (RB _ _ V). apply Qabs_Qle_condition in RB. unfold residual in RB. rewrite (nth_error_nth _ _ 0 V) in RB.
      destruct (i <? _)%nat; [lra|]. set (q := nth _ (sl (sG s')) 0) in *. nra.
    + intros L. specialize (RB _ _ V). unfold residual in RB. rewrite (nth_error_nth _ _ 0 V) in RB.
      destruct (Nat.ltb_spec i (length (ince (sN s')) - length (sl (sG s')))); [|lia].
      setoid_replace (v - 0) with v in RB by ring. exact RB.
Qed.

Lemma c_info k0 d0 s0 s a fl s' f : begins E k0 d0 s0 -> recorded E s0 -> reach E s0 s -> e_me E <> 0%nat -> pass E s a = Return fl s' f ->
  answers_at E (calls (sA s')) (ix (sI s')) (ifx (sI s')) (ince (sN s')).
Proof.
  intros B R0 R M PS. pose proof (c_returned _ _ _ _ _ _ _ _ B R0 R PS) as RS.
  destruct (reported_constraints E SN _ _ _ _ _ _ _ _ B R T M PS) as (HX & HC).
  exact (RS _ _ _ _ HX (c_value _ _ _ _ _ _ _ _ B R PS) HC).
Qed.
End Con.
