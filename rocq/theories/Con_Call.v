(** Constraints at the point returned by a complete call (C75). *)
From Coq Require Import List Arith ZArith QArith Qabs Lqa Lia Bool.
From Verif Require Import QB Book_Model Book_Spec Main_Model Main_Spec Main_Proofs Main_Proofs2 Main_Proofs3 Main_More Set_Proofs Slk_Run
  Opt_Model Drv_Model Drv_Spec Pre_Model Pre_Spec Pre_Proofs Sol_Model Sol_Spec Sol_Proofs Con_Spec Con_Proofs.
Import ListNotations.
Local Open Scope Q_scope.

Section Sl.
Context {P : Type}.
Variable E : env P.
Hypothesis SN : sane E.

Lemma nsl G slp c : sl G = [] -> new_sl E G slp c = [].
Proof. intros H. unfold new_sl. rewrite H. destruct (e_me E); reflexivity. Qed.

Ltac cases := repeat match goal with |- context [match ?x with _ => _ end] => destruct x end.
Lemma fin_nil (a : answers P) A I N G s' : sl G = [] -> finish_rej a A I N G = Continue s' -> sl (sG s') = [].
Proof. intros H. unfold finish_rej. cases; try discriminate; intros K; injection K as <-; cbn; auto. Qed.
Lemma red_nil a A I N G fxp s' : sl G = [] -> reduce E a A I N G fxp = Continue s' -> sl (sG s') = [].
Proof. intros H. unfold reduce. destruct (_ || _)%bool; [discriminate|]. apply fin_nil. cases; cbn; auto. Qed.
Lemma rep_nil a A I N G (won : bool) Y' pos x' fxp I' N' G' : sl G = [] ->
  replaced_by_trial E a A I N G won Y' pos x' fxp = Some (I', N', G') -> sl G' = [].
Proof.
  intros H0. unfold replaced_by_trial. destruct (store _ _ _ _ _ _ _) as [S1|] eqn:ST; [|discriminate]. destruct won.
  - destruct (swap_in_Y _ _ _ _ _) as [(S2, x2)|] eqn:SS; [|discriminate].
    intros H; injection H as <- <- <-. cbn [sl]. apply nsl. exact H0.
  - intros H; injection H as <- <- <-. exact H0.
Qed.
Lemma rej_nil a A I N G su fxp s' : sl G = [] -> reject E a A I N G su fxp = Continue s' -> sl (sG s') = [].
Proof.
  intros H0. unfold reject. cbv zeta. destruct (_ && negb su)%bool.
  - destruct (augment_Y _ _ _ _) as (p', Y'). destruct (store _ _ _ _ _ _ _) as [S1|]; [|discriminate]. apply fin_nil. exact H0.
  - destruct (_ || _)%bool; [|apply red_nil; exact H0].
    destruct (include_in_Y _ _ _ _ _ _ _ _ _ (a_L2 a)) as ((Y1, [pos|]), x1).
    + destruct (replaced_by_trial _ _ _ _ _ _ _ _ _ _ _) as [((I', N'), G')|] eqn:RB; [|discriminate].
      apply fin_nil. eapply rep_nil; [|exact RB]. exact H0.
    + destruct (include_in_Y _ _ _ _ _ _ _ _ _ (a_L3 a)) as ((Y2, [pos|]), x2); [|apply red_nil; exact H0].
      destruct (replaced_by_trial _ _ _ _ _ _ _ _ _ _ _) as [((I', N'), G')|] eqn:RB; [|discriminate].
      apply fin_nil. eapply rep_nil; [|exact RB]. exact H0.
Qed.
Lemma acc_nil a A I N G rho fxp s' : sl G = [] -> accept E a A I N G rho fxp = Continue s' -> sl (sG s') = [].
Proof.
  intros H0. unfold accept. cbv zeta. destruct (can_augment E (length (s_Y (iS I)))).
  - destruct (augment_Y _ _ _ _) as (p', Y1). destruct (store _ _ _ _ _ _ _) as [S1|]; [|discriminate].
    destruct (swap_in_Y _ _ _ _ _) as [(S2, x2)|]; [|discriminate].
    destruct (a_exc4 a); [discriminate|]. intros H; injection H as <-. cbn [sG sl]. apply nsl. exact H0.
  - destruct (include_in_Y _ _ _ _ _ _ _ _ _ (a_L1 a)) as ((Y1, [pos|]), x1); [|apply rej_nil; exact H0].
    destruct (store _ _ _ _ _ _ _) as [S1|]; [|discriminate].
    destruct (swap_in_Y _ _ _ _ _) as [(S2, x2)|]; [|discriminate].
    destruct (a_exc4 a); [discriminate|]. intros H; injection H as <-. cbn [sG sl]. apply nsl. exact H0.
Qed.

Lemma step_nil s a s' : Inv E s -> sl (sG s) = [] -> step E s a = Continue s' -> sl (sG s') = [].
Proof.
  intros IV H ST. pose proof IV as (SO & D & S1 & Z & _).
  assert (SP : 0 < sigma (sG s)) by lra.
  pose proof (step_cases E s a SP) as SC. rewrite ST in SC.
  pose proof (G2_same E s a) as (_ & _ & _ & G26 & _).
  inversion SC as [ | | | | A f c cX cp EA CE PE H0 | A f c cX cp pr rho EA CE PR PP RH ER LT H0
                  | A f c cX cp pr EA CE PR PP RH H0 ].
  - cbn [sG st_G3 sl]. congruence.
  - apply acc_nil in H0; [exact H0|]. cbn [st_G3 sl]. congruence.
  - apply rej_nil in H0; [exact H0|]. cbn [st_G3 sl]. congruence.
Qed.

Lemma pass_nil k0 d0 s0 s a s' : begins E k0 d0 s0 -> reach E s0 s -> pass E s a = Continue s' -> sl (sG s) = [] -> sl (sG s') = [].
Proof.
  intros B R PS H0. destruct (pass_pre E SN s a s' (reach_inv E SN _ _ _ _ B R) PS) as (s2 & IV2 & ST & H).
  assert (EQ : sl (sG s2) = sl (sG s)).
  { destruct H as [(_ & _ & -> & _)|(s1 & _ & IM & _ & _ & H1 & _)]; auto.
    pose proof (improve_scal E s1 a) as L. rewrite IM in L.
    destruct L as (_ & _ & _ & _ & _ & _ & _ & _ & _ & _ & L11 & _). congruence. }
  apply (step_nil s2 a s' IV2); congruence.
Qed.

Lemma count_kept k0 d0 s0 s m : begins E k0 d0 s0 -> keeps_size E -> e_me E <> 0%nat -> length (sl (sG s0)) = m ->
  reach_if E (keeps_slacks m) s0 s -> length (sl (sG s)) = m.
Proof.
  intros B KS Z L0 R. induction R as [|s a s' R IH KA PS]; [exact L0|].
  pose proof (reach_if_reach E _ _ _ R) as R1.
  destruct (sl (sG s)) as [|q t] eqn:SE.
  { rewrite (pass_nil _ _ _ _ _ _ B R1 PS SE). exact IH. }
  destruct (Nat.eq_dec (ib (sI s')) (mlast (sA s'))) as [Q|Q].
  - rewrite (new_slacks E SN _ _ _ _ _ _ B R1 PS Q Z) by congruence. rewrite KS. exact KA.
  - rewrite (slacks E SN _ _ _ _ _ _ B R1 PS Q), SE. exact IH.
Qed.
End Sl.

Section World.
Variable w : world.
Hypothesis Sorts : sorts_desc (w_argsort w).
Notation user := (w_user w).
Hypothesis WB : well_behaved user.
Hypothesis CO : constrained user.

(** what the initial phase stores *)
Definition stored (cl X : list (list Q)) (fX : list Q) (ceX : list (list Q)) : Prop :=
  length fX = length X /\ length ceX = length X /\
  forall i y f c, nth_error X i = Some y -> nth_error fX i = Some f -> nth_error ceX i = Some c ->
  exists k v, nth_error cl k = Some y /\ o_f (user k y) = Some (Fin v) /\ o_c (user k y) = Some (map Fin c) /\ capped v f.

Lemma tame_list c0 : (forall v, In v c0 -> exists q, v = Fin q /\ ~ huge q) -> c0 = map Fin (map clampx c0).
Proof.
  induction c0 as [|v t IH]; intros H; [reflexivity|]. destruct (H v (or_introl eq_refl)) as (q & -> & N).
  cbn [map clampx]. rewrite clamp_not_huge by exact N. f_equal. apply IH. intros u U. apply H. right. exact U.
Qed.

Lemma snoc {A} (l : list A) a i x : nth_error (l ++ [a]) i = Some x -> nth_error l i = Some x \/ (i = length l /\ x = a).
Proof.
  intros H. destruct (Nat.lt_ge_cases i (length l)) as [L|L]; [left; rewrite nth_error_app1 in H by exact L; exact H|].
  right. rewrite nth_error_app2 in H by exact L. destruct (i - length l)%nat as [|[|]] eqn:D; cbn in H; try discriminate.
  injection H as <-. split; [lia|reflexivity].
Qed.

Lemma pts_stored : forall todo cl X fX ceX cl' X' fX' ceX', stored cl X fX ceX ->
  eval_pts user todo cl X fX ceX = IDone cl' X' fX' ceX' -> stored cl' X' fX' ceX'.
Proof.
  induction todo as [|y r IH]; intros cl X fX ceX cl' X' fX' ceX' ST H.
  { cbn [eval_pts] in H. injection H as <- <- <- <-. exact ST. }
  cbn [eval_pts] in H. destruct (eval_user (user (length cl) y)) as [f c|v0] eqn:E; [|discriminate].
  apply eval_user_ok in E. destruct E as [[Gf _] (c0 & Ec & Nc & ->)].
  pose proof (CO _ _ _ Ec) as NE. pose proof (tame_list c0 (fun v => WB _ _ _ v Ec)) as TL.
  destruct (add_col ceX (map clampx c0)) as [ce1|] eqn:A; [|discriminate].
  assert (ce1 = ceX ++ [map clampx c0]) as ->.
  { unfold add_col in A. destruct (map clampx c0) as [|u t] eqn:MC; [destruct c0; [congruence|discriminate]|].
    destruct ceX as [|h t']; [injection A as <-; reflexivity|]. destruct (_ =? _)%nat; [|discriminate]. injection A as <-. reflexivity. }
  destruct (qltb c1e25 (qabs (qmin c1e25 f))); [discriminate|].
  apply IH in H; [exact H|]. destruct ST as (L1 & L2 & ST). split; [rewrite !app_length; cbn; lia|]. split; [rewrite !app_length; cbn; lia|].
  intros i z g c Hz Hg Hc. apply snoc in Hz. apply snoc in Hg. apply snoc in Hc.
  destruct Hz as [Hz|[Hi ->]].
  - assert (i < length X)%nat by (apply nth_error_Some; congruence).
    destruct Hg as [Hg|[? _]]; [|lia]. destruct Hc as [Hc|[? _]]; [|lia].
    destruct (ST _ _ _ _ Hz Hg Hc) as (k & v & K1 & K2). exists k, v. split; [|exact K2].
    rewrite nth_error_app1; [exact K1|apply nth_error_Some; congruence].
  - destruct Hg as [Hg|[_ ->]]; [assert (i < length fX)%nat by (apply nth_error_Some; congruence); lia|].
    destruct Hc as [Hc|[_ ->]]; [assert (i < length ceX)%nat by (apply nth_error_Some; congruence); lia|].
    exists (length cl), f. rewrite nth_error_app2, Nat.sub_diag by lia. split; [reflexivity|]. split; [exact Gf|].
    split; [rewrite <- TL; exact Ec|]. apply qmin_capped.
Qed.

Lemma ow_same cl X fX ceX ce2 : stored cl X fX ceX -> overwrite_ce ceX = Some ce2 -> ce2 = ceX.
Proof.
  intros (L1 & L2 & ST) O. apply overwrite_tame; [exact O|]. intros col v Ic Iv.
  apply In_nth_error in Ic. destruct Ic as (i & Hi). assert (i < length ceX)%nat by (apply nth_error_Some; congruence).
  destruct (nth_error X i) as [y|] eqn:HX; [|apply nth_error_None in HX; lia].
  destruct (nth_error fX i) as [f|] eqn:HF; [|apply nth_error_None in HF; lia].
  destruct (ST _ _ _ _ HX HF Hi) as (k & u & _ & _ & K & _).
  destruct (WB _ _ _ (Fin v) K (in_map Fin _ _ Iv)) as (q & Q1 & Q2). injection Q1 as <-. exact Q2.
Qed.

Lemma rounds_stored : forall fuel x d cl cl' X fX ceX d',
  rounds user (w_nrm w) (w_geom w) (w_fit w) fuel x d cl = Some (PReady cl' X fX ceX d') -> stored cl' X fX ceX.
Proof.
  induction fuel as [|fuel IH]; intros x d cl cl' X fX ceX d' H; [discriminate|]. cbn [rounds] in H.
  destruct (negb (w_geom w (simplex x d))); [discriminate|].
  destruct (eval_pts user (simplex x d) cl [] [] []) as [c1 X1 f1 ce1|c1 ce1|c1|] eqn:Ev; [| |discriminate|discriminate].
  - apply pts_stored in Ev; [|split; [reflexivity|split; [reflexivity|intros [|i]; discriminate]]].
    destruct (overwrite_ce ce1) as [ce2|] eqn:O; [|discriminate]. rewrite (ow_same _ _ _ _ _ Ev O) in H.
    destruct ce1 as [|h t].
    + destruct (w_fit w X1); [|discriminate]. injection H as <- <- <- <- <-. exact Ev.
    + destruct (length (h :: t) =? length X1)%nat; [|discriminate]. destruct (w_fit w X1); [|discriminate]. injection H as <- <- <- <- <-. exact Ev.
  - destruct (overwrite_ce ce1) as [ce2|]; [|discriminate].
    destruct (qltb (shrink * d) (stall * w_nrm w x)); [discriminate|]. eauto.
Qed.

Lemma prelim_stored fuel int lb ub x0 cl X fX ceX d :
  prelim user (w_nrm w) (w_geom w) (w_fit w) fuel int lb ub x0 = Some (PReady cl X fX ceX d) -> stored cl X fX ceX.
Proof.
  intros H. destruct (prelim_cases w _ _ _ _ _ _ H) as [(K & _)|[(K & _)|[K|[(x & d1 & K1 & K2 & K3)|(x & d1 & f & fx & K1 & K2 & K3)]]]];
      try discriminate; eapply rounds_stored; eauto.
Qed.

Lemma run_if (E : env (list Q)) (Q : answers (list Q) -> Prop) s0 s n : forall ans k fl s' f, (forall j, Q (ans j)) ->
  reach_if E Q s0 s -> run E n ans k s = Some (Return fl s' f) ->
  exists s1 a, reach_if E Q s0 s1 /\ pass E s1 a = Return fl s' f.
Proof.
  revert s. induction n as [|n IH]; intros s ans k fl s' f A R; [discriminate|]. cbn [run].
  destruct (pass E s (ans k)) as [s2|fl2 s2 f2|] eqn:PS; try discriminate.
  - apply IH; [exact A|]. econstructor; eauto.
  - intros H; injection H as -> -> ->. eauto.
Qed.

Lemma settings_tol o n me E : settings w o n me = Some E -> has_value (tol_feas o) (e_tolf E) /\ keeps_size E = (forall slp c, length (w_adj w slp c) = length slp).
Proof.
  intros H. unfold settings in H.
  destruct (limit (miter o)) as [mt|]; [|discriminate]. destruct (limit (msimul o)) as [ms|]; [|discriminate].
  destruct (finite (tol_grad o)); [|discriminate]. destruct (finite (tol_feas o)) as [q0|] eqn:F; [|discriminate].
  destruct (finite (tol_bnds o)); [|discriminate]. injection H as <-. cbn. split; [|reflexivity].
  unfold finite in F. destruct (tol_feas o) as [[z|[r| | |]]|]; try discriminate; injection F as <-; eexists; split; reflexivity.
Qed.

Lemma call_feasible fuel i y cl m o : solve fuel i w = Some (Gives 0 (Some y) cl) ->
  validate (i_opts i) = VDone o -> slacks_of i = Some m ->
  exists q k v c, has_value (tol_feas o) q /\ nth_error cl k = Some y /\
    o_f (user k y) = Some (Fin v) /\ o_c (user k y) = Some (map Fin c) /\
    (forall j r, nth_error c j = Some r -> - (100 * q) <= r) /\
    (slacks_kept w m -> within (100 * q) m c).
Proof.
  intros H HV HM. destruct (solve_cases w _ _ _ _ _ H) as [(_ & K & _)|[(_ & K & _)|(k & o' & cl0 & X & fX & ceX & d & SL & VA & L & U & PR & C)]]; try discriminate.
  rewrite HV in VA. injection VA as <-. rewrite HM in SL. injection SL as <-.
  pose proof (prelim_stored _ _ _ _ _ _ _ _ _ _ PR) as STO.
  destruct (ready w _ _ _ _ _ _ _ _ _ _ PR L U) as (LX & G & _ & N & BG).
  unfold continue_ in C. set (c0 := match ceX with c :: _ => c | [] => [] end) in *.
  destruct (length c0 <? m)%nat eqn:K0; [discriminate|]. apply Nat.ltb_ge in K0.
  destruct (w_late w); [discriminate|]. destruct (settings w o (length (i_x0 i)) (length c0)) as [E|] eqn:SE; [|discriminate].
  destruct (settings_facts w Sorts _ _ _ _ N SE) as (S1 & S2 & S3 & S4 & S5 & S6 & S7).
  destruct (settings_tol _ _ _ _ SE) as [TF KE].
  destruct (start E cl0 X fX ceX _ d) as [s0|] eqn:ST; [|discriminate].
  assert (B : begins E (length cl0) d s0).
  { refine (BG E _ s0 S2 _ _ ST).
    - rewrite S3. symmetry. apply width_hd.
    - intros ->. cbn in c0. subst c0. cbn in K0. assert (m = 0%nat) by lia. subst m. reflexivity. }
  assert (T : tame E) by (intros k0 y0 c1 v0; rewrite S2; apply WB).
  assert (SS : recorded E s0 /\ sl (sG s0) = match m with O => [] | S _ => w_slk w m c0 end).
  { unfold start in ST. destruct X as [|x1 X]; [discriminate|]. destruct fX as [|f1 fX]; [discriminate|].
    injection ST as <-. split; [|reflexivity]. destruct STO as (_ & _ & STO).
    intros j z g c Hz Hg Hc. cbn [sA Xs fXs ceXs calls] in *. destruct (STO j z g c Hz Hg Hc) as (k0 & v0 & Q1 & Q2 & Q3 & Q4).
    exists k0, v0. split; [exact Q1|]. split; [|exact Q4]. unfold answered. rewrite S2. split; [exact Q2|]. split; [exact Q3|].
    intros I. apply in_map_iff in I. destruct I as (q & I & _). discriminate. }
  destruct SS as (R0 & SL0).
  assert (ME : e_me E <> 0%nat).
  { rewrite S3. destruct STO as (L1 & L2 & STO). destruct X as [|x1 X]; [cbn in LX; lia|]. destruct fX as [|f1 fX]; [discriminate|].
    destruct ceX as [|h t]; [discriminate|]. destruct (STO 0%nat x1 f1 h eq_refl eq_refl eq_refl) as (k0 & v0 & _ & _ & Q & _).
    subst c0. intros Z. destruct h; [|discriminate]. exact (CO _ _ _ Q eq_refl). }
  destruct (run E fuel (w_ans w) 0 s0) as [[s|fl1 s f1|]|] eqn:RN; try discriminate.
  injection C as -> EY <-.
  assert (FIN : exists s1 a, reach E s0 s1 /\ pass E s1 a = Return 0 s f1 /\ (slacks_kept w m -> length (sl (sG s)) = m)).
  { destruct (@run_reach _ E s0 s0 fuel (w_ans w) 0%nat 0%nat s f1 (reach_start E s0) RN) as (s1 & a & R & PS).
    destruct (run_if E (fun a => (forall j, keeps_slacks m (w_ans w j)) -> keeps_slacks m a) s0 s0 fuel (w_ans w) 0%nat 0%nat s f1) as (s2 & a2 & R2 & PS2);
      [intros j HH; apply HH|constructor|exact RN|].
    exists s2, a2. split; [eapply reach_if_reach; eauto|]. split; [exact PS2|].
    intros (W1 & W2 & W3). rewrite (ret_sl E _ _ _ _ PS2).
    apply (count_kept E S1 _ _ s0 s2 m B); [rewrite KE; exact W2|exact ME| |].
    - rewrite SL0. destruct m; [reflexivity|apply W1].
    - clear PS2 RN R PS. induction R2 as [|s3 a3 s4 R3 IH KA PS3]; [constructor|]. econstructor; [exact IH| |exact PS3]. apply KA. exact W3. }
  destruct FIN as (s1 & a & R & PS & LEN).
  destruct (c_feasible E S1 T _ _ _ _ _ _ _ B R0 R ME PS) as (c & (k & v & A1 & A2 & _) & W).
  destruct (@returned_evaluated _ E S1 _ _ _ _ _ _ _ _ B R PS) as (_ & H5).
  assert (y = ix (sI s)) as -> by congruence.
  destruct A2 as (A2 & A3 & _). rewrite S2 in A2, A3.
  exists (e_tolf E), k, v, c. split; [exact TF|]. split; [exact A1|]. split; [exact A2|]. split; [exact A3|].
  split; [exact (proj1 W)|]. intros SK. rewrite (LEN SK) in W. exact W.
Qed.
End World.
