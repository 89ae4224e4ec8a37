(** Proofs about the accuracy test after an improvement. *)
From Coq Require Import Reals Lra Psatz Lia List Arith Bool ZArith QArith Qreals.
From Coq Require Lqa.
From Verif Require Import RVec RBool Poly_Model Poly_Spec Int_Model Int_Spec Int_Proofs QB Book_Model Book_Spec Main_Model Main_Spec
  Main_Proofs Main_Proofs2 Set_Proofs New_Model New_Spec New_Proofs Ver_Spec.
Import ListNotations.
Local Open Scope Q_scope.

Section V.
Variable P : Type.
Variable E : env P.

Lemma improve_zero dist newpt cl n : forall k Y d repl imp Y' repl' imp' r,
  (repl = [] -> imp = 0) -> Book_Model.improve (P:=P) dist newpt cl n k Y d repl imp = Some (Y', repl', imp', r) -> repl' = [] -> imp' = 0.
Proof.
  induction n as [|n IH]; intros k Y d repl imp Y' repl' imp' r H0; cbn.
  - destruct (qmaxl d); [|discriminate]. intros H; injection H as <- <- <- <-. auto.
  - destruct (scan _ _ _ _ _) as (k', [((i, j), y)|]).
    + destruct (qltb i cl).
      * destruct (qmaxl d); [|discriminate]. intros H; injection H as <- <- <- <-. intros ->. reflexivity.
      * apply IH. destruct (existsb (Nat.eqb j) repl) eqn:X; [destruct repl; discriminate|destruct repl; discriminate].
    + destruct (qltb 0 cl); [|discriminate]. destruct (qmaxl d); [|discriminate]. intros H; injection H as <- <- <- <-. auto.
Qed.

Lemma repair_zero zero dist rowdist newpt argsort ff eL D cl (Y : list P) x Y' imp r x' :
  repair_Y zero dist rowdist newpt argsort ff eL D cl Y x = Some (Y', [], imp, r, x') -> imp = 0.
Proof.
  unfold repair_Y. cbv zeta. destruct (far_loop _ _ _ _ _ _ _ _ _ _ _ _ _) as [[[k Y1] d1] repl1].
  destruct (Book_Model.improve _ _ _ _ _ _ _ _ _) as [[[[Y2 repl2] i2] r2]|] eqn:IM; [|discriminate].
  intros H. assert (Z : repl2 = []) by congruence. assert (I2 : i2 = imp) by (destruct repl2; congruence). subst imp.
  refine (improve_zero _ _ _ _ _ _ _ _ _ _ _ _ _ _ IM Z). reflexivity.
Qed.

Lemma improve_acc s a o : improve E s a = o ->
  (forall s2, o = Continue s2 ->
     errg (sN s2) = poised (sN s2) * yrad (sN s2) / 100 /\
     (a_repoised a = None -> calls (sA s2) = calls (sA s) -> poised (sN s2) = 0) /\
     (forall pr, a_repoised a = Some pr -> (poised (sN s2), yrad (sN s2)) = pr) /\
     (0 <= e_tolb E -> 100 * e_tolg E < a_glagn2 a \/ 100 * e_tolf E < feasn (sN s2) \/ 1 # 100000 < errg (sN s2))) /\
  (forall s2 f, o = Return 0 s2 f ->
     niter (sN s2) = S (niter (sN s)) /\
     errg (sN s2) = poised (sN s2) * yrad (sN s2) / 100 /\
     (a_repoised a = None -> calls (sA s2) = calls (sA s) -> poised (sN s2) = 0) /\
     (forall pr, a_repoised a = Some pr -> (poised (sN s2), yrad (sN s2)) = pr) /\
     a_glagn2 a <= 100 * e_tolg E /\ feasn (sN s2) <= 100 * e_tolf E /\ errg (sN s2) <= 1 # 100000).
Proof.
  intros <-. unfold improve.
  set (ec := new_epsc E (sG s) (sN s)). set (radius := Main_Model.new_radius (sG s) (sN s) ec).
  destruct (qltb radius _ || _)%bool; [split; discriminate|].
  destruct (repair_Y _ _ _ _ _ _ _ _ _ _ _) as [[[[[Y' repl] imp] rad] x']|] eqn:RE; [|split; discriminate].
  assert (PO : forall po yr, match a_repoised a with Some pr => pr | None => (imp, rad) end = (po, yr) ->
     (a_repoised a = None -> repl = [] -> po = 0) /\ (forall pr, a_repoised a = Some pr -> (po, yr) = pr)).
  { intros po yr H. split.
    - intros K ->. rewrite K in H. injection H as <- <-. eapply repair_zero; exact RE.
    - intros pr K. rewrite K in H. congruence. }
  destruct (match a_repoised a with Some pr => pr | None => (imp, rad) end) as (po, yr). specialize (PO _ _ eq_refl). destruct PO as (P1 & P2).
  destruct (eval_replaced E repl Y' (sA s) (s_ind (iS (sI s))) (s_f (iS (sI s))) (s_ce (iS (sI s))))
    as [[[[A' ind'] fY'] ceY']|] eqn:ER; [|split; discriminate].
  apply eval_replaced_calls in ER. destruct ER as (new & CL & F2).
  assert (RN : calls A' = calls (sA s) -> repl = []).
  { intros K. rewrite CL in K. rewrite <- (app_nil_r (calls (sA s))) in K at 2. apply app_inv_head in K. subst new. inversion F2. reflexivity. }
  destruct (find_smallf _ _ _ _ _ _ _ _) as [r|] eqn:FS; [|split; discriminate].
  destruct (a_exc2 a); [split; discriminate|].
  destruct (_ && _)%bool eqn:B; (split; [intros s2 H|intros s2 f H]; try discriminate); injection H as <-;
    cbn [sN errg poised yrad sA feasn niter].
  - apply andb_prop in B. destruct B as (B & B4). apply andb_prop in B. destruct B as (B & B3). apply andb_prop in B. destruct B as (B1 & B2).
    qb. unfold factor_CV, epsilon in *. apply Qle_shift_div_r in B1 || idtac.
    split; [reflexivity|]. split; [reflexivity|]. split; [auto|]. split; [auto|].
    unfold Qdiv in B1, B2. change (/ 100) with (1 # 100) in *. repeat split; try Lqa.lra.
  - split; [reflexivity|]. split; [auto|]. split; [auto|]. intros TB.
    unfold factor_CV, epsilon in *. rewrite !andb_false_iff in B. unfold Qdiv in *. change (/ 100) with (1 # 100) in *.
    destruct B as [[[B|B]|B]|B]; qb; [left|right; left| |right; right]; try Lqa.lra; exact B.
Qed.

Definition kept (N N' : inf) : Prop :=
  errg N' = errg N /\ feasn N' = feasn N /\ poised N' = poised N /\ yrad N' = yrad N /\ niter N' = niter N.

Lemma fin_kept (a : answers P) A I (N : inf) G s' : finish_rej a A I N G = Continue s' -> kept N (sN s') /\ sA s' = A.
Proof. unfold finish_rej. destruct (a_exc4 a); [discriminate|]. intros H; injection H as <-. repeat split. Qed.

Lemma rbt_kept a A I N G won Y pos x fxp I' N' G' : replaced_by_trial E a A I N G won Y pos x fxp = Some (I', N', G') -> kept N N'.
Proof.
  unfold replaced_by_trial. destruct (store _ _ _ _ _ _ _); [|discriminate]. destruct won.
  - destruct (swap_in_Y _ _ _ _ _) as [(?, ?)|]; [|discriminate]. intros H; injection H as <- <- <-. repeat split.
  - intros H; injection H as <- <- <-. repeat split.
Qed.

Lemma kept_trans N N' N'' : kept N N' -> kept N' N'' -> kept N N''.
Proof. unfold kept. intuition congruence. Qed.

Lemma reduce_kept a A I N G fxp s' : reduce E a A I N G fxp = Continue s' -> kept N (sN s') /\ sA s' = A.
Proof. unfold reduce. cbv zeta. destruct (_ || _)%bool; [discriminate|]. apply fin_kept. Qed.

Lemma reject_kept a A I N G won fxp s' : reject E a A I N G won fxp = Continue s' -> kept N (sN s') /\ sA s' = A.
Proof.
  unfold reject. cbv zeta. destruct (_ && negb won)%bool.
  { destruct (augment_Y _ _ _ _) as (p', Y'). destruct (store _ _ _ _ _ _ _); [|discriminate]. apply fin_kept. }
  destruct (_ || _)%bool; [|apply reduce_kept].
  destruct (include_in_Y _ _ _ _ _ _ _ _ _ _) as ((Y1, [p1|]), x1).
  - destruct (replaced_by_trial _ _ _ _ _ _ _ _ _ _ _) as [((I', N'), G')|] eqn:R; [|discriminate].
    apply rbt_kept in R. intros H. apply fin_kept in H. destruct H. split; [eapply kept_trans; eauto|auto].
  - destruct (include_in_Y _ _ _ _ _ _ _ _ _ _) as ((Y2, [p2|]), x2); [|apply reduce_kept].
    destruct (replaced_by_trial _ _ _ _ _ _ _ _ _ _ _) as [((I', N'), G')|] eqn:R; [|discriminate].
    apply rbt_kept in R. intros H. apply fin_kept in H. destruct H. split; [eapply kept_trans; eauto|auto].
Qed.

Lemma accept_kept a A I N G rho fxp s' : accept E a A I N G rho fxp = Continue s' -> kept N (sN s') /\ sA s' = A.
Proof.
  unfold accept. cbv zeta. match goal with |- context [if can_augment ?e ?n then ?u else ?v] => destruct (if can_augment e n then u else v) as ((Y', [ps|]), x') end; [|apply reject_kept].
  destruct (store _ _ _ _ _ _ _); [|discriminate]. destruct (swap_in_Y _ _ _ _ _) as [(?, ?)|]; [|discriminate].
  destruct (a_exc4 a); [discriminate|]. intros H; injection H as <-. repeat split.
Qed.

Lemma eval_calls A y A' f cc : eval_at E A y = EDone A' f cc -> calls A' = calls A ++ [y].
Proof.
  unfold eval_at. destruct (eval_user _); [|discriminate]. cbv zeta. destruct (_ =? _)%nat; [|discriminate].
  intros H; injection H as <- _ _. reflexivity.
Qed.

Lemma step_info s a s' : step E s a = Continue s' ->
  errg (sN s') = errg (sN s) /\ feasn (sN s') = feasn (sN s) /\ poised (sN s') = poised (sN s) /\ yrad (sN s') = yrad (sN s) /\
  calls (sA s') = calls (sA s) ++ [a_xnew a] /\ niter (sN s') = S (niter (sN s)).
Proof.
  unfold step. cbv zeta. destruct (a_exc3 a); [discriminate|]. destruct (_ && _)%bool; [discriminate|].
  destruct (eval_at E (sA s) (a_xnew a)) as [A f cc| |] eqn:EV; try discriminate. apply eval_calls in EV.
  match goal with |- context [match ?t with Some _ => _ | None => Crash end] => destruct t as [(cX, cp)|] end; [|discriminate].
  destruct (_ <? _)%nat; [discriminate|]. destruct (a_minf a); [discriminate|].
  destruct (qeqb _ (-1)).
  { intros H; injection H as <-. cbn [sN sA calls errg feasn poised yrad niter]. auto 10. }
  destruct (qleb eta1 _).
  - destruct (qleb _ _); [discriminate|]. intros H. apply accept_kept in H. destruct H as ((H1 & H2 & H3 & H4 & H5) & ->). auto 10.
  - intros H. apply reject_kept in H. destruct H as ((H1 & H2 & H3 & H4 & H5) & ->). auto 10.
Qed.

Lemma step_no0 s a s' f : step E s a <> Return 0 s' f.
Proof.
  assert (RD : forall A I N G fxp, reduce E a A I N G fxp <> Return 0 s' f).
  { intros A I N G fxp. unfold reduce, finish_rej. cbv zeta. destruct (_ || _)%bool; [discriminate|]. destruct (a_exc4 a); discriminate. }
  assert (FR : forall A I N G, finish_rej a A I N G <> Return 0 s' f).
  { intros A I N G. unfold finish_rej. destruct (a_exc4 a); discriminate. }
  assert (RJ : forall A I N G won fxp, reject E a A I N G won fxp <> Return 0 s' f).
  { intros A I N G won fxp. unfold reject. cbv zeta. destruct (_ && negb won)%bool.
    { destruct (augment_Y _ _ _ _) as (p', Y'). destruct (store _ _ _ _ _ _ _); [|discriminate]. apply FR. }
    destruct (_ || _)%bool; [|apply RD].
    destruct (include_in_Y _ _ _ _ _ _ _ _ _ _) as ((Y1, [p1|]), x1).
    - destruct (replaced_by_trial _ _ _ _ _ _ _ _ _ _ _) as [((I', N'), G')|]; [|discriminate]. apply FR.
    - destruct (include_in_Y _ _ _ _ _ _ _ _ _ _) as ((Y2, [p2|]), x2); [|apply RD].
      destruct (replaced_by_trial _ _ _ _ _ _ _ _ _ _ _) as [((I', N'), G')|]; [|discriminate]. apply FR. }
  unfold step. cbv zeta. destruct (a_exc3 a); [discriminate|]. destruct (_ && _)%bool; [discriminate|].
  destruct (eval_at E (sA s) (a_xnew a)) as [A f' cc| |]; try discriminate.
  match goal with |- context [match ?t with Some _ => _ | None => Crash end] => destruct t as [(cX, cp)|] end; [|discriminate].
  destruct (_ <? _)%nat; [discriminate|]. destruct (a_minf a); [discriminate|].
  destruct (qeqb _ (-1)); [discriminate|].
  destruct (qleb eta1 _); [|apply RJ]. destruct (qleb _ _); [discriminate|].
  unfold accept. cbv zeta. match goal with |- context [if can_augment ?e ?n then ?u else ?v] => destruct (if can_augment e n then u else v) as ((Y', [ps|]), x') end; [|apply RJ].
  destruct (store _ _ _ _ _ _ _); [|discriminate]. destruct (swap_in_Y _ _ _ _ _) as [(?, ?)|]; [|discriminate].
  destruct (a_exc4 a); discriminate.
Qed.

(** the improvement within a pass *)
Lemma pass_improved s a o : pass E s a = o ->
  (forall s', o = Continue s' -> improved s s' -> exists s1 s2, sA s1 = sA s /\ niter (sN s1) = S (niter (sN s)) /\
     improve E s1 a = Continue s2 /\ step E s2 a = Continue s') /\
  (forall s' f, o = Return 0 s' f -> improved s s' -> exists s1, sA s1 = sA s /\ niter (sN s1) = S (niter (sN s)) /\
     improve E s1 a = Return 0 s' f).
Proof.
  intros <-. unfold pass, improved. cbv zeta. destruct (_ <=? _)%nat; [split; discriminate|]. destruct (_ <=? _)%nat; [split; discriminate|].
  destruct (a_exc1 a); [split; discriminate|]. destruct (_ || _)%bool.
  - destruct (_ && _)%bool.
    { split; [discriminate|]. intros s' f H. injection H as <- <-. cbn [sN niter]. lia. }
    match goal with |- context [improve E ?s1 a] => set (s1' := s1) end.
    destruct (improve E s1' a) as [s2|fl s2 f|] eqn:IM.
    + split; [|intros s' f H; exfalso; exact (step_no0 _ _ _ _ H)]. intros s' H _. exists s1', s2. auto.
    + split; [discriminate|]. intros s' f' H _. exists s1'. rewrite IM, H. auto.
    + split; discriminate.
  - split; [|intros s' f H; exfalso; exact (step_no0 _ _ _ _ H)].
    intros s' H K. apply step_info in H. cbn [sN niter] in H. lia.
Qed.

(** ** the theorems *)

Lemma t_quiet s a s' : 0 <= e_tolb E -> a_repoised a = None -> pass E s a = Continue s' -> improved s s' ->
  calls (sA s') = calls (sA s) ++ [a_xnew a] ->
  errg (sN s') == 0 /\ (100 * e_tolg E < a_glagn2 a \/ 100 * e_tolf E < feasn (sN s')).
Proof.
  intros TB RP PS IM CL. destruct (pass_improved _ _ _ PS) as (H & _).
  destruct (H s' eq_refl IM) as (s1 & s2 & A1 & N1 & I1 & S1).
  destruct (improve_acc _ _ _ I1) as (K & _). destruct (K s2 eq_refl) as (K1 & K2 & _ & K4).
  apply step_info in S1. destruct S1 as (E1 & E2 & _ & _ & E5 & _).
  assert (C2 : calls (sA s2) = calls (sA s1)).
  { rewrite A1. rewrite CL in E5. apply app_inj_tail in E5. symmetry. apply E5. }
  assert (Z : errg (sN s2) == 0) by (rewrite K1, (K2 RP C2); unfold Qdiv; rewrite !Qmult_0_l; reflexivity).
  rewrite E1, E2. split; [exact Z|]. destruct (K4 TB) as [X|[X|X]]; [auto|auto|]. exfalso. Lqa.lra.
Qed.

Lemma t_quiet_back s a s' f : a_repoised a = None -> pass E s a = Return 0 s' f -> improved s s' ->
  calls (sA s') = calls (sA s) -> poised (sN s') = 0 /\ errg (sN s') == 0.
Proof.
  intros RP PS IM CL. destruct (pass_improved _ _ _ PS) as (_ & H).
  destruct (H s' f eq_refl IM) as (s1 & A1 & N1 & I1).
  destruct (improve_acc _ _ _ I1) as (_ & K). destruct (K s' f eq_refl) as (_ & K1 & K2 & _).
  rewrite <- A1 in CL. split; [auto|]. rewrite K1, (K2 RP CL). unfold Qdiv. rewrite !Qmult_0_l. reflexivity.
Qed.

Lemma t_loud s a s' po yr : a_repoised a = Some (po, yr) -> improved s s' ->
  (forall f, pass E s a = Return 0 s' f -> po * yr <= 1 # 1000 /\ poised (sN s') = po /\ yrad (sN s') = yr) /\
  (pass E s a = Continue s' -> poised (sN s') = po /\ yrad (sN s') = yr /\
     (0 <= e_tolb E -> po * yr <= 1 # 1000 -> 100 * e_tolg E < a_glagn2 a \/ 100 * e_tolf E < feasn (sN s'))).
Proof.
  intros RP IM. split.
  - intros f PS. destruct (pass_improved _ _ _ PS) as (_ & H).
    destruct (H s' f eq_refl IM) as (s1 & A1 & N1 & I1).
    destruct (improve_acc _ _ _ I1) as (_ & K). destruct (K s' f eq_refl) as (_ & K1 & _ & K3 & _ & _ & K6).
    specialize (K3 _ RP). injection K3 as <- <-. rewrite K1 in K6. unfold Qdiv in K6. change (/ 100) with (1 # 100) in K6.
    split; [Lqa.lra|auto].
  - intros PS. destruct (pass_improved _ _ _ PS) as (H & _).
    destruct (H s' eq_refl IM) as (s1 & s2 & A1 & N1 & I1 & S1).
    destruct (improve_acc _ _ _ I1) as (K & _). destruct (K s2 eq_refl) as (K1 & _ & K3 & K4).
    specialize (K3 _ RP). apply step_info in S1. destruct S1 as (_ & E2 & E3 & E4 & _). rewrite E2, E3, E4.
    injection K3 as <- <-. split; [auto|]. split; [auto|]. intros TB LE.
    rewrite K1 in K4. unfold Qdiv in K4. change (/ 100) with (1 # 100) in K4.
    destruct (K4 TB) as [X|[X|X]]; [auto|auto|]. exfalso. Lqa.lra.
Qed.
End V.

(** the poisedness measured by the routine is at least one, up to the errors of the solver *)
Open Scope R_scope.
Lemma t_at_least slv pinv solver qr ill cure lSolver mode shift n p1 Y b tau e lam r :
  regular_case slv pinv qr ill cure mode shift n p1 Y b -> (2 <= p1)%nat -> (p1 <= full n)%nat ->
  honest n tau solver -> optimal n e solver ->
  poisedness slv pinv solver false lSolver mode shift n p1 b Y = Some (lam, r) -> 1 <= lam + e + tau.
Proof.
  intros RC P2 PF HT OE PO.
  destruct (t_poisedness_bound _ _ _ _ _ _ _ _ _ _ _ _ _ _ _ _ _ RC PF HT OE PO 1%nat ltac:(lia)) as (len & L & EL & B).
  destruct (t_lagrange_delta _ _ _ _ _ _ _ _ _ _ _ RC 1 1 PF ltac:(lia) ltac:(lia)) as (len' & L' & EL' & V).
  rewrite EL in EL'. injection EL' as <- <-. cbn [Nat.eqb] in V.
  assert (D : norm n (vsub (Y 1%nat) (Y 0%nat)) <= r).
  { destruct (t_poisedness _ _ _ _ _ _ _ _ _ _ _ _ PO) as (H & _). apply H. lia. }
  destruct (B (Y 1%nat) D) as (v & V' & AB). rewrite V in V'. injection V' as <-. rewrite Rabs_R1 in AB. exact AB.
Qed.
