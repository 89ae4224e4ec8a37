(** Proofs about the final report. *)
From Coq Require Import List Arith ZArith QArith Qabs Bool String Lia Lqa.
Import ListNotations.
From Verif Require Import QB Book_Model Book_Spec Main_Model Main_Spec Main_Proofs3 Main_More Opt_Model Opt_Spec Opt_Proofs Drv_Model
  Pre_Model Pre_Spec Pre_Proofs Sol_Model Sol_Spec Sol_Proofs Con_Spec Con_Proofs Con_Call Out_Model Out_Spec Out_Proofs Out_More Free_Model Rep_Model Rep_Spec.
Local Open Scope Q_scope.

Lemma at_least_iff o v : at_least o v = true <-> loud o v.
Proof.
  unfold at_least, loud. destruct (verbose o) as [u|]; [|split; [discriminate|intros (u & K & _); discriminate]].
  split.
  - intros H. exists u. split; [reflexivity|]. destruct (val u) as [q| | |]; cbn in H; try discriminate; auto.
    right. exists q. split; [reflexivity|]. apply qleb_iff in H. exact H.
  - intros (u' & [= <-] & [-> | (q & -> & H)]); cbn; [reflexivity|]. apply qleb_iff. exact H.
Qed.

Lemma above_iff o v : above o v = true <-> louder o v.
Proof.
  unfold above, louder. destruct (verbose o) as [u|]; [|split; [discriminate|intros (u & K & _); discriminate]].
  split.
  - intros H. exists u. split; [reflexivity|]. destruct (val u) as [q| | |]; cbn in H; try discriminate; auto.
    right. exists q. split; [reflexivity|]. apply qltb_iff in H. exact H.
  - intros (u' & [= <-] & [-> | (q & -> & H)]); cbn; [reflexivity|]. apply qltb_iff. exact H.
Qed.

Lemma fout_ninf o o' : validate o = VDone o' -> fout o = Some (NFlt NInf) -> False.
Proof.
  intros V F. unfold validate, steps in V. cbn [fold_left] in V.
  do 12 (apply vbind_done in V; let t := fresh in destruct V as (t & V & _)).
  cbn [vbind] in V. unfold v_fout in V. rewrite F in V. discriminate.
Qed.

Section Call.
Variable w : world.
Hypothesis Sorts : sorts_desc (w_argsort w).
Notation user := (w_user w).

(** a call that returns a point from the main loop *)
Definition ended (fuel : nat) (i : input) (fl : nat) (y : list Q) (cl : list (list Q)) (o : opts) (nb me : nat)
    (E : env (list Q)) (s0 s1 : st (list Q)) (a : answers (list Q)) (s : st (list Q)) (f : xQ) (k0 : nat) (d : Q) : Prop :=
  sane E /\ e_user E = user /\ e_me E = me /\ Some (e_miter E) = limit (miter o) /\ begins E k0 d s0 /\ reach E s0 s1 /\
  pass E s1 a = Return fl s f /\ y = ix (sI s) /\ cl = calls (sA s) /\ validate (i_opts i) = VDone o /\
  (well_behaved user -> constrained user -> recorded E s0 /\ exists k y c, o_c (user k y) = Some c /\ List.length c = me) /\
  has_value (tol_grad o) (e_tolg E) /\ has_value (tol_feas o) (e_tolf E) /\
  report fuel i w = Some (report_of o (List.length (i_x0 i)) nb me fl s) /\
  (medium o -> exists ls, file fuel i w = Some (complete ls) /\ counted fl (niter (sN s)) (map l_it ls)).

Lemma settings_tols o n me E : settings w o n me = Some E -> has_value (tol_grad o) (e_tolg E) /\ has_value (tol_feas o) (e_tolf E).
Proof.
  intros H. unfold settings in H.
  destruct (limit (miter o)) as [mt|]; [|discriminate]. destruct (limit (msimul o)) as [ms|]; [|discriminate].
  destruct (finite (tol_grad o)) as [q1|] eqn:G; [|discriminate]. destruct (finite (tol_feas o)) as [q0|] eqn:F; [|discriminate].
  destruct (finite (tol_bnds o)); [|discriminate]. injection H as <-. cbn.
  assert (X : forall n q, finite n = Some q -> has_value n q).
  { intros m r0 K. unfold finite in K. destruct m as [[z|[r| | |]]|]; try discriminate; injection K as <-; eexists; split; reflexivity. }
  split; apply X; assumption.
Qed.

Lemma call_ended fuel i fl y cl : solve fuel i w = Some (Gives fl (Some y) cl) ->
  exists o nb me E s0 s1 a s f k0 d, ended fuel i fl y cl o nb me E s0 s1 a s f k0 d.
Proof.
  intros H0. pose proof H0 as H.
  destruct (solve_cases w _ _ _ _ _ H) as [(_ & K & _)|[(_ & K & _)|(m & o & cl0 & X & fX & ceX & d & SL & VA & L & U & PR & C)]]; try discriminate.
  assert (RP : report fuel i w = report_main fuel w o (List.length (i_x0 i)) m (count_bounds (inf_of o) (List.length (i_x0 i)) (full_lb i m) (full_ub i m)) cl0 X fX ceX d).
  { unfold solve in H. unfold report. destruct (check_args (i_args i)); [discriminate|discriminate|].
    rewrite SL, VA. cbv zeta. replace (List.length (full_lb i m) <? List.length (i_x0 i))%nat with false by (symmetry; apply Nat.ltb_ge; exact L).
    replace (List.length (full_ub i m) <? List.length (i_x0 i))%nat with false by (symmetry; apply Nat.ltb_ge; exact U). cbn [orb].
    rewrite PR. reflexivity. }
  assert (FP : file fuel i w = Some (Head :: file_main fuel w o (List.length (i_x0 i)) m cl0 X fX ceX d)).
  { unfold solve in H. unfold file. destruct (check_args (i_args i)); [discriminate|discriminate|].
    rewrite SL, VA. cbv zeta. replace (List.length (full_lb i m) <? List.length (i_x0 i))%nat with false by (symmetry; apply Nat.ltb_ge; exact L).
    replace (List.length (full_ub i m) <? List.length (i_x0 i))%nat with false by (symmetry; apply Nat.ltb_ge; exact U). cbn [orb].
    rewrite PR. reflexivity. }
  destruct (ready w _ _ _ _ _ _ _ _ _ _ PR L U) as (LX & G & _ & N & BG).
  unfold continue_ in C. unfold report_main in RP. unfold file_main in FP. set (c0 := match ceX with c :: _ => c | [] => [] end) in *.
  destruct (List.length c0 <? m)%nat eqn:K0; [discriminate|]. apply Nat.ltb_ge in K0.
  destruct (w_late w); [discriminate|]. destruct (settings w o (List.length (i_x0 i)) (List.length c0)) as [E|] eqn:SE; [|discriminate].
  destruct (settings_facts w Sorts _ _ _ _ N SE) as (S1 & S2 & S3 & S4 & S5 & S6 & S7).
  destruct (settings_tols _ _ _ _ SE) as (TG & TF).
  destruct (start E cl0 X fX ceX _ d) as [s0|] eqn:ST; [|discriminate].
  assert (B : begins E (List.length cl0) d s0).
  { refine (BG E _ s0 S2 _ _ ST).
    - rewrite S3. symmetry. apply width_hd.
    - intros ->. cbn in c0. subst c0. cbn in K0. assert (m = 0%nat) by lia. subst m. reflexivity. }
  assert (SS : niter (sN s0) = 0%nat).
  { unfold start in ST. destruct X as [|x1 X]; [discriminate|]. destruct fX as [|f1 fX]; [discriminate|]. injection ST as <-. reflexivity. }
  pose proof (run_numbered E fuel (w_ans w) 0 s0) as RN1.
  destruct (run E fuel (w_ans w) 0 s0) as [[s|fl1 s f1|]|] eqn:RN; try discriminate.
  injection C as <- EY <-.
  destruct (@run_reach _ E s0 s0 fuel (w_ans w) 0%nat fl1 s f1 (reach_start E s0) RN) as (s1 & a & R & PS).
  destruct (@returned_evaluated _ E S1 _ _ _ _ _ _ _ _ B R PS) as (_ & XI). rewrite XI in EY. injection EY as <-.
  exists o, (count_bounds (inf_of o) (List.length (i_x0 i)) (full_lb i m) (full_ub i m)), (List.length c0), E, s0, s1, a, s, f1, (List.length cl0), d.
  unfold ended. repeat (split; [assumption || reflexivity|]). split; [|split; [exact TG|split; [exact TF|split; [exact RP|]]]].
  2:{ intros ME. apply shown_iff in ME. rewrite ME in FP. eexists. split; [exact FP|].
      cbn [numbered] in RN1. rewrite SS, Nat.sub_0_r in RN1. destruct RN1 as (_ & T1 & T2). split; assumption. }
  intros WB CO. pose proof (prelim_stored w WB CO _ _ _ _ _ _ _ _ _ _ PR) as STO.
  assert (ME : exists k y c, o_c (user k y) = Some c /\ List.length c = List.length c0).
  { destruct STO as (L1 & L2 & STO). destruct X as [|x1 X]; [cbn in LX; lia|]. destruct fX as [|f2 fX]; [discriminate|].
    destruct ceX as [|h t]; [discriminate|]. destruct (STO 0%nat x1 f2 h eq_refl eq_refl eq_refl) as (k0 & v0 & _ & _ & Q & _).
    exists k0, x1, (map Fin h). split; [exact Q|]. subst c0. apply map_length. }
  split; [|exact ME].
  unfold start in ST. destruct X as [|x1 X]; [discriminate|]. destruct fX as [|f2 fX]; [discriminate|].
  injection ST as <-. destruct STO as (_ & _ & STO).
  intros j z g c Hz Hg Hc. cbn [sA Xs fXs ceXs calls] in *. destruct (STO j z g c Hz Hg Hc) as (k0 & v0 & Q1 & Q2 & Q3 & Q4).
  exists k0, v0. split; [exact Q1|]. split; [|exact Q4]. unfold answered. rewrite S2. split; [exact Q2|]. split; [exact Q3|].
  intros I. apply in_map_iff in I. destruct I as (q & I & _). discriminate.
Qed.

(** entries of a report *)
Lemma finish_in o nb me fl s e : In e (finish o nb me fl s) <-> loud o 1 /\
  (e = ECode fl (text_of fl) \/ e = EValue (ifx (sI s)) \/
   ((0 < nb + me)%nat /\ (e = ELag (norm_shown s (glagn (sN s))) \/ e = EFeas (norm_shown s (feasn (sN s))))) \/
   ((nb + me = 0)%nat /\ e = EGrad (norm_shown s (glagn (sN s)))) \/ e = EIters (niter (sN s)) \/ e = EEvals (nsim (sA s))).
Proof.
  rewrite <- at_least_iff. unfold finish. destruct (at_least o 1); [|split; [intros []|intros (K & _); discriminate]].
  destruct (Nat.ltb_spec 0 (nb + me)) as [H|H]; cbn [app In]; split.
  - intros K. split; [reflexivity|]. repeat (destruct K as [<-|K]; [tauto|]). destruct K.
  - intros (_ & [-> |[-> |[(_ & [-> | ->])|[(K & _)|[-> | ->]]]]]); try lia; tauto.
  - intros K. split; [reflexivity|]. assert (Z : (nb + me = 0)%nat) by lia. repeat (destruct K as [<-|K]; [tauto|]). destruct K.
  - intros (_ & [-> |[-> |[(K & _)|[(_ & ->)|[-> | ->]]]]]); try lia; tauto.
Qed.

Lemma dots_in m e : In e (dots m) -> e = EDots.
Proof. unfold dots. destruct (40 <? m)%nat; [intros [<-|[]]; reflexivity|intros []]. Qed.

Lemma tables_in o n nb me x c e : In e (tables o n nb me x c) -> louder o 2 /\
  (e = EDots \/ (exists j, e = EVar j (nth j x 0) /\ (j < Nat.min n 40)%nat) \/ (exists l, e = EVars l) \/
   (exists j, e = ECon j (nth j c 0) /\ (j < Nat.min me 40)%nat)).
Proof.
  rewrite <- above_iff. unfold tables. destruct (above o 2); [|intros []]. intros K. split; [reflexivity|].
  apply in_app_or in K. destruct K as [K|K].
  - destruct (0 <? nb)%nat; [|destruct K as [<-|[]]; eauto].
    apply in_map_iff in K. destruct K as (j & <- & J). apply in_seq in J. right. left. exists j. split; [reflexivity|lia].
  - apply in_app_or in K. destruct K as [K|K]; [left; exact (dots_in _ _ K)|].
    destruct (0 <? me)%nat; [|destruct K]. apply in_app_or in K. destruct K as [K|K]; [|left; exact (dots_in _ _ K)].
    apply in_map_iff in K. destruct K as (j & <- & J). apply in_seq in J. right. right. right. exists j. split; [reflexivity|lia].
Qed.

Lemma tables_evars o n nb me x c l : In (EVars l) (tables o n nb me x c) -> l = firstn (Nat.min n 40) x.
Proof.
  unfold tables. destruct (above o 2); [|intros []]. intros I. apply in_app_or in I. destruct I as [I|I].
  - destruct (0 <? nb)%nat; [apply in_map_iff in I; destruct I as (j & I & _); discriminate|].
    destruct I as [[= <-]|[]]. reflexivity.
  - apply in_app_or in I. destruct I as [I|I]; [apply dots_in in I; discriminate|].
    destruct (0 <? me)%nat; [|destruct I]. apply in_app_or in I. destruct I as [I|I]; [|apply dots_in in I; discriminate].
    apply in_map_iff in I. destruct I as (j & I & _). discriminate.
Qed.
Lemma rows_in o n nb me x c j : louder o 2 -> (j < Nat.min me 40)%nat -> In (ECon j (nth j c 0)) (tables o n nb me x c).
Proof.
  rewrite <- above_iff. intros A J. unfold tables. rewrite A. apply in_or_app. right. apply in_or_app. right.
  replace (0 <? me)%nat with true by (symmetry; apply Nat.ltb_lt; lia). apply in_or_app. left.
  apply in_map_iff. exists j. split; [reflexivity|]. apply in_seq. lia.
Qed.
Lemma vars_in o n nb me x c j : louder o 2 -> (0 < nb)%nat -> (j < Nat.min n 40)%nat -> In (EVar j (nth j x 0)) (tables o n nb me x c).
Proof.
  rewrite <- above_iff. intros A B J. unfold tables. rewrite A. apply in_or_app. left.
  replace (0 <? nb)%nat with true by (symmetry; apply Nat.ltb_lt; lia).
  apply in_map_iff. exists j. split; [reflexivity|]. apply in_seq. lia.
Qed.

(** entries that are not in the tables *)
Definition summary (e : entry) : bool := match e with EVar _ _ | EVars _ | EDots | ECon _ _ => false | _ => true end.
Lemma report_in o n nb me fl s e : summary e = true -> In e (report_of o n nb me fl s) <-> In e (finish o nb me fl s).
Proof.
  intros S. unfold report_of. rewrite in_app_iff. split; [|auto]. intros [K|K]; [exact K|].
  apply tables_in in K. destruct K as (_ & [-> |[(j & -> & _)|[(l & ->)|(j & -> & _)]]]); discriminate.
Qed.

(** ** Theorems *)
Lemma tables_dots o n nb me fl s : louder o 2 -> In EDots (report_of o n nb me fl s) <-> (40 < n \/ 40 < me)%nat.
Proof.
  intros L. unfold report_of, finish, tables. apply above_iff in L. rewrite L. unfold dots. split.
  - intros I. apply in_app_or in I. destruct I as [I|I].
    { destruct (at_least o 1); [|destruct I]. destruct (0 <? nb + me)%nat; cbn in I; intuition discriminate. }
    apply in_app_or in I. destruct I as [I|I].
    { destruct (0 <? nb)%nat; [apply in_map_iff in I; destruct I as (j & I & _); discriminate|]. destruct I as [I|[]]. discriminate. }
    apply in_app_or in I. destruct I as [I|I].
    { destruct (40 <? n)%nat eqn:Z; [|destruct I]. apply Nat.ltb_lt in Z. auto. }
    destruct (0 <? me)%nat; [|destruct I]. apply in_app_or in I. destruct I as [I|I].
    { apply in_map_iff in I. destruct I as (j & I & _). discriminate. }
    destruct (40 <? me)%nat eqn:Z; [|destruct I]. apply Nat.ltb_lt in Z. auto.
  - intros [Z|Z]; apply Nat.ltb_lt in Z; rewrite Z; apply in_or_app; right; apply in_or_app; right; apply in_or_app.
    + left. left. reflexivity.
    + right. apply Nat.ltb_lt in Z. replace (0 <? me)%nat with true by (symmetry; apply Nat.ltb_lt; lia). apply in_or_app. right. left. reflexivity.
Qed.

Lemma report_when fuel i : (exists es, report fuel i w = Some es) <-> exists fl y cl, solve fuel i w = Some (Gives fl (Some y) cl).
Proof.
  split.
  - intros (es & H). unfold report in H. destruct (check_args (i_args i)) as [| |f0 c1] eqn:CA; try discriminate.
    destruct (slacks_of i) as [k|] eqn:SL; [|discriminate]. destruct (validate (i_opts i)) as [o|o|] eqn:VA; try discriminate.
    cbv zeta in H. destruct ((List.length (full_lb i k) <? List.length (i_x0 i)) || (List.length (full_ub i k) <? List.length (i_x0 i)))%nat%bool eqn:LB; [discriminate|].
    destruct (prelim user (w_nrm w) (w_geom w) (w_fit w) fuel (i_int i) (full_lb i k) (full_ub i k) (i_x0 i)) as [[cl0 X fX ceX d| | |]|] eqn:PR; try discriminate.
    assert (S : solve fuel i w = continue_ fuel w o (List.length (i_x0 i)) k cl0 X fX ceX d).
    { unfold solve. rewrite CA, SL, VA. cbv zeta. rewrite LB, PR. reflexivity. }
    pose proof S as C0. unfold report_main in H. unfold continue_ in S. cbv zeta in H, S.
    destruct (_ <? k)%nat in H, S; [discriminate|]. destruct (w_late w); [discriminate|].
    destruct (settings w o _ _) as [E|] in H, S; [|discriminate]. destruct (start E _ _ _ _ _ _) as [s0|] in H, S; [|discriminate].
    destruct (run E fuel (w_ans w) 0 s0) as [[s|fl s f|]|]; try discriminate.
    destruct (nth_error (Xs (sA s)) (ib (sI s))) as [y|] eqn:N; [eauto|].
    apply orb_false_elim in LB. destruct LB as (L & U). apply Nat.ltb_ge in L, U. destruct (main_case w Sorts _ _ _ _ _ _ _ _ _ _ _ _ _ _ _ _ PR L U eq_refl (eq_trans (eq_sym C0) S)) as (_ & (y & _ & _ & Q & _) & _). discriminate.
  - intros (fl & y & cl & H). destruct (call_ended _ _ _ _ _ H) as (o & nb & me & E & s0 & s1 & a & s & f & k0 & d & K).
    unfold ended in K. eexists. apply K.
Qed.

(** no iteration was made *)
Lemma zero_iters (E : env (list Q)) s1 a fl s f : pass E s1 a = Return fl s f -> niter (sN s) = 0%nat ->
  s = s1 /\ ((fl = 5 /\ e_miter E <= niter (sN s1)) \/ (fl = 6 /\ e_msimul E <= nsim (sA s1)))%nat.
Proof.
  intros PS Z. unfold pass in PS. cbv zeta in PS.
  destruct (Nat.leb_spec (e_miter E) (niter (sN s1))) as [H|H]; [injection PS as <- <- _; auto|].
  destruct (Nat.leb_spec (e_msimul E) (nsim (sA s1))) as [H'|H']; [injection PS as <- <- _; auto|].
  exfalso. destruct (a_exc1 a); [discriminate|].
  assert (ST : forall s2, step E s2 a = Return fl s f -> False).
  { intros s2 K. pose proof (Out_Proofs.step_moves E s2 a) as M. rewrite K in M. cbn in M. destruct M as (M & _). congruence. }
  destruct (_ || _)%bool; [|exact (ST _ PS)]. destruct (_ && _)%bool.
  - injection PS as _ <- _. discriminate.
  - match type of PS with match improve E ?t a with _ => _ end = _ => pose proof (Out_Proofs.improve_moves E t a) as M; destruct (improve E t a) as [s2|fl2 s2 f2|] end; [exact (ST _ PS)| |discriminate].
    injection PS as -> -> ->. cbn in M. destruct M as (_ & [(_ & M)|(_ & M)]); congruence.
Qed.

Lemma report_says fuel i fl y cl es o : solve fuel i w = Some (Gives fl (Some y) cl) -> report fuel i w = Some es ->
  validate (i_opts i) = VDone o ->
  (~ loud o 1 -> es = []) /\
  (loud o 1 ->
    (exists t, forall c t', In (ECode c t') es <-> c = fl /\ t' = t) /\
    (exists f, (forall f', In (EValue f') es <-> f' = f) /\
       exists j v, nth_error cl j = Some y /\ gives user j y v /\ capped v f) /\
    (forall k, In (EEvals k) es <-> k = List.length cl)).
Proof.
  intros H R V. destruct (call_ended _ _ _ _ _ H) as (o' & nb & me & E & s0 & s1 & a & s & f & k0 & d & K).
  destruct K as (K1 & K2 & K3 & K4 & K5 & K6 & K7 & -> & -> & K10 & K11 & K12 & K13 & K14 & K15).
  rewrite V in K10. injection K10 as <-. rewrite R in K14. injection K14 as ->. split.
  - intros N. unfold report_of, finish, tables.
    destruct (at_least o 1) eqn:A; [apply at_least_iff in A; contradiction|].
    destruct (above o 2) eqn:B; [|reflexivity]. apply above_iff in B. exfalso. apply N. destruct B as (u & B1 & [B|(q & B & B2)]); exists u; (split; [exact B1|]); [auto|right; exists q; split; [exact B|lra]].
  - intros L. split; [|split].
    + exists (text_of fl). intros c t'. rewrite report_in, finish_in by reflexivity. split.
      * intros (_ & [[= -> ->]|[K|[(_ & [K|K])|[(_ & K)|[K|K]]]]]); try discriminate; auto.
      * intros (-> & ->). split; auto.
    + exists (ifx (sI s)). split.
      * intros f'. rewrite report_in, finish_in by reflexivity. split.
        -- intros (_ & [K|[[= ->]|[(_ & [K|K])|[(_ & K)|[K|K]]]]]); try discriminate; auto.
        -- intros ->. split; auto.
      * destruct (@returned_evaluated _ E K1 _ _ _ _ _ _ _ _ K5 K6 K7) as ((j & v & c & H1 & (H2 & H3 & H4) & H5) & _).
        exists j, v. split; [exact H1|]. rewrite K2 in H2, H3. split; [split; [exact H2|exists c; auto]|exact H5].
    + intros k. rewrite report_in, finish_in by reflexivity.
      destruct (@evaluations_ret _ E K1 _ _ _ _ _ _ _ _ K5 K6 K7) as (-> & _). split.
      * intros (_ & [K|[K|[(_ & [K|K])|[(_ & K)|[K|[= ->]]]]]]); try discriminate; auto.
      * intros ->. split; [exact L|]. tauto.
Qed.

Lemma report_iters fuel i fl y cl es o : solve fuel i w = Some (Gives fl (Some y) cl) -> report fuel i w = Some es ->
  validate (i_opts i) = VDone o -> loud o 1 ->
  exists N, (forall k, In (EIters k) es <-> k = N) /\
    (forall q m, has_value (miter o) q -> 0 <= q -> counts_below q m -> (N <= m + 1)%nat /\ (fl = 5%nat -> (m <= N)%nat)) /\
    (medium o -> exists ls, file fuel i w = Some (complete ls) /\ counted fl N (map l_it ls)).
Proof.
  intros H R V L. destruct (call_ended _ _ _ _ _ H) as (o' & nb & me & E & s0 & s1 & a & s & f & k0 & d & K).
  destruct K as (K1 & K2 & K3 & K4 & K5 & K6 & K7 & -> & -> & K10 & K11 & K12 & K13 & K14 & K15).
  rewrite V in K10. injection K10 as <-. rewrite R in K14. injection K14 as ->.
  exists (niter (sN s)). split; [|split; [|exact K15]].
  - intros k. rewrite report_in, finish_in by reflexivity. split.
    + intros (_ & [K|[K|[(_ & [K|K])|[(_ & K)|[[= ->]|K]]]]]); try discriminate; reflexivity.
    + intros ->. split; [exact L|]. tauto.
  - intros q m HV Q0 CB. destruct (value_limit _ _ HV) as (m' & LM).
    pose proof (limit_counts _ _ _ HV Q0 LM) as CB'. rewrite LM in K4. injection K4 as K4.
    assert (m' = m).
    { destruct (Nat.lt_trichotomy m m') as [Z|[Z|Z]]; [|auto|]; exfalso.
      - apply CB' in Z. apply CB in Z. lia.
      - apply CB in Z. apply CB' in Z. lia. }
    pose proof (@iterations_ret _ E K1 _ _ _ _ _ _ _ _ K5 K6 K7) as IT. split; [lia|]. intros ->.
    destruct (@codes _ E K1 _ _ _ _ _ _ _ _ K5 K6 K7) as (_ & (C & _) & _). specialize (C eq_refl).
    unfold pass in K7. apply Nat.leb_le in C. rewrite C in K7. injection K7 as <- _. apply Nat.leb_le in C. lia.
Qed.

(** which norms are printed *)
Lemma report_norms fuel i fl y cl es o : solve fuel i w = Some (Gives fl (Some y) cl) -> report fuel i w = Some es ->
  validate (i_opts i) = VDone o -> loud o 1 ->
  ((exists g c, forall g' c', (In (ELag g') es <-> g' = g) /\ (In (EFeas c') es <-> c' = c) /\ ~ In (EGrad g') es) \/
   (exists g, forall g' c', (In (EGrad g') es <-> g' = g) /\ ~ In (ELag g') es /\ ~ In (EFeas c') es)) /\
  (forall m, well_behaved user -> fixed_number user m -> (0 < m)%nat -> exists g, In (ELag g) es).
Proof.
  intros H R V L. destruct (call_ended _ _ _ _ _ H) as (o' & nb & me & E & s0 & s1 & a & s & f & k0 & d & K).
  destruct K as (K1 & K2 & K3 & K4 & K5 & K6 & K7 & -> & -> & K10 & K11 & K12 & K13 & K14 & K15).
  rewrite V in K10. injection K10 as <-. rewrite R in K14. injection K14 as ->.
  assert (S1 : forall g', In (ELag g') (report_of o (List.length (i_x0 i)) nb me fl s) <-> (0 < nb + me)%nat /\ g' = norm_shown s (glagn (sN s))).
  { intros g'. rewrite report_in, finish_in by reflexivity. split.
    - intros (_ & [K|[K|[(P & [[= ->]|K])|[(_ & K)|[K|K]]]]]); try discriminate. auto.
    - intros (P & ->). split; [exact L|]. tauto. }
  assert (S2 : forall g', In (EFeas g') (report_of o (List.length (i_x0 i)) nb me fl s) <-> (0 < nb + me)%nat /\ g' = norm_shown s (feasn (sN s))).
  { intros g'. rewrite report_in, finish_in by reflexivity. split.
    - intros (_ & [K|[K|[(P & [K|[= ->]])|[(_ & K)|[K|K]]]]]); try discriminate. auto.
    - intros (P & ->). split; [exact L|]. tauto. }
  assert (S3 : forall g', In (EGrad g') (report_of o (List.length (i_x0 i)) nb me fl s) <-> (nb + me = 0)%nat /\ g' = norm_shown s (glagn (sN s))).
  { intros g'. rewrite report_in, finish_in by reflexivity. split.
    - intros (_ & [K|[K|[(P & [K|K])|[(P & [= ->])|[K|K]]]]]); try discriminate. auto.
    - intros (P & ->). split; [exact L|]. tauto. }
  split.
  - destruct (Nat.eq_dec (nb + me) 0) as [Z|Z]; [right|left].
    + exists (norm_shown s (glagn (sN s))). intros g' c'. rewrite S1, S2, S3. repeat split; try tauto; lia.
    + exists (norm_shown s (glagn (sN s))), (norm_shown s (feasn (sN s))). intros g' c'. rewrite S1, S2, S3.
      assert (0 < nb + me)%nat by lia. repeat split; try tauto; lia.
  - intros m WB FN MP. assert (CO : constrained user).
    { intros k y c K Z. subst c. specialize (FN _ _ _ K). cbn in FN. lia. }
    destruct (K11 WB CO) as (_ & kk & yy & cc & U1 & U2). rewrite (FN _ _ _ U1) in U2.
    eexists. apply S1. split; [lia|reflexivity].
Qed.

Lemma report_converged fuel i y cl es o : solve fuel i w = Some (Gives 0 (Some y) cl) -> report fuel i w = Some es ->
  validate (i_opts i) = VDone o ->
  (forall g, In (ELag g) es \/ In (EGrad g) es -> exists q t, g = Fin q /\ has_value (tol_grad o) t /\ q <= 100 * t) /\
  (forall c, In (EFeas c) es -> exists q t, c = Fin q /\ has_value (tol_feas o) t /\ q <= 100 * t).
Proof.
  intros H R V. destruct (call_ended _ _ _ _ _ H) as (o' & nb & me & E & s0 & s1 & a & s & f & k0 & d & K).
  destruct K as (K1 & K2 & K3 & K4 & K5 & K6 & K7 & -> & -> & K10 & K11 & K12 & K13 & K14 & K15).
  rewrite V in K10. injection K10 as <-. rewrite R in K14. injection K14 as ->.
  destruct (@certificate _ E K1 _ _ _ _ _ _ _ K5 K6 K7) as ((t & T & G & F & _) & _).
  assert (NZ : niter (sN s) <> 0%nat).
  { intros Z. destruct (zero_iters _ _ _ _ _ _ K7 Z) as (_ & [(Q & _)|(Q & _)]); discriminate. }
  assert (NS : forall q, norm_shown s q = Fin q) by (intros q; unfold norm_shown; destruct (niter (sN s)); [contradiction|reflexivity]).
  assert (TP : forall n q, tolerance n (Some q) -> forall r, val q = Fin r -> 0 < r).
  { intros n q TL r VR. destruct n as [x|]; cbn in TL.
    - destruct TL as [(_ & [= ->])|([P|P] & [= ->])].
      + cbn in VR. injection VR as <-. reflexivity.
      + destruct x as [z|[q0| | |]]; cbn in P, VR; try discriminate; try contradiction; injection VR as <-; [unfold Qlt; cbn; lia|exact P].
      + rewrite P in VR. discriminate.
    - injection TL as ->. cbn in VR. injection VR as <-. reflexivity. }
  assert (GE : forall r q, 0 < r -> q <= t * r -> q <= 100 * r).
  { intros r q P Q. destruct T as [T|T]; rewrite T in Q; lra. }
  apply validate_accepted in V. destruct V as (_ & _ & _ & _ & _ & _ & _ & VG & VF & _).
  destruct K12 as (xg & G1 & G2). destruct K13 as (xf & F1 & F2). rewrite G1 in VG. rewrite F1 in VF.
  pose proof (TP _ _ VG _ G2) as PG. pose proof (TP _ _ VF _ F2) as PF. split.
  - intros g I. exists (glagn (sN s)), (e_tolg E). split; [|split; [exists xg; auto|apply GE; assumption]].
    rewrite !report_in, !finish_in in I by reflexivity. rewrite <- (NS (glagn (sN s))).
    destruct I as [(_ & [I|[I|[(_ & [[= ->]|I])|[(_ & I)|[I|I]]]]])|(_ & [I|[I|[(_ & [I|I])|[(_ & [= ->])|[I|I]]]]])]; try discriminate; reflexivity.
  - intros c I. exists (feasn (sN s)), (e_tolf E). split; [|split; [exists xf; auto|apply GE; assumption]].
    rewrite report_in, finish_in in I by reflexivity. rewrite <- (NS (feasn (sN s))).
    destruct I as (_ & [I|[I|[(_ & [I|[= ->]])|[(_ & I)|[I|I]]]]]); try discriminate; reflexivity.
Qed.

Lemma report_nan fuel i fl y cl es o : solve fuel i w = Some (Gives fl (Some y) cl) -> report fuel i w = Some es ->
  validate (i_opts i) = VDone o -> loud o 1 ->
  (shows_nan es <-> In (EIters 0) es) /\ (In (EIters 0) es -> fl = 6%nat).
Proof.
  intros H R V L. destruct (call_ended _ _ _ _ _ H) as (o' & nb & me & E & s0 & s1 & a & s & f & k0 & d & K).
  destruct K as (K1 & K2 & K3 & K4 & K5 & K6 & K7 & -> & -> & K10 & K11 & K12 & K13 & K14 & K15).
  rewrite V in K10. injection K10 as <-. rewrite R in K14. injection K14 as ->.
  assert (IT : In (EIters 0) (report_of o (List.length (i_x0 i)) nb me fl s) <-> niter (sN s) = 0%nat).
  { rewrite report_in, finish_in by reflexivity. split.
    - intros (_ & [K|[K|[(_ & [K|K])|[(_ & K)|[[= <-]|K]]]]]); try discriminate; reflexivity.
    - intros Z. split; [exact L|]. rewrite Z. tauto. }
  split.
  - rewrite IT. unfold shows_nan. rewrite !report_in, !finish_in by reflexivity. split.
    + assert (NS : forall q, NaN = norm_shown s q -> niter (sN s) = 0%nat) by (intros q; unfold norm_shown; destruct (niter (sN s)); [reflexivity|discriminate]).
      intros [(_ & [I|[I|[(_ & [[= I]|I])|[(_ & I)|[I|I]]]]])|[(_ & [I|[I|[(_ & [I|[= I]])|[(_ & I)|[I|I]]]]])|(_ & [I|[I|[(_ & [I|I])|[(_ & [= I])|[I|I]]]]])]];
        try discriminate; exact (NS _ I).
    + intros Z. assert (NS : forall q, norm_shown s q = NaN) by (intros q; unfold norm_shown; rewrite Z; reflexivity).
      rewrite !NS. destruct (Nat.eq_dec (nb + me) 0) as [Q|Q]; [right; right|left]; (split; [exact L|]); [tauto|].
      right. right. left. split; [lia|auto].
  - rewrite IT. intros Z. destruct (zero_iters _ _ _ _ _ _ K7 Z) as (-> & [(_ & Q)|(Q & _)]); [|exact Q]. exfalso.
    apply validate_accepted in V. destruct V as (_ & _ & _ & _ & _ & MI & _). unfold positive_or in MI.
    assert (P : forall x, is_pos x \/ is_nan_num x -> miter o = Some x -> False).
    { intros x PX E1. rewrite E1 in K4. destruct PX as [PX|PX].
      - destruct x as [z|[q| | |]]; cbn in K4, PX; try discriminate; injection K4 as K4; [lia|].
        pose proof (Qround.Qle_ceiling q) as C. assert (0 < Qround.Qceiling q)%Z; [|lia].
        rewrite Zlt_Qlt. apply Qlt_le_trans with q; auto.
      - rewrite PX in K4. discriminate. }
    destruct (miter (i_opts i)) as [x|]; [destruct MI as (MI & E1); exact (P x MI E1)|]. apply (P (NInt 1000)); [left; cbn; lia|exact MI].
Qed.

Lemma report_tables fuel i fl y cl es o m : well_behaved user -> fixed_number user m -> (0 < m)%nat ->
  solve fuel i w = Some (Gives fl (Some y) cl) -> report fuel i w = Some es -> validate (i_opts i) = VDone o -> louder o 2 ->
  (forall j x, In (EVar j x) es -> x = nth j y 0) /\
  (forall l, In (EVars l) es -> l = firstn (Nat.min (List.length (i_x0 i)) 40) y) /\
  ((exists l, In (EVars l) es) \/ forall j, (j < List.length (i_x0 i))%nat -> (j < 40)%nat -> In (EVar j (nth j y 0)) es) /\
  (In EDots es <-> (40 < List.length (i_x0 i) \/ 40 < m)%nat) /\
  exists k v cs, nth_error cl k = Some y /\ o_f (user k y) = Some (Fin v) /\ o_c (user k y) = Some (map Fin cs) /\
    (forall f, In (EValue f) es -> capped v f) /\
    forall j c, In (ECon j c) es <-> nth_error cs j = Some c /\ (j < 40)%nat.
Proof.
  intros WB FN MP H R V L. destruct (call_ended _ _ _ _ _ H) as (o' & nb & me & E & s0 & s1 & a & s & f & k0 & d & K).
  destruct K as (K1 & K2 & K3 & K4 & K5 & K6 & K7 & -> & -> & K10 & K11 & K12 & K13 & K14 & K15).
  rewrite V in K10. injection K10 as <-. rewrite R in K14. injection K14 as ->. assert (CO : constrained user).
  { intros k y c K Z. subst c. specialize (FN _ _ _ K). cbn in FN. lia. }
  destruct (K11 WB CO) as (R0 & kk & yy & cc & U1 & U2). rewrite (FN _ _ _ U1) in U2. rewrite <- U2 in *. clear U2.
  assert (T : tame E) by (intros j y0 c1 v0; rewrite K2; apply WB).
  assert (ME' : e_me E <> 0%nat) by (rewrite K3; lia).
  destruct (reported_constraints E K1 _ _ _ _ _ _ _ _ K5 K6 T ME' K7) as (HX & HC).
  destruct (@c_info _ E K1 T _ _ _ _ _ _ _ _ K5 R0 K6 ME' K7) as (k & v & Q1 & (Q2 & Q3 & Q4) & Q5).
  pose proof (nth_error_nth _ _ [] HX) as NX. pose proof (nth_error_nth _ _ [] HC) as NC. split.
  - intros j x I. apply in_app_or in I. destruct I as [I|I].
    + apply finish_in in I. destruct I as (_ & [I|[I|[(_ & [I|I])|[(_ & I)|[I|I]]]]]); discriminate.
    + apply tables_in in I. destruct I as (_ & [I|[(j0 & [= -> ->] & _)|[(l & I)|(j0 & I & _)]]]); try discriminate. rewrite NX. reflexivity.
  - split; [|split].
    { intros l I. apply in_app_or in I. destruct I as [I|I].
      + apply finish_in in I. destruct I as (_ & [I|[I|[(_ & [I|I])|[(_ & I)|[I|I]]]]]); discriminate.
      + rewrite <- NX. exact (tables_evars _ _ _ _ _ _ _ I). }
    { destruct nb as [|nb].
      + left. exists (firstn (Nat.min (List.length (i_x0 i)) 40) (nth (ib (sI s)) (Xs (sA s)) [])). apply in_or_app. right.
        unfold tables. apply above_iff in L. rewrite L. left. reflexivity.
      + right. intros j J1 J2. apply in_or_app. right. rewrite <- NX. apply vars_in; [exact L|lia|lia]. }
    split.
    { apply tables_dots. exact L. }
    exists k, v, (ince (sN s)). rewrite K2 in Q2, Q3. pose proof Q3 as Q3'. repeat (split; [assumption|]). split.
    { intros f' I. rewrite report_in, finish_in in I by reflexivity.
      destruct I as (_ & [I|[[= ->]|[(_ & [I|I])|[(_ & I)|[I|I]]]]]); try discriminate. exact Q5. }
    assert (LC : List.length (ince (sN s)) = m).
    { rewrite <- (FN _ _ _ Q3'). symmetry. apply map_length. }
    intros j c. split.
    + intros I. apply in_app_or in I. destruct I as [I|I].
      * apply finish_in in I. destruct I as (_ & [I|[I|[(_ & [I|I])|[(_ & I)|[I|I]]]]]); discriminate.
      * apply tables_in in I. destruct I as (_ & [I|[(j0 & I & _)|[(l & I)|(j0 & [= -> ->] & J)]]]); try discriminate.
        rewrite NC. split; [|lia]. apply nth_error_nth'. lia.
    + intros (N & J). apply in_or_app. right. rewrite NC. rewrite <- (nth_error_nth _ _ 0 N). apply rows_in; [exact L|].
      assert (j < List.length (ince (sN s)))%nat by (apply nth_error_Some; congruence). lia.
Qed.

(** ** options.fout *)
Lemma no_output fuel i fl y cl o : needs_output w i -> validate (i_opts i) = VDone o -> louder o 0 -> unusable (fout (i_opts i)) ->
  report fuel i w = None /\ solve fuel i w <> Some (Gives fl (Some y) cl).
Proof.
  intros NO V L UN. assert (HR : heading_raises o = true).
  { unfold heading_raises. apply above_iff in L. rewrite L. apply validate_accepted in V. destruct V as (V & _).
    unfold kept_or in V. unfold unusable in UN. destruct (fout (i_opts i)) as [x|]; [|contradiction].
    destruct V as [(V & _)|(_ & ->)].
    - exfalso. destruct x as [z|[q| | |]]; cbn in *; try contradiction. lra.
    - destruct x as [z|[q| | |]]; cbn in *; try contradiction; reflexivity. }
  pose proof (NO _ V HR) as LT.
  assert (S : solve fuel i w <> Some (Gives fl (Some y) cl)).
  { intros H. destruct (solve_cases w _ _ _ _ _ H) as [(_ & K & _)|[(_ & K & _)|(m & o1 & cl0 & X & fX & ceX & d & _ & _ & _ & _ & _ & C)]]; try discriminate.
    unfold continue_ in C. destruct (_ <? m)%nat; [discriminate|]. rewrite LT in C. discriminate. }
  split; [|exact S]. unfold report. destruct (check_args (i_args i)); try reflexivity.
  destruct (slacks_of i); [|reflexivity]. rewrite V. cbv zeta. destruct (_ || _)%bool; [reflexivity|].
  destruct (prelim _ _ _ _ _ _ _ _ _) as [[cl0 X fX ceX d| | |]|]; try reflexivity.
  unfold report_main. destruct (_ <? _)%nat; [reflexivity|]. rewrite LT. reflexivity.
Qed.

Lemma where_printed i o : validate (i_opts i) = VDone o ->
  exists f, fout o = Some f /\
    (fprintf f = Some Screen <-> to_screen (fout (i_opts i))) /\
    (fprintf f = Some ErrorOutput <-> fout (i_opts i) = Some (NInt 2)) /\
    (fprintf f = None <-> unusable (fout (i_opts i))).
Proof.
  intros V. pose proof V as V0. apply validate_accepted in V. destruct V as (V & _). unfold kept_or in V.
  destruct (fout (i_opts i)) as [x|] eqn:F.
  - destruct V as [(N & ->)|(N & ->)]; eexists; (split; [reflexivity|]); cbn [fprintf].
    + destruct x as [z|[q| | |]]; cbn in N; try contradiction.
      * cbn. split; [tauto|]. split; [split; [discriminate|intros [= ->]; lia]|split; [discriminate|intros []]].
      * cbn. split; [tauto|]. split; [split; discriminate|split; [discriminate|lra]].
      * exfalso. exact (fout_ninf _ _ V0 F).
    + destruct x as [z|[q| | |]]; cbn [fprintf to_screen unusable]; cbn in N.
      * split; [|split; [|split; [intros K; destruct z as [|[p|[p|p|]|]|]; discriminate|intros []]]].
        -- split; [intros K; left; destruct z as [|[p|p|]|]; try discriminate; [destruct p; discriminate|reflexivity]|].
           intros [-> |K]; [reflexivity|lia].
        -- split; [intros K; destruct z as [|[p|[p|p|]|]|]; try discriminate; reflexivity|intros [= ->]; reflexivity].
      * split; [split; [discriminate|intros K; contradiction]|]. split; [split; discriminate|split; [intros _; lra|reflexivity]].
      * split; [split; [discriminate|intros []]|]. split; [split; discriminate|split; auto].
      * exfalso. apply N. exact Logic.I.
      * split; [split; [discriminate|intros []]|]. split; [split; discriminate|split; auto].
  - exists (NInt 1). rewrite V. cbn. split; [reflexivity|]. split; [tauto|]. split; split; try discriminate; intros [].
Qed.
End Call.

(** ** The texts of the exit codes *)
Lemma text_inj a b : In a [0; 1; 2; 3; 5; 6; 15; 30]%nat -> In b [0; 1; 2; 3; 5; 6; 15; 30]%nat -> text_of a = text_of b -> a = b.
Proof.
  intros A B. repeat (destruct A as [<-|A]; [repeat (destruct B as [<-|B]; [cbn; intros T; try discriminate T; reflexivity|]); destruct B|]).
  destruct A.
Qed.
Lemma text_some a : In a [0; 1; 2; 3; 5; 6; 15; 30]%nat -> text_of a <> ""%string.
Proof. intros A. repeat (destruct A as [<-|A]; [discriminate|]). destruct A. Qed.

Lemma report_code w : sorts_desc (w_argsort w) -> forall fuel i fl y cl es o c t, solve fuel i w = Some (Gives fl (Some y) cl) ->
  report fuel i w = Some es -> validate (i_opts i) = VDone o -> In (ECode c t) es -> c = fl /\ t = text_of fl.
Proof.
  intros S fuel i fl y cl es o c t H R V I. destruct (call_ended w S _ _ _ _ _ H) as (o' & nb & me & E & s0 & s1 & a & s & f & k0 & d & K).
  destruct K as (K1 & K2 & K3 & K4 & K5 & K6 & K7 & -> & -> & K10 & K11 & K12 & K13 & K14 & K15).
  rewrite R in K14. injection K14 as ->. rewrite report_in, finish_in in I by reflexivity.
  destruct I as (_ & [[= -> ->]|[K|[(_ & [K|K])|[(_ & K)|[K|K]]]]]); try discriminate. auto.
Qed.

Lemma report_texts w : sorts_desc (w_argsort w) -> forall fuel i fl y cl es o t,
  solve fuel i w = Some (Gives fl (Some y) cl) -> report fuel i w = Some es -> validate (i_opts i) = VDone o -> In (ECode fl t) es ->
  t <> ""%string /\ (t = "converged"%string <-> fl = 0%nat) /\
  forall w' fuel' i' fl' y' cl' es' o', sorts_desc (w_argsort w') -> solve fuel' i' w' = Some (Gives fl' (Some y') cl') ->
    report fuel' i' w' = Some es' -> validate (i_opts i') = VDone o' -> In (ECode fl' t) es' -> fl' = fl.
Proof.
  intros S fuel i fl y cl es o t H R V I. destruct (report_code w S _ _ _ _ _ _ _ _ _ H R V I) as (_ & ->).
  destruct (call_codes w S _ _ _ _ _ H) as (C & _). split; [apply text_some, C|]. split.
  - split; [|intros ->; reflexivity]. intros T. apply (text_inj fl 0 C); [left; reflexivity|exact T].
  - intros w' fuel' i' fl' y' cl' es' o' S' H' R' V' I'. destruct (report_code w' S' _ _ _ _ _ _ _ _ _ H' R' V' I') as (_ & T).
    destruct (call_codes w' S' _ _ _ _ _ H') as (C' & _). apply text_inj; auto.
Qed.
