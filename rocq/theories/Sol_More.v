(** Further proofs about complete calls: early ends, bounds, leftover slacks. *)
From Coq Require Import List Arith ZArith QArith Qround Qabs Bool Lia Lqa.
Import ListNotations.
From Verif Require Import QB Book_Model Book_Spec Main_Model Main_Spec Main_Proofs2 Main_Proofs3 Main_More Opt_Model Opt_Spec
  Drv_Model Drv_Spec Drv_Proofs Pre_Model Pre_Spec Pre_Proofs Sol_Model Sol_Spec Sol_Proofs.
Local Open Scope Q_scope.

Lemma slacks_some i : (exists k, slacks_of i = Some k) <-> arrays_ok i.
Proof.
  unfold slacks_of, arrays_ok, has_ineq. cbv zeta. destruct (num_of (a_mi (i_args i))) as [|mi] eqn:M.
  - split; [congruence|eauto].
  - rewrite <- M. split.
    + intros (k & K) _.
      split; intros l E; apply Nat.nlt_ge; intros L; revert K; rewrite slack_count_raises; try discriminate; try lia; [left|right]; eauto.
    + intros H. destruct (H ltac:(lia)) as (L & U). destruct (slack_count_number _ _ _ _ L U) as (t & -> & _). eauto.
Qed.

Section More.
Variable w : world.
Hypothesis Sorts : sorts_desc (w_argsort w).
Notation user := (w_user w).
Notation rounds' := (rounds (w_user w) (w_nrm w) (w_geom w) (w_fit w)).
Notation prelim' := (prelim (w_user w) (w_nrm w) (w_geom w) (w_fit w)).

Lemma continue_quits fuel o n k cl X fX ceX d : continue_ fuel w o n k cl X fX ceX d <> Some Quits.
Proof.
  unfold continue_. destruct (_ <? _)%nat; [discriminate|]. destruct (w_late w); [discriminate|].
  destruct (settings _ _ _ _); [|discriminate]. destruct (start _ _ _ _ _ _ _); [|discriminate].
  destruct (run _ _ _ _ _) as [[]|]; discriminate.
Qed.

Lemma call_quits fuel i : solve fuel i w = Some Quits <-> to_quit (i_args i).
Proof.
  rewrite <- quit_iff. unfold solve. destruct (check_args (i_args i)) as [| |f c]; [split; discriminate|tauto|].
  split; [|discriminate]. intros H. exfalso. revert H.
  destruct (slacks_of i) as [k|]; [|discriminate].
  destruct (validate (i_opts i)) as [o|o|]; [|discriminate|discriminate].
  destruct (_ || _)%bool; [destruct (adjust _ _ _ _ _ _); discriminate|].
  destruct (prelim _ _ _ _ _ _ _ _ _) as [[]|]; try discriminate. apply continue_quits.
Qed.

(** what [prelim] can return as a flag *)
Lemma prelim_flag fuel int lb ub x0 fl cl : prelim' fuel int lb ub x0 = Some (PFlag fl cl) ->
  (fl = 1%nat /\ x0 = []) \/ (fl = 2%nat /\ x0 <> []) \/ (fl = 3%nat /\ x0 <> []).
Proof.
  intros H. destruct (prelim_cases _ _ _ _ _ _ _ H) as [(K & Z)|[(K & Z)|[K|[(x & d & N & A & R)|(x & d & f & fx & A & N & R)]]]].
  - injection K as -> _. auto.
  - injection K as -> _. auto.
  - discriminate.
  - pose proof (rounds_probing user (w_nrm w) (w_geom w) (w_fit w) fuel x d [] _ R) as (-> & _). auto.
  - pose proof (rounds_probing user (w_nrm w) (w_geom w) (w_fit w) fuel x d [] _ R) as (-> & _). auto.
Qed.

Lemma call_code1 fuel i : (exists x cl, solve fuel i w = Some (Gives 1 x cl)) <->
  to_refuse (i_args i) \/
  (~ to_quit (i_args i) /\ arrays_ok i /\
   ((exists o, validate (i_opts i) = VFail o) \/ (i_x0 i = [] /\ exists o, validate (i_opts i) = VDone o))).
Proof.
  rewrite <- refuse_iff, <- quit_iff, <- slacks_some. split.
  - intros (x & cl & H). unfold solve in H. destruct (check_args (i_args i)) as [| |f c]; [auto|discriminate|].
    right. split; [discriminate|]. destruct (slacks_of i) as [k|]; [|discriminate]. split; [eauto|].
    destruct (validate (i_opts i)) as [o|o|]; [|eauto|discriminate]. right. split; [|eauto].
    destruct ((length (full_lb i k) <? length (i_x0 i)) || (length (full_ub i k) <? length (i_x0 i)))%nat%bool eqn:LB;
      [destruct (adjust _ _ _ _ _ _); discriminate|].
    apply orb_false_elim in LB. destruct LB as (L & U). apply Nat.ltb_ge in L, U.
    destruct (prelim' fuel (i_int i) (full_lb i k) (full_ub i k) (i_x0 i)) as [r|] eqn:PR; [|discriminate].
    destruct r as [cl0 X fX ceX d|fl0 cl0|cl0|]; try discriminate.
    + exfalso. destruct (main_case w Sorts _ _ _ _ _ _ _ _ _ _ _ _ _ _ _ _ PR L U eq_refl H) as (K & _).
      cbn in K. destruct K as [K|[K|[K|[K|[K|[K|[]]]]]]]; discriminate.
    + injection H as -> _ _. destruct (prelim_flag _ _ _ _ _ _ _ PR) as [(_ & K)|[(K & _)|(K & _)]]; [exact K|discriminate|discriminate].
  - intros [H|(H & (k & K) & V)].
    + exists None, []. unfold solve. rewrite H. reflexivity.
    + destruct (check_args (i_args i)) as [| |f c] eqn:C; [exists None, []; unfold solve; rewrite C; reflexivity|congruence|].
      destruct V as [(o & V)|(Z & o & V)]; exists None, []; unfold solve; rewrite C, K, V; [reflexivity|].
      rewrite Z. cbn [length Nat.ltb Nat.leb orb]. reflexivity.
Qed.

(** the bounds handed on *)
Lemma full_split i k : well_sized i ->
  full_lb i k = box_lb i ++ repeat (Some 0) (appended i k) /\
  full_ub i k = box_ub i ++ repeat (Some c1e20) (appended i k).
Proof.
  intros (P & L & U). unfold full_lb, full_ub. fold c1e20. cbv zeta.
  change (match i_lb i with Some l => l | None => repeat (Some (- c1e20)) (length (i_x0 i)) end) with (box_lb i).
  change (match i_ub i with Some l => l | None => repeat (Some c1e20) (length (i_x0 i)) end) with (box_ub i).
  destruct (box_lb i) as [|a l]; [cbn in L; lia|]. destruct (box_ub i) as [|b u]; [cbn in U; lia|]. auto.
Qed.

Lemma slack_bounds i k : well_sized i -> has_ineq (i_args i) ->
  length (full_lb i k) = (length (i_x0 i) + k)%nat /\ length (full_ub i k) = (length (i_x0 i) + k)%nat /\
  (forall j, (j < length (i_x0 i))%nat -> nth_error (full_lb i k) j = nth_error (box_lb i) j /\
     nth_error (full_ub i k) j = nth_error (box_ub i) j) /\
  (forall j, (j < k)%nat -> nth_error (full_lb i k) (length (i_x0 i) + j) = Some (Some 0) /\
     nth_error (full_ub i k) (length (i_x0 i) + j) = Some (Some (inject_Z (10 ^ 20)))).
Proof.
  intros W H. destruct (full_split i k W) as (-> & ->). destruct W as (P & L & U).
  assert (A : appended i k = k). { unfold appended. unfold has_ineq in H. destruct (num_of _); [congruence|reflexivity]. }
  rewrite A, !app_length, !repeat_length, L, U. split; [reflexivity|]. split; [reflexivity|]. split.
  - intros j J. rewrite !nth_error_app1 by lia. auto.
  - intros j J. rewrite !nth_error_app2 by lia. rewrite L, U.
    replace (length (i_x0 i) + j - length (i_x0 i))%nat with j by lia.
    rewrite !List.nth_error_repeat by exact J. auto.
Qed.

Lemma crossed_front lb ub lb' ub' n j : length lb = n -> length ub = n -> (j < n)%nat ->
  (crossed (lb ++ lb') (ub ++ ub') j <-> crossed lb ub j) /\ (pinned (lb ++ lb') (ub ++ ub') j <-> pinned lb ub j).
Proof. intros L U J. unfold crossed, pinned. rewrite !nth_error_app1 by lia. tauto. Qed.

(** exit code 2 of the initial phase *)
Lemma prelim_two fuel lb ub x0 : (0 < length x0)%nat -> (length x0 <= length lb)%nat -> (length x0 <= length ub)%nat ->
  (exists cl, prelim' fuel false lb ub x0 = Some (PFlag 2 cl)) <->
  (exists j, (j < length x0)%nat /\ crossed lb ub j) \/ (forall j, (j < length x0)%nat -> pinned lb ub j).
Proof.
  intros P L U. split.
  - intros (cl & H). unfold prelim in H. destruct x0 as [|a t] eqn:E0; [cbn in P; lia|]. rewrite <- E0 in *. clear E0 a t.
    destruct (adjust false lb ub x0 0 delta0) as [[[x d] fx]|] eqn:A.
    2:{ left. apply (adjust_none false x0 lb ub 0%nat delta0 L U). exact A. }
    destruct (adjust_ok _ _ _ _ _ _ _ _ L U (eq_refl : 0 < delta0) A) as (_ & _ & _ & A4 & A5 & _).
    assert (RF : rounds' fuel x d [] <> Some (PFlag 2 cl)).
    { intros R. pose proof (rounds_probing user (w_nrm w) (w_geom w) (w_fit w) fuel x d [] _ R) as (K & _). discriminate. }
    destruct fx as [|f fx]; [contradiction|].
    destruct (Nat.eqb_spec (length (f :: fx)) (length x0)) as [E|E].
    + right. intros j J. assert (I : In j (f :: fx)).
      { apply (nodup_full (f :: fx) (length x0)); [exact A5| |exact E|exact J].
        intros m I. apply A4 in I. destruct I as (q & -> & Bq & _). exact Bq. }
      apply A4 in I. destruct I as (q & -> & _ & Pj). exact Pj.
    + destruct (fixed_eval _ _ _ _); [contradiction|discriminate].
  - intros [H|H]; exists []; [apply crossed_flag; assumption|apply all_pinned_flag; assumption].
Qed.

Lemma call_code2 fuel i : well_sized i -> i_int i = false ->
  (exists x cl, solve fuel i w = Some (Gives 2 x cl)) <->
  ~ to_refuse (i_args i) /\ ~ to_quit (i_args i) /\ arrays_ok i /\ (exists o, validate (i_opts i) = VDone o) /\
  ((exists j, (j < length (i_x0 i))%nat /\ crossed (box_lb i) (box_ub i) j) \/
   (forall j, (j < length (i_x0 i))%nat -> pinned (box_lb i) (box_ub i) j)).
Proof.
  intros W I0. rewrite <- refuse_iff, <- quit_iff, <- slacks_some.
  assert (FR : forall k, (length (i_x0 i) <= length (full_lb i k))%nat /\ (length (i_x0 i) <= length (full_ub i k))%nat /\
    (((exists j, (j < length (i_x0 i))%nat /\ crossed (full_lb i k) (full_ub i k) j) \/
      (forall j, (j < length (i_x0 i))%nat -> pinned (full_lb i k) (full_ub i k) j)) <->
     ((exists j, (j < length (i_x0 i))%nat /\ crossed (box_lb i) (box_ub i) j) \/
      (forall j, (j < length (i_x0 i))%nat -> pinned (box_lb i) (box_ub i) j)))).
  { intros k. destruct (full_split i k W) as (-> & ->). destruct W as (P & L & U).
    split; [rewrite app_length; lia|]. split; [rewrite app_length; lia|].
    assert (Q : forall j, (j < length (i_x0 i))%nat -> _) by exact (fun j J => crossed_front (box_lb i) (box_ub i)
      (repeat (Some 0) (appended i k)) (repeat (Some c1e20) (appended i k)) _ j L U J).
    split; (intros [(j & J & H)|H]; [left; exists j; split; [exact J|apply (Q j J); exact H]|right; intros j J; apply (Q j J); auto]). }
  destruct W as (P & _). split.
  - intros (x & cl & H). unfold solve in H. destruct (check_args (i_args i)) as [| |f c]; [discriminate|discriminate|].
    split; [discriminate|]. split; [discriminate|]. destruct (slacks_of i) as [k|]; [|discriminate]. split; [eauto|].
    destruct (validate (i_opts i)) as [o|o|]; [|discriminate|discriminate]. split; [eauto|].
    destruct (FR k) as (L & U & Q).
    rewrite (proj2 (Nat.ltb_ge _ _) L), (proj2 (Nat.ltb_ge _ _) U) in H. cbn [orb] in H. rewrite I0 in H.
    destruct (prelim' fuel false (full_lb i k) (full_ub i k) (i_x0 i)) as [r|] eqn:PR; [|discriminate].
    destruct r as [cl0 X fX ceX d|fl0 cl0|cl0|]; try discriminate.
    + exfalso. destruct (main_case w Sorts _ _ _ _ _ _ _ _ _ _ _ _ _ _ _ _ PR L U eq_refl H) as (K & _).
      cbn in K. destruct K as [K|[K|[K|[K|[K|[K|[]]]]]]]; discriminate.
    + injection H as -> _ _. apply Q. apply (prelim_two fuel _ _ _ P L U). eauto.
  - intros (H1 & H2 & (k & K) & (o & V) & H3).
    destruct (check_args (i_args i)) as [| |f c] eqn:C; [congruence|congruence|].
    destruct (FR k) as (L & U & Q). apply Q in H3. apply (prelim_two fuel _ _ _ P L U) in H3. destruct H3 as (cl & PR).
    exists None, cl. unfold solve. rewrite C, K, V.
    rewrite (proj2 (Nat.ltb_ge _ _) L), (proj2 (Nat.ltb_ge _ _) U). cbn [orb]. rewrite I0, PR. reflexivity.
Qed.

(** the main loop only adds calls *)
Lemma continue_calls fuel o n k cl X fX ceX d fl x cl' x0 lb ub int :
  prelim' fuel int lb ub x0 = Some (PReady cl X fX ceX d) ->
  (length x0 <= length lb)%nat -> (length x0 <= length ub)%nat -> n = length x0 ->
  continue_ fuel w o n k cl X fX ceX d = Some (Gives fl x cl') -> exists tl, cl' = cl ++ tl.
Proof.
  intros H L U -> C. destruct (ready w _ _ _ _ _ _ _ _ _ _ H L U) as (LX & G & _ & N & BG).
  unfold continue_ in C. set (c0 := match ceX with c :: _ => c | [] => [] end) in *.
  destruct (length c0 <? k)%nat eqn:K0; [discriminate|]. apply Nat.ltb_ge in K0.
  destruct (w_late w); [discriminate|]. destruct (settings w o (length x0) (length c0)) as [E|] eqn:SE; [|discriminate].
  destruct (settings_facts w Sorts _ _ _ _ N SE) as (S1 & S2 & S3 & S4 & S5 & S6 & S7).
  destruct (start E cl X fX ceX _ d) as [s0|] eqn:ST; [|discriminate].
  assert (B : begins E (length cl) d s0).
  { refine (BG E _ s0 S2 _ _ ST).
    - rewrite S3. symmetry. apply width_hd.
    - intros ->. cbn in c0. subst c0. cbn in K0. assert (k = 0%nat) by lia. subst k. reflexivity. }
  assert (SS : calls (sA s0) = cl).
  { unfold start in ST. destruct X as [|x1 X]; [discriminate|]. destruct fX as [|f1 fX]; [discriminate|].
    injection ST as <-. reflexivity. }
  destruct (run E fuel (w_ans w) 0 s0) as [[s|fl1 s f1|]|] eqn:RN; try discriminate.
  injection C as _ _ <-.
  destruct (@run_reach _ E s0 s0 fuel (w_ans w) 0%nat fl1 s f1 (reach_start E s0) RN) as (s1 & a & R & PS).
  assert (T1 : exists tl, calls (sA s1) = cl ++ tl).
  { clear PS. induction R as [|s2 a2 s3 R IH PS].
    - exists []. rewrite app_nil_r. exact SS.
    - destruct IH as (tl & IH). destruct (@archive_kept _ E S1 _ _ _ _ _ _ B R PS) as ((tl' & T) & _).
      exists (tl ++ tl'). rewrite T, IH, app_assoc. reflexivity. }
  destruct (@pass_return _ E S1 _ _ _ _ _ _ _ _ B R PS) as (_ & K).
  destruct (Main_Proofs2.pr_ext _ _ _ _ _ _ K) as (tl & T). destruct T1 as (tl1 & T1).
  exists (tl1 ++ tl). rewrite T, T1, app_assoc. reflexivity.
Qed.

Lemma respects_front lb ub lb' ub' n y j : length lb = n -> length ub = n -> (j < n)%nat ->
  respects (lb ++ lb') (ub ++ ub') y j -> respects lb ub y j.
Proof. intros L U J H l u v E1 E2 E3. apply H; [rewrite nth_error_app1 by lia; exact E1|rewrite nth_error_app1 by lia; exact E2|exact E3]. Qed.

(** the first n+1 evaluations are within the bounds of the variables *)
Lemma probing_least t x c d cl d' : probing user t x c d cl d' Complete -> (S (length x) <= length cl)%nat.
Proof.
  intros H. remember Complete as e eqn:Ee. induction H as [c d pts S F|c d pts k y S F N1 N2|c d pts k y v cl d' e S F N G V T H IH|c d pts k y v S F N G V T]; try discriminate.
  - destruct S as (S & _). lia.
  - rewrite app_length. specialize (IH Ee). lia.
Qed.

Lemma call_box fuel i fl x cl j y k : well_sized i -> i_int i = false -> solve fuel i w = Some (Gives fl x cl) ->
  nth_error cl j = Some y -> (j <= length (i_x0 i))%nat -> (k < length (i_x0 i))%nat -> respects (box_lb i) (box_ub i) y k.
Proof.
  intros W I0 H NJ J K. unfold solve in H.
  assert (NN : forall A (z : A), nth_error [] j <> Some z) by (intros A z Z; destruct j; discriminate).
  destruct (check_args (i_args i)) as [| |f c]; [injection H as _ _ <-; exfalso; exact (NN _ _ NJ)|discriminate|].
  destruct (slacks_of i) as [ks|]; [|discriminate].
  destruct (validate (i_opts i)) as [o|o|]; [|injection H as _ _ <-; exfalso; exact (NN _ _ NJ)|discriminate].
  assert (R : forall z, respects (full_lb i ks) (full_ub i ks) z k -> respects (box_lb i) (box_ub i) z k).
  { intros z Z. destruct (full_split i ks W) as (E1 & E2). rewrite E1, E2 in Z.
    destruct W as (P & L & U). exact (respects_front _ _ _ _ _ _ _ L U K Z). }
  destruct ((length (full_lb i ks) <? length (i_x0 i)) || (length (full_ub i ks) <? length (i_x0 i)))%nat%bool eqn:LB.
  { destruct (adjust _ _ _ _ _ _); [discriminate|]. injection H as _ _ <-. exfalso; exact (NN _ _ NJ). }
  apply orb_false_elim in LB. destruct LB as (L & U). apply Nat.ltb_ge in L, U. rewrite I0 in H.
  destruct (prelim' fuel false (full_lb i ks) (full_ub i ks) (i_x0 i)) as [r|] eqn:PR; [|discriminate].
  apply R. apply (all_calls_respect user (w_nrm w) (w_geom w) (w_fit w) fuel _ _ _ r y k L U PR); [|exact K].
  destruct r as [cl0 X fX ceX d|fl0 cl0|cl0|]; try discriminate.
  - cbn [calls_of]. destruct (continue_calls _ _ _ _ _ _ _ _ _ _ _ _ _ _ _ _ PR L U eq_refl H) as (tl & ->).
    assert (LC : (S (length (i_x0 i)) <= length cl0)%nat).
    { destruct (prelim_cases _ _ _ _ _ _ _ PR) as [(Q & _)|[(Q & _)|[Q|[(x1 & d1 & N & A & Rn)|(x1 & d1 & f1 & fx & A & N & Rn)]]]];
        try discriminate;
        (pose proof (rounds_probing user (w_nrm w) (w_geom w) (w_fit w) fuel x1 d1 [] _ Rn) as (new & NW & Pr);
         cbn [app] in NW; subst new; rewrite <- (adjust_length _ _ _ _ _ _ _ _ _ L U A); exact (probing_least _ _ _ _ _ _ Pr)). }
    rewrite nth_error_app1 in NJ by lia. exact (nth_error_In _ _ NJ).
  - injection H as _ _ <-. exact (nth_error_In _ _ NJ).
Qed.

(** empty bound arrays *)
Lemma full_empty i k : ~ has_ineq (i_args i) ->
  full_lb (with_box i (Some []) (i_ub i)) k = full_lb (with_box i (Some (repeat None (length (i_x0 i)))) (i_ub i)) k /\
  full_ub (with_box i (i_lb i) (Some [])) k = full_ub (with_box i (i_lb i) (Some (repeat None (length (i_x0 i))))) k.
Proof.
  intros H. unfold has_ineq in H. unfold full_lb, full_ub, appended, with_box. cbn [i_lb i_ub i_args i_x0].
  destruct (num_of (a_mi (i_args i))) as [|m]; [|exfalso; apply H; discriminate].
  cbn [repeat app]. rewrite app_nil_r. split; destruct (repeat None (length (i_x0 i))) eqn:E; congruence.
Qed.

Lemma solve_ext fuel i j : i_args i = i_args j -> i_opts i = i_opts j -> i_int i = i_int j -> i_x0 i = i_x0 j ->
  slacks_of i = slacks_of j -> (forall k, slacks_of i = Some k -> full_lb i k = full_lb j k /\ full_ub i k = full_ub j k) ->
  solve fuel i w = solve fuel j w.
Proof.
  intros A O I X S F. unfold solve. rewrite A, O, I, X. destruct (check_args (i_args j)) as [| |f c]; [reflexivity|reflexivity|].
  rewrite <- S. destruct (slacks_of i) as [k|]; [|reflexivity]. destruct (F k eq_refl) as (-> & ->). reflexivity.
Qed.

Lemma call_empty fuel i : ~ has_ineq (i_args i) ->
  solve fuel (with_box i (Some []) (i_ub i)) w = solve fuel (with_box i (Some (repeat None (length (i_x0 i)))) (i_ub i)) w /\
  solve fuel (with_box i (i_lb i) (Some [])) w = solve fuel (with_box i (i_lb i) (Some (repeat None (length (i_x0 i))))) w.
Proof.
  intros H. split; apply solve_ext; try reflexivity; intros k _; split; try reflexivity; apply (full_empty i k H).
Qed.

(** leftover slacks *)
Lemma call_left_ineq fuel i k : has_ineq (i_args i) -> solve fuel (with_left i k) w = solve fuel i w.
Proof.
  intros H. unfold has_ineq in H. apply solve_ext; try reflexivity.
  - unfold slacks_of, with_left. cbn [i_args i_left]. destruct (num_of _); [congruence|reflexivity].
  - intros j _. split; reflexivity.
Qed.

Lemma rounds_unconstrained : unconstrained user -> forall fuel x d cl cl' X fX ceX d',
  rounds' fuel x d cl = Some (PReady cl' X fX ceX d') -> ceX = [].
Proof.
  intros UC. induction fuel as [|fuel IH]; intros x d cl cl' X fX ceX d' H; [discriminate|].
  cbn [rounds] in H. destruct (negb (w_geom w (simplex x d))); [discriminate|].
  destruct (eval_pts user (simplex x d) cl [] [] []) as [c1 X1 f1 ce1|c1 ce1|c1|] eqn:Ev; [| |discriminate|discriminate].
  - apply eval_pts_done in Ev; [|split; [intros ? []|intros ? ? []]|intros ? ? []].
    destruct Ev as ((C1 & _) & C2 & _). destruct ce1 as [|[|v col] ce1].
    + cbn in H. destruct (w_fit w X1); [|discriminate]. injection H as <- <- <- <- <-. reflexivity.
    + exfalso. exact (C1 [] (or_introl eq_refl) eq_refl).
    + exfalso. destruct (C2 _ v (or_introl eq_refl) (or_introl eq_refl)) as (k & y & c & z & E & Z & _).
      rewrite (UC _ _ _ E) in Z. exact Z.
  - destruct (overwrite_ce ce1) as [ce2|]; [|discriminate].
    destruct (qltb (shrink * d) (stall * w_nrm w x)); [discriminate|]. eauto.
Qed.

Lemma call_left fuel i k fl y cl : ~ has_ineq (i_args i) -> unconstrained user -> (0 < k)%nat ->
  solve fuel (with_left i 0) w = Some (Gives fl (Some y) cl) -> solve fuel (with_left i k) w = Some Raises.
Proof.
  intros NI UC P H. unfold has_ineq in NI. unfold solve in *. cbn [with_left i_args i_opts i_int i_x0] in *.
  destruct (check_args (i_args i)) as [| |f c]; [discriminate|discriminate|].
  assert (SL : forall q, slacks_of (with_left i q) = Some q).
  { intros q. unfold slacks_of, with_left. cbn [i_args i_left]. destruct (num_of _); [reflexivity|exfalso; apply NI; discriminate]. }
  rewrite !SL in *. cbn [with_left i_args i_opts i_int i_x0] in *.
  destruct (validate (i_opts i)) as [o|o|]; [|discriminate|discriminate].
  assert (FB : forall q, full_lb (with_left i q) q = full_lb (with_left i 0) 0 /\ full_ub (with_left i q) q = full_ub (with_left i 0) 0).
  { intros q. unfold full_lb, full_ub, appended. cbn [with_left i_args i_lb i_ub i_x0].
    destruct (num_of (a_mi (i_args i))); [auto|exfalso; apply NI; discriminate]. }
  destruct (FB k) as (-> & ->).
  destruct ((length (full_lb (with_left i 0) 0) <? length (i_x0 i)) || (length (full_ub (with_left i 0) 0) <? length (i_x0 i)))%nat%bool;
    [destruct (adjust _ _ _ _ _ _); discriminate|].
  destruct (prelim' fuel (i_int i) (full_lb (with_left i 0) 0) (full_ub (with_left i 0) 0) (i_x0 i)) as [r|] eqn:PR; [|discriminate].
  destruct r as [cl0 X fX ceX d|fl0 cl0|cl0|]; try discriminate.
  assert (Z : ceX = []).
  { destruct (prelim_cases _ _ _ _ _ _ _ PR) as [(Q & _)|[(Q & _)|[Q|[(x1 & d1 & N & A & Rn)|(x1 & d1 & f1 & fx & A & N & Rn)]]]];
      try discriminate; exact (rounds_unconstrained UC _ _ _ _ _ _ _ _ _ Rn). }
  subst ceX. unfold continue_. cbn [length]. destruct (Nat.ltb_spec 0 k) as [_|X0]; [reflexivity|lia].
Qed.
End More.
