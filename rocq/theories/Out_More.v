From Coq Require Import List Arith ZArith QArith Bool Lia.
Import ListNotations.
From Verif Require Import QB Book_Model Book_Spec Main_Model Main_Spec Main_Proofs Main_Proofs3 Opt_Model Drv_Model Drv_Spec Drv_Proofs
  Pre_Model Pre_Spec Pre_Proofs Sol_Model Sol_Spec Sol_Proofs Sol_More Out_Model Out_Spec Out_Proofs.
Local Open Scope Q_scope.

(** ** Values in the lines of a pass *)

Section Values.
Context {P : Type}.
Variable E : env P.

Lemma first_value (s : st P) a l t : lines_pass E s a = l :: t -> l_f l = inff (sN s) /\ l_ev l = nsim (sA s).
Proof.
  unfold lines_pass. cbv zeta.
  destruct (e_miter E <=? niter (sN s))%nat; [intros [= <- _]; split; reflexivity|].
  destruct (e_msimul E <=? nsim (sA s))%nat; [intros [= <- _]; split; reflexivity|].
  destruct (a_exc1 a); [discriminate|]. destruct (_ || _)%bool; intros [= <- _]; split; reflexivity.
Qed.

Lemma last_value (s : st P) a fl s' f : pass E s a = Return fl s' f -> In fl [0; 5; 6; 15]%nat ->
  exists t, lines_pass E s a = t ++ [line_of s'].
Proof.
  unfold lines_pass, pass. cbv zeta.
  destruct (e_miter E <=? niter (sN s))%nat; [intros [= _ <- _] _; exists []; reflexivity|].
  destruct (e_msimul E <=? nsim (sA s))%nat; [intros [= _ <- _] _; exists []; reflexivity|].
  destruct (a_exc1 a); [discriminate|].
  assert (K : forall s1, step E s1 a = Return fl s' f -> In fl [0; 5; 6; 15]%nat -> exists t, lines_step E s1 a = t ++ [line_of s']).
  { intros s1 H F. pose proof (step_moves E s1 a) as M. unfold lines_step. rewrite H in *. cbn [moves] in M.
    destruct M as (_ & _ & M). assert (fl = 15%nat) by (cbn in F, M; intuition congruence). subst fl.
    eexists [_]. reflexivity. }
  destruct (_ || _)%bool; [|apply K].
  set (s1 := mkst _ _ _ _). match goal with |- context [(if ?b then Return _ _ _ else _)] => destruct b end.
  - intros [= _ <- _] _. exists []. reflexivity.
  - unfold lines_improve. destruct (improve E s1 a) as [s2|fl2 s2 f2|].
    + intros H F. destruct (K _ H F) as (t & ->). exists (line_of s1 :: t). reflexivity.
    + intros [= -> -> ->] _. exists [line_of s1]. reflexivity.
    + discriminate.
Qed.

End Values.

(** ** The file *)

Section W.
Variable w : world.

Lemma untouched fuel i : file fuel i w = None <-> to_refuse (i_args i) \/ to_quit (i_args i) \/ ~ arrays_ok i.
Proof.
  rewrite <- refuse_iff, <- quit_iff, <- slacks_some. unfold file.
  destruct (check_args (i_args i)) as [| |f c]; [tauto|tauto|]. destruct (slacks_of i) as [k|].
  - split; [discriminate|]. intros [H|[H|H]]; try discriminate. exfalso. apply H. eauto.
  - split; [|reflexivity]. intros _. right. right. intros (k & H). discriminate.
Qed.

(** how the part after the opening words is built *)
Lemma main_shape fuel o n k cl X fX ceX d : exists ls,
  file_main fuel w o n k cl X fX ceX d =
    map Line ls ++ match continue_ fuel w o n k cl X fX ceX d with Some (Gives _ _ _) => [Tail] | _ => [] end /\
  (shown o = false -> ls = []).
Proof.
  unfold file_main, continue_.
  destruct (_ <? _)%nat; [exists []; auto|]. destruct (w_late w); [exists []; auto|].
  destruct (settings _ _ _ _) as [E|]; [|exists []; auto]. destruct (start _ _ _ _ _ _ _) as [s0|]; [|exists []; auto].
  exists (if shown o then lines_run E fuel (w_ans w) 0 s0 else []). split.
  - f_equal; [destruct (shown o); reflexivity|]. destruct (run _ _ _ _ _) as [[]|]; reflexivity.
  - intros ->. reflexivity.
Qed.

Lemma shape fuel i h : file fuel i w = Some h ->
  exists ls, h = (match solve fuel i w with Some (Gives _ _ _) => complete ls | _ => unfinished ls end) /\
    (forall o, validate (i_opts i) = VDone o -> shown o = false -> ls = []).
Proof.
  unfold file, solve, complete, unfinished.
  destruct (check_args (i_args i)) as [| |f c]; [discriminate|discriminate|].
  destruct (slacks_of i) as [k|]; [|discriminate]. intros [= <-].
  destruct (validate (i_opts i)) as [o|o|]; [|exists []; auto|exists []; auto].
  destruct (_ || _)%bool; [destruct (adjust _ _ _ _ _ _); exists []; auto|].
  destruct (prelim _ _ _ _ _ _ _ _ _) as [[cl X fX ceX d|fl cl|cl|]|]; try (exists []; auto; fail).
  destruct (main_shape fuel o (length (i_x0 i)) k cl X fX ceX d) as (ls & -> & SH). exists ls.
  split; [|intros o' [= <-]; exact SH].
  destruct (continue_ _ _ _ _ _ _ _ _ _ _) as [[]|]; rewrite ?app_nil_r; reflexivity.
Qed.

(** closed exactly when the call returns *)
Lemma closed fuel i h : file fuel i w = Some h ->
  exists ls, ((exists fl x cl, solve fuel i w = Some (Gives fl x cl)) /\ h = complete ls) \/
             ((forall fl x cl, solve fuel i w <> Some (Gives fl x cl)) /\ h = unfinished ls).
Proof.
  intros H. destruct (shape _ _ _ H) as (ls & -> & _). exists ls.
  destruct (solve fuel i w) as [[| |fl x cl|]|]; try (right; split; [discriminate|reflexivity]).
  left. split; [do 3 eexists; reflexivity|reflexivity].
Qed.

Lemma shown_iff o : shown o = true <-> medium o.
Proof.
  unfold shown, medium. split.
  - destruct (verbose o) as [v|]; [|discriminate]. intros H. apply andb_prop in H. destruct H as (H1 & H2).
    destruct (val v) as [q| | |] eqn:V; try discriminate. exists v, q. split; [reflexivity|]. split; [exact V|].
    cbn in H1, H2. apply qltb_iff in H1. apply qleb_iff in H2. split; assumption.
  - intros (v & q & -> & -> & H1 & H2). cbn. apply qltb_iff in H2. apply qleb_iff in H1. rewrite H1, H2. reflexivity.
Qed.

(** no lines for the other verbosities *)
Lemma silent fuel i h o : file fuel i w = Some h -> validate (i_opts i) = VDone o -> ~ medium o ->
  h = complete [] \/ h = unfinished [].
Proof.
  intros H V M. destruct (shape _ _ _ H) as (ls & -> & SH).
  assert (ls = []) as ->.
  { apply (SH o V). destruct (shown o) eqn:S; [|reflexivity]. exfalso. apply M. apply shown_iff. exact S. }
  destruct (solve fuel i w) as [[]|]; auto.
Qed.

Lemma started fuel i h : file fuel i w = Some h -> exists l, h = Head :: l /\ ~ In Head l.
Proof.
  intros H. destruct (shape _ _ _ H) as (ls & -> & _).
  assert (K : ~ In Head (map Line ls)) by (intros Z; apply in_map_iff in Z; destruct Z as (x & Z & _); discriminate).
  destruct (solve fuel i w) as [[]|]; eexists; (split; [reflexivity|]); try exact K.
  intros Z. apply in_app_or in Z. destruct Z as [Z|[Z|[]]]; [exact (K Z)|discriminate].
Qed.

(** iteration numbers of an unfinished file *)
Lemma torn fuel i ls : file fuel i w = Some (unfinished ls) -> exists m, map l_it ls = seq 1 m.
Proof.
  unfold file, unfinished.
  destruct (check_args (i_args i)) as [| |f c]; [discriminate|discriminate|].
  destruct (slacks_of i) as [k|]; [|discriminate]. intros [= H]. revert H.
  assert (K0 : forall ls, [] = map Line ls -> exists m, map l_it ls = seq 1 m).
  { intros [|] E; [exists 0%nat; reflexivity|discriminate]. }
  assert (K1 : forall ls, [Tail] = map Line ls -> exists m, map l_it ls = seq 1 m).
  { intros [|] E; discriminate. }
  destruct (validate (i_opts i)) as [o|o|]; auto.
  destruct (_ || _)%bool; [destruct (adjust _ _ _ _ _ _); auto|].
  destruct (prelim _ _ _ _ _ _ _ _ _) as [[cl X fX ceX d|fl cl|cl|]|]; auto.
  unfold file_main.
  destruct (_ <? _)%nat; [auto|]. destruct (w_late w); [auto|].
  destruct (settings _ _ _ _) as [E|]; [|auto]. destruct (start _ _ _ _ _ _ _) as [s0|] eqn:ST; [|auto].
  assert (N0 : niter (sN s0) = 0%nat).
  { unfold start in ST. destruct X; [discriminate|]. destruct fX; [discriminate|]. injection ST as <-. reflexivity. }
  pose proof (run_numbered E fuel (w_ans w) 0 s0) as RN. rewrite N0 in RN.
  assert (KT : forall (l : list item) (ls : list line), l ++ [Tail] <> map Line ls).
  { intros l ls' EQ. assert (Z : In Tail (map Line ls')) by (rewrite <- EQ; apply in_or_app; right; left; reflexivity).
    apply in_map_iff in Z. destruct Z as (x & Z & _). discriminate. }
  assert (INJ : forall a b : list line, map Line a = map Line b -> a = b).
  { induction a as [|x a IH]; intros [|y b] EQ; try discriminate; [reflexivity|]. injection EQ as -> EQ. f_equal. auto. }
  intros EQ. destruct (run E fuel (w_ans w) 0 s0) as [[s|fl s g|]|];
    try (exfalso; exact (KT _ _ EQ)); rewrite app_nil_r in EQ;
    (destruct (shown o); [apply INJ in EQ; subst ls; exact RN|exact (K0 _ EQ)]).
Qed.

Hypothesis Sorts : sorts_desc (w_argsort w).

Lemma rising_le lo l hi : rising (lo :: l ++ [hi]) -> forall lo', (lo' <= lo)%nat -> rising (lo' :: l ++ [hi]).
Proof. destruct l as [|x t]; cbn; intros H lo' L; intuition lia. Qed.

(** the file of a call that came out of the main loop *)
Lemma counted_lines fuel i fl y cl o : solve fuel i w = Some (Gives fl (Some y) cl) ->
  validate (i_opts i) = VDone o -> medium o ->
  exists ls N, file fuel i w = Some (complete ls) /\ counted fl N (map l_it ls) /\
    rising (S (length (i_x0 i)) :: map l_ev ls ++ [length cl]) /\
    (forall q m, has_value (miter o) q -> 0 <= q -> counts_below q m -> (N <= m + 1)%nat).
Proof.
  intros H V M. apply shown_iff in M. unfold solve in H. unfold file.
  destruct (check_args (i_args i)) as [| |f c]; [discriminate|discriminate|].
  destruct (slacks_of i) as [k|]; [|discriminate]. rewrite V in *. cbv zeta in H |- *.
  destruct ((length (full_lb i k) <? length (i_x0 i)) || (length (full_ub i k) <? length (i_x0 i)))%nat%bool eqn:LB;
    [destruct (adjust _ _ _ _ _ _); discriminate|].
  apply orb_false_elim in LB. destruct LB as (L & U). apply Nat.ltb_ge in L, U.
  destruct (prelim (w_user w) (w_nrm w) (w_geom w) (w_fit w) fuel (i_int i) (full_lb i k) (full_ub i k) (i_x0 i))
    as [[cl0 X fX ceX d|fl0 cl0|cl0|]|] eqn:PR; try discriminate.
  destruct (ready w _ _ _ _ _ _ _ _ _ _ PR L U) as (LX & G & _ & N & BG).
  assert (LC : (S (length (i_x0 i)) <= length cl0)%nat).
  { destruct (prelim_cases w _ _ _ _ _ _ PR) as [(Z & _)|[(Z & _)|[Z|[(x1 & d1 & N1 & A & Rn)|(x1 & d1 & f1 & fx & A & N1 & Rn)]]]];
      try discriminate;
      (pose proof (rounds_probing (w_user w) (w_nrm w) (w_geom w) (w_fit w) fuel x1 d1 [] _ Rn) as (new & NW & Pr);
       cbn [app] in NW; subst new; rewrite <- (adjust_length _ _ _ _ _ _ _ _ _ L U A); exact (probing_least w _ _ _ _ _ _ Pr)). }
  unfold continue_ in H. unfold file_main. set (c0 := match ceX with c :: _ => c | [] => [] end) in *.
  destruct (length c0 <? k)%nat eqn:K0; [discriminate|]. apply Nat.ltb_ge in K0.
  destruct (w_late w); [discriminate|]. destruct (settings w o (length (i_x0 i)) (length c0)) as [E|] eqn:SE; [|discriminate].
  destruct (settings_facts w Sorts _ _ _ _ N SE) as (S1 & S2 & S3 & S4 & S5 & S6 & S7).
  destruct (start E cl0 X fX ceX _ d) as [s0|] eqn:ST; [|discriminate].
  assert (B : begins E (length cl0) d s0).
  { refine (BG E _ s0 S2 _ _ ST).
    - rewrite S3. symmetry. apply width_hd.
    - intros ->. cbn in c0. subst c0. cbn in K0. assert (k = 0%nat) by lia. subst k. reflexivity. }
  assert (SS : nsim (sA s0) = length cl0 /\ niter (sN s0) = 0%nat).
  { unfold start in ST. destruct X as [|x1 X]; [discriminate|]. destruct fX as [|f1 fX]; [discriminate|].
    injection ST as <-. split; reflexivity. }
  destruct SS as (SS1 & SS2).
  pose proof (run_numbered E fuel (w_ans w) 0 s0) as RN1. pose proof (run_within E fuel (w_ans w) 0 s0) as RN2.
  destruct (run E fuel (w_ans w) 0 s0) as [[s|fl1 s f1|]|] eqn:RN; try discriminate.
  injection H as <- _ <-. rewrite M.
  destruct (@run_reach _ E s0 s0 fuel (w_ans w) 0%nat fl1 s f1 (reach_start E s0) RN) as (s1 & a & R & PS).
  destruct (@evaluations_ret _ E S1 _ _ _ _ _ _ _ _ B R PS) as (EV & _).
  pose proof (@iterations_ret _ E S1 _ _ _ _ _ _ _ _ B R PS) as IT.
  exists (lines_run E fuel (w_ans w) 0 s0), (niter (sN s)). split; [reflexivity|]. split; [|split].
  - cbn [numbered] in RN1. rewrite SS2, Nat.sub_0_r in RN1. destruct RN1 as (_ & T1 & T2). split; assumption.
  - rewrite <- EV. unfold within in RN2. rewrite SS1 in RN2. exact (rising_le _ _ _ RN2 _ LC).
  - intros q m HV Q0 CB. destruct (value_limit _ _ HV) as (m' & LM).
    pose proof (limit_counts _ _ _ HV Q0 LM) as CB'. rewrite LM in S4. injection S4 as S4.
    assert (m' = m).
    { destruct (Nat.lt_trichotomy m m') as [Z|[Z|Z]]; [|auto|]; exfalso.
      - apply CB' in Z. apply CB in Z. lia.
      - apply CB in Z. apply CB' in Z. lia. }
    lia.
Qed.

(** returned before the main loop: only the two marks *)
Lemma bare fuel i h fl cl : solve fuel i w = Some (Gives fl None cl) -> file fuel i w = Some h -> h = complete [].
Proof.
  intros H F. unfold file, solve in *.
  destruct (check_args (i_args i)) as [| |f c]; [discriminate|discriminate|].
  destruct (slacks_of i) as [k|]; [|discriminate]. injection F as <-.
  destruct (validate (i_opts i)) as [o|o|]; [|reflexivity|discriminate].
  cbv zeta in *.
  destruct ((length (full_lb i k) <? length (i_x0 i)) || (length (full_ub i k) <? length (i_x0 i)))%nat%bool eqn:LB;
    [destruct (adjust _ _ _ _ _ _); [discriminate|reflexivity]|].
  apply orb_false_elim in LB. destruct LB as (L & U). apply Nat.ltb_ge in L, U.
  destruct (prelim (w_user w) (w_nrm w) (w_geom w) (w_fit w) fuel (i_int i) (full_lb i k) (full_ub i k) (i_x0 i))
    as [[cl0 X fX ceX d|fl0 cl0|cl0|]|] eqn:PR; try discriminate; [|reflexivity].
  destruct (main_case w Sorts _ _ _ _ _ _ _ _ _ _ _ _ _ _ _ _ PR L U eq_refl H) as (_ & (y & j & v & Z & _) & _). discriminate.
Qed.

End W.

(** ** First printing *)

Lemma has_lower_iff t b : has_lower t b = false <->
  match t with PInf => b = None | Fin t => forall q, b = Some q -> q <= - t | _ => True end.
Proof.
  destruct t as [t| | |], b as [q|]; cbn; try tauto; try (split; [discriminate|]; discriminate).
  - split.
    + intros H q' [= <-]. apply qltb_false. exact H.
    + intros H. apply qltb_false. apply H. reflexivity.
  - split; [discriminate|reflexivity].
Qed.
Lemma has_upper_iff t b : has_upper t b = false <->
  match t with PInf => b = None | Fin t => forall q, b = Some q -> t <= q | _ => True end.
Proof.
  destruct t as [t| | |], b as [q|]; cbn; try tauto; try (split; [discriminate|]; discriminate).
  - split.
    + intros H q' [= <-]. apply qltb_false. exact H.
    + intros H. apply qltb_false. apply H. reflexivity.
  - split; [discriminate|reflexivity].
Qed.

Lemma no_bounds t n lb ub : count_bounds t n lb ub = 0%nat <->
  forall j, (j < n)%nat -> unbounded t (nth j lb None) (nth j ub None).
Proof.
  unfold count_bounds.
  assert (K : forall l : list nat, forall g : nat -> bool, length (filter g l) = 0%nat <-> forall j, In j l -> g j = false).
  { induction l as [|x l IH]; intros g; cbn; [tauto|]. destruct (g x) eqn:Z; cbn.
    - split; [discriminate|]. intros H. rewrite (H x) in Z by auto. discriminate.
    - rewrite IH. split; [intros H j [<-|J]; auto|intros H j J; auto]. }
  rewrite K. split.
  - intros H j J. specialize (H j (proj2 (in_seq n 0 j) (conj (Nat.le_0_l j) J))). apply orb_false_elim in H. destruct H as (H1 & H2).
    apply has_lower_iff in H1. apply has_upper_iff in H2. destruct t; cbn; auto.
  - intros H j J. apply in_seq in J. specialize (H j (proj2 J)).
    assert (Z1 : has_lower t (nth j lb None) = false) by (apply has_lower_iff; destruct t; cbn in H; tauto).
    assert (Z2 : has_upper t (nth j ub None) = false) by (apply has_upper_iff; destruct t; cbn in H; tauto).
    rewrite Z1, Z2. reflexivity.
Qed.

Lemma fmt4_iff x : fmt4_ok x = true <-> is_finite x.
Proof.
  unfold fmt4_ok, is_finite. split.
  - destruct x as [v|]; [|discriminate]. destruct (val v) as [q| | |] eqn:V; try discriminate. eauto.
  - intros (v & q & -> & ->). reflexivity.
Qed.

Lemma printing o e n lb ub t me :
  printing_raises o e (count_bounds t n lb ub + me) = true <->
  high o /\ ((me = 0%nat /\ (forall j, (j < n)%nat -> unbounded t (nth j lb None) (nth j ub None)) /\
              (x_tol e = false \/ x_df1 e = false)) \/
             ~ is_finite (miter o) \/ ~ is_finite (msimul o)).
Proof.
  rewrite <- no_bounds, <- !fmt4_iff. set (cb := count_bounds t n lb ub). clearbody cb.
  assert (HI : match verbose o with Some v => xle (Fin 4) (val v) | None => false end = true <-> high o).
  { unfold high. split.
    - destruct (verbose o) as [v|]; [|discriminate]. destruct (val v) as [q| | |] eqn:Z; try discriminate; intros H.
      + exists v. split; [reflexivity|]. right. exists q. split; [exact Z|]. apply qleb_iff. exact H.
      + exists v. auto.
    - intros (v & -> & [->|(q & -> & H)]); cbn; [reflexivity|]. apply qleb_iff. exact H. }
  unfold printing_raises. destruct (verbose o) as [v|].
  2:{ split; [discriminate|]. intros (H & _). apply HI in H. discriminate. }
  destruct (xle (Fin 4) (val v)).
  2:{ split; [discriminate|]. intros (H & _). apply HI in H. discriminate. }
  assert (HH : high o) by (apply HI; reflexivity).
  assert (EZ : ((cb + me =? 0)%nat = true <-> me = 0%nat /\ cb = 0%nat)) by (rewrite Nat.eqb_eq; lia).
  destruct (fmt4_ok (miter o)), (fmt4_ok (msimul o)), (x_tol e), (x_df1 e), (cb + me =? 0)%nat; cbn; split;
    try discriminate; try (intros _; split; [exact HH|]); try (intros (_ & Z)); try reflexivity;
    try (left; destruct EZ as (EZ & _); destruct (EZ eq_refl); tauto);
    try (right; left; discriminate); try (right; right; discriminate); exfalso;
    destruct Z as [(Z1 & Z2 & Z3)|[Z|Z]]; try (apply Z; reflexivity);
    try (destruct Z3; discriminate); destruct EZ as (_ & EZ); discriminate (EZ (conj Z1 Z2)).
Qed.
