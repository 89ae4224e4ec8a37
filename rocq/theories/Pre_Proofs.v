(** Proofs about the initial phase. *)
From Coq Require Import List Arith ZArith QArith Qround Qabs Bool Lia Lqa.
Import ListNotations.
From Verif Require Import QB Book_Model Book_Spec Book_Proofs Main_Model Main_Spec Main_Proofs2 Pre_Model Pre_Spec.
Local Open Scope Q_scope.

(** ** Bounds and start point *)

(** enough room for a step of length d downwards, and the upper bound holds *)
Definition room (l u : bnd) (v d : Q) : Prop := between l u v /\ between l u (v - d).

Lemma room_le l u v d d' : 0 <= d' -> d' <= d -> room l u v d -> room l u v d'.
Proof.
  intros P L [[A B] [C E]]. split; [split; assumption|]. split.
  - intros a H. specialize (C a H). lra.
  - intros b H. specialize (B b H). lra.
Qed.

Lemma move_room l u x d : 0 < d ->
  (forall a b, l = Some a -> u = Some b -> d + d <= b - a) ->
  room l u (move false l u x d) d.
Proof.
  intros P W. unfold move, assigned, room, between.
  destruct l as [a|], u as [b|].
  - specialize (W a b eq_refl eq_refl).
    destruct (qleb (- d) (a - x)) eqn:E1; qb.
    + split; (split; intros c H; injection H as <-; lra).
    + destruct (qleb (b - x) d) eqn:E2; qb; split; (split; intros c H; injection H as <-; lra).
  - destruct (qleb (- d) (a - x)) eqn:E1; qb; split; (split; intros c H; [injection H as <-; lra|discriminate]).
  - destruct (qleb (b - x) d) eqn:E2; qb; split; (split; intros c H; [discriminate|injection H as <-; lra]).
  - split; (split; intros c H; discriminate).
Qed.

Lemma adjust_ok : forall x lb ub j d x' d' fx,
  (length x <= length lb)%nat -> (length x <= length ub)%nat -> 0 < d ->
  adjust false lb ub x j d = Some (x', d', fx) ->
  0 < d' /\ d' <= d /\ length x' = length x /\
  (forall k, In k fx <-> exists i, k = (j + i)%nat /\ (i < length x)%nat /\ pinned lb ub i) /\
  NoDup fx /\
  (forall i l u v, (i < length x)%nat -> ~ pinned lb ub i -> nth_error lb i = Some l ->
     nth_error ub i = Some u -> nth_error x' i = Some v -> room l u v d').
Proof.
  assert (NN : forall lb ub l u i, pinned (l :: lb) (u :: ub) (S i) <-> pinned lb ub i).
  { intros. unfold pinned. cbn [nth_error]. tauto. }
  induction x as [|xj xr IH]; intros lb ub j d x' d' fx L U P H.
  { cbn [adjust] in H. injection H as <- <- <-.
    split; [exact P|]. split; [lra|]. split; [reflexivity|].
    split. { intros k. split; [intros []|]. intros (i & _ & B & _). simpl in B. lia. }
    split; [constructor|]. intros i l u v B. simpl in B. lia. }
  destruct lb as [|l lr]; [simpl in L; lia|]. destruct ub as [|u ur]; [simpl in U; lia|].
  cbn [length] in L, U. cbn [adjust] in H.
  destruct (match l, u with Some lv, Some uv => qltb uv lv | _, _ => false end) eqn:Bad; [discriminate|].
  assert (Ok : forall a b, l = Some a -> u = Some b -> a <= b).
  { intros a b -> ->. qb. exact Bad. }
  clear Bad.
  (* the two ways to go on with a movable component *)
  assert (Go : forall d1, 0 < d1 -> d1 <= d -> (forall a b, l = Some a -> u = Some b -> d1 + d1 <= b - a) ->
     match adjust false lr ur xr (S j) d1 with
     | Some (x', d', fx) => Some (move false l u xj d1 :: x', d', fx) | None => None end = Some (x', d', fx) ->
     ~ pinned (l :: lr) (u :: ur) 0 ->
     0 < d' /\ d' <= d /\ length x' = length (xj :: xr) /\
     (forall k, In k fx <-> exists i, k = (j + i)%nat /\ (i < length (xj :: xr))%nat /\ pinned (l :: lr) (u :: ur) i) /\
     NoDup fx /\
     (forall i l0 u0 v, (i < length (xj :: xr))%nat -> ~ pinned (l :: lr) (u :: ur) i ->
        nth_error (l :: lr) i = Some l0 -> nth_error (u :: ur) i = Some u0 -> nth_error x' i = Some v ->
        room l0 u0 v d')).
  { intros d1 P1 L1 W G NP. destruct (adjust false lr ur xr (S j) d1) as [[[x1 d2] f1]|] eqn:A; [|discriminate].
    injection G as <- <- <-.
    destruct (IH lr ur (S j) d1 x1 d2 f1) as (A1 & A2 & A3 & A4 & A5 & A6); [lia|lia|exact P1|exact A|].
    split; [exact A1|]. split; [lra|]. split; [cbn [length]; lia|].
    split; [|split; [exact A5|]].
    - intros k. rewrite A4. split.
      + intros (i & E & B & Pi). exists (S i). split; [lia|]. split; [cbn [length]; lia|]. exact Pi.
      + intros (i & E & B & Pi). destruct i as [|i]; [contradiction|]. exists i. split; [lia|].
        split; [cbn [length] in B; lia|]. exact Pi.
    - intros i l0 u0 v B Np E1 E2 E3. destruct i as [|i].
      + cbn [nth_error] in E1, E2, E3. injection E1 as <-. injection E2 as <-. injection E3 as <-.
        apply room_le with d1; [lra|exact A2|]. apply move_room; assumption.
      + cbn [nth_error] in E1, E2, E3. cbn [length] in B.
        apply (A6 i l0 u0 v); [lia| |exact E1|exact E2|exact E3].
        intros Pi. apply Np. exact Pi. }
  destruct (match l, u with Some lv, Some uv => Some (uv - lv) | _, _ => None end) as [w|] eqn:Wd.
  - destruct l as [a|]; [|discriminate]. destruct u as [b|]; [|discriminate]. injection Wd as <-.
    specialize (Ok a b eq_refl eq_refl).
    destruct (qltb (b - a) (d + d)) eqn:E1; qb.
    + destruct (qeqb (b - a) 0) eqn:E2.
      * apply qeqb_iff in E2.
        destruct (adjust false lr ur xr (S j) d) as [[[x1 d2] f1]|] eqn:A; [|discriminate].
        injection H as <- <- <-.
        destruct (IH lr ur (S j) d x1 d2 f1) as (A1 & A2 & A3 & A4 & A5 & A6); [lia|lia|exact P|exact A|].
        assert (P0 : pinned (Some a :: lr) (Some b :: ur) 0).
        { exists a, b. split; [reflexivity|]. split; [reflexivity|]. lra. }
        split; [exact A1|]. split; [exact A2|]. split; [cbn [length]; lia|]. split; [|split].
        -- intros k. split.
           ++ intros [<-|I]; [exists 0%nat; split; [lia|split; [cbn [length]; lia|exact P0]]|].
              apply A4 in I. destruct I as (i & E & B & Pi). exists (S i). split; [lia|].
              split; [cbn [length]; lia|]. exact Pi.
           ++ intros (i & E & B & Pi). destruct i as [|i]; [left; lia|]. right. apply A4.
              exists i. split; [lia|]. split; [cbn [length] in B; lia|]. exact Pi.
        -- constructor; [|exact A5]. intros I. apply A4 in I. destruct I as (i & E & _). lia.
        -- intros i l0 u0 v B Np E3 E4 E5. destruct i as [|i]; [contradiction|].
           cbn [nth_error] in E3, E4, E5. cbn [length] in B.
           apply (A6 i l0 u0 v); [lia| |exact E3|exact E4|exact E5].
           intros Pi. apply Np. exact Pi.
      * apply qeqb_false in E2. assert (0 < b - a).
        { destruct (Qlt_le_dec 0 (b - a)) as [G|G]; [exact G|]. exfalso. apply E2. lra. }
        apply (Go ((1 # 2) * (b - a))); [lra|lra| |exact H|].
        -- intros a0 b0 Ea Eb. injection Ea as <-. injection Eb as <-. lra.
        -- intros (a0 & b0 & Ea & Eb & Q). cbn [nth_error] in Ea, Eb. injection Ea as <-. injection Eb as <-. lra.
    + apply (Go d); [exact P|lra| |exact H|].
      * intros a0 b0 Ea Eb. injection Ea as <-. injection Eb as <-. exact E1.
      * intros (a0 & b0 & Ea & Eb & Q). cbn [nth_error] in Ea, Eb. injection Ea as <-. injection Eb as <-. lra.
  - apply (Go d); [exact P|lra| |exact H|].
    + intros a0 b0 -> ->. discriminate.
    + intros (a0 & b0 & Ea & Eb & Q). cbn [nth_error] in Ea, Eb.
      injection Ea as ->. injection Eb as ->. discriminate.
Qed.

Lemma adjust_none : forall int x lb ub j d,
  (length x <= length lb)%nat -> (length x <= length ub)%nat ->
  (adjust int lb ub x j d = None <-> exists i, (i < length x)%nat /\ crossed lb ub i).
Proof.
  intros int. induction x as [|xj xr IH]; intros lb ub j d L U.
  { cbn [adjust]. split; [discriminate|]. intros (i & B & _). simpl in B. lia. }
  destruct lb as [|l lr]; [simpl in L; lia|]. destruct ub as [|u ur]; [simpl in U; lia|].
  cbn [length] in L, U.
  assert (R : forall d, adjust int lr ur xr (S j) d = None <-> exists i, (i < length xr)%nat /\ crossed lr ur i).
  { intros d1. apply IH; lia. }
  assert (Sh : (exists i, (i < length xr)%nat /\ crossed lr ur i) ->
               exists i, (i < length (xj :: xr))%nat /\ crossed (l :: lr) (u :: ur) i).
  { intros (i & B & C). exists (S i). split; [cbn [length]; lia|]. exact C. }
  assert (Sh' : (exists i, (i < length (xj :: xr))%nat /\ crossed (l :: lr) (u :: ur) i) ->
     crossed (l :: lr) (u :: ur) 0 \/ exists i, (i < length xr)%nat /\ crossed lr ur i).
  { intros (i & B & C). destruct i as [|i]; [left; exact C|]. right. exists i. split; [cbn [length] in B; lia|exact C]. }
  cbn [adjust].
  destruct (match l, u with Some lv, Some uv => qltb uv lv | _, _ => false end) eqn:Bad.
  - split; [|reflexivity]. intros _. exists 0%nat. split; [cbn [length]; lia|].
    destruct l as [a|]; [|discriminate]. destruct u as [b|]; [|discriminate].
    exists a, b. split; [reflexivity|]. split; [reflexivity|]. qb. exact Bad.
  - assert (NC : ~ crossed (l :: lr) (u :: ur) 0).
    { intros (a & b & Ea & Eb & Q). cbn [nth_error] in Ea, Eb. injection Ea as ->. injection Eb as ->. qb.
      apply (Qlt_not_le _ _ Q Bad). }
    assert (T : forall d1 (k : list Q * Q * list nat -> option (list Q * Q * list nat)),
       (forall t, k t <> None) ->
       (match adjust int lr ur xr (S j) d1 with Some t => k t | None => None end = None <->
        exists i, (i < length (xj :: xr))%nat /\ crossed (l :: lr) (u :: ur) i)).
    { intros d1 k K. destruct (adjust int lr ur xr (S j) d1) as [t|] eqn:A.
      - split; [intros E; exfalso; exact (K _ E)|].
        intros H. apply Sh' in H. destruct H as [H|H]; [contradiction|]. apply (R d1) in H. congruence.
      - split; [|reflexivity]. intros _. apply Sh. apply (R d1). exact A. }
    destruct (match l, u with Some lv, Some uv => Some (uv - lv) | _, _ => None end) as [w|].
    + destruct (qltb w (d + d)).
      * destruct (qeqb w 0).
        -- apply (T d (fun t => let '(x', d', fx) := t in Some (xj :: x', d', j :: fx))).
           intros [[a b] c]. discriminate.
        -- apply (T ((1 # 2) * w) (fun t => let '(x', d', fx) := t in Some (move int l u xj ((1 # 2) * w) :: x', d', fx))).
           intros [[a b] c]. discriminate.
      * apply (T d (fun t => let '(x', d', fx) := t in Some (move int l u xj d :: x', d', fx))).
        intros [[a b] c]. discriminate.
    + apply (T d (fun t => let '(x', d', fx) := t in Some (move int l u xj d :: x', d', fx))).
      intros [[a b] c]. discriminate.
Qed.

(** ** The simplex *)

Lemma step_down_lowered x d j : lowered x d j (step_down x d j).
Proof.
  unfold lowered, step_down. split; [apply upd_length|].
  intros i B. destruct (Nat.eqb_spec i j) as [->|N].
  - apply nth_error_nth. apply nth_error_upd_eq. exact B.
  - destruct (nth_error x i) as [v|] eqn:E; [|apply nth_error_None in E; lia].
    rewrite (nth_error_nth _ _ _ E). apply nth_error_nth. rewrite nth_error_upd_neq by auto. exact E.
Qed.

Lemma simplex_is x d : simplex_of x d (simplex x d).
Proof.
  unfold simplex_of, simplex. split; [cbn [length]; rewrite map_length, seq_length; reflexivity|].
  split; [reflexivity|]. intros j B. exists (step_down x d j). split; [|apply step_down_lowered].
  cbn [nth_error]. rewrite nth_error_map.
  rewrite (nth_error_nth' (seq 0 (length x)) 0%nat) by (rewrite seq_length; exact B).
  rewrite seq_nth by exact B. reflexivity.
Qed.

Lemma nth_of_nth_error {A} (l : list A) i v dflt : nth_error l i = Some v -> nth i l dflt = v.
Proof. intros H. apply nth_error_nth. exact H. Qed.

Lemma lowered_respects lb ub x d k y i :
  lowered x d k y -> (i < length x)%nat ->
  (forall l u v, nth_error lb i = Some l -> nth_error ub i = Some u -> nth_error x i = Some v -> room l u v d) ->
  respects lb ub y i.
Proof.
  intros (Ln & V) B R l u v E1 E2 E3.
  destruct (nth_error x i) as [xv|] eqn:E4; [|apply nth_error_None in E4; lia].
  specialize (R l u xv E1 E2 eq_refl). specialize (V i B).
  rewrite (nth_of_nth_error _ _ _ 0 E3), (nth_of_nth_error _ _ _ 0 E4) in V.
  destruct R as [R1 R2]. destruct (i =? k)%nat; subst v; assumption.
Qed.

Lemma start_respects lb ub x x' d d' fx :
  (length x <= length lb)%nat -> (length x <= length ub)%nat -> 0 < d ->
  adjust false lb ub x 0 d = Some (x', d', fx) ->
  0 < d' /\ d' <= d /\
  forall y i, In y (simplex x' d') -> (i < length x)%nat -> ~ pinned lb ub i -> respects lb ub y i.
Proof.
  intros L U P A. destruct (adjust_ok _ _ _ _ _ _ _ _ L U P A) as (A1 & A2 & A3 & _ & _ & A6).
  split; [exact A1|]. split; [exact A2|].
  intros y i I B N.
  assert (Rm : forall l u v, nth_error lb i = Some l -> nth_error ub i = Some u ->
    nth_error x' i = Some v -> room l u v d').
  { intros l u v E1 E2 E3. apply (A6 i l u v B N E1 E2 E3). }
  unfold simplex in I. destruct I as [<-|I].
  - intros l u v E1 E2 E3. exact (proj1 (Rm l u v E1 E2 E3)).
  - apply in_map_iff in I. destruct I as (k & <- & _).
    apply (lowered_respects lb ub x' d' k); [apply step_down_lowered|lia|exact Rm].
Qed.

Lemma crossed_flag user nrm geom fit fuel int lb ub x :
  (length x <= length lb)%nat -> (length x <= length ub)%nat -> (0 < length x)%nat ->
  (exists i, (i < length x)%nat /\ crossed lb ub i) ->
  prelim user nrm geom fit fuel int lb ub x = Some (PFlag 2 []).
Proof.
  intros L U P C. unfold prelim. destruct x as [|a r] eqn:E; [simpl in P; lia|]. rewrite <- E in *.
  apply (adjust_none int x lb ub 0 delta0 L U) in C. rewrite C. reflexivity.
Qed.

(** ** Evaluations *)

Lemma existsb_nan c : existsb is_nan c = true <-> In NaN c.
Proof.
  rewrite existsb_exists. split.
  - intros (v & I & E). destruct v; try discriminate. exact I.
  - intros I. exists NaN. split; [exact I|reflexivity].
Qed.

Lemma eval_user_ok user k y f c : eval_user (user k y) = EvOk f c ->
  gives user k y f /\ exists c0, o_c (user k y) = Some c0 /\ ~ In NaN c0 /\ c = map clampx c0.
Proof.
  unfold eval_user, gives. destruct (o_f (user k y)) as [[q| | |]|]; try discriminate.
  destruct (o_c (user k y)) as [c0|]; [|discriminate].
  destruct (existsb is_nan c0) eqn:N; [discriminate|]. intros H; injection H as <- <-.
  assert (NI : ~ In NaN c0) by (rewrite <- existsb_nan; congruence).
  split; [split; [reflexivity|eauto]|eauto].
Qed.

Lemma eval_user_fail user k y v : eval_user (user k y) = EvFail v -> fails user k y.
Proof.
  unfold eval_user, fails, gives. intros H w [E (c & Ec & N)]. rewrite E, Ec in H.
  destruct (existsb is_nan c) eqn:B; [apply existsb_nan in B; contradiction|discriminate].
Qed.

Lemma pos25' : 0 < c1e25.
Proof. reflexivity. Qed.

Lemma low_value f : qltb c1e25 (qabs (qmin c1e25 f)) = true <-> f < - c1e25.
Proof.
  pose proof pos25' as P. rewrite qltb_iff. unfold qabs, qmin.
  destruct (qleb c1e25 f) eqn:E1; qb.
  - destruct (qleb 0 c1e25) eqn:E2; qb; split; intros; lra.
  - destruct (qleb 0 f) eqn:E2; qb; split; intros; lra.
Qed.

Section Evals.
Variable user : nat -> list Q -> outcome.

Lemma eval_pts_spec : forall todo cl X fX ceX,
  match eval_pts user todo cl X fX ceX with
  | IDone cl' X' fX' ceX' => cl' = cl ++ todo /\ X' = X ++ todo /\
      fine_until user (length cl) todo (length todo)
  | IBreak cl' _ => exists k y v, cl' = cl ++ firstn (S k) todo /\ nth_error todo k = Some y /\
      fine_until user (length cl) todo k /\ gives user (length cl + k) y v /\ v < - c1e25
  | IFail cl' => exists k y, cl' = cl ++ firstn (S k) todo /\ nth_error todo k = Some y /\
      fine_until user (length cl) todo k /\ fails user (length cl + k) y
  | ICrash => True
  end.
Proof.
  induction todo as [|y r IH]; intros cl X fX ceX.
  { cbn [eval_pts]. rewrite !app_nil_r. split; [reflexivity|]. split; [reflexivity|].
    intros i z B. simpl in B. lia. }
  cbn [eval_pts]. destruct (eval_user (user (length cl) y)) as [f c|w] eqn:E.
  - apply eval_user_ok in E. destruct E as [G _].
    destruct (add_col ceX c) as [ceX'|]; [|exact Logic.I].
    destruct (qltb c1e25 (qabs (qmin c1e25 f))) eqn:Lw.
    + apply low_value in Lw. exists 0%nat, y, f. split; [reflexivity|]. split; [reflexivity|].
      split; [intros i z B; lia|]. rewrite Nat.add_0_r. split; [exact G|exact Lw].
    + assert (Fin : - c1e25 <= f).
      { apply Qnot_lt_le. intros C. apply low_value in C. congruence. }
      assert (Sh : forall k, fine_until user (length (cl ++ [y])) r k -> fine_until user (length cl) (y :: r) (S k)).
      { intros k H i z B Ez. destruct i as [|i].
        - cbn [nth_error] in Ez. injection Ez as <-. rewrite Nat.add_0_r. exists f. split; [exact G|exact Fin].
        - cbn [nth_error] in Ez. destruct (H i z) as (v & Gv & Fv); [lia|exact Ez|].
          exists v. split; [|exact Fv]. rewrite app_length in Gv. cbn [length] in Gv.
          replace (length cl + S i)%nat with (length cl + 1 + i)%nat by lia. exact Gv. }
      specialize (IH (cl ++ [y]) (X ++ [y]) (fX ++ [qmin c1e25 f]) ceX').
      destruct (eval_pts user r (cl ++ [y]) (X ++ [y]) (fX ++ [qmin c1e25 f]) ceX') as [cl' X' fX' ce'|cl' ce'|cl'|].
      * destruct IH as (-> & -> & H). rewrite <- !app_assoc. split; [reflexivity|]. split; [reflexivity|].
        cbn [length]. apply Sh. exact H.
      * destruct IH as (k & z & v & -> & Ez & H & Gv & Lv). exists (S k), z, v.
        split; [rewrite <- app_assoc; reflexivity|]. split; [exact Ez|]. split; [apply Sh; exact H|].
        rewrite app_length in Gv. cbn [length] in Gv.
        replace (length cl + S k)%nat with (length cl + 1 + k)%nat by lia. split; [exact Gv|exact Lv].
      * destruct IH as (k & z & -> & Ez & H & Fv). exists (S k), z.
        split; [rewrite <- app_assoc; reflexivity|]. split; [exact Ez|]. split; [apply Sh; exact H|].
        rewrite app_length in Fv. cbn [length] in Fv.
        replace (length cl + S k)%nat with (length cl + 1 + k)%nat by lia. exact Fv.
      * exact Logic.I.
  - apply eval_user_fail in E. exists 0%nat, y. split; [reflexivity|]. split; [reflexivity|].
    split; [intros i z B; lia|]. rewrite Nat.add_0_r. exact E.
Qed.

(** what is recorded *)
Definition columns_ok (ceX : list (list Q)) : Prop :=
  (forall c, In c ceX -> c <> []) /\ (forall c c', In c ceX -> In c' ceX -> length c = length c').

Lemma add_col_ok ceX c ceX' : columns_ok ceX -> add_col ceX c = Some ceX' -> columns_ok ceX'.
Proof.
  intros [H1 H2] A. unfold add_col in A. destruct c as [|a c].
  { injection A as <-. split; assumption. }
  destruct ceX as [|c0 t].
  { injection A as <-. split.
    - intros d [<-|[]]. discriminate.
    - intros d e [<-|[]] [<-|[]]. reflexivity. }
  destruct (Nat.eqb_spec (length (a :: c)) (length c0)) as [E|E]; [|discriminate].
  injection A as <-.
  assert (All : forall d, In d ((c0 :: t) ++ [a :: c]) -> d <> [] /\ length d = length c0).
  { intros d I. apply (in_app_or (c0 :: t)) in I. destruct I as [I|[<-|[]]].
    - split; [apply H1; exact I|]. apply H2; [exact I|left; reflexivity].
    - split; [discriminate|exact E]. }
  split.
  - intros d I. apply All. exact I.
  - intros d e Id Ie. rewrite (proj2 (All d Id)), (proj2 (All e Ie)). reflexivity.
Qed.

Definition from_user (v : Q) : Prop := exists k y c w, o_c (user k y) = Some c /\ In w c /\ v = clampx w.

Lemma add_col_in ceX c ceX' d : add_col ceX c = Some ceX' -> In d ceX' -> In d ceX \/ d = c.
Proof.
  unfold add_col. destruct c as [|a c]; [intros H; injection H as <-; auto|].
  destruct ceX as [|c0 t].
  - intros H; injection H as <-. intros [<-|[]]. auto.
  - destruct (length (a :: c) =? length c0)%nat; [|discriminate]. intros H; injection H as <-.
    intros I. apply (in_app_or (c0 :: t)) in I. destruct I as [I|[<-|[]]]; auto.
Qed.

Lemma eval_pts_done : forall todo cl X fX ceX cl' X' fX' ceX',
  eval_pts user todo cl X fX ceX = IDone cl' X' fX' ceX' ->
  columns_ok ceX -> (forall c v, In c ceX -> In v c -> from_user v) ->
  columns_ok ceX' /\ (forall c v, In c ceX' -> In v c -> from_user v) /\
  exists fs, fX' = fX ++ fs /\ length fs = length todo /\
  forall i y f, nth_error todo i = Some y -> nth_error fs i = Some f ->
    exists v c, o_f (user (length cl + i) y) = Some (Fin v) /\ o_c (user (length cl + i) y) = Some c /\
      ~ In NaN c /\ f = qmin c1e25 v.
Proof.
  induction todo as [|y r IH]; intros cl X fX ceX cl' X' fX' ceX' H CO FU.
  { cbn [eval_pts] in H. injection H as <- <- <- <-. split; [exact CO|]. split; [exact FU|].
    exists []. rewrite app_nil_r. split; [reflexivity|]. split; [reflexivity|]. intros [|i]; discriminate. }
  cbn [eval_pts] in H. destruct (eval_user (user (length cl) y)) as [f c|w] eqn:E; [|discriminate].
  apply eval_user_ok in E. destruct E as [[Gf _] (c0 & Ec & Nc & ->)].
  destruct (add_col ceX (map clampx c0)) as [ce1|] eqn:A; [|discriminate].
  destruct (qltb c1e25 (qabs (qmin c1e25 f))); [discriminate|].
  apply IH in H.
  - destruct H as (CO' & FU' & fs & -> & Lf & V). split; [exact CO'|]. split; [exact FU'|].
    exists (qmin c1e25 f :: fs). split; [rewrite <- app_assoc; reflexivity|].
    split; [cbn [length]; lia|].
    intros [|i] z g Ez Eg.
    + cbn [nth_error] in Ez, Eg. injection Ez as <-. injection Eg as <-. rewrite Nat.add_0_r.
      exists f, c0. auto.
    + cbn [nth_error] in Ez, Eg. destruct (V i z g Ez Eg) as (v & c & V1 & V2 & V3 & V4).
      rewrite app_length in V1, V2. cbn [length] in V1, V2.
      replace (length cl + S i)%nat with (length cl + 1 + i)%nat by lia. exists v, c. auto.
  - exact (add_col_ok _ _ _ CO A).
  - intros d v Id Iv. destruct (add_col_in _ _ _ _ A Id) as [Id'| ->]; [exact (FU d v Id' Iv)|].
    apply in_map_iff in Iv. destruct Iv as (w & <- & Iw).
    exists (length cl), y, c0, w. auto.
Qed.
End Evals.

(** ** The rounds *)

Section Rounds.
Variable user : nat -> list Q -> outcome.
Variable nrm : list Q -> Q.
Variables geom fit : list (list Q) -> bool.
Notation rounds' := (rounds user nrm geom fit).

Notation tiny_for := (too_small nrm).

Lemma rounds_probing : forall fuel x d cl r, rounds' fuel x d cl = Some r ->
  match r with
  | PReady cl' X fX ceX d' => exists new, cl' = cl ++ new /\
      probing user (tiny_for x) x (length cl) d new d' Complete
  | PFlag fl cl' => fl = 3%nat /\ exists new d', cl' = cl ++ new /\
      probing user (tiny_for x) x (length cl) d new d' Failed
  | PGiveUp cl' => exists new d', cl' = cl ++ new /\
      probing user (tiny_for x) x (length cl) d new d' TooLow
  | PCrash => True
  end.
Proof.
  induction fuel as [|fuel IH]; intros x d cl r H; [discriminate|].
  cbn [rounds] in H. destruct (negb (geom (simplex x d))); [injection H as <-; exact Logic.I|].
  pose proof (simplex_is x d) as SX.
  pose proof (eval_pts_spec user (simplex x d) cl [] [] []) as SP.
  destruct (eval_pts user (simplex x d) cl [] [] []) as [cl' X' fX' ce'|cl' ce'|cl'|].
  - destruct SP as (-> & -> & Fu).
    assert (K : forall X fX ceX, r = PReady (cl ++ simplex x d) X fX ceX d \/ r = PCrash ->
      match r with
      | PReady cl' X fX ceX d' => exists new, cl' = cl ++ new /\
          probing user (tiny_for x) x (length cl) d new d' Complete
      | PFlag fl cl' => fl = 3%nat /\ exists new d', cl' = cl ++ new /\
          probing user (tiny_for x) x (length cl) d new d' Failed
      | PGiveUp cl' => exists new d', cl' = cl ++ new /\
          probing user (tiny_for x) x (length cl) d new d' TooLow
      | PCrash => True
      end).
    { intros X fX ceX [-> | ->]; [|exact Logic.I]. exists (simplex x d). split; [reflexivity|].
      apply pr_complete; assumption. }
    destruct (overwrite_ce ce') as [ce2|]; [|injection H as <-; exact Logic.I].
    destruct ce2 as [|c2 t2].
    + apply (K ([] ++ simplex x d) fX' []). injection H as <-. destruct (fit _); auto.
    + destruct (length (c2 :: t2) =? length ([] ++ simplex x d))%nat; [|injection H as <-; exact Logic.I].
      apply (K ([] ++ simplex x d) fX' (c2 :: t2)). injection H as <-. destruct (fit _); auto.
  - destruct SP as (k & y & v & -> & Ey & Fu & Gv & Lv).
    destruct (overwrite_ce ce') as [ce2|]; [|injection H as <-; exact Logic.I].
    assert (LC : length (cl ++ firstn (S k) (simplex x d)) = (length cl + S k)%nat).
    { rewrite app_length, firstn_length.
      assert (k < length (simplex x d))%nat by (apply nth_error_Some; congruence). lia. }
    destruct (qltb (shrink * d) (stall * nrm x)) eqn:T.
    + injection H as <-. qb. exists (firstn (S k) (simplex x d)), d. split; [reflexivity|].
      apply (pr_giveup _ _ _ _ _ _ k y v); assumption.
    + qb. apply IH in H. rewrite LC in H.
      assert (NT : ~ tiny_for x ((1 # 100) * d)).
      { unfold too_small. intros C. apply (Qlt_not_le _ _ C). exact T. }
      destruct r as [cl2 X fX ceX d'|fl cl2|cl2|]; [| | |exact Logic.I].
      * destruct H as (new & -> & Pr). exists (firstn (S k) (simplex x d) ++ new).
        split; [rewrite app_assoc; reflexivity|]. apply (pr_again _ _ _ _ _ _ k y v); assumption.
      * destruct H as (-> & new & d' & -> & Pr). split; [reflexivity|].
        exists (firstn (S k) (simplex x d) ++ new), d'.
        split; [rewrite app_assoc; reflexivity|]. apply (pr_again _ _ _ _ _ _ k y v); assumption.
      * destruct H as (new & d' & -> & Pr). exists (firstn (S k) (simplex x d) ++ new), d'.
        split; [rewrite app_assoc; reflexivity|]. apply (pr_again _ _ _ _ _ _ k y v); assumption.
  - destruct SP as (k & y & -> & Ey & Fu & Fl). injection H as <-. split; [reflexivity|].
    exists (firstn (S k) (simplex x d)), d. split; [reflexivity|].
    apply (pr_fail _ _ _ _ _ _ k y); assumption.
  - injection H as <-. exact Logic.I.
Qed.

(** with a zero start point the phase never gives up *)
Lemma never_gives_up : forall fuel x d cl cl', nrm x == 0 -> 0 < d ->
  rounds' fuel x d cl <> Some (PGiveUp cl').
Proof.
  induction fuel as [|fuel IH]; intros x d cl cl' Z P H; [discriminate|].
  cbn [rounds] in H. destruct (negb (geom (simplex x d))); [discriminate|].
  destruct (eval_pts user (simplex x d) cl [] [] []) as [cl1 X' fX' ce'|cl1 ce'|cl1|]; try discriminate.
  - destruct (overwrite_ce ce') as [ce2|]; [|discriminate]. destruct ce2 as [|c2 t2].
    + destruct (fit X'); discriminate.
    + destruct (length (c2 :: t2) =? length X')%nat; [|discriminate]. destruct (fit X'); discriminate.
  - destruct (overwrite_ce ce'); [|discriminate].
    destruct (qltb (shrink * d) (stall * nrm x)) eqn:T; qb.
    + rewrite Z in T. unfold shrink in T. lra.
    + apply (IH x (shrink * d) cl1 cl' Z); [unfold shrink; lra|exact H].
Qed.

(** and it does not end at all while the objective stays below -1e25 *)
Lemma endless : forall fuel x d cl, nrm x == 0 -> 0 < d ->
  (forall pts, geom pts = true) ->
  (forall k y, exists v, o_f (user k y) = Some (Fin v) /\ v < - c1e25 /\ o_c (user k y) = Some []) ->
  rounds' fuel x d cl = None.
Proof.
  induction fuel as [|fuel IH]; intros x d cl Z P G L; [reflexivity|].
  cbn [rounds]. rewrite G. cbn [negb].
  unfold simplex. cbn [eval_pts].
  destruct (L (length cl) x) as (v & Ef & Lv & Ec).
  unfold eval_user. rewrite Ef, Ec. cbn [existsb map add_col].
  rewrite (proj2 (low_value v) Lv).
  change (overwrite_ce []) with (Some (@nil (list Q))).
  destruct (qltb (shrink * d) (stall * nrm x)) eqn:T; qb.
  - rewrite Z in T. unfold shrink in T. lra.
  - apply IH; try assumption. unfold shrink. lra.
Qed.

(** with a non-zero start point it ends *)
Lemma rounds_mono : forall fuel x d cl r, rounds' fuel x d cl = Some r ->
  forall fuel', (fuel <= fuel')%nat -> rounds' fuel' x d cl = Some r.
Proof.
  induction fuel as [|fuel IH]; intros x d cl r H fuel' Le; [discriminate|].
  destruct fuel' as [|fuel']; [lia|]. cbn [rounds] in *.
  destruct (negb (geom (simplex x d))); [exact H|].
  destruct (eval_pts user (simplex x d) cl [] [] []) as [cl1 X' fX' ce'|cl1 ce'|cl1|]; try exact H.
  destruct (overwrite_ce ce'); [|exact H].
  destruct (qltb (shrink * d) (stall * nrm x)); [exact H|].
  apply IH; [exact H|lia].
Qed.

Lemma rounds_bounded : forall fuel x d cl, 0 < d ->
  d < stall * nrm x * inject_Z (100 ^ Z.of_nat fuel) -> exists r, rounds' (S fuel) x d cl = Some r.
Proof.
  induction fuel as [|fuel IH]; intros x d cl Pd H.
  - assert (H' : d < stall * nrm x) by (change (inject_Z (100 ^ Z.of_nat 0)) with 1 in H; lra). clear H.
    cbn [rounds]. destruct (negb (geom (simplex x d))); [eauto|].
    destruct (eval_pts user (simplex x d) cl [] [] []) as [cl1 X' fX' ce'|cl1 ce'|cl1|]; eauto.
    + destruct (overwrite_ce ce') as [[|c2 t2]|]; eauto.
      destruct (length (c2 :: t2) =? length X')%nat; eauto.
    + destruct (overwrite_ce ce'); [|eauto].
      destruct (qltb (shrink * d) (stall * nrm x)) eqn:T; [eauto|]. qb. exfalso.
      unfold shrink in T. lra.
  - cbn [rounds]. destruct (negb (geom (simplex x d))); [eauto|].
    destruct (eval_pts user (simplex x d) cl [] [] []) as [cl1 X' fX' ce'|cl1 ce'|cl1|]; eauto.
    + destruct (overwrite_ce ce') as [[|c2 t2]|]; eauto.
      destruct (length (c2 :: t2) =? length X')%nat; eauto.
    + destruct (overwrite_ce ce'); [|eauto].
      destruct (qltb (shrink * d) (stall * nrm x)) eqn:T; [eauto|].
      apply (IH x (shrink * d) cl1); [unfold shrink; lra|].
      rewrite Nat2Z.inj_succ, Z.pow_succ_r, inject_Z_mult in H by lia.
      unfold shrink. change (inject_Z 100) with 100 in H. lra.
Qed.
End Rounds.

(** every positive number times some power of 100 exceeds [d] *)
Lemma power_large (d a : Q) : 0 < a -> exists n, d < a * inject_Z (100 ^ Z.of_nat n).
Proof.
  intros P. set (m := Z.to_nat (Qceiling (d / a) + 1)). exists m.
  assert (B : d / a < inject_Z (100 ^ Z.of_nat m)).
  { apply Qle_lt_trans with (inject_Z (Qceiling (d / a))); [apply Qle_ceiling|].
    rewrite <- Zlt_Qlt.
    assert (Z.of_nat m < 100 ^ Z.of_nat m)%Z by (apply Z.pow_gt_lin_r; lia).
    unfold m in *. destruct (Z_lt_le_dec (Qceiling (d / a) + 1) 0) as [N|N]; [|rewrite Z2Nat.id in *; lia].
    assert (0 < 100 ^ Z.of_nat (Z.to_nat (Qceiling (d / a) + 1)))%Z by (apply Z.pow_pos_nonneg; lia). lia. }
  apply (Qmult_lt_l _ _ a P) in B. rewrite Qmult_div_r in B; [exact B|].
  intros Z. rewrite Z in P. discriminate.
Qed.

(** ** The whole routine *)

Section Whole.
Variable user : nat -> list Q -> outcome.
Variable nrm : list Q -> Q.
Variables geom fit : list (list Q) -> bool.
Notation prelim' := (prelim user nrm geom fit).
Notation rounds' := (rounds user nrm geom fit).

Lemma rounds_end x d cl : 0 < d -> 0 < nrm x ->
  exists fuel r, rounds' fuel x d cl = Some r.
Proof.
  intros P N. destruct (power_large d (stall * nrm x)) as (n & H).
  { apply Qmult_lt_0_compat; [reflexivity|exact N]. }
  destruct (rounds_bounded user nrm geom fit n x d cl P H) as (r & E). eauto.
Qed.

(** every point of a probing sequence is a point of the simplex for some smaller radius *)
Lemma probing_points tiny x c d cl d' e : probing user tiny x c d cl d' e -> 0 < d ->
  0 < d' /\ d' <= d /\
  forall y, In y cl -> exists r pts, 0 < r /\ r <= d /\ simplex_of x r pts /\ In y pts.
Proof.
  intros H P. induction H as [c d pts S F|c d pts k y S F E Fl|c d pts k y v cl d' e S F E G L T Pr IH|c d pts k y v S F E G L T].
  - split; [exact P|]. split; [lra|]. intros y I. exists d, pts. repeat split; auto; try lra; apply S.
  - split; [exact P|]. split; [lra|]. intros z I. exists d, pts. split; [exact P|]. split; [lra|].
    split; [exact S|]. rewrite <- (firstn_skipn (Datatypes.S k) pts). apply in_or_app. left. exact I.
  - assert (P' : 0 < (1 # 100) * d) by lra. destruct (IH P') as (A & B & C).
    split; [exact A|]. split; [lra|]. intros z I. apply in_app_or in I. destruct I as [I|I].
    + exists d, pts. split; [exact P|]. split; [lra|].
      split; [exact S|]. rewrite <- (firstn_skipn (Datatypes.S k) pts). apply in_or_app. left. exact I.
    + destruct (C z I) as (r & pts' & R1 & R2 & R3 & R4). exists r, pts'.
      split; [exact R1|]. split; [lra|]. auto.
  - split; [exact P|]. split; [lra|]. intros z I. exists d, pts. split; [exact P|]. split; [lra|].
    split; [exact S|]. rewrite <- (firstn_skipn (Datatypes.S k) pts). apply in_or_app. left. exact I.
Qed.

(** all calls of the initial phase respect the bounds, whatever the user answers *)
Lemma all_calls_respect fuel lb ub x0 r y i :
  (length x0 <= length lb)%nat -> (length x0 <= length ub)%nat ->
  prelim' fuel false lb ub x0 = Some r -> In y (calls_of r) -> (i < length x0)%nat ->
  respects lb ub y i.
Proof.
  intros L U H I B. unfold prelim in H. destruct x0 as [|a t] eqn:E0; [simpl in B; lia|]. rewrite <- E0 in *.
  clear E0 a t.
  destruct (adjust false lb ub x0 0 delta0) as [[[x d] fx]|] eqn:A; [|injection H as <-; destruct I].
  assert (PD : 0 < delta0) by reflexivity.
  destruct (adjust_ok _ _ _ _ _ _ _ _ L U PD A) as (A1 & A2 & A3 & A4 & A5 & A6).
  destruct fx as [|f0 fr].
  2:{ destruct (length (f0 :: fr) =? length x0)%nat; [injection H as <-; destruct I|].
      unfold fixed_eval in H. cbn [col_assign] in H.
      destruct (yfull_shape (length (f0 :: fr)) (length x0 - length (f0 :: fr))); injection H as <-; destruct I. }
  assert (NP : ~ pinned lb ub i).
  { intros Pi. apply (proj2 (A4 i)). exists i. split; [reflexivity|]. split; assumption. }
  assert (exists new d' e, calls_of r = new /\ probing user (too_small nrm x) x 0 d new d' e) as (new & d' & e & Ec & Pr).
  { pose proof (rounds_probing user nrm geom fit fuel x d [] r H) as RP.
    destruct r as [cl X fX ceX d'|fl cl|cl|].
    - destruct RP as (new & -> & Pr). exists new, d', Complete. split; [reflexivity|exact Pr].
    - destruct RP as (_ & new & d' & -> & Pr). exists new, d', Failed. split; [reflexivity|exact Pr].
    - destruct RP as (new & d' & -> & Pr). exists new, d', TooLow. split; [reflexivity|exact Pr].
    - destruct I. }
  rewrite Ec in I. destruct (probing_points _ _ _ _ _ _ _ Pr A1) as (_ & _ & Q).
  destruct (Q y I) as (ra & pts & R1 & R2 & (S1 & S2 & S3) & Iy).
  apply In_nth_error in Iy. destruct Iy as (k & Ek).
  assert (Rm : forall l u v, nth_error lb i = Some l -> nth_error ub i = Some u ->
    nth_error x i = Some v -> room l u v ra).
  { intros l u v E1 E2 E3. apply room_le with d; [lra|exact R2|]. apply (A6 i l u v); assumption. }
  destruct k as [|k].
  - assert (y = x) as -> by congruence. intros l u v E1 E2 E3. exact (proj1 (Rm l u v E1 E2 E3)).
  - assert (Bk : (k < length x)%nat).
    { assert (S k < length pts)%nat by (apply nth_error_Some; congruence). lia. }
    destruct (S3 k Bk) as (z & Ez & Lz). assert (z = y) as -> by congruence.
    apply (lowered_respects lb ub x ra k); [exact Lz|lia|exact Rm].
Qed.

Lemma nodup_full : forall (l : list nat) n, NoDup l -> (forall k, In k l -> (k < n)%nat) -> 
  length l = n -> forall k, (k < n)%nat -> In k l.
Proof.
  intros l n N B E k K.
  assert (I : incl (seq 0 n) l).
  { apply NoDup_length_incl; [exact N|rewrite seq_length; lia|].
    intros j J. apply in_seq. specialize (B j J). lia. }
  apply I. apply in_seq. lia.
Qed.

Lemma all_pinned_flag fuel lb ub x0 :
  (length x0 <= length lb)%nat -> (length x0 <= length ub)%nat -> (0 < length x0)%nat ->
  (forall i, (i < length x0)%nat -> pinned lb ub i) ->
  prelim' fuel false lb ub x0 = Some (PFlag 2 []).
Proof.
  intros L U P Pi. unfold prelim. destruct x0 as [|a t] eqn:E0; [simpl in P; lia|]. rewrite <- E0 in *.
  clear E0 a t.
  destruct (adjust false lb ub x0 0 delta0) as [[[x d] fx]|] eqn:A; [|reflexivity].
  assert (PD : 0 < delta0) by reflexivity.
  destruct (adjust_ok _ _ _ _ _ _ _ _ L U PD A) as (_ & _ & _ & A4 & A5 & _).
  assert (Len : length fx = length x0).
  { assert (NoDup (seq 0 (length x0))) as N2 by apply seq_NoDup.
    apply Nat.le_antisymm.
    - rewrite <- (seq_length (length x0) 0). apply NoDup_incl_length; [exact A5|].
      intros k I. apply A4 in I. destruct I as (i & -> & B & _). apply in_seq. lia.
    - rewrite <- (seq_length (length x0) 0) at 1. apply NoDup_incl_length; [exact N2|].
      intros k I. apply in_seq in I. apply A4. exists k. split; [reflexivity|]. split; [lia|]. apply Pi. lia. }
  destruct fx as [|f0 fr]; [simpl in Len; lia|]. rewrite Len, Nat.eqb_refl. reflexivity.
Qed.

Lemma some_pinned_crash fuel lb ub x0 i k :
  (length x0 <= length lb)%nat -> (length x0 <= length ub)%nat ->
  (forall j, (j < length x0)%nat -> ~ crossed lb ub j) ->
  (i < length x0)%nat -> pinned lb ub i -> (k < length x0)%nat -> ~ pinned lb ub k ->
  prelim' fuel false lb ub x0 = Some PCrash.
Proof.
  intros L U NC Bi Pi Bk Nk. unfold prelim. destruct x0 as [|a t] eqn:E0; [simpl in Bi; lia|]. rewrite <- E0 in *.
  clear E0 a t.
  destruct (adjust false lb ub x0 0 delta0) as [[[x d] fx]|] eqn:A.
  2:{ apply adjust_none in A; [|exact L|exact U]. destruct A as (j & Bj & Cj). exfalso. exact (NC j Bj Cj). }
  assert (PD : 0 < delta0) by reflexivity.
  destruct (adjust_ok _ _ _ _ _ _ _ _ L U PD A) as (_ & _ & _ & A4 & A5 & _).
  assert (Ii : In i fx) by (apply A4; exists i; auto).
  destruct fx as [|f0 fr] eqn:Ef; [destruct Ii|]. rewrite <- Ef in *.
  destruct (Nat.eqb_spec (length fx) (length x0)) as [E|E].
  - exfalso. apply Nk.
    assert (Ik : In k fx).
    { apply (nodup_full fx (length x0)); [exact A5| |exact E|exact Bk].
      intros m I. apply A4 in I. destruct I as (j & -> & Bj & _). exact Bj. }
    apply A4 in Ik. destruct Ik as (j & -> & _ & Pj). exact Pj.
  - unfold fixed_eval. cbn [col_assign]. destruct (yfull_shape _ _); reflexivity.
Qed.

(** *** Handing over to the main loop *)

Lemma qmin_capped v : capped v (qmin c1e25 v).
Proof.
  unfold capped, qmin. fold c1e25. destruct (qleb c1e25 v) eqn:E; qb; split; intros H; lra.
Qed.

Lemma clamp_not_huge q : ~ huge q -> clamp25 q = q.
Proof.
  intros N. apply not_huge in N. destruct N as [A B]. unfold clamp25.
  destruct (qltb c1e25 q) eqn:E1; qb; [exfalso; apply (Qlt_irrefl q); apply Qlt_trans with c1e25; assumption|].
  destruct (qltb q (- c1e25)) eqn:E2; qb; [exfalso; apply (Qlt_irrefl q); apply Qlt_trans with (- c1e25); assumption|].
  reflexivity.
Qed.

Lemma handed_over (E : env (list Q)) : (forall k y, e_user E k y = user k y) ->
  forall fuel x d cl cl' X fX ceX d' slk, x <> [] ->
  rounds' fuel x d cl = Some (PReady cl' X fX ceX d') ->
  e_me E = width ceX -> (ceX = [] -> slk = []) ->
  consistent E cl' X fX ceX slk.
Proof.
  intros EU. induction fuel as [|fuel IH]; intros x d cl cl' X fX ceX d' slk Nx H Me Sl; [discriminate|].
  cbn [rounds] in H. destruct (negb (geom (simplex x d))); [discriminate|].
  pose proof (eval_pts_spec user (simplex x d) cl [] [] []) as SP.
  destruct (eval_pts user (simplex x d) cl [] [] []) as [c1 X1 f1 ce1|c1 ce1|c1|] eqn:Ev; [| |discriminate|discriminate].
  2:{ destruct (overwrite_ce ce1); [|discriminate].
      destruct (qltb (shrink * d) (stall * nrm x)); [discriminate|].
      exact (IH x (shrink * d) c1 cl' X fX ceX d' slk Nx H Me Sl). }
  destruct SP as (-> & -> & _). cbn [app] in *.
  apply eval_pts_done in Ev.
  2:{ split; [intros c []|intros c c' []]. }
  2:{ intros c v []. }
  destruct Ev as (CO & FU & fs & -> & Lf & V). cbn [app] in *.
  destruct (overwrite_ce ce1) as [ce2|] eqn:O; [|discriminate].
  assert (K : cl' = cl ++ simplex x d /\ X = simplex x d /\ fX = fs /\ ceX = ce2 /\
              (ce2 = [] \/ length ce2 = length (simplex x d))).
  { destruct ce2 as [|c2 t2].
    - destruct (fit (simplex x d)); [|discriminate]. inversion H; subst. repeat (split; [reflexivity|]). left. reflexivity.
    - destruct (Nat.eqb_spec (length (c2 :: t2)) (length (simplex x d))) as [E2|E2]; [|discriminate].
      destruct (fit (simplex x d)); [|discriminate]. inversion H; subst. repeat (split; [reflexivity|]). right. exact E2. }
  destruct K as (-> & -> & -> & -> & Lce). clear H.
  destruct (overwrite_finite _ _ O) as ((LS & SH) & EQ).
  assert (LX : length (simplex x d) = S (length x)) by apply simplex_is.
  assert (Colne : forall c, In c ce2 -> c <> [] /\ forall c', In c' ce2 -> length c = length c').
  { assert (Old : forall c, In c ce2 -> exists o, In o ce1 /\ length o = length c).
    { intros c I. apply In_nth_error in I. destruct I as (i & Ei).
      destruct (nth_error ce1 i) as [o|] eqn:Eo.
      - exists o. split; [eapply nth_error_In; eassumption|]. symmetry. exact (SH i o c Eo Ei).
      - exfalso. apply nth_error_None in Eo. assert (i < length ce2)%nat by (apply nth_error_Some; congruence). lia. }
    destruct CO as [C1 C2]. intros c I. destruct (Old c I) as (o & Io & Lo). split.
    - intros ->. specialize (C1 o Io). destruct o; [contradiction|discriminate].
    - intros c' I'. destruct (Old c' I') as (o' & Io' & Lo'). rewrite <- Lo, <- Lo'. apply C2; assumption. }
  unfold consistent. split; [rewrite LX; destruct x; [contradiction|cbn [length]; lia]|].
  split; [exact Lf|].
  split.
  { intros Z. rewrite Me in Z. unfold width in Z. destruct ce2 as [|c t]; [split; auto|]. exfalso.
    destruct (Colne c (or_introl eq_refl)) as [N _]. destruct c; [contradiction|discriminate]. }
  split.
  { intros Z. destruct Lce as [->|Lce]; [rewrite Me in Z; contradiction|exact Lce]. }
  split.
  { intros c I. rewrite Me. unfold width. destruct ce2 as [|c0 t]; [destruct I|].
    apply Colne; [exact I|left; reflexivity]. }
  split.
  { intros i y f Ei Ef. destruct (V i y f Ei Ef) as (v & c & V1 & V2 & V3 & V4).
    exists (length cl + i)%nat, v, c. split.
    - rewrite nth_error_app2 by lia. replace (length cl + i - length cl)%nat with i by lia. exact Ei.
    - split; [|rewrite V4; apply qmin_capped]. unfold answered. rewrite EU. auto. }
  intros T. assert (ce2 = ce1) as ->.
  { apply overwrite_tame; [exact O|]. intros c v Ic Iv. destruct (FU c v Ic Iv) as (k & y & c0 & w & E1 & E2 & ->).
    rewrite <- EU in E1. destruct (T k y c0 w E1 E2) as (q & -> & Nq). cbn [clampx]. rewrite clamp_not_huge; exact Nq. }
  intros c v Ic Iv. destruct (FU c v Ic Iv) as (k & y & c0 & w & E1 & E2 & ->).
  rewrite <- EU in E1. destruct (T k y c0 w E1 E2) as (q & -> & Nq). cbn [clampx]. rewrite clamp_not_huge; exact Nq.
Qed.

Lemma adjust_length : forall int x lb ub j d x' d' fx,
  (length x <= length lb)%nat -> (length x <= length ub)%nat ->
  adjust int lb ub x j d = Some (x', d', fx) -> length x' = length x.
Proof.
  intros int. induction x as [|a r IH]; intros lb ub j d x' d' fx L U H.
  { cbn [adjust] in H. injection H as <- <- <-. reflexivity. }
  destruct lb as [|l lr]; [simpl in L; lia|]. destruct ub as [|u ur]; [simpl in U; lia|].
  cbn [length] in L, U. cbn [adjust] in H.
  destruct (match l, u with Some lv, Some uv => qltb uv lv | _, _ => false end); [discriminate|].
  destruct (match l, u with Some lv, Some uv => Some (uv - lv) | _, _ => None end) as [w|].
  - destruct (qltb w (d + d)).
    + destruct (qeqb w 0).
      * destruct (adjust int lr ur r (S j) d) as [[[x1 d2] f1]|] eqn:A; [|discriminate].
        injection H as <- <- <-. cbn [length]. f_equal. eapply (IH lr ur); [lia|lia|exact A].
      * destruct (adjust int lr ur r (S j) ((1 # 2) * w)) as [[[x1 d2] f1]|] eqn:A; [|discriminate].
        injection H as <- <- <-. cbn [length]. f_equal. eapply (IH lr ur); [lia|lia|exact A].
    + destruct (adjust int lr ur r (S j) d) as [[[x1 d2] f1]|] eqn:A; [|discriminate].
      injection H as <- <- <-. cbn [length]. f_equal. eapply (IH lr ur); [lia|lia|exact A].
  - destruct (adjust int lr ur r (S j) d) as [[[x1 d2] f1]|] eqn:A; [|discriminate].
    injection H as <- <- <-. cbn [length]. f_equal. eapply (IH lr ur); [lia|lia|exact A].
Qed.

Lemma prelim_begins (E : env (list Q)) fuel lb ub x0 cl X fX ceX d slk s0 :
  (forall k y, e_user E k y = user k y) ->
  (length x0 <= length lb)%nat -> (length x0 <= length ub)%nat ->
  prelim' fuel false lb ub x0 = Some (PReady cl X fX ceX d) ->
  e_me E = width ceX -> (ceX = [] -> slk = []) ->
  start E cl X fX ceX slk d = Some s0 ->
  begins E (length cl) d s0.
Proof.
  intros EU L U H Me Sl St. unfold prelim in H. destruct x0 as [|a t] eqn:E0; [discriminate|]. rewrite <- E0 in *.
  assert (Nz : (0 < length x0)%nat) by (rewrite E0; cbn [length]; lia). clear E0 a t.
  destruct (adjust false lb ub x0 0 delta0) as [[[x d1] fx]|] eqn:A; [|discriminate].
  assert (PD : 0 < delta0) by reflexivity.
  destruct (adjust_ok _ _ _ _ _ _ _ _ L U PD A) as (A1 & A2 & A3 & _).
  assert (R : rounds' fuel x d1 [] = Some (PReady cl X fX ceX d)).
  { destruct fx as [|f0 fr]; [exact H|].
    destruct (length (f0 :: fr) =? length x0)%nat; [discriminate|].
    destruct (fixed_eval _ _ _ _); [exact H|discriminate]. }
  assert (Nx : x <> []) by (intros ->; simpl in A3; lia).
  exists cl, X, fX, ceX, slk. split; [exact (handed_over E EU fuel x d1 [] cl X fX ceX d slk Nx R Me Sl)|].
  split; [reflexivity|]. split; [|exact St].
  pose proof (rounds_probing user nrm geom fit fuel x d1 [] _ R) as (new & _ & Pr).
  apply (probing_points _ _ _ _ _ _ _ Pr A1).
Qed.
End Whole.

(** ** Integer start points *)

Lemma trunc_int z : trunc (inject_Z z) = inject_Z z.
Proof. unfold trunc. destruct (qleb 0 (inject_Z z)); [rewrite Qfloor_Z|rewrite Qceiling_Z]; reflexivity. Qed.

Lemma move_int l u x : move true (zb l) (zb u) x 1 = move false (zb l) (zb u) x 1.
Proof.
  unfold move, assigned.
  assert (A : forall z, trunc (inject_Z z + 1) = inject_Z z + 1).
  { intros z. change (inject_Z z + 1) with (inject_Z (z * 1 + 1 * 1)). apply trunc_int. }
  assert (B : forall z, trunc (inject_Z z - 1) = inject_Z z - 1).
  { intros z. change (inject_Z z - 1) with (inject_Z (z * 1 + (- 1) * 1)). apply trunc_int. }
  destruct l as [l|], u as [u|]; cbn [zb option_map]; rewrite ?A, ?B; reflexivity.
Qed.

Lemma adjust_int : forall x zl zu j,
  (forall i a b, nth_error zl i = Some (Some a) -> nth_error zu i = Some (Some b) -> a = b \/ (a + 2 <= b)%Z) ->
  adjust true (map zb zl) (map zb zu) x j 1 = adjust false (map zb zl) (map zb zu) x j 1.
Proof.
  induction x as [|a r IH]; intros zl zu j W; [reflexivity|].
  destruct zl as [|l zl]; [reflexivity|]. destruct zu as [|u zu]; [destruct l; reflexivity|].
  cbn [map adjust].
  rewrite (IH zl zu (S j)); [|intros i p q; apply (W (S i))].
  rewrite (move_int l u a).
  destruct l as [l|], u as [u|]; cbn [zb option_map]; try reflexivity.
  destruct (W 0%nat l u eq_refl eq_refl) as [->|G].
  - destruct (qltb (inject_Z u) (inject_Z u)); [reflexivity|].
    destruct (qltb (inject_Z u - inject_Z u) (1 + 1)); [|reflexivity].
    destruct (qeqb (inject_Z u - inject_Z u) 0) eqn:E; [reflexivity|].
    apply qeqb_false in E. exfalso. apply E. lra.
  - destruct (qltb (inject_Z u) (inject_Z l)); [reflexivity|].
    destruct (qltb (inject_Z u - inject_Z l) (1 + 1)) eqn:E; [|reflexivity]. qb. exfalso.
    assert (inject_Z (l + 2) <= inject_Z u) by (rewrite <- Zle_Qle; exact G).
    rewrite inject_Z_plus in H. change (inject_Z 2) with 2 in H. lra.
Qed.

Lemma prelim_int user nrm geom fit fuel zl zu x0 :
  (forall i a b, nth_error zl i = Some (Some a) -> nth_error zu i = Some (Some b) -> a = b \/ (a + 2 <= b)%Z) ->
  prelim user nrm geom fit fuel true (map zb zl) (map zb zu) x0 =
  prelim user nrm geom fit fuel false (map zb zl) (map zb zu) x0.
Proof.
  intros W. unfold prelim. destruct x0 as [|a t]; [reflexivity|].
  change delta0 with 1. rewrite (adjust_int (a :: t) zl zu 0 W). reflexivity.
Qed.

(** ** Shapes with fixed variables *)
Lemma shapes nfix nfree s : (1 <= nfix)%nat -> (1 <= nfree)%nat ->
  yfull_shape nfix nfree = Some s <-> nfix = 1%nat /\ nfree = 1%nat /\ s = (2%nat, 1%nat).
Proof.
  intros A B.
  assert (N : forall a k c, (2 <= k)%nat -> (k < a)%nat -> bcast (a, c) (k, 1%nat) = None).
  { intros a k c P Q. unfold bcast, bcast1. cbn [fst snd].
    rewrite (proj2 (Nat.eqb_neq a k)), (proj2 (Nat.eqb_neq a 1)), (proj2 (Nat.eqb_neq k 1)) by lia. reflexivity. }
  unfold yfull_shape.
  destruct (le_lt_dec 2 nfix) as [P|P].
  { rewrite (N _ nfix _ P) by lia. split; [discriminate|lia]. }
  destruct (le_lt_dec 2 nfree) as [R|R].
  { rewrite (N _ nfree _ R) by lia. split; [destruct (bcast _ _); discriminate|lia]. }
  assert (nfix = 1%nat) as -> by lia. assert (nfree = 1%nat) as -> by lia.
  change (Some (2%nat, 1%nat) = Some s <-> 1%nat = 1%nat /\ 1%nat = 1%nat /\ s = (2%nat, 1%nat)).
  split; [intros E; injection E as <-; auto|intros (_ & _ & ->); reflexivity].
Qed.
