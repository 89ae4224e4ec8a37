(** Proofs about the constraint values of problem 1000. *)
From Coq Require Import List Arith ZArith QArith Bool Lia Lqa.
Import ListNotations.
From Verif Require Import QB Main_Model Opt_Model Drv_Model Drv_Spec Drv_Proofs Usr_Model Cut_Model Cut_Spec.
Local Open Scope Q_scope.

Lemma q7_is : q7 = 10000000 # 1. Proof. reflexivity. Qed.
Lemma e20_big : 10000000 # 1 < e20. Proof. reflexivity. Qed.
Local Opaque e20 q7.

Lemma split_app rows : forall ce ci, split_rows rows ce ci =
  (ce ++ fst (split_rows rows [] []), ci ++ snd (split_rows rows [] [])).
Proof.
  induction rows as [|r t IH]; intros ce ci; cbn [split_rows fst snd]; [rewrite !app_nil_r; reflexivity|].
  destruct (qeqb (lo r) (up r)).
  - rewrite (IH (ce ++ _)), (IH ([] ++ [val r - lo r])). cbn [fst snd app]. rewrite <- app_assoc. reflexivity.
  - rewrite (IH ce), (IH [] ([] ++ ineq_values r)). cbn [fst snd app]. rewrite <- app_assoc. reflexivity.
Qed.

Lemma eq_len rows : length (fst (split_rows rows [] [])) = equalities rows.
Proof.
  induction rows as [|r t IH]; cbn [split_rows equalities]; [reflexivity|]. unfold qeqb. destruct (Qeq_bool (lo r) (up r)).
  - rewrite split_app. cbn [fst app]. cbn [length]. rewrite IH. reflexivity.
  - rewrite split_app. cbn [fst app]. rewrite IH. reflexivity.
Qed.

(** the meaning and the number of the values of one inequality *)
Lemma ineq_ok r : (forall q, In q (ineq_values r) -> 0 <= q) <->
  (- (10000000 # 1) < lo r -> lo r <= val r) /\ (up r < 10000000 # 1 -> val r <= up r).
Proof.
  pose proof e20_big as B. unfold ineq_values. rewrite q7_is.
  destruct (qeqb (lo r) (- e20)) eqn:A1, (qeqb (up r) 0) eqn:A2, (qltb (up r) (10000000 # 1)) eqn:A3,
    (qeqb (lo r) 0) eqn:A4, (qeqb (up r) e20) eqn:A5, (qltb (- (10000000 # 1)) (lo r)) eqn:A6; cbn [andb app]; qb;
  try (exfalso; lra);
  (split; [intros H; try pose proof (H _ (or_introl eq_refl)) as H1; try pose proof (H _ (or_intror (or_introl eq_refl))) as H2; split; intros; lra
          |intros [H1 H2] q I; repeat (destruct I as [<-|I]); try contradiction I;
           try (assert (- (10000000 # 1) < lo r) as G1 by lra; specialize (H1 G1)); try (assert (up r < 10000000 # 1) as G2 by lra; specialize (H2 G2)); lra]).
Qed.

Lemma ineq_len r : length (ineq_values r) =
  ((if qltb (- (10000000 # 1)) (lo r) then 1 else 0) + (if qltb (up r) (10000000 # 1) then 1 else 0))%nat.
Proof.
  pose proof e20_big as B. unfold ineq_values. rewrite q7_is.
  destruct (qeqb (lo r) (- e20)) eqn:A1, (qeqb (up r) 0) eqn:A2, (qltb (up r) (10000000 # 1)) eqn:A3,
    (qeqb (lo r) 0) eqn:A4, (qeqb (up r) e20) eqn:A5, (qltb (- (10000000 # 1)) (lo r)) eqn:A6; cbn [andb app length]; qb; try reflexivity;
  exfalso; lra.
Qed.

Lemma rows_ok rows :
  (forall q, In q (fst (split_rows rows [] [])) -> q == 0) /\ (forall q, In q (snd (split_rows rows [] [])) -> 0 <= q) <->
  Forall holds rows.
Proof.
  induction rows as [|r t IH]; cbn [split_rows].
  - split; [constructor|]. intros _. split; intros q [].
  - rewrite Forall_cons_iff, <- IH. unfold holds, qeqb. destruct (Qeq_bool (lo r) (up r)) eqn:E.
    + rewrite split_app. cbn [fst snd app In]. split.
      * intros [H1 H2]. split; [|split; [intros q I; apply H1; right; exact I|exact H2]]. specialize (H1 _ (or_introl eq_refl)). lra.
      * intros [H [H1 H2]]. split; [|exact H2]. intros q [<-|I]; [lra|apply H1, I].
    + rewrite split_app. cbn [fst snd app]. rewrite <- ineq_ok. split.
      * intros [H1 H2]. split; [|split; [exact H1|]]; intros q I; apply H2, in_or_app; [left|right]; exact I.
      * intros [H [H1 H2]]. split; [exact H1|]. intros q I. apply in_app_or in I. destruct I; [apply H|apply H2]; assumption.
Qed.

Lemma meaning me rows : me = equalities rows -> (me < length rows)%nat ->
  (accepted me (fst (c_values me rows)) <-> Forall holds rows).
Proof.
  intros E L. unfold c_values. destruct (Nat.ltb_spec 0 (length rows - me)); [|lia].
  rewrite <- rows_ok. destruct (split_rows rows [] []) as [ce ci] eqn:S. cbn [fst snd]. unfold accepted.
  pose proof (eq_len rows) as N. rewrite S in N. cbn [fst] in N. rewrite <- E in N. rewrite <- N.
  rewrite firstn_app, skipn_app, Nat.sub_diag, firstn_all, skipn_all. cbn [firstn skipn app]. rewrite app_nil_r. reflexivity.
Qed.

Lemma order me rows : (me < length rows)%nat ->
  firstn (equalities rows) (fst (c_values me rows)) = map (fun r => val r - lo r) (filter (fun r => Qeq_bool (lo r) (up r)) rows).
Proof.
  intros L. unfold c_values. destruct (Nat.ltb_spec 0 (length rows - me)); [|lia].
  destruct (split_rows rows [] []) as [ce ci] eqn:S. cbn [fst].
  pose proof (eq_len rows) as N. rewrite S in N. cbn [fst] in N. rewrite <- N.
  rewrite firstn_app, Nat.sub_diag, firstn_all. cbn [firstn]. rewrite app_nil_r.
  change ce with (fst (ce, ci)). rewrite <- S. clear. induction rows as [|r t IH]; [reflexivity|].
  cbn [split_rows filter]. unfold qeqb. destruct (Qeq_bool (lo r) (up r)).
  - rewrite split_app. cbn [fst app map]. rewrite IH. reflexivity.
  - rewrite split_app. cbn [fst app]. exact IH.
Qed.

(** the loop of the driver over the rows *)
Definition twob (r : row) : bool := qltb (lo r) (up r) && (qltb (-10000000 # 1) (lo r) && qltb (up r) (10000000 # 1)).
Fixpoint twos (rows : list row) : nat := match rows with [] => O | r :: t => ((if twob r then 1 else 0) + twos t)%nat end.

Lemma count_rows rows : forall pre mi,
  count_loop (map (fun r => Fin (lo r)) (pre ++ rows)) (map (fun r => Fin (up r)) (pre ++ rows)) (length rows) (length pre) mi
  = Some (mi + twos rows)%nat.
Proof.
  induction rows as [|r t IH]; intros pre mi; [cbn; f_equal; lia|].
  cbn [length count_loop twos].
  assert (E : forall f : row -> xQ, nth_error (map f (pre ++ r :: t)) (length pre) = Some (f r)).
  { intros f. rewrite map_app, nth_error_app2 by (rewrite map_length; lia). rewrite map_length, Nat.sub_diag. reflexivity. }
  rewrite (E (fun r => Fin (lo r))), (E (fun r => Fin (up r))).
  change (pre ++ r :: t) with (pre ++ [r] ++ t). rewrite app_assoc.
  replace (S (length pre)) with (length (pre ++ [r])) by (rewrite app_length; cbn; lia).
  rewrite IH. f_equal. unfold twob. cbn [xlt me7 e7].
  destruct (qltb (lo r) (up r)); cbn [andb]; [|lia].
  change (-10000000 # 1) with (inject_Z (-10000000)). change (10000000 # 1) with (inject_Z 10000000). destruct (_ && _); lia.
Qed.

Lemma ci_len rows : (forall r, In r rows -> lo r <= up r) ->
  (length (snd (split_rows rows [] [])) + unbounded rows + equalities rows = length rows + twos rows)%nat.
Proof.
  induction rows as [|r t IH]; intros O; [reflexivity|]. cbn [split_rows unbounded equalities twos length].
  specialize (IH (fun r I => O r (or_intror I))). specialize (O r (or_introl eq_refl)).
  unfold twob. fold (qeqb (lo r) (up r)). destruct (qeqb (lo r) (up r)) eqn:E.
  - rewrite split_app. cbn [snd app]. qb. assert (F : qltb (lo r) (up r) = false) by (qb; lra). rewrite F. cbn [andb]. lia.
  - rewrite split_app. cbn [snd app]. rewrite app_length, ineq_len. qb.
    assert (F : qltb (lo r) (up r) = true). { qb. apply Qle_lteq in O. destruct O as [O|O]; [exact O|contradiction]. }
    rewrite F. cbn [andb]. change (-10000000 # 1) with (- (10000000 # 1)).
    unfold qltb. destruct (Qle_bool (lo r) (- (10000000 # 1))) eqn:A, (Qle_bool (10000000 # 1) (up r)) eqn:B; cbn [negb andb]; lia.
Qed.

Lemma count me rows : me = equalities rows -> (me < length rows)%nat -> (forall r, In r rows -> lo r <= up r) ->
  exists k, slack_count me (length rows - me) (Some (map (fun r => Fin (lo r)) rows)) (Some (map (fun r => Fin (up r)) rows)) = Some k /\
  (length (fst (c_values me rows)) + unbounded rows = me + k)%nat.
Proof.
  intros E L O. exists (length rows - me + twos rows)%nat. split.
  - unfold slack_count. replace (length rows - me + me)%nat with (length rows) by lia. apply (count_rows rows [] _).
  - unfold c_values. destruct (Nat.ltb_spec 0 (length rows - me)); [|lia].
    pose proof (ci_len rows O) as C. pose proof (eq_len rows) as N. destruct (split_rows rows [] []) as [ce ci]. cbn [fst snd] in *.
    rewrite app_length. lia.
Qed.

Lemma only_equalities me rows : (length rows <= me)%nat -> fst (c_values me rows) = map val rows.
Proof. intros L. unfold c_values. destruct (Nat.ltb_spec 0 (length rows - me)); [lia|reflexivity]. Qed.

Lemma driver me obj con x : r_msg (func (user_1000 me obj con) x) = true /\
  r_f (func (user_1000 me obj con) x) = FVal PInf /\ r_c (func (user_1000 me obj con) x) = CVal [].
Proof. repeat split. Qed.

Lemma ineq_distances r : Forall2 Qeq (ineq_values r) (distances r).
Proof.
  pose proof e20_big as B. unfold ineq_values, distances. rewrite q7_is. unfold qltb.
  fold (qleb (up r) 0). destruct (Qle_bool (lo r) (- (10000000 # 1))) eqn:A6, (Qle_bool (10000000 # 1) (up r)) eqn:A3,
    (qeqb (lo r) (- e20)) eqn:A1, (qeqb (up r) 0) eqn:A2, (qeqb (lo r) 0) eqn:A4, (qeqb (up r) e20) eqn:A5; cbn [negb andb app];
  fold (qleb (lo r) (- (10000000 # 1))) in A6; fold (qleb (10000000 # 1) (up r)) in A3; qb; try (exfalso; lra);
  repeat constructor; lra.
Qed.

Lemma ineq_order me rows : (me < length rows)%nat ->
  Forall2 Qeq (skipn (equalities rows) (fst (c_values me rows)))
    (flat_map distances (filter (fun r => negb (Qeq_bool (lo r) (up r))) rows)).
Proof.
  intros L. unfold c_values. destruct (Nat.ltb_spec 0 (length rows - me)); [|lia].
  destruct (split_rows rows [] []) as [ce ci] eqn:S. cbn [fst].
  pose proof (eq_len rows) as N. rewrite S in N. cbn [fst] in N. rewrite <- N.
  rewrite skipn_app, Nat.sub_diag, skipn_all. cbn [skipn app].
  change ci with (snd (ce, ci)). rewrite <- S. clear. induction rows as [|r t IH]; [constructor|].
  cbn [split_rows filter]. unfold qeqb. destruct (Qeq_bool (lo r) (up r)); cbn [negb].
  - rewrite split_app. cbn [snd app]. exact IH.
  - rewrite split_app. cbn [snd app flat_map]. apply Forall2_app; [apply ineq_distances|exact IH].
Qed.

Lemma qsum_fold l : qsum l = fold_right Qplus 0 l.
Proof. induction l as [|a l IH]; cbn; [reflexivity|rewrite IH; reflexivity]. Qed.

Lemma warning me rows : snd (c_values me rows) = true <->
  (length rows <= me)%nat /\
  (0 < fold_right Qplus 0 (map lo rows) \/ 0 < fold_right Qplus 0 (map up rows)).
Proof.
  unfold c_values. destruct (0 <? length rows - me)%nat eqn:L.
  - apply Nat.ltb_lt in L. destruct (split_rows rows [] []) as (ce, ci). cbn. split; [discriminate|lia].
  - apply Nat.ltb_ge in L. cbn [snd]. rewrite orb_true_iff, !qltb_iff, !qsum_fold. intuition lia.
Qed.
