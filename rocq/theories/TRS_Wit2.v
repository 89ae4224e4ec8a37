(** C56: three passes after which a slack is outside its bounds. *)
From Coq Require Import Reals List Arith Lra Lia Bool.
From Verif Require Import RVec RBool Tri ProjGrad_Spec TR_Model TR_Spec TR_Proofs TR_Wit.
Import ListNotations.
Open Scope R_scope.

Definition lom : nat -> xR := fun _ => Fin (-1).
Definition hip : nat -> xR := fun _ => Fin 1.
(** all directions first, then those with the first entry zero *)
Definition nullS (rows : list vec) : option (nat * mat) :=
  if (length rows =? 1)%nat then Some (3%nat, idm) else Some (2%nat, fun i j => if (i =? S j)%nat then 1 else 0).
Definition u3 : vec := fun i => match i with 0%nat => 2 | 2%nat => 4 | _ => 0 end.
Definition u2 : vec := fun i => match i with 0%nat => 2 | 1%nat => -3 / 2 | _ => 0 end.
Definition cgS (k : nat) (_ : mat) (_ : vec) (D : R) : option (vec * bool) :=
  Some (if Rleb 5 D then match k with 3%nat => u3 | 2%nat => u2 | _ => vzero end else vzero, false).

Lemma nullS_orth : null_orth 3 nullS.
Proof.
  intros rows k Z E. unfold nullS in E. destruct (length rows =? 1)%nat; injection E as <- <-; intros a b Ha Hb.
  - destruct a as [|[|[|a]]]; [| | |lia]; destruct b as [|[|[|b]]]; try lia; unfold idm; cbn; ring.
  - destruct a as [|[|a]]; [| |lia]; destruct b as [|[|b]]; try lia; unfold idm; cbn; ring.
Qed.
Lemma cgS_short : cg_short cgS.
Proof.
  intros k A b D u a Z E. injection E as <- _. destruct (Rleb_spec 5 D) as [L|L]; [|rewrite norm_vzero; exact Z].
  apply Rle_trans with 5; [|exact L].
  assert (S25 : forall v m, dot m v v <= 25 -> norm m v <= 5).
  { intros v m H. unfold norm. rewrite <- (sqrt_square 5) by lra. apply sqrt_le_1_alt. lra. }
  destruct k as [|[|[|[|k]]]]; try (rewrite norm_vzero; lra); apply S25; unfold dot, u2, u3; cbn; lra.
Qed.

Lemma d_big d : 1 <= d \/ d <= -1 -> divisor d = d.
Proof.
  intros H. unfold divisor, small. destruct H.
  - rewrite (proj2 (Rltb_false d _)) by lra. reflexivity.
  - rewrite (proj2 (Rltb_false _ d)) by lra. rewrite andb_false_r. reflexivity.
Qed.
Lemma d_zero : divisor 0 = / 10 ^ 15.
Proof. unfold divisor, small. rewrite !(proj2 (Rltb_true _ _)) by lra. reflexivity. Qed.

Definition part (y t : R) : list xR :=
  (if Rltb 0 (divisor t) then [xdiv (xsub (Fin 1) y) (divisor t)] else []) ++
  (if Rltb 0 (divisor (- t)) then [xdiv (xsub (xopp (Fin (-1))) (- y)) (divisor (- t))] else []).
Lemma part_pos y t : 1 <= t -> part y t = [Fin ((1 - y) / t)].
Proof.
  intros H. unfold part. rewrite !d_big by (left; lra) || rewrite d_big by (left; lra). rewrite (d_big (- t)) by (right; lra).
  rewrite (proj2 (Rltb_true 0 t)), (proj2 (Rltb_false 0 (- t))) by lra. reflexivity.
Qed.
Lemma part_neg y t : t <= -1 -> part y t = [Fin ((1 + y) / (- t))].
Proof.
  intros H. unfold part. rewrite (d_big t) by (right; lra). rewrite (d_big (- t)) by (left; lra).
  rewrite (proj2 (Rltb_true 0 (- t))), (proj2 (Rltb_false 0 t)) by lra. cbn. do 3 f_equal. ring.
Qed.
Lemma part_zero y : part y 0 = [Fin ((1 - y) / / 10 ^ 15); Fin ((1 + y) / / 10 ^ 15)].
Proof.
  unfold part. rewrite Ropp_0, d_zero. rewrite (proj2 (Rltb_true 0 (/ 10 ^ 15))) by lra. cbn [app xdiv xsub xopp].
  replace (- -1 - - y) with (1 + y) by ring. reflexivity.
Qed.
Lemma big a : / 2 <= a -> 1 <= a / / 10 ^ 15.
Proof.
  intros H. apply Rmult_le_reg_r with (/ 10 ^ 15); [lra|]. unfold Rdiv. rewrite Rmult_assoc, Rinv_l by lra. lra.
Qed.
Lemma ratio3 y t : minratio 2 1 lom hip y t =
  fold_right xmin PInf (part (y 0%nat) (t 0%nat) ++ part (y 1%nat) (t 1%nat) ++ part (y 2%nat) (t 2%nat) ++ []).
Proof. reflexivity. Qed.

Definition loopS := tr_loop (guard vzero) (fun A => A) nullS cgS multz 2 1 lom hip (/ 10 ^ 8) zmat [0] vzero.

Lemma out_case : exists o, solve_con (guard vzero) (fun A => A) nullS cgS multz 2 1 lom hip (/ 10 ^ 8) zmat [0] [vzero] vzero 100 vzero 8 gneg vzero = TrOut o /\
  tr_passes o = 3%nat /\ tr_sl o 0%nat = - (5 / 4).
Proof.
  pose proof e16 as E16. pose proof e14 as E14. pose proof e8 as E8. pose proof e7 as E7. pose proof e15' as E15.
  assert (E5 : 0 < / 10 ^ 5 < / 100).
  { split; [apply Rinv_0_lt_compat, pow_lt; lra|]. apply Rinv_lt_contravar; [apply Rmult_lt_0_compat; [lra|apply pow_lt; lra]|]. replace 100 with (10 ^ 2) by ring. apply Rlt_pow; [lra|lia]. }
  unfold solve_con. set (s := mkst _ _ _ _ _ _ _ _ _ _).
  assert (AC : active0 2 1 lom hip [0] [vzero] vzero vzero gneg vzero = []).
  { assert (C1 : forall i, close (/ 10 ^ 5) (vzero i) (lom i) = false).
    { intros i. apply Rltb_false. unfold vzero. rewrite Rabs_pos_eq; lra. }
    assert (C2 : forall i, close (/ 10 ^ 5) (vzero i) (hip i) = false).
    { intros i. apply Rltb_false. unfold vzero. rewrite Rabs_left; lra. }
    unfold active0. cbn [seq flat_map]. rewrite !C1, !C2, !andb_false_r. reflexivity. }
  assert (CON : s_con s = [0 - 0 ^ 2]) by (unfold s; rewrite AC; reflexivity).
  assert (LG : length (s_gcon s) = 1%nat) by (unfold s; rewrite AC; reflexivity).
  assert (R1 : restoration (guard vzero) (fun A => A) 2 1 lom hip vzero 1 s = Some (vzero, 0, false)).
  { unfold restoration. cbn [Nat.eqb andb].
    assert (NG : norm (dim 2 1) (rows_t (s_con s) (s_gcon s)) = 0).
    { apply norm_zero. intros j _. rewrite CON. unfold rows_t. destruct (s_gcon s) as [|a [|b l]]; try discriminate LG. cbn. unfold vzero. ring. }
    rewrite NG, (proj2 (Rltb_false _ _)) by lra. reflexivity. }
  assert (T1 : exists t, tangent nullS cgS 2 1 zmat s vzero = Some (t, false) /\ t 0%nat = 2 /\ t 1%nat = 0 /\ t 2%nat = 4).
  { unfold tangent. rewrite CON. cbn [length Nat.ltb Nat.leb dim Nat.add]. unfold nullS. rewrite LG. cbn [Nat.eqb]. unfold cgS.
    change (s_del s) with 8. rewrite (proj2 (Rleb_true 5 8)) by lra. eexists. split; [reflexivity|]. unfold mv, idm, u3. cbn. repeat split; ring. }
  destruct T1 as (t & T1 & T10 & T11 & T12).
  assert (SC : scan lom hip (/ 10 ^ 8) 2 0 (vadd (vadd (s_x s) vzero) t) = (Some 0%nat, [])).
  { change (s_x s) with vzero. cbn [scan]. unfold under, close, over, lom, hip, vadd. rewrite T10. unfold vzero.
    rewrite (Rabs_pos_eq (0 + 0 + 2 - -1)) by lra.
    rewrite !(proj2 (Rltb_false (0 + 0 + 2 - -1) _)) by lra. rewrite (proj2 (Rltb_true _ (0 + 0 + 2 - 1))) by lra. reflexivity. }
  assert (MR : minratio 2 1 lom hip (restored 2 vzero s vzero) t = Fin (/ 4)).
  { rewrite ratio3, T10, T11, T12. rewrite (part_pos _ 2), (part_pos _ 4), part_zero by lra.
    unfold restored, join, vadd, slpart. change (s_x s) with vzero. cbn [Nat.ltb Nat.leb]. unfold vzero. cbn [app fold_right xmin].
    pose proof (big (1 - (0 + 0)) ltac:(lra)) as B1. pose proof (big (1 + (0 + 0)) ltac:(lra)) as B2.
    f_equal. replace ((1 - (0 + 0)) / 4) with (/ 4) by field. replace ((1 - (0 + 0)) / 2) with (/ 2) by field.
    rewrite (Rmin_right _ (/ 4)), (Rmin_right _ (/ 4)), (Rmin_right _ (/ 4)) by lra. reflexivity. }
  assert (P1 : exists s3, (forall f, loopS (S f) 1 s = loopS f 2 s3) /\ s_x s3 0%nat = / 2 /\ s_x s3 1%nat = 0 /\ length (s_con s3) = 2%nat /\
    length (s_gcon s3) = 2%nat /\ s_fix s3 = [0%nat] /\ s_del s3 = 31 / 4 /\ s_slnew s3 0%nat = 1).
  { unfold loopS. cbn [tr_loop]. rewrite R1, T1, SC.
    match goal with |- context [choose _ _ _ _ ?s1 _ _ _ _] => set (s2 := s1) end.
    assert (CH : choose multz 2 [0] 1 s2 (vadd (vadd (s_x s) vzero) t) (vadd vzero t) true [] = ChGo (s_lm s2) (s_fix s2) (s_con s2) (s_gcon s2)).
    { unfold choose. rewrite (norm2_first 2 (vadd vzero t)); [|lra|unfold vadd, vzero; lra|unfold vadd, vzero; lra].
      rewrite (proj2 (Rleb_false _ _)) by lra. reflexivity. }
    rewrite CH. clear CH.
    match goal with |- context [shorten _ _ _ _ _ _ _ _ ?s1 _ _ ?q] => set (s2' := s1); set (sln := q) end.
    unfold shorten. change (join 2 (vadd (s_x s2') vzero) (vadd vzero (slpart 2 vzero))) with (restored 2 vzero s vzero). rewrite MR.
    rewrite (proj2 (Rltb_false _ _)) by lra. eexists. split; [reflexivity|].
    cbn [s_x s_con s_gcon s_fix s_del s_slnew s_moves]. unfold s2', s2. cbn [s_x s_con s_gcon s_fix s_del s_slnew s_moves].
    change (s_x s) with vzero. change (s_fix s) with (@nil nat). change (s_del s) with 8. cbn [app].
    split; [unfold vadd, vscal, vzero; lra|]. split; [unfold vadd, vscal, vzero; lra|].
    split; [rewrite CON; reflexivity|]. split; [rewrite map_length, combine_length, seq_length, app_length, LG; reflexivity|].
    split; [reflexivity|]. split; [rewrite (norm2_first (/ 2)); [lra|lra|unfold vadd, vscal, vzero; lra|unfold vadd, vscal, vzero; lra]|].
    cbn [Nat.eqb]. unfold vadd, slpart, vscal, vzero. cbn [Nat.add]. rewrite T12. lra. }
  destruct P1 as (s3 & P1 & A0 & A1 & A2 & A3 & A4 & A5 & A6).
  change 100%nat with (S (S (S 97))). generalize 97%nat as f1. intros f1. unfold loopS in P1. rewrite P1. clear P1 MR SC T10 T11 T12 T1 R1 LG CON AC. clearbody s. clear t s.
  assert (T2 : exists t, tangent nullS cgS 2 1 zmat s3 vzero = Some (t, false) /\ t 0%nat = 0 /\ t 1%nat = 2 /\ t 2%nat = -3 / 2).
  { unfold tangent. rewrite A2. cbn [Nat.ltb Nat.leb dim Nat.add]. unfold nullS. rewrite A3. cbn [Nat.eqb]. unfold cgS. rewrite A5.
    rewrite (proj2 (Rleb_true 5 (31 / 4))) by lra. eexists. split; [reflexivity|]. unfold mv, u2. cbn. repeat split; field. }
  destruct T2 as (t & T & T0 & T1 & T2).
  assert (R : restoration (guard vzero) (fun A => A) 2 1 lom hip vzero 2 s3 = Some (vzero, s_rpred s3, false)) by (apply rest_later; lia).
  assert (SC : exists a, scan lom hip (/ 10 ^ 8) 2 0 (vadd (vadd (s_x s3) vzero) t) = (Some 1%nat, a)).
  { cbn [scan]. unfold under, close, over, lom, hip, vadd. rewrite T0, T1, A0, A1. unfold vzero.
    rewrite (Rabs_pos_eq (/ 2 + 0 + 0 - -1)), (Rabs_left (/ 2 + 0 + 0 - 1)), (Rabs_pos_eq (0 + 0 + 2 - -1)) by lra.
    rewrite !(proj2 (Rltb_false (/ 2 + 0 + 0 - -1) _)) by lra. rewrite (proj2 (Rltb_false _ (/ 2 + 0 + 0 - 1))) by lra.
    rewrite (proj2 (Rltb_false (- (/ 2 + 0 + 0 - 1)) _)) by lra.
    rewrite !(proj2 (Rltb_false (0 + 0 + 2 - -1) _)) by lra. rewrite (proj2 (Rltb_true _ (0 + 0 + 2 - 1))) by lra. eexists. reflexivity. }
  destruct SC as (a2 & SC).
  assert (MR : minratio 2 1 lom hip (restored 2 vzero s3 vzero) t = Fin (/ 2)).
  { rewrite ratio3, T0, T1, T2. rewrite (part_pos _ 2), (part_neg _ (-3 / 2)), part_zero by lra.
    unfold restored, join, vadd, slpart. cbn [Nat.ltb Nat.leb Nat.sub Nat.add]. rewrite A0, A1. unfold vzero. cbn [app fold_right xmin].
    pose proof (big (1 - (/ 2 + 0)) ltac:(lra)) as B1. pose proof (big (1 + (/ 2 + 0)) ltac:(lra)) as B2.
    f_equal. replace ((1 - (0 + 0)) / 2) with (/ 2) by field. replace ((1 + (0 + 0)) / - (-3 / 2)) with (2 / 3) by field.
    rewrite (Rmin_left (/ 2) (2 / 3)) by lra. rewrite (Rmin_right _ (/ 2)), (Rmin_right _ (/ 2)) by lra. reflexivity. }
  assert (P2 : exists s4, (forall f, loopS (S f) 2 s3 = loopS f 3 s4) /\ s_x s4 0%nat = / 2 /\ s_x s4 1%nat = 1 /\ length (s_con s4) = 3%nat /\
    s_fix s4 = [0%nat; 1%nat] /\ 1 <= s_del s4 /\ s_slnew s4 0%nat = - (5 / 4)).
  { unfold loopS. cbn [tr_loop]. rewrite R, T, SC.
    match goal with |- context [choose _ _ _ _ ?s1 _ _ _ _] => set (s2 := s1) end.
    assert (CH : choose multz 2 [0] 2 s2 (vadd (vadd (s_x s3) vzero) t) (vadd vzero t) true a2 = ChGo (s_lm s2) (s_fix s2) (s_con s2) (s_gcon s2)).
    { unfold choose. rewrite (proj2 (Rleb_false _ _)); [reflexivity|].
      pose proof (norm_entry 2 (vadd vzero t) 1 ltac:(lia)) as NE. unfold vadd at 1, vzero at 1 in NE. rewrite T1 in NE. rewrite Rabs_pos_eq in NE by lra. lra. }
    rewrite CH. clear CH.
    match goal with |- context [shorten _ _ _ _ _ _ _ _ ?s1 _ _ ?q] => set (s2' := s1); set (sln := q) end.
    unfold shorten. change (join 2 (vadd (s_x s2') vzero) (vadd vzero (slpart 2 vzero))) with (restored 2 vzero s3 vzero). rewrite MR.
    rewrite (proj2 (Rltb_false _ _)) by lra. eexists. split; [reflexivity|].
    cbn [s_x s_con s_gcon s_fix s_del s_slnew s_moves]. unfold s2', s2. cbn [s_x s_con s_gcon s_fix s_del s_slnew s_moves].
    rewrite A4, A5, app_length, A2. cbn [app length Nat.add].
    split; [unfold vadd, vscal, vzero; lra|]. split; [unfold vadd, vscal, vzero; lra|].
    split; [reflexivity|]. split; [reflexivity|].
    split.
    { assert (N1 : norm 2 (vadd vzero (vscal (/ 2) t)) <= 1).
      { unfold norm. rewrite <- (sqrt_square 1) by lra. apply sqrt_le_1_alt. unfold dot. cbn. unfold vadd, vscal, vzero. rewrite T0, T1. lra. }
      lra. }
    unfold sln, clip, lom, hip. cbn [Nat.eqb rlex xler Nat.add]. unfold vadd, slpart, vscal, vzero. cbn [Nat.add]. rewrite A6, T2.
    rewrite (proj2 (Rleb_true (1 + -3 / 2) 1)) by lra. cbn [negb]. rewrite (proj2 (Rleb_true (-1) (1 + -3 / 2))) by lra. cbn [negb]. lra. }
  clear R T SC MR T0 T1 T2 t A0 A1 A2 A3 A4 A5 A6. destruct P2 as (s4 & P2 & A0 & A1 & A2 & A4 & A5 & A6).
  unfold loopS in P2. rewrite P2. clear P2 s3.
  assert (R : restoration (guard vzero) (fun A => A) 2 1 lom hip vzero 3 s4 = Some (vzero, s_rpred s4, false)) by (apply rest_later; lia).
  assert (T : tangent nullS cgS 2 1 zmat s4 vzero = Some (vzero, false)) by (apply tan_full; rewrite A2; cbn; lia).
  assert (SC : exists a, scan lom hip (/ 10 ^ 8) 2 0 (vadd (vadd (s_x s4) vzero) vzero) = (None, a)).
  { cbn [scan]. unfold under, close, over, lom, hip, vadd. rewrite A0, A1. unfold vzero.
    rewrite (Rabs_pos_eq (/ 2 + 0 + 0 - -1)), (Rabs_left (/ 2 + 0 + 0 - 1)), (Rabs_pos_eq (1 + 0 + 0 - -1)) by lra.
    rewrite !(proj2 (Rltb_false (/ 2 + 0 + 0 - -1) _)) by lra. rewrite (proj2 (Rltb_false _ (/ 2 + 0 + 0 - 1))) by lra.
    rewrite (proj2 (Rltb_false (- (/ 2 + 0 + 0 - 1)) _)) by lra.
    rewrite !(proj2 (Rltb_false (1 + 0 + 0 - -1) _)) by lra. rewrite (proj2 (Rltb_false _ (1 + 0 + 0 - 1))) by lra.
    replace (1 + 0 + 0 - 1) with 0 by ring. rewrite Rabs_R0, (proj2 (Rltb_true 0 _)) by lra. eexists. reflexivity. }
  destruct SC as (a3 & SC).
  cbn [tr_loop]. rewrite R, T, SC.
  match goal with |- context [choose _ _ _ _ ?s1 _ _ _ _] => set (s2 := s1) end.
  assert (CH : choose multz 2 [0] 3 s2 (vadd (vadd (s_x s4) vzero) vzero) (vadd vzero vzero) false a3 = ChDone TrSigns vzero (s_fix s2) (s_con s2) (s_gcon s2)).
  { unfold choose. rewrite norm_zz, (proj2 (Rleb_true _ _)) by lra. change (10 * 2 <=? 3)%nat with false. cbn [orb].
    change (s_del s2) with (s_del s4). change (s_fix s2) with (s_fix s4). rewrite A4, (proj2 (Rltb_false _ _)) by lra.
    cbn [multz map argmin]. unfold vzero. rewrite (proj2 (Rleb_true _ _)) by lra. rewrite (proj2 (Rltb_false _ _)) by lra. reflexivity. }
  rewrite CH. eexists. split; [reflexivity|]. cbn [tr_sl tr_passes]. split; [reflexivity|].
  unfold clip, lom, hip. cbn [Nat.eqb rlex xler Nat.add]. unfold vadd, slpart, vzero. cbn [Nat.add]. rewrite A6.
  rewrite (proj2 (Rleb_true (- (5 / 4) + 0) 1)) by lra. cbn [negb].
  rewrite (proj2 (Rleb_false (-1) (- (5 / 4) + 0))) by lra. cbn [negb]. lra.
Qed.

Lemma r_slack_bounds : ~ forall restore cvx null cg mult n nsl lb ub thr M0 ce ae sl fuel x delta g lm o,
  keeps_bounds restore -> restore_short restore -> cg_short cg -> null_orth (n + nsl) null -> 0 <= delta -> / 10 ^ 15 <= thr ->
  (forall i, (i < nsl)%nat -> xle_r (lb (n + i)%nat) (sl i) /\ rle_x (sl i) (ub (n + i)%nat)) -> in_bounds n lb ub x ->
  solve_con restore cvx null cg mult n nsl lb ub thr M0 ce ae sl fuel x delta g lm = TrOut o ->
  forall i, (i < nsl)%nat -> xle_r (lb (n + i)%nat) (tr_sl o i) /\ rle_x (tr_sl o i) (ub (n + i)%nat).
Proof.
  intros F. destruct out_case as (o & E & _ & S).
  assert (X : xle_r (lom (2 + 0)%nat) (tr_sl o 0%nat) /\ rle_x (tr_sl o 0%nat) (hip (2 + 0)%nat)).
  { apply (F _ _ _ _ _ 2%nat 1%nat _ _ _ _ _ _ _ _ _ _ _ _ o (guard_bounds vzero) (guard_short vzero) cgS_short nullS_orth) with (5 := E); [lra|apply e15_8| | |lia].
    - intros i Hi. unfold lom, hip, vzero. cbn. lra.
    - intros i Hi. unfold lom, hip, vzero. cbn. lra. }
  unfold lom in X. cbn in X. rewrite S in X. lra.
Qed.
