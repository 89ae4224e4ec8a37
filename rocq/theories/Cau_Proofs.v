(** The tangential step of C64 against the steps along the projected slope. *)
From Coq Require Import Reals List Arith Lia Lra Bool.
From Verif Require Import RVec RBool Tri ProjGrad_Spec CG_Model CG_Spec CG_Proofs CG_More CG_Cauchy TR_Model TR_Spec TR_Proofs TR_Wit
  Null_Model Null_Spec Null_Proofs Step_Spec Step_Proofs Step_More Cau_Spec MS_Model Lib_Model.
Import ListNotations.
Open Scope R_scope.

Lemma cg_beats_of m tol : 0 <= tol -> cg_beats tol (cg_of (S m) tol).
Proof.
  intros T k A b D u a s SA D0 TB E S0 SD. unfold cg_of in E. cbv zeta in E. injection E as <- _.
  assert (N : norm k b * norm k b = dot k b b) by (unfold norm; apply sqrt_sqrt, dot_self_nonneg).
  apply cg_cauchy; [exact SA|exact D0| |exact S0|]; rewrite <- N; [apply Rmult_le_0_lt_compat; lra|].
  replace (s * s * (norm k b * norm k b)) with ((s * norm k b) * (s * norm k b)) by ring.
  assert (0 <= s * norm k b) by (apply Rmult_le_pos; [exact S0|apply norm_nonneg]). apply Rmult_le_compat; assumption.
Qed.

Section P.
Variable restore : nat -> vec -> mat -> (nat -> xR) -> (nat -> xR) -> R -> option (vec * rmsg).
Variable cvx : mat -> mat.
Variable null : list vec -> option (nat * mat).
Variable cg : nat -> mat -> vec -> R -> option (vec * bool).
Variable mult : nat -> vec -> option vec.
Variables (n nsl : nat) (lb ub : nat -> xR) (thr : R).
Variables (M0 : mat) (ce : list R) (ae : list vec) (sl : vec).
Notation dim := (n + nsl)%nat.

(** the tangential step in the coordinates of the null space *)
Lemma tan_coord s r t actt : symmetric n M0 -> (length (s_con s) < dim)%nat -> tangent null cg n nsl M0 s r = Some (t, actt) ->
  exists k Z Mt u, null (s_gcon s) = Some (k, Z) /\ symmetric k Mt /\
  let b := vneg (mv dim (tr Z) (vadd (s_g s) (mv dim (Mx n M0) r))) in
  cg k Mt b (s_del s) = Some (u, actt) /\ t = mv k Z u /\
  forall v, cost k Mt b v = dot dim (vadd (s_g s) (mv dim (Mx n M0) r)) (mv k Z v) + / 2 * quad n M0 (mv k Z v).
Proof.
  intros HM LT E. unfold tangent in E. unfold TR_Model.dim in E. rewrite (proj2 (Nat.ltb_lt _ _) LT) in E.
  destruct (null (s_gcon s)) as [[k Z]|]; [|discriminate].
  match type of E with context [cg k ?a ?b ?d] => set (Mt := a) in *; set (gt := b) in * end.
  destruct (cg k Mt gt (s_del s)) as [[u a]|] eqn:EC; [|discriminate]. injection E as <- <-.
  assert (QF : forall p q, dot k p (mv k Mt q) = dot dim (mv k Z p) (mv dim (Mx n M0) (mv k Z q))).
  { intros p q. rewrite (dot_mv_tr dim k Z p). apply dot_ext; [intros i _; reflexivity|]. intros i Hi.
    unfold Mt, mv, tr, dot. 
    rewrite (rsum_ext k _ (fun j => rsum dim (fun a => Z a i * (rsum dim (fun b => Mx n M0 a b * Z b j) * q j)))).
    2:{ intros j Hj. rewrite <- rsum_scal_r. apply rsum_ext. intros; ring. }
    rewrite rsum_swap. apply rsum_ext. intros a' Ha. rewrite rsum_scal. f_equal.
    rewrite (rsum_ext k _ (fun j => rsum dim (fun b => Mx n M0 a' b * Z b j * q j))) by (intros j Hj; rewrite <- rsum_scal_r; reflexivity).
    rewrite rsum_swap. apply rsum_ext. intros b Hb. rewrite <- rsum_scal. apply rsum_ext. intros; ring. }
  exists k, Z, Mt, u. split; [reflexivity|]. split.
  { intros i j Hi Hj. unfold Mt. rewrite (dot_mv_sym dim (Mx n M0) _ _ (Mx_sym n nsl M0 HM)). reflexivity. }
  cbv zeta. split; [exact EC|]. split; [reflexivity|]. intros v. unfold cost, quad. rewrite QF.
  rewrite <- (Mx_form n nsl M0 (mv k Z v) (mv k Z v)). unfold TR_Model.dim. rewrite dot_neg_l.
  rewrite (dot_sym k), <- (dot_mv_tr dim k Z v), (dot_sym dim (mv k Z v) (vadd _ _)). ring.
Qed.

Hypothesis LA : length ae = length ce.
Hypothesis LS : (nsl <= length ce)%nat.
Variables (x : vec) (delta : R) (g lm L w : vec).
Hypothesis HL : lag_grad n lb ub (length ce) ae x g lm L.
Hypothesis HW : forall i, (i < n)%nat -> held_count lb ub x L w i.
Notation start := (start n nsl lb ub ce ae sl x delta g lm).
Notation tdir := (tangent_dir n nsl lb ub ce ae sl x L).

Lemma rows_tangent q : (forall a, In a (s_gcon start) -> dot dim a q = 0) <-> tdir q.
Proof.
  unfold Step_More.start. cbn [s_gcon]. split.
  - intros H. split.
    + intros k K. assert (Z := H (nth k (gcon0 n nsl ce ae sl) vzero) ltac:(apply in_or_app; left; apply nth_In; rewrite (gcon0_length n nsl ce ae sl LA LS); exact K)).
      rewrite (row_dot n nsl ce ae sl LA LS k q K) in Z. lra.
    + intros i Hi Q. rewrite <- (dot_unitv dim i q) by lia. apply H, in_or_app. right. apply in_map.
      apply (active_in restore cvx null cg mult n nsl lb ub thr M0 ce ae sl LA LS x g lm L i HL). split; assumption.
  - intros [H1 H2] a I. apply in_app_or in I. destruct I as [I|I].
    + apply (In_nth _ _ vzero) in I. destruct I as (k & K & <-). rewrite (gcon0_length n nsl ce ae sl LA LS) in K.
      rewrite (row_dot n nsl ce ae sl LA LS k q K), (H1 k K). ring.
    + apply in_map_iff in I. destruct I as (i & <- & I).
      apply (active_in restore cvx null cg mult n nsl lb ub thr M0 ce ae sl LA LS x g lm L i HL) in I. destruct I as [Hi Q].
      rewrite dot_unitv by lia. apply H2; assumption.
Qed.

Lemma start_count : rsum n w < INR (n + nsl - length ce) -> (length (s_con start) < dim)%nat.
Proof.
  intros H. unfold Step_More.start. cbn [s_con]. rewrite app_length, map_length, con0_length.
  pose proof (active_sum restore cvx null cg mult n nsl lb ub thr M0 ce ae sl LA LS x g lm L w (fun _ => 1) HL HW) as A.
  cbv beta in A. rewrite (rsum_ext n (fun i => w i * 1) w) in A by (intros; ring). rewrite <- A in H. clear A.
  set (l := active0 _ _ _ _ _ _ _ _ _ _) in *.
  assert (C : fold_right (fun (_ : nat) s => 1 + s) 0 l = INR (length l)).
  { clear. induction l as [|i l IH]; [reflexivity|]. cbn [fold_right length]. rewrite IH, S_INR. ring. }
  rewrite C in H. apply INR_lt in H. lia.
Qed.

Lemma start_full : INR (n + nsl - length ce) <= rsum n w -> (dim <= length (s_con start))%nat.
Proof.
  intros H. unfold Step_More.start. cbn [s_con]. rewrite app_length, map_length, con0_length.
  pose proof (active_sum restore cvx null cg mult n nsl lb ub thr M0 ce ae sl LA LS x g lm L w (fun _ => 1) HL HW) as A.
  cbv beta in A. rewrite (rsum_ext n (fun i => w i * 1) w) in A by (intros; ring). rewrite <- A in H. clear A.
  set (l := active0 _ _ _ _ _ _ _ _ _ _) in *.
  assert (C : fold_right (fun (_ : nat) s => 1 + s) 0 l = INR (length l)).
  { clear. induction l as [|i l IH]; [reflexivity|]. cbn [fold_right length]. rewrite IH, S_INR. ring. }
  rewrite C in H. apply INR_le in H. lia.
Qed.

Lemma slope_start r q : dot dim (vadd (s_g start) (mv dim (Mx n M0) r)) q = dot n (slope n M0 g r) q.
Proof.
  rewrite dot_add_l, (dot_sym dim (mv dim _ _)). pose proof (Mx_form n nsl M0 q r) as F. unfold TR_Model.dim in F. rewrite F.
  unfold Step_More.start. cbn [s_g].
  assert (E : dot dim (gx0 n g) q = dot n g q).
  { unfold dot. rewrite rsum_split, (rsum_zero nsl), Rplus_0_r.
    - apply rsum_ext. intros i Hi. unfold gx0. rewrite (proj2 (Nat.ltb_lt i n)) by exact Hi. reflexivity.
    - intros i Hi. unfold gx0. rewrite (proj2 (Nat.ltb_ge (n + i) n)) by lia. ring. }
  rewrite E, (dot_sym n q), <- dot_add_l. apply dot_ext; [|intros i _; reflexivity].
  intros i Hi. unfold slope, vadd. rewrite (proj2 (Nat.ltb_lt i n)) by exact Hi. reflexivity.
Qed.
Lemma slope_dim r q : dot dim (slope n M0 g r) q = dot n (slope n M0 g r) q.
Proof.
  unfold dot. rewrite rsum_split, (rsum_zero nsl), Rplus_0_r; [reflexivity|].
  intros i Hi. unfold slope. rewrite (proj2 (Nat.ltb_ge (n + i) n)) by lia. ring.
Qed.

Definition spans_at (rows : list vec) : Prop := forall k Z, null rows = Some (k, Z) -> orthonormal dim k Z /\
  (forall j, (j < k)%nat -> tdir (fun i => Z i j)) /\ (forall q, tdir q -> exists c, veq dim q (mv k Z c)).

Lemma tan_beats tol r t actt p s : symmetric n M0 -> cg_beats tol cg -> spans_at (s_gcon start) -> 0 <= delta ->
  rsum n w < INR (n + nsl - length ce) -> tangent null cg n nsl M0 start r = Some (t, actt) ->
  tangent_part n nsl lb ub ce ae sl x L (slope n M0 g r) p -> tol < norm dim p -> 0 <= s -> s * norm dim p <= delta ->
  lag_model n M0 g (vsub (vadd (vadd x r) t) x) <= lag_model n M0 g (vsub r (vscal s p)).
Proof.
  intros HM CB NS D0 C E [P1 P2] TP S0 SD.
  destruct (tan_coord start r t actt HM (start_count C) E) as (k & Z & Mt & u & EN & SM & EC & -> & CO). cbv zeta in EC, CO.
  set (G := vadd (s_g start) (mv dim (Mx n M0) r)) in *. set (b := vneg (mv dim (tr Z) G)) in *.
  destruct (NS _ _ EN) as (O & I & SP). destruct (SP p P1) as (c & PC).
  assert (BC : veq k b (vneg c)).
  { intros j Hj. unfold b, vneg. f_equal. rewrite <- (orth_mv dim k Z c O j Hj).
    assert (E1 : mv dim (tr Z) G j = dot dim G (fun i => Z i j)) by (unfold mv, tr, dot; apply rsum_ext; intros; ring).
    assert (E2 : mv dim (tr Z) (mv k Z c) j = dot dim (mv k Z c) (fun i => Z i j)) by (unfold mv at 1, tr, dot; apply rsum_ext; intros; ring).
    rewrite E1, E2, (slope_start r), <- slope_dim. rewrite <- (dot_ext_l dim _ _ (fun i => Z i j) PC).
    specialize (P2 _ (I j Hj)). rewrite dot_sub_l in P2. lra. }
  assert (NB : norm k b = norm dim p).
  { unfold norm. f_equal. rewrite (dot_ext dim p _ p _ PC PC), (orth_norm dim k Z c O), (dot_ext k b _ b _ BC BC), dot_neg_l, dot_neg_r. ring. }
  assert (ZB : veq dim (mv k Z (vscal s b)) (vscal (- s) p)).
  { intros i Hi. unfold vscal at 2. rewrite (PC i Hi). unfold mv. rewrite <- rsum_scal. apply rsum_ext. intros j Hj. unfold vscal. rewrite (BC j Hj). unfold vneg. ring. }
  pose proof (CB k Mt b delta u actt s SM D0) as Q. rewrite NB in Q. specialize (Q TP EC S0 SD). rewrite !CO in Q.
  assert (V : forall z, veq dim z (mv k Z (vscal s b)) -> dot dim G (mv k Z (vscal s b)) + / 2 * quad n M0 (mv k Z (vscal s b)) = dot dim G z + / 2 * quad n M0 z).
  { intros z Hz. rewrite (dot_ext_r dim G _ _ Hz). rewrite (quad_ext n M0 z (mv k Z (vscal s b))); [reflexivity|]. intros i Hi. apply Hz. lia. }
  rewrite (V (vscal (- s) p)) in Q by (intros i Hi; symmetry; apply ZB, Hi).
  assert (MV : forall z, lag_model n M0 g (vadd r z) = lag_model n M0 g r + (dot dim G z + / 2 * quad n M0 z)).
  { intros z. unfold G. rewrite slope_start. unfold lag_model. rewrite (quad_add n M0 r z HM), dot_add_r.
    assert (SL : dot n (slope n M0 g r) z = dot n g z + dot n z (mv n M0 r)).
    { rewrite (dot_sym n z), <- dot_add_l. apply dot_ext; [|intros i _; reflexivity].
      intros i Hi. unfold slope, vadd. rewrite (proj2 (Nat.ltb_lt i n)) by exact Hi. reflexivity. }
    rewrite SL, (dot_mv_sym n M0 r z HM). lra. }
  assert (X1 : forall z y, veq n z y -> lag_model n M0 g z = lag_model n M0 g y).
  { intros z y H. unfold lag_model. rewrite (quad_ext n M0 z y H), (dot_ext_r n g z y H). reflexivity. }
  rewrite (X1 (vsub (vadd (vadd x r) (mv k Z u)) x) (vadd r (mv k Z u))) by (intros i _; unfold vsub, vadd; ring).
  rewrite (X1 (vsub r (vscal s p)) (vadd r (vscal (- s) p))) by (intros i _; unfold vsub, vadd, vscal; ring).
  rewrite !MV. lra.
Qed.

Lemma run_beats tol fuel o : symmetric n M0 -> cg_beats tol cg -> spans_at (s_gcon start) -> 0 <= delta ->
  rsum n w < INR (n + nsl - length ce) ->
  solve_con restore cvx null cg mult n nsl lb ub thr M0 ce ae sl fuel x delta g lm = TrOut o -> tr_passes o = 1%nat ->
  exists r a, restores restore cvx n nsl lb ub ce ae sl w x delta r a /\
    forall p s, tangent_part n nsl lb ub ce ae sl x L (slope n M0 g r) p -> tol < norm dim p -> 0 <= s -> s * norm dim p <= delta ->
    lag_model n M0 g (vsub (tr_x o) x) <= lag_model n M0 g (vsub r (vscal s p)).
Proof.
  intros HM CB NS D0 C. rewrite (start_run restore cvx null cg mult n nsl lb ub thr M0 ce ae sl x delta g lm fuel). intros E P1.
  destruct fuel as [|fuel]; [discriminate|].
  destruct (pass_more restore cvx null cg mult n nsl lb ub thr M0 ce sl 1 start) as [(res & E' & O)|(s' & E' & O)]; rewrite E' in E.
  - destruct (O o E) as (r & t & rp & actr & actt & v & xa & (B1 & B2 & _) & X1 & _).
    destruct (start_rest restore cvx null cg mult n nsl lb ub thr M0 ce ae sl LA LS x delta g lm L w HL HW r rp actr B1) as (a & A1 & _).
    exists r, a. split; [exact A1|]. intros p s TP T S0 SD. rewrite X1. exact (tan_beats tol r t actt p s HM CB NS D0 C B2 TP T S0 SD).
  - destruct (rpred_later restore cvx null cg mult n nsl lb ub thr M0 ce ae sl LA LS fuel 2 s' o ltac:(lia) E) as (_ & _ & I3). lia.
Qed.

(** with as many rows as unknowns there is no tangential step *)
Lemma run_full fuel o : INR (n + nsl - length ce) <= rsum n w ->
  solve_con restore cvx null cg mult n nsl lb ub thr M0 ce ae sl fuel x delta g lm = TrOut o -> tr_passes o = 1%nat ->
  exists r a, restores restore cvx n nsl lb ub ce ae sl w x delta r a /\ forall i, tr_x o i = x i + r i.
Proof.
  intros C. rewrite (start_run restore cvx null cg mult n nsl lb ub thr M0 ce ae sl x delta g lm fuel). intros E P1.
  destruct fuel as [|fuel]; [discriminate|].
  destruct (pass_more restore cvx null cg mult n nsl lb ub thr M0 ce sl 1 start) as [(res & E' & O)|(s' & E' & O)]; rewrite E' in E.
  - destruct (O o E) as (r & t & rp & actr & actt & v & xa & (B1 & B2 & _) & X1 & _).
    destruct (start_rest restore cvx null cg mult n nsl lb ub thr M0 ce ae sl LA LS x delta g lm L w HL HW r rp actr B1) as (a & A1 & _).
    exists r, a. split; [exact A1|]. intros i. rewrite X1. unfold tangent in B2. unfold TR_Model.dim in B2.
    rewrite (proj2 (Nat.ltb_ge _ _) (start_full C)) in B2. injection B2 as <- _. unfold vadd, vzero, Step_More.start. cbn [s_x]. ring.
  - destruct (rpred_later restore cvx null cg mult n nsl lb ub thr M0 ce ae sl LA LS fuel 2 s' o ltac:(lia) E) as (_ & _ & I3). lia.
Qed.

Lemma spans_all : null_spans n nsl lb ub ce ae sl x L null -> spans_at (s_gcon start).
Proof. intros H k Z E. exact (H _ k Z rows_tangent E). Qed.
End P.

Section Lib.
Variables (n nsl : nat) (lb ub : nat -> xR) (ce : list R) (ae : list vec) (sl : vec).
Hypothesis LA : length ae = length ce.
Hypothesis LS : (nsl <= length ce)%nat.
Variables (x : vec) (delta : R) (g lm L : vec).
Hypothesis HL : lag_grad n lb ub (length ce) ae x g lm L.
Notation dim := (n + nsl)%nat.
Notation start := (start n nsl lb ub ce ae sl x delta g lm).

(** arguments that play no part *)
Let restore0 : nat -> vec -> mat -> (nat -> xR) -> (nat -> xR) -> R -> option (vec * rmsg) := fun _ _ _ _ _ _ => None.
Let cvx0 : mat -> mat := fun A => A.
Let null0 : list vec -> option (nat * mat) := fun _ => None.
Let cg0 : nat -> mat -> vec -> R -> option (vec * bool) := fun _ _ _ _ => None.
Let mult0 : nat -> vec -> option vec := fun _ _ => None.
Let thr0 : R := 0.
Let M00 : mat := fun _ _ => 0.

Lemma lib_spans svd : svd_clear n nsl ce ae sl svd -> (length (s_con start) < dim)%nat ->
  spans_at (null_lib svd dim) n nsl lb ub ce ae sl x L (s_gcon start).
Proof.
  intros SC LT k Z E. set (rows := s_gcon start) in *. unfold null_lib in E.
  assert (LR : length rows = (length ce + length (active0 n nsl lb ub ce ae sl x g lm))%nat).
  { unfold rows, Step_More.start. cbn [s_gcon]. rewrite app_length, map_length, (gcon0_length n nsl ce ae sl LA LS). reflexivity. }
  unfold Step_More.start in LT. cbn [s_con] in LT. rewrite app_length, map_length, con0_length in LT.
  destruct (SC (length rows) (rows_mat rows)) as [SE SG].
  - lia.
  - intros a j Ha Hj. unfold rows_mat, rows, Step_More.start. cbn [s_gcon]. rewrite app_nth1 by (rewrite (gcon0_length n nsl ce ae sl LA LS); exact Ha).
    apply (row_entry n nsl ce ae sl LA LS a j Ha Hj).
  - intros a [A1 A2]. unfold rows_mat, rows, Step_More.start. cbn [s_gcon]. rewrite app_nth2 by (rewrite (gcon0_length n nsl ce ae sl LA LS); exact A1).
    rewrite (gcon0_length n nsl ce ae sl LA LS). rewrite (nth_map unitv _ 0%nat) by lia.
    eexists. split; [|reflexivity].
    assert (I : In (nth (a - length ce) (active0 n nsl lb ub ce ae sl x g lm) 0%nat) (active0 n nsl lb ub ce ae sl x g lm)) by (apply nth_In; lia).
    apply (active_in restore0 cvx0 null0 cg0 mult0 n nsl lb ub thr0 M00 ce ae sl LA LS x g lm L _ HL) in I. apply I.
  - destruct (svd (length rows) dim (rows_mat rows)) as [sv vh]. cbn [fst snd] in SE, SG. injection E as <- <-.
    set (Z := snd (null_ (length rows) dim sv vh)). set (k := fst (null_ (length rows) dim sv vh)).
    assert (RT : forall q, (forall i, (i < length rows)%nat -> mv dim (rows_mat rows) q i = 0) <-> tangent_dir n nsl lb ub ce ae sl x L q).
    { intros q. rewrite <- (rows_tangent restore0 cvx0 null0 cg0 mult0 n nsl lb ub thr0 M00 ce ae sl LA LS x delta g lm L HL q). fold rows. split.
      - intros H a I. apply (In_nth _ _ vzero) in I. destruct I as (i & Hi & <-). exact (H i Hi).
      - intros H i Hi. exact (H (nth i rows vzero) (nth_In _ _ Hi)). }
    split; [apply (z_orth (length rows) dim sv vh), SE|]. split.
    + intros j Hj. apply RT. intros i Hi.
      pose proof (z_exact (length rows) dim (rows_mat rows) sv vh SE (unitv j) SG i Hi) as ZE.
      rewrite <- ZE. apply mv_ext. intros a Ha. unfold mv. rewrite (rsum_single k j); [unfold unitv; rewrite Nat.eqb_refl, Rmult_1_r; reflexivity|exact Hj|].
      intros b Hb NE. unfold unitv. destruct (Nat.eqb_spec b j); [contradiction|ring].
    + intros q Hq. exists (mv dim (tr Z) q). apply (z_complete (length rows) dim (rows_mat rows) sv vh SE q). apply RT, Hq.
Qed.
End Lib.

(** *** top level *)
Section Top.
Variable restore : nat -> vec -> mat -> (nat -> xR) -> (nat -> xR) -> R -> option (vec * rmsg).
Variable cvx : mat -> mat.
Variable null : list vec -> option (nat * mat).
Variable cg : nat -> mat -> vec -> R -> option (vec * bool).
Variable mult : nat -> vec -> option vec.
Variables (n nsl : nat) (lb ub : nat -> xR) (thr : R).
Variables (M0 : mat) (ce : list R) (ae : list vec) (sl : vec).
Variables (fuel : nat) (x : vec) (delta : R) (g lm : vec).
Notation run := (solve_con restore cvx null cg mult n nsl lb ub thr M0 ce ae sl fuel x delta g lm).

Lemma c_general L w o tol : length ae = length ce -> (nsl <= length ce)%nat -> lag_grad n lb ub (length ce) ae x g lm L ->
  (forall i, (i < n)%nat -> held_count lb ub x L w i) -> rsum n w < INR (n + nsl - length ce) ->
  symmetric n M0 -> 0 <= delta -> null_spans n nsl lb ub ce ae sl x L null -> cg_beats tol cg -> run = TrOut o -> tr_passes o = 1%nat ->
  exists r a, restores restore cvx n nsl lb ub ce ae sl w x delta r a /\
    forall p s, tangent_part n nsl lb ub ce ae sl x L (slope n M0 g r) p -> tol < norm (n + nsl) p -> 0 <= s -> s * norm (n + nsl) p <= delta ->
    lag_model n M0 g (vsub (tr_x o) x) <= lag_model n M0 g (vsub r (vscal s p)).
Proof.
  intros LA LS HL HW C HM D0 NS CB E P.
  refine (run_beats restore cvx null cg mult n nsl lb ub thr M0 ce ae sl LA LS x delta g lm L w HL HW tol fuel o HM CB _ D0 C E P).
  exact (spans_all restore cvx null cg mult n nsl lb ub thr M0 ce ae sl LA LS x delta g lm L HL NS).
Qed.

Lemma c_full L w o : length ae = length ce -> (nsl <= length ce)%nat -> lag_grad n lb ub (length ce) ae x g lm L ->
  (forall i, (i < n)%nat -> held_count lb ub x L w i) -> INR (n + nsl - length ce) <= rsum n w -> run = TrOut o -> tr_passes o = 1%nat ->
  exists r a, restores restore cvx n nsl lb ub ce ae sl w x delta r a /\ forall i, tr_x o i = x i + r i.
Proof.
  intros LA LS HL HW. exact (run_full restore cvx null cg mult n nsl lb ub thr M0 ce ae sl LA LS x delta g lm L w HL HW fuel o).
Qed.

Lemma scan_free xx : forall k i, (forall j, (i <= j < i + k)%nat -> lb j = NInf /\ ub j = PInf) -> scan lb ub thr k i xx = (None, []).
Proof.
  induction k as [|k IH]; intros i F; [reflexivity|]. cbn [scan]. destruct (F i ltac:(lia)) as [-> ->]. cbn. apply IH. intros j J. apply F. lia.
Qed.

Lemma c_one_pass o : (forall i, (i < n)%nat -> lb i = NInf /\ ub i = PInf) -> run = TrOut o -> tr_passes o = 1%nat.
Proof.
  intros F. unfold solve_con. destruct fuel as [|f]; [discriminate|]. cbn [tr_loop].
  destruct (restoration _ _ _ _ _ _ _ _ _) as [[[r rp] actr]|]; [|discriminate].
  destruct (tangent _ _ _ _ _ _ _) as [[t actt]|]; [|discriminate].
  rewrite scan_free by (intros j J; apply F; lia). unfold choose. cbn [s_fix s_del s_lm s_con s_gcon].
  destruct (Rleb _ _); [destruct (_ || _)|]; intros E; injection E as <-; reflexivity.
Qed.
End Top.

(** *** the library's solvers *)
Section LibTop.
Variables (ms : nat -> nat -> vec -> mat -> R -> option ms_out) (chol : nat -> mat -> option mat) (slv : nat -> mat -> vec -> option vec)
  (eig : nat -> mat -> bool * vec * mat) (svd : nat -> nat -> mat -> vec * mat) (pin : nat -> mat -> list nat -> vec -> option vec)
  (tol : R) (oinf : xR) (dxmin : R) (gi : vec)
  (n nsl : nat) (lb ub : nat -> xR) (thr : R) (M0 : mat) (ce : list R) (ae : list vec) (sl : vec) (fuel : nat) (x : vec) (delta : R) (g lm : vec).
Notation run := (step_lib ms chol slv eig svd pin tol oinf dxmin gi n nsl lb ub thr M0 ce ae sl fuel x delta g lm).

Lemma c_library L w o : length ae = length ce -> (nsl <= length ce)%nat -> lag_grad n lb ub (length ce) ae x g lm L ->
  (forall i, (i < n)%nat -> held_count lb ub x L w i) -> rsum n w < INR (n + nsl - length ce) ->
  symmetric n M0 -> 0 <= delta -> 0 <= tol -> svd_clear n nsl ce ae sl svd -> run = TrOut o -> tr_passes o = 1%nat ->
  exists r a, restores (restore_lib ms chol slv) (cvx_lib eig (n + nsl)) n nsl lb ub ce ae sl w x delta r a /\
    forall p s, tangent_part n nsl lb ub ce ae sl x L (slope n M0 g r) p -> tol < norm (n + nsl) p -> 0 <= s -> s * norm (n + nsl) p <= delta ->
    lag_model n M0 g (vsub (tr_x o) x) <= lag_model n M0 g (vsub r (vscal s p)).
Proof.
  intros LA LS HL HW C HM D0 T0 SC E P. unfold step_lib in E.
  match type of E with solve_con ?a ?b ?c ?d ?e _ _ _ _ _ _ _ _ _ _ _ _ _ _ = _ =>
    pose proof (start_count a b c d e n nsl lb ub thr M0 ce ae sl LA LS x delta g lm L w HL HW C) as LT;
    refine (run_beats a b c d e n nsl lb ub thr M0 ce ae sl LA LS x delta g lm L w HL HW tol fuel o HM _ _ D0 C E P) end.
  - assert (W0 : 0 <= rsum n w).
    { rewrite <- (rsum_zero n (fun _ => 0)) by reflexivity. apply rsum_le. intros i Hi. destruct (HW i Hi) as (a & b & -> & A & B). destruct A as [[_ ->]|[_ ->]], B as [[_ ->]|[_ ->]]; lra. }
    destruct (n + nsl - length ce)%nat as [|d]; [cbn in C; lra|]. replace (20 * S d)%nat with (S (19 + 20 * d)) by lia. apply cg_beats_of, T0.
  - apply (lib_spans n nsl lb ub ce ae sl LA LS x delta g lm L HL svd SC LT).
Qed.

Lemma c_lib_one o : (forall i, (i < n)%nat -> lb i = NInf /\ ub i = PInf) -> run = TrOut o -> tr_passes o = 1%nat.
Proof. intros F. exact (c_one_pass _ _ _ _ _ n nsl lb ub thr M0 ce ae sl fuel x delta g lm o F). Qed.

Lemma c_lib_full L w o : length ae = length ce -> (nsl <= length ce)%nat -> lag_grad n lb ub (length ce) ae x g lm L ->
  (forall i, (i < n)%nat -> held_count lb ub x L w i) -> INR (n + nsl - length ce) <= rsum n w -> run = TrOut o -> tr_passes o = 1%nat ->
  exists r a, restores (restore_lib ms chol slv) (cvx_lib eig (n + nsl)) n nsl lb ub ce ae sl w x delta r a /\ forall i, tr_x o i = x i + r i.
Proof. exact (c_full _ _ _ _ _ n nsl lb ub thr M0 ce ae sl fuel x delta g lm L w o). Qed.

(** in the usual form *)
Lemma c_decrease L w o beta : length ae = length ce -> (nsl <= length ce)%nat -> lag_grad n lb ub (length ce) ae x g lm L ->
  (forall i, (i < n)%nat -> held_count lb ub x L w i) -> rsum n w < INR (n + nsl - length ce) ->
  symmetric n M0 -> 0 <= delta -> 0 <= tol -> svd_clear n nsl ce ae sl svd -> run = TrOut o -> tr_passes o = 1%nat ->
  exists r a, restores (restore_lib ms chol slv) (cvx_lib eig (n + nsl)) n nsl lb ub ce ae sl w x delta r a /\
    forall p, tangent_part n nsl lb ub ce ae sl x L (slope n M0 g r) p -> tol < norm (n + nsl) p ->
    0 < beta -> quad n M0 p <= beta * norm (n + nsl) p ^ 2 ->
    lag_model n M0 g (vsub (tr_x o) x) <= lag_model n M0 g r - / 2 * norm (n + nsl) p * Rmin delta (norm (n + nsl) p / beta).
Proof.
  intros LA LS HL HW C HM D0 T0 SC E P. destruct (c_library L w o LA LS HL HW C HM D0 T0 SC E P) as (r & a & A1 & A2).
  exists r, a. split; [exact A1|]. intros p TP T B0 HQ. set (N := norm (n + nsl) p) in *.
  assert (N0 : 0 < N) by lra. set (m := Rmin delta (N / beta)).
  assert (M1 : 0 <= m) by (unfold m; apply Rmin_glb; [exact D0|apply Rlt_le, Rmult_lt_0_compat; [exact N0|apply Rinv_0_lt_compat; exact B0]]).
  assert (M2 : m <= delta) by apply Rmin_l.
  assert (M3 : m * beta <= N).
  { pose proof (Rmin_r delta (N / beta)) as R. fold m in R. apply (Rmult_le_compat_r beta) in R; [|lra].
    replace (N / beta * beta) with N in R by (field; lra). exact R. }
  set (s := m / N). assert (SN : s * N = m) by (unfold s; field; lra).
  assert (S0 : 0 <= s) by (apply Rmult_le_pos; [exact M1|apply Rlt_le, Rinv_0_lt_compat; exact N0]).
  assert (SD : s * norm (n + nsl) p <= delta) by (fold N; rewrite SN; exact M2).
  pose proof (A2 p s TP T S0 SD) as H. eapply Rle_trans; [exact H|].
  assert (G : dot n (slope n M0 g r) p = N * N).
  { destruct TP as [TP1 TP2]. specialize (TP2 p TP1). rewrite dot_sub_l in TP2.
    assert (SD' : dot (n + nsl) (slope n M0 g r) p = dot n (slope n M0 g r) p).
    { unfold dot. rewrite rsum_split, (rsum_zero nsl), Rplus_0_r; [reflexivity|].
      intros i Hi. unfold slope. rewrite (proj2 (Nat.ltb_ge (n + i) n)) by lia. ring. }
    assert (NN : N * N = dot (n + nsl) p p) by (unfold N, norm; apply sqrt_sqrt, dot_self_nonneg). lra. }
  assert (SL : dot n (slope n M0 g r) p = dot n g p + dot n p (mv n M0 r)).
  { rewrite (dot_sym n p), <- dot_add_l. apply dot_ext; [|intros i _; reflexivity].
    intros i Hi. unfold slope, vadd. rewrite (proj2 (Nat.ltb_lt i n)) by exact Hi. reflexivity. }
  assert (MV : lag_model n M0 g (vsub r (vscal s p)) = lag_model n M0 g r - s * (N * N) + / 2 * (s * s) * quad n M0 p).
  { assert (EV : veq n (vsub r (vscal s p)) (vadd r (vscal (- s) p))) by (intros i _; unfold vsub, vadd, vscal; ring).
    unfold lag_model. rewrite (quad_ext n M0 _ _ EV), (dot_ext_r n g _ _ EV), (quad_add n M0 r _ HM), quad_scal, dot_add_r, dot_scal_r, dot_mv_scal, (dot_mv_sym n M0 r p HM).
    rewrite <- G, SL. lra. }
  rewrite MV. assert (S1 : s * (N * N) = m * N) by (rewrite <- SN; ring).
  assert (S2 : / 2 * (s * s) * quad n M0 p <= / 2 * (m * N)).
  { apply Rle_trans with (/ 2 * (s * s) * (beta * N ^ 2)); [apply Rmult_le_compat_l; [nra|exact HQ]|].
    replace (/ 2 * (s * s) * (beta * N ^ 2)) with (/ 2 * (m * (m * beta))) by (rewrite <- SN; ring).
    apply Rmult_le_compat_l; [lra|]. apply Rmult_le_compat_l; assumption. }
  lra.
Qed.
End LibTop.
