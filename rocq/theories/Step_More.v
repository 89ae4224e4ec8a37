(** Linearised constraints, bounds held, predicted reduction and slacks of the step. *)
From Coq Require Import Reals List Arith Lia Lra Bool.
From Verif Require Import RVec RBool Tri ProjGrad_Spec CG_Model CG_Spec CG_Proofs CG_More TR_Model TR_Spec TR_Proofs TR_Wit Step_Spec Step_Proofs.
Import ListNotations.
Open Scope R_scope.

(** *** lists of squares *)
Lemma normL_cons a l : normL (a :: l) = sqrt (a * a + fold_right (fun b s => b * b + s) 0 l).
Proof. reflexivity. Qed.
Definition sq (l : list R) : R := fold_right (fun a s => a * a + s) 0 l.
Lemma sq_app l m : sq (l ++ m) = sq l + sq m.
Proof. unfold sq. induction l as [|a l IH]; cbn [fold_right app]; [ring|]. rewrite IH. ring. Qed.
Lemma sq_nth l : sq l = rsum (length l) (fun k => nth k l 0 ^ 2).
Proof.
  induction l as [|a l IH]; [reflexivity|]. cbn [length]. rewrite rsum_S_first. cbn [nth]. unfold sq in *. cbn [fold_right]. rewrite IH. f_equal. ring.
Qed.
Lemma sq_zero (a : list nat) : sq (map (fun _ => 0) a) = 0.
Proof. induction a as [|i a IH]; [reflexivity|]. unfold sq in *. cbn. rewrite IH. ring. Qed.

Lemma nth_map {A B} (f : A -> B) l d e k : (k < length l)%nat -> nth k (map f l) e = f (nth k l d).
Proof. intros K. rewrite (nth_indep _ e (f d)) by (rewrite map_length; exact K). apply map_nth. Qed.

Lemma plusL_app a b a' b' : length a = length a' -> plusL (a ++ b) (a' ++ b') = plusL a a' ++ plusL b b'.
Proof.
  revert a'. induction a as [|p a IH]; intros [|q a'] L; try discriminate; [reflexivity|]. unfold plusL in *. cbn. f_equal. apply IH. cbn in L. lia.
Qed.
Lemma plusL_length a b : length (plusL a b) = Nat.min (length a) (length b).
Proof. unfold plusL. rewrite map_length, combine_length. reflexivity. Qed.
Lemma plusL_nth a b k : length a = length b -> (k < length a)%nat -> nth k (plusL a b) 0 = nth k a 0 + nth k b 0.
Proof.
  revert b k. induction a as [|p a IH]; intros [|q b] k L K; try (cbn in *; lia). destruct k as [|k]; [reflexivity|].
  cbn [nth]. rewrite <- (IH b k); [reflexivity|cbn in L; lia|cbn in K; lia].
Qed.

Lemma rows_t_sum l rows j : length l = length rows -> rows_t l rows j = rsum (length l) (fun k => nth k l 0 * nth k rows vzero j).
Proof.
  revert rows. induction l as [|a l IH]; intros [|r rows] L; try discriminate; [reflexivity|].
  cbn [length]. rewrite rsum_S_first. cbn [nth]. unfold rows_t in *. cbn. rewrite IH by (cbn in L; lia). reflexivity.
Qed.
Lemma rows_t_app l m a b j : length l = length a -> rows_t (l ++ m) (a ++ b) j = rows_t l a j + rows_t m b j.
Proof.
  revert a. induction l as [|p l IH]; intros [|q a] L; try discriminate; [unfold rows_t; cbn; ring|].
  unfold rows_t in *. cbn. rewrite IH by (cbn in L; lia). ring.
Qed.
Lemma rows_t_zero (a : list nat) rows j : rows_t (map (fun _ => 0) a) rows j = 0.
Proof.
  revert rows. induction a as [|i a IH]; intros [|r rows]; try reflexivity. unfold rows_t in *. cbn. rewrite IH. ring.
Qed.
Lemma gram_sum rows i j : rows_gram rows i j = rsum (length rows) (fun k => nth k rows vzero i * nth k rows vzero j).
Proof.
  induction rows as [|r rows IH]; [reflexivity|]. cbn [length]. rewrite rsum_S_first. cbn [nth]. unfold rows_gram in *. cbn. rewrite IH. reflexivity.
Qed.
Lemma gram_app a b i j : rows_gram (a ++ b) i j = rows_gram a i j + rows_gram b i j.
Proof. unfold rows_gram. induction a as [|r a IH]; cbn; [ring|]. rewrite IH. ring. Qed.

Section P.
Variable restore : nat -> vec -> mat -> (nat -> xR) -> (nat -> xR) -> R -> option (vec * rmsg).
Variable cvx : mat -> mat.
Variable null : list vec -> option (nat * mat).
Variable cg : nat -> mat -> vec -> R -> option (vec * bool).
Variable mult : nat -> vec -> option vec.
Variables (n nsl : nat) (lb ub : nat -> xR) (thr : R).
Variables (M0 : mat) (ce : list R) (ae : list vec) (sl : vec).
Notation con0 := (con0 nsl ce sl).
Notation gcon0 := (gcon0 n nsl ce ae sl).
Notation lin_con := (lin_con n nsl ce ae sl).
Notation lin_row := (lin_row n nsl ce ae sl).
Hypothesis LA : length ae = length ce.
Hypothesis LS : (nsl <= length ce)%nat.

Lemma combine_seq_nth {A} (l : list A) (d : A) k : (k < length l)%nat -> nth k (combine (seq 0 (length l)) l) (0%nat, d) = (k, nth k l d).
Proof. intros K. rewrite combine_nth by apply seq_length. rewrite seq_nth by exact K. reflexivity. Qed.

Lemma con0_nth k : (k < length ce)%nat -> nth k con0 0 = lin_con vzero k.
Proof.
  intros K. unfold TR_Model.con0, me.
  match goal with |- nth k (map ?f ?l) 0 = _ => set (F := f); rewrite (nth_indep (map F l) 0 (F (0%nat, 0))) by (rewrite map_length, combine_length, seq_length; lia); rewrite map_nth end.
  rewrite combine_seq_nth by exact K. unfold F. cbn [fst snd]. unfold Step_Spec.lin_con. rewrite dot_zero_r. destruct (k <? length ce - nsl)%nat; [ring|]. unfold vzero. cbv zeta. ring.
Qed.

Lemma gcon0_length : length gcon0 = length ce.
Proof. unfold TR_Model.gcon0, me. rewrite map_length, combine_length, seq_length. lia. Qed.

Lemma gcon0_nth k j : (k < length ce)%nat -> nth k gcon0 vzero j =
  if (j <? n)%nat then nth k ae vzero j else if (k =? j - n + (length ce - nsl))%nat then -2 * sl (j - n)%nat else 0.
Proof.
  intros K. unfold TR_Model.gcon0, me.
  match goal with |- nth k (map ?f ?l) vzero j = _ => set (F := f); rewrite (nth_indep (map F l) vzero (F (0%nat, vzero))) by (rewrite map_length, combine_length, seq_length; lia); rewrite map_nth end.
  replace (length ce) with (length ae) at 1 by exact LA. rewrite combine_seq_nth by lia. reflexivity.
Qed.

Lemma row_dot k z : (k < length ce)%nat -> dot (n + nsl) (nth k gcon0 vzero) z = lin_con z k - lin_con vzero k.
Proof.
  intros K. unfold dot. rewrite rsum_split. unfold Step_Spec.lin_con. rewrite dot_zero_r.
  rewrite (rsum_ext n _ (fun i => nth k ae vzero i * z i)).
  2:{ intros i Hi. rewrite gcon0_nth by exact K. rewrite (proj2 (Nat.ltb_lt i n)) by exact Hi. reflexivity. }
  change (rsum n (fun i => nth k ae vzero i * z i)) with (dot n (nth k ae vzero) z).
  destruct (Nat.ltb_spec k (length ce - nsl)) as [L|L].
  - rewrite (rsum_zero nsl); [ring|]. intros q Hq. rewrite gcon0_nth by exact K.
    rewrite (proj2 (Nat.ltb_ge (n + q) n)) by lia. destruct (Nat.eqb_spec k (n + q - n + (length ce - nsl))); [lia|ring].
  - cbv zeta. rewrite (rsum_single nsl (k - (length ce - nsl))).
    + rewrite gcon0_nth by exact K. rewrite (proj2 (Nat.ltb_ge (n + _) n)) by lia.
      replace (n + (k - (length ce - nsl)) - n)%nat with (k - (length ce - nsl))%nat by lia.
      destruct (Nat.eqb_spec k (k - (length ce - nsl) + (length ce - nsl))); [|lia]. unfold vzero. ring.
    + lia.
    + intros q Hq NE. rewrite gcon0_nth by exact K. rewrite (proj2 (Nat.ltb_ge (n + q) n)) by lia.
      destruct (Nat.eqb_spec k (n + q - n + (length ce - nsl))); [lia|ring].
Qed.

Lemma row_entry k j : (k < length ce)%nat -> (j < n + nsl)%nat -> nth k gcon0 vzero j = lin_row k j.
Proof.
  intros K J. unfold Step_Spec.lin_row. rewrite <- (row_dot k (unitv j) K), dot_sym, dot_unitv by exact J. reflexivity.
Qed.

(** *** bounds held *)
Lemma close_iff e x b : close e x b = true <-> at_bound e x b.
Proof. destruct b; cbn; [apply Rltb_true|split; [discriminate|tauto]|split; [discriminate|tauto]]. Qed.

Lemma gradlag_eq x g lm L i : lag_grad n lb ub (length ce) ae x g lm L -> (i < n)%nat -> gradlag n nsl lb ub ce ae sl x g lm i = L i.
Proof.
  intros H Hi. unfold gradlag. unfold gx0. rewrite (proj2 (Nat.ltb_lt i n)) by exact Hi.
  rewrite rows_t_sum by (rewrite map_length, seq_length, gcon0_length; reflexivity). rewrite map_length, seq_length. unfold me.
  assert (E : rsum (length ce) (fun k => nth k (map (fun k0 => lm (n + k0)%nat) (seq 0 (length ce))) 0 * nth k gcon0 vzero i)
    = rsum (length ce) (fun k => lm (n + k)%nat * nth k ae vzero i)).
  { apply rsum_ext. intros k K. rewrite gcon0_nth by exact K. rewrite (proj2 (Nat.ltb_lt i n)) by exact Hi. f_equal.
    rewrite (nth_map _ _ 0%nat) by (rewrite seq_length; exact K). rewrite seq_nth by exact K. reflexivity. }
  rewrite E. destruct (H i Hi) as [H1 H2]. cbn [andb].
  destruct (close (/ 10 ^ 5) (x i) (lb i)) eqn:C1; cbn [orb].
  { rewrite H1; [reflexivity|]. left. apply close_iff, C1. }
  destruct (close (/ 10 ^ 5) (x i) (ub i)) eqn:C2.
  { rewrite H1; [reflexivity|]. right. apply close_iff, C2. }
  rewrite H2; [ring|]. intros [C|C]; apply close_iff in C; congruence.
Qed.

Lemma low_iff x g lm L i : lag_grad n lb ub (length ce) ae x g lm L -> (i < n)%nat ->
  (rlex (x i - gradlag n nsl lb ub ce ae sl x g lm i) (lb i) && close (/ 10 ^ 5) (x i) (lb i) = true <-> held_low lb x L i) /\
  (xler (ub i) (x i - gradlag n nsl lb ub ce ae sl x g lm i) && close (/ 10 ^ 5) (x i) (ub i) = true <-> held_up ub x L i).
Proof.
  intros H Hi. rewrite (gradlag_eq x g lm L i H Hi). unfold held_low, held_up.
  rewrite !andb_true_iff, rlex_true, xler_true, !close_iff. tauto.
Qed.

Lemma active_in x g lm L i : lag_grad n lb ub (length ce) ae x g lm L ->
  (In i (active0 n nsl lb ub ce ae sl x g lm) <-> (i < n)%nat /\ (held_low lb x L i \/ held_up ub x L i)).
Proof.
  intros H. unfold active0. rewrite in_flat_map. split.
  - intros (q & Hq & I). apply in_seq in Hq. apply in_app_or in I. destruct (low_iff x g lm L q H ltac:(lia)) as [L1 L2].
    destruct I as [I|I].
    + destruct (_ && _) eqn:E in I; [|contradiction]. destruct I as [<-|[]]. split; [lia|]. left. apply L1, E.
    + destruct (_ && _) eqn:E in I; [|contradiction]. destruct I as [<-|[]]. split; [lia|]. right. apply L2, E.
  - intros [Hi Q]. exists i. split; [apply in_seq; lia|]. destruct (low_iff x g lm L i H Hi) as [L1 L2]. apply in_or_app.
    destruct Q as [Q|Q]; [left; apply L1 in Q|right; apply L2 in Q]; rewrite Q; now left.
Qed.

Lemma active_sum x g lm L w (f : nat -> R) : lag_grad n lb ub (length ce) ae x g lm L -> (forall i, (i < n)%nat -> held_count lb ub x L w i) ->
  fold_right (fun i s => f i + s) 0 (active0 n nsl lb ub ce ae sl x g lm) = rsum n (fun i => w i * f i).
Proof.
  intros H W. unfold active0.
  set (F := fun i => _ ++ _).
  assert (ONE : forall i, (i < n)%nat -> fold_right (fun i s => f i + s) 0 (F i) = w i * f i).
  { intros i Hi. destruct (low_iff x g lm L i H Hi) as [L1 L2]. destruct (W i Hi) as (a & b & -> & A & B). unfold F.
    destruct (rlex _ _ && _) eqn:E1.
    - assert (a = 1) by (destruct A as [[_ A]|[A _]]; [exact A|exfalso; apply A, L1; reflexivity]). subst.
      destruct (xler _ _ && _) eqn:E2.
      + assert (b = 1) by (destruct B as [[_ B]|[B _]]; [exact B|exfalso; apply B, L2; reflexivity]). subst. cbn. ring.
      + assert (b = 0) by (destruct B as [[B _]|[_ B]]; [exfalso; apply L2 in B; congruence|exact B]). subst. cbn. ring.
    - assert (a = 0) by (destruct A as [[A _]|[_ A]]; [exfalso; apply L1 in A; congruence|exact A]). subst.
      destruct (xler _ _ && _) eqn:E2.
      + assert (b = 1) by (destruct B as [[_ B]|[B _]]; [exact B|exfalso; apply B, L2; reflexivity]). subst. cbn. ring.
      + assert (b = 0) by (destruct B as [[B _]|[_ B]]; [exfalso; apply L2 in B; congruence|exact B]). subst. cbn. ring. }
  clearbody F. clear W.
  assert (AP : forall l m, fold_right (fun i s => f i + s) 0 (l ++ m) = fold_right (fun i s => f i + s) 0 l + fold_right (fun i s => f i + s) 0 m).
  { intros l m. induction l as [|i l IH]; cbn; [ring|]. rewrite IH. ring. }
  assert (G : forall k, (k <= n)%nat -> fold_right (fun i s => f i + s) 0 (flat_map F (seq 0 k)) = rsum k (fun i => w i * f i)).
  { induction k as [|k IH]; intros K; [reflexivity|]. rewrite seq_S, flat_map_app, AP, IH by lia. cbn [flat_map rsum]. rewrite app_nil_r.
    cbn [Nat.add]. rewrite ONE by lia. reflexivity. }
  apply G. lia.
Qed.

(** *** the first pass *)
Variables (x : vec) (delta : R) (g lm L w : vec).
Hypothesis HL : lag_grad n lb ub (length ce) ae x g lm L.
Hypothesis HW : forall i, (i < n)%nat -> held_count lb ub x L w i.
Notation act := (active0 n nsl lb ub ce ae sl x g lm).
Definition start : st := mkst x (con0 ++ map (fun _ => 0) act) (gcon0 ++ map unitv act) [] (gx0 n g) delta vzero lm 0 [].

Lemma start_run fuel : solve_con restore cvx null cg mult n nsl lb ub thr M0 ce ae sl fuel x delta g lm = tr_loop restore cvx null cg mult n nsl lb ub thr M0 ce sl fuel 1 start.
Proof. reflexivity. Qed.

Lemma start_grad j : (j < n + nsl)%nat -> rows_t (s_con start) (s_gcon start) j = lsq_grad n nsl ce ae sl j.
Proof.
  intros J. unfold start; cbn [s_con s_gcon]. rewrite rows_t_app by (rewrite gcon0_length; apply con0_length). rewrite rows_t_zero, Rplus_0_r.
  rewrite rows_t_sum by (rewrite gcon0_length; apply con0_length). rewrite con0_length. apply rsum_ext. intros k K.
  rewrite con0_nth, row_entry by assumption. reflexivity.
Qed.

Lemma start_mat i j : (i < n + nsl)%nat -> (j < n + nsl)%nat -> rows_gram (s_gcon start) i j = lsq_mat n nsl ce ae sl w i j.
Proof.
  intros Hi Hj. unfold start; cbn [s_con s_gcon]. rewrite gram_app, gram_sum, gcon0_length. unfold lsq_mat. f_equal.
  - apply rsum_ext. intros k K. rewrite !row_entry by assumption. reflexivity.
  - transitivity (fold_right (fun q s => unitv q i * unitv q j + s) 0 act).
    { unfold rows_gram. generalize act. intros l. induction l as [|q l IH]; [reflexivity|]. cbn. rewrite IH. reflexivity. }
    rewrite (active_sum x g lm L w (fun q => unitv q i * unitv q j) HL HW).
    destruct (Nat.eqb_spec i j) as [<-|NE].
    + destruct (Nat.ltb_spec i n) as [Q|Q].
      * rewrite (rsum_single n i); [unfold unitv; rewrite Nat.eqb_refl; ring|exact Q|]. intros q Hq NE. unfold unitv. destruct (Nat.eqb_spec i q); [lia|ring].
      * apply rsum_zero. intros q Hq. unfold unitv. destruct (Nat.eqb_spec i q); [lia|ring].
    + apply rsum_zero. intros q Hq. unfold unitv. destruct (Nat.eqb_spec i q), (Nat.eqb_spec j q); try ring. lia.
Qed.

Lemma start_length r : normL (plusL (s_con start) (rows_v (n + nsl) (s_gcon start) r)) = con_length n nsl ce ae sl w r.
Proof.
  unfold normL, con_length. f_equal. fold (sq (plusL (s_con start) (rows_v (n + nsl) (s_gcon start) r))). unfold start; cbn [s_con s_gcon].
  unfold rows_v. rewrite map_app, plusL_app by (rewrite map_length, gcon0_length; apply con0_length). rewrite sq_app. f_equal.
  - rewrite sq_nth, plusL_length, map_length, gcon0_length, con0_length, Nat.min_id. apply rsum_ext. intros k K.
    rewrite plusL_nth by (rewrite ?map_length, ?gcon0_length, con0_length; lia). f_equal.
    rewrite (nth_map _ _ vzero) by (rewrite gcon0_length; exact K).
    rewrite row_dot, con0_nth by exact K. ring.
  - rewrite <- (active_sum x g lm L w (fun i => r i ^ 2) HL HW).
    assert (IN : forall i, In i act -> (i < n + nsl)%nat) by (intros i I; apply (active_in x g lm L i HL) in I; lia).
    revert IN. generalize act. intros l IN. induction l as [|q l IH]; [reflexivity|]. unfold sq, plusL in *. cbn.
    cbn in IH. rewrite IH by (intros i I; apply IN; now right). rewrite dot_unitv by (apply IN; now left). ring.
Qed.

Lemma start_length0 : normL (s_con start) = con_length n nsl ce ae sl w vzero.
Proof.
  unfold normL, con_length. f_equal. fold (sq (s_con start)). unfold start; cbn [s_con]. rewrite sq_app, sq_zero, sq_nth, con0_length.
  f_equal; [apply rsum_ext; intros k K; rewrite con0_nth by exact K; reflexivity|]. symmetry. apply rsum_zero. intros i _. unfold vzero. ring.
Qed.

Definition flag_of (r : vec) (answer : option rmsg) : bool := match answer with
  | None => false | Some MsgError => false | Some MsgBoundary => true | Some MsgOther => Rltb (delta - norm n r) (/ 10 ^ 8) end.

Lemma start_rest r rp actr : restoration restore cvx n nsl lb ub sl 1 start = Some (r, rp, actr) ->
  exists a, restores restore cvx n nsl lb ub ce ae sl w x delta r a /\
  rp = con_length n nsl ce ae sl w vzero - con_length n nsl ce ae sl w r /\ actr = flag_of r a.
Proof.
  unfold TR_Model.restoration. cbn [Nat.eqb andb]. unfold dim.
  assert (NG : norm (n + nsl) (rows_t (s_con start) (s_gcon start)) = norm (n + nsl) (lsq_grad n nsl ce ae sl)) by (apply norm_ext; intros j J; apply start_grad, J).
  rewrite NG. destruct (Rltb_spec (/ 10 ^ 14) (norm (n + nsl) (lsq_grad n nsl ce ae sl))) as [B|B].
  - match goal with |- context [restore ?a ?b ?e ?f ?h ?d] => destruct (restore a b e f h d) as [[r' m]|] eqn:RE end; [|discriminate].
    intros E. injection E as <- <- <-. exists (Some m). split; [|split].
    + right. split; [exact B|]. eexists. eexists. eexists. exists m. split; [intros j J; apply start_grad, J|]. split; [intros i j Hi Hj; apply start_mat; assumption|].
      split; [|split; [|split; [exact RE|reflexivity]]].
      * intros i Hi. unfold join. rewrite (proj2 (Nat.ltb_lt i n)) by exact Hi. reflexivity.
      * intros i. unfold join. rewrite (proj2 (Nat.ltb_ge (n + i) n)) by lia. f_equal. lia.
    + pose proof (start_length r') as SL. pose proof start_length0 as SL0. unfold start in SL, SL0. cbn [s_con s_gcon] in SL, SL0. rewrite SL, SL0. ring.
    + reflexivity.
  - intros E. injection E as <- <- <-. exists None. split; [left; split; [lra|split; reflexivity]|]. split; [|reflexivity].
    symmetry. apply Rminus_diag_eq. reflexivity.
Qed.

(** *** the whole run *)
Lemma rpred_later fuel k s o : (1 < k)%nat -> tr_loop restore cvx null cg mult n nsl lb ub thr M0 ce sl fuel k s = TrOut o ->
  tr_rpred o = s_rpred s /\ tr_actr o = false /\ (1 < tr_passes o)%nat.
Proof.
  revert k s. induction fuel as [|fuel IH]; intros k s K E; [discriminate|].
  destruct (pass_more restore cvx null cg mult n nsl lb ub thr M0 ce sl k s) as [(res & E' & O)|(s' & E' & O)]; rewrite E' in E.
  - destruct (O o E) as (r & t & rp & actr & actt & v & xa & (B1 & _) & _ & P & P1 & P2 & _). rewrite rest_later in B1 by exact K. injection B1 as _ <- <-. repeat split; [exact P1|exact P2|lia].
  - destruct (IH (S k) s' ltac:(lia) E) as (I1 & I2). destruct O as (r & t & rp & actr & actt & v & xa & (B1 & _) & P & _).
    rewrite rest_later in B1 by exact K. injection B1 as _ <- <-. rewrite I1, P. split; [reflexivity|exact I2].
Qed.

Definition null_rows (t : vec) : Prop := forall a, In a (s_gcon start) -> dot (n + nsl) a t = 0.

Lemma tan_null r t actt : null_in (n + nsl) null -> tangent null cg n nsl M0 start r = Some (t, actt) -> null_rows t.
Proof.
  intros NI E a IA. unfold TR_Model.tangent in E. destruct (_ <? _)%nat; [|injection E as <- _; apply dot_zero_r].
  destruct (null (s_gcon start)) as [[k Z]|] eqn:EN; [|discriminate].
  destruct (cg _ _ _ _) as [[u b]|]; [|discriminate]. injection E as <- _.
  rewrite (dot_sym (n + nsl)), (dot_mv_tr (n + nsl) k Z u). rewrite (dot_ext k u u _ vzero (fun i _ => eq_refl)), dot_zero_r; [reflexivity|].
  intros j Hj. unfold mv, tr, vzero. rewrite <- (NI _ _ _ EN a j IA Hj). apply rsum_ext. intros; ring.
Qed.

Lemma null_lin t r k : null_rows t -> (k < length ce)%nat -> lin_con (vadd r t) k = lin_con r k.
Proof.
  intros N K. assert (Z := N (nth k gcon0 vzero) ltac:(unfold start; cbn [s_gcon]; apply in_or_app; left; apply nth_In; rewrite gcon0_length; exact K)).
  pose proof (row_dot k (vadd r t) K) as E1. pose proof (row_dot k r K) as E2. rewrite dot_add_r, Z in E1. lra.
Qed.
Lemma null_held t i : null_rows t -> (i < n)%nat -> held_low lb x L i \/ held_up ub x L i -> t i = 0.
Proof.
  intros N Hi H. rewrite <- (dot_unitv (n + nsl) i t) by lia. apply N. unfold start; cbn [s_gcon]. apply in_or_app. right. apply in_map.
  apply (active_in x g lm L i HL). split; assumption.
Qed.

Lemma clip_ok (s t : vec) i : (xle_r (lb (n + i)%nat) (s i - t i) /\ rle_x (s i - t i) (ub (n + i)%nat)) ->
  (clip n lb ub s t i = s i /\ xle_r (lb (n + i)%nat) (s i) /\ rle_x (s i) (ub (n + i)%nat)) \/
  (clip n lb ub s t i = s i - t i /\ ~ (xle_r (lb (n + i)%nat) (s i) /\ rle_x (s i) (ub (n + i)%nat))).
Proof.
  intros [B1 B2]. unfold clip. cbv zeta. destruct (rlex (s i) (ub (n + i)%nat)) eqn:E1; cbn [negb].
  - apply rlex_true in E1. destruct (xler (lb (n + i)%nat) (s i)) eqn:E2; cbn [negb].
    + apply xler_true in E2. left. auto.
    + right. split; [reflexivity|]. intros [Q _]. apply xler_true in Q. congruence.
  - apply xler_true in B1. rewrite B1. cbn [negb]. right. split; [reflexivity|]. intros [_ Q]. apply rlex_true in Q. congruence.
Qed.

Lemma run_rest fuel o : solve_con restore cvx null cg mult n nsl lb ub thr M0 ce ae sl fuel x delta g lm = TrOut o ->
  exists r a, restores restore cvx n nsl lb ub ce ae sl w x delta r a /\
  tr_rpred o = con_length n nsl ce ae sl w vzero - con_length n nsl ce ae sl w r /\
  tr_actr o = (if (tr_passes o =? 1)%nat then flag_of r a else false).
Proof.
  rewrite start_run. intros E. destruct fuel as [|fuel]; [discriminate|].
  destruct (pass_more restore cvx null cg mult n nsl lb ub thr M0 ce sl 1 start) as [(res & E' & O)|(s' & E' & O)]; rewrite E' in E.
  - destruct (O o E) as (r & t & rp & actr & actt & v & xa & (B1 & _) & _ & P & P1 & P2 & _).
    destruct (start_rest r rp actr B1) as (a & A1 & A2 & A3). exists r, a. rewrite P, P1, P2. repeat split; assumption.
  - destruct (rpred_later fuel 2 s' o ltac:(lia) E) as (I1 & I2 & I3). destruct O as (r & t & rp & actr & actt & v & xa & (B1 & _) & P & _).
    destruct (start_rest r rp actr B1) as (a & A1 & A2 & A3). exists r, a. rewrite I1, I2, P. destruct (Nat.eqb_spec (tr_passes o) 1); [lia|]. repeat split; assumption.
Qed.

Lemma run_single fuel o : solve_con restore cvx null cg mult n nsl lb ub thr M0 ce ae sl fuel x delta g lm = TrOut o -> tr_passes o = 1%nat ->
  null_in (n + nsl) null -> exists r a t, restores restore cvx n nsl lb ub ce ae sl w x delta r a /\
  tr_x o = vadd (vadd x r) t /\ null_rows t /\
  (tr_end o = TrFeasible -> tr_sl o = clip n lb ub (vadd (vadd sl (slpart n r)) (slpart n t)) (slpart n t)) /\
  (keeps_bounds restore -> slack_in n nsl lb ub sl -> in_bounds n lb ub x -> in_bounds (n + nsl) lb ub (restored n sl start r)).
Proof.
  rewrite start_run. intros E P1 NI. destruct fuel as [|fuel]; [discriminate|].
  destruct (pass_more restore cvx null cg mult n nsl lb ub thr M0 ce sl 1 start) as [(res & E' & O)|(s' & E' & O)]; rewrite E' in E.
  - destruct (O o E) as (r & t & rp & actr & actt & v & xa & (B1 & B2 & _) & X1 & _ & _ & _ & _ & S1 & S2 & _).
    destruct (start_rest r rp actr B1) as (a & A1 & A2 & A3). exists r, a, t. split; [exact A1|]. split; [exact X1|]. split; [exact (tan_null r t actt NI B2)|].
    split; [intros T; exact (S1 (S2 T))|]. intros KB SI X. exact (restored_in restore cvx n nsl lb ub sl 1 start r rp actr KB SI X B1).
  - destruct (rpred_later fuel 2 s' o ltac:(lia) E) as (_ & _ & I3). lia.
Qed.
End P.
