(** Proofs about decrease, constraints and release rule of the trust-region step. *)
From Coq Require Import Reals List Arith Lia Lra Bool Permutation.
From Verif Require Import RVec RBool Tri ProjGrad_Spec CG_Model CG_Spec CG_Proofs CG_More TR_Model TR_Spec TR_Proofs TR_Wit Step_Spec.
Import ListNotations.
Open Scope R_scope.

(** *** lists *)
Lemma argmin_spec l : l <> [] -> (snd (argmin l) < length l)%nat /\ nth (snd (argmin l)) l 0 = fst (argmin l) /\
  (forall a, In a l -> fst (argmin l) <= a).
Proof.
  induction l as [|a t IH]; intros NE; [contradiction|]. destruct t as [|b t].
  - cbn. repeat split; [lia|]. intros a' [->|[]]. lra.
  - specialize (IH ltac:(discriminate)). destruct IH as (I1 & I2 & I3).
    change (argmin (a :: b :: t)) with (let (m, k) := argmin (b :: t) in if Rleb a m then (a, 0%nat) else (m, S k)).
    destruct (argmin (b :: t)) as [m k]. cbn [fst snd] in *. destruct (Rleb_spec a m) as [L|L]; cbn [fst snd].
    + repeat split; [cbn; lia|]. intros a' [->|A]; [lra|]. specialize (I3 a' A). lra.
    + repeat split; [cbn in *; lia|exact I2|]. intros a' [->|A]; [lra|]. apply I3, A.
Qed.

Lemma insert_perm i l : Permutation (i :: l) (insert i l).
Proof.
  induction l as [|j t IH]; [apply Permutation_refl|]. cbn [insert]. destruct (i <=? j)%nat; [apply Permutation_refl|].
  eapply perm_trans; [apply perm_swap|]. apply perm_skip, IH.
Qed.
Lemma sort_perm l : Permutation l (sort l).
Proof. induction l as [|i t IH]; [apply Permutation_refl|]. eapply perm_trans; [apply perm_skip, IH|apply insert_perm]. Qed.

Lemma forall_combine (a b : list nat) : length a = length b -> forallb (fun p => (fst p =? snd p)%nat) (combine a b) = true -> a = b.
Proof.
  revert b. induction a as [|i a IH]; intros [|j b] L F; try discriminate; [reflexivity|]. cbn in F.
  apply andb_prop in F. destruct F as [E F]. apply Nat.eqb_eq in E. subst. f_equal. apply IH; [cbn in L; lia|exact F].
Qed.
Lemma same_in a b : same_set a b = true -> forall i, In i b <-> In i a.
Proof.
  unfold same_set. intros E i. apply andb_prop in E. destruct E as [L E]. apply Nat.eqb_eq in L.
  apply forall_combine in E; [|rewrite <- (Permutation_length (sort_perm a)), <- (Permutation_length (sort_perm b)); exact L].
  split; intros I.
  - apply (Permutation_in _ (Permutation_sym (sort_perm a))). rewrite E. apply (Permutation_in _ (sort_perm b)), I.
  - apply (Permutation_in _ (Permutation_sym (sort_perm b))). rewrite <- E. apply (Permutation_in _ (sort_perm a)), I.
Qed.

Section P.
Variable restore : nat -> vec -> mat -> (nat -> xR) -> (nat -> xR) -> R -> option (vec * rmsg).
Variable cvx : mat -> mat.
Variable null : list vec -> option (nat * mat).
Variable cg : nat -> mat -> vec -> R -> option (vec * bool).
Variable mult : nat -> vec -> option vec.
Variables (n nsl : nat) (lb ub : nat -> xR) (thr : R).
Variables (M0 : mat) (ce : list R) (sl : vec).
Notation me := (me ce).
Notation dim := (dim n nsl).
Notation restoration := (restoration restore cvx n nsl lb ub sl).
Notation tangent := (tangent null cg n nsl M0).
Notation scan := (scan lb ub thr).
Notation choose := (choose mult n ce).
Notation shorten := (shorten n nsl lb ub M0 ce sl).
Notation tr_loop := (tr_loop restore cvx null cg mult n nsl lb ub thr M0 ce sl).
Notation minratio := (minratio n nsl lb ub).
Notation slpart := (slpart n).
Notation restored := (restored n sl).
Notation begun := (begun restore cvx null cg n nsl lb ub thr M0 sl).
Notation slack_in := (slack_in n nsl lb ub sl).
Notation Mx := (Mx n M0).

Definition cut (s : st) (r t : vec) (rho : R) : Prop :=
  match minratio (restored s r) t with Fin a => rho = Rmax a 0 | NInf => rho = 0 | PInf => False end.

Lemma shorten_more k s r t sln s' : shorten k s r t sln = Some s' -> exists rho, cut s r t rho /\
  s_x s' = vadd (vadd (s_x s) r) (vscal rho t) /\ s_g s' = vadd (s_g s) (mv dim Mx (vadd r (vscal rho t))) /\
  s_del s' = s_del s - / 2 * norm n (vadd r (vscal rho t)) /\ s_rpred s' = s_rpred s /\ s_lm s' = s_lm s.
Proof.
  unfold TR_Model.shorten, cut. fold (restored s r). destruct (minratio (restored s r) t) as [a| |]; [|discriminate|].
  - intros E. injection E as <-. exists (if Rltb a 0 then 0 else a). cbn [s_x s_g s_del s_rpred s_lm]. repeat split.
    destruct (Rltb_spec a 0); rewrite ?Rmax_right, ?Rmax_left by lra; reflexivity.
  - intros E. injection E as <-. exists 0. repeat split.
Qed.

Definition on (k : nat) (s s' : st) : Prop := exists r t rp actr actt v xa,
  begun k s r t rp actr actt v xa /\ s_rpred s' = rp /\
  match v with
  | None => s_x s' = s_x s /\ s_g s' = s_g s /\ s_del s' = s_del s /\ s_fix s <> []
  | Some _ => exists rho, cut s r t rho /\ s_x s' = vadd (vadd (s_x s) r) (vscal rho t) /\
      s_g s' = vadd (s_g s) (mv dim Mx (vadd r (vscal rho t))) /\ s_del s' = s_del s - / 2 * norm n (vadd r (vscal rho t))
  end.

(** exits with multipliers *)
Definition exit_ok (k : nat) (s : st) (o : tr_out) (v : option nat) (xa : list nat) : Prop :=
  tr_fix o = s_fix s ++ match v with Some i => [i] | None => [] end /\
  match tr_end o with
  | TrSigns => mult k (tr_x o) = Some (tr_lm o) /\ tr_fix o <> [] /\ (forall i, In i (tr_fix o) -> 0 <= tr_lm o i)
  | TrRelease => mult k (tr_x o) = Some (tr_lm o) /\ (forall i, In i (tr_fix o) <-> In i xa) /\
      (exists i, In i (tr_fix o) /\ tr_lm o i < 0 /\ (forall j, In j (tr_fix o) -> tr_lm o i <= tr_lm o j))
  | TrZero => tr_fix o = [] /\ tr_lm o = s_lm s
  | _ => tr_lm o = s_lm s
  end.

Definition off (k : nat) (s : st) (o : tr_out) : Prop := exists r t rp actr actt v xa,
  begun k s r t rp actr actt v xa /\
  tr_x o = vadd (vadd (s_x s) r) t /\ tr_passes o = k /\ tr_rpred o = rp /\ tr_actr o = actr /\ tr_actt o = actt /\
  (v = None -> tr_sl o = clip n lb ub (if (k =? 1)%nat then vadd (vadd sl (slpart r)) (slpart t) else vadd (s_slnew s) (slpart t)) (slpart t)) /\
  (tr_end o = TrFeasible -> v = None) /\ exit_ok k s o v xa.

Lemma choose_more k s xnew step viol xa : match choose k s xnew step viol xa with
  | ChDone how lm f c gc => match how with
      | TrFeasible => viol = false /\ lm = s_lm s
      | TrLimit => False
      | TrZero => s_fix s = [] /\ lm = s_lm s
      | TrSigns => mult k xnew = Some lm /\ s_fix s <> [] /\ (forall i, In i (s_fix s) -> 0 <= lm i)
      | TrRelease => mult k xnew = Some lm /\ (forall i, In i (s_fix s) <-> In i xa) /\
          (exists i, In i (s_fix s) /\ lm i < 0 /\ (forall j, In j (s_fix s) -> lm i <= lm j)) end
  | ChGo _ _ _ _ => viol = true \/ s_fix s <> []
  | _ => True
  end.
Proof.
  unfold TR_Model.choose. destruct (Rleb _ _).
  - destruct (_ || _); [exact Logic.I|].
    destruct (s_fix s) as [|a b] eqn:F; [split; reflexivity|]. assert (NE : s_fix s <> []) by (rewrite F; discriminate). rewrite <- F. clear F a b.
    destruct (mult k xnew) as [lm|]; [|exact Logic.I].
    assert (NM : map lm (s_fix s) <> []) by (intros E; apply map_eq_nil in E; contradiction).
    destruct (argmin_spec _ NM) as (A1 & A2 & A3). destruct (argmin (map lm (s_fix s))) as [m j]. cbn [fst snd] in *.
    destruct (Rltb_spec m 0) as [L|L].
    + destruct (same_set xa (s_fix s)) eqn:SS; [|right; exact NE]. split; [reflexivity|]. split; [apply same_in, SS|].
      rewrite map_length in A1. exists (nth j (s_fix s) 0%nat).
      assert (E : lm (nth j (s_fix s) 0%nat) = m).
      { rewrite <- A2. rewrite (nth_indep _ 0 (lm 0%nat)) by (rewrite map_length; exact A1). symmetry. apply map_nth. }
      rewrite E. split; [apply nth_In, A1|]. split; [exact L|]. intros i Hi. apply A3, in_map, Hi.
    + split; [reflexivity|]. split; [exact NE|]. intros i Hi. specialize (A3 (lm i) (in_map _ _ _ Hi)). lra.
  - destruct viol; [left; reflexivity|]. split; reflexivity.
Qed.

Lemma pass_more k s : (exists res, (forall f, tr_loop (S f) k s = res) /\ forall o, res = TrOut o -> off k s o) \/
  (exists s', (forall f, tr_loop (S f) k s = tr_loop f (S k) s') /\ on k s s').
Proof.
  cbn [TR_Model.tr_loop].
  destruct (restoration k s) as [[[r rp] actr]|] eqn:ER; [|left; exists TrRaise; split; [reflexivity|discriminate]].
  destruct (tangent s r) as [[t actt]|] eqn:ET; [|left; exists TrRaise; split; [reflexivity|discriminate]].
  destruct (scan n 0 (vadd (vadd (s_x s) r) t)) as [v xa] eqn:ES.
  set (sln := clip n lb ub _ _).
  assert (B : begun k s r t rp actr actt v xa) by (repeat split; assumption).
  destruct v as [i|].
  - set (s1 := mkst _ _ _ _ _ _ _ _ _ _).
    pose proof (choose_more k s1 (vadd (vadd (s_x s) r) t) (vadd r t) true xa) as C.
    destruct (choose k s1 _ (vadd r t) true xa) as [| |how lm f c gc|lm f c gc].
    + left. eexists. split; [reflexivity|discriminate].
    + left. eexists. split; [reflexivity|]. intros o E. injection E as <-. exists r, t, rp, actr, actt, (Some i), xa. cbn.
      repeat split; try apply B; try discriminate.
    + match goal with |- context [TR_Model.shorten _ _ _ _ _ _ _ _ ?s2 _ _ _] => pose proof (shorten_more k s2 r t sln) as SH end.
      destruct (shorten k _ r t sln) as [s3|].
      * left. eexists. split; [reflexivity|]. intros o E. injection E as <-. destruct (SH s3 eq_refl) as (rho & _ & _ & _ & _ & _ & LM). cbn in LM.
        exists r, t, rp, actr, actt, (Some i), xa. cbn. rewrite LM. unfold exit_ok. cbn. change (s_fix s1) with (s_fix s ++ [i]) in *. change (s_lm s1) with (s_lm s) in *.
        repeat split; try apply B; try discriminate; [|destruct how; try exact C; [contradiction|destruct C; discriminate]].
        intros ->. destruct C; discriminate.
      * left. eexists. split; [reflexivity|discriminate].
    + match goal with |- context [TR_Model.shorten _ _ _ _ _ _ _ _ ?s2 _ _ _] => pose proof (shorten_more k s2 r t sln) as SH end.
      destruct (shorten k _ r t sln) as [s3|].
      * right. exists s3. split; [reflexivity|]. destruct (SH s3 eq_refl) as (rho & R1 & R2 & R3 & R4 & R5 & _).
        exists r, t, rp, actr, actt, (Some i), xa. split; [exact B|]. split; [exact R5|]. exists rho. repeat split; assumption.
      * left. eexists. split; [reflexivity|discriminate].
  - set (s1 := mkst _ _ _ _ _ _ _ _ _ _).
    pose proof (choose_more k s1 (vadd (vadd (s_x s) r) t) (vadd r t) false xa) as C.
    destruct (choose k s1 _ (vadd r t) false xa) as [| |how lm f c gc|lm f c gc].
    + left. eexists. split; [reflexivity|discriminate].
    + left. eexists. split; [reflexivity|]. intros o E. injection E as <-. exists r, t, rp, actr, actt, None, xa. cbn.
      split; [exact B|]. do 5 (split; [reflexivity|]). split; [auto|]. split; [auto|]. split; [cbn; rewrite app_nil_r; reflexivity|reflexivity].
    + left. eexists. split; [reflexivity|]. intros o E. injection E as <-. exists r, t, rp, actr, actt, None, xa. cbn.
      split; [exact B|]. do 5 (split; [reflexivity|]). split; [auto|]. split; [auto|]. split; [cbn; rewrite app_nil_r; reflexivity|].
      unfold exit_ok. cbn. change (s_fix s1) with (s_fix s) in *. change (s_lm s1) with (s_lm s) in *.
      destruct how; try exact C; [contradiction|apply C].
    + right. eexists. split; [reflexivity|]. exists r, t, rp, actr, actt, None, xa. cbn. split; [exact B|]. repeat (split; [reflexivity|]).
      destruct C as [C|C]; [discriminate|exact C].
Qed.

(** *** decrease of the model *)
Lemma Mx_form a b : dot dim a (mv dim Mx b) = dot n a (mv n M0 b).
Proof.
  unfold dot. unfold TR_Model.dim. rewrite rsum_split. rewrite (rsum_zero nsl), Rplus_0_r.
  - apply rsum_ext. intros i Hi. f_equal. unfold mv. rewrite rsum_split, (rsum_zero nsl), Rplus_0_r.
    + apply rsum_ext. intros j Hj. unfold TR_Model.Mx. rewrite (proj2 (Nat.ltb_lt i n)), (proj2 (Nat.ltb_lt j n)) by assumption. reflexivity.
    + intros j Hj. unfold TR_Model.Mx. rewrite (proj2 (Nat.ltb_ge (n + j) n)) by lia. rewrite andb_false_r. ring.
  - intros i Hi. unfold mv. rewrite rsum_zero; [ring|]. intros j Hj. unfold TR_Model.Mx.
    rewrite (proj2 (Nat.ltb_ge (n + i) n)) by lia. cbn [andb]. ring.
Qed.
Lemma Mx_sym : symmetric n M0 -> symmetric dim Mx.
Proof.
  intros HM i j _ _. unfold TR_Model.Mx. destruct (Nat.ltb_spec i n), (Nat.ltb_spec j n); cbn [andb]; auto.
Qed.

(** gradient kept by the loop: that of the model at the current displacement *)
Definition grad_ok (x g : vec) (s : st) : Prop := forall a, dot dim (s_g s) a = dot n g a + dot n a (mv n M0 (vsub (s_x s) x)).

Lemma grad_step x g s s' r p : symmetric n M0 -> grad_ok x g s -> s_x s' = vadd (vadd (s_x s) r) p -> s_g s' = vadd (s_g s) (mv dim Mx (vadd r p)) -> grad_ok x g s'.
Proof.
  intros HM G X E a. rewrite E, X, dot_add_l, (G a), (dot_sym dim (mv dim Mx _)), Mx_form, Rplus_assoc. f_equal.
  rewrite <- dot_mv_add. apply dot_ext; [intros i _; reflexivity|]. intros i _. apply mv_ext. intros j _. unfold vadd, vsub. ring.
Qed.

Lemma model_move x g z r p : symmetric n M0 ->
  lag_model n M0 g (vsub (vadd (vadd z r) p) x) = lag_model n M0 g (vsub (vadd z r) x) +
    (dot n g p + dot n p (mv n M0 (vsub z x)) + dot n p (mv n M0 r)) + / 2 * quad n M0 p.
Proof.
  intros HM. unfold lag_model.
  assert (E : veq n (vsub (vadd (vadd z r) p) x) (vadd (vsub (vadd z r) x) p)) by (intros i _; unfold vsub, vadd; ring).
  rewrite (quad_ext n M0 _ _ E), (dot_ext n g g _ _ (fun i _ => eq_refl) E), (quad_add n M0 _ _ HM), dot_add_r.
  assert (E2 : dot n p (mv n M0 (vsub (vadd z r) x)) = dot n p (mv n M0 (vsub z x)) + dot n p (mv n M0 r)).
  { rewrite <- dot_mv_add. apply dot_ext; [intros i _; reflexivity|]. intros i _. apply mv_ext. intros j _. unfold vadd, vsub. ring. }
  rewrite (dot_mv_sym n M0 (vsub (vadd z r) x) p HM), E2. lra.
Qed.

(** the tangential step *)
Lemma tan_descends x g s r t actt : symmetric n M0 -> cg_descends cg -> grad_ok x g s -> tangent s r = Some (t, actt) ->
  dot n g t + dot n t (mv n M0 (vsub (s_x s) x)) + dot n t (mv n M0 r) <= 0 /\
  dot n g t + dot n t (mv n M0 (vsub (s_x s) x)) + dot n t (mv n M0 r) + / 2 * quad n M0 t <= 0.
Proof.
  intros HM CD G E. unfold TR_Model.tangent in E. destruct (_ <? _)%nat.
  2:{ injection E as <- _. rewrite dot_zero_r, !dot_zero_l. unfold quad. rewrite dot_zero_l. lra. }
  destruct (null (s_gcon s)) as [[k Z]|]; [|discriminate].
  match type of E with context [cg k ?a ?b ?d] => set (Mt := a) in *; set (gt := b) in * end.
  destruct (cg k Mt gt (s_del s)) as [[u a]|] eqn:EC; [|discriminate]. injection E as <- <-.
  assert (QF : forall p q, dot k p (mv k Mt q) = dot dim (mv k Z p) (mv dim Mx (mv k Z q))).
  { intros p q. rewrite (dot_mv_tr dim k Z p). apply dot_ext; [intros i _; reflexivity|]. intros i Hi.
    unfold Mt, mv, tr, dot. 
    rewrite (rsum_ext k _ (fun j => rsum dim (fun a => Z a i * (rsum dim (fun b => Mx a b * Z b j) * q j)))).
    2:{ intros j Hj. rewrite <- rsum_scal_r. apply rsum_ext. intros; ring. }
    rewrite rsum_swap. apply rsum_ext. intros a' Ha. rewrite rsum_scal. f_equal.
    rewrite (rsum_ext k _ (fun j => rsum dim (fun b => Mx a' b * Z b j * q j))) by (intros j Hj; rewrite <- rsum_scal_r; reflexivity).
    rewrite rsum_swap. apply rsum_ext. intros b Hb. rewrite <- rsum_scal. apply rsum_ext. intros; ring. }
  assert (SM : symmetric k Mt).
  { intros i j Hi Hj. unfold Mt. rewrite (dot_mv_sym dim Mx _ _ (Mx_sym HM)). reflexivity. }
  destruct (CD k Mt gt (s_del s) u a SM EC) as [C1 C2].
  assert (LF : dot k gt u = - (dot n g (mv k Z u) + dot n (mv k Z u) (mv n M0 (vsub (s_x s) x)) + dot n (mv k Z u) (mv n M0 r))).
  { unfold gt. rewrite dot_neg_l. f_equal. rewrite (dot_sym k).
    change (fun j i => Z i j) with (tr Z). rewrite <- (dot_mv_tr dim k Z u). rewrite (dot_sym dim), dot_add_l, (G (mv k Z u)), (dot_sym dim), Mx_form. ring. }
  unfold cost in C1. unfold quad in C1. rewrite QF, Mx_form in C1. rewrite LF in C1, C2. unfold quad.
  split; lra.
Qed.

(** along the tangential step *)
Lemma part_descends x g s r t actt rho : symmetric n M0 -> cg_descends cg -> grad_ok x g s -> tangent s r = Some (t, actt) ->
  0 <= rho <= 1 -> lag_model n M0 g (vsub (vadd (vadd (s_x s) r) (vscal rho t)) x) <= lag_model n M0 g (vsub (vadd (s_x s) r) x).
Proof.
  intros HM CD G E R. destruct (tan_descends x g s r t actt HM CD G E) as [T1 T2].
  rewrite (model_move x g (s_x s) r (vscal rho t) HM), quad_scal, dot_scal_r, !dot_scal_l.
  set (l := dot n g t + _ + _) in *.
  replace (rho * dot n g t + rho * dot n t (mv n M0 (vsub (s_x s) x)) + rho * dot n t (mv n M0 r)) with (rho * l) by (unfold l; ring).
  set (q := quad n M0 t) in *.
  assert (rho * l + / 2 * (rho * rho * q) <= 0); [|lra].
  replace (rho * l + / 2 * (rho * rho * q)) with (rho * (l + / 2 * (rho * q))) by ring.
  assert (l + / 2 * (rho * q) <= 0) by (destruct (Rle_lt_dec q 0) as [Q|Q]; nra). nra.
Qed.

Lemma cut_range s r t rho i xa : / 10 ^ 15 <= thr -> in_bounds dim lb ub (restored s r) ->
  scan n 0 (vadd (vadd (s_x s) r) t) = (Some i, xa) -> cut s r t rho -> 0 <= rho <= 1.
Proof.
  intros T Y SC CU. destruct (ratio_violated n nsl lb ub thr sl s r t i xa T Y SC) as (a & E & A).
  unfold cut in CU. rewrite E in CU. rewrite Rmax_left in CU by lra. lra.
Qed.

(** bounds of the next state *)
Lemma next_ok k s s' : / 10 ^ 15 <= thr -> keeps_bounds restore -> slack_in ->
  in_bounds n lb ub (s_x s) -> on k s s' -> in_bounds n lb ub (s_x s').
Proof.
  intros T KB SI X (r & t & rp & actr & actt & v & xa & (B1 & B2 & B3) & _ & V).
  pose proof (restored_in restore cvx n nsl lb ub sl k s r rp actr KB SI X B1) as Y.
  destruct v as [i|]; [|destruct V as (-> & _); exact X].
  destruct V as (rho & CU & EX & _ & ED). pose proof (cut_range s r t rho i xa T Y B3 CU) as RR.
  apply (shortened_in n nsl lb ub sl s r t (s_x s') (s_del s') (s_moves s ++ [vadd r (vscal rho t)]) Y). exists rho.
  split; [lra|]. split; [exact CU|]. split; [exact EX|]. split; [exact ED|reflexivity].
Qed.

Lemma later_descends fuel k s x g o : (1 < k)%nat -> symmetric n M0 -> cg_descends cg -> / 10 ^ 15 <= thr -> keeps_bounds restore -> slack_in ->
  in_bounds n lb ub (s_x s) -> grad_ok x g s ->
  tr_loop fuel k s = TrOut o -> lag_model n M0 g (vsub (tr_x o) x) <= lag_model n M0 g (vsub (s_x s) x).
Proof.
  intros K HM CD T KB SI. revert k s K. induction fuel as [|fuel IH]; intros k s K X G E; [discriminate|].
  assert (Z : forall a, lag_model n M0 g (vsub (vadd a vzero) x) = lag_model n M0 g (vsub a x)).
  { intros a. assert (Q : veq n (vsub (vadd a vzero) x) (vsub a x)) by (intros i _; unfold vsub, vadd, vzero; ring).
    unfold lag_model. rewrite (quad_ext _ _ _ _ Q), (dot_ext n g g _ _ (fun i _ => eq_refl) Q). reflexivity. }
  destruct (pass_more k s) as [(res & E' & O)|(s' & E' & O)]; rewrite E' in E.
  - destruct (O o E) as (r & t & rp & actr & actt & v & xa & (B1 & B2 & B3) & X1 & _).
    rewrite rest_later in B1 by exact K. injection B1 as <- _ _. rewrite X1.
    pose proof (part_descends x g s vzero t actt 1 HM CD G B2 ltac:(lra)) as P.
    assert (Q : veq n (vsub (vadd (vadd (s_x s) vzero) (vscal 1 t)) x) (vsub (vadd (vadd (s_x s) vzero) t) x)) by (intros i _; unfold vsub, vadd, vscal; ring).
    unfold lag_model in P at 1. rewrite (quad_ext _ _ _ _ Q), (dot_ext n g g _ _ (fun i _ => eq_refl) Q) in P. fold (lag_model n M0 g (vsub (vadd (vadd (s_x s) vzero) t) x)) in P.
    rewrite Z in P. exact P.
  - pose proof (next_ok k s s' T KB SI X O) as X'.
    destruct O as (r & t & rp & actr & actt & v & xa & (B1 & B2 & B3) & _ & V).
    pose proof (restored_in restore cvx n nsl lb ub sl k s r rp actr KB SI X B1) as Y.
    rewrite rest_later in B1 by exact K. injection B1 as <- _ _.
    destruct v as [i|].
    + destruct V as (rho & CU & EX & EG & ED). pose proof (cut_range s vzero t rho i xa T Y B3 CU) as RR.
      pose proof (grad_step x g s s' vzero (vscal rho t) HM G EX EG) as G'.
      eapply Rle_trans; [apply (IH (S k) s'); [lia|exact X'|exact G'|exact E]|].
      rewrite EX. pose proof (part_descends x g s vzero t actt rho HM CD G B2 RR) as P. rewrite Z in P. exact P.
    + destruct V as (EX & EG & ED & _). rewrite <- EX. apply (IH (S k) s'); [lia|exact X'| |exact E].
      intros a. rewrite EG, EX. apply G.
Qed.

Lemma first_descends fuel s g o : symmetric n M0 -> cg_descends cg -> / 10 ^ 15 <= thr -> keeps_bounds restore -> slack_in ->
  in_bounds n lb ub (s_x s) -> grad_ok (s_x s) g s -> s_fix s = [] ->
  tr_loop fuel 1 s = TrOut o -> exists r rp actr, restoration 1 s = Some (r, rp, actr) /\
  lag_model n M0 g (vsub (tr_x o) (s_x s)) <= lag_model n M0 g r.
Proof.
  intros HM CD T KB SI X G FX E. destruct fuel as [|fuel]; [discriminate|].
  assert (EXT : forall a b, veq n a b -> lag_model n M0 g a = lag_model n M0 g b).
  { intros a b Q. unfold lag_model. rewrite (quad_ext _ _ _ _ Q), (dot_ext n g g _ _ (fun i _ => eq_refl) Q). reflexivity. }
  destruct (pass_more 1 s) as [(res & E' & O)|(s' & E' & O)]; rewrite E' in E.
  - destruct (O o E) as (r & t & rp & actr & actt & v & xa & (B1 & B2 & B3) & X1 & _). exists r, rp, actr. split; [exact B1|].
    rewrite X1. pose proof (part_descends (s_x s) g s r t actt 1 HM CD G B2 ltac:(lra)) as P.
    rewrite (EXT _ (vsub (vadd (vadd (s_x s) r) t) (s_x s))) in P by (intros i _; unfold vsub, vadd, vscal; ring).
    rewrite (EXT (vsub (vadd (s_x s) r) (s_x s)) r) in P by (intros i _; unfold vsub, vadd; ring). exact P.
  - pose proof (next_ok 1 s s' T KB SI X O) as X'.
    destruct O as (r & t & rp & actr & actt & v & xa & (B1 & B2 & B3) & _ & V). exists r, rp, actr. split; [exact B1|].
    pose proof (restored_in restore cvx n nsl lb ub sl 1 s r rp actr KB SI X B1) as Y.
    assert (LD := later_descends fuel 2 s' (s_x s) g o ltac:(lia) HM CD T KB SI X').
    destruct v as [i|].
    + destruct V as (rho & CU & EX & EG & ED). pose proof (cut_range s r t rho i xa T Y B3 CU) as RR.
      specialize (LD (grad_step _ g s s' r (vscal rho t) HM G EX EG) E). eapply Rle_trans; [exact LD|].
      rewrite EX. pose proof (part_descends (s_x s) g s r t actt rho HM CD G B2 RR) as P.
      rewrite (EXT (vsub (vadd (s_x s) r) (s_x s)) r) in P by (intros q _; unfold vsub, vadd; ring). exact P.
    + destruct V as (_ & _ & _ & NF). contradiction.
Qed.
End P.
