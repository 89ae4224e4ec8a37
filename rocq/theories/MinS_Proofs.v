(** Proofs about the complete search of minq: the coordinate search without gain, and the
    subspace step. *)
From Coq Require Import Reals List Arith ZArith Lra Lia Bool Sorted.
From Verif Require Import RVec RBool MinQ_Model MinQ_Spec MinQ_Proofs LDL_Model LDL_Spec LDL_Proofs MinS_Model MinS_Spec.
Import ListNotations.
Open Scope R_scope.

Lemma fobj_qobj gamma n G c x : fobj gamma n G c x = gamma + qobj n G c x.
Proof. unfold fobj, qobj. lra. Qed.

Lemma calc_fval_ok n G c gamma x : calc_fval n c gamma x (calc_g n G c x) = fobj gamma n G c x.
Proof.
  unfold calc_fval, calc_g, fobj.
  replace (dot n (fun i => c i + (mv n G x i + c i)) x) with (dot n (vadd (vadd c c) (mv n G x)) x).
  2:{ apply dot_ext; intros i Hi; unfold vadd; lra. }
  rewrite !dot_add_l. unfold quad. rewrite (dot_sym n (mv n G x) x). lra.
Qed.

(** ** the box *)
Lemma into_box_nearest n xu xo x : nonempty n xu xo -> nearest n xu xo x (into_box xu xo x).
Proof.
  intros NE. split.
  - intros i Hi. destruct (NE i Hi) as [t [T1 T2]]. unfold into_box, in_itv.
    destruct (xu i), (xo i); cbn in *; try tauto; unfold Rmax, Rmin in *;
      repeat match goal with |- context [Rle_dec ?a ?b] => lazymatch b with context [Rle_dec _ _] => fail | _ => destruct (Rle_dec a b) end end; split; try exact I; lra.
  - intros i t Hi [T1 T2]. unfold into_box.
    destruct (xu i), (xo i); cbn in *; try tauto; unfold Rmax, Rmin in *;
      repeat match goal with |- context [Rle_dec ?a ?b] => lazymatch b with context [Rle_dec _ _] => fail | _ => destruct (Rle_dec a b) end end;
      unfold Rabs; repeat destruct (Rcase_abs _); lra.
Qed.

Lemma nearest_self n xu xo x y : nearest n xu xo x y -> within n xu xo x -> veq n x y.
Proof.
  intros [_ N] W i Hi. specialize (N i (x i) Hi (W i Hi)). replace (x i - x i) with 0 in N by lra. rewrite Rabs_R0 in N.
  pose proof (Rabs_pos (x i - y i)). assert (Rabs (x i - y i) = 0) by lra.
  destruct (Req_dec (x i - y i) 0); [lra|]. apply Rabs_no_R0 in H1. lra.
Qed.

(** ** regular *)
Lemma regular_scaled n neps G : diagonal_scaled n (1 + neps) G (regular neps G).
Proof. intros i j _ _. unfold regular. destruct (Nat.eqb i j); lra. Qed.
Lemma regular_sym n neps G : symmetric n G -> symmetric n (regular neps G).
Proof.
  intros S i j Hi Hj. unfold regular. rewrite (Nat.eqb_sym j i). destruct (Nat.eqb_spec i j); [subst; reflexivity|apply S; assumption].
Qed.
Lemma quad_diag n G i : (i < n)%nat -> quad n G (unitv i) = G i i.
Proof.
  intros Hi. unfold quad. rewrite dot_unitv by exact Hi. unfold mv, unitv.
  rewrite (rsum_single n i); [rewrite Nat.eqb_refl; lra|exact Hi|]. intros j _ Hne. destruct (Nat.eqb_spec j i); [congruence|lra].
Qed.
Lemma regular_psd n neps G : 0 <= neps -> possemidef n G -> possemidef n (regular neps G).
Proof.
  intros Hp P x. 
  assert (E : quad n (regular neps G) x = quad n G x + rsum n (fun i => neps * G i i * (x i * x i))).
  { unfold quad, dot. rewrite <- rsum_plus. apply rsum_ext. intros i Hi. unfold mv.
    rewrite (rsum_ext n (fun j => regular neps G i j * x j) (fun j => G i j * x j + (if Nat.eqb j i then neps * G i i * x i else 0))).
    - rewrite rsum_plus, (rsum_single n i (fun j => if Nat.eqb j i then _ else _)); [rewrite Nat.eqb_refl; ring|exact Hi|].
      intros j _ Hne. destruct (Nat.eqb_spec j i); [congruence|reflexivity].
    - intros j Hj. unfold regular. rewrite (Nat.eqb_sym j i). destruct (Nat.eqb_spec i j); [subst; ring|ring]. }
  rewrite E. assert (0 <= rsum n (fun i => neps * G i i * (x i * x i))); [|specialize (P x); lra].
  apply rsum_nonneg. intros i Hi. specialize (P (unitv i)). rewrite quad_diag in P by exact Hi.
  apply Rmult_le_pos; [apply Rmult_le_pos; assumption|apply Rle_0_sqr].
Qed.

(** ** a coordinate step, again: either nothing moves and the coordinate is optimal, or the value falls *)
Lemma q1_strict a b t : 0 <= a -> (forall u, 0 <= u <= 1 -> q1 a b t <= q1 a b (u * t)) -> q1 a b t = 0 -> t <> 0 -> a = 0 /\ b = 0.
Proof.
  intros Ha Hm E T. unfold q1 in *.
  pose proof (Hm (/ 2) ltac:(lra)) as M. 
  assert (A : a * (t * t) <= 0) by nra.
  assert (P : 0 < t * t) by nra. assert (a = 0) by nra. subst. split; [reflexivity|]. nra.
Qed.

Lemma coord_step_gain n G c xu xo s k s' reset :
  symmetric n G -> possemidef n G -> (k < n)%nat -> cs_inv n G c xu xo s ->
  coord_step G xu xo s k = inl (s', reset) -> qobj n G c (cs_x s) <= qobj n G c (cs_x s') ->
  reset = false /\ cs_x s' = cs_x s /\ cs_g s' = cs_g s /\
  minimiser (xsub (xu k) (cs_x s k)) (xsub (xo k) (cs_x s k)) (G k k) (cs_g s k) 0.
Proof.
  intros HG PS Hk [HW HD] E GE. unfold coord_step in E.
  destruct (HW k Hk) as [Hu Ho].
  assert (Au : xle_r (xsub (xu k) (cs_x s k)) 0) by (destruct (xu k); cbn in *; try tauto; lra).
  assert (Ao : rle_x 0 (xsub (xo k) (cs_x s k))) by (destruct (xo k); cbn in *; try tauto; lra).
  assert (Gk : 0 <= G k k) by (rewrite <- (quad_diag n G k Hk); apply PS).
  pose proof (quadMin_answer _ _ (cs_g s k) (G k k) Au Ao) as A. unfold qm_answer in A.
  assert (Z00 : G k k = 0 -> cs_g s k = 0 ->
     quadMin (xsub (xu k) (cs_x s k)) (xsub (xo k) (cs_x s k)) (cs_g s k) (G k k) =
     {| qm_x := Some (Fin 0); qm_lba := false; qm_uba := false; qm_ier := false |}).
  { intros -> ->. unfold quadMin. rewrite (proj2 (Rltb_false 0 0)) by lra.
    rewrite (proj2 (Reqb_true 0 0)) by reflexivity. cbn. rewrite !andb_false_r. reflexivity. }
  set (r := quadMin (xsub (xu k) (cs_x s k)) (xsub (xo k) (cs_x s k)) (cs_g s k) (G k k)) in *.
  destruct (qm_x r) as [al|] eqn:QX; [|discriminate].
  destruct A as [_ [t [-> [[HI HM] [HL HU]]]]]. cbn [xval] in E.
  assert (H0 : q1 (G k k) (cs_g s k) t <= q1 (G k k) (cs_g s k) 0) by (apply HM; split; assumption).
  replace (q1 (G k k) (cs_g s k) 0) with 0 in H0 by (unfold q1; ring).
  assert (MV : forall v, v - cs_x s k = t -> qobj n G c (cs_x s) <= qobj n G c (upd (cs_x s) k v) -> t = 0).
  { intros v Hv Q. rewrite qobj_upd in Q by assumption. rewrite <- HD in Q by exact Hk. rewrite Hv in Q.
    destruct (Req_dec t 0) as [|T]; [assumption|]. exfalso.
    destruct (q1_strict (G k k) (cs_g s k) t Gk) as [A B]; [|lra|exact T|].
    - intros u U. apply HM. destruct HI as [I1 I2].
      split; [destruct (xsub (xu k) _)|destruct (xsub (xo k) _)]; cbn in *; try tauto; nra.
    - rewrite (Z00 A B) in QX. cbn in QX. injection QX as QX. congruence. }
  assert (T0 : t = 0 /\ reset = false /\ cs_x s' = cs_x s /\ cs_g s' = cs_g s).
  { destruct (qm_lba r || rlex (cs_x s k + t) (xu k)) eqn:EL.
    - assert (Ht : xu k = Fin (cs_x s k + t)).
      { apply orb_true_iff in EL. destruct EL as [EL|EL].
        - specialize (HL EL). destruct (xu k); cbn in HL; try discriminate. injection HL as HL. f_equal. lra.
        - apply rlex_true in EL. destruct HI as [HI1 _]. destruct (xu k); cbn in *; try tauto. f_equal. lra. }
      rewrite Ht in E. cbn [xsub xval xnz] in E. destruct (Reqb_spec (cs_x s k + t - cs_x s k) 0) as [Z|Z]; cbn [negb] in E.
      + injection E as <- <-. cbn [cs_x]. repeat split. lra.
      + injection E as <- <-. exfalso. apply Z. cbn [cs_x] in GE.
        pose proof (MV (cs_x s k + t) ltac:(lra) GE). lra.
    - destruct (qm_uba r || xler (xo k) (cs_x s k + t)) eqn:EU.
      + assert (Ht : xo k = Fin (cs_x s k + t)).
        { apply orb_true_iff in EU. destruct EU as [EU|EU].
          - specialize (HU EU). destruct (xo k); cbn in HU; try discriminate. injection HU as HU. f_equal. lra.
          - apply xler_true in EU. destruct HI as [_ HI2]. destruct (xo k); cbn in *; try tauto. f_equal. lra. }
        rewrite Ht in E. cbn [xsub xval xnz] in E. destruct (Reqb_spec (cs_x s k + t - cs_x s k) 0) as [Z|Z]; cbn [negb] in E.
        * injection E as <- <-. cbn [cs_x]. repeat split. lra.
        * injection E as <- <-. exfalso. apply Z. cbn [cs_x] in GE.
          pose proof (MV (cs_x s k + t) ltac:(lra) GE). lra.
      + destruct (Reqb_spec t 0) as [Z|Z].
        * injection E as <- <-. repeat split. exact Z.
        * injection E as <- <-. exfalso. apply Z. cbn [cs_x] in GE. apply (MV (cs_x s k + t)); [lra|exact GE]. }
  destruct T0 as (-> & R1 & R2 & R3). repeat split; try assumption; try (apply Au); try (apply Ao).
Qed.

(** with every variable allowed and no gain, all variables are tried *)
Lemma coord_loop_no_gain fuel n G c xu xo s count trace s' tr :
  symmetric n G -> possemidef n G -> (2 <= n)%nat -> (count <= n)%nat -> cs_inv n G c xu xo s ->
  coord_loop fuel n G xu xo true s count (Z.of_nat count - 1) trace = CSDone s' tr ->
  qobj n G c (cs_x s) <= qobj n G c (cs_x s') ->
  cs_x s' = cs_x s /\ forall k, (count <= k < n)%nat ->
    minimiser (xsub (xu k) (cs_x s k)) (xsub (xo k) (cs_x s k)) (G k k) (cs_g s k) 0.
Proof.
  intros HG PS Hn. revert s count trace. induction fuel as [|fuel IH]; intros s count trace Hc HI E GE; [discriminate|].
  cbn [coord_loop] in E. replace (n + 1 - count)%nat with (S (n - count)) in E by lia. cbn [scan] in E.
  rewrite orb_true_r in E. unfold next_k in E.
  destruct (Z.eqb_spec (Z.of_nat count - 1) (Z.of_nat n - 1)) as [Q|Q].
  - assert (count = n) by lia. subst count.
    destruct (Z.leb_spec (Z.of_nat n) (0 + 1)); [lia|].
    rewrite (proj2 (Nat.ltb_lt n (S n))) in E by lia. injection E as <- _. split; [reflexivity|]. intros; lia.
  - destruct (Z.leb_spec (Z.of_nat n) (Z.of_nat count - 1 + 1)); [lia|].
    rewrite (proj2 (Nat.ltb_ge n (S count))) in E by lia.
    replace (Z.to_nat (Z.of_nat count - 1 + 1)) with count in E by lia.
    destruct (coord_step G xu xo s count) as [[s1 reset]|] eqn:St; [|discriminate].
    destruct (coord_step_inv n G c xu xo s count s1 reset HG ltac:(lia) HI St) as [I1 [I2 _]].
    assert (GE1 : qobj n G c (cs_x s1) <= qobj n G c (cs_x s) /\ qobj n G c (cs_x s') <= qobj n G c (cs_x s1)).
    { split; [exact I2|].
      pose proof (coord_loop_inv fuel n G c xu xo true s1 (if reset then 0%nat else S count) (Z.of_nat count) (count :: trace) HG ltac:(lia) ltac:(lia) I1) as [_ J].
      rewrite E in J. exact J. }
    destruct (coord_step_gain n G c xu xo s count s1 reset HG PS ltac:(lia) HI St ltac:(lra)) as (-> & X & Gr & M).
    replace (Z.of_nat count) with (Z.of_nat (S count) - 1)%Z in E by lia.
    destruct (IH s1 (S count) (count :: trace) ltac:(lia) I1 E ltac:(rewrite X; lra)) as [Y1 Y2].
    split; [congruence|]. intros k Hk. destruct (Nat.eq_dec k count) as [->|]; [exact M|].
    rewrite <- X, <- Gr. apply Y2. lia.
Qed.

(** coordinate-wise optimality is optimality for a convex function *)
Lemma kkt_optimal gamma n G c xu xo x :
  symmetric n G -> possemidef n G -> within n xu xo x ->
  (forall k, (k < n)%nat -> minimiser (xsub (xu k) (x k)) (xsub (xo k) (x k)) (G k k) (mv n G x k + c k) 0) ->
  lowest_in_box gamma n G c xu xo x.
Proof.
  intros HG PS W K. split; [exact W|]. intros y Wy. rewrite !fobj_qobj.
  set (v := vsub y x).
  assert (E : qobj n G c y = qobj n G c x + dot n (fun i => mv n G x i + c i) v + / 2 * quad n G v).
  { unfold qobj. assert (V : veq n y (vadd x v)) by (intros i _; unfold v, vadd, vsub; lra).
    rewrite (quad_ext n G y _ V), quad_add by exact HG.
    rewrite (dot_ext n c c y (vadd x v)) by (try exact V; intros i _; reflexivity). rewrite dot_add_r.
    replace (dot n (fun i => mv n G x i + c i) v) with (dot n (vadd (mv n G x) c) v) by reflexivity.
    rewrite dot_add_l. rewrite (dot_sym n (mv n G x) v). try rewrite (dot_mv_sym n G x v) by exact HG. lra. }
  assert (D : 0 <= dot n (fun i => mv n G x i + c i) v).
  { apply rsum_nonneg. intros i Hi. destruct (K i Hi) as [_ M].
    set (b := mv n G x i + c i) in *. set (t := v i). fold t.
    (* q1(u t) >= 0 for all u in [0,1] *)
    assert (Q : forall u, 0 <= u <= 1 -> 0 <= / 2 * G i i * (u * t) * (u * t) + b * (u * t)).
    { intros u U. assert (H : q1 (G i i) b 0 <= q1 (G i i) b (u * t)).
      { apply M. pose proof (W i Hi) as [W1 W2]. pose proof (Wy i Hi) as [Y1 Y2]. unfold t, v, vsub.
        split; [destruct (xu i)|destruct (xo i)]; cbn in *; try tauto; nra. }
      unfold q1 in H. lra. }
    destruct (Rle_dec 0 (b * t)) as [|N]; [assumption|exfalso].
    assert (Gi : 0 <= G i i) by (rewrite <- (quad_diag n G i Hi); apply PS).
    set (A := / 2 * G i i * (t * t)). set (B := - (b * t)). assert (HB : 0 < B) by (unfold B; lra).
    assert (HA : 0 <= A) by (unfold A; pose proof (Rle_0_sqr t); unfold Rsqr in *; nra).
    assert (Q' : forall u, 0 <= u <= 1 -> 0 <= A * (u * u) - B * u).
    { intros u U. specialize (Q u U). unfold A, B. lra. }
    specialize (Q' (B / (A + B + B))).
    assert (U : 0 < B / (A + B + B) <= 1).
    { split; [apply Rdiv_lt_0_compat; lra|]. apply (Rmult_le_reg_r (A + B + B)); [lra|]. unfold Rdiv. rewrite Rmult_assoc, Rinv_l by lra. lra. }
    specialize (Q' ltac:(lra)). set (u := B / (A + B + B)) in *.
    assert (A * u < B). { assert (u * (A + B + B) = B) by (unfold u; field; lra). nra. }
    nra. }
  specialize (PS v). lra.
Qed.
