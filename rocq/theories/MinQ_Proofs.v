From Coq Require Import Reals Lra Psatz Lia List Arith ZArith Bool.
From Verif Require Import RVec RBool MinQ_Model MinQ_Spec.
Import ListNotations.
Open Scope R_scope.

Ltac rbs := repeat match goal with
  | H : context [Rltb ?x ?y] |- _ => destruct (Rltb_spec x y)
  | H : context [Rleb ?x ?y] |- _ => destruct (Rleb_spec x y)
  | H : context [Reqb ?x ?y] |- _ => destruct (Reqb_spec x y)
  | |- context [Rltb ?x ?y] => destruct (Rltb_spec x y)
  | |- context [Rleb ?x ?y] => destruct (Rleb_spec x y)
  | |- context [Reqb ?x ?y] => destruct (Reqb_spec x y)
  end.

(** shift of a quadratic to a reference point *)
Lemma q1_diff a b s t : q1 a b t - q1 a b s = (t - s) * (b + a * s + / 2 * a * (t - s)).
Proof. unfold q1. field. Qed.

Lemma q1_convex_min a b t : 0 < a -> q1 a b (- b / a) <= q1 a b t.
Proof.
  intros Ha. assert (E : a * (- b / a) = - b) by (field; lra).
  set (s := - b / a) in *. pose proof (q1_diff a b s t) as D.
  replace ((t - s) * (b + a * s + / 2 * a * (t - s))) with (/ 2 * a * ((t - s) * (t - s))) in D by (rewrite E; ring).
  pose proof (Rle_0_sqr (t - s)) as H0. unfold Rsqr in H0.
  assert (0 <= / 2 * a * ((t - s) * (t - s))) by (apply Rmult_le_pos; lra). lra.
Qed.

Lemma convex_low a b lo t : 0 < a -> - b / a <= lo -> lo <= t -> q1 a b lo <= q1 a b t.
Proof.
  intros Ha Hx Ht. pose proof (q1_diff a b lo t) as D.
  assert (0 <= b + a * lo). { assert (a * (- b / a) <= a * lo) by nra. replace (a * (- b / a)) with (- b) in H by (field; lra). lra. }
  assert (0 <= / 2 * a * (t - lo)) by nra. nra.
Qed.

Lemma convex_high a b hi t : 0 < a -> hi <= - b / a -> t <= hi -> q1 a b hi <= q1 a b t.
Proof.
  intros Ha Hx Ht. pose proof (q1_diff a b hi t) as D.
  assert (b + a * hi <= 0). { assert (a * hi <= a * (- b / a)) by nra. replace (a * (- b / a)) with (- b) in H by (field; lra). lra. }
  assert (/ 2 * a * (t - hi) <= 0) by nra. nra.
Qed.

(** concave on a bounded interval: minimal at the better end *)
Lemma concave_ends a b lo hi t : a <= 0 -> lo <= t <= hi ->
  (0 < 2 * b + (lo + hi) * a -> q1 a b lo <= q1 a b t) /\
  (2 * b + (lo + hi) * a <= 0 -> q1 a b hi <= q1 a b t).
Proof.
  intros Ha Ht. pose proof (q1_diff a b lo t) as D1. pose proof (q1_diff a b hi t) as D2. split; intros H.
  - assert (0 <= b + a * lo + / 2 * a * (t - lo)) by nra. nra.
  - assert (b + a * hi + / 2 * a * (t - hi) <= 0) by nra. nra.
Qed.

Lemma linear_ends a b s t : a = 0 -> (0 <= b -> s <= t -> q1 a b s <= q1 a b t) /\ (b <= 0 -> t <= s -> q1 a b s <= q1 a b t).
Proof. intros ->. unfold q1. split; intros; nra. Qed.

Lemma unb_neg_low a b hi : a < 0 -> rle_x 0 hi -> unbounded_below NInf hi a b.
Proof.
  intros Ha Hh M.
  (* t = - K, value a/2 K^2 - b K *)
  set (K := 2 * (Rabs b + Rabs M + 1) / (- a) + 1).
  assert (HK : 1 <= K).
  { unfold K. assert (0 <= 2 * (Rabs b + Rabs M + 1) / - a); [|lra].
    apply Rmult_le_pos; [pose proof (Rabs_pos b); pose proof (Rabs_pos M); lra|].
    left. apply Rinv_0_lt_compat. lra. }
  assert (HaK : a * K <= - 2 * (Rabs b + Rabs M + 1)).
  { unfold K. replace (a * (2 * (Rabs b + Rabs M + 1) / - a + 1)) with (- 2 * (Rabs b + Rabs M + 1) + a) by (field; lra). lra. }
  exists (- K). split.
  - split; [exact I|]. destruct hi; simpl in *; try tauto. lra.
  - unfold q1. pose proof (Rle_abs b). pose proof (Rle_abs (- b)). rewrite Rabs_Ropp in H0.
    pose proof (Rle_abs (- M)). rewrite Rabs_Ropp in H1.
    assert (/ 2 * a * - K * - K + b * - K = K * (/ 2 * (a * K) - b)) by ring. rewrite H2.
    assert (/ 2 * (a * K) - b <= - Rabs M - 1) by lra.
    pose proof (Rabs_pos M).
    assert (K * (/ 2 * (a * K) - b) <= K * (- Rabs M - 1)) by nra. nra.
Qed.

Lemma unb_neg_high a b lo : a < 0 -> xle_r lo 0 -> unbounded_below lo PInf a b.
Proof.
  intros Ha Hl M.
  assert (Hm : rle_x 0 (match lo with Fin r => Fin (- r) | PInf => NInf | NInf => PInf end)).
  { destruct lo; simpl in *; try tauto. lra. }
  destruct (unb_neg_low a (- b) _ Ha Hm M) as [t [[_ H1] H2]].
  exists (- t). split.
  - split; [|exact I]. destruct lo; simpl in *; try tauto. lra.
  - unfold q1 in *. replace (/ 2 * a * - t * - t + b * - t) with (/ 2 * a * t * t + - b * t) by ring. exact H2.
Qed.

Lemma unb_lin_low b hi : 0 < b -> rle_x 0 hi -> unbounded_below NInf hi 0 b.
Proof.
  intros Hb Hh M. exists (- (Rabs M + 1) / b). pose proof (Rabs_pos M). pose proof (Rle_abs (- M)). rewrite Rabs_Ropp in H0.
  assert (E : b * (- (Rabs M + 1) / b) = - (Rabs M + 1)) by (field; lra). split.
  - split; [exact I|]. destruct hi; simpl in *; try tauto.
    assert (- (Rabs M + 1) / b <= 0); [|lra]. nra.
  - unfold q1. rewrite E. lra.
Qed.

Lemma unb_lin_high b lo : b < 0 -> xle_r lo 0 -> unbounded_below lo PInf 0 b.
Proof.
  intros Hb Hl M. exists ((Rabs M + 1) / - b). pose proof (Rabs_pos M). pose proof (Rle_abs (- M)). rewrite Rabs_Ropp in H0.
  assert (E : b * ((Rabs M + 1) / - b) = - (Rabs M + 1)) by (field; lra). split.
  - split; [|exact I]. destruct lo; simpl in *; try tauto.
    assert (0 <= (Rabs M + 1) / - b); [|lra]. nra.
  - unfold q1. rewrite E. lra.
Qed.

(** the answer of [_quadMin], by cases *)
Definition qm_answer (lo hi : xR) (b a : R) (r : qmres) : Prop :=
  match qm_x r with
  | None => unbounded_below lo hi a b /\ qm_ier r = true /\
            (qm_lba r = true -> lo = NInf) /\ (qm_lba r = false -> hi = PInf)
  | Some e => qm_ier r = false /\ exists t, e = Fin t /\ minimiser lo hi a b t /\
      (qm_lba r = true -> lo = Fin t) /\ (qm_uba r = true -> hi = Fin t)
  end.

Lemma quadMin_answer lo hi b a :
  xle_r lo 0 -> rle_x 0 hi -> qm_answer lo hi b a (quadMin lo hi b a).
Proof.
  intros Hlo Hhi. unfold quadMin.
  destruct (is_ninf lo && (Rltb a 0 || (Reqb a 0 && Rltb 0 b))) eqn:E1.
  { apply andb_true_iff in E1. destruct E1 as [E1 E2]. destruct lo; try discriminate. cbn [orb].
    unfold qm_answer; cbn. split; [|split; [reflexivity|split; [reflexivity|discriminate]]].
    apply orb_true_iff in E2. destruct E2 as [E2|E2].
    - rb. apply unb_neg_low; assumption.
    - apply andb_true_iff in E2. destruct E2; rb. subst. apply unb_lin_low; assumption. }
  destruct (is_pinf hi && (Rltb a 0 || (Reqb a 0 && Rltb b 0))) eqn:E2.
  { apply andb_true_iff in E2. destruct E2 as [E2 E3]. destruct hi; try discriminate. cbn [orb].
    unfold qm_answer; cbn. split; [|split; [reflexivity|split; [discriminate|reflexivity]]].
    apply orb_true_iff in E3. destruct E3 as [E3|E3].
    - rb. apply unb_neg_high; assumption.
    - apply andb_true_iff in E3. destruct E3; rb. subst. apply unb_lin_high; assumption. }
  cbn [orb].
  destruct (Reqb_spec a 0) as [Ea|Ea]; cbn [andb].
  - destruct (Reqb_spec b 0) as [Eb|Eb]; cbn [andb].
    + unfold qm_answer; cbn. split; [reflexivity|]. exists 0. split; [reflexivity|].
      split; [|split; discriminate]. split; [split; assumption|]. intros. unfold q1. subst. nra.
    + destruct (Rleb_spec a 0); [|lra].
      destruct (Reqb_spec a 0); [|lra].
      destruct lo as [l| |]; destruct hi as [h| |]; cbn in *; try tauto;
        try (destruct (Rltb_spec a 0); [lra|]); cbn in *.
      * destruct (Rltb_spec 0 (2 * b + (l + h) * a)) as [K|K]; unfold qm_answer; cbn; (split; [reflexivity|]).
        -- exists l. repeat split; cbn; try reflexivity; try lra; try discriminate. intros t [H1 H2]. cbn in *.
           apply (concave_ends a b l h t); lra.
        -- exists h. repeat split; cbn; try reflexivity; try lra; try discriminate. intros t [H1 H2]. cbn in *.
           apply (concave_ends a b l h t); lra.
      * destruct (Rltb_spec b 0); [discriminate|].
        unfold qm_answer; cbn. split; [reflexivity|]. exists l. repeat split; cbn; try reflexivity; try lra; try discriminate.
        intros t [H1 H2]. cbn in *. destruct (linear_ends a b l t) as [L1 L2]; [lra|]. apply L1; lra.
      * destruct (Rltb_spec 0 b); [discriminate|].
        unfold qm_answer; cbn. split; [reflexivity|]. exists h. repeat split; cbn; try reflexivity; try lra; try discriminate.
        intros t [H1 H2]. cbn in *. destruct (linear_ends a b h t) as [L1 L2]; [lra|]. apply L2; lra.
      * destruct (Rltb_spec 0 b); [discriminate|]. destruct (Rltb_spec b 0); [discriminate|]. lra.
  - destruct (Rleb_spec a 0) as [La|La].
    + destruct (Rltb_spec a 0) as [Ln|Ln]; [|lra]. cbn in *.
      destruct lo as [l| |]; destruct hi as [h| |]; cbn in *; try tauto; try discriminate.
      destruct (Rltb_spec 0 (2 * b + (l + h) * a)) as [K|K]; unfold qm_answer; cbn; (split; [reflexivity|]).
      * exists l. repeat split; cbn; try reflexivity; try lra; try discriminate. intros t [H1 H2]. cbn in *.
        apply (concave_ends a b l h t); lra.
      * exists h. repeat split; cbn; try reflexivity; try lra; try discriminate. intros t [H1 H2]. cbn in *.
        apply (concave_ends a b l h t); lra.
    + assert (Ha : 0 < a) by lra.
      unfold qm_answer; cbn.
      assert (HM : forall t, q1 a b (- b / a) <= q1 a b t) by (intros; apply q1_convex_min; exact Ha).
      destruct (xler hi (- b / a)) eqn:Eu.
      * split; [reflexivity|]. apply xler_true in Eu. destruct hi as [h| |]; cbn in Eu, Hhi; try tauto.
        exists h. split; [reflexivity|]. split; [|split; [|reflexivity]].
        -- split; [split; cbn; [destruct lo; cbn in *; try tauto; lra|lra]|].
           intros t [H1 H2]. cbn in *. apply convex_high; lra.
        -- intros El. apply rlex_true in El. destruct lo as [l| |]; cbn in *; try tauto.
           assert (l = h) by lra. congruence.
      * assert (Eu' : forall h, hi = Fin h -> - b / a < h).
        { intros h ->. cbn in Eu. rb. exact Eu. }
        destruct (rlex (- b / a) lo) eqn:El.
        -- split; [reflexivity|]. apply rlex_true in El. destruct lo as [l| |]; cbn in El, Hlo; try tauto.
           exists l. split; [reflexivity|]. split; [|split; [reflexivity|discriminate]].
           split; [split; cbn; [lra|destruct hi; cbn in *; try tauto; lra]|].
           intros t [H1 H2]. cbn in *. apply convex_low; lra.
        -- split; [reflexivity|]. exists (- b / a). split; [reflexivity|]. split; [|split; discriminate].
           split; [|intros; apply HM]. split.
           ++ destruct lo; cbn in *; try tauto; rb; lra.
           ++ destruct hi as [h| |]; cbn in *; try tauto. specialize (Eu' h eq_refl). lra.
Qed.

Lemma not_both lo hi a b t : minimiser lo hi a b t -> unbounded_below lo hi a b -> False.
Proof. intros [_ H1] H2. destruct (H2 (q1 a b t)) as [t' [H3 H4]]. specialize (H1 t' H3). lra. Qed.

Lemma quadMin_min lo hi b a x lba uba :
  xle_r lo 0 -> rle_x 0 hi ->
  quadMin lo hi b a = {| qm_x := Some x; qm_lba := lba; qm_uba := uba; qm_ier := false |} ->
  exists t, x = Fin t /\ minimiser lo hi a b t.
Proof.
  intros H1 H2 E. pose proof (quadMin_answer lo hi b a H1 H2) as A. rewrite E in A. cbn in A.
  destruct A as [_ [t [A1 [A2 _]]]]. exists t. split; assumption.
Qed.

Lemma quadMin_unbounded_iff lo hi b a :
  xle_r lo 0 -> rle_x 0 hi -> (qm_ier (quadMin lo hi b a) = true <-> unbounded_below lo hi a b).
Proof.
  intros H1 H2. pose proof (quadMin_answer lo hi b a H1 H2) as A. unfold qm_answer in A.
  destruct (qm_x _) as [e|].
  - destruct A as [A0 [t [_ [A2 _]]]]. rewrite A0. split; [discriminate|].
    intros U. exfalso. eapply not_both; eassumption.
  - destruct A as [A1 [A2 _]]. split; intros; assumption.
Qed.

(** ** Which coordinates are visited *)

Lemma scan_range n free unfix fuel count k :
  (2 <= n)%nat -> (-1 <= k <= Z.of_nat n - 1)%Z ->
  match scan n free unfix fuel count k with
  | OutOfRange => False
  | Found c k' => (k' < n)%nat /\ ((0 <= k)%Z -> (1 <= k')%nat)
  | Sweep _ _ => True
  end.
Proof.
  revert count k. induction fuel as [|fuel IH]; intros count k Hn Hk; [exact I|].
  cbn [scan]. unfold next_k.
  destruct (Z.eqb_spec k (Z.of_nat n - 1)) as [E|E].
  - destruct (Z.leb_spec (Z.of_nat n) (0 + 1)); [lia|].
    destruct (_ || _).
    + split; lia.
    + specialize (IH (S count) (0 + 1)%Z Hn ltac:(lia)).
      destruct (scan _ _ _ _ _ _); try assumption. destruct IH; split; [assumption|]. intros. lia.
  - destruct (Z.leb_spec (Z.of_nat n) (k + 1)); [lia|].
    destruct (_ || _).
    + split; lia.
    + specialize (IH (S count) (k + 1)%Z Hn ltac:(lia)).
      destruct (scan _ _ _ _ _ _); try assumption. destruct IH as [I1 I2]; split; [assumption|]. intros. apply I2. lia.
Qed.

Definition cs_trace (r : csres) : list nat :=
  match r with CSDone _ t | CSUnbounded _ _ _ t | CSIndexError _ t | CSFuel _ t => t end.

Lemma coord_loop_trace fuel n G xu xo unfix s count k trace :
  (2 <= n)%nat -> (0 <= k <= Z.of_nat n - 1)%Z ->
  exists new, cs_trace (coord_loop fuel n G xu xo unfix s count k trace) = new ++ trace /\
    Forall (fun i => 1 <= i < n)%nat new.
Proof.
  revert s count k trace. induction fuel as [|fuel IH]; intros s count k trace Hn Hk.
  - exists []. split; [reflexivity|constructor].
  - cbn [coord_loop].
    pose proof (scan_range n (cs_free s) unfix (n + 1 - count) count k Hn ltac:(lia)) as SR.
    destruct (scan _ _ _ _ _ _) as [c k'|c k'|].
    + destruct SR as [S1 S2]. specialize (S2 ltac:(lia)).
      destruct (n <? c)%nat.
      * exists []. split; [reflexivity|constructor].
      * destruct (coord_step G xu xo s k') as [[s' reset]|lower].
        -- destruct (IH s' (if reset then 0%nat else c) (Z.of_nat k') (k' :: trace) Hn ltac:(lia)) as [new [E F]].
           exists (new ++ [k']). rewrite <- app_assoc. split; [exact E|].
           apply Forall_app. split; [exact F|]. constructor; [lia|constructor].
        -- exists [k']. split; [reflexivity|]. constructor; [lia|constructor].
    + exists []. split; [reflexivity|constructor].
    + destruct SR.
Qed.

(** Variable 0 is tried at most once, and then first ([trace] is latest first). *)
Lemma search_trace fuel n G xu xo unfix s :
  (2 <= n)%nat ->
  exists later first, cs_trace (coordinateSearch fuel n G xu xo unfix s) = later ++ first /\
    (length first <= 1)%nat /\ Forall (fun i => 1 <= i < n)%nat later.
Proof.
  intros Hn. unfold coordinateSearch. destruct fuel as [|fuel].
  - exists [], []. split; [reflexivity|]. split; [cbn; lia|constructor].
  - cbn [coord_loop].
    pose proof (scan_range n (cs_free s) unfix (n + 1 - 0) 0 (-1) Hn ltac:(lia)) as SR.
    destruct (scan _ _ _ _ _ _) as [c k'|c k'|].
    + destruct SR as [S1 _]. destruct (n <? c)%nat.
      * exists [], []. split; [reflexivity|]. split; [cbn; lia|constructor].
      * destruct (coord_step G xu xo s k') as [[s' reset]|lower].
        -- destruct (coord_loop_trace fuel n G xu xo unfix s' (if reset then 0%nat else c) (Z.of_nat k') [k'] Hn ltac:(lia)) as [new [E F]].
           exists new, [k']. split; [exact E|]. split; [cbn; lia|exact F].
        -- exists [], [k']. split; [reflexivity|]. split; [cbn; lia|constructor].
    + exists [], []. split; [reflexivity|]. split; [cbn; lia|constructor].
    + destruct SR.
Qed.

Lemma search_zero_once fuel n G xu xo unfix s :
  (2 <= n)%nat -> (count_occ Nat.eq_dec (cs_trace (coordinateSearch fuel n G xu xo unfix s)) 0 <= 1)%nat.
Proof.
  intros Hn. destruct (search_trace fuel n G xu xo unfix s Hn) as (l & f & E & Hf & Hl).
  rewrite E, count_occ_app.
  assert (count_occ Nat.eq_dec l 0%nat = 0%nat).
  { apply count_occ_not_In. intros Hin. rewrite Forall_forall in Hl. specialize (Hl 0%nat Hin). lia. }
  pose proof (count_occ_bound Nat.eq_dec 0%nat f). lia.
Qed.

(** In dimension one the search leaves the index range or stops unbounded. *)
Lemma search_dim1 fuel G xu xo unfix s :
  match coordinateSearch (S (S fuel)) 1 G xu xo unfix s with
  | CSIndexError _ _ | CSUnbounded _ _ _ _ => True
  | _ => False
  end.
Proof.
  unfold coordinateSearch. cbn [coord_loop].
  assert (Hs : forall free count c, (count < 2)%nat -> scan 1 free unfix (1 + 1 - count) count (Z.of_nat c) = OutOfRange \/ c <> 0%nat).
  { intros free count c Hc. destruct c; [left|right; lia]. destruct count as [|[|count]]; try lia; reflexivity. }
  cbn [Nat.add Nat.sub scan next_k Z.eqb Z.of_nat].
  cbn -[coord_step coord_loop].
  destruct (cs_free s 0%nat || unfix) eqn:E.
  - cbn -[coord_step scan]. destruct (coord_step G xu xo s 0) as [[s' reset]|lower]; [|exact I].
    destruct reset; cbn; exact I.
  - exact I.
Qed.

(** ** Feasibility and descent *)

Definition cs_state (r : csres) : csstate :=
  match r with CSDone s _ | CSUnbounded _ _ s _ | CSIndexError s _ | CSFuel s _ => s end.

Definition cs_inv (n : nat) (G : mat) (c : vec) (xu xo : nat -> xR) (s : csstate) : Prop :=
  within n xu xo (cs_x s) /\ forall i, (i < n)%nat -> cs_g s i = mv n G (cs_x s) i + c i.

Lemma upd_vadd x k v i : upd x k v i = vadd x (vscal (v - x k) (unitv k)) i.
Proof. unfold upd, vadd, vscal, unitv. destruct (Nat.eqb_spec i k); [subst|]; lra. Qed.

Lemma mv_upd n G x k v i : (k < n)%nat -> mv n G (upd x k v) i = mv n G x i + (v - x k) * G i k.
Proof.
  intros Hk. rewrite (mv_ext n G (upd x k v) (vadd x (vscal (v - x k) (unitv k)))).
  2:{ intros j Hj. apply upd_vadd. }
  unfold mv, vadd, vscal.
  rewrite (rsum_ext n _ (fun j => G i j * x j + (if (j =? k)%nat then (v - x k) * G i k else 0))).
  - rewrite rsum_plus. f_equal. rewrite (rsum_single n k); [rewrite Nat.eqb_refl; reflexivity|exact Hk|].
    intros j Hj Hne. destruct (Nat.eqb_spec j k); [congruence|reflexivity].
  - intros j Hj. unfold unitv. destruct (Nat.eqb_spec j k); [subst|]; lra.
Qed.

Lemma qobj_upd n G c x k v : symmetric n G -> (k < n)%nat ->
  qobj n G c (upd x k v) = qobj n G c x + q1 (G k k) (mv n G x k + c k) (v - x k).
Proof.
  intros HG Hk. unfold qobj.
  rewrite (quad_ext n G (upd x k v) (vadd x (vscal (v - x k) (unitv k)))) by (intros j Hj; apply upd_vadd).
  rewrite (dot_ext n c c (upd x k v) (vadd x (vscal (v - x k) (unitv k)))) by (intros j Hj; try apply upd_vadd; reflexivity).
  rewrite quad_add by exact HG. rewrite quad_scal, dot_add_r, dot_scal_r.
  rewrite dot_mv_scal, (dot_mv_sym n G x (unitv k) HG), dot_unitv, (dot_sym n c (unitv k)), dot_unitv by exact Hk.
  assert (EQ : quad n G (unitv k) = G k k).
  { unfold quad. rewrite dot_unitv by exact Hk. unfold mv. rewrite (rsum_single n k); [|exact Hk|].
    - unfold unitv. rewrite Nat.eqb_refl. lra.
    - intros j Hj Hne. unfold unitv. destruct (Nat.eqb_spec j k); [congruence|lra]. }
  rewrite EQ. unfold q1. field.
Qed.

Lemma coord_step_inv n G c xu xo s k s' reset :
  symmetric n G -> (k < n)%nat -> cs_inv n G c xu xo s ->
  coord_step G xu xo s k = inl (s', reset) ->
  cs_inv n G c xu xo s' /\ qobj n G c (cs_x s') <= qobj n G c (cs_x s) /\
  (forall i, i <> k -> cs_x s' i = cs_x s i).
Proof.
  intros HG Hk [HW HD] E. unfold coord_step in E.
  destruct (HW k Hk) as [Hu Ho].
  assert (Au : xle_r (xsub (xu k) (cs_x s k)) 0) by (destruct (xu k); cbn in *; try tauto; lra).
  assert (Ao : rle_x 0 (xsub (xo k) (cs_x s k))) by (destruct (xo k); cbn in *; try tauto; lra).
  pose proof (quadMin_answer _ _ (cs_g s k) (G k k) Au Ao) as A. unfold qm_answer in A.
  set (r := quadMin (xsub (xu k) (cs_x s k)) (xsub (xo k) (cs_x s k)) (cs_g s k) (G k k)) in *.
  destruct (qm_x r) as [al|]; [|discriminate].
  destruct A as [_ [t [-> [[HI HM] [HL HU]]]]]. cbn [xval] in E.
  (* moving coordinate k by t *)
  assert (MV : forall v fr, v - cs_x s k = t ->
     cs_inv n G c xu xo {| cs_x := upd (cs_x s) k v; cs_g := vadd (cs_g s) (vscal t (fun i => G i k)); cs_free := fr |} /\
     qobj n G c (upd (cs_x s) k v) <= qobj n G c (cs_x s) /\ (forall i, i <> k -> upd (cs_x s) k v i = cs_x s i)).
  { intros v fr Hv. split; [split|split]; cbn [cs_x cs_g].
    - intros i Hi. unfold upd. destruct (Nat.eqb_spec i k) as [->|Hne]; [|apply HW; exact Hi].
      destruct HI as [HI1 HI2]. split.
      + destruct (xu k); cbn in *; try tauto; lra.
      + destruct (xo k); cbn in *; try tauto; lra.
    - intros i Hi. rewrite mv_upd by exact Hk. unfold vadd, vscal. rewrite HD by exact Hi. rewrite Hv. lra.
    - rewrite qobj_upd by assumption. rewrite <- HD by exact Hk. rewrite Hv.
      assert (H0 : q1 (G k k) (cs_g s k) t <= q1 (G k k) (cs_g s k) 0) by (apply HM; split; assumption).
      replace (q1 (G k k) (cs_g s k) 0) with 0 in H0 by (unfold q1; ring). lra.
    - intros i Hne. unfold upd. destruct (Nat.eqb_spec i k); [congruence|reflexivity]. }
  assert (ST : forall fr, cs_inv n G c xu xo {| cs_x := cs_x s; cs_g := cs_g s; cs_free := fr |}) by (intros; split; assumption).
  destruct (qm_lba r || rlex (cs_x s k + t) (xu k)) eqn:EL.
  - assert (Ht : xu k = Fin (cs_x s k + t)).
    { apply orb_true_iff in EL. destruct EL as [EL|EL].
      - specialize (HL EL). destruct (xu k); cbn in HL; try discriminate. injection HL as HL. f_equal. lra.
      - apply rlex_true in EL. destruct HI as [HI1 _]. destruct (xu k); cbn in *; try tauto. f_equal. lra. }
    rewrite Ht in E. cbn [xsub xval xnz] in E. destruct (negb _).
    + injection E as <- <-. replace (cs_x s k + t - cs_x s k) with t by lra. cbn [cs_x]. apply MV. lra.
    + injection E as <- <-. cbn [cs_x]. split; [apply ST|]. split; [lra|reflexivity].
  - destruct (qm_uba r || xler (xo k) (cs_x s k + t)) eqn:EU.
    + assert (Ht : xo k = Fin (cs_x s k + t)).
      { apply orb_true_iff in EU. destruct EU as [EU|EU].
        - specialize (HU EU). destruct (xo k); cbn in HU; try discriminate. injection HU as HU. f_equal. lra.
        - apply xler_true in EU. destruct HI as [_ HI2]. destruct (xo k); cbn in *; try tauto. f_equal. lra. }
      rewrite Ht in E. cbn [xsub xval xnz] in E. destruct (negb _).
      * injection E as <- <-. replace (cs_x s k + t - cs_x s k) with t by lra. cbn [cs_x]. apply MV. lra.
      * injection E as <- <-. cbn [cs_x]. split; [apply ST|]. split; [lra|reflexivity].
    + destruct (Reqb t 0).
      * injection E as <- <-. split; [split; assumption|]. split; [lra|reflexivity].
      * injection E as <- <-. cbn [cs_x]. apply MV. lra.
Qed.

Lemma coord_loop_inv fuel n G c xu xo unfix s count k trace :
  symmetric n G -> (1 <= n)%nat -> (-1 <= k <= Z.of_nat n - 1)%Z -> cs_inv n G c xu xo s ->
  let r := coord_loop fuel n G xu xo unfix s count k trace in
  cs_inv n G c xu xo (cs_state r) /\ qobj n G c (cs_x (cs_state r)) <= qobj n G c (cs_x s).
Proof.
  intros HG. revert s count k trace. induction fuel as [|fuel IH]; intros s count k trace Hn Hk HI.
  - cbn. split; [exact HI|lra].
  - cbn [coord_loop]. cbv zeta.
    assert (SR : match scan n (cs_free s) unfix (n + 1 - count) count k with Found _ k' => (k' < n)%nat | _ => True end).
    { clear - Hn. generalize (n + 1 - count)%nat as f. intros f. revert count k.
      induction f as [|f IH]; intros count k; [exact I|]. cbn [scan].
      destruct (Z.leb_spec (Z.of_nat n) (next_k n k)); [exact I|].
      destruct (_ || _).
      - unfold next_k in *. destruct (Z.eqb_spec k (Z.of_nat n - 1)); lia.
      - apply IH. }
    destruct (scan _ _ _ _ _ _) as [c' k'|c' k'|]; try (cbn; split; [exact HI|lra]).
    destruct (n <? c')%nat; [cbn; split; [exact HI|lra]|].
    destruct (coord_step G xu xo s k') as [[s' reset]|lower] eqn:E.
    + destruct (coord_step_inv n G c xu xo s k' s' reset HG SR HI E) as [I1 [I2 _]].
      destruct (IH s' (if reset then 0%nat else c') (Z.of_nat k') (k' :: trace) Hn ltac:(lia) I1) as [J1 J2].
      split; [exact J1|lra].
    + cbn. split; [exact HI|lra].
Qed.

Lemma search_feasible_descent fuel n G c xu xo unfix s :
  symmetric n G -> (1 <= n)%nat ->
  within n xu xo (cs_x s) -> (forall i, (i < n)%nat -> cs_g s i = mv n G (cs_x s) i + c i) ->
  let s' := cs_state (coordinateSearch fuel n G xu xo unfix s) in
  within n xu xo (cs_x s') /\ (forall i, (i < n)%nat -> cs_g s' i = mv n G (cs_x s') i + c i) /\
  qobj n G c (cs_x s') <= qobj n G c (cs_x s).
Proof.
  intros HG Hn H1 H2. destruct (coord_loop_inv fuel n G c xu xo unfix s 0 (-1) [] HG Hn ltac:(lia) (conj H1 H2)) as [[A1 A2] A3].
  split; [exact A1|]. split; [exact A2|exact A3].
Qed.
