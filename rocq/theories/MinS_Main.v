(** Proofs about the main loop of minq. *)
From Coq Require Import Reals List Arith ZArith Lra Lia Bool.
From Verif Require Import RVec RBool MinQ_Model MinQ_Spec MinQ_Proofs LDL_Model LDL_Spec LDL_Proofs MinS_Model MinS_Spec MinS_Proofs MinS_Sub.
Import ListNotations.
Open Scope R_scope.

Lemma in_filter_seq f n i : In i (filter f (seq 0 n)) -> (i < n)%nat.
Proof. rewrite filter_In, in_seq. lia. Qed.

Lemma qobj_ext n G c x y : veq n x y -> qobj n G c x = qobj n G c y.
Proof. intros E. unfold qobj. rewrite (quad_ext n G x y E). rewrite (dot_ext n c c x y) by (try exact E; intros i _; reflexivity). reflexivity. Qed.

Section Main.
Variables (neps : R) (slv : solver) (n : nat) (G : mat) (c : vec) (gamma : R) (xu xo : nat -> xR).
Hypothesis NP : 0 <= neps.
Hypothesis HG : symmetric n G.
Hypothesis Hn : (2 <= n)%nat.

Notation sub s := (subspaceSearch neps slv n G xu xo s).

Definition g_ok (s : mqstate) : Prop := forall i, (i < n)%nat -> m_g s i = calc_g n G c (m_x s) i.

Lemma sub_spec s : within n xu xo (m_x s) -> g_ok s -> positive n (m_d s) ->
  match sub s with
  | SubRaise => True
  | SubNaN x => x = m_x s /\ ~ all_finite n xu xo
  | SubDone s' => within n xu xo (m_x s') /\ positive n (m_d s') /\ m_fval s' = m_fval s /\ m_improved s' = m_improved s /\
      m_nitref s' = m_nitref s /\
      (m_improved s = false -> m_x s' = m_x s) /\ (possemidef n G -> qobj n G c (m_x s') <= qobj n G c (m_x s))
  end.
Proof.
  intros W Hg P. unfold subspaceSearch.
  destruct (negb (m_improved s) || _) eqn:E1.
  { split; [exact W|]. split; [exact P|]. repeat split. intros; apply Rle_refl. }
  apply orb_false_iff in E1. destruct E1 as [E1 _]. apply negb_false_iff in E1.
  destruct (m_nfree s =? 0)%nat; [cbn; split; [exact W|]; split; [exact P|]; repeat split; intros; apply Rle_refl|].
  unfold subspace. destruct (downdate _ _ _ _ _ _ _) as [[[L1 d1] K1]|] eqn:D; [|exact I].
  pose proof (downdate_diag neps slv NP n _ _ _ _ _ _ _ (fun j H => in_filter_seq _ _ _ H) P D) as P1.
  destruct (update _ _ _ _ _ _ _ _) as [[[L2 d2] K2]|] eqn:U; [|exact I].
  pose proof (update_diag neps slv NP n G _ _ _ _ _ _ _ (fun j H => in_filter_seq _ _ _ H) P1 U) as P2.
  unfold newton. destruct (slv n L2 _) as [y|]; [|exact I].
  destruct (existsb _ _) eqn:Z.
  { exfalso. apply existsb_exists in Z. destruct Z as (i & Hi & Zi). apply in_seq in Hi. rb. specialize (P2 i ltac:(lia)). lra. }
  destruct (slv n (fun i j => L2 j i) _) as [z|]; [|exact I]. set (p := vneg z).
  destruct (range_zero n xu xo (m_x s) p W) as [R1 R2].
  pose proof (quadMin_answer _ _ (slope neps n (m_g s) p) (quad n G p) R1 R2) as A. unfold qm_answer in A. cbv zeta.
  destruct (quadMin _ _ _ _) as [qx lb ub ier] eqn:Q. cbn [qm_x qm_lba qm_uba qm_ier] in *. destruct qx as [al|].
  - destruct A as [-> [t [-> [[T _] _]]]]. cbn [m_x m_d m_fval m_improved m_nitref xval].
    split; [apply moved_within; assumption|]. split; [exact P2|]. split; [reflexivity|]. split; [reflexivity|]. split; [reflexivity|]. split; [congruence|].
    intros PS. exact (line_descent neps n G c xu xo (m_x s) p (m_g s) (Fin t) lb ub HG PS W Hg Q).
  - split; [reflexivity|]. intros F. destruct A as (_ & _ & A1 & A2).
    destruct (moving n p) as [|i0 l] eqn:M.
    + assert (Z0 : forall i, (i < n)%nat -> p i = 0).
      { intros i Hi. destruct (Req_dec (p i) 0) as [|N]; [assumption|]. assert (H : In i (moving n p)) by (apply moving_in; split; assumption).
        rewrite M in H. destruct H. }
      assert (S0 : slope neps n (m_g s) p = 0).
      { unfold slope. replace (dot n (m_g s) p) with 0; [destruct (Rltb _ _); reflexivity|].
        symmetry. apply rsum_zero. intros i Hi. rewrite Z0 by exact Hi. lra. }
      assert (Q0 : quad n G p = 0) by (unfold quad; apply rsum_zero; intros i Hi; rewrite Z0 by exact Hi; lra).
      rewrite S0, Q0 in Q. unfold quadMin in Q. rewrite (proj2 (Rltb_false 0 0)) in Q by lra.
      rewrite (proj2 (Reqb_true 0 0)) in Q by reflexivity. cbn in Q. rewrite !andb_false_r in Q. discriminate.
    + destruct (range_finite n xu xo (m_x s) p F ltac:(congruence)) as [[a Ea] [b Eb]].
      destruct lb; [specialize (A1 eq_refl)|specialize (A2 eq_refl)]; congruence.
Qed.

(** after the coordinate search *)
Definition start (s : mqstate) : csstate := {| cs_x := m_x s; cs_g := calc_g n G c (m_x s); cs_free := m_free s |}.

Lemma coord_spec cfuel s : within n xu xo (m_x s) ->
  let r := coordinateSearch cfuel n G xu xo (m_unfix s) (start s) in
  cs_inv n G c xu xo (cs_state r) /\ qobj n G c (cs_x (cs_state r)) <= qobj n G c (m_x s).
Proof.
  intros W. destruct (search_feasible_descent cfuel n G c xu xo (m_unfix s) (start s) HG ltac:(lia) W) as (A & B & C).
  - intros i Hi. reflexivity.
  - split; [split; assumption|exact C].
Qed.

Lemma gain_ok x g f : (forall i, (i < n)%nat -> g i = calc_g n G c x i) ->
  f - gamma - / 2 * dot n x (fun i => c i + g i) = f - fobj gamma n G c x.
Proof.
  intros E. rewrite <- calc_fval_ok. unfold calc_fval. rewrite (dot_sym n x).
  rewrite (dot_ext n (fun i => c i + g i) (fun i => c i + calc_g n G c x i) x x); [lra| |]; intros i Hi; [rewrite E by exact Hi; reflexivity|reflexivity].
Qed.

Lemma after_g s cs f : cs_inv n G c xu xo cs -> g_ok (after_coord n G c gamma s cs f).
Proof.
  intros [W I] i Hi. unfold after_coord. cbn [m_g m_x]. destruct (m_unfix s && _); [reflexivity|]. apply I, Hi.
Qed.

(** feasibility, and no NaN for finite bounds *)
Lemma loop_feasible fuel cfuel : forall s, within n xu xo (m_x s) -> positive n (m_d s) ->
  match mq_loop neps slv n G c gamma xu xo fuel cfuel s with
  | MqReturn _ x _ _ _ => within n xu xo x
  | MqNaN x => within n xu xo x /\ ~ all_finite n xu xo
  | _ => True
  end.
Proof.
  induction fuel as [|fuel IH]; intros s W P; cbn [mq_loop]; [exact I|].
  destruct (stop_reason _ _ _ _ _) as [why|]; [exact W|].
  pose proof (coord_spec cfuel s W) as CS. unfold start in CS. cbv zeta in CS.
  destruct (coordinateSearch _ _ _ _ _ _ _) as [cs tr|k lower cs tr|cs tr|cs tr]; cbn [cs_state] in CS; destruct CS as [CI CD]; try exact I.
  2:{ apply CI. }
  destruct tr as [|k tr]; [apply CI|].
  set (s1 := after_coord n G c gamma s cs _).
  assert (W1 : within n xu xo (m_x s1)) by apply CI.
  assert (G1 : g_ok s1) by (apply after_g, CI).
  pose proof (sub_spec s1 W1 G1 P) as SS. destruct (sub s1) as [|x|s2]; [exact I| |].
  - destruct SS as [-> F]. split; assumption.
  - apply IH; apply SS.
Qed.

Lemma best_ok s : (m_fval s = None \/ exists f, m_fval s = Some f /\ fobj gamma n G c (m_x s) <= f) ->
  best_value n G c gamma s = fobj gamma n G c (m_x s).
Proof.
  intros F. unfold best_value. rewrite calc_fval_ok. destruct (_ =? _)%nat; [|reflexivity].
  destruct F as [->|[f [-> L]]]; [reflexivity|]. unfold Rmin. destruct (Rle_dec _ _); lra.
Qed.

(** what a return means *)
Definition good_return (x0 : vec) (o : mqout) : Prop :=
  match o with
  | MqReturn why x fval info _ =>
      fobj gamma n G c x <= fobj gamma n G c x0 /\
      (exists f, fval = Some f /\ fobj gamma n G c x <= f /\ (info <> 1%Z -> f = fobj gamma n G c x)) /\
      (why = NoImprovement -> lowest_in_box gamma n G c xu xo x)
  | _ => True
  end.

Lemma loop_convex fuel cfuel x0 : possemidef n G -> forall s, within n xu xo (m_x s) -> positive n (m_d s) ->
  (m_fval s = None \/ exists f, m_fval s = Some f /\ fobj gamma n G c (m_x s) <= f) ->
  fobj gamma n G c (m_x s) <= fobj gamma n G c x0 ->
  (m_improved s = false -> lowest_in_box gamma n G c xu xo (m_x s)) ->
  good_return x0 (mq_loop neps slv n G c gamma xu xo fuel cfuel s).
Proof.
  intros PS. induction fuel as [|fuel IH]; intros s W P F Q0 Imp; cbn [mq_loop]; [exact I|].
  pose proof (best_ok s F) as BV.
  destruct (stop_reason n G c gamma s) as [why|] eqn:SR.
  { cbn. split; [exact Q0|]. split; [exists (best_value n G c gamma s); split; [reflexivity|split; [lra|intros _; exact BV]]|].
    intros ->. apply Imp. unfold stop_reason in SR. destruct (_ && _); [discriminate|].
    destruct (m_improved s); [|reflexivity]. cbn [negb] in SR. destruct (3 <? _)%nat; [discriminate|].
    destruct (_ && _); discriminate. }
  pose proof (coord_spec cfuel s W) as CS. unfold start in CS. cbv zeta in CS.
  destruct (coordinateSearch _ _ _ _ _ _ _) as [cs tr|k lower cs tr|cs tr|cs tr] eqn:CE; cbn [cs_state] in CS; destruct CS as [CI CD]; try exact I.
  2:{ cbn. rewrite !fobj_qobj in *. split; [lra|]. split; [|discriminate].
      exists (best_value n G c gamma s). split; [reflexivity|]. split; [lra|]. intros X. exfalso. apply X. reflexivity. }
  assert (NoMove : tr = [] -> cs_x cs = m_x s).
  { intros ->. unfold coordinateSearch in CE. destruct cfuel as [|f]; [discriminate|]. cbn [coord_loop] in CE.
    destruct (scan _ _ _ _ _ _) as [c' k'|c' k'|]; [|injection CE as <-; reflexivity|discriminate].
    destruct (n <? c')%nat; [injection CE as <-; reflexivity|].
    destruct (coord_step _ _ _ _ _) as [[s' r]|]; [|discriminate]. exfalso.
    assert (L : forall fu s0 co ko tr0, (length (cs_trace (coord_loop fu n G xu xo (m_unfix s) s0 co ko tr0)) >= length tr0)%nat).
    { clear. induction fu as [|fu IH]; intros; cbn [coord_loop]; [cbn; lia|].
      destruct (scan _ _ _ _ _ _); try (cbn; lia). destruct (n <? _)%nat; [cbn; lia|].
      destruct (coord_step _ _ _ _ _) as [[? ?]|]; [|cbn; lia]. eapply Nat.le_trans; [|apply IH]. cbn. lia. }
    specialize (L f s' (if r then 0%nat else c') (Z.of_nat k') [k']). rewrite CE in L. cbn in L. lia. }
  destruct tr as [|k tr].
  { cbn. rewrite (NoMove eq_refl). split; [exact Q0|]. split; [|discriminate].
    exists (best_value n G c gamma s). split; [reflexivity|]. split; [lra|intros _; exact BV]. }
  set (s1 := after_coord n G c gamma s cs _).
  assert (W1 : within n xu xo (m_x s1)) by apply CI.
  assert (G1 : g_ok s1) by (apply after_g, CI).
  assert (I1 : m_improved s1 = false -> lowest_in_box gamma n G c xu xo (m_x s1)).
  { intros E. unfold s1, after_coord in E. cbn [m_improved] in E. apply orb_false_iff in E. destruct E as [E1 E2].
    apply negb_false_iff in E2. change (m_x s1) with (cs_x cs).
    rewrite gain_ok in E1.
    2:{ intros i Hi. destruct (m_unfix s && _); [reflexivity|]. apply CI, Hi. }
    apply Rltb_false in E1. rewrite BV, !fobj_qobj in E1.
    unfold coordinateSearch in CE. rewrite E2 in CE.
    destruct (coord_loop_no_gain cfuel n G c xu xo {| cs_x := m_x s; cs_g := calc_g n G c (m_x s); cs_free := m_free s |} 0 [] cs (k :: tr) HG PS Hn ltac:(lia)) as [X M].
    - split; [exact W|]. intros i Hi. reflexivity.
    - exact CE.
    - cbn [cs_x]. lra.
    - cbn [cs_x cs_g] in X, M. rewrite X. apply kkt_optimal; try assumption. intros j Hj. apply (M j). lia. }
  pose proof (sub_spec s1 W1 G1 P) as SS. destruct (sub s1) as [|x|s2]; [exact I|exact I|].
  destruct SS as (S1 & S2 & S3 & S4 & S5 & S6 & S7). specialize (S7 PS).
  assert (D1 : fobj gamma n G c (m_x s2) <= fobj gamma n G c (m_x s1)) by (rewrite !fobj_qobj; lra).
  assert (D2 : fobj gamma n G c (m_x s1) <= fobj gamma n G c (m_x s)) by (rewrite !fobj_qobj; unfold s1, after_coord; cbn [m_x]; lra).
  apply IH; try assumption.
  - right. exists (best_value n G c gamma s). split; [rewrite S3; reflexivity|]. lra.
  - lra.
  - intros E. rewrite S4 in E. rewrite (S6 E). apply I1, E.
Qed.

(** the codes returned, and unboundedness *)
Lemma loop_codes fuel cfuel : forall s, within n xu xo (m_x s) -> positive n (m_d s) ->
  match mq_loop neps slv n G c gamma xu xo fuel cfuel s with
  | MqReturn why x _ info _ =>
      info = match why with Limit => 99 | CoordUnbounded => 1 | NothingTried => -1 | _ => 0 end%Z /\
      (info = 1%Z -> ~ all_finite n xu xo /\ forall M, exists y, within n xu xo y /\ fobj gamma n G c y < M)
  | _ => True
  end.
Proof.
  induction fuel as [|fuel IH]; intros s W P; cbn [mq_loop]; [exact I|].
  destruct (stop_reason _ _ _ _ _) as [why|] eqn:SR.
  { unfold stop_reason in SR. unfold stop_info.
    assert (NW : why <> CoordUnbounded /\ why <> NothingTried).
    { repeat match type of SR with (if ?b then _ else _) = _ => destruct b end; try discriminate SR; injection SR as <-; split; discriminate. }
    destruct NW. destruct why; try contradiction; split; try reflexivity; discriminate. }
  pose proof (coord_spec cfuel s W) as CS. unfold start in CS. cbv zeta in CS.
  destruct (coordinateSearch _ _ _ _ _ _ _) as [cs tr|k lower cs tr|cs tr|cs tr] eqn:CE; cbn [cs_state] in CS; destruct CS as [CI CD]; try exact I.
  2:{ split; [reflexivity|]. intros _.
      assert (U : forall fu s0 co ko tr0, (-1 <= ko <= Z.of_nat n - 1)%Z -> cs_inv n G c xu xo s0 ->
         coord_loop fu n G xu xo (m_unfix s) s0 co ko tr0 = CSUnbounded k lower cs tr ->
         (k < n)%nat /\ coord_step G xu xo cs k = inr lower).
      { clear - HG Hn. induction fu as [|fu IH]; intros s0 co ko tr0 Hk HI E; [discriminate|]. cbn [coord_loop] in E.
        pose proof (scan_range n (cs_free s0) (m_unfix s) (n + 1 - co) co ko Hn Hk) as SR.
        destruct (scan _ _ _ _ _ _) as [c' k'|c' k'|]; try discriminate.
        destruct (n <? c')%nat; [discriminate|].
        destruct (coord_step G xu xo s0 k') as [[s' r]|lo] eqn:St.
        - destruct (coord_step_inv n G c xu xo s0 k' s' r HG (proj1 SR) HI St) as [I1 _].
          refine (IH _ _ _ _ _ I1 E). destruct SR. lia.
        - injection E as -> -> -> _. split; [apply SR|exact St]. }
      destruct (U cfuel (start s) 0%nat (-1)%Z [] ltac:(lia)) as [Hk St].
      { split; [exact W|]. intros i Hi. reflexivity. }
      { exact CE. }
      destruct CI as [CW Cg]. destruct (CW k Hk) as [Hu Ho]. unfold coord_step in St.
      assert (Au : xle_r (xsub (xu k) (cs_x cs k)) 0) by (destruct (xu k); cbn in *; try tauto; lra).
      assert (Ao : rle_x 0 (xsub (xo k) (cs_x cs k))) by (destruct (xo k); cbn in *; try tauto; lra).
      pose proof (quadMin_answer _ _ (cs_g cs k) (G k k) Au Ao) as A. unfold qm_answer in A. cbv zeta in St.
      destruct (qm_x _) as [al|].
      { exfalso. repeat match type of St with (if ?b then _ else _) = _ => destruct b end; discriminate. }
      destruct A as (A & _ & A1 & A2). split.
      { intros F. destruct (F k Hk) as [[a Ea] [b Eb]]. rewrite Ea, Eb in *. cbn [xsub] in A1, A2.
        destruct (qm_lba _); [specialize (A1 eq_refl)|specialize (A2 eq_refl)]; discriminate. }
      intros M. destruct (A (M - gamma - qobj n G c (cs_x cs))) as [t [[T1 T2] T3]].
      exists (upd (cs_x cs) k (cs_x cs k + t)). split.
      - intros i Hi. unfold upd. destruct (Nat.eqb_spec i k) as [->|]; [|apply CW, Hi].
        split; [destruct (xu k)|destruct (xo k)]; cbn in *; try tauto; lra.
      - rewrite fobj_qobj, qobj_upd by assumption. rewrite <- Cg by exact Hk. replace (cs_x cs k + t - cs_x cs k) with t by lra. lra. }
  destruct tr as [|k tr]; [split; [reflexivity|discriminate]|].
  set (s1 := after_coord n G c gamma s cs _).
  assert (W1 : within n xu xo (m_x s1)) by apply CI.
  assert (G1 : g_ok s1) by (apply after_g, CI).
  pose proof (sub_spec s1 W1 G1 P) as SS. destruct (sub s1) as [|x|s2]; [exact I|exact I|].
  apply IH; apply SS.
Qed.
End Main.

(** ** the search as called *)
Section Call.
Variables (neps : R) (slv : solver) (fuel cfuel n : nat) (G : mat) (c : vec) (gamma : R) (xu xo : nat -> xR) (x0 : vec).
Hypothesis NP : 0 <= neps.
Hypothesis HG : symmetric n G.
Hypothesis Hn : (2 <= n)%nat.
Hypothesis NE : nonempty n xu xo.

Lemma start_in : within n xu xo (m_x (mq_init xu xo x0)).
Proof. apply (into_box_nearest n xu xo x0 NE). Qed.
Lemma start_pos : positive n (m_d (mq_init xu xo x0)).
Proof. intros i _. cbn. lra. Qed.

Lemma call_feasible : match fst (minq_search neps slv fuel cfuel n G c gamma xu xo x0) with
  | MqReturn _ x _ _ _ => within n xu xo x
  | MqNaN x => within n xu xo x /\ ~ all_finite n xu xo
  | _ => True
  end.
Proof. apply (loop_feasible neps slv n _ c gamma xu xo NP (regular_sym n neps G HG) Hn fuel cfuel); [apply start_in|apply start_pos]. Qed.

Lemma call_convex : possemidef n G -> exists y, nearest n xu xo x0 y /\
  good_return n (regular neps G) c gamma xu xo y (fst (minq_search neps slv fuel cfuel n G c gamma xu xo x0)).
Proof.
  intros P. exists (into_box xu xo x0). split; [apply into_box_nearest; exact NE|].
  apply (loop_convex neps slv n _ c gamma xu xo NP (regular_sym n neps G HG) Hn fuel cfuel); [apply regular_psd; assumption|apply start_in|apply start_pos|left; reflexivity|apply Rle_refl|discriminate].
Qed.

Lemma call_codes why x f info k : fst (minq_search neps slv fuel cfuel n G c gamma xu xo x0) = MqReturn why x f info k ->
  info = match why with Limit => 99 | CoordUnbounded => 1 | NothingTried => -1 | _ => 0 end%Z /\
  (info = 1%Z -> ~ all_finite n xu xo /\ forall M, exists y, within n xu xo y /\ fobj gamma n (regular neps G) c y < M).
Proof.
  intros E. pose proof (loop_codes neps slv n _ c gamma xu xo NP (regular_sym n neps G HG) Hn fuel cfuel (mq_init xu xo x0) start_in start_pos) as H.
  cbn [minq_search fst] in E. rewrite E in H. exact H.
Qed.
End Call.

(** ** the shape of the statements *)
Lemma t_feasible : forall neps slv fuel cfuel n G c gamma xu xo x0, 0 <= neps -> (2 <= n)%nat -> symmetric n G -> nonempty n xu xo ->
  (forall why x f info k, fst (minq_search neps slv fuel cfuel n G c gamma xu xo x0) = MqReturn why x f info k -> within n xu xo x) /\
  (all_finite n xu xo -> forall x, fst (minq_search neps slv fuel cfuel n G c gamma xu xo x0) <> MqNaN x).
Proof.
  intros neps slv fuel cfuel n G c gamma xu xo x0 NP Hn HG NE. pose proof (call_feasible neps slv fuel cfuel n G c gamma xu xo x0 NP HG Hn NE) as H. split.
  - intros why x f info k E. rewrite E in H. exact H.
  - intros F x E. rewrite E in H. apply H, F.
Qed.

Lemma t_descent : forall neps slv fuel cfuel n G c gamma xu xo x0 why x f info k G', 0 <= neps -> (2 <= n)%nat -> symmetric n G -> nonempty n xu xo ->
  possemidef n G -> minq_search neps slv fuel cfuel n G c gamma xu xo x0 = (MqReturn why x f info k, G') ->
  exists y v, nearest n xu xo x0 y /\ f = Some v /\ fobj gamma n G' c x <= fobj gamma n G' c y /\ fobj gamma n G' c x <= v /\
    (info <> 1%Z -> v = fobj gamma n G' c x).
Proof.
  intros neps slv fuel cfuel n G c gamma xu xo x0 why x f info k G' NP Hn HG NE P E.
  destruct (call_convex neps slv fuel cfuel n G c gamma xu xo x0 NP HG Hn NE P) as (y & Y & H).
  assert (EG : regular neps G = G') by exact (f_equal snd E). rewrite E in H. cbn [fst good_return] in H. rewrite EG in H.
  destruct H as (A & (v & Ev & B & D) & _). exists y, v. exact (conj Y (conj Ev (conj A (conj B D)))). 
Qed.

Lemma t_optimal : forall neps slv fuel cfuel n G c gamma xu xo x0 x f info k G', 0 <= neps -> (2 <= n)%nat -> symmetric n G -> nonempty n xu xo ->
  possemidef n G -> minq_search neps slv fuel cfuel n G c gamma xu xo x0 = (MqReturn NoImprovement x f info k, G') ->
  info = 0%Z /\ lowest_in_box gamma n G' c xu xo x /\
  forall y, within n xu xo y -> fobj gamma n G c x <= fobj gamma n G c y + neps / 2 * rsum n (fun i => G i i * (y i * y i)).
Proof.
  intros neps slv fuel cfuel n G c gamma xu xo x0 x f info k G' NP Hn HG NE P E.
  destruct (call_convex neps slv fuel cfuel n G c gamma xu xo x0 NP HG Hn NE P) as (y0 & _ & H).
  assert (E1 : fst (minq_search neps slv fuel cfuel n G c gamma xu xo x0) = MqReturn NoImprovement x f info k) by (rewrite E; reflexivity).
  destruct (call_codes neps slv fuel cfuel n G c gamma xu xo x0 NP HG Hn NE _ _ _ _ _ E1) as (EI & _).
  assert (EG : regular neps G = G') by exact (f_equal snd E). rewrite E1 in H. cbn [good_return] in H.
  destruct H as (_ & _ & L). specialize (L eq_refl). split; [exact EI|]. split; [rewrite <- EG; exact L|].
  assert (Q : forall z, fobj gamma n (regular neps G) c z = fobj gamma n G c z + neps / 2 * rsum n (fun i => G i i * (z i * z i))).
  { intros z. unfold fobj.
    assert (Eq : quad n (regular neps G) z = quad n G z + rsum n (fun i => neps * (G i i * (z i * z i)))).
    { unfold quad, dot. rewrite <- rsum_plus. apply rsum_ext. intros i Hi. unfold mv.
      rewrite (rsum_ext n (fun j => regular neps G i j * z j) (fun j => G i j * z j + (if Nat.eqb j i then neps * G i i * z i else 0))).
      - rewrite rsum_plus, (rsum_single n i (fun j => if Nat.eqb j i then _ else _)); [rewrite Nat.eqb_refl; ring|exact Hi|].
        intros j _ Hne. destruct (Nat.eqb_spec j i); [congruence|reflexivity].
      - intros j Hj. unfold regular. rewrite (Nat.eqb_sym j i). destruct (Nat.eqb_spec i j); [subst; ring|ring]. }
    rewrite Eq, rsum_scal. field. }
  intros y Y. destruct L as [_ L]. specialize (L y Y). rewrite !Q in L.
  assert (0 <= neps / 2 * rsum n (fun i => G i i * (x i * x i))); [|lra].
  apply Rmult_le_pos; [lra|]. apply rsum_nonneg. intros i Hi. specialize (P (unitv i)). rewrite quad_diag in P by exact Hi.
  apply Rmult_le_pos; [exact P|apply Rle_0_sqr].
Qed.

Lemma t_codes : forall neps slv fuel cfuel n G c gamma xu xo x0 why x f info k, 0 <= neps -> (2 <= n)%nat -> symmetric n G -> nonempty n xu xo ->
  fst (minq_search neps slv fuel cfuel n G c gamma xu xo x0) = MqReturn why x f info k ->
  (info = 99%Z <-> why = Limit) /\ (info = 1%Z <-> why = CoordUnbounded) /\ (info = (-1)%Z <-> why = NothingTried) /\
  (info = 0%Z <-> why = NoImprovement \/ why = RefinedOften \/ why = RefinedSame).
Proof.
  intros neps slv fuel cfuel n G c gamma xu xo x0 why x f info k NP Hn HG NE E.
  destruct (call_codes neps slv fuel cfuel n G c gamma xu xo x0 NP HG Hn NE _ _ _ _ _ E) as (-> & _).
  destruct why; repeat split; intros; try discriminate; try reflexivity; try tauto;
    repeat match goal with H : _ \/ _ |- _ => destruct H end; try discriminate.
Qed.

Lemma t_unbounded : forall neps slv fuel cfuel n G c gamma xu xo x0 why x f k G', 0 <= neps -> (2 <= n)%nat -> symmetric n G -> nonempty n xu xo ->
  minq_search neps slv fuel cfuel n G c gamma xu xo x0 = (MqReturn why x f 1 k, G') ->
  ~ all_finite n xu xo /\ forall M, exists y, within n xu xo y /\ fobj gamma n G' c y < M.
Proof.
  intros neps slv fuel cfuel n G c gamma xu xo x0 why x f k G' NP Hn HG NE E.
  assert (E1 : fst (minq_search neps slv fuel cfuel n G c gamma xu xo x0) = MqReturn why x f 1 k) by (rewrite E; reflexivity).
  assert (EG : regular neps G = G') by exact (f_equal snd E). rewrite <- EG.
  destruct (call_codes neps slv fuel cfuel n G c gamma xu xo x0 NP HG Hn NE _ _ _ _ _ E1) as (_ & H). apply H. reflexivity.
Qed.

Lemma t_matrix : forall neps slv fuel cfuel n G c gamma xu xo x0 o G', minq_search neps slv fuel cfuel n G c gamma xu xo x0 = (o, G') ->
  diagonal_scaled n (1 + neps) G G'.
Proof. intros. injection H as _ <-. apply regular_scaled. Qed.
