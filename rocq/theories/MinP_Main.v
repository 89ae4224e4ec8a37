(** The passes of the main loop of minq. *)
From Coq Require Import Reals List Arith ZArith Lra Lia Bool.
From Verif Require Import RVec RBool MinQ_Model MinQ_Spec MinQ_Proofs LDL_Model LDL_Spec LDL_Proofs MinS_Model MinS_Spec MinS_Proofs MinS_Sub MinS_Main MinP_Spec MinP_Proofs.
Import ListNotations.
Open Scope R_scope.

Section Pass.
Variables (neps : R) (slv : solver) (n : nat) (G : mat) (c : vec) (gamma : R) (xu xo : nat -> xR).
Hypothesis NP : 0 <= neps.
Hypothesis SV : solves_systems slv.
Hypothesis HG : symmetric n G.
Hypothesis Hn : (2 <= n)%nat.

Lemma newton_ok L d K g p : positive n d -> newton slv n L d K g = Some (Some p) ->
  forall i, (i < n)%nat -> mv n (ldlt n L d) p i = if K i then - g i else 0.
Proof.
  intros P. unfold newton. destruct (slv n L _) as [y|] eqn:Y; [|discriminate].
  destruct (existsb _ _); [discriminate|]. destruct (slv n (fun i j => L j i) _) as [z|] eqn:Z; [|discriminate].
  intros E i Hi. injection E as <-. pose proof (SV _ _ _ _ Y i Hi) as Y'. unfold mv, ldlt, vneg in *.
  transitivity (rsum n (fun j => rsum n (fun k => L i k * d k * L j k * - z j))).
  { apply rsum_ext. intros j Hj. rewrite <- rsum_scal_r. apply rsum_ext. intros k Hk. ring. }
  rewrite rsum_swap. transitivity (rsum n (fun k => - (L i k * y k))).
  { apply rsum_ext. intros k Hk. pose proof (SV _ _ _ _ Z k Hk) as Zk. cbn beta in Zk. unfold mv in Zk.
    rewrite (rsum_ext n _ (fun j => L i k * d k * -1 * (L j k * z j))) by (intros j Hj; ring).
    rewrite rsum_scal, Zk. field. specialize (P k Hk). lra. }
  rewrite (rsum_ext n _ (fun k => -1 * (L i k * y k))) by (intros k Hk; ring). rewrite rsum_scal, Y'. destruct (K i); lra.
Qed.

Lemma sub_newton s s' : within n xu xo (m_x s) -> g_ok n G c s -> unit_lower n (m_L s) -> positive n (m_d s) ->
  subspace neps slv n G xu xo s = SubDone s' ->
  newton_step neps n G c xu xo (m_x s) (m_free s) s' /\ m_nsub s' = S (m_nsub s) /\ marks n (m_free s') (m_nfree s').
Proof.
  intros W Hg UL P. unfold subspace.
  destruct (downdate _ _ _ _ _ _ _) as [[[L1 d1] K1]|] eqn:D; [|discriminate].
  destruct (downdate_shape neps slv NP n _ _ _ _ _ _ _ (fun j H => in_filter_seq _ _ _ H) UL P D) as (U1 & P1 & E1).
  destruct (update _ _ _ _ _ _ _ _) as [[[L2 d2] K2]|] eqn:U; [|discriminate].
  destruct (update_shape neps slv NP n G _ _ _ _ _ _ _ (fun j H => in_filter_seq _ _ _ H) U1 P1 U) as (U2 & P2 & E2).
  assert (KF : forall i, (i < n)%nat -> K2 i = m_free s i).
  { intros i Hi. apply eq_true_iff_eq. rewrite E2, E1, !filter_In, !in_seq, !andb_true_iff, !negb_true_iff.
    pose proof (E1 i) as E1i. rewrite filter_In, in_seq, andb_true_iff, negb_true_iff in E1i.
    destruct (m_free s i), (m_K s i), (K1 i); intuition (try discriminate; try lia). }
  destruct (newton _ _ _ _ _ _) as [[p|]|] eqn:N; try discriminate.
  pose proof (newton_ok _ _ _ _ _ P2 N) as NW. cbv zeta.
  destruct (range_zero n xu xo (m_x s) p W) as [R1 R2].
  pose proof (quadMin_answer _ _ (slope neps n (m_g s) p) (quad n G p) R1 R2) as A. unfold qm_answer in A.
  destruct (quadMin _ _ _ _) as [qx lb ub ier] eqn:Q. cbn [qm_x qm_lba qm_uba qm_ier] in *. destruct qx as [al|]; [|discriminate].
  destruct A as [-> [t [-> [[T M] _]]]]. cbn [xval]. intros E. injection E as <-.
  cbn [m_nsub m_free m_nfree]. split; [|split; [reflexivity|apply count_marks]].
  split; [exact U2|]. split; [exact P2|]. cbn [m_L m_d m_K m_x m_free m_unfix]. split; [exact KF|].
  assert (GE : forall i, (i < n)%nat -> grad n G c (m_x s) i = m_g s i) by (intros i Hi; symmetry; apply Hg, Hi).
  assert (DE : dot n (grad n G c (m_x s)) p = dot n (m_g s) p) by (apply dot_ext; intros i Hi; [apply GE, Hi|reflexivity]).
  assert (AE : rsum n (fun i => Rabs (grad n G c (m_x s) i) * Rabs (p i)) = dot n (fun i => Rabs (m_g s i)) (fun i => Rabs (p i))).
  { unfold dot. apply rsum_ext. intros i Hi. rewrite GE by exact Hi. reflexivity. }
  exists p, t, (slope neps n (m_g s) p). rewrite DE, AE.
  split; [intros i Hi; rewrite NW, KF, GE by exact Hi; reflexivity|].
  split; [intros C; unfold slope; rewrite (proj2 (Rltb_true _ _) C); reflexivity|].
  split; [intros C; unfold slope; rewrite (proj2 (Rltb_false _ _) C); reflexivity|].
  split; [intros i Hi Pi; apply (proj1 (range_ok n xu xo (m_x s) p t) T); assumption|].
  split; [intros u Hu; apply M; apply (range_ok n xu xo (m_x s) p u); exact Hu|].
  split; [intros i Hi; apply moved_ok|].
  split; [intros i Hi; rewrite moved_ok; apply still_free_ok|].
  rewrite negb_false_iff, (quadMin_marks _ _ _ _ _ _ _ R1 R2 Q), (range_hit n xu xo (m_x s) p t T).
  setoid_rewrite moved_ok. reflexivity.
Qed.

Lemma best_kept s : kept gamma n G c s (best_value n G c gamma s).
Proof.
  unfold kept, best_value. rewrite calc_fval_ok. destruct (Nat.eqb_spec (m_nitref s) 0) as [E|E].
  - split; [contradiction|]. intros _. destruct (m_fval s); reflexivity.
  - split; [reflexivity|contradiction].
Qed.

Lemma same_count_ok a b : same_count a b = true <-> a = Some b.
Proof. destruct a as [a|]; cbn; [rewrite Nat.eqb_eq; split; [intros ->; reflexivity|intros E; injection E as ->; reflexivity]|split; discriminate]. Qed.

Lemma reason_ok s : match stop_reason n G c gamma s with Some why => ended n s why | None => goes_on n s end.
Proof.
  unfold stop_reason. cbv zeta.
  destruct ((m_nitref s =? 0)%nat && (m_nsub s =? 3 * n)%nat) eqn:L.
  { apply andb_prop in L. destruct L as [A B]. apply Nat.eqb_eq in A, B. split; assumption. }
  assert (NL : ~ at_limit n s).
  { intros [A B]. rewrite A, B, !Nat.eqb_refl in L. discriminate. }
  destruct (m_improved s) eqn:I; cbn [negb]; [|split; assumption].
  destruct (Nat.ltb_spec 3 (m_nitref s)) as [T|T]; [split; [exact I|lia]|].
  destruct ((0 <? m_nitref s)%nat && same_count (m_nfree_old s) (m_nfree s)) eqn:C; cbn [andb].
  - apply andb_prop in C. destruct C as [C1 C2]. apply Nat.ltb_lt in C1. apply same_count_ok in C2.
    unfold best_value. destruct (Nat.eqb_spec (m_nitref s) 0); [lia|]. rewrite (proj2 (Rleb_true _ _) (Rle_refl _)).
    split; [exact I|]. split; [lia|exact C2].
  - split; [exact NL|]. split; [exact I|]. split; [exact T|]. intros X E. apply andb_false_iff in C. destruct C as [C|C].
    + apply Nat.ltb_ge in C. lia.
    + rewrite (proj2 (same_count_ok _ _) E) in C. discriminate.
Qed.

Lemma after_keeps s cs f : m_L (after_coord n G c gamma s cs f) = m_L s /\ m_d (after_coord n G c gamma s cs f) = m_d s.
Proof. split; reflexivity. Qed.

Lemma pass_ok cfuel s cs tr s' : within n xu xo (m_x s) -> unit_lower n (m_L s) -> positive n (m_d s) ->
  coords n G c xu xo cfuel s = CSDone cs tr -> tr <> [] ->
  subspaceSearch neps slv n G xu xo (after_coord n G c gamma s cs (best_value n G c gamma s)) = SubDone s' ->
  passes neps gamma n G c xu xo cfuel s s' /\ within n xu xo (m_x s') /\ unit_lower n (m_L s') /\ positive n (m_d s').
Proof.
  intros W UL P CE TR SE. pose proof (coord_spec n G c xu xo HG Hn cfuel s W) as CS. cbv zeta in CS.
  change (coordinateSearch cfuel n G xu xo (m_unfix s) (start n G c s)) with (coords n G c xu xo cfuel s) in CS.
  rewrite CE in CS. cbn [cs_state] in CS. destruct CS as [CI _].
  set (v := best_value n G c gamma s) in *. set (s1 := after_coord n G c gamma s cs v) in *.
  assert (W1 : within n xu xo (m_x s1)) by apply CI.
  assert (G1 : g_ok n G c s1) by (apply (after_g n G c gamma xu xo), CI).
  pose proof (sub_spec neps slv n G c xu xo NP HG Hn s1 W1 G1 P) as SS. rewrite SE in SS.
  destruct SS as (W2 & P2 & F2 & I2 & N2 & _).
  assert (IM : m_improved s1 = true <-> m_unfix s = false \/ fobj gamma n G c (cs_x cs) < v).
  { unfold s1, after_coord. cbn [m_improved]. rewrite (gain_ok n G c gamma) by (intros i Hi; exact (G1 i Hi)).
    rewrite orb_true_iff, negb_true_iff, Rltb_true. split; intros [X|X]; [right; lra|left; exact X|right; exact X|left; lra]. }
  assert (NR : m_nitref s1 = (if m_unfix s && same_count (m_nfree_old s) (count_free n (cs_free cs)) then S (m_nitref s) else 0%nat)) by reflexivity.
  set (k := count_free n (cs_free cs)) in *.
  assert (KEY : m_nfree_old s' = Some k /\ marks n (m_free s') (m_nfree s') /\ unit_lower n (m_L s') /\
    (m_improved s1 = true /\ (m_nitref s1 <= 3)%nat /\ (1 <= k)%nat -> newton_step neps n G c xu xo (cs_x cs) (cs_free cs) s' /\ m_nsub s' = S (m_nsub s)) /\
    (m_improved s1 = false \/ (4 <= m_nitref s1)%nat \/ k = 0%nat ->
       m_x s' = cs_x cs /\ m_free s' = cs_free cs /\ m_nsub s' = m_nsub s /\ m_L s' = m_L s /\ m_d s' = m_d s /\ m_K s' = m_K s /\
       (m_unfix s' = true <-> m_unfix s = true \/ (m_improved s1 = true /\ (m_nitref s1 <= 3)%nat)))).
  { unfold subspaceSearch in SE. destruct (negb (m_improved s1) || (3 <? m_nitref s1)%nat) eqn:C.
    - injection SE as <-. split; [reflexivity|]. split; [apply count_marks|]. split; [exact UL|].
      apply orb_true_iff in C. rewrite negb_true_iff, Nat.ltb_lt in C.
      split; [intros (X & Y & _); destruct C; [congruence|lia]|].
      intros _. do 6 (split; [reflexivity|]). split; [intros X; left; exact X|].
      intros [X|[X Y]]; [exact X|destruct C; [congruence|lia]].
    - apply orb_false_iff in C. rewrite negb_false_iff, Nat.ltb_ge in C. destruct C as [C1 C2].
      change (m_nfree s1) with k in SE. destruct (Nat.eqb_spec k 0) as [Z|Z].
      + injection SE as <-. split; [reflexivity|]. split; [apply count_marks|]. split; [exact UL|].
        split; [intros (_ & _ & X); lia|]. intros _. cbn [m_x m_free m_nsub m_L m_d m_K m_unfix].
        do 6 (split; [reflexivity|]). split; [intros _; right; split; assumption|reflexivity].
      + destruct (sub_newton s1 s' W1 G1 UL P SE) as (A & B & D).
        assert (O : m_nfree_old s' = m_nfree_old s1).
        { clear - SE. unfold subspace in SE. destruct (downdate _ _ _ _ _ _ _) as [[[L1 d1] K1]|]; [|discriminate].
          destruct (update _ _ _ _ _ _ _ _) as [[[L2 d2] K2]|]; [|discriminate].
          destruct (newton _ _ _ _ _ _) as [[p|]|]; try discriminate. cbv zeta in SE. destruct (qm_x _); [|discriminate].
          injection SE as <-. reflexivity. }
        rewrite O. split; [reflexivity|]. split; [exact D|]. split; [apply A|]. split; [intros _; split; assumption|].
        intros [X|[X|X]]; [congruence|lia|contradiction]. }
  destruct KEY as (K1 & K2 & K3 & K4 & K5).
  split; [|split; [exact W2|split; [exact K3|exact P2]]].
  exists cs, tr, k, v. split; [exact CE|]. split; [exact TR|]. split; [apply count_marks|]. split; [apply best_kept|].
  rewrite F2, I2, N2, NR. split; [reflexivity|]. split; [exact K1|]. split; [exact K2|].
  split; [intros [-> X]; rewrite X; cbn; rewrite Nat.eqb_refl; reflexivity|].
  split.
  { intros X. destruct (m_unfix s) eqn:UF; [|reflexivity]. cbn [andb]. destruct (same_count _ _) eqn:SC; [|reflexivity].
    apply same_count_ok in SC. destruct X as [X|X]; [discriminate|contradiction]. }
  rewrite <- NR. split; [exact IM|]. split; [exact K4|exact K5].
Qed.

Lemma loop_completes fuel cfuel : forall s why x f info k, within n xu xo (m_x s) -> unit_lower n (m_L s) -> positive n (m_d s) ->
  mq_loop neps slv n G c gamma xu xo fuel cfuel s = MqReturn why x f info k ->
  exists v, f = Some v /\ completes neps gamma n G c xu xo cfuel s why x v k.
Proof.
  induction fuel as [|fuel IH]; intros s why x f info k W UL P H; cbn [mq_loop] in H; [discriminate|].
  pose proof (reason_ok s) as RS. pose proof (best_kept s) as BK.
  destruct (stop_reason n G c gamma s) as [w|] eqn:SR.
  { injection H as <- <- <- <- <-. eexists. split; [reflexivity|]. apply ends_here; assumption. }
  change (coordinateSearch cfuel n G xu xo (m_unfix s) {| cs_x := m_x s; cs_g := calc_g n G c (m_x s); cs_free := m_free s |})
    with (coords n G c xu xo cfuel s) in H.
  destruct (coords n G c xu xo cfuel s) as [cs tr|kk lower cs tr|cs tr|cs tr] eqn:CE; try discriminate.
  2:{ injection H as <- <- <- <- <-. eexists. split; [reflexivity|]. eapply ends_unbounded; eassumption. }
  destruct tr as [|t tr].
  { injection H as <- <- <- <- <-. eexists. split; [reflexivity|]. apply ends_untried; assumption. }
  destruct (subspaceSearch _ _ _ _ _ _ _) as [| |s'] eqn:SE; try discriminate.
  destruct (pass_ok cfuel s cs (t :: tr) s' W UL P CE ltac:(discriminate) SE) as (PS & W' & U' & P').
  destruct (IH s' why x f info k W' U' P' H) as (v & E & C). exists v. split; [exact E|]. eapply ends_later; eassumption.
Qed.
End Pass.

Lemma t_passes : forall neps slv fuel cfuel n G c gamma xu xo x0 why x f info k G', 0 <= neps -> solves_systems slv -> (2 <= n)%nat -> symmetric n G -> nonempty n xu xo ->
  minq_search neps slv fuel cfuel n G c gamma xu xo x0 = (MqReturn why x f info k, G') ->
  exists s0 v, begins n xu xo x0 s0 /\ f = Some v /\ completes neps gamma n G' c xu xo cfuel s0 why x v k.
Proof.
  intros neps slv fuel cfuel n G c gamma xu xo x0 why x f info k G' NP SV Hn HG NE H. unfold minq_search in H. injection H as H <-.
  pose proof (into_box_nearest n xu xo x0 NE) as NB.
  destruct (loop_completes neps slv n (regular neps G) c gamma xu xo NP SV (regular_sym n neps G HG) Hn fuel cfuel (mq_init xu xo x0) why x f info k (proj1 NB)) with (3 := H) as (v & E & C).
  - split; intros; cbn; unfold idm; [rewrite Nat.eqb_refl; reflexivity|]. destruct (Nat.eqb_spec i j); [lia|reflexivity].
  - intros i Hi. cbn. lra.
  - exists (mq_init xu xo x0), v. split; [|split; assumption]. split; [exact NB|]. cbn. repeat split; try reflexivity.
Qed.
