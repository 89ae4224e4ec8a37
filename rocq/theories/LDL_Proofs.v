(** Proofs about the factorisation updates. *)
From Coq Require Import Reals List Arith Bool Lra Lia Sorted.
From Verif Require Import RVec RBool LDL_Model LDL_Spec.
Import ListNotations.
Open Scope R_scope.

Lemma rsum_upd n k f a : (k < n)%nat ->
  rsum n (fun m => if (m =? k)%nat then a else f m) = rsum n f - f k + a.
Proof.
  intros H. induction n as [|n IH]; [lia|]. cbn [rsum].
  destruct (Nat.eqb_spec n k) as [E|E].
  - subst k. rewrite (rsum_ext n _ f); [lra|]. intros i Hi. destruct (Nat.eqb_spec i n); [lia|reflexivity].
  - rewrite IH by lia. lra.
Qed.

Lemma nonzero_in n u k : In k (nonzero n u) <-> (k < n)%nat /\ u k <> 0.
Proof.
  unfold nonzero. rewrite filter_In, in_seq. split.
  - intros [H E]. split; [lia|]. intros Z. rewrite (proj2 (Reqb_true (u k) 0) Z) in E. discriminate.
  - intros [H E]. split; [lia|]. rewrite (proj2 (Reqb_false (u k) 0) E). reflexivity.
Qed.

Lemma seq_sorted a n : StronglySorted lt (seq a n).
Proof.
  revert a. induction n as [|n IH]; intros a; cbn; constructor; [apply IH|].
  apply Forall_forall. intros x Hx. apply in_seq in Hx. lia.
Qed.
Lemma filter_sorted f l : StronglySorted lt l -> StronglySorted lt (filter f l).
Proof.
  induction 1 as [|a l S IH F]; cbn; [constructor|]. destruct (f a); [|exact IH]. constructor; [exact IH|].
  apply Forall_forall. intros x Hx. apply filter_In in Hx. apply (proj1 (Forall_forall _ _) F). apply Hx.
Qed.
Lemma nonzero_sorted n u : StronglySorted lt (nonzero n u).
Proof. apply filter_sorted, seq_sorted. Qed.

(** one step keeps L D L' + alpha u u' *)
Lemma step_sum n L d u alpha k delta i j :
  (k < n)%nat -> delta = d k + alpha * (u k * u k) -> delta <> 0 ->
  (forall a, (a < k)%nat -> L a k = 0) -> (forall a, (a < k)%nat -> u a = 0) ->
  ldlt n (col_upd k L u (d k / delta) (alpha * u k / delta)) (d_upd k d delta) i j
    + alpha * (d k / delta) * u_upd k L u i * u_upd k L u j =
  ldlt n L d i j + alpha * u i * u j.
Proof.
  intros Hk Ed Hd Lz Uz. unfold ldlt.
  set (l' := fun a => L a k * (d k / delta) + alpha * u k / delta * u a).
  assert (C : forall a m, col_upd k L u (d k / delta) (alpha * u k / delta) a m = if (m =? k)%nat then l' a else L a m).
  { intros a m. unfold col_upd, l'. destruct (Nat.eqb_spec m k) as [E|E]; cbn [andb]; [|reflexivity].
    destruct (Nat.leb_spec k a) as [H|H]; [reflexivity|]. subst m. rewrite (Lz a H), (Uz a H). ring. }
  assert (V : forall a, u_upd k L u a = u a - L a k * u k).
  { intros a. unfold u_upd. destruct (Nat.leb_spec k a) as [H|H]; [reflexivity|]. rewrite (Lz a H). ring. }
  rewrite (rsum_ext n _ (fun m => if (m =? k)%nat then l' i * delta * l' j else L i m * d m * L j m)).
  2:{ intros m _. rewrite !C. unfold d_upd. destruct (m =? k)%nat; reflexivity. }
  rewrite rsum_upd by assumption. rewrite !V. unfold l'.
  enough (E : (L i k * (d k / delta) + alpha * u k / delta * u i) * delta * (L j k * (d k / delta) + alpha * u k / delta * u j)
    + alpha * (d k / delta) * (u i - L i k * u k) * (u j - L j k * u k) = L i k * d k * L j k + alpha * u i * u j) by lra.
  assert (D : alpha * (u k * u k) = delta - d k) by lra.
  assert (E : (L i k * (d k / delta) + alpha * u k / delta * u i) * delta * (L j k * (d k / delta) + alpha * u k / delta * u j)
    + alpha * (d k / delta) * (u i - L i k * u k) * (u j - L j k * u k)
    = L i k * L j k * (d k / delta) * (d k + alpha * (u k * u k)) + alpha * u i * u j / delta * (alpha * (u k * u k) + d k)) by (field; assumption).
  rewrite E, D. field. assumption.
Qed.

(** the state of the loop: what is still to be done is in [ks] *)
Record inv (n : nat) (T : mat) (neps : R) (ks : list nat) (L : mat) (d u : vec) (alpha : R) : Prop := mkinv {
  i_low : unit_lower n L;
  i_pos : positive n d;
  i_sum : same_mat n (plus_rank_one (ldlt n L d) alpha u) T;
  i_zero : forall i, (i < n)%nat -> ~ In i ks -> u i = 0;
  i_fill : forall i k, In k ks -> (k < i < n)%nat -> L i k <> 0 -> In i ks;
  i_sort : StronglySorted lt ks;
  i_lt : forall k, In k ks -> (k < n)%nat;
  i_alpha : 0 < alpha \/ (alpha < 0 /\ 0 <= neps) }.

Lemma delta_pos n T neps k ks L d u alpha :
  inv n T neps (k :: ks) L d u alpha -> Rltb alpha 0 && Rleb (d k + alpha * (u k * u k)) neps = false ->
  0 < d k + alpha * (u k * u k).
Proof.
  intros I E. assert (P : 0 < d k) by (apply (i_pos _ _ _ _ _ _ _ _ I), (i_lt _ _ _ _ _ _ _ _ I); left; reflexivity).
  pose proof (Rle_0_sqr (u k)) as Q. unfold Rsqr in Q.
  destruct (i_alpha _ _ _ _ _ _ _ _ I) as [A|[A N]].
  - pose proof (Rmult_le_pos alpha (u k * u k) ltac:(lra) Q). lra.
  - rewrite (proj2 (Rltb_true alpha 0) A) in E. cbn [andb] in E. apply Rleb_false in E. lra.
Qed.

Lemma inv_step n T neps k ks L d u alpha :
  inv n T neps (k :: ks) L d u alpha ->
  Rltb alpha 0 && Rleb (d k + alpha * (u k * u k)) neps = false ->
  let delta := d k + alpha * (u k * u k) in
  inv n T neps ks (col_upd k L u (d k / delta) (alpha * u k / delta)) (d_upd k d delta) (u_upd k L u) (alpha * (d k / delta)).
Proof.
  intros I E delta. pose proof (delta_pos _ _ _ _ _ _ _ _ _ I E) as DP. fold delta in DP.
  destruct I as [[L1 L0] P Sm Z F St Lt A].
  assert (Hk : (k < n)%nat) by (apply Lt; left; reflexivity).
  apply StronglySorted_inv in St. destruct St as [St Fa]. rewrite Forall_forall in Fa.
  assert (Uz : forall a, (a < k)%nat -> u a = 0).
  { intros a Ha. apply Z; [lia|]. intros [X|X]; [lia|]. specialize (Fa a X). lia. }
  assert (Lz : forall a, (a < k)%nat -> L a k = 0) by (intros a Ha; apply L0; lia).
  assert (Dk : 0 < d k) by (apply P; assumption).
  constructor.
  - split.
    + intros i Hi. unfold col_upd. destruct (Nat.eqb_spec i k) as [X|X]; cbn [andb]; [|apply L1; assumption].
      subst i. rewrite Nat.leb_refl. rewrite L1 by assumption.
      replace (1 * (d k / delta) + alpha * u k / delta * u k) with ((d k + alpha * (u k * u k)) / delta) by (field; lra).
      fold delta. field. lra.
    + intros i j Hij. unfold col_upd. destruct (Nat.eqb_spec j k) as [X|X]; cbn [andb]; [|apply L0; assumption].
      destruct (Nat.leb_spec k i); [lia|]. apply L0. assumption.
  - intros i Hi. unfold d_upd. destruct (Nat.eqb_spec i k); [exact DP|apply P; assumption].
  - intros i j Hi Hj. unfold plus_rank_one. rewrite (step_sum n L d u alpha k delta i j Hk eq_refl ltac:(lra) Lz Uz).
    apply Sm; assumption.
  - intros i Hi N. unfold u_upd. destruct (Nat.leb_spec k i) as [H|H]; [|apply Uz; assumption].
    destruct (Nat.eq_dec i k) as [X|X].
    + subst i. rewrite L1 by assumption. ring.
    + rewrite (Z i Hi) by (intros [Y|Y]; [lia|contradiction]).
      destruct (Req_EM_T (L i k) 0) as [Y|Y]; [rewrite Y; ring|].
      exfalso. destruct (F i k ltac:(left; reflexivity) ltac:(lia) Y) as [W|W]; [lia|contradiction].
  - intros i k' Hk' Hi. unfold col_upd. specialize (Fa k' Hk').
    destruct (Nat.eqb_spec k' k); [lia|]. cbn [andb]. intros Y.
    destruct (F i k' ltac:(right; assumption) Hi Y) as [W|W]; [lia|assumption].
  - exact St.
  - intros k' H. apply Lt. right. assumption.
  - assert (Q : 0 < d k / delta) by (apply Rdiv_lt_0_compat; assumption).
    destruct A as [A|[A N]].
    + left. apply Rmult_lt_0_compat; assumption.
    + right. split; [|assumption]. pose proof (Rmult_lt_0_compat (- alpha) (d k / delta) ltac:(lra) Q). lra.
Qed.

Section S.
Variables (neps : R) (slv : solver).

Lemma loop_ok n T ks : forall L0 d0 L d u alpha L' d', inv n T neps ks L d u alpha ->
  rk1_loop neps slv ks L0 d0 L d u alpha = LdlOk L' d' ->
  unit_lower n L' /\ positive n d' /\ same_mat n (ldlt n L' d') T.
Proof.
  induction ks as [|k ks IH]; intros L0 d0 L d u alpha L' d' I E; cbn [rk1_loop] in E.
  - injection E as <- <-. destruct I as [A B Sm Z _ _ _ _]. split; [exact A|]. split; [exact B|].
    intros i j Hi Hj. rewrite <- (Sm i j Hi Hj). unfold plus_rank_one. rewrite (Z i Hi) by (intros []). ring.
  - cbv zeta in E. destruct (Rltb alpha 0 && Rleb (d k + alpha * (u k * u k)) neps) eqn:T0.
    { destruct (slv _ _ _); discriminate. }
    pose proof (inv_step _ _ _ _ _ _ _ _ _ I T0) as J. cbv zeta in J.
    destruct (Reqb_spec (alpha * (d k / (d k + alpha * (u k * u k)))) 0) as [Q|Q]; [|exact (IH _ _ _ _ _ _ _ _ J E)].
    injection E as <- <-. destruct J as [A B Sm _ _ _ _ _]. split; [exact A|]. split; [exact B|].
    intros i j Hi Hj. rewrite <- (Sm i j Hi Hj). unfold plus_rank_one. rewrite Q. ring.
Qed.

(** what a direction with zero tail sees of the factorisation *)
Lemma quad_rank n A alpha u p : quad n (plus_rank_one A alpha u) p = quad n A p + alpha * (dot n p u * dot n p u).
Proof.
  unfold quad, dot at 1, plus_rank_one, mv.
  rewrite (rsum_ext n _ (fun i => p i * rsum n (fun j => A i j * p j) + alpha * dot n p u * (p i * u i))).
  - rewrite rsum_plus, rsum_scal. unfold dot, mv. ring.
  - intros i _. rewrite (rsum_ext n (fun j => (A i j + alpha * u i * u j) * p j) (fun j => A i j * p j + alpha * u i * (p j * u j))) by (intros; ring).
    rewrite rsum_plus, rsum_scal. fold (dot n p u). ring.
Qed.

Lemma quad_ldlt n L d p : quad n (ldlt n L d) p = rsum n (fun k => d k * (dot n p (fun i => L i k) * dot n p (fun i => L i k))).
Proof.
  unfold quad, ldlt, mv, dot at 1.
  rewrite (rsum_ext n _ (fun i => rsum n (fun k => p i * L i k * d k * dot n p (fun a => L a k)))).
  - rewrite rsum_swap. apply rsum_ext. intros k _.
    rewrite (rsum_ext n (fun i => p i * L i k * d k * dot n p (fun a => L a k)) (fun i => d k * dot n p (fun a => L a k) * (p i * L i k))) by (intros; ring).
    rewrite rsum_scal. unfold dot. ring.
  - intros i _. rewrite <- rsum_scal.
    rewrite (rsum_ext n (fun j => p i * (rsum n (fun k => L i k * d k * L j k) * p j)) (fun j => rsum n (fun k => p i * L i k * d k * (p j * L j k)))).
    + rewrite rsum_swap. apply rsum_ext. intros k _. rewrite rsum_scal. reflexivity.
    + intros j _. rewrite <- Rmult_assoc, (Rmult_comm (p i)), Rmult_assoc, (Rmult_comm (rsum _ _)).
      rewrite <- rsum_scal. apply rsum_ext. intros k _. ring.
Qed.

Lemma rsum_head n k f : (k <= n)%nat -> (forall i, (k <= i < n)%nat -> f i = 0) -> rsum n f = rsum k f.
Proof.
  intros H Z. replace n with (k + (n - k))%nat by lia. rewrite rsum_split.
  rewrite (rsum_zero (n - k)); [lra|]. intros i Hi. apply Z. lia.
Qed.

Lemma loop_bad n T ks : forall L0 d0 L d u alpha L' d' p, solves_systems slv -> inv n T neps ks L d u alpha ->
  rk1_loop neps slv ks L0 d0 L d u alpha = LdlBad L' d' p ->
  L' = L0 /\ d' = d0 /\ alpha < 0 /\ quad n T p <= neps /\ exists k, (k < n)%nat /\ p k = 1 /\ forall i, (k < i)%nat -> p i = 0.
Proof.
  induction ks as [|k ks IH]; intros L0 d0 L d u alpha L' d' p SV I E; cbn [rk1_loop] in E; [discriminate|].
  cbv zeta in E. destruct (Rltb alpha 0 && Rleb (d k + alpha * (u k * u k)) neps) eqn:T0.
  - destruct (slv _ _ _) as [y|] eqn:Ey; [|discriminate]. injection E as <- <- <-.
    apply andb_true_iff in T0. destruct T0 as [Ta Td]. apply Rltb_true in Ta. apply Rleb_true in Td.
    pose proof (SV _ _ _ _ Ey) as Sy. split; [reflexivity|]. split; [reflexivity|]. split; [exact Ta|].
    destruct I as [[L1 Lo] P Sm Z F St Lt A].
    assert (Hk : (k < n)%nat) by (apply Lt; left; reflexivity).
    apply StronglySorted_inv in St. destruct St as [St Fa]. rewrite Forall_forall in Fa.
    assert (Uz : forall a, (a < k)%nat -> u a = 0).
    { intros a Ha. apply Z; [lia|]. intros [X|X]; [lia|]. specialize (Fa a X). lia. }
    set (p := fun i => if (i <=? k)%nat then y i else 0).
    assert (Pk : p k = 1).
    { specialize (Sy k ltac:(lia)). unfold mv in Sy. cbn [rsum] in Sy. rewrite rsum_zero in Sy.
      - unfold unitv in Sy. rewrite Nat.eqb_refl, L1 in Sy by assumption. unfold p. rewrite Nat.leb_refl. lra.
      - intros j Hj. rewrite Lo by lia. ring. }
    assert (Dm : forall m, (m < n)%nat -> dot n p (fun i => L i m) = if (m =? k)%nat then 1 else 0).
    { intros m Hm. unfold dot. rewrite (rsum_head n (S k)); [|lia|].
      2:{ intros i Hi. unfold p. destruct (Nat.leb_spec i k); [lia|ring]. }
      destruct (Nat.ltb_spec k m) as [G|G].
      - destruct (Nat.eqb_spec m k); [lia|]. apply rsum_zero. intros i Hi. rewrite Lo by lia. ring.
      - specialize (Sy m ltac:(lia)). unfold mv, unitv in Sy. rewrite <- Sy. apply rsum_ext.
        intros i Hi. unfold p. destruct (Nat.leb_spec i k); [ring|lia]. }
    assert (Du : dot n p u = u k).
    { unfold dot. rewrite (rsum_single n k); [rewrite Pk; ring|assumption|].
      intros i Hi Ni. destruct (Nat.ltb_spec i k) as [G|G]; [rewrite Uz by assumption; ring|].
      unfold p. destruct (Nat.leb_spec i k); [lia|ring]. }
    split.
    + rewrite <- (quad_ext_mat n (plus_rank_one (ldlt n L d) alpha u) T p Sm), quad_rank, quad_ldlt, Du.
      rewrite (rsum_single n k); [|assumption|].
      * rewrite (Dm k Hk), Nat.eqb_refl. lra.
      * intros i Hi Ni. rewrite (Dm i Hi). destruct (Nat.eqb_spec i k); [contradiction|ring].
    + exists k. split; [assumption|]. split; [exact Pk|]. intros i Hi. unfold p. destruct (Nat.leb_spec i k); [lia|reflexivity].
  - pose proof (inv_step _ _ _ _ _ _ _ _ _ I T0) as J. cbv zeta in J.
    destruct (Reqb _ _); [discriminate|].
    destruct (IH _ _ _ _ _ _ _ _ _ SV J E) as (A & B & N & Q & X). split; [exact A|]. split; [exact B|]. split; [|split; [exact Q|exact X]].
    pose proof (delta_pos _ _ _ _ _ _ _ _ _ I T0) as DP.
    assert (Dk : 0 < d k) by (apply (i_pos _ _ _ _ _ _ _ _ I), (i_lt _ _ _ _ _ _ _ _ I); left; reflexivity).
    assert (Qp : 0 < d k / (d k + alpha * (u k * u k))) by (apply Rdiv_lt_0_compat; assumption).
    destruct (i_alpha _ _ _ _ _ _ _ _ I) as [Al|[Al _]]; [|exact Al].
    pose proof (Rmult_lt_0_compat _ _ Al Qp). lra.
Qed.

Lemma inv_start n L d alpha u : unit_lower n L -> positive n d -> alpha <> 0 -> (alpha < 0 -> 0 <= neps) -> no_fill n L u ->
  inv n (plus_rank_one (ldlt n L d) alpha u) neps (nonzero n u) L d u alpha.
Proof.
  intros A B C D E. constructor; try assumption.
  - intros i j _ _. reflexivity.
  - intros i Hi N. destruct (Req_EM_T (u i) 0) as [H|H]; [exact H|]. exfalso. apply N. apply nonzero_in. split; assumption.
  - intros i k Hk Hi Y. apply nonzero_in in Hk. apply nonzero_in. split; [lia|]. apply (E i k); [lia|apply Hk|exact Y].
  - apply nonzero_sorted.
  - intros k Hk. apply nonzero_in in Hk. apply Hk.
  - destruct (Rtotal_order alpha 0) as [H|[H|H]]; [right; split; [exact H|exact (D H)]|contradiction|left; exact H].
Qed.

Lemma rk1_ok n L d alpha u L' d' : unit_lower n L -> positive n d -> (alpha < 0 -> 0 <= neps) -> no_fill n L u ->
  ldlrk1 neps slv n L d alpha u = LdlOk L' d' ->
  unit_lower n L' /\ positive n d' /\ same_mat n (ldlt n L' d') (plus_rank_one (ldlt n L d) alpha u).
Proof.
  intros A B D E. unfold ldlrk1. destruct (Reqb_spec alpha 0) as [Z|Z]; [discriminate|].
  apply loop_ok. apply inv_start; assumption.
Qed.

Lemma rk1_bad n L d alpha u L' d' p : solves_systems slv -> unit_lower n L -> positive n d -> 0 <= neps -> no_fill n L u ->
  ldlrk1 neps slv n L d alpha u = LdlBad L' d' p ->
  L' = L /\ d' = d /\ alpha < 0 /\ quad n (plus_rank_one (ldlt n L d) alpha u) p <= neps /\
  exists k, (k < n)%nat /\ p k = 1 /\ forall i, (k < i)%nat -> p i = 0.
Proof.
  intros SV A B D E. unfold ldlrk1. destruct (Reqb_spec alpha 0) as [Z|Z]; [discriminate|].
  apply loop_bad; [exact SV|]. apply inv_start; try assumption. intros _; assumption.
Qed.

(** failure never changes the factorisation *)
Lemma loop_back ks : forall L0 d0 L d u alpha L' d' p,
  rk1_loop neps slv ks L0 d0 L d u alpha = LdlBad L' d' p -> L' = L0 /\ d' = d0.
Proof.
  induction ks as [|k ks IH]; intros L0 d0 L d u alpha L' d' p E; cbn [rk1_loop] in E; [discriminate|].
  cbv zeta in E. destruct (_ && _).
  - destruct (slv _ _ _); [|discriminate]. injection E as <- <- _. split; reflexivity.
  - destruct (Reqb _ _); [discriminate|]. exact (IH _ _ _ _ _ _ _ _ _ E).
Qed.
Lemma rk1_back n L d alpha u L' d' p : ldlrk1 neps slv n L d alpha u = LdlBad L' d' p -> L' = L /\ d' = d.
Proof. unfold ldlrk1. destruct (Reqb _ _); [discriminate|]. apply loop_back. Qed.

(** with a positive multiple the update succeeds *)
Lemma loop_positive ks : forall L0 d0 L d u alpha, 0 < alpha -> StronglySorted lt ks -> (forall k, In k ks -> 0 < d k) ->
  exists L' d', rk1_loop neps slv ks L0 d0 L d u alpha = LdlOk L' d'.
Proof.
  induction ks as [|k ks IH]; intros L0 d0 L d u alpha A St P; cbn [rk1_loop]; [eauto|].
  cbv zeta. rewrite (proj2 (Rltb_false alpha 0)) by lra. cbn [andb].
  apply StronglySorted_inv in St. destruct St as [St Fa]. rewrite Forall_forall in Fa.
  assert (Dk : 0 < d k) by (apply P; left; reflexivity).
  pose proof (Rle_0_sqr (u k)) as Q. unfold Rsqr in Q.
  pose proof (Rmult_le_pos alpha (u k * u k) ltac:(lra) Q) as M.
  destruct (Reqb _ _); [eauto|]. apply IH; [|exact St|].
  - apply Rmult_lt_0_compat; [assumption|]. apply Rdiv_lt_0_compat; lra.
  - intros k' H. unfold d_upd. specialize (Fa k' H). destruct (Nat.eqb_spec k' k); [lia|]. apply P. right. assumption.
Qed.
Lemma rk1_positive n L d alpha u : 0 < alpha -> positive n d -> exists L' d', ldlrk1 neps slv n L d alpha u = LdlOk L' d'.
Proof.
  intros A P. unfold ldlrk1. rewrite (proj2 (Reqb_false alpha 0)) by lra. apply loop_positive; [exact A|apply nonzero_sorted|].
  intros k H. apply P. apply nonzero_in in H. apply H.
Qed.

Lemma rk1_zero n L d alpha u : ldlrk1 neps slv n L d alpha u = LdlNone <-> alpha = 0.
Proof.
  unfold ldlrk1. destruct (Reqb_spec alpha 0) as [Z|Z]; [split; auto|]. split; [|contradiction].
  intros E. exfalso. revert E. generalize (nonzero n u) as ks. intros ks.
  assert (G : forall L0 d0 L d u alpha, rk1_loop neps slv ks L0 d0 L d u alpha <> LdlNone); [|apply G].
  clear. induction ks as [|k ks IH]; intros; cbn [rk1_loop]; [discriminate|]. cbv zeta.
  destruct (_ && _); [destruct (slv _ _ _); discriminate|]. destruct (Reqb _ _); [discriminate|apply IH].
Qed.

Lemma ldlt_posdef n L d p : unit_lower n L -> positive n d -> (exists i, (i < n)%nat /\ p i <> 0) -> 0 < quad n (ldlt n L d) p.
Proof.
  intros [L1 Lo] P (i & Hi & Pi). rewrite quad_ldlt.
  assert (N : forall m, (m < n)%nat -> 0 <= d m * (dot n p (fun a => L a m) * dot n p (fun a => L a m))).
  { intros m Hm. apply Rmult_le_pos; [left; apply P; assumption|apply Rle_0_sqr]. }
  (* the largest index with a nonzero entry *)
  assert (Mx : exists k, (k < n)%nat /\ p k <> 0 /\ forall a, (k < a < n)%nat -> p a = 0).
  { clear - Hi Pi. induction n as [|n IH]; [lia|].
    destruct (Req_EM_T (p n) 0) as [E|E].
    - destruct (Nat.eq_dec i n) as [X|X]; [subst; contradiction|]. destruct (IH ltac:(lia)) as (k & A & B & C).
      exists k. split; [lia|]. split; [exact B|]. intros a Ha. destruct (Nat.eq_dec a n); [subst; exact E|apply C; lia].
    - exists n. split; [lia|]. split; [exact E|]. intros a Ha. lia. }
  destruct Mx as (k & Hk & Pk & Z).
  assert (D : dot n p (fun a => L a k) = p k).
  { unfold dot. rewrite (rsum_single n k); [rewrite L1 by assumption; ring|assumption|].
    intros a Ha Na. destruct (Nat.ltb_spec k a) as [G|G]; [rewrite Z by lia; ring|rewrite Lo by lia; ring]. }
  eapply Rlt_le_trans; [|apply (rsum_ge_term n _ k Hk N)]. rewrite D.
  apply Rmult_lt_0_compat; [apply P; assumption|]. apply Rsqr_pos_lt. exact Pk.
Qed.
End S.
