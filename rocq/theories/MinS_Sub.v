(** Proofs about the subspace step and the main loop of minq. *)
From Coq Require Import Reals List Arith ZArith Lra Lia Bool Sorted.
From Verif Require Import RVec RBool MinQ_Model MinQ_Spec MinQ_Proofs LDL_Model LDL_Spec LDL_Proofs MinS_Model MinS_Spec MinS_Proofs.
Import ListNotations.
Open Scope R_scope.

(** ** the range of step sizes *)
Lemma moving_in n p i : In i (moving n p) <-> (i < n)%nat /\ p i <> 0.
Proof.
  unfold moving. rewrite filter_In, in_seq. destruct (Reqb_spec (p i) 0); cbn; split; intros [A B]; split; try lia; try discriminate; try reflexivity; try assumption; contradiction.
Qed.

Lemma xmax_le e f t : xle_r (xmax e f) t <-> xle_r e t /\ xle_r f t.
Proof. destruct e, f; cbn; try tauto. unfold Rmax. destruct (Rle_dec _ _); intuition lra. Qed.
Lemma xmin_le e f t : rle_x t (xmin e f) <-> rle_x t e /\ rle_x t f.
Proof. destruct e, f; cbn; try tauto. unfold Rmin. destruct (Rle_dec _ _); intuition lra. Qed.

Lemma fold_max (f : nat -> xR) t l : xle_r (fold_right (fun i a => xmax (f i) a) NInf l) t <-> forall i, In i l -> xle_r (f i) t.
Proof.
  induction l as [|a l IH]; cbn; [split; [intros _ i []|trivial]|]. rewrite xmax_le, IH. split.
  - intros [A B] i [E|H]; [rewrite <- E; exact A|apply B, H].
  - intros H. split; [apply H; left; reflexivity|]. intros i Hi. apply H. right. exact Hi.
Qed.
Lemma fold_min (f : nat -> xR) t l : rle_x t (fold_right (fun i a => xmin (f i) a) PInf l) <-> forall i, In i l -> rle_x t (f i).
Proof.
  induction l as [|a l IH]; cbn; [split; [intros _ i []|trivial]|]. rewrite xmin_le, IH. split.
  - intros [A B] i [E|H]; [rewrite <- E; exact A|apply B, H].
  - intros H. split; [apply H; left; reflexivity|]. intros i Hi. apply H. right. exact Hi.
Qed.

Lemma div_le a p t : 0 < p -> (a / p <= t <-> a <= t * p) /\ (t <= a / p <-> t * p <= a).
Proof.
  intros P. assert (E : a / p * p = a) by (field; lra). split; split; intros H.
  - apply (Rmult_le_compat_r p) in H; lra.
  - apply (Rmult_le_reg_r p); [exact P|lra].
  - apply (Rmult_le_compat_r p) in H; lra.
  - apply (Rmult_le_reg_r p); [exact P|lra].
Qed.
Lemma div_le_neg a p t : p < 0 -> (a / p <= t <-> t * p <= a) /\ (t <= a / p <-> a <= t * p).
Proof.
  intros P. replace (a / p) with ((- a) / (- p)) by (field; lra). destruct (div_le (- a) (- p) t) as [A B]; [lra|].
  split; [rewrite A|rewrite B]; split; intros; lra.
Qed.

Lemma range_ok n xu xo x p t :
  in_itv (range_low n xu xo x p) (range_high n xu xo x p) t <->
  forall i, (i < n)%nat -> p i <> 0 -> in_itv (xu i) (xo i) (x i + t * p i).
Proof.
  unfold in_itv, range_low, range_high.
  rewrite (fold_max (fun i => if Rltb (p i) 0 then to_upper xo x p i else to_lower xu x p i)).
  rewrite (fold_min (fun i => if Rltb (p i) 0 then to_lower xu x p i else to_upper xo x p i)).
  assert (P : forall i, p i <> 0 ->
    (xle_r (if Rltb (p i) 0 then to_upper xo x p i else to_lower xu x p i) t /\
     rle_x t (if Rltb (p i) 0 then to_lower xu x p i else to_upper xo x p i) <->
     xle_r (xu i) (x i + t * p i) /\ rle_x (x i + t * p i) (xo i))).
  { intros i Pi. unfold to_upper, to_lower. destruct (Rltb_spec (p i) 0) as [N|N].
    - destruct (xu i) as [u| |], (xo i) as [o| |]; cbn; rewrite ?(proj2 (Rltb_true (p i) 0) N); cbn;
      try (destruct (div_le_neg (u - x i) (p i) t N) as [A1 A2]; rewrite ?A2; clear A1 A2);
      try (destruct (div_le_neg (o - x i) (p i) t N) as [B1 B2]; rewrite ?B1; clear B1 B2); intuition lra.
    - assert (Q : 0 < p i) by lra.
      destruct (xu i) as [u| |], (xo i) as [o| |]; cbn; rewrite ?(proj2 (Rltb_false (p i) 0) (Rlt_le _ _ Q)); cbn;
      try (destruct (div_le (u - x i) (p i) t Q) as [A1 A2]; rewrite ?A1; clear A1 A2);
      try (destruct (div_le (o - x i) (p i) t Q) as [B1 B2]; rewrite ?B2; clear B1 B2); intuition lra. }
  split.
  - intros [A B] i Hi Pi. apply P; [exact Pi|]. split; [apply A|apply B]; apply moving_in; split; assumption.
  - intros H. split; intros i Hi; apply moving_in in Hi; destruct Hi as [Hi Pi]; apply (P i Pi); apply H; assumption.
Qed.

Lemma range_zero n xu xo x p : within n xu xo x ->
  xle_r (range_low n xu xo x p) 0 /\ rle_x 0 (range_high n xu xo x p).
Proof.
  intros W. apply (range_ok n xu xo x p 0). intros i Hi _. replace (x i + 0 * p i) with (x i) by lra. apply W, Hi.
Qed.

Lemma fold_min_finite (f : nat -> xR) l : l <> [] -> (forall i, In i l -> exists a, f i = Fin a) ->
  exists a, fold_right (fun i a => xmin (f i) a) PInf l = Fin a.
Proof.
  induction l as [|i l IH]; intros N H; [contradiction|]. cbn. destruct (H i (or_introl eq_refl)) as [a Ea]. rewrite Ea.
  destruct l as [|j l]; [cbn; eauto|]. destruct IH as [b Eb]; [discriminate|intros k Hk; apply H; right; exact Hk|].
  rewrite Eb. cbn. eauto.
Qed.
Lemma fold_max_finite (f : nat -> xR) l : l <> [] -> (forall i, In i l -> exists a, f i = Fin a) ->
  exists a, fold_right (fun i a => xmax (f i) a) NInf l = Fin a.
Proof.
  induction l as [|i l IH]; intros N H; [contradiction|]. cbn. destruct (H i (or_introl eq_refl)) as [a Ea]. rewrite Ea.
  destruct l as [|j l]; [cbn; eauto|]. destruct IH as [b Eb]; [discriminate|intros k Hk; apply H; right; exact Hk|].
  rewrite Eb. cbn. eauto.
Qed.

Lemma range_finite n xu xo x p : all_finite n xu xo -> moving n p <> [] ->
  (exists a, range_low n xu xo x p = Fin a) /\ exists b, range_high n xu xo x p = Fin b.
Proof.
  intros F N. unfold range_low, range_high. split.
  - apply (fold_max_finite (fun i => if Rltb (p i) 0 then to_upper xo x p i else to_lower xu x p i)); [exact N|].
    intros i Hi. apply moving_in in Hi. destruct (F i (proj1 Hi)) as [[a A] [b B]]. unfold to_upper, to_lower. rewrite A, B. cbn.
    destruct (Rltb _ _); eauto.
  - apply (fold_min_finite (fun i => if Rltb (p i) 0 then to_lower xu x p i else to_upper xo x p i)); [exact N|].
    intros i Hi. apply moving_in in Hi. destruct (F i (proj1 Hi)) as [[a A] [b B]]. unfold to_upper, to_lower. rewrite A, B. cbn.
    destruct (Rltb _ _); eauto.
Qed.

(** ** the point moved *)
Lemma moved_ok xu xo x p t i : moved xu xo x p t i = x i + t * p i.
Proof.
  unfold moved, to_lower, to_upper. destruct (Reqb_spec (p i) 0) as [Z|Z]; [rewrite Z; lra|].
  destruct (xis t (xdiv (xsub (xu i) (x i)) (p i))) eqn:E1.
  - destruct (xu i) as [u| |]; cbn in E1; [|destruct (Rltb _ _); discriminate|destruct (Rltb _ _); discriminate].
    apply Reqb_true in E1. cbn. rewrite E1. field. exact Z.
  - destruct (xis t (xdiv (xsub (xo i) (x i)) (p i))) eqn:E2; [|reflexivity].
    destruct (xo i) as [o| |]; cbn in E2; [|destruct (Rltb _ _); discriminate|destruct (Rltb _ _); discriminate].
    apply Reqb_true in E2. cbn. rewrite E2. field. exact Z.
Qed.

Lemma moved_within n xu xo x p t : within n xu xo x -> in_itv (range_low n xu xo x p) (range_high n xu xo x p) t ->
  within n xu xo (moved xu xo x p t).
Proof.
  intros W H i Hi. rewrite moved_ok. destruct (Req_dec (p i) 0) as [Z|Z].
  - rewrite Z. replace (x i + t * 0) with (x i) by lra. apply W, Hi.
  - apply (proj1 (range_ok n xu xo x p t) H i Hi Z).
Qed.

Lemma qobj_line n G c x p t : symmetric n G ->
  qobj n G c (vadd x (vscal t p)) = qobj n G c x + q1 (quad n G p) (dot n (calc_g n G c x) p) t.
Proof.
  intros HG. unfold qobj, q1, calc_g. rewrite quad_add by exact HG. rewrite quad_scal, dot_add_r, dot_scal_r.
  replace (dot n (fun i => mv n G x i + c i) p) with (dot n (vadd (mv n G x) c) p) by reflexivity.
  rewrite dot_add_l, (dot_sym n (mv n G x) p). 
  try rewrite dot_mv_scal. try rewrite dot_scal_l.
  try rewrite (dot_mv_sym n G x p) by exact HG. field.
Qed.

(** the value does not rise along the direction *)
Lemma line_descent neps n G c xu xo x p g t lba uba :
  symmetric n G -> possemidef n G -> within n xu xo x -> (forall i, (i < n)%nat -> g i = calc_g n G c x i) ->
  quadMin (range_low n xu xo x p) (range_high n xu xo x p) (slope neps n g p) (quad n G p) =
    {| qm_x := Some t; qm_lba := lba; qm_uba := uba; qm_ier := false |} ->
  qobj n G c (moved xu xo x p (xval t)) <= qobj n G c x.
Proof.
  intros HG PS W Hg Q. destruct (range_zero n xu xo x p W) as [R1 R2].
  destruct (quadMin_min _ _ _ _ _ _ _ R1 R2 Q) as [t' [-> [_ M]]]. cbn [xval].
  assert (D : dot n (calc_g n G c x) p = dot n g p) by (apply dot_ext; intros i Hi; [symmetry; apply Hg, Hi|reflexivity]).
  assert (E : qobj n G c (moved xu xo x p t') = qobj n G c x + q1 (quad n G p) (dot n g p) t').
  { rewrite <- D, <- qobj_line by exact HG. unfold qobj.
    rewrite (quad_ext n G (moved xu xo x p t') (vadd x (vscal t' p))) by (intros i _; apply moved_ok).
    rewrite (dot_ext n c c (moved xu xo x p t') (vadd x (vscal t' p))) by (try (intros i _; apply moved_ok); intros i _; reflexivity).
    reflexivity. }
  rewrite E. pose proof (M 0 (conj R1 R2)) as M0. unfold slope in *.
  destruct (Rltb _ _) eqn:C.
  - (* the linear term was dropped: nothing moves *)
    assert (T : t' = 0 \/ quad n G p = 0 /\ t' = 0).
    { specialize (PS p). unfold quadMin in Q. 
      rewrite (proj2 (Rltb_false (quad n G p) 0)) in Q by lra. rewrite (proj2 (Rltb_false 0 0)) in Q by lra.
      cbn [orb] in Q. rewrite !andb_false_r in Q. cbn [orb] in Q.
      rewrite (proj2 (Reqb_true 0 0)) in Q by reflexivity. rewrite andb_true_r in Q.
      destruct (Reqb_spec (quad n G p) 0) as [Z|Z].
      - injection Q as Q _ _. right. split; [exact Z|congruence].
      - rewrite (proj2 (Rleb_false (quad n G p) 0)) in Q by lra. left.
        replace (- 0 / quad n G p) with 0 in Q by (field; exact Z).
        destruct (xler (range_high n xu xo x p) 0) eqn:U.
        + injection Q as Q _ _. apply xler_true in U. rewrite Q in U, R2. cbn in U, R2. lra.
        + destruct (rlex 0 (range_low n xu xo x p)) eqn:L.
          * injection Q as Q _ _. apply rlex_true in L. rewrite Q in L, R1. cbn in L, R1. lra.
          * injection Q as Q _ _. congruence. }
    assert (T0 : t' = 0) by tauto. rewrite T0. unfold q1. lra.
  - replace (q1 (quad n G p) (dot n g p) 0) with 0 in M0 by (unfold q1; ring). lra.
Qed.

(** ** the diagonal of the factorisation stays positive *)
Section Pos.
Variables (neps : R) (slv : solver).
Hypothesis NP : 0 <= neps.

Lemma loop_diag ks : forall n L0 d0 L d u alpha L' d', positive n d -> alpha <> 0 -> (forall k, In k ks -> (k < n)%nat) ->
  rk1_loop neps slv ks L0 d0 L d u alpha = LdlOk L' d' -> positive n d'.
Proof.
  induction ks as [|k ks IH]; intros n L0 d0 L d u alpha L' d' P A Hk E; cbn [rk1_loop] in E.
  { injection E as _ <-. exact P. }
  cbv zeta in E. set (delta := d k + alpha * (u k * u k)) in *.
  destruct (Rltb alpha 0 && Rleb delta neps) eqn:C; [destruct (slv _ _ _); discriminate|].
  assert (Dk : 0 < d k) by (apply P, Hk; left; reflexivity).
  assert (De : 0 < delta).
  { apply andb_false_iff in C. destruct C as [C|C]; rb; [|lra]. unfold delta. pose proof (Rle_0_sqr (u k)) as Q. unfold Rsqr in Q.
    pose proof (Rmult_le_pos alpha (u k * u k) C Q). lra. }
  assert (P' : positive n (d_upd k d delta)).
  { intros i Hi. unfold d_upd. destruct (Nat.eqb i k); [exact De|apply P, Hi]. }
  destruct (Reqb_spec (alpha * (d k / delta)) 0) as [Z|Z].
  - injection E as _ <-. exact P'.
  - refine (IH n _ _ _ _ _ _ _ _ P' Z _ E). intros j Hj. apply Hk. right. exact Hj.
Qed.

Lemma rk1_diag n L d alpha u L' d' : positive n d -> ldlrk1 neps slv n L d alpha u = LdlOk L' d' -> positive n d'.
Proof.
  intros P. unfold ldlrk1. destruct (Reqb_spec alpha 0); [discriminate|]. intros E.
  refine (loop_diag _ n _ _ _ _ _ _ _ _ P n0 _ E). intros k Hk. apply nonzero_in in Hk. apply Hk.
Qed.
Lemma tail_diag n j d : positive n d -> positive (n - S j) (tailv j d).
Proof. intros P i Hi. apply P. lia. Qed.
Lemma put_diag n j d dk : positive n d -> positive (n - S j) dk -> positive n (put_tail j d dk).
Proof. intros P Q i Hi. unfold put_tail. destruct (Nat.leb_spec i j); [apply P, Hi|apply Q; lia]. Qed.

Lemma up_diag n L d j g : (j < n)%nat -> positive n d ->
  match ldlup neps slv n L d j g with LdlOk _ d' | LdlBad _ d' _ => positive n d' | _ => True end.
Proof.
  intros Hj P. unfold ldlup. destruct (Nat.eqb_spec j 0) as [->|J].
  - destruct (Rleb_spec (g 0%nat) neps); [exact P|]. intros i Hi. unfold d_upd. destruct (Nat.eqb i 0); [lra|apply P, Hi].
  - destruct (slv j L g) as [u|]; [|exact I]. cbv zeta.
    destruct (Rleb_spec (g j - dot j u (fun i => u i / d i)) neps) as [C|C].
    + destruct (slv _ _ _); [exact P|exact I].
    + destruct (ldlrk1 _ _ _ _ _ _ _) as [| |LKK dk|LKK dk q] eqn:E; try exact I.
      * intros i Hi. unfold d_upd. destruct (Nat.eqb i j); [lra|]. apply (put_diag n); [exact P| |exact Hi].
        exact (rk1_diag _ _ _ _ _ _ _ (tail_diag n j d P) E).
      * destruct (slv _ _ _); [|exact I]. apply rk1_back in E. destruct E as [_ ->].
        apply put_diag; [exact P|apply tail_diag, P].
Qed.
Lemma down_diag n L d j L' d' : (j < n)%nat -> positive n d -> ldldown neps slv n L d j = Some (L', d') -> positive n d'.
Proof.
  intros Hj P. unfold ldldown. destruct (ldlrk1 _ _ _ _ _ _ _) as [| |LKK dk|LKK dk q] eqn:E; try discriminate; intros H; injection H as _ <-;
    intros i Hi; unfold d_upd; (destruct (Nat.eqb i j); [lra|]); (apply (put_diag n); [exact P| |exact Hi]).
  - exact (rk1_diag _ _ _ _ _ _ _ (tail_diag n j d P) E).
  - apply rk1_back in E. destruct E as [_ ->]. apply tail_diag, P.
Qed.

Lemma downdate_diag n js : forall L d K L' d' K', (forall j, In j js -> (j < n)%nat) -> positive n d ->
  downdate neps slv n js L d K = Some (L', d', K') -> positive n d'.
Proof.
  induction js as [|j js IH]; intros L d K L' d' K' Hj P E; cbn in E; [injection E as _ <- _; exact P|].
  destruct (ldldown _ _ _ _ _ _) as [[L1 d1]|] eqn:D; [|discriminate].
  refine (IH _ _ _ _ _ _ _ _ E); [intros i Hi; apply Hj; right; exact Hi|].
  refine (down_diag n L d j L1 d1 _ P D). apply Hj. left. reflexivity.
Qed.
Lemma update_diag n G js : forall L d K L' d' K', (forall j, In j js -> (j < n)%nat) -> positive n d ->
  update neps slv n G js L d K = Some (L', d', K') -> positive n d'.
Proof.
  induction js as [|j js IH]; intros L d K L' d' K' Hj P E; cbn in E; [injection E as _ <- _; exact P|].
  pose proof (up_diag n L d j (new_col G K j) (Hj j (or_introl eq_refl)) P) as U.
  assert (Hj' : forall i, In i js -> (i < n)%nat) by (intros i Hi; apply Hj; right; exact Hi).
  destruct (ldlup _ _ _ _ _ _ _) as [| |L1 d1|L1 d1 p]; try discriminate.
  - exact (IH _ _ _ _ _ _ Hj' U E).
  - destruct (any_nonzero n p); [discriminate|]. exact (IH _ _ _ _ _ _ Hj' U E).
Qed.
End Pos.
