From Coq Require Import Reals List Arith Bool Lra Lia.
From Verif Require Import RVec RBool Tri Null_Model Null_Spec.
Open Scope R_scope.

Lemma rsum_filter f n (h : nat -> R) :
  rsum (length (filter f (seq 0 n))) (fun j => h (nth j (filter f (seq 0 n)) 0%nat)) = rsum n (fun i => if f i then h i else 0).
Proof.
  induction n as [|n IH]; [reflexivity|]. rewrite seq_S, filter_app, app_length. cbn [filter]. rewrite Nat.add_0_l.
  rewrite rsum_split. cbn [rsum]. f_equal.
  - rewrite <- IH. apply rsum_ext. intros j Hj. rewrite app_nth1 by exact Hj. reflexivity.
  - destruct (f n) eqn:E; cbn [length rsum]; [|reflexivity]. rewrite app_nth2 by lia.
    rewrite Nat.add_0_r, Nat.sub_diag. cbn. ring.
Qed.

Section P.
Variables (m n : nat) (A : mat) (sv : vec) (vh : mat).
Let p := Nat.min m n.
Let idx := null_rows m n sv.
Let k := fst (null_ m n sv vh).
Let Z := snd (null_ m n sv vh).

Lemma idx_lt j : (j < k)%nat -> (nth j idx 0 < n)%nat /\ null_mask m n sv (nth j idx 0%nat) = true.
Proof.
  intros Hj. assert (H : In (nth j idx 0%nat) idx) by (apply nth_In; exact Hj).
  apply filter_In in H. destruct H as [H1 H2]. apply in_seq in H1. split; [lia|exact H2].
Qed.

Lemma z_orth : orthonormal n n (tr vh) -> orthonormal n k Z.
Proof.
  intros OV a b Ha Hb. unfold Z, null_; cbn [snd]. fold idx. destruct (idx_lt a Ha) as [La _]. destruct (idx_lt b Hb) as [Lb _].
  transitivity (idm (nth a idx 0%nat) (nth b idx 0%nat)); [exact (OV _ _ La Lb)|].
  unfold idm. destruct (Nat.eqb_spec a b) as [->|N]; [rewrite Nat.eqb_refl; reflexivity|].
  destruct (Nat.eqb_spec (nth a idx 0%nat) (nth b idx 0%nat)) as [E|_]; [|reflexivity]. exfalso. apply N.
  assert (ND : NoDup idx) by (apply NoDup_filter, seq_NoDup). exact (proj1 (NoDup_nth idx 0%nat) ND a b Ha Hb E).
Qed.

Hypothesis SVD : svd_exact m n A sv vh.
(** the product with [A] of a combination of the right singular vectors *)
Lemma a_comb cc : dot m (mv n A (mv n (tr vh) cc)) (mv n A (mv n (tr vh) cc)) = rsum p (fun i => (sv i * cc i) * (sv i * cc i)).
Proof.
  destruct SVD as (OV & _ & U & OU & E).
  assert (S : veq m (mv n A (mv n (tr vh) cc)) (mv p U (fun i => sv i * cc i))).
  { intros i Hi. unfold mv at 1.
    rewrite (rsum_ext n _ (fun j => rsum p (fun l => U i l * sv l * (vh l j * mv n (tr vh) cc j)))).
    2:{ intros j Hj. rewrite (E i j Hi Hj). fold p. rewrite <- rsum_scal_r. apply rsum_ext. intros l _. ring. }
    rewrite rsum_swap. unfold mv at 2. apply rsum_ext. intros l Hl.
    rewrite rsum_scal. pose proof (orth_mv n n (tr vh) cc OV l ltac:(unfold p in Hl; lia)) as Q.
    unfold mv at 1 in Q. unfold tr at 1 2 in Q. rewrite Q. ring. }
  rewrite (dot_ext m _ _ _ _ S S). rewrite (orth_norm m p U _ OU). reflexivity.
Qed.

Lemma v_norm cc : dot n (mv n (tr vh) cc) (mv n (tr vh) cc) = dot n cc cc.
Proof. exact (orth_norm n n (tr vh) cc (proj1 SVD)). Qed.

Lemma v_full x : veq n x (mv n (tr vh) (mv n vh x)).
Proof.
  intros i Hi. pose proof (orth_mv n n vh x) as Q.
  assert (O : orthonormal n n vh) by exact (orthonormal_tr n (tr vh) (proj1 SVD)).
  exact (eq_sym (Q O i Hi)).
Qed.

(** the coefficients of a combination of the columns returned *)
Definition coef (u : vec) : vec := fun i => rsum k (fun j => if (i =? nth j idx 0)%nat then u j else 0).
Lemma coef_z u : forall a, (a < n)%nat -> mv k Z u a = mv n (tr vh) (coef u) a.
Proof.
  intros a Ha. unfold mv, tr, coef.
  rewrite (rsum_ext n _ (fun i => rsum k (fun j => vh i a * (if (i =? nth j idx 0)%nat then u j else 0)))) by (intros i _; rewrite rsum_scal; reflexivity).
  rewrite rsum_swap. apply rsum_ext. intros j Hj. unfold Z, null_; cbn [snd]. fold idx. destruct (idx_lt j Hj) as [L _].
  rewrite (rsum_single n (nth j idx 0%nat)); [|exact L|].
  - rewrite Nat.eqb_refl. reflexivity.
  - intros i _ N. destruct (Nat.eqb_spec i (nth j idx 0%nat)) as [E|_]; [contradiction|ring].
Qed.
Lemma coef_out u i : null_mask m n sv i = false -> coef u i = 0.
Proof.
  intros F. apply rsum_zero. intros j Hj. destruct (Nat.eqb_spec i (nth j idx 0%nat)) as [->|_]; [|reflexivity].
  destruct (idx_lt j Hj) as [_ T]. rewrite T in F. discriminate.
Qed.

Lemma mask_small i : (i < p)%nat -> null_mask m n sv i = true -> 0 <= sv i <= / 10 ^ 15.
Proof.
  intros Hi T. split; [exact (proj1 (proj2 SVD) i Hi)|]. unfold null_mask in T. fold p in T.
  destruct (Nat.ltb_spec i p); [|lia]. apply Rleb_true in T. exact T.
Qed.
Lemma mask_large i : null_mask m n sv i = false -> (i < p)%nat /\ / 10 ^ 15 < sv i.
Proof.
  intros F. unfold null_mask in F. fold p in F. destruct (Nat.ltb_spec i p); [|discriminate]. split; [assumption|]. apply Rleb_false in F. exact F.
Qed.

Lemma pn : (p <= n)%nat. Proof. unfold p. lia. Qed.
Lemma rsum_part (f : nat -> R) : (forall i, (i < n)%nat -> 0 <= f i) -> rsum p f <= rsum n f.
Proof.
  intros H. pose proof pn. replace n with (p + (n - p))%nat by lia. rewrite rsum_split.
  pose proof (rsum_nonneg (n - p) (fun i => f (p + i)%nat)) as Q. specialize (Q ltac:(intros; apply H; lia)). lra.
Qed.

Lemma z_small u : norm m (mv n A (mv k Z u)) <= / 10 ^ 15 * norm k u.
Proof.
  assert (E15 : 0 <= / 10 ^ 15) by (apply Rlt_le, Rinv_0_lt_compat, pow_lt; lra).
  assert (D : dot m (mv n A (mv k Z u)) (mv n A (mv k Z u)) <= (/ 10 ^ 15 * norm k u) * (/ 10 ^ 15 * norm k u)).
  { assert (V : veq m (mv n A (mv k Z u)) (mv n A (mv n (tr vh) (coef u)))) by (intros i _; apply mv_ext; intros a Ha; apply coef_z; exact Ha).
    rewrite (dot_ext m _ _ _ _ V V), a_comb.
    replace (/ 10 ^ 15 * norm k u * (/ 10 ^ 15 * norm k u)) with (/ 10 ^ 15 * / 10 ^ 15 * (norm k u * norm k u)) by ring.
    rewrite norm_sq, <- (orth_norm n k Z u (z_orth (proj1 SVD))).
    assert (W : veq n (mv k Z u) (mv n (tr vh) (coef u))) by (intros a Ha; apply coef_z; exact Ha).
    rewrite (dot_ext n _ _ _ _ W W), v_norm. unfold dot. rewrite <- rsum_scal.
    eapply Rle_trans; [|apply rsum_part; intros i _; cbv beta; nra]. apply rsum_le. intros i Hi.
    destruct (null_mask m n sv i) eqn:M.
    - destruct (mask_small i Hi M) as [S0 S1]. pose proof (Rmult_le_compat _ _ _ _ S0 S0 S1 S1). nra.
    - rewrite (coef_out u i M). lra. }
  apply Rsqr_incr_0_var; [|apply Rmult_le_pos; [exact E15|apply norm_nonneg]]. unfold Rsqr. rewrite norm_sq. exact D.
Qed.

(** coefficients of the columns returned *)
Lemma zt_coef x j : (j < k)%nat -> mv n (tr Z) x j = mv n vh x (nth j idx 0%nat).
Proof. intros Hj. reflexivity. Qed.

Lemma zz x a : mv k Z (mv n (tr Z) x) a = rsum n (fun i => if null_mask m n sv i then vh i a * mv n vh x i else 0).
Proof. unfold mv at 1. exact (rsum_filter (null_mask m n sv) n (fun i => vh i a * mv n vh x i)). Qed.

Lemma z_complete x : (forall i, (i < m)%nat -> mv n A x i = 0) -> veq n x (mv k Z (mv n (tr Z) x)).
Proof.
  intros H.
  assert (D : rsum p (fun i => (sv i * mv n vh x i) * (sv i * mv n vh x i)) = 0).
  { rewrite <- a_comb. rewrite <- (dot_zero_l m vzero). apply dot_ext.
    - intros i Hi. rewrite <- (mv_ext n A x _ i (v_full x)). apply H. exact Hi.
    - intros i Hi. rewrite <- (mv_ext n A x _ i (v_full x)). apply H. exact Hi. }
  assert (C0 : forall i, null_mask m n sv i = false -> mv n vh x i = 0).
  { intros i M. destruct (mask_large i M) as [Li Ls].
    pose proof (rsum_ge_term p (fun i => (sv i * mv n vh x i) * (sv i * mv n vh x i)) i) as Q. cbv beta in Q. rewrite D in Q.
    specialize (Q Li ltac:(intros; apply Rle_0_sqr)).
    assert (0 < / 10 ^ 15) by (apply Rinv_0_lt_compat, pow_lt; lra).
    assert (Z0 : sv i * mv n vh x i = 0) by (apply Rsqr_0_uniq; unfold Rsqr; pose proof (Rle_0_sqr (sv i * mv n vh x i)) as S0; unfold Rsqr in S0; lra). apply Rmult_integral in Z0. destruct Z0 as [Z0|Z0]; [lra|exact Z0]. }
  intros a Ha. rewrite zz. rewrite (v_full x a Ha) at 1. unfold mv at 1. apply rsum_ext. intros i Hi. unfold tr.
  destruct (null_mask m n sv i) eqn:M; [reflexivity|]. rewrite (C0 i M). ring.
Qed.

Lemma z_apart x : (forall j, (j < k)%nat -> mv n (tr Z) x j = 0) -> ~ veq n x vzero -> / 10 ^ 15 * norm n x < norm m (mv n A x).
Proof.
  intros H NZ. set (cc := mv n vh x).
  assert (C0 : forall i, (i < n)%nat -> null_mask m n sv i = true -> cc i = 0).
  { intros i Hi M. assert (I : In i idx) by (apply filter_In; split; [apply in_seq; lia|exact M]).
    destruct (In_nth idx i 0%nat I) as (j & Hj & E). rewrite <- E. unfold cc. rewrite <- (zt_coef x j Hj). apply H. exact Hj. }
  assert (DA : dot m (mv n A x) (mv n A x) = rsum p (fun i => (sv i * cc i) * (sv i * cc i))).
  { rewrite <- a_comb. apply dot_ext; intros i Hi; apply mv_ext, v_full. }
  assert (DX : dot n x x = rsum p (fun i => cc i * cc i)).
  { rewrite (dot_ext n _ _ _ _ (v_full x) (v_full x)), v_norm. unfold dot. fold cc. pose proof pn. replace n with (p + (n - p))%nat at 1 by lia.
    rewrite rsum_split. rewrite (rsum_zero (n - p)); [ring|]. intros i Hi. rewrite C0; [ring|lia|].
    unfold null_mask. fold p. destruct (Nat.ltb_spec (p + i) p); [lia|reflexivity]. }
  assert (E15 : 0 < / 10 ^ 15) by (apply Rinv_0_lt_compat, pow_lt; lra).
  pose proof (norm_nonneg n x) as N0. pose proof (norm_nonneg m (mv n A x)) as N1.
  apply Rsqr_incrst_0; [|apply Rmult_le_pos; lra|exact N1]. unfold Rsqr. rewrite norm_sq, DA.
  replace (/ 10 ^ 15 * norm n x * (/ 10 ^ 15 * norm n x)) with (/ 10 ^ 15 * / 10 ^ 15 * (norm n x * norm n x)) by ring.
  rewrite norm_sq, DX, <- rsum_scal.
  assert (T : forall i, (i < p)%nat -> / 10 ^ 15 * / 10 ^ 15 * (cc i * cc i) <= sv i * cc i * (sv i * cc i) /\ (cc i <> 0 -> / 10 ^ 15 * / 10 ^ 15 * (cc i * cc i) < sv i * cc i * (sv i * cc i))).
  { intros i Hi. pose proof pn. destruct (null_mask m n sv i) eqn:M; [rewrite (C0 i ltac:(lia) M); split; [lra|congruence]|].
    destruct (mask_large i M) as [_ Ls]. assert (P : / 10 ^ 15 * / 10 ^ 15 < sv i * sv i) by (apply Rmult_le_0_lt_compat; lra).
    split.
    - replace (sv i * cc i * (sv i * cc i)) with (sv i * sv i * (cc i * cc i)) by ring. apply Rmult_le_compat_r; [nra|lra].
    - intros C. replace (sv i * cc i * (sv i * cc i)) with (sv i * sv i * (cc i * cc i)) by ring. apply Rmult_lt_compat_r; [nra|exact P]. }
  assert (EX : exists i, (i < p)%nat /\ cc i <> 0).
  { destruct (Req_dec (rsum p (fun i => cc i * cc i)) 0) as [E|E].
    - exfalso. apply NZ. apply dot_self_zero. rewrite DX. exact E.
    - clear - E. induction p as [|q IH]; [cbn in E; lra|]. cbn [rsum] in E.
      destruct (Req_dec (cc q) 0) as [C|C]; [|exists q; split; [lia|exact C]].
      destruct IH as (i & Hi & Ci); [rewrite C in E; lra|]. exists i. split; [lia|exact Ci]. }
  destruct EX as (i0 & L0 & C0').
  assert (G : 0 < rsum p (fun i => sv i * cc i * (sv i * cc i) - / 10 ^ 15 * / 10 ^ 15 * (cc i * cc i))).
  { eapply Rlt_le_trans; [|apply (rsum_ge_term p _ i0); [exact L0|intros i Hi; destruct (T i Hi); lra]]. destruct (T i0 L0) as [_ Q]. specialize (Q C0'). lra. }
  rewrite rsum_minus in G. lra.
Qed.

Lemma z_exact u : (forall i, (i < p)%nat -> sv i <= / 10 ^ 15 -> sv i = 0) -> forall i, (i < m)%nat -> mv n A (mv k Z u) i = 0.
Proof.
  intros G i Hi.
  assert (D : dot m (mv n A (mv k Z u)) (mv n A (mv k Z u)) = 0).
  { assert (V : veq m (mv n A (mv k Z u)) (mv n A (mv n (tr vh) (coef u)))) by (intros l _; apply mv_ext; intros a Ha; apply coef_z; exact Ha).
    rewrite (dot_ext m _ _ _ _ V V), a_comb. apply rsum_zero. intros l Hl. destruct (null_mask m n sv l) eqn:M.
    - destruct (mask_small l Hl M) as [_ S1]. rewrite (G l Hl S1). ring.
    - rewrite (coef_out u l M). ring. }
  apply dot_self_zero in D. exact (D i Hi).
Qed.

Lemma z_count : (n - p <= k <= n)%nat.
Proof.
  unfold k, null_; cbn [fst]. fold idx. split.
  - assert (I : incl (seq p (n - p)) idx).
    { intros i Hi. apply in_seq in Hi. apply filter_In. split; [apply in_seq; lia|]. unfold null_mask. fold p. destruct (Nat.ltb_spec i p); [lia|reflexivity]. }
    pose proof (NoDup_incl_length (seq_NoDup (n - p) p) I) as L. rewrite seq_length in L. exact L.
  - transitivity (length (seq 0 n)); [|rewrite seq_length; lia]. apply NoDup_incl_length; [apply NoDup_filter, seq_NoDup|].
    intros i Hi. apply filter_In in Hi. exact (proj1 Hi).
Qed.
End P.

Lemma z_columns m n A sv vh : svd_exact m n A sv vh ->
  orthonormal n (fst (null_ m n sv vh)) (snd (null_ m n sv vh)) /\ (n - Nat.min m n <= fst (null_ m n sv vh) <= n)%nat.
Proof. intros H. split; [exact (z_orth m n sv vh (proj1 H))|exact (z_count m n sv vh)]. Qed.
