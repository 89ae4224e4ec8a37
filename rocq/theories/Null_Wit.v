(** A matrix with one row and two columns. *)
From Coq Require Import Reals List Arith Bool Lra Lia.
From Verif Require Import RVec RBool Tri Null_Model Null_Spec.
Open Scope R_scope.

Definition row (a : R) : mat := fun _ j => if (j =? 0)%nat then a else 0.
Definition one_sv (a : R) : vec := fun _ => a.

Lemma idm_orth n k : (k <= n)%nat -> orthonormal n k idm.
Proof.
  intros L a b Ha Hb. rewrite (rsum_single n a); [|lia|].
  - unfold idm at 1. rewrite Nat.eqb_refl. ring.
  - intros i _ N. unfold idm at 1. destruct (Nat.eqb_spec i a); [contradiction|ring].
Qed.

Lemma row_svd a : 0 <= a -> svd_exact 1 2 (row a) (one_sv a) idm.
Proof.
  intros H. split; [|split].
  - intros i j Hi Hj. unfold tr. rewrite <- (idm_orth 2 2 (Nat.le_refl 2) i j Hi Hj). apply rsum_ext. intros l _. unfold idm. rewrite (Nat.eqb_sym i l), (Nat.eqb_sym j l). reflexivity.
  - intros k _. exact H.
  - exists idm. split; [apply idm_orth; cbn; lia|]. intros i j Hi Hj.
    destruct i; [|lia]. cbn [Nat.min rsum]. unfold row, one_sv, idm. destruct j as [|[|j]]; cbn; [ring|ring|lia].
Qed.

(** a row of length 1: the second coordinate direction *)
Lemma row_one : fst (null_ 1 2 (one_sv 1) idm) = 1%nat /\ snd (null_ 1 2 (one_sv 1) idm) 0%nat 0%nat = 0 /\ snd (null_ 1 2 (one_sv 1) idm) 1%nat 0%nat = 1.
Proof.
  assert (E : null_rows 1 2 (one_sv 1) = (1 :: nil)%nat).
  { unfold null_rows, null_mask, one_sv. cbn [seq filter Nat.min Nat.ltb Nat.leb]. rewrite (proj2 (Rleb_false 1 (/ 10 ^ 15))); [reflexivity|].
    rewrite <- Rinv_1. apply Rinv_lt_contravar; [rewrite Rmult_1_l; apply pow_lt; lra|]. apply Rlt_pow_R1; [lra|lia]. }
  unfold null_. rewrite E. cbn. auto.
Qed.

(** a row of length 1e-15: everything *)
Lemma row_tiny : fst (null_ 1 2 (one_sv (/ 10 ^ 15)) idm) = 2%nat /\ snd (null_ 1 2 (one_sv (/ 10 ^ 15)) idm) 0%nat 0%nat = 1.
Proof.
  assert (E : null_rows 1 2 (one_sv (/ 10 ^ 15)) = (0 :: 1 :: nil)%nat).
  { unfold null_rows, null_mask, one_sv. cbn [seq filter Nat.min Nat.ltb Nat.leb]. rewrite (proj2 (Rleb_true (/ 10 ^ 15) (/ 10 ^ 15))); [reflexivity|lra]. }
  unfold null_. rewrite E. cbn. auto.
Qed.

Lemma r_null : ~ forall m n A sv vh, svd_exact m n A sv vh -> (forall i, (i < m)%nat -> 0 < norm n (A i)) -> (m < n)%nat ->
  forall u i, (i < m)%nat -> mv n A (mv (fst (null_ m n sv vh)) (snd (null_ m n sv vh)) u) i = 0.
Proof.
  intros H. assert (P : 0 < / 10 ^ 15) by (apply Rinv_0_lt_compat, pow_lt; lra).
  specialize (H 1%nat 2%nat (row (/ 10 ^ 15)) (one_sv (/ 10 ^ 15)) idm (row_svd _ (Rlt_le _ _ P))).
  assert (N : forall i, (i < 1)%nat -> 0 < norm 2 (row (/ 10 ^ 15) i)).
  { intros i _. unfold norm. apply sqrt_lt_R0. unfold dot, row. cbn [rsum Nat.eqb]. nra. }
  specialize (H N ltac:(lia) (unitv 0) 0%nat ltac:(lia)). destruct row_tiny as [K Z]. rewrite K in H.
  unfold mv in H. cbn [rsum] in H. unfold row, unitv in H. cbn [Nat.eqb] in H. rewrite Z in H. nra.
Qed.
