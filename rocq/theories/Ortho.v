(** Mutually orthogonal non-zero vectors in R^n number at most n. *)
From Coq Require Import Reals Lra Psatz Lia Arith.
From Verif Require Import RVec.
Open Scope R_scope.

Fixpoint bres (n m : nat) (V : nat -> vec) (x : vec) : vec :=
  match m with
  | O => x
  | S k => vsub (bres n k V x) (vscal (dot n x (V k) / dot n (V k) (V k)) (V k))
  end.

Definition orthogonal (n m : nat) (V : nat -> vec) : Prop :=
  forall i j, (i < m)%nat -> (j < m)%nat -> i <> j -> dot n (V i) (V j) = 0.

Lemma bres_dot n m V x j : (forall i, (i < m)%nat -> dot n (V i) (V j) = 0) ->
  dot n (bres n m V x) (V j) = dot n x (V j).
Proof.
  induction m as [|m IH]; intros H; [reflexivity|]. cbn [bres].
  rewrite dot_sub_l, dot_scal_l, IH by (intros; apply H; lia). rewrite (H m) by lia. lra.
Qed.

Lemma bres_norm n m V x : orthogonal n m V -> (forall i, (i < m)%nat -> dot n (V i) (V i) <> 0) ->
  dot n (bres n m V x) (bres n m V x) = dot n x x - rsum m (fun i => dot n x (V i) * dot n x (V i) / dot n (V i) (V i)).
Proof.
  induction m as [|m IH]; intros HO HN; [cbn; lra|]. cbn [bres rsum].
  rewrite !dot_sub_l, !dot_sub_r, !dot_scal_l, !dot_scal_r, (dot_sym n (V m) (bres n m V x)).
  rewrite IH.
  2:{ intros i j Hi Hj. apply HO; lia. }
  2:{ intros i Hi. apply HN. lia. }
  rewrite bres_dot by (intros i Hi; apply HO; lia). field. apply HN. lia.
Qed.

Lemma bessel n m V x : orthogonal n m V -> (forall i, (i < m)%nat -> dot n (V i) (V i) <> 0) ->
  rsum m (fun i => dot n x (V i) * dot n x (V i) / dot n (V i) (V i)) <= dot n x x.
Proof.
  intros HO HN. pose proof (bres_norm n m V x HO HN). pose proof (dot_self_nonneg n (bres n m V x)). lra.
Qed.

Lemma rsum_const n c : rsum n (fun _ => c) = INR n * c.
Proof. induction n as [|n IH]; [cbn; lra|]. cbn [rsum]. rewrite IH, S_INR. lra. Qed.

Lemma orthogonal_count n m V : orthogonal n m V -> (forall i, (i < m)%nat -> dot n (V i) (V i) <> 0) -> (m <= n)%nat.
Proof.
  intros HO HN.
  assert (H1 : rsum n (fun j => rsum m (fun i => dot n (unitv j) (V i) * dot n (unitv j) (V i) / dot n (V i) (V i))) <= rsum n (fun _ => 1)).
  { apply rsum_le. intros j Hj. eapply Rle_trans; [apply bessel; assumption|].
    rewrite dot_unitv by exact Hj. unfold unitv. rewrite Nat.eqb_refl. lra. }
  rewrite rsum_swap in H1.
  rewrite (rsum_ext m _ (fun _ => 1)) in H1.
  - rewrite !rsum_const in H1. apply INR_le. lra.
  - intros i Hi.
    rewrite (rsum_ext n _ (fun j => V i j * V i j * / dot n (V i) (V i))).
    + rewrite rsum_scal_r. change (dot n (V i) (V i) * / dot n (V i) (V i) = 1). field. apply HN. exact Hi.
    + intros j Hj. rewrite dot_unitv by exact Hj. unfold Rdiv. reflexivity.
Qed.
