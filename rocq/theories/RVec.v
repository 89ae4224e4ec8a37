(** Vectors and matrices over the reals as functions on indices, with finite
    sums.  Supporting mathematics only: nothing here models /repo code.

    A vector of dimension [n] is a function [nat -> R] of which only the
    entries below [n] matter; every operation that looks at a whole vector
    takes [n] as an argument. *)
From Coq Require Import Reals Lra Lia Arith List.
Import ListNotations.
Open Scope R_scope.

Definition vec := nat -> R.
Definition mat := nat -> nat -> R.

Fixpoint rsum (n : nat) (f : nat -> R) : R :=
  match n with
  | O => 0
  | S k => rsum k f + f k
  end.

Definition vzero : vec := fun _ => 0.
Definition vadd (x y : vec) : vec := fun i => x i + y i.
Definition vsub (x y : vec) : vec := fun i => x i - y i.
Definition vneg (x : vec) : vec := fun i => - x i.
Definition vscal (a : R) (x : vec) : vec := fun i => a * x i.
Definition dot (n : nat) (x y : vec) : R := rsum n (fun i => x i * y i).
Definition mv (n : nat) (A : mat) (x : vec) : vec := fun i => rsum n (fun j => A i j * x j).
Definition norm (n : nat) (x : vec) : R := sqrt (dot n x x).
Definition quad (n : nat) (A : mat) (x : vec) : R := dot n x (mv n A x).
Definition idm : mat := fun i j => if Nat.eqb i j then 1 else 0.
Definition unitv (k : nat) : vec := fun i => if Nat.eqb i k then 1 else 0.

(** Equality of the first [n] entries. *)
Definition veq (n : nat) (x y : vec) : Prop := forall i, (i < n)%nat -> x i = y i.
Definition symmetric (n : nat) (A : mat) : Prop :=
  forall i j, (i < n)%nat -> (j < n)%nat -> A i j = A j i.
Definition posdef (n : nat) (A : mat) : Prop :=
  forall x, ~ veq n x vzero -> 0 < quad n A x.
Definition possemidef (n : nat) (A : mat) : Prop := forall x, 0 <= quad n A x.

Lemma rsum_ext n f g : (forall i, (i < n)%nat -> f i = g i) -> rsum n f = rsum n g.
Proof.
  induction n as [|n IH]; intros H; simpl; [reflexivity|].
  rewrite IH, (H n) by (auto; intros; apply H; lia). reflexivity.
Qed.

Lemma rsum_plus n f g : rsum n (fun i => f i + g i) = rsum n f + rsum n g.
Proof. induction n as [|n IH]; simpl; [lra|rewrite IH; lra]. Qed.

Lemma rsum_minus n f g : rsum n (fun i => f i - g i) = rsum n f - rsum n g.
Proof. induction n as [|n IH]; simpl; [lra|rewrite IH; lra]. Qed.

Lemma rsum_scal n a f : rsum n (fun i => a * f i) = a * rsum n f.
Proof. induction n as [|n IH]; simpl; [lra|rewrite IH; lra]. Qed.

Lemma rsum_scal_r n a f : rsum n (fun i => f i * a) = rsum n f * a.
Proof. induction n as [|n IH]; simpl; [lra|rewrite IH; lra]. Qed.

Lemma rsum_zero n f : (forall i, (i < n)%nat -> f i = 0) -> rsum n f = 0.
Proof.
  induction n as [|n IH]; intros H; simpl; [reflexivity|].
  rewrite IH, (H n) by (auto; intros; apply H; lia). lra.
Qed.

Lemma rsum_nonneg n f : (forall i, (i < n)%nat -> 0 <= f i) -> 0 <= rsum n f.
Proof.
  induction n as [|n IH]; intros H; simpl; [lra|].
  assert (H1 : 0 <= rsum n f) by (apply IH; intros; apply H; lia).
  specialize (H n ltac:(lia)). lra.
Qed.

Lemma rsum_le n f g : (forall i, (i < n)%nat -> f i <= g i) -> rsum n f <= rsum n g.
Proof.
  induction n as [|n IH]; intros H; simpl; [lra|].
  assert (H1 : rsum n f <= rsum n g) by (apply IH; intros; apply H; lia).
  specialize (H n ltac:(lia)). lra.
Qed.

Lemma rsum_ge_term n f k :
  (k < n)%nat -> (forall i, (i < n)%nat -> 0 <= f i) -> f k <= rsum n f.
Proof.
  induction n as [|n IH]; intros Hk H; [lia|]. simpl.
  assert (Hn : 0 <= f n) by (apply H; lia).
  assert (Hs : 0 <= rsum n f) by (apply rsum_nonneg; intros; apply H; lia).
  destruct (Nat.eq_dec k n) as [->|Hne]; [lra|].
  assert (H1 : f k <= rsum n f) by (apply IH; [lia|intros; apply H; lia]). lra.
Qed.

Lemma rsum_swap n m (f : nat -> nat -> R) :
  rsum n (fun i => rsum m (fun j => f i j)) = rsum m (fun j => rsum n (fun i => f i j)).
Proof.
  induction n as [|n IH]; simpl.
  - symmetry. apply rsum_zero. reflexivity.
  - rewrite IH, <- rsum_plus. reflexivity.
Qed.

Lemma rsum_split n m f : rsum (n + m) f = rsum n f + rsum m (fun i => f (n + i)%nat).
Proof.
  induction m as [|m IH]; simpl.
  - rewrite Nat.add_0_r. lra.
  - rewrite Nat.add_succ_r. simpl. rewrite IH. lra.
Qed.

Lemma rsum_S_first n f : rsum (S n) f = f 0%nat + rsum n (fun i => f (S i)).
Proof.
  change (S n) with (1 + n)%nat. rewrite rsum_split. simpl. lra.
Qed.

(** A sum with a single non-zero term. *)
Lemma rsum_single n k f :
  (k < n)%nat -> (forall i, (i < n)%nat -> i <> k -> f i = 0) -> rsum n f = f k.
Proof.
  induction n as [|n IH]; intros Hk H; [lia|]. simpl.
  destruct (Nat.eq_dec k n) as [->|Hne].
  - rewrite rsum_zero; [lra|]. intros i Hi. apply H; lia.
  - rewrite IH; [|lia|intros; apply H; lia]. rewrite (H n); [lra|lia|lia].
Qed.

(** A sum over a window of indices. *)
Lemma rsum_window n a m (f : nat -> R) :
  (a + m <= n)%nat ->
  rsum n (fun t => if ((a <=? t) && (t <? a + m))%nat%bool then f t else 0)
  = rsum m (fun j => f (a + j)%nat).
Proof.
  intros H.
  replace n with (a + (m + (n - a - m)))%nat by lia.
  rewrite rsum_split, (rsum_split m).
  rewrite rsum_zero.
  2:{ intros i Hi. destruct (Nat.leb_spec a i); [lia|reflexivity]. }
  rewrite (rsum_ext m _ (fun j => f (a + j)%nat)).
  2:{ intros i Hi. destruct (Nat.leb_spec a (a + i)); [|lia].
      destruct (Nat.ltb_spec (a + i) (a + m)); [reflexivity|lia]. }
  rewrite (rsum_zero (n - a - m)).
  2:{ intros i Hi. destruct (Nat.leb_spec a (a + (m + i))); [|reflexivity].
      destruct (Nat.ltb_spec (a + (m + i)) (a + m)); [lia|reflexivity]. }
  lra.
Qed.

(** ** Inner products *)

Lemma dot_ext n x x' y y' : veq n x x' -> veq n y y' -> dot n x y = dot n x' y'.
Proof. intros Hx Hy. apply rsum_ext. intros i Hi. rewrite (Hx i Hi), (Hy i Hi). reflexivity. Qed.

Lemma dot_sym n x y : dot n x y = dot n y x.
Proof. apply rsum_ext. intros. lra. Qed.

Lemma dot_add_l n x y z : dot n (vadd x y) z = dot n x z + dot n y z.
Proof. unfold dot, vadd. rewrite <- rsum_plus. apply rsum_ext. intros. lra. Qed.

Lemma dot_add_r n x y z : dot n x (vadd y z) = dot n x y + dot n x z.
Proof. unfold dot, vadd. rewrite <- rsum_plus. apply rsum_ext. intros. lra. Qed.

Lemma dot_sub_l n x y z : dot n (vsub x y) z = dot n x z - dot n y z.
Proof. unfold dot, vsub. rewrite <- rsum_minus. apply rsum_ext. intros. lra. Qed.

Lemma dot_sub_r n x y z : dot n x (vsub y z) = dot n x y - dot n x z.
Proof. unfold dot, vsub. rewrite <- rsum_minus. apply rsum_ext. intros. lra. Qed.

Lemma dot_scal_l n a x y : dot n (vscal a x) y = a * dot n x y.
Proof. unfold dot, vscal. rewrite <- rsum_scal. apply rsum_ext. intros. lra. Qed.

Lemma dot_scal_r n a x y : dot n x (vscal a y) = a * dot n x y.
Proof. unfold dot, vscal. rewrite <- rsum_scal. apply rsum_ext. intros. lra. Qed.

Lemma dot_neg_l n x y : dot n (vneg x) y = - dot n x y.
Proof.
  unfold dot, vneg. replace (- rsum n (fun i => x i * y i)) with ((-1) * rsum n (fun i => x i * y i)) by lra.
  rewrite <- rsum_scal. apply rsum_ext. intros. lra.
Qed.

Lemma dot_neg_r n x y : dot n x (vneg y) = - dot n x y.
Proof. rewrite dot_sym, dot_neg_l, dot_sym. reflexivity. Qed.

Lemma dot_zero_l n y : dot n vzero y = 0.
Proof. apply rsum_zero. intros. unfold vzero. lra. Qed.

Lemma dot_zero_r n y : dot n y vzero = 0.
Proof. apply rsum_zero. intros. unfold vzero. lra. Qed.

Lemma dot_self_nonneg n x : 0 <= dot n x x.
Proof. apply rsum_nonneg. intros. nra. Qed.

Lemma dot_self_zero n x : dot n x x = 0 <-> veq n x vzero.
Proof.
  split.
  - intros H i Hi. unfold vzero.
    assert (H1 : x i * x i <= dot n x x).
    { unfold dot. apply (rsum_ge_term n (fun i => x i * x i)); [exact Hi|intros; nra]. }
    rewrite H in H1. nra.
  - intros H. rewrite (dot_ext n x vzero x vzero H H). apply dot_zero_l.
Qed.

Lemma dot_self_pos n x : ~ veq n x vzero -> 0 < dot n x x.
Proof.
  intros H. pose proof (dot_self_nonneg n x) as H0.
  destruct (Req_dec (dot n x x) 0) as [E|E]; [|lra].
  exfalso. apply H, dot_self_zero, E.
Qed.

(** Cauchy-Schwarz, in squared form. *)
Lemma cauchy_schwarz_sq n x y : dot n x y * dot n x y <= dot n x x * dot n y y.
Proof.
  destruct (Req_dec (dot n y y) 0) as [E|E].
  - assert (Hy : veq n y vzero) by (apply dot_self_zero; exact E).
    rewrite (dot_ext n x x y vzero); [|intros i Hi; reflexivity|exact Hy].
    rewrite dot_zero_r, E. lra.
  - pose proof (dot_self_nonneg n y) as Hy.
    set (t := dot n x y / dot n y y).
    pose proof (dot_self_nonneg n (vsub x (vscal t y))) as H.
    rewrite dot_sub_l, !dot_sub_r, !dot_scal_l, !dot_scal_r, (dot_sym n y x) in H.
    assert (Ht : t * dot n y y = dot n x y) by (unfold t; field; lra).
    assert (Hm : 0 <= (dot n x x - t * dot n x y) * dot n y y).
    { apply Rmult_le_pos; [|lra]. nra. }
    nra.
Qed.

Lemma norm_nonneg n x : 0 <= norm n x.
Proof. apply sqrt_pos. Qed.

Lemma norm_sq n x : norm n x * norm n x = dot n x x.
Proof. apply sqrt_sqrt, dot_self_nonneg. Qed.

Lemma norm_zero n x : norm n x = 0 <-> veq n x vzero.
Proof.
  rewrite <- dot_self_zero. split; intros H.
  - rewrite <- norm_sq, H. lra.
  - unfold norm. rewrite H. apply sqrt_0.
Qed.

Lemma norm_ext n x y : veq n x y -> norm n x = norm n y.
Proof. intros H. unfold norm. rewrite (dot_ext n x y x y H H). reflexivity. Qed.

Lemma cauchy_schwarz n x y : Rabs (dot n x y) <= norm n x * norm n y.
Proof.
  apply Rsqr_incr_0_var.
  - rewrite <- Rsqr_abs. unfold Rsqr.
    replace (norm n x * norm n y * (norm n x * norm n y))
      with ((norm n x * norm n x) * (norm n y * norm n y)) by ring.
    rewrite !norm_sq. apply cauchy_schwarz_sq.
  - apply Rmult_le_pos; apply norm_nonneg.
Qed.

Lemma norm_triangle n x y : norm n (vadd x y) <= norm n x + norm n y.
Proof.
  apply Rsqr_incr_0_var; unfold Rsqr.
  - rewrite norm_sq, dot_add_l, !dot_add_r, (dot_sym n y x).
    pose proof (cauchy_schwarz n x y) as H.
    pose proof (Rle_abs (dot n x y)) as H1.
    pose proof (norm_sq n x). pose proof (norm_sq n y). nra.
  - pose proof (norm_nonneg n x). pose proof (norm_nonneg n y). lra.
Qed.

Lemma norm_scal n a x : norm n (vscal a x) = Rabs a * norm n x.
Proof.
  unfold norm. rewrite dot_scal_l, dot_scal_r.
  replace (a * (a * dot n x x)) with (Rsqr a * dot n x x) by (unfold Rsqr; ring).
  rewrite sqrt_mult_alt by apply Rle_0_sqr. rewrite sqrt_Rsqr_abs. reflexivity.
Qed.

(** ** Matrix-vector products *)

Lemma mv_ext n A x y i : veq n x y -> mv n A x i = mv n A y i.
Proof. intros H. apply rsum_ext. intros j Hj. rewrite (H j Hj). reflexivity. Qed.

Lemma mv_add n A x y i : mv n A (vadd x y) i = mv n A x i + mv n A y i.
Proof. unfold mv, vadd. rewrite <- rsum_plus. apply rsum_ext. intros. lra. Qed.

Lemma mv_sub n A x y i : mv n A (vsub x y) i = mv n A x i - mv n A y i.
Proof. unfold mv, vsub. rewrite <- rsum_minus. apply rsum_ext. intros. lra. Qed.

Lemma mv_scal n A a x i : mv n A (vscal a x) i = a * mv n A x i.
Proof. unfold mv, vscal. rewrite <- rsum_scal. apply rsum_ext. intros. lra. Qed.

Lemma mv_zero n A i : mv n A vzero i = 0.
Proof. apply rsum_zero. intros. unfold vzero. lra. Qed.

Lemma dot_mv_add n A x y z : dot n z (mv n A (vadd x y)) = dot n z (mv n A x) + dot n z (mv n A y).
Proof. rewrite <- dot_add_r. apply rsum_ext. intros i Hi. rewrite mv_add. reflexivity. Qed.

Lemma dot_mv_sub n A x y z : dot n z (mv n A (vsub x y)) = dot n z (mv n A x) - dot n z (mv n A y).
Proof. rewrite <- dot_sub_r. apply rsum_ext. intros i Hi. rewrite mv_sub. reflexivity. Qed.

Lemma dot_mv_scal n A a x z : dot n z (mv n A (vscal a x)) = a * dot n z (mv n A x).
Proof. rewrite <- dot_scal_r. apply rsum_ext. intros i Hi. rewrite mv_scal. reflexivity. Qed.

Lemma dot_mv_sym n A x y :
  symmetric n A -> dot n x (mv n A y) = dot n y (mv n A x).
Proof.
  intros HA. unfold dot, mv.
  rewrite (rsum_ext n _ (fun i => rsum n (fun j => x i * (A i j * y j)))).
  2:{ intros i Hi. rewrite rsum_scal. reflexivity. }
  rewrite rsum_swap. apply rsum_ext. intros j Hj.
  rewrite <- rsum_scal. apply rsum_ext. intros i Hi.
  rewrite (HA i j Hi Hj). ring.
Qed.

Lemma quad_ext n A x y : veq n x y -> quad n A x = quad n A y.
Proof. intros H. apply dot_ext; [exact H|]. intros i Hi. apply mv_ext, H. Qed.

Lemma quad_ext_mat n A B x :
  (forall i j, (i < n)%nat -> (j < n)%nat -> A i j = B i j) -> quad n A x = quad n B x.
Proof.
  intros H. apply dot_ext; [intros i Hi; reflexivity|]. intros i Hi.
  apply rsum_ext. intros j Hj. rewrite (H i j Hi Hj). reflexivity.
Qed.

Lemma quad_add n A x y : symmetric n A ->
  quad n A (vadd x y) = quad n A x + 2 * dot n x (mv n A y) + quad n A y.
Proof.
  intros HA. unfold quad. rewrite dot_add_l, !dot_mv_add, (dot_mv_sym n A y x HA). lra.
Qed.

Lemma quad_scal n A a x : quad n A (vscal a x) = a * a * quad n A x.
Proof. unfold quad. rewrite dot_scal_l, dot_mv_scal. ring. Qed.

Lemma mv_idm n x i : (i < n)%nat -> mv n idm x i = x i.
Proof.
  intros Hi. unfold mv, idm. rewrite (rsum_single n i); [|exact Hi|].
  - rewrite Nat.eqb_refl. lra.
  - intros j Hj Hne. destruct (Nat.eqb_spec i j); [congruence|lra].
Qed.

Lemma quad_idm n x : quad n idm x = dot n x x.
Proof. apply rsum_ext. intros i Hi. rewrite mv_idm by exact Hi. reflexivity. Qed.

Lemma dot_unitv n k x : (k < n)%nat -> dot n (unitv k) x = x k.
Proof.
  intros Hk. unfold dot, unitv. rewrite (rsum_single n k); [|exact Hk|].
  - rewrite Nat.eqb_refl. lra.
  - intros i Hi Hne. destruct (Nat.eqb_spec i k); [congruence|lra].
Qed.
