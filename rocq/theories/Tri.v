(** Triangular systems and square orthogonal matrices over the reals. *)
From Coq Require Import Reals Lra Lia Arith Bool List.
From Verif Require Import RVec RBool Ortho.
Open Scope R_scope.

Definition tr (A : mat) : mat := fun i j => A j i.
Definition lower (n : nat) (T : mat) : Prop := forall i j, (i < n)%nat -> (j < n)%nat -> (i < j)%nat -> T i j = 0.
Definition upper (n : nat) (T : mat) : Prop := forall i j, (i < n)%nat -> (j < n)%nat -> (j < i)%nat -> T i j = 0.
Definition diag_nz (n : nat) (T : mat) : Prop := forall i, (i < n)%nat -> T i i <> 0.
Definition injective (n : nat) (A : mat) : Prop :=
  forall x, (forall i, (i < n)%nat -> mv n A x i = 0) -> veq n x vzero.
(** columns 0..k-1 of the matrix with n rows are orthonormal *)
Definition orthonormal (n k : nat) (Q : mat) : Prop :=
  forall a b, (a < k)%nat -> (b < k)%nat -> rsum n (fun i => Q i a * Q i b) = idm a b.

Lemma upper_tr n T : upper n T -> lower n (tr T).
Proof. intros H i j Hi Hj L. apply H; assumption. Qed.
Lemma lower_tr n T : lower n T -> upper n (tr T).
Proof. intros H i j Hi Hj L. apply H; assumption. Qed.

Lemma dot_mv_tr p n A x y : dot p (mv n A x) y = dot n x (mv p (tr A) y).
Proof.
  unfold dot, mv, tr.
  transitivity (rsum p (fun i => rsum n (fun j => A i j * x j * y i))).
  - apply rsum_ext. intros i Hi. rewrite <- rsum_scal_r. apply rsum_ext. intros j Hj. ring.
  - rewrite rsum_swap. apply rsum_ext. intros j Hj. rewrite <- rsum_scal. apply rsum_ext. intros i Hi. ring.
Qed.

(** ** Forward substitution *)
Fixpoint fwd (T : mat) (b : vec) (n : nat) : vec :=
  match n with
  | O => vzero
  | S k => fun i => if (i =? k)%nat then (b k - rsum k (fun j => T k j * fwd T b k j)) / T k k
                    else fwd T b k i
  end.

Lemma fwd_keep T b n i : (i < n)%nat -> fwd T b (S n) i = fwd T b n i.
Proof. intros H. cbn [fwd]. destruct (Nat.eqb_spec i n); [lia|reflexivity]. Qed.

Lemma fwd_solves n T b : lower n T -> diag_nz n T ->
  forall i, (i < n)%nat -> mv n T (fwd T b n) i = b i.
Proof.
  induction n as [|n IH]; intros L D i Hi; [lia|].
  assert (Ln : lower n T) by (intros a c Ha Hc; apply L; lia).
  assert (Dn : diag_nz n T) by (intros a Ha; apply D; lia).
  unfold mv. cbn [rsum].
  rewrite (rsum_ext n _ (fun j => T i j * fwd T b n j)) by (intros j Hj; rewrite fwd_keep by exact Hj; reflexivity).
  destruct (Nat.eq_dec i n) as [->|N].
  - cbn [fwd]. rewrite Nat.eqb_refl. field. apply D. lia.
  - rewrite (L i n) by lia. rewrite Rmult_0_l, Rplus_0_r. apply IH; [exact Ln|exact Dn|lia].
Qed.

Lemma lower_inj n T : lower n T -> diag_nz n T -> injective n T.
Proof.
  intros L D x H i. induction i as [i IH] using lt_wf_ind. intros Hi.
  specialize (H i Hi). unfold mv in H.
  rewrite (rsum_single n i) in H; [|exact Hi|].
  - unfold vzero. apply Rmult_integral in H. destruct H as [H|H]; [exfalso; exact (D i Hi H)|exact H].
  - intros j Hj N. destruct (lt_dec j i) as [A|A].
    + rewrite (IH j A Hj). unfold vzero. ring.
    + rewrite (L i j) by lia. ring.
Qed.

Lemma lower_diag n T : lower n T -> injective n T -> diag_nz n T.
Proof.
  intros L I k. remember (n - k)%nat as m eqn:Em. revert k Em.
  induction m as [m IH] using lt_wf_ind. intros k Em Hk Z.
  pose (T' := (fun i j => if (i <=? k)%nat then idm i j else T i j) : mat).
  assert (L' : lower n T').
  { intros i j Hi Hj Lt. unfold T'. destruct (i <=? k)%nat; [|apply L; assumption].
    unfold idm. destruct (Nat.eqb_spec i j); [lia|reflexivity]. }
  assert (D' : diag_nz n T').
  { intros i Hi. unfold T'. destruct (Nat.leb_spec i k) as [A|A].
    - unfold idm. rewrite Nat.eqb_refl. lra.
    - apply (IH (n - i)%nat); [lia|reflexivity|exact Hi]. }
  pose (x := fwd T' (unitv k) n).
  assert (S : forall i, (i < n)%nat -> mv n T' x i = unitv k i) by (apply fwd_solves; assumption).
  assert (X : forall i, (i <= k)%nat -> x i = unitv k i).
  { intros i Hi. specialize (S i). rewrite <- S by lia. unfold mv, T'.
    rewrite (rsum_single n i).
    - destruct (Nat.leb_spec i k); [|lia]. unfold idm. rewrite Nat.eqb_refl. ring.
    - lia.
    - intros j Hj N. destruct (Nat.leb_spec i k); [|lia]. unfold idm. destruct (Nat.eqb_spec i j); [lia|ring]. }
  assert (V : veq n x vzero).
  { apply I. intros i Hi. destruct (le_lt_dec i k) as [A|A].
    - unfold mv. apply rsum_zero. intros j Hj.
      destruct (lt_dec i j) as [B|B]; [rewrite (L i j) by lia; ring|].
      rewrite X by lia. unfold unitv. destruct (Nat.eqb_spec j k) as [C|C]; [|ring].
      assert (i = k) by lia. subst i. subst j. rewrite Z. ring.
    - transitivity (mv n T' x i).
      + unfold mv, T'. apply rsum_ext. intros j Hj. destruct (Nat.leb_spec i k); [lia|reflexivity].
      + rewrite S by exact Hi. unfold unitv. destruct (Nat.eqb_spec i k); [lia|reflexivity]. }
  specialize (V k Hk). rewrite X in V by lia. unfold unitv, vzero in V. rewrite Nat.eqb_refl in V. lra.
Qed.

(** ** Upper triangles by reversal *)
Lemma rsum_rev n f : rsum n (fun i => f (n - 1 - i)%nat) = rsum n f.
Proof.
  induction n as [|n IH]; [reflexivity|].
  rewrite rsum_S_first. cbn [rsum]. replace (S n - 1 - 0)%nat with n by lia.
  rewrite (rsum_ext n _ (fun i => f (n - 1 - i)%nat)); [rewrite IH; ring|].
  intros i Hi. f_equal. lia.
Qed.

Definition rvm (n : nat) (T : mat) : mat := fun i j => T (n - 1 - i)%nat (n - 1 - j)%nat.
Definition rvv (n : nat) (x : vec) : vec := fun i => x (n - 1 - i)%nat.

Lemma mv_rev n T x i : (i < n)%nat -> mv n (rvm n T) x i = mv n T (rvv n x) (n - 1 - i)%nat.
Proof.
  intros Hi. unfold mv, rvm, rvv.
  rewrite <- (rsum_rev n (fun j => T (n - 1 - i)%nat j * x (n - 1 - j)%nat)).
  apply rsum_ext. intros j Hj. replace (n - 1 - (n - 1 - j))%nat with j by lia. reflexivity.
Qed.

Lemma upper_rev n T : upper n T -> lower n (rvm n T).
Proof. intros U i j Hi Hj L. unfold rvm. apply U; lia. Qed.
Lemma diag_rev n T : diag_nz n T <-> diag_nz n (rvm n T).
Proof.
  split; intros H i Hi.
  - unfold rvm. apply H. lia.
  - specialize (H (n - 1 - i)%nat). unfold rvm in H. replace (n - 1 - (n - 1 - i))%nat with i in H by lia. apply H. lia.
Qed.
Lemma inj_rev n T : injective n T <-> injective n (rvm n T).
Proof.
  split; intros I x H.
  - assert (V : veq n (rvv n x) vzero).
    { apply I. intros i Hi. specialize (H (n - 1 - i)%nat ltac:(lia)). rewrite mv_rev in H by lia.
      replace (n - 1 - (n - 1 - i))%nat with i in H by lia. exact H. }
    intros i Hi. specialize (V (n - 1 - i)%nat ltac:(lia)). unfold rvv in V.
    replace (n - 1 - (n - 1 - i))%nat with i in V by lia. exact V.
  - assert (V : veq n (rvv n x) vzero).
    { apply I. intros i Hi. rewrite mv_rev by exact Hi. transitivity (mv n T x (n - 1 - i)%nat).
      - unfold mv. apply rsum_ext. intros j Hj. unfold rvv. replace (n - 1 - (n - 1 - j))%nat with j by lia. reflexivity.
      - apply H. lia. }
    intros i Hi. specialize (V (n - 1 - i)%nat ltac:(lia)). unfold rvv in V.
    replace (n - 1 - (n - 1 - i))%nat with i in V by lia. exact V.
Qed.

Definition bwd (T : mat) (b : vec) (n : nat) : vec := rvv n (fwd (rvm n T) (rvv n b) n).
Lemma bwd_solves n T b : upper n T -> diag_nz n T -> forall i, (i < n)%nat -> mv n T (bwd T b n) i = b i.
Proof.
  intros U D i Hi. apply upper_rev in U. apply diag_rev in D.
  pose proof (fwd_solves n (rvm n T) (rvv n b) U D (n - 1 - i)%nat ltac:(lia)) as H.
  rewrite mv_rev in H by lia. change (rvv n b (n - 1 - i)%nat) with (b (n - 1 - (n - 1 - i))%nat) in H.
  replace (n - 1 - (n - 1 - i))%nat with i in H by lia. exact H.
Qed.
Lemma upper_inj n T : upper n T -> diag_nz n T -> injective n T.
Proof. intros U D. apply inj_rev. apply lower_inj; [apply upper_rev; exact U|apply (diag_rev n T); exact D]. Qed.
Lemma upper_diag n T : upper n T -> injective n T -> diag_nz n T.
Proof. intros U D. apply diag_rev. apply lower_diag; [apply upper_rev; exact U|apply (inj_rev n T); exact D]. Qed.

(** a triangle (lower or upper) with non-zero diagonal *)
Definition triangle (n : nat) (T : mat) : Prop := (lower n T \/ upper n T) /\ diag_nz n T.
Lemma triangle_inj n T : triangle n T -> injective n T.
Proof. intros [[L|U] D]; [apply lower_inj|apply upper_inj]; assumption. Qed.
Lemma triangle_tr n T : triangle n T -> triangle n (tr T).
Proof.
  intros [[L|U] D]; (split; [|exact D]); [right; apply lower_tr|left; apply upper_tr]; assumption.
Qed.

Lemma inj_unique n A x y : injective n A -> (forall i, (i < n)%nat -> mv n A x i = mv n A y i) -> veq n x y.
Proof.
  intros I H. assert (V : veq n (vsub x y) vzero).
  { apply I. intros i Hi. rewrite mv_sub, H by exact Hi. ring. }
  intros i Hi. specialize (V i Hi). unfold vsub, vzero in V. lra.
Qed.

(** ** Square orthonormal matrices *)
Lemma bres_sum n m V x i : bres n m V x i = x i - rsum m (fun k => dot n x (V k) / dot n (V k) (V k) * V k i).
Proof. induction m as [|m IH]; [cbn; ring|]. cbn [bres rsum]. unfold vsub, vscal. rewrite IH. ring. Qed.

Lemma bres_orth n m V x j : orthogonal n m V -> (forall i, (i < m)%nat -> dot n (V i) (V i) <> 0) ->
  (j < m)%nat -> dot n (bres n m V x) (V j) = 0.
Proof.
  induction m as [|m IH]; intros HO HN Hj; [lia|]. cbn [bres].
  assert (HO' : orthogonal n m V) by (intros a b Ha Hb; apply HO; lia).
  rewrite dot_sub_l, dot_scal_l. destruct (Nat.eq_dec j m) as [->|N].
  - rewrite bres_dot by (intros i Hi; apply HO; lia). field. apply HN. lia.
  - rewrite IH by (try assumption; try lia; intros i Hi; apply HN; lia). rewrite (HO m j) by lia. ring.
Qed.

Lemma full_basis n V x : orthogonal n n V -> (forall i, (i < n)%nat -> dot n (V i) (V i) <> 0) ->
  veq n x (fun i => rsum n (fun k => dot n x (V k) / dot n (V k) (V k) * V k i)).
Proof.
  intros HO HN.
  assert (Z : veq n (bres n n V x) vzero).
  { destruct (Req_dec (dot n (bres n n V x) (bres n n V x)) 0) as [E|E]; [apply dot_self_zero; exact E|].
    exfalso. pose (W := fun k => if (k =? n)%nat then bres n n V x else V k).
    assert (B : forall k, (k < n)%nat -> W k = V k) by (intros k Hk; unfold W; destruct (Nat.eqb_spec k n); [lia|reflexivity]).
    assert (Bn : W n = bres n n V x) by (unfold W; rewrite Nat.eqb_refl; reflexivity).
    assert (S n <= n)%nat; [|lia]. apply (orthogonal_count n (S n) W).
    - intros i j Hi Hj N. destruct (Nat.eq_dec i n) as [->|Ni]; destruct (Nat.eq_dec j n) as [->|Nj]; [lia| | |].
      + rewrite Bn, (B j) by lia. apply bres_orth; [assumption|assumption|lia].
      + rewrite Bn, (B i), dot_sym by lia. apply bres_orth; [assumption|assumption|lia].
      + rewrite !B by lia. apply HO; lia.
    - intros i Hi. destruct (Nat.eq_dec i n) as [->|Ni]; [rewrite Bn; exact E|rewrite B by lia; apply HN; lia]. }
  intros i Hi. specialize (Z i Hi). rewrite bres_sum in Z. unfold vzero in Z. lra.
Qed.

(** Q^T Q = I for a square matrix gives Q Q^T = I *)
Lemma orthonormal_square n Q : orthonormal n n Q ->
  forall i j, (i < n)%nat -> (j < n)%nat -> rsum n (fun k => Q i k * Q j k) = idm i j.
Proof.
  intros O i j Hi Hj.
  pose (V := fun k i => Q i k).
  assert (DV : forall a b, (a < n)%nat -> (b < n)%nat -> dot n (V a) (V b) = idm a b) by (intros a b Ha Hb; apply O; assumption).
  assert (HO : orthogonal n n V).
  { intros a b Ha Hb N. rewrite DV by assumption. unfold idm. destruct (Nat.eqb_spec a b); [contradiction|reflexivity]. }
  assert (D1 : forall a, (a < n)%nat -> dot n (V a) (V a) = 1).
  { intros a Ha. rewrite DV by assumption. unfold idm. rewrite Nat.eqb_refl. reflexivity. }
  pose proof (full_basis n V (unitv j) HO) as F.
  assert (HN : forall a, (a < n)%nat -> dot n (V a) (V a) <> 0) by (intros a Ha; rewrite D1 by exact Ha; lra).
  specialize (F HN i Hi). unfold unitv at 1 in F. unfold idm. rewrite F.
  apply rsum_ext. intros k Hk. rewrite D1, dot_unitv by assumption. unfold V. field.
Qed.

Lemma orthonormal_tr n Q : orthonormal n n Q -> orthonormal n n (tr Q).
Proof. intros O a b Ha Hb. exact (orthonormal_square n Q O a b Ha Hb). Qed.

(** products with an orthonormal matrix *)
Lemma orth_mv n k Q x : orthonormal n k Q -> forall a, (a < k)%nat -> mv n (tr Q) (mv k Q x) a = x a.
Proof.
  intros O a Ha. unfold mv, tr.
  transitivity (rsum n (fun i => rsum k (fun b => Q i a * Q i b * x b))).
  - apply rsum_ext. intros i Hi. rewrite <- rsum_scal. apply rsum_ext. intros b Hb. ring.
  - rewrite rsum_swap. rewrite (rsum_ext k _ (fun b => idm a b * x b)).
    + rewrite (rsum_single k a); [|exact Ha|].
      * unfold idm. rewrite Nat.eqb_refl. ring.
      * intros b Hb N. unfold idm. destruct (Nat.eqb_spec a b); [lia|ring].
    + intros b Hb. rewrite <- (O a b Ha Hb), <- rsum_scal_r. reflexivity.
Qed.

Lemma orth_norm n k Q x : orthonormal n k Q -> dot n (mv k Q x) (mv k Q x) = dot k x x.
Proof.
  intros O. rewrite dot_mv_tr. apply rsum_ext. intros a Ha. rewrite (orth_mv n k Q x O a Ha). reflexivity.
Qed.

Lemma mv_comp n k A B x i : mv k A (mv n B x) i = mv n (fun i j => rsum k (fun l => A i l * B l j)) x i.
Proof.
  unfold mv. transitivity (rsum k (fun l => rsum n (fun j => A i l * B l j * x j))).
  - apply rsum_ext. intros l Hl. rewrite <- rsum_scal. apply rsum_ext. intros j Hj. ring.
  - rewrite rsum_swap. apply rsum_ext. intros j Hj. rewrite <- rsum_scal_r. reflexivity.
Qed.

Lemma mv_ext_mat n A B x i : (forall j, (j < n)%nat -> A i j = B i j) -> mv n A x i = mv n B x i.
Proof. intros H. unfold mv. apply rsum_ext. intros j Hj. rewrite H by exact Hj. reflexivity. Qed.
