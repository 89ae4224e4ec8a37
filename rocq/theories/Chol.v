(** A Cholesky factorisation and triangular solves that satisfy the exactness hypotheses
    of MS_Spec for every dimension (used in the examples only). *)
From Coq Require Import Reals Lra Psatz Lia List Arith Bool.
From Verif Require Import RVec RBool Tri MS_Spec Int_Wit.
Import ListNotations.
Open Scope R_scope.

(** rows of the lower factor, one after the other *)
Fixpoint cholL (A : mat) (n : nat) : mat :=
  match n with
  | O => fun _ _ => 0
  | S k =>
      let L := cholL A k in
      let l := fwd L (fun i => A i k) k in
      fun i j => if (i <? k)%nat then (if (j <? k)%nat then L i j else 0)
                 else if (j <? k)%nat then l j else sqrt (A k k - dot k l l)
  end.
Definition pivot (A : mat) (k : nat) : R :=
  let l := fwd (cholL A k) (fun i => A i k) k in A k k - dot k l l.
Definition pivots (A : mat) (n : nat) : bool := forallb (fun k => Rltb 0 (pivot A k)) (seq 0 n).
Definition cholx (n : nat) (A : mat) : option mat := if pivots A n then Some (tr (cholL A n)) else None.
Definition slvx (n : nat) (T : mat) (b : vec) : option vec := Some (if lowerb n T then fwd T b n else bwd T b n).

Lemma pivots_S A n : pivots A (S n) = (pivots A n && Rltb 0 (pivot A n))%bool.
Proof. unfold pivots. rewrite seq_S, forallb_app. cbn. rewrite andb_true_r. reflexivity. Qed.

Lemma cholL_spec A n : symmetric n A -> pivots A n = true ->
  lower n (cholL A n) /\ diag_nz n (cholL A n) /\
  forall i j, (i < n)%nat -> (j < n)%nat -> rsum n (fun k => cholL A n i k * cholL A n j k) = A i j.
Proof.
  induction n as [|n IH]; intros SA P; [repeat split; intros i; intros; lia|].
  rewrite pivots_S in P. apply andb_true_iff in P. destruct P as [P PN]. apply Rltb_true in PN.
  destruct IH as (LO & D & SQ); [intros i j Hi Hj; apply SA; lia|exact P|].
  cbn [cholL]. unfold pivot in PN. set (L := cholL A n) in *. set (l := fwd L (fun i => A i n) n) in *.
  assert (SV : forall i, (i < n)%nat -> mv n L l i = A i n) by (intros i Hi; exact (fwd_solves n L (fun i => A i n) LO D i Hi)).
  assert (Ln : forall i, (i <? n)%nat = true <-> (i < n)%nat) by (intros; apply Nat.ltb_lt).
  assert (LT : forall i, (i < n)%nat -> (i <? n)%nat = true) by (intros; apply Nat.ltb_lt; assumption).
  assert (NN : (n <? n)%nat = false) by apply Nat.ltb_irrefl.
  split; [|split].
  - intros i j Hi Hj LT'. destruct (Nat.ltb_spec i n); [|lia]. destruct (Nat.ltb_spec j n); [|reflexivity]. apply LO; lia.
  - intros i Hi. destruct (Nat.ltb_spec i n); [apply D; assumption|]. apply Rgt_not_eq, sqrt_lt_R0. exact PN.
  - intros i j Hi Hj. cbn [rsum]. rewrite NN.
    destruct (Nat.ltb_spec i n) as [I|I]; destruct (Nat.ltb_spec j n) as [J|J].
    + rewrite <- (SQ i j I J). rewrite Rmult_0_l, Rplus_0_r. apply rsum_ext. intros k Hk. rewrite (LT k Hk). reflexivity.
    + assert (j = n) as -> by lia. rewrite Rmult_0_l, Rplus_0_r, <- (SV i I). apply rsum_ext. intros k Hk. rewrite (LT k Hk). reflexivity.
    + assert (i = n) as -> by lia. rewrite Rmult_0_r, Rplus_0_r, (SA n j) by lia. rewrite <- (SV j J). apply rsum_ext. intros k Hk. rewrite (LT k Hk). ring.
    + assert (i = n) as -> by lia. assert (j = n) as -> by lia. rewrite sqrt_sqrt by lra.
      rewrite (rsum_ext n _ (fun k => l k * l k)) by (intros k Hk; rewrite (LT k Hk); reflexivity).
      change (rsum n (fun k => l k * l k)) with (dot n l l). ring.
Qed.

Lemma quad_last n A x : symmetric (S n) A ->
  quad (S n) A x = quad n A x + 2 * x n * rsum n (fun i => x i * A i n) + x n * x n * A n n.
Proof.
  intros SA. unfold quad. unfold dot at 1. cbn [rsum]. unfold mv at 1 2. cbn [rsum].
  rewrite (rsum_ext n _ (fun i => x i * mv n A x i + (x i * A i n) * x n)) by (intros; unfold mv; ring).
  rewrite rsum_plus, rsum_scal_r.
  rewrite (rsum_ext n (fun j => A n j * x j) (fun i => x i * A i n)) by (intros i Hi; rewrite (SA n i) by lia; ring).
  unfold dot. ring.
Qed.

Lemma posdef_S n A : symmetric (S n) A -> posdef (S n) A -> posdef n A.
Proof.
  intros SA P x NX. specialize (P (fun i => if (i <? n)%nat then x i else 0)).
  rewrite (quad_last n A _ SA) in P. rewrite Nat.ltb_irrefl in P.
  rewrite (quad_ext n A _ x) in P by (intros i Hi; apply Nat.ltb_lt in Hi; rewrite Hi; reflexivity).
  enough (0 < quad n A x + 2 * 0 * rsum n (fun i => (if (i <? n)%nat then x i else 0) * A i n) + 0 * 0 * A n n) by lra.
  apply P. intros V. apply NX. intros i Hi. specialize (V i ltac:(lia)). apply Nat.ltb_lt in Hi. cbv beta in V. rewrite Hi in V. exact V.
Qed.

Lemma posdef_pivots n A : symmetric n A -> posdef n A -> pivots A n = true.
Proof.
  induction n as [|n IH]; intros SA P; [reflexivity|]. rewrite pivots_S.
  assert (SN : symmetric n A) by (intros i j Hi Hj; apply SA; lia).
  pose proof (IH SN (posdef_S n A SA P)) as PN. rewrite PN. cbn. apply Rltb_true.
  destruct (cholL_spec A n SN PN) as (LO & D & SQ). unfold pivot. set (L := cholL A n) in *.
  set (l := fwd L (fun i => A i n) n) in *.
  assert (SV : forall i, (i < n)%nat -> mv n L l i = A i n) by (intros i Hi; exact (fwd_solves n L (fun i => A i n) LO D i Hi)).
  set (x := bwd (tr L) (vneg l) n).
  assert (SX : forall i, (i < n)%nat -> mv n (tr L) x i = - l i).
  { intros i Hi. apply (bwd_solves n (tr L) (vneg l) (lower_tr n L LO)); [exact D|exact Hi]. }
  specialize (P (fun i => if (i <? n)%nat then x i else 1)). rewrite (quad_last n A _ SA) in P. rewrite Nat.ltb_irrefl in P.
  rewrite (quad_ext n A _ x) in P by (intros i Hi; apply Nat.ltb_lt in Hi; rewrite Hi; reflexivity).
  rewrite (rsum_ext n _ (fun i => x i * mv n L l i)) in P by (intros i Hi; pose proof Hi as Hi'; apply Nat.ltb_lt in Hi'; rewrite Hi', (SV i Hi); reflexivity).
  change (rsum n (fun i => x i * mv n L l i)) with (dot n x (mv n L l)) in P.
  rewrite (dot_sym n x), (dot_mv_tr n n L l x) in P.
  assert (X1 : dot n l (mv n (tr L) x) = - dot n l l).
  { rewrite (dot_ext n l l (mv n (tr L) x) (vneg l)); [apply dot_neg_r|intros i Hi; reflexivity|intros i Hi; exact (SX i Hi)]. }
  assert (X2 : quad n A x = dot n l l).
  { transitivity (dot n (mv n (tr L) x) (mv n (tr L) x)).
    - unfold quad. rewrite (dot_mv_tr n n (tr L) x). apply dot_ext; [intros i Hi; reflexivity|]. intros i Hi.
      rewrite mv_comp. apply mv_ext_mat. intros j Hj. rewrite <- (SQ i j Hi Hj). reflexivity.
    - rewrite (dot_ext n _ (vneg l) _ (vneg l)); [rewrite dot_neg_l, dot_neg_r; ring|exact SX|exact SX]. }
  rewrite X1, X2 in P. apply Rlt_le_trans with (dot n l l + 2 * 1 * - dot n l l + 1 * 1 * A n n); [|lra]. apply P.
  intros V. specialize (V n ltac:(lia)). cbv beta in V. rewrite Nat.ltb_irrefl in V. unfold vzero in V. lra.
Qed.

Lemma cholx_exact n : chol_exact n (cholx n).
Proof.
  intros A SA. unfold cholx. split.
  - intros U E. destruct (pivots A n) eqn:P; [|discriminate]. injection E as <-. destruct (cholL_spec A n SA P) as (LO & D & SQ).
    split; [apply lower_tr; exact LO|]. split; [exact D|]. intros i j Hi Hj. rewrite <- (SQ i j Hi Hj). reflexivity.
  - intros P. rewrite (posdef_pivots n A SA P). discriminate.
Qed.

Lemma slvx_exact n : slv_exact n (slvx n).
Proof.
  intros T b (LU & D). unfold slvx. pose proof (lowerb_spec n T) as S. destruct (lowerb n T).
  - eexists. split; [reflexivity|]. intros i Hi. apply fwd_solves; [apply S; reflexivity|exact D|exact Hi].
  - eexists. split; [reflexivity|]. intros i Hi. apply bwd_solves; [|exact D|exact Hi].
    destruct LU as [LU|LU]; [apply S in LU; discriminate|exact LU].
Qed.
