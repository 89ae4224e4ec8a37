(** Proofs about interpolation and Lagrange polynomials. *)
From Coq Require Import Reals Lra Psatz Lia List Arith Bool.
From Verif Require Import RVec RBool Tri Poly_Model Poly_Spec Poly_Proofs Int_Model Int_Spec.
Import ListNotations.
Open Scope R_scope.

(** ** Values as sums *)

Lemma pdot_rsum P k l : pdot P k l = rsum (length l) (fun i => P (k + i)%nat * nth i l 0).
Proof.
  revert k. induction l as [|z l IH]; intros k; [reflexivity|].
  cbn [length pdot]. rewrite rsum_S_first, IH. cbn [nth]. rewrite Nat.add_0_r. f_equal.
  apply rsum_ext. intros i Hi. replace (S k + i)%nat with (k + S i)%nat by lia. reflexivity.
Qed.

(** the point at which the monomials are evaluated *)
Definition arg (shift : bool) (b : built) (x : vec) : vec :=
  if shift then fun t => (x t - b_base b t) * b_scale b 1%nat else x.
Definition mono (shift : bool) (n len : nat) (b : built) (x : vec) (i : nat) : R :=
  nth i (evalZ n len (arg shift b x)) 0.

Lemma full_pos n : (1 <= full n)%nat.
Proof. rewrite full_tri. lia. Qed.
Lemma full_gt n : (1 <= n)%nat -> (n + 1 < full n)%nat.
Proof. intros H. rewrite full_tri. lia. Qed.

Lemma value_sum shift n len P b x : (1 <= len)%nat -> (len <= full n)%nat ->
  value shift n len P b x = Some (rsum len (fun i => P i * mono shift n len b x i)).
Proof.
  intros H1 H2. unfold value, mono, arg. destruct shift.
  - unfold evalP_shift. rewrite evalP_some by assumption. rewrite pdot_rsum, evalZ_length by assumption. reflexivity.
  - rewrite evalP_some by assumption. rewrite pdot_rsum, evalZ_length by assumption. reflexivity.
Qed.

(** more coefficients that are zero do not matter *)
Lemma evalZ_head n len x i : (1 <= n)%nat -> (n + 1 <= len)%nat -> (i < n + 1)%nat ->
  nth i (evalZ n len x) 0 = nth i (evalZ n (n + 1) x) 0.
Proof.
  intros Hn Hl Hi. unfold evalZ.
  destruct (Nat.eqb_spec len 1); [lia|]. destruct (Nat.eqb_spec (n + 1) 1); [lia|].
  rewrite (proj2 (Nat.leb_le (n + 1) (n + 1))) by lia. rewrite Nat.min_id.
  replace (n + 1 - 1)%nat with n by lia.
  destruct (Nat.leb_spec len (n + 1)) as [A|A].
  - rewrite (Nat.min_l (n + 1) len) by lia. replace (n + 1 - 1)%nat with n by lia. reflexivity.
  - destruct i as [|i]; [reflexivity|]. cbn [nth].
    rewrite app_nth1 by (rewrite map_length, seq_length; lia). reflexivity.
Qed.

Lemma value_pad shift n k len P b x : (1 <= n)%nat -> (k = n + 1 \/ k = len)%nat -> (k <= len)%nat -> (len <= full n)%nat ->
  (1 <= k)%nat -> (forall i, (k <= i < len)%nat -> P i = 0) ->
  value shift n len P b x = Some (rsum k (fun i => P i * mono shift n k b x i)).
Proof.
  intros Hn Hk Hl Hf H1 Z. rewrite value_sum by lia. f_equal.
  destruct Hk as [->| ->]; [|reflexivity].
  replace len with ((n + 1) + (len - (n + 1)))%nat at 1 by lia. rewrite rsum_split.
  rewrite (rsum_zero (len - (n + 1))) by (intros i Hi; rewrite Z by lia; ring).
  rewrite Rplus_0_r. apply rsum_ext. intros i Hi. unfold mono. rewrite evalZ_head by lia. reflexivity.
Qed.

Lemma mono_0 shift n len b x : mono shift n len b x 0 = 1.
Proof. unfold mono, evalZ. destruct (len =? 1)%nat; [reflexivity|]. destruct (len <=? n + 1)%nat; reflexivity. Qed.

(** ** The points seen by the monomials *)

Definition has_data (shift : bool) (n p1 : nat) (Y : nat -> vec) (b : built) : Prop :=
  b_base b = base shift p1 Y /\ b_scale b = scl shift n p1 Y /\
  (shifts shift p1 = true -> scaleY n p1 Y <> 0).

Lemma mono_pts shift n len p1 Y b j i : (1 <= n)%nat -> has_data shift n p1 Y b ->
  mono shift n len b (Y j) i = zmat n len (pts shift n p1 Y) i j.
Proof.
  intros Hn (B & S & _). unfold mono, zmat. f_equal. apply evalZ_ext. intros t Ht.
  unfold arg, pts. rewrite B, S. unfold base, scl.
  destruct shift; cbn [shifts andb]; [|reflexivity].
  unfold shifts. cbn [andb]. destruct (1 <? p1)%nat.
  - unfold scale_vec. cbn [Nat.eqb]. destruct (Nat.leb_spec 1 n); [reflexivity|lia].
  - unfold vzero. ring.
Qed.

(** ** Linear algebra *)

Lemma rsum_nonneg_zero n f : (forall i, (i < n)%nat -> 0 <= f i) -> rsum n f = 0 -> forall i, (i < n)%nat -> f i = 0.
Proof.
  induction n as [|n IH]; intros H S i Hi; [lia|]. cbn [rsum] in S.
  assert (0 <= rsum n f) by (apply rsum_nonneg; intros j Hj; apply H; lia).
  assert (0 <= f n) by (apply H; lia).
  destruct (Nat.eq_dec i n) as [->|N]; [lra|]. apply IH; [intros j Hj; apply H; lia|lra|lia].
Qed.


(** modes 0 and 2: Z = Q R with one column per point *)
Lemma interp_cols q p1 Z Q R x f : factors q p1 Z Q R -> (forall i, (i < p1)%nat -> mv p1 (tr R) x i = f i) ->
  forall j, (j < p1)%nat -> rsum q (fun i => mv p1 Q x i * Z i j) = f j.
Proof.
  intros (F & O & U) S j Hj.
  transitivity (dot q (mv p1 Q x) (fun i => Z i j)); [reflexivity|].
  rewrite dot_mv_tr.
  rewrite (dot_ext p1 x x _ (fun k => R k j)).
  - rewrite <- (S j Hj). unfold dot, mv, tr. apply rsum_ext. intros k Hk. ring.
  - intros k Hk. reflexivity.
  - intros k Hk. rewrite <- (orth_mv q p1 Q (fun k => R k j) O k Hk).
    apply mv_ext. intros i Hi. rewrite <- (F i j Hi Hj). reflexivity.
Qed.

(** modes 1 and 3: A = Q R with one row per point *)
Lemma rows_product p1 k A Q R P f : factors p1 k A Q R ->
  (forall i, (i < k)%nat -> mv k R P i = mv p1 (tr Q) f i) ->
  forall j, (j < p1)%nat -> mv k A P j = mv k Q (mv p1 (tr Q) f) j.
Proof.
  intros (F & O & U) S j Hj.
  transitivity (mv k Q (mv k R P) j).
  - rewrite mv_comp. apply mv_ext_mat. intros i Hi. symmetry. apply F; assumption.
  - apply mv_ext. intros i Hi. apply S. exact Hi.
Qed.

Lemma interp_rows p1 A Q R P f : factors p1 p1 A Q R ->
  (forall i, (i < p1)%nat -> mv p1 R P i = mv p1 (tr Q) f i) ->
  forall j, (j < p1)%nat -> mv p1 A P j = f j.
Proof.
  intros F S j Hj. rewrite (rows_product p1 p1 A Q R P f F S j Hj).
  destruct F as (_ & O & _). apply orthonormal_tr in O.
  exact (orth_mv p1 p1 (tr Q) f O j Hj).
Qed.

(** least squares *)
Lemma rows_least p1 k A Q R P f P' : factors p1 k A Q R ->
  (forall i, (i < k)%nat -> mv k R P i = mv p1 (tr Q) f i) ->
  dot p1 (vsub (mv k A P) f) (vsub (mv k A P) f) <= dot p1 (vsub (mv k A P') f) (vsub (mv k A P') f).
Proof.
  intros F S. pose proof (rows_product p1 k A Q R P f F S) as RP. destruct F as (F & O & U).
  assert (G : forall P j, (j < p1)%nat -> mv k A P j = mv k Q (mv k R P) j).
  { intros P0 j Hj. rewrite mv_comp. apply mv_ext_mat. intros i Hi. symmetry. apply F; assumption. }
  set (r := vsub (mv k A P) f). set (d := vsub (mv k A P') (mv k A P)).
  assert (E : veq p1 (vsub (mv k A P') f) (vadd r d)).
  { intros i Hi. unfold r, d, vsub, vadd. ring. }
  rewrite (dot_ext p1 _ (vadd r d) _ (vadd r d) E E), dot_add_l, !dot_add_r.
  assert (Z : dot p1 r d = 0).
  { rewrite dot_sym. set (u := vsub (mv k R P') (mv k R P)).
    rewrite (dot_ext p1 d (mv k Q u) r r); [|intros i Hi; unfold d, u, vsub at 1; rewrite !G by exact Hi; rewrite mv_sub; reflexivity|intros i Hi; reflexivity].
    rewrite dot_mv_tr. unfold dot. apply rsum_zero. intros a Ha.
    assert (mv p1 (tr Q) r a = 0) as ->; [|ring].
    unfold r. rewrite mv_sub.
    rewrite (mv_ext p1 (tr Q) (mv k A P) (mv k Q (mv p1 (tr Q) f)) a) by (intros i Hi; apply RP; exact Hi).
    rewrite (orth_mv p1 k Q (mv p1 (tr Q) f) O a Ha). ring. }
  rewrite (dot_sym p1 d r), Z. pose proof (dot_self_nonneg p1 d). lra.
Qed.

(** ** Triangles from poised sets *)

Lemma tri_cols_square p1 Z Q R : factors p1 p1 Z Q R ->
  (forall P, (forall j, (j < p1)%nat -> rsum p1 (fun i => P i * Z i j) = 0) -> forall i, (i < p1)%nat -> P i = 0) ->
  triangle p1 R.
Proof.
  intros F D. pose proof F as (F1 & O & U). split; [right; exact U|].
  assert (DT : diag_nz p1 (tr R)); [|exact DT].
  apply lower_diag; [apply upper_tr; exact U|]. intros y Hy.
  assert (P0 : forall i, (i < p1)%nat -> mv p1 Q y i = 0).
  { apply D. intros j Hj. apply (interp_cols p1 p1 Z Q R y vzero F); [|exact Hj]. intros i Hi. apply Hy. exact Hi. }
  intros a Ha. rewrite <- (orth_mv p1 p1 Q y O a Ha). unfold mv at 1, vzero. apply rsum_zero.
  intros i Hi. rewrite P0 by exact Hi. ring.
Qed.

Lemma tri_cols_indep q p1 Z Q R : factors q p1 Z Q R ->
  (forall c, (forall i, (i < q)%nat -> rsum p1 (fun j => c j * Z i j) = 0) -> forall j, (j < p1)%nat -> c j = 0) ->
  triangle p1 R.
Proof.
  intros (F & O & U) D. split; [right; exact U|]. apply upper_diag; [exact U|].
  intros c Hc. unfold veq, vzero. apply D. intros i Hi.
  transitivity (mv p1 (fun i j => rsum p1 (fun k => Q i k * R k j)) c i).
  - unfold mv. apply rsum_ext. intros j Hj. rewrite F by assumption. ring.
  - rewrite <- mv_comp. unfold mv at 1. apply rsum_zero. intros k Hk. rewrite Hc by exact Hk. ring.
Qed.

Lemma tri_rows p1 k A Q R : factors p1 k A Q R ->
  (forall P, (forall j, (j < p1)%nat -> mv k A P j = 0) -> forall i, (i < k)%nat -> P i = 0) ->
  triangle k R.
Proof.
  intros (F & O & U) D. split; [right; exact U|]. apply upper_diag; [exact U|].
  intros P HP. unfold veq, vzero. apply D. intros j Hj.
  transitivity (mv k Q (mv k R P) j).
  - rewrite mv_comp. apply mv_ext_mat. intros i Hi. symmetry. apply F; assumption.
  - unfold mv at 1. apply rsum_zero. intros i Hi. rewrite HP by exact Hi. ring.
Qed.

(** ** Characterisation of the computed coefficients *)

Definition model_of (mode n p1 : nat) (Q R : mat) (f : vec) (len : nat) (P : vec) : Prop :=
  match mode with
  | O | 2%nat => len = unknowns mode n p1 /\
      exists x, (forall i, (i < p1)%nat -> mv p1 (tr R) x i = f i) /\ forall i, (i < len)%nat -> P i = mv p1 Q x i
  | _ => let k := unknowns mode n p1 in
      (k <= len)%nat /\ (len = k \/ len = full n) /\
      (forall i, (i < k)%nat -> mv k R P i = mv p1 (tr Q) f i) /\
      forall i, (k <= i < len)%nat -> P i = 0
  end.

(** dimension of the triangle *)
Definition rdim (mode n p1 : nat) : nat := match mode with 3%nat => full n | _ => p1 end.

Lemma eff_works mode n p1 : works mode n p1 -> works (eff_mode mode n p1) n p1.
Proof.
  unfold eff_mode. destruct (Nat.eqb_spec mode 3) as [->|]; [|auto]. cbn [andb].
  destruct (p1 <? full n)%nat; [|auto]. intros _. left. auto.
Qed.

Lemma compl_true n p1 : compl n p1 = true <-> (p1 = n + 1 \/ p1 = full n)%nat.
Proof.
  unfold compl. rewrite Bool.orb_true_iff, !Nat.eqb_eq. tauto.
Qed.

Lemma unknowns_eff mode n p1 : unknowns (eff_mode mode n p1) n p1 = unknowns mode n p1.
Proof.
  unfold eff_mode. destruct (Nat.eqb_spec mode 3) as [->|]; [|reflexivity]. cbn [andb].
  destruct (p1 <? full n)%nat; reflexivity.
Qed.

Section Run.
Variable slv : nat -> mat -> mat -> option mat.
Variable pinv : nat -> mat -> mat.
Hypothesis SX : tri_exact slv.
Hypothesis PX : pinv_exact pinv.

Lemma pinv_left n T : triangle n T -> forall i j, (i < n)%nat -> (j < n)%nat ->
  rsum n (fun l => pinv n T i l * T l j) = idm i j.
Proof.
  intros TR i j Hi Hj. pose proof (triangle_inj n T TR) as I.
  assert (V : veq n (fun i => rsum n (fun l => pinv n T i l * T l j)) (fun i => idm i j)).
  { apply (inj_unique n T _ _ I). intros a Ha. unfold mv. rewrite (PX n T a j TR Ha Hj).
    rewrite (rsum_single n j); [unfold idm; rewrite Nat.eqb_refl; ring|exact Hj|].
    intros b Hb N. unfold idm. destruct (Nat.eqb_spec b j); [lia|ring]. }
  exact (V i Hi).
Qed.

Lemma pinv_right n T : triangle n T -> forall i j, (i < n)%nat -> (j < n)%nat ->
  rsum n (fun l => T i l * pinv n T l j) = idm i j.
Proof.
  intros TR i j Hi Hj. pose proof (triangle_inj n (tr T) (triangle_tr n T TR)) as I.
  assert (V : veq n (fun j => rsum n (fun l => T i l * pinv n T l j)) (fun j => idm i j)).
  { apply (inj_unique n (tr T) _ _ I). intros c Hc. unfold mv, tr.
    transitivity (T i c).
    - rewrite <- (PX n T i c TR Hi Hc).
      transitivity (rsum n (fun m => rsum n (fun l => T i l * pinv n T l m * T m c))).
      + apply rsum_ext. intros m Hm. rewrite Rmult_comm, <- rsum_scal_r. reflexivity.
      + rewrite rsum_swap. apply rsum_ext. intros l Hl. rewrite <- rsum_scal. apply rsum_ext. intros m Hm. ring.
    - rewrite (rsum_single n i); [unfold idm; rewrite Nat.eqb_refl; ring|exact Hi|].
      intros b Hb N. unfold idm. destruct (Nat.eqb_spec i b); [lia|ring]. }
  exact (V j Hj).
Qed.

Lemma mv_idm_l n x i : (i < n)%nat -> rsum n (fun j => idm i j * x j) = x i.
Proof. intros Hi. exact (mv_idm n x i Hi). Qed.

Lemma pinv_solves n T y : triangle n T -> forall i, (i < n)%nat -> mv n T (mv n (pinv n T) y) i = y i.
Proof.
  intros TR i Hi. rewrite mv_comp. unfold mv.
  rewrite (rsum_ext n _ (fun j => idm i j * y j)) by (intros j Hj; rewrite (pinv_right n T TR i j Hi Hj); reflexivity).
  apply mv_idm_l. exact Hi.
Qed.

Lemma slv_vec n T b : triangle n T -> exists X, slv n T (fun i _ => b i) = Some X /\
  forall i, (i < n)%nat -> mv n T (fun k => X k 0%nat) i = b i.
Proof.
  intros TR. destruct (SX n T (fun i _ => b i) TR) as (X & E & H). exists X. split; [exact E|].
  intros i Hi. exact (H i 0%nat Hi).
Qed.

Lemma computeP_model mode n p1 Q R f : (1 <= n)%nat -> works mode n p1 ->
  triangle (rdim (eff_mode mode n p1) n p1) R ->
  exists len P, computeP slv pinv mode n p1 Q R f = Some (len, P) /\
    model_of (eff_mode mode n p1) n p1 Q R f len P.
Proof.
  intros Hn W T. apply eff_works in W. unfold computeP. set (m := eff_mode mode n p1) in *. clearbody m.
  destruct W as [[->|[->| ->]]|[-> C]]; cbn [rdim model_of unknowns] in *.
  - destruct (slv_vec p1 (tr R) f (triangle_tr _ _ T)) as (X & -> & H).
    do 2 eexists. split; [reflexivity|]. split; [reflexivity|]. exists (fun k => X k 0%nat). split; [exact H|reflexivity].
  - destruct (slv_vec p1 (tr R) f (triangle_tr _ _ T)) as (X & -> & H).
    do 2 eexists. split; [reflexivity|]. split; [reflexivity|]. exists (fun k => X k 0%nat). split; [exact H|reflexivity].
  - do 2 eexists. split; [reflexivity|]. split; [lia|]. split; [left; reflexivity|]. split; [|intros i Hi; lia].
    intros i Hi. apply pinv_solves; assumption.
  - rewrite (proj2 (compl_true n p1) C).
    destruct (slv_vec p1 R (mv p1 (tr Q) f) T) as (X & -> & H).
    pose proof (full_gt n Hn).
    do 2 eexists. split; [reflexivity|]. split; [lia|]. split; [right; reflexivity|]. split.
    + intros i Hi. rewrite <- (H i Hi). apply mv_ext. intros k Hk. destruct (Nat.ltb_spec k p1); [reflexivity|lia].
    + intros i Hi. destruct (Nat.ltb_spec i p1); [lia|reflexivity].
Qed.

Lemma computeLj_model mode n p1 Q R j : (1 <= n)%nat -> works mode n p1 -> (j < p1)%nat ->
  triangle (rdim (eff_mode mode n p1) n p1) R ->
  exists len P, computeLj slv pinv mode n p1 Q R j = Some (len, P) /\
    model_of (eff_mode mode n p1) n p1 Q R (unitv j) len P.
Proof.
  intros Hn W Hj T. apply eff_works in W. unfold computeLj. set (m := eff_mode mode n p1) in *. clearbody m.
  destruct W as [[->|[->| ->]]|[-> C]]; cbn [rdim model_of unknowns] in *.
  - destruct (slv_vec p1 (tr R) (unitv j) (triangle_tr _ _ T)) as (X & -> & H).
    do 2 eexists. split; [reflexivity|]. split; [reflexivity|]. exists (fun k => X k 0%nat). split; [exact H|reflexivity].
  - destruct (p1 <? full n)%nat.
    + do 2 eexists. split; [reflexivity|]. split; [reflexivity|].
      exists (mv p1 (pinv p1 (tr R)) (unitv j)). split; [|reflexivity].
      intros i Hi. apply pinv_solves; [apply triangle_tr; exact T|exact Hi].
    + destruct (slv_vec p1 (tr R) (unitv j) (triangle_tr _ _ T)) as (X & -> & H).
      do 2 eexists. split; [reflexivity|]. split; [reflexivity|]. exists (fun k => X k 0%nat). split; [exact H|reflexivity].
  - do 2 eexists. split; [reflexivity|]. split; [lia|]. split; [left; reflexivity|]. split; [|intros i Hi; lia].
    intros i Hi. apply pinv_solves; assumption.
  - rewrite (proj2 (compl_true n p1) C).
    destruct (SX p1 R (tr Q) T) as (X & -> & H).
    do 2 eexists. split; [reflexivity|]. split; [lia|]. split; [left; reflexivity|]. split; [|intros i Hi; lia].
    intros i Hi. rewrite mv_comp. apply mv_ext_mat. intros k Hk. exact (H i k Hi).
Qed.
End Run.

(** the coefficients are determined, and linear in the data *)
Lemma model_unique mode n p1 Q R f len P len' P' :
  triangle (rdim mode n p1) R -> (mode <= 3)%nat ->
  model_of mode n p1 Q R f len P -> model_of mode n p1 Q R f len' P' ->
  forall i, (i < unknowns mode n p1)%nat -> P i = P' i.
Proof.
  intros T Hm M M' i Hi. destruct mode as [|[|[|[|m]]]]; cbn [model_of unknowns rdim] in *; try lia.
  - destruct M as (-> & x & S & E). destruct M' as (-> & x' & S' & E'). rewrite E, E' by exact Hi.
    apply mv_ext. apply (inj_unique p1 (tr R)); [apply triangle_inj, triangle_tr; exact T|].
    intros k Hk. rewrite S, S' by exact Hk. reflexivity.
  - destruct M as (_ & _ & S & _). destruct M' as (_ & _ & S' & _).
    apply (inj_unique p1 R P P' (triangle_inj _ _ T)); [|exact Hi].
    intros k Hk. rewrite S, S' by exact Hk. reflexivity.
  - destruct M as (-> & x & S & E). destruct M' as (-> & x' & S' & E'). rewrite E, E' by exact Hi.
    apply mv_ext. apply (inj_unique p1 (tr R)); [apply triangle_inj, triangle_tr; exact T|].
    intros k Hk. rewrite S, S' by exact Hk. reflexivity.
  - destruct M as (_ & _ & S & _). destruct M' as (_ & _ & S' & _).
    apply (inj_unique (full n) R P P' (triangle_inj _ _ T)); [|exact Hi].
    intros k Hk. rewrite S, S' by exact Hk. reflexivity.
Qed.

Lemma mv_sum n m A (c : nat -> R) (X : nat -> vec) i :
  mv n A (fun k => rsum m (fun j => c j * X j k)) i = rsum m (fun j => c j * mv n A (X j) i).
Proof.
  unfold mv. transitivity (rsum n (fun k => rsum m (fun j => A i k * (c j * X j k)))).
  - apply rsum_ext. intros k Hk. rewrite <- rsum_scal. reflexivity.
  - rewrite rsum_swap. apply rsum_ext. intros j Hj. rewrite <- rsum_scal. apply rsum_ext. intros k Hk. ring.
Qed.

(** the shortest representation: exactly the unknowns *)
Lemma model_sum mode n p1 Q R m (c : vec) (F : nat -> vec) (L : nat -> nat) (P : nat -> vec) :
  (mode <= 3)%nat -> (forall j, (j < m)%nat -> model_of mode n p1 Q R (F j) (L j) (P j)) ->
  model_of mode n p1 Q R (fun i => rsum m (fun j => c j * F j i)) (unknowns mode n p1)
    (fun i => rsum m (fun j => c j * P j i)).
Proof.
  intros Hm M.
  assert (Rows : forall k, (forall j, (j < m)%nat -> forall i, (i < k)%nat -> mv k R (P j) i = mv p1 (tr Q) (F j) i) ->
    forall i, (i < k)%nat -> mv k R (fun i => rsum m (fun j => c j * P j i)) i =
      mv p1 (tr Q) (fun i => rsum m (fun j => c j * F j i)) i).
  { intros k H i Hi. rewrite !mv_sum. apply rsum_ext. intros j Hj. rewrite H by assumption. reflexivity. }
  assert (Cols : forall len, (forall j, (j < m)%nat -> len = L j /\ exists x,
      (forall i, (i < p1)%nat -> mv p1 (tr R) x i = F j i) /\ forall i, (i < L j)%nat -> P j i = mv p1 Q x i) ->
    exists x, (forall i, (i < p1)%nat -> mv p1 (tr R) x i = rsum m (fun j => c j * F j i)) /\
      forall i, (i < len)%nat -> rsum m (fun j => c j * P j i) = mv p1 Q x i).
  { intros len H.
    assert (C : exists X : nat -> vec, forall j, (j < m)%nat ->
      (forall i, (i < p1)%nat -> mv p1 (tr R) (X j) i = F j i) /\ forall i, (i < len)%nat -> P j i = mv p1 Q (X j) i).
    { clear M Rows. induction m as [|m' IH]; [exists (fun _ => vzero); intros; lia|].
      destruct IH as (X & HX); [intros j Hj; apply H; lia|].
      destruct (H m') as (-> & x & S & E); [lia|].
      exists (fun j => if (j =? m')%nat then x else X j). intros j Hj.
      destruct (Nat.eqb_spec j m') as [->|N]; [split; assumption|]. apply HX. lia. }
    destruct C as (X & HX). exists (fun k => rsum m (fun j => c j * X j k)). split.
    - intros i Hi. rewrite mv_sum. apply rsum_ext. intros j Hj. destruct (HX j Hj) as [S _]. rewrite S by exact Hi. reflexivity.
    - intros i Hi. rewrite mv_sum. apply rsum_ext. intros j Hj. destruct (HX j Hj) as [_ E]. rewrite E by exact Hi. reflexivity. }
  destruct mode as [|[|[|[|md]]]]; cbn [model_of unknowns] in *; try lia.
  - split; [reflexivity|]. apply Cols. intros j Hj. destruct (M j Hj) as (E & x & S & V). split; [lia|]. eauto.
  - split; [lia|]. split; [left; reflexivity|]. split; [|intros i Hi; lia].
    apply Rows. intros j Hj. apply (M j Hj).
  - split; [reflexivity|]. apply Cols. intros j Hj. destruct (M j Hj) as (E & x & S & V). split; [lia|]. eauto.
  - split; [lia|]. split; [left; reflexivity|]. split; [|intros i Hi; lia].
    apply Rows. intros j Hj. apply (M j Hj).
Qed.

(** ** From the set to the triangle *)

Lemma build_facts qr ill cure mode shift n p1 Y b :
  build qr ill cure mode shift n p1 Y = Some b -> exactly_built qr ill mode shift n p1 Y ->
  has_data shift n p1 Y b /\
  let '(r, c, Z) := to_factor (eff_mode mode n p1) n p1 (pts shift n p1 Y) in factors r c Z (b_Q b) (b_R b).
Proof.
  unfold build, exactly_built. intros B E.
  destruct (shifts shift p1 && Reqb (scaleY n p1 Y) 0)%bool eqn:G; [discriminate|].
  destruct (to_factor (eff_mode mode n p1) n p1 (pts shift n p1 Y)) as [[r c] Z].
  destruct E as (I & E). rewrite I in B. destruct (qr r c Z) as [Q R]. inversion B; subst b; clear B. cbn.
  split; [|exact E]. unfold has_data. cbn. split; [reflexivity|]. split; [reflexivity|].
  intros S. rewrite S in G. cbn in G. revert G. unfold Reqb. destruct (Req_EM_T (scaleY n p1 Y) 0); [discriminate|auto].
Qed.

(** matrix with one row per monomial, [unknowns] rows *)
Definition zz (mode n p1 : nat) (shift : bool) (Y : nat -> vec) : mat :=
  zmat n (unknowns mode n p1) (pts shift n p1 Y).

Lemma value_pts mode shift n p1 Y b P j : sizes mode n p1 -> has_data shift n p1 Y b ->
  value shift n (unknowns mode n p1) P b (Y j) = Some (rsum (unknowns mode n p1) (fun i => P i * zz mode n p1 shift Y i j)).
Proof.
  intros (Hn & Hp & W & S) D. pose proof (full_pos n).
  assert (U : (1 <= unknowns mode n p1 <= full n)%nat).
  { destruct mode as [|[|m]]; cbn [unknowns]; try lia; specialize (S ltac:(lia)); lia. }
  rewrite value_sum by lia. f_equal. apply rsum_ext. intros i Hi. rewrite (mono_pts _ _ _ _ _ _ _ _ Hn D). reflexivity.
Qed.

(** which matrix was factorised *)
Lemma factored mode shift n p1 Y b : sizes mode n p1 ->
  (let '(r, c, Z) := to_factor (eff_mode mode n p1) n p1 (pts shift n p1 Y) in factors r c Z (b_Q b) (b_R b)) ->
  match eff_mode mode n p1 with
  | O | 2%nat => factors (unknowns mode n p1) p1 (zz mode n p1 shift Y) (b_Q b) (b_R b)
  | _ => factors p1 (unknowns mode n p1) (tr (zz mode n p1 shift Y)) (b_Q b) (b_R b)
  end.
Proof.
  intros (Hn & Hp & W & S) F. unfold zz. rewrite <- (unknowns_eff mode n p1). apply eff_works in W.
  destruct W as [[E|[E|E]]|[E C]]; rewrite E in *; cbn [to_factor unknowns] in *; try exact F.
  rewrite (proj2 (compl_true n p1) C) in F. exact F.
Qed.

Lemma works_le mode n p1 : works mode n p1 -> (mode <= 3)%nat.
Proof. unfold works. lia. Qed.
Lemma eff_cases mode n p1 : eff_mode mode n p1 = mode \/ (mode = 3 /\ eff_mode mode n p1 = 2 /\ p1 < full n)%nat.
Proof.
  unfold eff_mode. destruct (Nat.eqb_spec mode 3) as [->|]; [|left; reflexivity]. cbn [andb].
  destruct (Nat.ltb_spec p1 (full n)); [right; auto|left; reflexivity].
Qed.

Lemma independent_zz mode shift n p1 Y b : sizes mode n p1 -> has_data shift n p1 Y b ->
  independent shift n (unknowns mode n p1) p1 b Y ->
  forall c, (forall i, (i < unknowns mode n p1)%nat -> rsum p1 (fun j => c j * zz mode n p1 shift Y i j) = 0) ->
  forall j, (j < p1)%nat -> c j = 0.
Proof.
  intros SZ D I c H. apply I. intros P v V.
  transitivity (rsum p1 (fun j => rsum (unknowns mode n p1) (fun i => P i * (c j * zz mode n p1 shift Y i j)))).
  - apply rsum_ext. intros j Hj. specialize (V j Hj). rewrite (value_pts mode) in V by assumption.
    injection V as V'. rewrite <- V'. rewrite <- rsum_scal. apply rsum_ext. intros i Hi. ring.
  - rewrite rsum_swap. apply rsum_zero. intros i Hi. rewrite rsum_scal, H by exact Hi. ring.
Qed.

Lemma determining_zz mode shift n p1 Y b : sizes mode n p1 -> has_data shift n p1 Y b ->
  determining shift n (unknowns mode n p1) p1 b Y ->
  forall P, (forall j, (j < p1)%nat -> rsum (unknowns mode n p1) (fun i => P i * zz mode n p1 shift Y i j) = 0) ->
  forall i, (i < unknowns mode n p1)%nat -> P i = 0.
Proof.
  intros SZ D T P H. apply T. intros j Hj. rewrite (value_pts mode) by assumption. rewrite H by exact Hj. reflexivity.
Qed.

Lemma poised_triangle mode shift n p1 Y b : sizes mode n p1 -> has_data shift n p1 Y b ->
  (let '(r, c, Z) := to_factor (eff_mode mode n p1) n p1 (pts shift n p1 Y) in factors r c Z (b_Q b) (b_R b)) ->
  poised mode shift n p1 b Y -> triangle (rdim (eff_mode mode n p1) n p1) (b_R b).
Proof.
  intros SZ D F P. pose proof (factored mode shift n p1 Y b SZ F) as G. clear F.
  pose proof SZ as (Hn & Hp & W & S). apply eff_works in W. unfold poised in P.
  pose proof (unknowns_eff mode n p1) as UE.
  assert (RowsCase : forall Q R, factors p1 (unknowns mode n p1) (tr (zz mode n p1 shift Y)) Q R ->
    determining shift n (unknowns mode n p1) p1 b Y -> triangle (unknowns mode n p1) R).
  { intros Q R FF DD. apply (tri_rows p1 _ _ Q R FF). intros P0 H0.
    apply (determining_zz mode shift n p1 Y b SZ D DD). intros j Hj. rewrite <- (H0 j Hj).
    unfold mv, tr. apply rsum_ext. intros i Hi. ring. }
  assert (ColsCase : forall Q R, p1 = unknowns mode n p1 -> factors (unknowns mode n p1) p1 (zz mode n p1 shift Y) Q R ->
    determining shift n (unknowns mode n p1) p1 b Y -> triangle p1 R).
  { intros Q R PE FF DD. pose proof (determining_zz mode shift n p1 Y b SZ D DD) as DZ. rewrite <- PE in FF, DZ.
    exact (tri_cols_square p1 _ _ _ FF DZ). }
  destruct W as [[E|[E|E]]|[E C]]; rewrite E in *; cbn [unknowns rdim] in *.
  - rewrite <- UE, Nat.ltb_irrefl in P. rewrite UE in P at 1. exact (ColsCase _ _ UE G P).
  - destruct (Nat.ltb_spec p1 (unknowns mode n p1)) as [L|L].
    + apply (tri_cols_indep _ p1 _ _ _ G). exact (independent_zz mode shift n p1 Y b SZ D P).
    + assert (PF : p1 = unknowns mode n p1).
      { destruct (eff_cases mode n p1) as [EQ|(_ & _ & LT)]; [|lia]. rewrite E in EQ. subst mode. specialize (S ltac:(lia)). lia. }
      exact (ColsCase _ _ PF G P).
  - destruct (Nat.ltb_spec p1 (unknowns mode n p1)) as [L|L].
    + destruct (eff_cases mode n p1) as [EQ|(_ & E2 & _)]; [|lia]. rewrite E in EQ. subst mode.
      unfold eff_mode in E. cbn [unknowns] in L. cbn [Nat.eqb andb] in E. destruct (Nat.ltb_spec p1 (full n)); lia.
    + rewrite UE. exact (RowsCase _ _ G P).
  - rewrite <- UE, Nat.ltb_irrefl in P. rewrite UE in P at 1. rewrite UE. exact (RowsCase _ _ G P).
Qed.

(** values of a computed model *)
Lemma model_value mode shift n p1 b Q R f len P x : sizes mode n p1 ->
  model_of (eff_mode mode n p1) n p1 Q R f len P ->
  value shift n len P b x =
    Some (rsum (unknowns mode n p1) (fun i => P i * mono shift n (unknowns mode n p1) b x i)).
Proof.
  intros (Hn & Hp & W & S) M. rewrite <- (unknowns_eff mode n p1).
  pose proof (full_pos n). pose proof (full_gt n Hn).
  assert (U : (1 <= unknowns mode n p1 <= full n)%nat).
  { destruct mode as [|[|m]]; cbn [unknowns]; try lia; specialize (S ltac:(lia)); lia. }
  rewrite <- (unknowns_eff mode n p1) in U. apply eff_works in W.
  destruct W as [[E|[E|E]]|[E C]]; rewrite E in *; cbn [model_of unknowns] in *.
  - destruct M as (-> & _). apply value_sum; lia.
  - destruct M as (-> & _). apply value_sum; lia.
  - destruct M as (L & [->| ->] & _); apply value_sum; lia.
  - destruct M as (L & LL & _ & Z). apply value_pad; try lia. intros i Hi. apply Z. lia.
Qed.

Lemma model_interpolates mode shift n p1 Y b f len P : sizes mode n p1 -> has_data shift n p1 Y b ->
  (let '(r, c, Z) := to_factor (eff_mode mode n p1) n p1 (pts shift n p1 Y) in factors r c Z (b_Q b) (b_R b)) ->
  (p1 <= full n)%nat ->
  model_of (eff_mode mode n p1) n p1 (b_Q b) (b_R b) f len P ->
  forall j, (j < p1)%nat -> value shift n len P b (Y j) = Some (f j).
Proof.
  intros SZ D F LE M j Hj. rewrite (model_value mode shift n p1 b _ _ f len P (Y j) SZ M). f_equal.
  pose proof (factored mode shift n p1 Y b SZ F) as G. clear F. destruct SZ as (Hn & Hp & W & S).
  rewrite (rsum_ext _ _ (fun i => P i * zz mode n p1 shift Y i j)); [|intros i Hi; rewrite (mono_pts _ _ _ _ _ _ _ _ Hn D); reflexivity].
  pose proof (unknowns_eff mode n p1) as UE. apply eff_works in W.
  assert (Rows : p1 = unknowns mode n p1 -> factors p1 (unknowns mode n p1) (tr (zz mode n p1 shift Y)) (b_Q b) (b_R b) ->
    (forall i, (i < unknowns mode n p1)%nat -> mv (unknowns mode n p1) (b_R b) P i = mv p1 (tr (b_Q b)) f i) ->
    rsum (unknowns mode n p1) (fun i => P i * zz mode n p1 shift Y i j) = f j).
  { intros PE FF HS. rewrite <- PE in *. rewrite <- (interp_rows p1 _ _ _ P f FF HS j Hj).
    unfold mv, tr. apply rsum_ext. intros i Hi. ring. }
  assert (Cols : forall x, factors (unknowns mode n p1) p1 (zz mode n p1 shift Y) (b_Q b) (b_R b) ->
    (forall i, (i < p1)%nat -> mv p1 (tr (b_R b)) x i = f i) -> (forall i, (i < unknowns mode n p1)%nat -> P i = mv p1 (b_Q b) x i) ->
    rsum (unknowns mode n p1) (fun i => P i * zz mode n p1 shift Y i j) = f j).
  { intros x FF HS HP. rewrite (rsum_ext _ _ (fun i => mv p1 (b_Q b) x i * zz mode n p1 shift Y i j)).
    - apply (interp_cols _ p1 _ _ _ x f FF HS j Hj).
    - intros i Hi. rewrite HP by lia. reflexivity. }
  destruct W as [[E|[E|E]]|[E C]]; rewrite E in *; cbn [model_of unknowns] in *.
  - destruct M as (-> & x & HS & HP). apply (Cols x G HS). intros i Hi. apply HP. lia.
  - destruct M as (-> & x & HS & HP). apply (Cols x G HS). intros i Hi. apply HP. lia.
  - assert (PF : p1 = unknowns mode n p1).
    { destruct (eff_cases mode n p1) as [EQ|(_ & E2 & _)]; [|lia]. rewrite E in EQ. subst mode. cbn [unknowns].
      unfold eff_mode in E. cbn [Nat.eqb andb] in E. destruct (Nat.ltb_spec p1 (full n)); lia. }
    apply (Rows PF G). rewrite <- UE. apply M.
  - apply (Rows UE G). rewrite <- UE. apply M.
Qed.

Lemma const_value shift n b q x : (1 <= q)%nat -> (q <= full n)%nat -> value shift n q (unitv 0) b x = Some 1.
Proof.
  intros H1 H2. rewrite value_sum by assumption. f_equal.
  rewrite (rsum_single q 0); [unfold unitv; cbn [Nat.eqb]; rewrite mono_0; ring|lia|].
  intros j Hj N. unfold unitv. destruct (Nat.eqb_spec j 0); [lia|ring].
Qed.

(** ** Top level *)

Section Top.
Variable slv : nat -> mat -> mat -> option mat.
Variable pinv : nat -> mat -> mat.
Variable qr : nat -> nat -> mat -> mat * mat.
Variable ill : nat -> nat -> mat -> bool.
Variable cure : nat -> nat -> mat -> mat.
Variables (mode : nat) (shift : bool) (n p1 : nat) (Y : nat -> vec) (b : built).
Hypothesis HR : regular_case slv pinv qr ill cure mode shift n p1 Y b.
Let k := unknowns mode n p1.

Lemma r_data : sizes mode n p1 /\ has_data shift n p1 Y b /\
  (let '(r, c, Z) := to_factor (eff_mode mode n p1) n p1 (pts shift n p1 Y) in factors r c Z (b_Q b) (b_R b)) /\
  triangle (rdim (eff_mode mode n p1) n p1) (b_R b).
Proof.
  destruct HR as (SZ & SX & PX & B & E & P). destruct (build_facts _ _ _ _ _ _ _ _ _ B E) as (D & F).
  split; [exact SZ|]. split; [exact D|]. split; [exact F|]. exact (poised_triangle _ _ _ _ _ _ SZ D F P).
Qed.

Lemma r_le : (eff_mode mode n p1 <= 3)%nat.
Proof. destruct r_data as ((_ & _ & W & _) & _). apply eff_works in W. exact (works_le _ _ _ W). Qed.

Lemma r_P f : exists len P, computeP slv pinv mode n p1 (b_Q b) (b_R b) f = Some (len, P) /\
  model_of (eff_mode mode n p1) n p1 (b_Q b) (b_R b) f len P.
Proof.
  destruct HR as (SZ & SX & PX & B & E & P). destruct r_data as (_ & _ & _ & T). destruct SZ as (Hn & _ & W & _).
  exact (computeP_model slv pinv SX PX mode n p1 _ _ f Hn W T).
Qed.
Lemma r_L j : (j < p1)%nat -> exists len P, computeLj slv pinv mode n p1 (b_Q b) (b_R b) j = Some (len, P) /\
  model_of (eff_mode mode n p1) n p1 (b_Q b) (b_R b) (unitv j) len P.
Proof.
  intros Hj. destruct HR as (SZ & SX & PX & B & E & P). destruct r_data as (_ & _ & _ & T). destruct SZ as (Hn & _ & W & _).
  exact (computeLj_model slv pinv SX PX mode n p1 _ _ j Hn W Hj T).
Qed.
Lemma r_Peq f len P : computeP slv pinv mode n p1 (b_Q b) (b_R b) f = Some (len, P) ->
  model_of (eff_mode mode n p1) n p1 (b_Q b) (b_R b) f len P.
Proof. intros E. destruct (r_P f) as (len' & P' & E' & M). rewrite E in E'. inversion E'; subst. exact M. Qed.
Lemma r_Leq j len P : (j < p1)%nat -> computeLj slv pinv mode n p1 (b_Q b) (b_R b) j = Some (len, P) ->
  model_of (eff_mode mode n p1) n p1 (b_Q b) (b_R b) (unitv j) len P.
Proof. intros Hj E. destruct (r_L j Hj) as (len' & P' & E' & M). rewrite E in E'. inversion E'; subst. exact M. Qed.

Lemma t_interpolates f : (p1 <= full n)%nat ->
  exists len P, computeP slv pinv mode n p1 (b_Q b) (b_R b) f = Some (len, P) /\
    forall j, (j < p1)%nat -> value shift n len P b (Y j) = Some (f j).
Proof.
  intros LE. destruct (r_P f) as (len & P & E & M). destruct r_data as (SZ & D & F & T).
  exists len, P. split; [exact E|]. exact (model_interpolates mode shift n p1 Y b f len P SZ D F LE M).
Qed.

(** two models for the same data have the same values *)
Lemma same_value f len P len' P' x :
  model_of (eff_mode mode n p1) n p1 (b_Q b) (b_R b) f len P ->
  model_of (eff_mode mode n p1) n p1 (b_Q b) (b_R b) f len' P' ->
  value shift n len P b x = value shift n len' P' b x.
Proof.
  intros M M'. destruct r_data as (SZ & D & F & T).
  rewrite (model_value mode shift n p1 b _ _ f len P x SZ M), (model_value mode shift n p1 b _ _ f len' P' x SZ M').
  f_equal. apply rsum_ext. intros i Hi. f_equal.
  apply (model_unique _ n p1 _ _ f len P len' P' T r_le M M'). rewrite unknowns_eff. exact Hi.
Qed.

Lemma sum_value m (c : vec) (F : nat -> vec) (L : nat -> nat) (P : nat -> vec) len' P' g x :
  (forall j, (j < m)%nat -> model_of (eff_mode mode n p1) n p1 (b_Q b) (b_R b) (F j) (L j) (P j)) ->
  (forall i, (i < p1)%nat -> g i = rsum m (fun j => c j * F j i)) ->
  model_of (eff_mode mode n p1) n p1 (b_Q b) (b_R b) g len' P' ->
  value shift n len' P' b x = Some (rsum m (fun j => c j * rsum k (fun i => P j i * mono shift n k b x i))).
Proof.
  intros M G M'. destruct r_data as (SZ & D & FF & T).
  pose proof (model_sum _ n p1 (b_Q b) (b_R b) m c F L P r_le M) as MS.
  assert (M2 : model_of (eff_mode mode n p1) n p1 (b_Q b) (b_R b) (fun i => rsum m (fun j => c j * F j i)) len' P').
  { clear MS M. revert M'. generalize (eff_mode mode n p1). intros md.
    destruct md as [|[|[|[|md]]]]; cbn [model_of unknowns]; intros M'.
    - destruct M' as (A & y & S & V). split; [exact A|]. exists y. split; [|exact V]. intros i Hi. rewrite S by exact Hi. apply G. exact Hi.
    - destruct M' as (A & B & S & V). split; [exact A|]. split; [exact B|]. split; [|exact V]. intros i Hi. rewrite S by exact Hi. apply mv_ext. exact G.
    - destruct M' as (A & y & S & V). split; [exact A|]. exists y. split; [|exact V]. intros i Hi. rewrite S by exact Hi. apply G. exact Hi.
    - destruct M' as (A & B & S & V). split; [exact A|]. split; [exact B|]. split; [|exact V]. intros i Hi. rewrite S by exact Hi. apply mv_ext. exact G.
    - destruct M' as (A & B & S & V). split; [exact A|]. split; [exact B|]. split; [|exact V]. intros i Hi. rewrite S by exact Hi. apply mv_ext. exact G. }
  rewrite (same_value _ _ _ _ _ x M2 MS).
  rewrite (model_value mode shift n p1 b _ _ _ _ _ x SZ MS). f_equal. fold k.
  transitivity (rsum k (fun i => rsum m (fun j => c j * (P j i * mono shift n k b x i)))).
  - apply rsum_ext. intros i Hi. rewrite <- rsum_scal_r. apply rsum_ext. intros j Hj. ring.
  - rewrite rsum_swap. apply rsum_ext. intros j Hj. rewrite rsum_scal. reflexivity.
Qed.

Lemma t_linear f g u w len1 P1 len2 P2 len3 P3 x v1 v2 :
  computeP slv pinv mode n p1 (b_Q b) (b_R b) f = Some (len1, P1) ->
  computeP slv pinv mode n p1 (b_Q b) (b_R b) g = Some (len2, P2) ->
  computeP slv pinv mode n p1 (b_Q b) (b_R b) (fun j => u * f j + w * g j) = Some (len3, P3) ->
  value shift n len1 P1 b x = Some v1 -> value shift n len2 P2 b x = Some v2 ->
  value shift n len3 P3 b x = Some (u * v1 + w * v2).
Proof.
  intros E1 E2 E3 V1 V2. apply r_Peq in E1, E2, E3. destruct r_data as (SZ & D & FF & T).
  rewrite (model_value mode shift n p1 b _ _ _ _ _ x SZ E1) in V1.
  rewrite (model_value mode shift n p1 b _ _ _ _ _ x SZ E2) in V2. fold k in V1, V2.
  set (w1 := rsum k (fun i => P1 i * mono shift n k b x i)) in V1.
  set (w2 := rsum k (fun i => P2 i * mono shift n k b x i)) in V2.
  injection V1 as <-. injection V2 as <-.
  rewrite (sum_value 2 (fun j => match j with O => u | _ => w end) (fun j => match j with O => f | _ => g end)
    (fun j => match j with O => len1 | _ => len2 end) (fun j => match j with O => P1 | _ => P2 end) len3 P3 (fun j => u * f j + w * g j) x);
    [|intros [|j] Hj; assumption|intros i Hi; cbn [rsum]; ring|exact E3].
  f_equal. cbn [rsum]. fold w1 w2. ring.
Qed.

Lemma t_lagrange_delta j i : (p1 <= full n)%nat -> (j < p1)%nat -> (i < p1)%nat ->
  exists len L, computeLj slv pinv mode n p1 (b_Q b) (b_R b) j = Some (len, L) /\
    value shift n len L b (Y i) = Some (if (i =? j)%nat then 1 else 0).
Proof.
  intros LE Hj Hi. destruct (r_L j Hj) as (len & P & E & M). destruct r_data as (SZ & D & F & T).
  exists len, P. split; [exact E|].
  rewrite (model_interpolates mode shift n p1 Y b (unitv j) len P SZ D F LE M i Hi). reflexivity.
Qed.

Lemma unit_sum m f i : (i < m)%nat -> f i = rsum m (fun j => f j * unitv j i).
Proof.
  intros Hi. rewrite (rsum_single m i); [unfold unitv; rewrite Nat.eqb_refl; ring|exact Hi|].
  intros j Hj N. unfold unitv. destruct (Nat.eqb_spec i j); [lia|ring].
Qed.

(** the value of the model is the sum of the given values times the Lagrange values *)
Lemma t_lagrange_sum f len P x (L : nat -> nat * vec) (v : vec) :
  computeP slv pinv mode n p1 (b_Q b) (b_R b) f = Some (len, P) ->
  (forall j, (j < p1)%nat -> computeLj slv pinv mode n p1 (b_Q b) (b_R b) j = Some (L j) /\
     value shift n (fst (L j)) (snd (L j)) b x = Some (v j)) ->
  value shift n len P b x = Some (rsum p1 (fun j => f j * v j)).
Proof.
  intros E H. apply r_Peq in E. destruct r_data as (SZ & D & FF & T).
  assert (M : forall j, (j < p1)%nat -> model_of (eff_mode mode n p1) n p1 (b_Q b) (b_R b) (unitv j) (fst (L j)) (snd (L j))).
  { intros j Hj. destruct (H j Hj) as (E1 & _). apply r_Leq; [exact Hj|]. rewrite E1. destruct (L j). reflexivity. }
  rewrite (sum_value p1 f unitv (fun j => fst (L j)) (fun j => snd (L j)) len P f x M); [|intros i Hi; apply unit_sum; exact Hi|exact E].
  f_equal. apply rsum_ext. intros j Hj. f_equal. destruct (H j Hj) as (_ & V).
  rewrite (model_value mode shift n p1 b _ _ _ _ _ x SZ (M j Hj)) in V. fold k in V. injection V as V. exact V.
Qed.

(** least squares *)
Lemma t_least f len P P' (v v' : vec) : mode = 3%nat -> (full n <= p1)%nat ->
  computeP slv pinv mode n p1 (b_Q b) (b_R b) f = Some (len, P) ->
  (forall j, (j < p1)%nat -> value shift n len P b (Y j) = Some (v j)) ->
  (forall j, (j < p1)%nat -> value shift n (full n) P' b (Y j) = Some (v' j)) ->
  rsum p1 (fun j => (v j - f j) ^ 2) <= rsum p1 (fun j => (v' j - f j) ^ 2).
Proof.
  intros Hm LE E V V'. apply r_Peq in E. destruct r_data as (SZ & D & FF & T).
  pose proof (factored mode shift n p1 Y b SZ FF) as G.
  assert (EM : eff_mode mode n p1 = 3%nat).
  { subst mode. unfold eff_mode. cbn [Nat.eqb andb]. destruct (Nat.ltb_spec p1 (full n)); [lia|reflexivity]. }
  assert (KF : unknowns mode n p1 = full n) by (subst mode; reflexivity).
  assert (A : forall j, (j < p1)%nat -> mv (full n) (tr (zz mode n p1 shift Y)) P j = v j).
  { intros j Hj. specialize (V j Hj). rewrite (model_value mode shift n p1 b _ _ _ _ _ (Y j) SZ E) in V.
    injection V as V. rewrite <- V, KF. unfold mv, tr. apply rsum_ext. intros i Hi.
    rewrite (mono_pts _ _ _ _ _ _ _ _ (proj1 SZ) D). unfold zz. rewrite KF. ring. }
  assert (A' : forall j, (j < p1)%nat -> mv (full n) (tr (zz mode n p1 shift Y)) P' j = v' j).
  { intros j Hj. specialize (V' j Hj). rewrite <- KF in V' at 1. rewrite (value_pts mode) in V' by assumption.
    injection V' as V'. rewrite <- V', KF. unfold mv, tr. apply rsum_ext. intros i Hi. ring. }
  rewrite EM in *. cbn [model_of unknowns] in E. rewrite KF in G. destruct E as (_ & _ & S & _).
  pose proof (rows_least p1 (full n) _ _ _ P f P' G S) as H.
  unfold dot in H.
  rewrite (rsum_ext p1 (fun j => (v j - f j) ^ 2) (fun i => vsub (mv (full n) (tr (zz mode n p1 shift Y)) P) f i * vsub (mv (full n) (tr (zz mode n p1 shift Y)) P) f i)).
  - rewrite (rsum_ext p1 (fun j => (v' j - f j) ^ 2) (fun i => vsub (mv (full n) (tr (zz mode n p1 shift Y)) P') f i * vsub (mv (full n) (tr (zz mode n p1 shift Y)) P') f i)); [exact H|].
    intros j Hj. unfold vsub. rewrite A' by exact Hj. ring.
  - intros j Hj. unfold vsub. rewrite A by exact Hj. ring.
Qed.

(** minimum norm *)
Lemma t_minnorm f len P P' : (mode = 2 \/ mode = 3)%nat -> (p1 < full n)%nat ->
  computeP slv pinv mode n p1 (b_Q b) (b_R b) f = Some (len, P) ->
  (forall j, (j < p1)%nat -> value shift n (full n) P' b (Y j) = Some (f j)) ->
  len = full n /\ dot (full n) P P <= dot (full n) P' P'.
Proof.
  intros Hm LE E V'. apply r_Peq in E. destruct r_data as (SZ & D & FF & T).
  pose proof (factored mode shift n p1 Y b SZ FF) as G.
  assert (EM : eff_mode mode n p1 = 2%nat).
  { destruct Hm; subst mode; [reflexivity|]. unfold eff_mode. cbn [Nat.eqb andb]. destruct (Nat.ltb_spec p1 (full n)); [reflexivity|lia]. }
  assert (KF : unknowns mode n p1 = full n) by (destruct Hm; subst mode; reflexivity).
  assert (A' : forall j, (j < p1)%nat -> mv (full n) (tr (zz mode n p1 shift Y)) P' j = f j).
  { intros j Hj. specialize (V' j Hj). rewrite <- KF in V' at 1. rewrite (value_pts mode) in V' by assumption.
    injection V' as V'. rewrite <- V', KF. unfold mv, tr. apply rsum_ext. intros i Hi. ring. }
  rewrite EM in *. cbn [model_of unknowns rdim] in *. rewrite KF in G. destruct E as (-> & x & S & HP). split; [reflexivity|].
  pose proof (interp_cols _ p1 _ _ _ x f G S) as I.
  set (d := vsub P' P).
  assert (E : veq (full n) P' (vadd P d)) by (intros i Hi; unfold d, vsub, vadd; ring).
  rewrite (dot_ext (full n) P' (vadd P d) P' (vadd P d) E E), dot_add_l, !dot_add_r.
  assert (Zd : dot (full n) P d = 0).
  { rewrite (dot_ext (full n) P (mv p1 (b_Q b) x) d d); [|exact HP|intros i Hi; reflexivity].
    rewrite dot_mv_tr. unfold dot. apply rsum_zero. intros a Ha.
    assert (W : veq p1 (mv (full n) (tr (b_Q b)) d) vzero); [|rewrite (W a Ha); unfold vzero; ring].
    apply (triangle_inj p1 (tr (b_R b)) (triangle_tr _ _ T)). intros c Hc.
    rewrite mv_comp. transitivity (mv (full n) (tr (zz mode n p1 shift Y)) d c).
    - apply mv_ext_mat. intros i Hi. destruct G as (F1 & _). unfold tr. rewrite <- (F1 i c Hi Hc). apply rsum_ext. intros l Hl. ring.
    - unfold d. rewrite mv_sub, A' by exact Hc.
      rewrite <- (I c Hc). unfold mv, tr. rewrite <- rsum_minus. apply rsum_zero. intros i Hi. rewrite HP by exact Hi. unfold mv. ring. }
  rewrite (dot_sym (full n) d P), Zd. pose proof (dot_self_nonneg (full n) d). lra.
Qed.

Lemma k_bound : (1 <= k <= full n)%nat.
Proof.
  destruct r_data as ((Hn & Hp & W & S) & _). pose proof (full_pos n). unfold k.
  destruct mode as [|[|m]]; cbn [unknowns]; try lia; specialize (S ltac:(lia)); lia.
Qed.

(** functions of the model space are reproduced *)
Lemma t_reproduces f len P P0 x : (unknowns mode n p1 <= p1)%nat ->
  computeP slv pinv mode n p1 (b_Q b) (b_R b) f = Some (len, P) ->
  (forall j, (j < p1)%nat -> value shift n (unknowns mode n p1) P0 b (Y j) = Some (f j)) ->
  value shift n len P b x = value shift n (unknowns mode n p1) P0 b x.
Proof.
  intros LE E H0. pose proof E as E'. apply r_Peq in E. destruct r_data as (SZ & D & FF & T).
  pose proof k_bound as KB. fold k in LE, H0 |- *.
  assert (Vp : forall j, (j < p1)%nat -> value shift n len P b (Y j) = Some (f j)).
  { destruct (le_lt_dec p1 (full n)) as [LP|LP].
    - exact (model_interpolates mode shift n p1 Y b f len P SZ D FF LP E).
    - assert (M3 : mode = 3%nat).
      { destruct SZ as (Hn & Hp & W & S). unfold works in W. destruct (le_lt_dec mode 2) as [A|A]; [specialize (S A); lia|lia]. }
      set (v := fun j => rsum k (fun i => P i * mono shift n k b (Y j) i)).
      assert (Vv : forall j, value shift n len P b (Y j) = Some (v j)).
      { intros j. apply (model_value mode shift n p1 b _ _ f len P (Y j) SZ E). }
      assert (KF : k = full n) by (unfold k; rewrite M3; reflexivity).
      pose proof (t_least f len P P0 v f M3 ltac:(lia) E' (fun j _ => Vv j)) as LS.
      rewrite <- KF in LS. specialize (LS H0).
      rewrite (rsum_zero p1 (fun j => (f j - f j) ^ 2)) in LS by (intros; ring).
      assert (Zr : forall j, (j < p1)%nat -> (v j - f j) ^ 2 = 0).
      { apply rsum_nonneg_zero; [intros j Hj; apply pow2_ge_0|].
        apply Rle_antisym; [exact LS|]. apply rsum_nonneg. intros j Hj. apply pow2_ge_0. }
      intros j Hj. rewrite Vv. f_equal. specialize (Zr j Hj). nra. }
  rewrite (model_value mode shift n p1 b _ _ f len P x SZ E). fold k. rewrite value_sum by lia. f_equal.
  destruct HR as (_ & _ & _ & _ & _ & PO). unfold poised in PO. fold k in PO.
  destruct (Nat.ltb_spec p1 k); [lia|].
  apply rsum_ext. intros i Hi. f_equal.
  enough (P i - P0 i = 0) by lra.
  apply (PO (fun i => P i - P0 i)); [|exact Hi]. intros j Hj. rewrite value_sum by lia. f_equal.
  specialize (Vp j Hj). rewrite (model_value mode shift n p1 b _ _ f len P (Y j) SZ E) in Vp. fold k in Vp. injection Vp as Vp.
  specialize (H0 j Hj). rewrite value_sum in H0 by lia. injection H0 as H0.
  rewrite (rsum_ext k _ (fun i => P i * mono shift n k b (Y j) i - P0 i * mono shift n k b (Y j) i)) by (intros; ring).
  rewrite rsum_minus, Vp, H0. ring.
Qed.

(** *** Sum of the Lagrange values *)

Lemma vals_zero_arg q P x : (1 <= q)%nat -> (q <= full n)%nat -> (forall t, (t < n)%nat -> arg shift b x t = 0) ->
  rsum q (fun i => P i * mono shift n q b x i) = P 0%nat.
Proof.
  intros H1 H2 A. unfold mono. rewrite (evalZ_ext n q (arg shift b x) vzero) by (intros i Hi; rewrite A by exact Hi; reflexivity).
  rewrite <- (pdot_vzero_tail P n q H1 H2), pdot_rsum, evalZ_length by assumption. reflexivity.
Qed.

Lemma const_model len P x : (unknowns mode n p1 <= p1)%nat \/ shifts shift p1 = true ->
  computeP slv pinv mode n p1 (b_Q b) (b_R b) (fun _ => 1) = Some (len, P) ->
  value shift n len P b x = Some 1.
Proof.
  intros C E. pose proof k_bound as KB. destruct r_data as (SZ & D & FF & T).
  destruct (le_lt_dec k p1) as [LE|LT].
  - rewrite (t_reproduces (fun _ => 1) len P (unitv 0) x LE E).
    + apply const_value; unfold k in KB; lia.
    + intros j Hj. apply const_value; unfold k in KB; lia.
  - destruct C as [C|C]; [unfold k in LT; lia|].
    assert (KF : k = full n /\ (mode = 2 \/ mode = 3)%nat).
    { destruct SZ as (_ & _ & W & _). unfold k, works in *.
      destruct W as [[->|[->| ->]]|[-> _]]; cbn [unknowns] in *; (split; [lia|lia]) || lia. }
    destruct KF as (KF & Hm).
    destruct (t_minnorm (fun _ => 1) len P (unitv 0) Hm ltac:(lia) E) as (-> & NM).
    { intros j Hj. apply const_value; lia. }
    assert (V0 : P 0%nat = 1).
    { pose proof (model_interpolates mode shift n p1 Y b (fun _ => 1) (full n) P SZ D FF ltac:(lia) (r_Peq _ _ _ E) 0%nat (proj1 (proj2 SZ))) as V.
      rewrite value_sum in V by lia. injection V as V. rewrite <- V. symmetry. apply vals_zero_arg; [lia|lia|].
      intros t Ht. destruct D as (B & SS & _). unfold arg. rewrite B, SS. unfold base, scl. rewrite C.
      unfold shifts in C. destruct shift; [|discriminate]. ring. }
    assert (NU : dot (full n) (unitv 0) (unitv 0) = 1).
    { unfold dot. rewrite (rsum_single (full n) 0); [unfold unitv; cbn [Nat.eqb]; ring|lia|].
      intros j Hj N. unfold unitv. destruct (Nat.eqb_spec j 0); [lia|ring]. }
    assert (R0 : forall i, (i < full n - 1)%nat -> P (S i) * P (S i) = 0).
    { apply rsum_nonneg_zero; [intros i Hi; apply Rle_0_sqr|].
      rewrite NU in NM. unfold dot in NM. replace (full n) with (S (full n - 1)) in NM by lia.
      rewrite rsum_S_first, V0 in NM.
      assert (0 <= rsum (full n - 1) (fun i => P (S i) * P (S i))) by (apply rsum_nonneg; intros i Hi; apply Rle_0_sqr).
      lra. }
    rewrite value_sum by lia. f_equal.
    rewrite (rsum_single (full n) 0); [rewrite V0, mono_0; ring|lia|].
    intros j Hj N. destruct j as [|j]; [lia|]. assert (P (S j) = 0) as -> by (apply Rsqr_0_uniq, (R0 j ltac:(lia))). ring.
Qed.

Lemma t_sum_one x (L : nat -> nat * vec) (v : vec) : (unknowns mode n p1 <= p1)%nat \/ shifts shift p1 = true ->
  (forall j, (j < p1)%nat -> computeLj slv pinv mode n p1 (b_Q b) (b_R b) j = Some (L j) /\
     value shift n (fst (L j)) (snd (L j)) b x = Some (v j)) ->
  rsum p1 v = 1.
Proof.
  intros C H. destruct (r_P (fun _ => 1)) as (len & P & E & M).
  pose proof (t_lagrange_sum (fun _ => 1) len P x L v E H) as S.
  rewrite (const_model len P x C E) in S. injection S as S. rewrite S. apply rsum_ext. intros j Hj. ring.
Qed.

(** *** The two routines agree *)

Lemma rowsolve C : upper p1 (b_R b) -> diag_nz p1 (b_R b) ->
  (forall i j, (i < p1)%nat -> rsum p1 (fun l => b_R b i l * C l j) = tr (b_Q b) i j) ->
  forall j, (j < p1)%nat -> exists y, (forall i, (i < p1)%nat -> mv p1 (tr (b_R b)) y i = unitv j i) /\
    forall i, C j i = mv p1 (b_Q b) y i.
Proof.
  intros U DN H j Hj. exists (fwd (tr (b_R b)) (unitv j) p1).
  pose proof (fwd_solves p1 (tr (b_R b)) (unitv j) (upper_tr _ _ U) DN) as FS.
  set (y := fwd (tr (b_R b)) (unitv j) p1) in *. split; [exact FS|]. intros i.
  transitivity (rsum p1 (fun l => mv p1 (tr (b_R b)) y l * C l i)).
  - rewrite (rsum_single p1 j); [rewrite FS by exact Hj; unfold unitv; rewrite Nat.eqb_refl; ring|exact Hj|].
    intros l Hl N. rewrite FS by exact Hl. unfold unitv. destruct (Nat.eqb_spec l j); [lia|ring].
  - unfold mv, tr. transitivity (rsum p1 (fun l => rsum p1 (fun a => y a * (b_R b a l * C l i)))).
    + apply rsum_ext. intros l Hl. rewrite <- rsum_scal_r. apply rsum_ext. intros a Ha. ring.
    + rewrite rsum_swap. apply rsum_ext. intros a Ha. rewrite rsum_scal, H by exact Ha. unfold tr. ring.
Qed.

Lemma existsb_In j l : existsb (Nat.eqb j) l = true <-> In j l.
Proof.
  rewrite existsb_exists. split; [intros (y & I & E); apply Nat.eqb_eq in E; subst; exact I|].
  intros I. exists j. split; [exact I|apply Nat.eqb_refl].
Qed.

Lemma lvals_eval q C choice x : (1 <= q <= full n)%nat -> exists v,
  lvals shift n q b choice C x = LVals v /\
  forall j, (In j choice -> v j = value shift n q (C j) b x) /\ (~ In j choice -> v j = Some 0).
Proof.
  intros Hq. unfold lvals. rewrite value_sum by lia. eexists. split; [reflexivity|]. intros j. cbn beta.
  pose proof (existsb_In j choice) as I. destruct (existsb (Nat.eqb j) choice).
  - split; [reflexivity|]. intros N. exfalso. apply N. apply I. reflexivity.
  - split; [|reflexivity]. intros J. apply I in J. discriminate.
Qed.

Lemma t_evalL choice x : mode <> 1%nat ->
  exists v, evalL slv pinv mode shift n p1 b choice x = LVals v /\
    (forall j, In j choice -> (j < p1)%nat -> forall len L,
      computeLj slv pinv mode n p1 (b_Q b) (b_R b) j = Some (len, L) -> v j = value shift n len L b x) /\
    (forall j, ~ In j choice -> v j = Some 0).
Proof.
  intros NM. pose proof k_bound as KB. destruct r_data as (SZ & D & FF & T).
  pose proof (factored mode shift n p1 Y b SZ FF) as G.
  pose proof SZ as (Hn & Hp & W & S). apply eff_works in W.
  destruct HR as (_ & SX & PX & _).
  assert (Fin : forall q C, q = k -> (forall j, (j < p1)%nat -> model_of (eff_mode mode n p1) n p1 (b_Q b) (b_R b) (unitv j) k (C j)) ->
    exists v, lvals shift n q b choice C x = LVals v /\
    (forall j, In j choice -> (j < p1)%nat -> forall len L,
      computeLj slv pinv mode n p1 (b_Q b) (b_R b) j = Some (len, L) -> v j = value shift n len L b x) /\
    (forall j, ~ In j choice -> v j = Some 0)).
  { intros q C -> M. destruct (lvals_eval k C choice x KB) as (v & E & H). exists v. split; [exact E|]. split.
    - intros j I Hj len L EL. rewrite (proj1 (H j) I). apply (same_value (unitv j)); [apply M; exact Hj|].
      apply r_Leq; assumption.
    - intros j. apply H. }
  unfold evalL. pose proof (unknowns_eff mode n p1) as UE. fold k in UE.
  assert (Cols : eff_mode mode n p1 = 0%nat \/ eff_mode mode n p1 = 2%nat -> upper p1 (b_R b)).
  { intros [E|E]; rewrite E in G; apply G. }
  destruct W as [[E|[E|E]]|[E C]]; rewrite E in *; cbn [model_of unknowns rdim] in *.
  - destruct (SX p1 (b_R b) (tr (b_Q b)) T) as (X & -> & HX). apply Fin; [exact UE|]. intros j Hj.
    destruct (rowsolve X (Cols (or_introl eq_refl)) (proj2 T) HX j Hj) as (y & HY & HC).
    split; [symmetry; exact UE|]. exists y. split; [exact HY|]. intros i Hi. apply HC.
  - destruct (p1 <? full n)%nat.
    + apply Fin; [exact UE|]. intros j Hj. split; [symmetry; exact UE|].
      exists (fun l => pinv p1 (b_R b) j l). split.
      * intros i Hi. unfold mv, tr. transitivity (idm j i).
        -- rewrite <- (pinv_left pinv PX p1 (b_R b) T j i Hj Hi). apply rsum_ext. intros l Hl. ring.
        -- unfold idm, unitv. rewrite Nat.eqb_sym. reflexivity.
      * intros i Hi. unfold mv. apply rsum_ext. intros l Hl. ring.
    + destruct (SX p1 (b_R b) (tr (b_Q b)) T) as (X & -> & HX). apply Fin; [exact UE|]. intros j Hj.
      destruct (rowsolve X (Cols (or_intror eq_refl)) (proj2 T) HX j Hj) as (y & HY & HC).
      split; [symmetry; exact UE|]. exists y. split; [exact HY|]. intros i Hi. apply HC.
  - apply Fin; [exact UE|]. intros j Hj. split; [lia|]. split; [left; lia|]. split; [|intros i Hi; lia].
    intros a Ha. unfold mv, tr.
    transitivity (b_Q b j a).
    + transitivity (rsum (full n) (fun l => b_Q b j l * idm l a)).
      * transitivity (rsum (full n) (fun i => rsum (full n) (fun l => b_Q b j l * (pinv (full n) (tr (b_R b)) l i * tr (b_R b) i a)))).
        -- apply rsum_ext. intros i Hi. rewrite <- rsum_scal. apply rsum_ext. intros l Hl. unfold tr. ring.
        -- rewrite rsum_swap. apply rsum_ext. intros l Hl. rewrite rsum_scal.
           rewrite (pinv_left pinv PX (full n) (tr (b_R b)) (triangle_tr _ _ T) l a Hl Ha). reflexivity.
      * rewrite (rsum_single (full n) a); [unfold idm; rewrite Nat.eqb_refl; ring|exact Ha|].
        intros l Hl N. unfold idm. destruct (Nat.eqb_spec l a); [lia|ring].
    + symmetry. rewrite (rsum_single p1 j); [unfold unitv; rewrite Nat.eqb_refl; ring|exact Hj|].
      intros l Hl N. unfold unitv. destruct (Nat.eqb_spec l j); [lia|ring].
  - destruct (eff_cases mode n p1) as [EQ|(_ & E2 & _)]; [|lia]. rewrite E in EQ. congruence.
Qed.

End Top.

(** ** Minimum Frobenius norm mode *)

Lemma xsum_none m f i : (i < m)%nat -> f i = None -> xsum m f = None.
Proof.
  intros Hi E. induction m as [|m IH]; [lia|]. cbn [xsum].
  destruct (Nat.eq_dec i m) as [->|N]; [rewrite E; destruct (xsum m f); reflexivity|].
  rewrite IH by lia. reflexivity.
Qed.

Lemma frob_nonfinite p1 QZ RZ z j : (2 <= p1)%nat -> upper p1 RZ -> frob_value p1 QZ RZ z j = None.
Proof.
  intros Hp U. unfold frob_value. apply (xsum_none p1 _ (p1 - 1)); [lia|].
  assert (frob_row p1 QZ RZ j (p1 - 1) = None) as ->; [|reflexivity].
  unfold frob_row. apply (xsum_none p1 _ 0); [lia|].
  unfold xdiv. rewrite (U (p1 - 1)%nat 0%nat) by lia. unfold Reqb. destruct (Req_EM_T 0 0); [reflexivity|contradiction].
Qed.

Lemma t_frobenius slv pinv shift n p1 b choice x : (1 <= n)%nat -> (p1 = n + 1 \/ p1 = full n)%nat ->
  upper p1 (b_R b) ->
  exists v, evalL slv pinv 1 shift n p1 b choice x = LVals v /\ forall j, In j choice -> v j = None.
Proof.
  intros Hn C U. pose proof (full_gt n Hn). unfold evalL. cbn [eff_mode Nat.eqb andb].
  change (eff_mode 1 n p1) with 1%nat. cbn match. rewrite (proj2 (compl_true n p1) C).
  rewrite value_sum by lia. eexists. split; [reflexivity|]. intros j I. cbn beta.
  rewrite (proj2 (existsb_In j choice) I). apply frob_nonfinite; [lia|exact U].
Qed.

Lemma t_raises slv pinv mode n p1 Q R f j : (forall m A B, slv m A B <> None) -> (mode <= 3)%nat ->
  (computeP slv pinv mode n p1 Q R f = None <-> (mode = 1 /\ p1 <> n + 1 /\ p1 <> full n)%nat) /\
  (computeLj slv pinv mode n p1 Q R j = None <-> (mode = 1 /\ p1 <> n + 1 /\ p1 <> full n)%nat).
Proof.
  intros TS Hm. unfold computeP, computeLj.
  assert (NS : forall m A B (G : mat -> option (nat * vec)), (forall X, G X <> None) ->
    (match slv m A B with None => None | Some X => G X end) <> None).
  { intros m A B G HG. destruct (slv m A B) as [X|] eqn:E; [apply HG|exfalso; exact (TS m A B E)]. }
  assert (Dec : compl n p1 = false <-> (p1 <> n + 1 /\ p1 <> full n)%nat).
  { pose proof (compl_true n p1) as CT. destruct (compl n p1); split; intros H; try discriminate; try reflexivity.
    - exfalso. destruct (proj1 CT eq_refl); lia.
    - split; intros H'; assert (false = true) by (apply CT; lia); discriminate. }
  assert (Only : forall (o : option (nat * vec)), o <> None -> mode <> 1%nat ->
    (o = None <-> (mode = 1 /\ p1 <> n + 1 /\ p1 <> full n)%nat)).
  { intros o O M. split; [intros E; contradiction|intros (E & _); contradiction]. }
  assert (EM : eff_mode mode n p1 = 1%nat <-> mode = 1%nat).
  { destruct (eff_cases mode n p1) as [E|(-> & E & _)]; rewrite E; [tauto|lia]. }
  assert (EL : (eff_mode mode n p1 <= 3)%nat) by (destruct (eff_cases mode n p1) as [E|(-> & E & _)]; lia).
  revert EM EL. generalize (eff_mode mode n p1). intros m EM EL.
  destruct m as [|[|[|[|m]]]]; [| | | |lia].
  - split; apply Only; try (intros E; apply EM in E; discriminate); apply NS; intros X; discriminate.
  - destruct (compl n p1) eqn:CC.
    + assert (NN : ~ (mode = 1 /\ p1 <> n + 1 /\ p1 <> full n)%nat) by (intros (_ & A); apply Dec in A; congruence).
      split; (split; [intros E; exfalso; revert E; apply NS; intros X; discriminate|contradiction]).
    + assert (M1 : mode = 1%nat) by (apply EM; reflexivity).
      split; (split; [intros _; split; [exact M1|apply Dec; reflexivity]|reflexivity]).
  - split; apply Only; try (intros E; apply EM in E; discriminate); [apply NS; intros X; discriminate|].
    destruct (p1 <? full n)%nat; [discriminate|apply NS; intros X; discriminate].
  - split; apply Only; try (intros E; apply EM in E; discriminate); discriminate.
Qed.

Lemma t_evalL_raises slv pinv shift n p1 b choice x : (p1 <> n + 1 /\ p1 <> full n)%nat ->
  evalL slv pinv 1 shift n p1 b choice x = LRaise.
Proof.
  intros C. unfold evalL. change (eff_mode 1 n p1) with 1%nat. cbn match.
  pose proof (compl_true n p1) as CT. destruct (compl n p1); [|reflexivity]. destruct (proj1 CT eq_refl); lia.
Qed.

Lemma t_evalL_unknown slv pinv mode shift n p1 b choice x : (3 < mode)%nat ->
  evalL slv pinv mode shift n p1 b choice x = LVals (fun _ => Some 0).
Proof.
  intros H. destruct mode as [|[|[|[|m]]]]; try lia. reflexivity.
Qed.

(** ** Shifting and scaling *)

Lemma maxfold_ge (g : nat -> R) l s : s <= fold_left (fun s i => Rmax s (g i)) l s.
Proof.
  revert s. induction l as [|a l IH]; intros s; cbn [fold_left]; [lra|].
  eapply Rle_trans; [apply (Rmax_l s (g a))|apply IH].
Qed.
Lemma maxfold_in (g : nat -> R) l s i : In i l -> g i <= fold_left (fun s i => Rmax s (g i)) l s.
Proof.
  revert s. induction l as [|a l IH]; intros s I; [contradiction|]. cbn [fold_left]. destruct I as [->|I].
  - eapply Rle_trans; [apply (Rmax_r s (g i))|apply maxfold_ge].
  - apply IH. exact I.
Qed.
Lemma maxfold_is (g : nat -> R) l s : fold_left (fun s i => Rmax s (g i)) l s = s \/
  exists i, In i l /\ fold_left (fun s i => Rmax s (g i)) l s = g i.
Proof.
  revert s. induction l as [|a l IH]; intros s; cbn [fold_left]; [left; reflexivity|].
  destruct (IH (Rmax s (g a))) as [E|(i & I & E)]; rewrite E.
  - unfold Rmax. destruct (Rle_dec s (g a)); [right; exists a; split; [left; reflexivity|reflexivity]|left; reflexivity].
  - right. exists i. split; [right; exact I|reflexivity].
Qed.

Lemma scaleY_zero n p1 Y : scaleY n p1 Y = 0 <-> forall j, (j < p1)%nat -> veq n (Y j) (Y 0%nat).
Proof.
  unfold scaleY. set (g := fun i => norm n (vsub (Y i) (Y 0%nat))).
  change (fold_left (fun s i => Rmax s (g i)) (seq 0 p1) 0 = 0 <-> forall j, (j < p1)%nat -> veq n (Y j) (Y 0%nat)).
  assert (Z : forall j, g j = 0 <-> veq n (Y j) (Y 0%nat)).
  { intros j. unfold g. rewrite norm_zero. split; intros H i Hi; specialize (H i Hi); unfold vsub, vzero in *; lra. }
  split.
  - intros E j Hj. apply Z. pose proof (maxfold_in g (seq 0 p1) 0 j) as M. rewrite E in M.
    assert (In j (seq 0 p1)) by (apply in_seq; lia). specialize (M H). pose proof (norm_nonneg n (vsub (Y j) (Y 0%nat))). fold (g j) in *.
    unfold g in *. lra.
  - intros H. destruct (maxfold_is g (seq 0 p1) 0) as [E|(i & I & E)]; [exact E|]. rewrite E. apply Z, H. apply in_seq in I. lia.
Qed.

Lemma scaleY_nonneg n p1 Y : 0 <= scaleY n p1 Y.
Proof. unfold scaleY. apply (maxfold_ge (fun i => norm n (vsub (Y i) (Y 0%nat)))). Qed.

Lemma t_build_fails qr ill cure mode shift n p1 Y : build qr ill cure mode shift n p1 Y = None <->
  shift = true /\ (1 < p1)%nat /\ forall j, (j < p1)%nat -> veq n (Y j) (Y 0%nat).
Proof.
  unfold build. rewrite <- (scaleY_zero n p1 Y). unfold shifts.
  destruct shift; cbn [andb].
  - destruct (Nat.ltb_spec 1 p1) as [L|L]; cbn [andb].
    + unfold Reqb. destruct (Req_EM_T (scaleY n p1 Y) 0) as [E|E]; [tauto|].
      destruct (to_factor _ _ _ _) as [[r c] Z]. destruct (qr r c _). split; [discriminate|tauto].
    + destruct (to_factor _ _ _ _) as [[r c] Z]. destruct (qr r c _). split; [discriminate|lia].
  - destruct (to_factor _ _ _ _) as [[r c] Z]. destruct (qr r c _). split; [discriminate|]. intros (A & _). discriminate.
Qed.

Lemma t_ball n p1 Y : (1 < p1)%nat -> ~ (forall j, (j < p1)%nat -> veq n (Y j) (Y 0%nat)) ->
  veq n (pts true n p1 Y 0) vzero /\
  (forall j, (j < p1)%nat -> norm n (pts true n p1 Y j) <= 1) /\
  (exists j, (j < p1)%nat /\ norm n (pts true n p1 Y j) = 1).
Proof.
  intros Hp NE. unfold pts, shifts. cbn [andb]. rewrite (proj2 (Nat.ltb_lt 1 p1) Hp).
  assert (NZ : scaleY n p1 Y <> 0) by (intros E; apply NE; apply scaleY_zero; exact E).
  pose proof (scaleY_nonneg n p1 Y) as NN. assert (PS : 0 < scaleY n p1 Y) by lra.
  assert (Nm : forall j, norm n (fun i => (Y j i - Y 0%nat i) / scaleY n p1 Y) = norm n (vsub (Y j) (Y 0%nat)) / scaleY n p1 Y).
  { intros j. rewrite (norm_ext n _ (vscal (/ scaleY n p1 Y) (vsub (Y j) (Y 0%nat)))).
    - rewrite norm_scal, Rabs_pos_eq; [unfold Rdiv; ring|]. apply Rlt_le, Rinv_0_lt_compat, PS.
    - intros i Hi. unfold vscal, vsub, Rdiv. ring. }
  split; [|split].
  - intros i Hi. unfold vzero. field. exact NZ.
  - intros j Hj. rewrite Nm. apply (Rmult_le_reg_r (scaleY n p1 Y)); [exact PS|]. unfold Rdiv. rewrite Rmult_assoc, Rinv_l by exact NZ.
    rewrite Rmult_1_l, Rmult_1_r. unfold scaleY. apply (maxfold_in (fun i => norm n (vsub (Y i) (Y 0%nat)))). apply in_seq. lia.
  - destruct (maxfold_is (fun i => norm n (vsub (Y i) (Y 0%nat))) (seq 0 p1) 0) as [E|(i & I & E)].
    + exfalso. apply NZ. exact E.
    + exists i. split; [apply in_seq in I; lia|]. rewrite Nm. unfold scaleY in *. rewrite E in *. field. exact NZ.
Qed.

Lemma scale_one n P q x : pdot (fun i => P i * 1) 0 (evalZ n q x) = pdot P 0 (evalZ n q x).
Proof. apply pdot_ext. intros. ring. Qed.

(** the scale vector fits the degrees of the monomials *)
Lemma t_scale qr ill cure mode shift n p1 Y b q P x : (1 <= n)%nat -> (1 <= q)%nat -> (q <= full n)%nat ->
  build qr ill cure mode shift n p1 Y = Some b ->
  value shift n q P b x = evalP n q (fun i => P i * b_scale b i) (vsub x (b_base b)).
Proof.
  intros Hn H1 H2 B. assert (E : b_base b = base shift p1 Y /\ b_scale b = scl shift n p1 Y).
  { unfold build in B. destruct (_ && _)%bool; [discriminate|]. destruct (to_factor _ _ _ _) as [[r c] Z]. destruct (qr r c _).
    inversion B; subst b. split; reflexivity. }
  destruct E as (E1 & E2). unfold value. rewrite E1, E2. unfold scl, base.
  destruct shift; cbn [shifts andb].
  - unfold shifts. cbn [andb]. destruct (1 <? p1)%nat.
    + rewrite evalP_shift_val by assumption. rewrite evalP_some by assumption. reflexivity.
    + unfold evalP_shift. rewrite !evalP_some by assumption. f_equal. rewrite scale_one. f_equal.
      apply evalZ_ext. intros i Hi. unfold vsub, vzero. ring.
  - rewrite !evalP_some by assumption. f_equal. rewrite scale_one. f_equal.
    apply evalZ_ext. intros i Hi. unfold vsub, vzero. ring.
Qed.
