(** The trust-region step with the solvers of the library. *)
From Coq Require Import Reals Lra Psatz Lia List Arith Bool.
From Verif Require Import RVec RBool Tri ProjGrad_Spec MS_Model MS_Spec BC_Model BC_Spec BC_More Hom_Model Hom_Spec Hom_Proofs Hom_Len Hom_Fin Hom_Val Hess_Model Null_Model
  CG_Model CG_Spec TR_Model TR_Spec TR_Proofs TR_Wit Step_Spec Step_Proofs Step_More Step_Wit Mult_Model Mult_Wit BL_Proofs Lib_Model Lib_Spec.
Import ListNotations.
Open Scope R_scope.

Lemma lib_bounds ms chol slv : keeps_bounds (restore_lib ms chol slv).
Proof.
  intros k g A l u D r m Z E. unfold restore_lib in E. destruct (t_refines ms chol slv k A l u g D) as (hom & EH).
  destruct (solve_bcx ms chol slv k A l u g D) as [[o|]|] eqn:S; try discriminate. injection E as <- _. symmetry in EH.
  exact (t_feasible _ _ _ _ _ _ _ _ _ Z EH).
Qed.

Lemma lib_convex eig k A : eig_convex eig -> possemidef k A -> cvx_lib eig k A = A.
Proof. intros EC P. unfold cvx_lib. destruct (eig k A) as [[neg d] V] eqn:E. rewrite (EC k A neg d V E P). reflexivity. Qed.

(** change of the length of the linearised constraints *)
Section Len.
Variables (n nsl : nat) (ce : list R) (ae : list vec) (sl w : vec).
Hypothesis LA : length ae = length ce.
Hypothesis LS : (nsl <= length ce)%nat.
Hypothesis W : forall i, (i < n)%nat -> 0 <= w i.
Notation len := (con_length n nsl ce ae sl w).
Notation row := (lin_row n nsl ce ae sl).

Lemma lin_affine z k : (k < length ce)%nat -> lin_con n nsl ce ae sl z k = lin_con n nsl ce ae sl vzero k + rsum (n + nsl) (fun j => row k j * z j).
Proof.
  intros K. pose proof (row_dot n nsl ce ae sl LA LS k z K) as E.
  rewrite (rsum_ext _ _ (fun j => nth k (gcon0 n nsl ce ae sl) vzero j * z j)) by (intros j J; rewrite (row_entry n nsl ce ae sl LA LS k j K J); reflexivity).
  change (rsum (n + nsl) (fun j => nth k (gcon0 n nsl ce ae sl) vzero j * z j)) with (dot (n + nsl) (nth k (gcon0 n nsl ce ae sl) vzero) z). lra.
Qed.

(** as a norm of one vector *)
Definition stack (z : vec) : vec := fun k => if (k <? length ce)%nat then lin_con n nsl ce ae sl z k else sqrt (w (k - length ce)%nat) * z (k - length ce)%nat.
Lemma len_stack z : len z = norm (length ce + n) (stack z).
Proof.
  unfold con_length, norm, dot. f_equal. rewrite rsum_split. f_equal; apply rsum_ext; intros i Hi; unfold stack.
  - rewrite (proj2 (Nat.ltb_lt _ _) Hi). ring.
  - destruct (Nat.ltb_spec (length ce + i) (length ce)); [lia|]. replace (length ce + i - length ce)%nat with i by lia.
    transitivity (sqrt (w i) * sqrt (w i) * z i ^ 2); [rewrite sqrt_sqrt by (apply W; exact Hi); ring|ring].
Qed.

Lemma abs_sum m (f : nat -> R) : Rabs (rsum m f) <= rsum m (fun i => Rabs (f i)).
Proof. induction m as [|m IH]; cbn; [rewrite Rabs_R0; lra|]. eapply Rle_trans; [apply Rabs_triang|]. lra. Qed.

Lemma len_lip a b r : 0 <= r -> (forall i, (i < n + nsl)%nat -> Rabs (a i - b i) <= r) -> len a <= len b + lin_size n nsl ce ae sl w * r.
Proof.
  intros R0 AB. rewrite !len_stack.
  assert (E : veq (length ce + n) (stack a) (vadd (stack b) (vsub (stack a) (stack b)))) by (intros i _; unfold vadd, vsub; ring).
  rewrite (norm_ext _ _ _ E). eapply Rle_trans; [apply norm_triangle|]. apply Rplus_le_compat_l.
  assert (WN : 0 <= rsum n w) by (apply rsum_nonneg; exact W).
  assert (SN : 0 <= rsum (length ce) (fun k => rsum (n + nsl) (fun j => Rabs (row k j)) ^ 2)) by (apply rsum_nonneg; intros; apply pow2_ge_0).
  unfold lin_size. rewrite <- (sqrt_square r R0) at 1. rewrite <- sqrt_mult by nra. unfold norm. apply sqrt_le_1_alt. unfold dot. rewrite rsum_split, Rmult_plus_distr_r.
  apply Rplus_le_compat.
  - rewrite <- rsum_scal_r. apply rsum_le. intros k K. unfold vsub, stack. rewrite (proj2 (Nat.ltb_lt _ _) K).
    rewrite (lin_affine a k K), (lin_affine b k K).
    replace (lin_con n nsl ce ae sl vzero k + rsum (n + nsl) (fun j => row k j * a j) - (lin_con n nsl ce ae sl vzero k + rsum (n + nsl) (fun j => row k j * b j)))
      with (rsum (n + nsl) (fun j => row k j * (a j - b j))).
    2:{ rewrite (rsum_ext _ (fun j => row k j * (a j - b j)) (fun j => row k j * a j - row k j * b j)) by (intros; ring). rewrite rsum_minus. ring. }
    assert (B : Rabs (rsum (n + nsl) (fun j => row k j * (a j - b j))) <= rsum (n + nsl) (fun j => Rabs (row k j)) * r).
    { eapply Rle_trans; [apply abs_sum|]. rewrite <- rsum_scal_r. apply rsum_le. intros j J. rewrite Rabs_mult. apply Rmult_le_compat_l; [apply Rabs_pos|apply AB; exact J]. }
    set (t := rsum (n + nsl) (fun j => row k j * (a j - b j))) in *. set (q := rsum (n + nsl) (fun j => Rabs (row k j))) in *.
    apply Rle_trans with (Rabs t * Rabs t); [rewrite <- Rabs_mult, Rabs_pos_eq by nra; lra|]. pose proof (Rabs_pos t). nra.
  - rewrite <- rsum_scal_r. apply rsum_le. intros i Hi. unfold vsub, stack. destruct (Nat.ltb_spec (length ce + i) (length ce)); [lia|]. replace (length ce + i - length ce)%nat with i by lia.
    replace ((sqrt (w i) * a i - sqrt (w i) * b i) * (sqrt (w i) * a i - sqrt (w i) * b i)) with (sqrt (w i) * sqrt (w i) * ((a i - b i) * (a i - b i))) by ring.
    rewrite sqrt_sqrt by (apply W; exact Hi). apply Rmult_le_compat_l; [apply W; exact Hi|].
    specialize (AB i ltac:(lia)). pose proof (Rabs_pos (a i - b i)). apply Rle_trans with (Rabs (a i - b i) * Rabs (a i - b i)); [rewrite <- Rabs_mult, Rabs_pos_eq by apply Rle_0_sqr; lra|apply Rmult_le_compat; assumption].
Qed.

(** it falls with the objective of the least-squares problem *)
Lemma len_down a b : qmodel (n + nsl) (lsq_grad n nsl ce ae sl) (lsq_mat n nsl ce ae sl w) a <= qmodel (n + nsl) (lsq_grad n nsl ce ae sl) (lsq_mat n nsl ce ae sl w) b -> len a <= len b.
Proof.
  intros L. unfold con_length. apply sqrt_le_1_alt. rewrite !(con_square n nsl ce ae sl w _ LA LS). unfold qmodel in L. lra.
Qed.
End Len.

Section Step.
Variable ms : nat -> nat -> vec -> mat -> R -> option ms_out.
Variable chol : nat -> mat -> option mat.
Variable slv : nat -> mat -> vec -> option vec.
Variable eig : nat -> mat -> bool * vec * mat.
Variable svd : nat -> nat -> mat -> vec * mat.
Variable pin : nat -> mat -> list nat -> vec -> option vec.
Variables (tol : R) (oinf : xR) (dxmin : R) (gi : vec) (n nsl : nat) (lb ub : nat -> xR) (thr : R) (M0 : mat) (ce : list R) (ae : list vec) (sl : vec) (fuel : nat) (x : vec) (delta : R) (g lm : vec).
Notation run := (step_lib ms chol slv eig svd pin tol oinf dxmin gi n nsl lb ub thr M0 ce ae sl fuel x delta g lm).
Notation dim := (n + nsl)%nat.

Lemma held_nonneg L w : (forall i, (i < n)%nat -> held_count lb ub x L w i) -> forall i, (i < n)%nat -> 0 <= w i.
Proof. intros HW i Hi. destruct (HW i Hi) as (p & q & -> & [[_ ->]|[_ ->]] & [[_ ->]|[_ ->]]); lra. Qed.

(** the call of the restoration solver *)
Lemma lib_call L w o : length ae = length ce -> (nsl <= length ce)%nat -> lag_grad n lb ub (length ce) ae x g lm L ->
  (forall i, (i < n)%nat -> held_count lb ub x L w i) -> eig_convex eig -> run = TrOut o ->
  exists r, tr_rpred o = con_length n nsl ce ae sl w vzero - con_length n nsl ce ae sl w r /\
    (r = vzero \/ exists h A z b, symmetric dim A /\ solve_bcx ms chol slv dim A (fun i => xsub (lb i) (z i)) (fun i => xsub (ub i) (z i)) h delta = Some (Some b) /\ bc_s b = r /\
      (forall i, (i < dim)%nat -> z i = both n x sl i) /\
      forall a c, qmodel dim h A a <= qmodel dim h A c -> con_length n nsl ce ae sl w a <= con_length n nsl ce ae sl w c).
Proof.
  intros LA LS HL HW EC E. pose proof (held_nonneg L w HW) as W.
  destruct (d_rpred _ _ _ _ _ _ _ _ _ _ _ _ _ _ _ _ _ _ _ L w o LA LS HL HW E) as (r & a & A1 & A2 & _).
  exists r. split; [exact A2|]. destruct A1 as [(_ & -> & _)|(_ & h & A & z & m & G1 & G2 & Z1 & Z2 & RE & _)]; [left; reflexivity|right].
  assert (PA : possemidef dim A).
  { intros y. rewrite (quad_ext_mat dim A (lsq_mat n nsl ce ae sl w) y); [apply lsq_psd; exact W|]. intros i j Hi Hj. apply G2; assumption. }
  rewrite (lib_convex eig dim A EC PA) in RE. unfold restore_lib in RE.
  destruct (solve_bcx ms chol slv dim A (fun i => xsub (lb i) (z i)) (fun i => xsub (ub i) (z i)) h delta) as [[b|]|] eqn:SB; try discriminate. injection RE as <- _.
  exists h, A, z, b. split.
  { intros i j Hi Hj. rewrite !G2 by assumption. unfold lsq_mat. rewrite (Nat.eqb_sym j i). destruct (Nat.eqb_spec i j) as [->|]; [reflexivity|]. f_equal. apply rsum_ext. intros; ring. }
  split; [exact SB|]. split; [reflexivity|]. split.
  - intros i Hi. unfold both. destruct (Nat.ltb_spec i n) as [Q|Q]; [apply Z1; exact Q|]. rewrite <- (Z2 (i - n)%nat). f_equal. lia.
  - intros p q Q. apply (len_down n nsl ce ae sl w LA LS).
    assert (EX : forall y, qmodel dim h A y = qmodel dim (lsq_grad n nsl ce ae sl) (lsq_mat n nsl ce ae sl w) y).
    { intros y. unfold qmodel. rewrite (dot_ext dim h _ y y G1 (fun i _ => eq_refl)), (quad_ext_mat dim A (lsq_mat n nsl ce ae sl w) y); [reflexivity|]. intros i j Hi Hj. apply G2; assumption. }
    rewrite <- !EX. exact Q.
Qed.

Lemma lib_inside L w o eps : length ae = length ce -> (nsl <= length ce)%nat -> lag_grad n lb ub (length ce) ae x g lm L ->
  (forall i, (i < n)%nat -> held_count lb ub x L w i) -> eig_convex eig -> ms_sound ms eps -> 0 <= eps -> 0 <= delta ->
  (forall i, (i < dim)%nat -> xle_r (lb i) (both n x sl i - (1 + eps) * delta) /\ rle_x (both n x sl i + (1 + eps) * delta) (ub i)) ->
  run = TrOut o -> 0 <= tr_rpred o.
Proof.
  intros LA LS HL HW EC MS E0 D0 IN E. destruct (lib_call L w o LA LS HL HW EC E) as (r & -> & [->|(h & A & z & b & SA & SB & <- & Z & LQ)]); [lra|].
  destruct (t_inside ms chol slv dim A (fun i => xsub (lb i) (z i)) (fun i => xsub (ub i) (z i)) h delta eps b SA MS E0 D0) as (Q & _); [|exact SB|].
  - intros i Hi. destruct (IN i Hi) as [I1 I2]. rewrite xsub_l, xsub_u, (Z i Hi). split; [exact I1|exact I2].
  - assert (Z0 : qmodel dim h A vzero = 0) by (unfold qmodel, quad; rewrite dot_zero_r, dot_zero_l; ring).
    pose proof (LQ (bc_s b) vzero ltac:(lra)). lra.
Qed.

Lemma lib_within : in_bounds n lb ub x -> (forall i, (i < nsl)%nat -> xle_r (lb (n + i)%nat) (sl i) /\ rle_x (sl i) (ub (n + i)%nat)) ->
  forall z, (forall i, (i < dim)%nat -> z i = both n x sl i) -> in_bounds dim (fun i => xsub (lb i) (z i)) (fun i => xsub (ub i) (z i)) vzero.
Proof.
  intros X SI z Z i Hi. rewrite xsub_l, xsub_u, (Z i Hi). unfold vzero. rewrite Rplus_0_r. unfold both.
  destruct (Nat.ltb_spec i n) as [Q|Q]; [exact (X i Q)|]. pose proof (SI (i - n)%nat ltac:(lia)) as P. replace (n + (i - n))%nat with i in P by lia. exact P.
Qed.

Lemma lib_predicted L w o eps : length ae = length ce -> (nsl <= length ce)%nat -> lag_grad n lb ub (length ce) ae x g lm L ->
  (forall i, (i < n)%nat -> held_count lb ub x L w i) -> (forall k, chol_exact k (chol k)) -> (forall k, slv_exact k (slv k)) ->
  eig_convex eig -> ms_sound ms eps -> 0 <= delta -> in_bounds n lb ub x ->
  (forall i, (i < nsl)%nat -> xle_r (lb (n + i)%nat) (sl i) /\ rle_x (sl i) (ub (n + i)%nat)) ->
  (forall i, (i < dim)%nat -> clear_by (1 / 10 ^ 10) (lb i) (ub i) (both n x sl i)) ->
  run = TrOut o -> - (INR dim * (lin_size n nsl ce ae sl w / 10 ^ 5)) <= tr_rpred o.
Proof.
  intros LA LS HL HW CE SE EC MS D0 X SI FAR E. pose proof (held_nonneg L w HW) as W.
  assert (K0 : 0 <= lin_size n nsl ce ae sl w) by apply sqrt_pos.
  destruct (lib_call L w o LA LS HL HW EC E) as (r & -> & [->|(h & A & z & b & SA & SB & <- & Z & LQ)]).
  { assert (0 < / 10 ^ 5) by (apply Rinv_0_lt_compat, pow_lt; lra). pose proof (pos_INR dim). unfold Rdiv. nra. }
  assert (FZ : forall i, (i < dim)%nat -> ~ rle_x (-1 / 10 ^ 10) (xsub (lb i) (z i)) /\ ~ xle_r (xsub (ub i) (z i)) (1 / 10 ^ 10)).
  { intros i Hi. destruct (FAR i Hi) as [F1 F2]. rewrite xsub_l, xsub_u, (Z i Hi).
    replace (both n x sl i + -1 / 10 ^ 10) with (both n x sl i - 1 / 10 ^ 10) by (unfold Rdiv; ring). split; assumption. }
  pose proof (t_value ms chol slv dim A (fun i => xsub (lb i) (z i)) (fun i => xsub (ub i) (z i)) h delta eps CE SE SA (lib_within X SI z Z) MS D0 FZ (con_length n nsl ce ae sl w) (lin_size n nsl ce ae sl w) K0 LQ
    (len_lip n nsl ce ae sl w LA LS W) b SB) as V. unfold Rdiv. lra.
Qed.
End Step.
