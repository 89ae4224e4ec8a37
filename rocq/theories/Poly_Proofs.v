(** Lemmas about the polynomial routines. *)
From Coq Require Import Reals Lra Lia List Arith ZifyBool.
From Verif Require Import RVec Poly_Model Poly_Spec.
Import ListNotations.
Open Scope R_scope.

(** split every [if] of the goal, close by linear arithmetic *)
Ltac ifs := repeat match goal with |- context [if ?c then _ else _] => destruct c eqn:? end; try lra; exfalso; lia.

Fixpoint tri (n : nat) : nat := match n with O => O | S k => (k + tri k)%nat end.

(** number of off-diagonal pairs in dimension [n] *)
Lemma full_tri n : full n = (2 * n + 1 + tri n)%nat.
Proof.
  unfold full.
  assert (H : (2 * tri n + n = n * n)%nat) by (induction n as [|n IH]; simpl in *; nia).
  replace ((n + 1) * (n + 2))%nat with ((2 * n + 1 + tri n) * 2)%nat by nia.
  apply Nat.div_mul. lia.
Qed.

Lemma pdot_app P k l1 l2 : pdot P k (l1 ++ l2) = pdot P k l1 + pdot P (k + length l1) l2.
Proof.
  revert k. induction l1 as [|z l1 IH]; intros k; simpl.
  - rewrite Nat.add_0_r. lra.
  - rewrite IH. replace (S k + length l1)%nat with (k + S (length l1))%nat by lia. lra.
Qed.

Lemma pdot_map P k f a m :
  pdot P k (map f (seq a m)) = rsum m (fun j => P (k + j)%nat * f (a + j)%nat).
Proof.
  revert k a. induction m as [|m IH]; intros k a; [reflexivity|].
  rewrite rsum_S_first. simpl. rewrite IH, !Nat.add_0_r. f_equal.
  apply rsum_ext. intros i Hi.
  replace (S k + i)%nat with (k + S i)%nat by lia.
  replace (S a + i)%nat with (a + S i)%nat by lia. reflexivity.
Qed.

Lemma pdot_ext P Q k l : (forall i, (k <= i < k + length l)%nat -> P i = Q i) -> pdot P k l = pdot Q k l.
Proof.
  revert k. induction l as [|z l IH]; intros k H; simpl; [reflexivity|].
  rewrite (H k) by (simpl; lia). rewrite IH; [reflexivity|].
  intros i Hi. apply H. simpl. lia.
Qed.

(** ** Number of monomials *)

Lemma evalZ_sub_length x n a nquad :
  (n - a >= 0)%nat -> (nquad <= tri (n - a))%nat -> (a < n)%nat ->
  length (evalZ_sub x n (seq (S a) (n - S a)) nquad) = nquad.
Proof.
  remember (n - S a)%nat as m eqn:Em. revert a nquad Em.
  induction m as [|m IH]; intros a nquad Em _ Hq Ha.
  - assert (E : (n - a = 1)%nat) by lia. rewrite E in Hq. simpl in *. lia.
  - cbn [seq evalZ_sub]. rewrite app_length, map_length, seq_length.
    assert (E : (n - a = S (S m))%nat) by lia. rewrite E in Hq.
    replace (tri (S (S m))) with (S m + tri (S m))%nat in Hq by reflexivity.
    replace (n - S a)%nat with (S m) by lia.
    destruct (Nat.eqb_spec (nquad - Nat.min (S m) nquad) 0) as [E0|E0].
    + cbn [length]. lia.
    + rewrite IH; try lia.
      replace (n - S a)%nat with (S m) by lia. lia.
Qed.

Lemma evalZ_length n q x : (1 <= q)%nat -> (q <= full n)%nat -> length (evalZ n q x) = q.
Proof.
  intros H1 H2. rewrite full_tri in H2. unfold evalZ.
  destruct (Nat.eqb_spec q 1) as [E|E]; [simpl; lia|].
  destruct (Nat.leb_spec q (n + 1)) as [L|L].
  - simpl. rewrite map_length, seq_length. lia.
  - cbn [length]. rewrite !app_length, !map_length, !seq_length.
    destruct (Nat.ltb_spec 0 (q - Nat.min (n + 1) q - Nat.min n (q - Nat.min (n + 1) q))) as [P|P].
    + destruct n as [|n]; [simpl in *; lia|].
      rewrite (evalZ_sub_length x (S n) 0); try lia.
      replace (S n - 0)%nat with (S n) by lia. lia.
    + simpl. lia.
Qed.

(** ** The second-order expansion, sub-diagonal part *)

(** One sub-diagonal block: [sum_j P(k+j) x_{c+j} x_j], [c = i+1]. *)
Definition block (P : nat -> R) (k c nsd : nat) (x : vec) : R :=
  rsum nsd (fun j => P (k + j)%nat * (x (c + j)%nat * x j)).

Definition gblock (P : nat -> R) (k c nsd : nat) (x : vec) : vec := fun t =>
  (if ((c <=? t) && (t <? c + nsd))%nat%bool then P (k + (t - c))%nat * x (t - c)%nat else 0) +
  (if ((0 <=? t) && (t <? 0 + nsd))%nat%bool then P (k + t)%nat * x (c + t)%nat else 0).

Lemma block_taylor n P k c nsd x h :
  (c + nsd <= n)%nat ->
  block P k c nsd (vadd x h)
  = block P k c nsd x + dot n (gblock P k c nsd x) h + block P k c nsd h.
Proof.
  intros Hc. unfold dot, gblock.
  rewrite (rsum_ext n _ (fun t =>
    (if ((c <=? t) && (t <? c + nsd))%nat%bool then P (k + (t - c))%nat * x (t - c)%nat * h t else 0) +
    (if ((0 <=? t) && (t <? 0 + nsd))%nat%bool then P (k + t)%nat * x (c + t)%nat * h t else 0))).
  2:{ intros i Hi. destruct (_ && _)%bool; destruct (_ && _)%bool; lra. }
  rewrite rsum_plus, !rsum_window by lia.
  unfold block. rewrite <- !rsum_plus. apply rsum_ext. intros j Hj.
  replace (c + j - c)%nat with j by lia. simpl (0 + j)%nat.
  unfold vadd. ring.
Qed.

Lemma gradP_sub_add P x n is k nquad g t :
  gradP_sub P x n is k nquad g t = g t + gradP_sub P x n is k nquad vzero t.
Proof.
  revert k nquad g. induction is as [|i is IH]; intros k nquad g.
  - cbn [gradP_sub]. unfold vzero. lra.
  - cbn [gradP_sub]. destruct (_ =? 0)%nat.
    + unfold vzero. destruct (_ && _)%bool; destruct (_ && _)%bool; lra.
    + rewrite IH. symmetry. rewrite IH. unfold vzero.
      destruct (_ && _)%bool; destruct (_ && _)%bool; lra.
Qed.

(** The whole sub-diagonal part of the value, gradient as accumulated. *)
Lemma sub_value_grad P x h n a m k nquad :
  (a + m <= n - 1)%nat -> (1 <= n)%nat -> (0 < nquad)%nat ->
  pdot P k (evalZ_sub (vadd x h) n (seq (S a) m) nquad)
  = pdot P k (evalZ_sub x n (seq (S a) m) nquad)
    + dot n (gradP_sub P x n (seq a m) k nquad vzero) h
    + pdot P k (evalZ_sub h n (seq (S a) m) nquad).
Proof.
  revert a k nquad. induction m as [|m IH]; intros a k nquad Ha Hn Hq.
  - cbn [seq evalZ_sub gradP_sub pdot]. rewrite dot_zero_l. lra.
  - cbn [seq evalZ_sub gradP_sub]. rewrite !pdot_app, !pdot_map, !map_length, !seq_length.
    replace (n - a - 1)%nat with (n - S a)%nat by lia.
    set (nsd := Nat.min (n - S a) nquad).
    pose proof (block_taylor n P k (S a) nsd x h ltac:(unfold nsd; lia)) as HB.
    unfold block in HB.
    assert (E0 : forall z : vec, rsum nsd (fun j => P (k + j)%nat * (z (S a + (0 + j))%nat * z (0 + j)%nat))
                 = rsum nsd (fun j => P (k + j)%nat * (z (S a + j)%nat * z j))) by reflexivity.
    rewrite (E0 (vadd x h)), (E0 x), (E0 h), HB.
    destruct (Nat.eqb_spec (nquad - nsd) 0) as [E|E].
    + cbn [pdot].
      replace (dot n (gblock P k (S a) nsd x) h) with (dot n
        (fun t => if ((0 <=? t) && (t <? 0 + nsd))%nat%bool
          then (if ((a + 1 <=? t) && (t <? a + 1 + nsd))%nat%bool
                then vzero t + P (k + (t - (a + 1)))%nat * x (t - (a + 1))%nat else vzero t)
               + P (k + t)%nat * x (a + 1 + t)%nat
          else if ((a + 1 <=? t) && (t <? a + 1 + nsd))%nat%bool
               then vzero t + P (k + (t - (a + 1)))%nat * x (t - (a + 1))%nat else vzero t) h).
      * lra.
      * apply rsum_ext. intros t Ht. unfold gblock, vzero.
        replace (a + 1)%nat with (S a) by lia.
        destruct (_ && _)%bool; destruct (_ && _)%bool; lra.
    + rewrite IH; try lia.
      assert (EG : forall t,
        gradP_sub P x n (seq (S a) m) (k + nsd) (nquad - nsd)
          (fun t => if ((0 <=? t) && (t <? 0 + nsd))%nat%bool
          then (if ((a + 1 <=? t) && (t <? a + 1 + nsd))%nat%bool
                then vzero t + P (k + (t - (a + 1)))%nat * x (t - (a + 1))%nat else vzero t)
               + P (k + t)%nat * x (a + 1 + t)%nat
          else if ((a + 1 <=? t) && (t <? a + 1 + nsd))%nat%bool
               then vzero t + P (k + (t - (a + 1)))%nat * x (t - (a + 1))%nat else vzero t) t
        = vadd (gblock P k (S a) nsd x)
            (gradP_sub P x n (seq (S a) m) (k + nsd) (nquad - nsd) vzero) t).
      { intros t. rewrite gradP_sub_add. unfold vadd, gblock. f_equal. unfold vzero.
        replace (a + 1)%nat with (S a) by lia.
        destruct (_ && _)%bool; destruct (_ && _)%bool; lra. }
      rewrite (dot_ext n _ _ h h (fun t _ => EG t) (fun t _ => eq_refl)).
      rewrite dot_add_l. lra.
Qed.

(** ** The Hessian *)

(** Writing one pair of diagonals. *)
Lemma hessP_row_spec P i k js H a b :
  NoDup js ->
  hessP_row P i k js H a b =
    if (existsb (fun j => ((a =? i + j + 1) && (b =? j)) || ((a =? j) && (b =? i + j + 1)))%nat%bool js)
    then P (k + Nat.min a b)%nat else H a b.
Proof.
  revert H. induction js as [|j js IH]; intros H ND; [reflexivity|].
  inversion ND as [|? ? Hj ND']; subst.
  cbn [hessP_row existsb]. rewrite IH by exact ND'.
  destruct (existsb _ js) eqn:E.
  - rewrite Bool.orb_true_r. reflexivity.
  - rewrite Bool.orb_false_r.
    destruct (Nat.eqb_spec a (i + j + 1)); destruct (Nat.eqb_spec b j);
      destruct (Nat.eqb_spec a j); destruct (Nat.eqb_spec b (i + j + 1)); cbn [andb orb];
      try reflexivity; try (exfalso; lia);
      match goal with |- P ?u = P ?v => replace v with u by lia; reflexivity end.
Qed.

Lemma row_exists_spec i nsd a b :
  existsb (fun j => ((a =? i + j + 1) && (b =? j)) || ((a =? j) && (b =? i + j + 1)))%nat%bool (seq 0 nsd) = true
  <-> ((a = b + (i + 1) /\ b < nsd) \/ (b = a + (i + 1) /\ a < nsd))%nat.
Proof.
  rewrite existsb_exists. split.
  - intros [j [Hj He]]. apply in_seq in Hj.
    destruct (Nat.eqb_spec a (i + j + 1)); destruct (Nat.eqb_spec b j);
      destruct (Nat.eqb_spec a j); destruct (Nat.eqb_spec b (i + j + 1)); simpl in He; try discriminate; lia.
  - intros [[E L]|[E L]].
    + exists b. split; [apply in_seq; lia|].
      destruct (Nat.eqb_spec a (i + b + 1)); destruct (Nat.eqb_spec b b); simpl; try reflexivity; lia.
    + exists a. split; [apply in_seq; lia|].
      destruct (Nat.eqb_spec b (i + a + 1)); destruct (Nat.eqb_spec a a); simpl;
        try (rewrite Bool.orb_true_r; reflexivity); lia.
Qed.

Lemma hessP_row_sym P i k nsd H a b :
  (forall a b, H a b = H b a) ->
  hessP_row P i k (seq 0 nsd) H a b = hessP_row P i k (seq 0 nsd) H b a.
Proof.
  intros HS. rewrite !hessP_row_spec by apply seq_NoDup.
  destruct (existsb _ (seq 0 nsd)) eqn:E1.
  - apply row_exists_spec in E1.
    assert (E2 : existsb (fun j => ((b =? i + j + 1) && (a =? j)) || ((b =? j) && (a =? i + j + 1)))%nat%bool (seq 0 nsd) = true).
    { apply row_exists_spec. lia. }
    rewrite E2. rewrite Nat.min_comm. reflexivity.
  - destruct (existsb (fun j => ((b =? i + j + 1) && (a =? j)) || ((b =? j) && (a =? i + j + 1)))%nat%bool (seq 0 nsd)) eqn:E2.
    + apply row_exists_spec in E2. assert (E3 : existsb (fun j => ((a =? i + j + 1) && (b =? j)) || ((a =? j) && (b =? i + j + 1)))%nat%bool (seq 0 nsd) = true).
      { apply row_exists_spec. lia. } rewrite E3 in E1. discriminate.
    + apply HS.
Qed.

Lemma hessP_sub_sym P n is k nquad H a b :
  (forall a b, H a b = H b a) ->
  hessP_sub P n is k nquad H a b = hessP_sub P n is k nquad H b a.
Proof.
  revert k nquad H. induction is as [|i is IH]; intros k nquad H HS; cbn [hessP_sub]; [apply HS|].
  destruct (_ =? 0)%nat.
  - apply hessP_row_sym, HS.
  - apply IH. intros. apply hessP_row_sym, HS.
Qed.

Lemma hessP_sym n p1 P a b : hessP n p1 P a b = hessP n p1 P b a.
Proof.
  unfold hessP. destruct (_ <? _)%nat; [|reflexivity].
  assert (HS : forall m a b, (fun a b : nat => if (a =? b)%nat then (if (a <? m)%nat then P (n + 1 + a)%nat else 0) else 0) a b =
     (fun a b : nat => if (a =? b)%nat then (if (a <? m)%nat then P (n + 1 + a)%nat else 0) else 0) b a).
  { intros m a' b'. cbn beta. rewrite (Nat.eqb_sym b' a'). destruct (Nat.eqb_spec a' b'); [subst|]; reflexivity. }
  destruct (_ <? _)%nat.
  - apply hessP_sub_sym. intros. apply HS.
  - apply HS.
Qed.

(** Quadratic form of one written pair of diagonals. *)
Lemma quad_sum n (A B : mat) h :
  quad n (fun a b => A a b + B a b) h = quad n A h + quad n B h.
Proof.
  unfold quad. rewrite <- dot_add_r. apply rsum_ext. intros i Hi. f_equal.
  unfold mv, vadd. rewrite <- rsum_plus. apply rsum_ext. intros. lra.
Qed.

Lemma quad_lower n k c nsd P h :
  (c + nsd <= n)%nat ->
  quad n (fun a b => if ((c <=? a) && (a <? c + nsd) && (b =? a - c))%nat%bool then P (k + b)%nat else 0) h
  = block P k c nsd h.
Proof.
  intros Hc. unfold quad, dot, mv.
  rewrite (rsum_ext n _ (fun a => if ((c <=? a) && (a <? c + nsd))%nat%bool then P (k + (a - c))%nat * (h a * h (a - c)%nat) else 0)).
  - rewrite rsum_window by exact Hc. apply rsum_ext. intros j Hj.
    replace (c + j - c)%nat with j by lia. reflexivity.
  - intros a Ha. destruct ((c <=? a) && (a <? c + nsd))%nat%bool eqn:E.
    + rewrite (rsum_single n (a - c)%nat); [|lia|].
      * rewrite Nat.eqb_refl. cbn [andb]. ring.
      * intros b Hb Hne. destruct (Nat.eqb_spec b (a - c)); [congruence|]. cbn [andb]. lra.
    + rewrite rsum_zero; [lra|]. intros. cbn [andb]. lra.
Qed.

Lemma quad_transpose n A h : quad n (fun a b => A b a) h = quad n A h.
Proof.
  unfold quad, dot, mv.
  rewrite (rsum_ext n _ (fun i => rsum n (fun j => h i * (A j i * h j)))).
  2:{ intros i Hi. rewrite rsum_scal. reflexivity. }
  rewrite rsum_swap. apply rsum_ext. intros j Hj. rewrite <- rsum_scal. apply rsum_ext. intros. ring.
Qed.

Lemma quad_row n P i k nsd H h :
  (i + 1 + nsd <= n)%nat ->
  (forall a b, (a >= b + (i + 1) \/ b >= a + (i + 1))%nat -> H a b = 0) ->
  quad n (hessP_row P i k (seq 0 nsd) H) h = quad n H h + 2 * block P k (i + 1) nsd h.
Proof.
  intros Hn HZ.
  rewrite <- (quad_lower n k (i + 1) nsd P h Hn).
  set (L := fun a b => if ((i + 1 <=? a) && (a <? i + 1 + nsd) && (b =? a - (i + 1)))%nat%bool then P (k + b)%nat else 0).
  replace (quad n H h + 2 * quad n L h) with (quad n H h + (quad n L h + quad n (fun a b => L b a) h))
    by (rewrite (quad_transpose n L h); lra).
  rewrite <- quad_sum, <- quad_sum. apply quad_ext_mat. intros a b Ha Hb.
  rewrite hessP_row_spec by apply seq_NoDup. unfold L.
  destruct (existsb _ _) eqn:E.
  - apply row_exists_spec in E. rewrite HZ by lia. destruct E as [[E1 E2]|[E1 E2]].
    + replace (Nat.min a b) with b by lia. ifs.
    + replace (Nat.min a b) with a by lia. ifs.
  - assert (E1 : ~ ((a = b + (i + 1) /\ b < nsd) \/ (b = a + (i + 1) /\ a < nsd))%nat).
    { intros C. apply row_exists_spec in C. rewrite C in E. discriminate. }
    ifs.
Qed.

Lemma quad_hess_sub P n a m k nquad H h :
  (a + m <= n - 1)%nat -> (1 <= n)%nat -> (0 < nquad)%nat ->
  (forall u v, (u >= v + (a + 1) \/ v >= u + (a + 1))%nat -> H u v = 0) ->
  quad n (hessP_sub P n (seq a m) k nquad H) h
  = quad n H h + 2 * pdot P k (evalZ_sub h n (seq (S a) m) nquad).
Proof.
  revert a k nquad H. induction m as [|m IH]; intros a k nquad H Ha Hn Hq HZ.
  - cbn [seq hessP_sub evalZ_sub pdot]. lra.
  - cbn [seq hessP_sub evalZ_sub]. rewrite pdot_app, pdot_map, map_length, seq_length.
    replace (n - a - 1)%nat with (n - S a)%nat by lia.
    set (nsd := Nat.min (n - S a) nquad).
    assert (EB : rsum nsd (fun j => P (k + j)%nat * (h (S a + (0 + j))%nat * h (0 + j)%nat)) = block P k (a + 1) nsd h).
    { unfold block. apply rsum_ext. intros. replace (a + 1)%nat with (S a) by lia. reflexivity. }
    rewrite EB.
    assert (HR : quad n (hessP_row P a k (seq 0 nsd) H) h = quad n H h + 2 * block P k (a + 1) nsd h).
    { apply quad_row; [unfold nsd; lia|exact HZ]. }
    destruct (Nat.eqb_spec (nquad - nsd) 0) as [E|E].
    + cbn [pdot]. rewrite HR. lra.
    + rewrite IH; try lia.
      2:{ intros u v Huv. rewrite hessP_row_spec by apply seq_NoDup.
          destruct (existsb _ _) eqn:Ex.
          - apply row_exists_spec in Ex. lia.
          - apply HZ. lia. }
      rewrite HR. lra.
Qed.

Lemma quad_diag n m c P h : (m <= n)%nat ->
  quad n (fun a b => if (a =? b)%nat then (if (a <? m)%nat then P (c + a)%nat else 0) else 0) h
  = rsum m (fun j => P (c + j)%nat * (h j * h j)).
Proof.
  intros Hm. unfold quad, dot, mv.
  rewrite (rsum_ext n _ (fun a => if ((0 <=? a) && (a <? 0 + m))%nat%bool then P (c + a)%nat * (h a * h a) else 0)).
  - rewrite rsum_window by lia. reflexivity.
  - intros a Ha. rewrite (rsum_single n a); [|exact Ha|].
    + rewrite Nat.eqb_refl. cbn [Nat.leb andb Nat.add]. destruct (a <? m)%nat; lra.
    + intros b Hb Hne. destruct (Nat.eqb_spec a b); [congruence|lra].
Qed.

(** ** Second-order expansion of the whole polynomial *)

Lemma lin_part n m P x h : (m <= n)%nat ->
  rsum m (fun j => P (1 + j)%nat * vadd x h (0 + j)%nat)
  = rsum m (fun j => P (1 + j)%nat * x (0 + j)%nat)
    + dot n (fun t => if (t <? m)%nat then P (1 + t)%nat else 0) h.
Proof.
  intros Hm. unfold dot.
  rewrite (rsum_ext n _ (fun t => if ((0 <=? t) && (t <? 0 + m))%nat%bool then P (1 + t)%nat * h t else 0)).
  - rewrite rsum_window by lia. rewrite <- rsum_plus. apply rsum_ext. intros. unfold vadd. simpl. ring.
  - intros t Ht. cbn [Nat.leb andb Nat.add]. destruct (t <? m)%nat; lra.
Qed.

Lemma taylor_aux n q P x h :
  (1 <= q)%nat -> (q <= full n)%nat ->
  pdot P 0 (evalZ n q (vadd x h))
  = pdot P 0 (evalZ n q x) + dot n (gradP n q P x) h + / 2 * quad n (hessP n q P) h.
Proof.
  intros H1 H2. unfold evalZ, gradP, hessP.
  destruct (Nat.eqb_spec q 1) as [->|E].
  - replace (1 - n - 1)%nat with 0%nat by lia. change (0 <? 0)%nat with false. cbv iota.
    replace (Nat.min n (1 - 1)) with 0%nat by lia. cbn [pdot].
    rewrite (dot_ext n _ vzero h h).
    2:{ intros t Ht. reflexivity. }
    2:{ intros t Ht. reflexivity. }
    rewrite dot_zero_l.
    replace (quad n (fun _ _ => 0) h) with 0; [lra|].
    unfold quad, dot, mv. symmetry. apply rsum_zero. intros. rewrite rsum_zero; [lra|]. intros. lra.
  - destruct (Nat.leb_spec q (n + 1)) as [L|L].
    + replace (q - n - 1)%nat with 0%nat by lia. change (0 <? 0)%nat with false. cbv iota.
      replace (Nat.min (n + 1) q - 1)%nat with (q - 1)%nat by lia.
      replace (Nat.min n (q - 1)) with (q - 1)%nat by lia.
      cbn [pdot]. rewrite !pdot_map.
      rewrite (lin_part n (q - 1) P x h) by lia.
      replace (quad n (fun _ _ => 0) h) with 0; [lra|].
      unfold quad, dot, mv. symmetry. apply rsum_zero. intros. rewrite rsum_zero; [lra|]. intros. lra.
    + replace (Nat.min (n + 1) q) with (n + 1)%nat by lia.
      replace (Nat.min n (q - 1)) with n by lia.
      replace (q - n - 1)%nat with (q - (n + 1))%nat by lia.
      set (nq := (q - (n + 1))%nat).
      destruct (Nat.ltb_spec 0 nq) as [Hnq|Hnq]; [|unfold nq in Hnq; lia].
      rewrite (Nat.min_comm n nq). set (nd := Nat.min nq n).
      cbn [pdot]. rewrite !pdot_app, !pdot_map, !map_length, !seq_length.
      rewrite (lin_part n n P x h) by lia.
      assert (HD : rsum nd (fun j => P (1 + n + j)%nat * (/ 2 * (vadd x h (0 + j)%nat * vadd x h (0 + j)%nat)))
        = rsum nd (fun j => P (1 + n + j)%nat * (/ 2 * (x (0 + j)%nat * x (0 + j)%nat)))
          + dot n (fun t => if (t <? nd)%nat then P (n + 1 + t)%nat * x t else 0) h
          + / 2 * rsum nd (fun j => P (n + 1 + j)%nat * (h j * h j))).
      { unfold dot.
        rewrite (rsum_ext n _ (fun t => if ((0 <=? t) && (t <? 0 + nd))%nat%bool then P (n + 1 + t)%nat * x t * h t else 0)).
        - rewrite rsum_window by (unfold nd; lia). rewrite <- rsum_scal, <- !rsum_plus. apply rsum_ext. intros j Hj.
          replace (1 + n + j)%nat with (n + 1 + j)%nat by lia. unfold vadd. simpl (0 + j)%nat. field.
        - intros t Ht. cbn [Nat.leb andb Nat.add]. destruct (t <? nd)%nat; lra. }
      rewrite HD.
      assert (HG1 : forall g : vec, dot n (fun t => if (t <? nd)%nat then (if (t <? n)%nat then P (1 + t)%nat else 0) + P (n + 1 + t)%nat * x t else (if (t <? n)%nat then P (1 + t)%nat else 0)) h
         = dot n (fun t => if (t <? n)%nat then P (1 + t)%nat else 0) h
           + dot n (fun t => if (t <? nd)%nat then P (n + 1 + t)%nat * x t else 0) h).
      { intros _. rewrite <- dot_add_l. apply dot_ext; [|intros t Ht; reflexivity].
        intros t Ht. unfold vadd. destruct (t <? nd)%nat; lra. }
      destruct (Nat.ltb_spec 0 (nq - nd)) as [Hp|Hp].
      * assert (Hn1 : (1 <= n)%nat).
        { destruct n; [|lia]. rewrite full_tri in H2. simpl in H2. unfold nq in Hnq. lia. }
        replace (1 + n + nd)%nat with (2 * n + 1)%nat by (unfold nd in *; lia).
        rewrite (sub_value_grad P x h n 0 (n - 1) (2 * n + 1) (nq - nd)) by lia.
        rewrite (quad_hess_sub P n 0 (n - 1) (2 * n + 1) (nq - nd)); try lia.
        2:{ intros u v Huv. destruct (Nat.eqb_spec u v); [lia|reflexivity]. }
        rewrite (quad_diag n nd (n + 1) P h) by (unfold nd; lia).
        assert (HGS : forall g, dot n (gradP_sub P x n (seq 0 (n - 1)) (2 * n + 1) (nq - nd) g) h
          = dot n g h + dot n (gradP_sub P x n (seq 0 (n - 1)) (2 * n + 1) (nq - nd) vzero) h).
        { intros g. rewrite <- dot_add_l. apply dot_ext; [|intros t Ht; reflexivity].
          intros t Ht. apply gradP_sub_add. }
        symmetry. rewrite HGS, (HG1 vzero). simpl (1 + 0)%nat. lra.
      * cbn [pdot]. rewrite (HG1 vzero), (quad_diag n nd (n + 1) P h) by (unfold nd; lia). lra.
Qed.

(** ** Homogeneity: shifting and scaling *)

Lemma evalZ_sub_scale P c x n ks k nquad s :
  (forall i, (c <= i)%nat -> True) ->
  pdot P k (evalZ_sub (fun i => x i * s) n ks nquad)
  = pdot (fun i => P i * (s * s)) k (evalZ_sub x n ks nquad).
Proof.
  intros _. revert k nquad. induction ks as [|k0 ks IH]; intros k nquad; [reflexivity|].
  cbn [evalZ_sub]. rewrite !pdot_app, !pdot_map, !map_length, !seq_length. f_equal.
  - apply rsum_ext. intros. ring.
  - destruct (_ =? 0)%nat; [reflexivity|apply IH].
Qed.

Lemma evalZ_scale n q P x s :
  pdot P 0 (evalZ n q (fun i => x i * s)) = pdot (fun i => P i * scale_vec n s i) 0 (evalZ n q x).
Proof.
  unfold evalZ. destruct (Nat.eqb_spec q 1) as [->|E].
  - cbn. lra.
  - destruct (Nat.leb_spec q (n + 1)) as [L|L].
    + cbn [pdot]. rewrite !pdot_map. unfold scale_vec at 1. cbn [Nat.eqb].
      f_equal; [ring|]. apply rsum_ext. intros i Hi. unfold scale_vec.
      destruct (Nat.eqb_spec (1 + i) 0); [lia|]. destruct (Nat.leb_spec (1 + i) n); [ring|lia].
    + cbn [pdot]. rewrite !pdot_app, !pdot_map, !map_length, !seq_length.
      unfold scale_vec at 1. cbn [Nat.eqb]. f_equal; [ring|]. f_equal; [|f_equal].
      * apply rsum_ext. intros i Hi. unfold scale_vec.
        destruct (Nat.eqb_spec (1 + i) 0); [lia|]. destruct (Nat.leb_spec (1 + i) n); [ring|lia].
      * apply rsum_ext. intros i Hi. unfold scale_vec.
        destruct (Nat.eqb_spec (1 + n + i) 0); [lia|]. destruct (Nat.leb_spec (1 + n + i) n); [lia|ring].
      * destruct (_ <? _)%nat; [|reflexivity].
        rewrite (evalZ_sub_scale P 0 x n _ _ _ s) by trivial.
        apply pdot_ext. intros i Hi. unfold scale_vec.
        destruct (Nat.eqb_spec i 0); [lia|]. destruct (Nat.leb_spec i n); [lia|ring].
Qed.

(** ** Every quadratic function is representable *)

Fixpoint ldot (l1 l2 : list R) : R :=
  match l1, l2 with
  | a :: l1', b :: l2' => a * b + ldot l1' l2'
  | _, _ => 0
  end.

Lemma pdot_nth cs k l :
  length l = length cs -> pdot (fun i => nth (i - k) cs 0) k l = ldot cs l.
Proof.
  revert cs k. induction l as [|z l IH]; intros cs k Hl; destruct cs as [|c cs]; simpl in *; try lia; [reflexivity|].
  rewrite Nat.sub_diag. f_equal. rewrite <- (IH cs (S k)) by lia.
  apply pdot_ext. intros i Hi. replace (i - k)%nat with (S (i - S k)) by lia. reflexivity.
Qed.

Lemma ldot_app a1 b1 a2 b2 : length a1 = length b1 -> ldot (a1 ++ a2) (b1 ++ b2) = ldot a1 b1 + ldot a2 b2.
Proof.
  revert b1. induction a1 as [|x a1 IH]; intros b1 H; destruct b1; simpl in *; try lia; [lra|].
  rewrite IH by lia. lra.
Qed.

Lemma ldot_map f g m a : ldot (map f (seq a m)) (map g (seq a m)) = rsum m (fun j => f (a + j)%nat * g (a + j)%nat).
Proof.
  revert a. induction m as [|m IH]; intros a; [reflexivity|].
  rewrite rsum_S_first. simpl. rewrite IH, Nat.add_0_r. f_equal. apply rsum_ext. intros.
  replace (S a + i)%nat with (a + S i)%nat by lia. reflexivity.
Qed.

(** coefficients of the off-diagonal entries in the order of the basis *)
Fixpoint coefs_sub (A : mat) (n : nat) (ks : list nat) : list R :=
  match ks with
  | [] => []
  | k :: ks' => map (fun i => A (k + i)%nat i) (seq 0 (n - k)) ++ coefs_sub A n ks'
  end.

Definition coefs (n : nat) (c : R) (b : vec) (A : mat) : list R :=
  c :: map b (seq 0 n) ++ map (fun i => A i i) (seq 0 n) ++ coefs_sub A n (seq 1 (n - 1)).

Lemma tri_pos m : (2 <= m)%nat -> (0 < tri m)%nat.
Proof. destruct m as [|[|m]]; simpl; lia. Qed.

(** [sum_{i,j} A_ij x_i x_j] by diagonals *)
Fixpoint diagsum (A : mat) (n : nat) (ks : list nat) (x : vec) : R :=
  match ks with
  | [] => 0
  | k :: ks' => rsum (n - k) (fun j => A (k + j)%nat j * (x (k + j)%nat * x j)) + diagsum A n ks' x
  end.

Lemma coefs_sub_dot A n x a : (a < n)%nat ->
  ldot (coefs_sub A n (seq (S a) (n - S a))) (evalZ_sub x n (seq (S a) (n - S a)) (tri (n - a)))
  = diagsum A n (seq (S a) (n - S a)) x /\
  length (coefs_sub A n (seq (S a) (n - S a))) = tri (n - a).
Proof.
  remember (n - S a)%nat as m eqn:Em. revert a Em. induction m as [|m IH]; intros a Em Ha.
  - assert (E : (n - a = 1)%nat) by lia. rewrite E. split; reflexivity.
  - assert (E : (n - a = S (S m))%nat) by lia. rewrite E.
    change (tri (S (S m))) with (S m + tri (S m))%nat.
    cbn [seq coefs_sub evalZ_sub diagsum].
    replace (n - S a)%nat with (S m) by lia.
    replace (Nat.min (S m) (S m + tri (S m))) with (S m) by lia.
    replace (S m + tri (S m) - S m)%nat with (tri (S m)) by lia.
    destruct (IH (S a)) as [I1 I2]; try lia.
    replace (n - S a)%nat with (S m) in I1, I2 by lia.
    rewrite app_length, map_length, seq_length, I2. split; [|reflexivity].
    rewrite ldot_app by (rewrite !map_length; reflexivity). rewrite ldot_map.
    f_equal.
    destruct (Nat.eqb_spec (tri (S m)) 0) as [Z|Z].
    + destruct m as [|m]; [|pose proof (tri_pos (S (S m))); lia]. simpl. reflexivity.
    + exact I1.
Qed.

(** A quadratic form is its diagonal plus twice the sum of sub-diagonals. *)
Lemma quad_by_diagonals n A x : symmetric n A -> (1 <= n)%nat ->
  quad n A x = rsum n (fun i => A i i * (x i * x i)) + 2 * diagsum A n (seq 1 (n - 1)) x.
Proof.
  intros HA Hn.
  assert (HW : forall a m, (a + m <= n - 1)%nat ->
    quad n (fun u v => if ((a + 1 <=? u - v) && (u - v <? a + 1 + m) || (a + 1 <=? v - u) && (v - u <? a + 1 + m))%nat%bool then A u v else 0) x
    = 2 * diagsum A n (seq (S a) m) x).
  { intros a m. revert a. induction m as [|m IH]; intros a Ha.
    - cbn [seq diagsum]. replace (2 * 0) with 0 by lra. unfold quad, dot, mv. apply rsum_zero. intros i Hi.
      rewrite rsum_zero; [lra|]. intros j Hj.
      destruct (Nat.leb_spec (a + 1) (i - j)); destruct (Nat.ltb_spec (i - j) (a + 1 + 0));
      destruct (Nat.leb_spec (a + 1) (j - i)); destruct (Nat.ltb_spec (j - i) (a + 1 + 0)); simpl; try lra; lia.
    - cbn [seq diagsum].
      set (L := fun u v : nat => if ((S a <=? u) && (u <? S a + (n - S a)) && (v =? u - S a))%nat%bool then A (S a + v)%nat v else 0).
      assert (HLq : quad n L x = rsum (n - S a) (fun j => A (S a + j)%nat j * (x (S a + j)%nat * x j))).
      { apply (quad_lower n 0 (S a) (n - S a) (fun v => A (S a + v)%nat v) x). lia. }
      rewrite Rmult_plus_distr_l, <- IH, <- HLq by lia.
      replace (2 * quad n L x) with (quad n L x + quad n (fun u v => L v u) x) by (rewrite (quad_transpose n L x); lra).
      rewrite <- !quad_sum. apply quad_ext_mat. intros u v Hu Hv. unfold L.
      destruct (Nat.eq_dec u (v + S a)) as [Euv|Euv].
      + subst u. replace (S a + v)%nat with (v + S a)%nat by lia. ifs.
      + destruct (Nat.eq_dec v (u + S a)) as [Evu|Evu].
        * subst v. replace (S a + u)%nat with (u + S a)%nat by lia. rewrite (HA u (u + S a)%nat) by lia. ifs.
        * replace ((S a <=? u) && (u <? S a + (n - S a)) && (v =? u - S a))%nat%bool with false by lia.
          replace ((S a <=? v) && (v <? S a + (n - S a)) && (u =? v - S a))%nat%bool with false by lia.
          replace ((a + 1 <=? u - v) && (u - v <? a + 1 + S m) || (a + 1 <=? v - u) && (v - u <? a + 1 + S m))%nat%bool
            with ((S a + 1 <=? u - v) && (u - v <? S a + 1 + m) || (S a + 1 <=? v - u) && (v - u <? S a + 1 + m))%nat%bool by lia.
          lra. }
  specialize (HW 0%nat (n - 1)%nat ltac:(lia)). cbn [Nat.add] in HW. rewrite <- HW.
  pose proof (quad_diag n n 0 (fun i => A i i) x ltac:(lia)) as HD. cbn [Nat.add] in HD.
  rewrite <- HD.
  rewrite <- quad_sum. apply quad_ext_mat. intros u v Hu Hv. cbn [Nat.add].
  destruct (Nat.eqb_spec u v) as [->|Hne].
  - rewrite !Nat.sub_diag. destruct (Nat.ltb_spec v n); [|lia].
    destruct (Nat.leb_spec 1 0); [lia|]. cbn [andb orb]. lra.
  - destruct (Nat.leb_spec 1 (u - v)); destruct (Nat.ltb_spec (u - v) (S (n - 1)));
    destruct (Nat.leb_spec 1 (v - u)); destruct (Nat.ltb_spec (v - u) (S (n - 1))); try lia; cbn [andb orb]; lra.
Qed.

Lemma represent n c b A x : symmetric n A -> (1 <= n)%nat ->
  evalP n (full n) (fun i => nth i (coefs n c b A) 0) x = Some (c + dot n b x + / 2 * quad n A x).
Proof.
  intros HA Hn. unfold evalP. pose proof (full_tri n) as HF.
  rewrite evalZ_length by lia. rewrite Nat.eqb_refl. f_equal.
  destruct (coefs_sub_dot A n x 0) as [C1 C2]; [lia|].
  replace (n - 0)%nat with n in C1, C2 by lia.
  assert (HL : length (coefs n c b A) = full n).
  { unfold coefs. cbn [length]. rewrite !app_length, !map_length, !seq_length, C2. lia. }
  rewrite (pdot_ext _ (fun i => nth (i - 0) (coefs n c b A) 0)).
  2:{ intros i Hi. rewrite Nat.sub_0_r. reflexivity. }
  rewrite pdot_nth by (rewrite HL; apply evalZ_length; lia).
  rewrite quad_by_diagonals by assumption.
  unfold evalZ, coefs.
  destruct (Nat.eqb_spec (full n) 1) as [E|E]; [lia|].
  destruct (Nat.leb_spec (full n) (n + 1)) as [L|L]; [lia|].
  replace (Nat.min (n + 1) (full n)) with (n + 1)%nat by lia.
  replace (Nat.min n (full n - (n + 1))) with n by lia.
  replace (full n - (n + 1) - n)%nat with (tri n) by lia.
  cbn [ldot]. rewrite !ldot_app by (rewrite !map_length; reflexivity). rewrite !ldot_map.
  assert (HS : ldot (coefs_sub A n (seq 1 (n - 1))) (if (0 <? tri n)%nat then evalZ_sub x n (seq 1 (n - 1)) (tri n) else [])
     = diagsum A n (seq 1 (n - 1)) x).
  { rewrite <- C1. destruct (Nat.ltb_spec 0 (tri n)) as [T|T]; [reflexivity|].
    destruct n as [|[|n]]; try reflexivity. pose proof (tri_pos (S (S n))). lia. }
  rewrite HS.
  rewrite (rsum_ext n (fun j => A (0 + j)%nat (0 + j)%nat * (/ 2 * (x (0 + j)%nat * x (0 + j)%nat)))
                      (fun j => / 2 * (A j j * (x j * x j)))).
  2:{ intros. simpl. ring. }
  rewrite rsum_scal. unfold dot.
  rewrite (rsum_ext n (fun j => b (0 + j)%nat * x (0 + j)%nat) (fun j => b j * x j)) by reflexivity.
  lra.
Qed.

(** ** Independence of the monomials *)

Lemma hessP_sub_keep P n a m k nquad H u v :
  (u <= v + a)%nat -> (v <= u + a)%nat ->
  hessP_sub P n (seq a m) k nquad H u v = H u v.
Proof.
  revert a k nquad H. induction m as [|m IH]; intros a k nquad H Hu Hv; [reflexivity|].
  assert (HR : forall nsd, hessP_row P a k (seq 0 nsd) H u v = H u v).
  { intros nsd. rewrite hessP_row_spec by apply seq_NoDup.
    destruct (existsb _ _) eqn:E; [|reflexivity]. apply row_exists_spec in E. lia. }
  cbn [seq hessP_sub]. destruct (_ =? 0)%nat; [apply HR|].
  rewrite IH by lia. apply HR.
Qed.

Lemma hessP_sub_onto P n a k nquad H i :
  (a < n)%nat -> (nquad <= tri (n - a))%nat -> (k <= i < k + nquad)%nat ->
  exists u v, (u < n)%nat /\ (v < n)%nat /\ u <> v /\ hessP_sub P n (seq a (n - S a)) k nquad H u v = P i.
Proof.
  remember (n - S a)%nat as m eqn:Em. revert a k nquad H Em.
  induction m as [|m IH]; intros a k nquad H Em Ha Hq Hi.
  - assert (E : (n - a = 1)%nat) by lia. rewrite E in Hq. cbn [tri] in Hq. lia.
  - assert (E : (n - a = S (S m))%nat) by lia. rewrite E in Hq.
    change (tri (S (S m))) with (S m + tri (S m))%nat in Hq.
    cbn [seq hessP_sub]. replace (n - a - 1)%nat with (S m) by lia.
    set (nsd := Nat.min (S m) nquad). set (H1 := hessP_row P a k (seq 0 nsd) H).
    destruct (Nat.lt_ge_cases i (k + nsd)) as [L|L].
    + exists (a + (i - k) + 1)%nat, (i - k)%nat.
      assert (ER : H1 (a + (i - k) + 1)%nat (i - k)%nat = P i).
      { unfold H1. rewrite hessP_row_spec by apply seq_NoDup.
        destruct (existsb _ _) eqn:Ex.
        - f_equal. lia.
        - exfalso. assert (C : existsb (fun j => ((a + (i - k) + 1 =? a + j + 1) && (i - k =? j)) || ((a + (i - k) + 1 =? j) && (i - k =? a + j + 1)))%nat%bool (seq 0 nsd) = true)
            by (apply row_exists_spec; lia).
          rewrite C in Ex. discriminate. }
      repeat split; try (unfold nsd in L; lia).
      destruct (_ =? 0)%nat; [exact ER|].
      rewrite hessP_sub_keep by lia. exact ER.
    + destruct (Nat.eqb_spec (nquad - nsd) 0) as [Z|Z]; [lia|].
      apply IH; try lia.
      replace (n - S a)%nat with (S m) by lia. unfold nsd. lia.
Qed.

Lemma hessP_onto n q P i : (q <= full n)%nat -> (n + 1 <= i < q)%nat ->
  exists u v, (u < n)%nat /\ (v < n)%nat /\ hessP n q P u v = P i.
Proof.
  intros Hq Hi. rewrite full_tri in Hq. unfold hessP.
  destruct (Nat.ltb_spec 0 (q - n - 1)) as [L|L]; [|lia].
  set (nd := Nat.min (q - n - 1) n).
  destruct (Nat.lt_ge_cases i (n + 1 + nd)) as [D|D].
  - exists (i - (n + 1))%nat, (i - (n + 1))%nat. split; [lia|]. split; [lia|].
    destruct (_ <? _)%nat.
    + rewrite hessP_sub_keep by lia. rewrite Nat.eqb_refl.
      destruct (Nat.ltb_spec (i - (n + 1)) nd); [f_equal; lia|lia].
    + rewrite Nat.eqb_refl.
      destruct (Nat.ltb_spec (i - (n + 1)) nd); [f_equal; lia|lia].
  - destruct (Nat.ltb_spec 0 (q - n - 1 - nd)) as [L'|L']; [|lia].
    destruct n as [|n]; [cbn [tri] in Hq; lia|].
    destruct (hessP_sub_onto P (S n) 0 (2 * S n + 1) (q - S n - 1 - nd)
      (fun a b => if (a =? b)%nat then (if (a <? nd)%nat then P (S n + 1 + a)%nat else 0) else 0) i) as (u & v & Hu & Hv & _ & E); try lia.
    { replace (S n - 0)%nat with (S n) by lia. lia. }
    replace (S n - 1)%nat with n in * by lia.
    exists u, v. repeat split; assumption.
Qed.

Lemma quad_unitv n A u : (u < n)%nat -> quad n A (unitv u) = A u u.
Proof.
  intros Hu. unfold quad. rewrite dot_unitv by exact Hu.
  unfold mv. rewrite (rsum_single n u); [|exact Hu|].
  - unfold unitv. rewrite Nat.eqb_refl. lra.
  - intros j Hj Hne. unfold unitv. destruct (Nat.eqb_spec j u); [congruence|lra].
Qed.

Lemma quad_zero_entries n A u v : symmetric n A -> (forall h, quad n A h = 0) ->
  (u < n)%nat -> (v < n)%nat -> A u v = 0.
Proof.
  intros HA HZ Hu Hv.
  pose proof (HZ (vadd (unitv u) (unitv v))) as H1. rewrite quad_add in H1 by exact HA.
  rewrite !HZ in H1.
  assert (H2 : dot n (unitv u) (mv n A (unitv v)) = A u v).
  { rewrite dot_unitv by exact Hu. unfold mv. rewrite (rsum_single n v); [|exact Hv|].
    - unfold unitv. rewrite Nat.eqb_refl. lra.
    - intros j Hj Hne. unfold unitv. destruct (Nat.eqb_spec j v); [congruence|lra]. }
  rewrite H2 in H1. lra.
Qed.

Lemma gradP_sub_vzero P n is k nquad t : gradP_sub P vzero n is k nquad vzero t = 0.
Proof.
  revert k nquad. induction is as [|i is IH]; intros k nquad; [reflexivity|].
  cbn [gradP_sub]. destruct (_ =? 0)%nat.
  - unfold vzero. ifs.
  - rewrite gradP_sub_add, IH. unfold vzero. ifs.
Qed.

Lemma gradP_vzero n q P t : (t < n)%nat -> (1 + t < q)%nat -> gradP n q P vzero t = P (1 + t)%nat.
Proof.
  intros Ht Hq. unfold gradP.
  assert (E0 : (if (t <? Nat.min n (q - 1))%nat then P (1 + t)%nat else 0) = P (1 + t)%nat) by ifs.
  destruct (0 <? q - n - 1)%nat; [|exact E0].
  destruct (0 <? q - n - 1 - Nat.min (q - n - 1) n)%nat; [rewrite gradP_sub_add, gradP_sub_vzero|]; rewrite E0; unfold vzero; ifs.
Qed.

Lemma pdot_diff P Q k l : pdot (fun i => P i - Q i) k l = pdot P k l - pdot Q k l.
Proof. revert k. induction l as [|z l IH]; intros k; cbn [pdot]; [lra|]. rewrite IH. lra. Qed.

Lemma pdot_vzero_tail P n q : (1 <= q)%nat -> (q <= full n)%nat -> pdot P 0 (evalZ n q vzero) = P 0%nat.
Proof.
  intros H1 H2.
  assert (HS : forall P ks k nquad, pdot P k (evalZ_sub vzero n ks nquad) = 0).
  { intros P0 ks. induction ks as [|k0 ks IH]; intros k nquad; [reflexivity|].
    cbn [evalZ_sub]. rewrite pdot_app, pdot_map, rsum_zero.
    - destruct (_ =? 0)%nat; [cbn; lra|rewrite IH; lra].
    - intros. unfold vzero. lra. }
  unfold evalZ. destruct (Nat.eqb_spec q 1) as [E|E]; [cbn; lra|].
  destruct (Nat.leb_spec q (n + 1)).
  - cbn [pdot]. rewrite pdot_map, rsum_zero; [lra|]. intros. unfold vzero. lra.
  - cbn [pdot]. rewrite !pdot_app, !pdot_map, !rsum_zero.
    + destruct (_ <? _)%nat; [rewrite HS; lra|cbn; lra].
    + intros. unfold vzero. lra.
    + intros. unfold vzero. lra.
Qed.

Lemma independent0 n q P :
  (1 <= q)%nat -> (q <= full n)%nat -> (forall x, pdot P 0 (evalZ n q x) = 0) ->
  forall i, (i < q)%nat -> P i = 0.
Proof.
  intros H1 H2 HZ i Hi.
  assert (HT : forall h, dot n (gradP n q P vzero) h + / 2 * quad n (hessP n q P) h = 0).
  { intros h. pose proof (taylor_aux n q P vzero h H1 H2) as T. rewrite !HZ in T. lra. }
  assert (Hq : forall h, quad n (hessP n q P) h = 0).
  { intros h. pose proof (HT h) as T1. pose proof (HT (vscal (-1) h)) as T2.
    rewrite dot_scal_r, quad_scal in T2. lra. }
  destruct (Nat.eq_dec i 0) as [->|Hne].
  { rewrite <- (HZ vzero). symmetry. apply pdot_vzero_tail; assumption. }
  destruct (Nat.le_gt_cases i n) as [L|L].
  - pose proof (HT (unitv (i - 1)%nat)) as T. rewrite Hq in T.
    rewrite dot_sym, dot_unitv in T by lia. rewrite gradP_vzero in T by lia.
    replace (1 + (i - 1))%nat with i in T by lia. lra.
  - destruct (hessP_onto n q P i H2 ltac:(lia)) as (u & v & Hu & Hv & E). rewrite <- E.
    apply (quad_zero_entries n); try assumption.
    intros a b Ha Hb. apply hessP_sym.
Qed.

Lemma evalZ_sub_length_ge x n a nquad :
  (a < n)%nat -> (tri (n - a) <= nquad)%nat ->
  length (evalZ_sub x n (seq (S a) (n - S a)) nquad) = tri (n - a).
Proof.
  remember (n - S a)%nat as m eqn:Em. revert a nquad Em.
  induction m as [|m IH]; intros a nquad Em Ha Hq.
  - assert (E : (n - a = 1)%nat) by lia. rewrite E. reflexivity.
  - assert (E : (n - a = S (S m))%nat) by lia. rewrite E in Hq |- *.
    change (tri (S (S m))) with (S m + tri (S m))%nat in *.
    cbn [seq evalZ_sub]. rewrite app_length, map_length, seq_length.
    replace (n - S a)%nat with (S m) by lia.
    replace (Nat.min (S m) nquad) with (S m) by lia.
    destruct (Nat.eqb_spec (nquad - S m) 0) as [Z|Z].
    + assert (E1 : tri (S m) = 0%nat) by lia. rewrite E1. reflexivity.
    + rewrite IH; try lia; replace (n - S a)%nat with (S m) by lia; lia.
Qed.

Lemma evalP_too_many n q P x : (1 <= n)%nat -> (full n < q)%nat -> evalP n q P x = None.
Proof.
  intros Hn Hq. unfold evalP. rewrite full_tri in Hq.
  assert (HL : (length (evalZ n q x) = 2 * n + 1 + tri n)%nat).
  { unfold evalZ.
    destruct (Nat.eqb_spec q 1); [lia|]. destruct (Nat.leb_spec q (n + 1)); [lia|].
    replace (Nat.min (n + 1) q) with (n + 1)%nat by lia.
    replace (Nat.min n (q - (n + 1))) with n by lia.
    destruct (Nat.ltb_spec 0 (q - (n + 1) - n)) as [L|L]; [|lia].
    cbn [length]. rewrite !app_length, !map_length, !seq_length.
    rewrite (evalZ_sub_length_ge x n 0); replace (n - 0)%nat with n by lia; lia. }
  rewrite HL. destruct (Nat.eqb_spec (2 * n + 1 + tri n) q); [lia|reflexivity].
Qed.

(** ** The statements used by the property file *)

Lemma evalP_some n q P x : (1 <= q)%nat -> (q <= full n)%nat -> evalP n q P x = Some (pdot P 0 (evalZ n q x)).
Proof. intros. unfold evalP. rewrite evalZ_length by assumption. rewrite Nat.eqb_refl. reflexivity. Qed.

Lemma taylor n q P x : (1 <= q)%nat -> (q <= full n)%nat ->
  exact_expansion n (evalP n q P) x (gradP n q P x) (hessP n q P).
Proof.
  intros H1 H2 h. exists (pdot P 0 (evalZ n q x)), (pdot P 0 (evalZ n q (vadd x h))).
  split; [apply evalP_some; assumption|]. split; [apply evalP_some; assumption|]. apply taylor_aux; assumption.
Qed.

Lemma evalZ_sub_ext x y n ks nquad : (forall i, (i < n)%nat -> x i = y i) -> (forall k, In k ks -> (k < n)%nat) ->
  evalZ_sub x n ks nquad = evalZ_sub y n ks nquad.
Proof.
  intros HE. revert nquad. induction ks as [|k ks IH]; intros nquad Hk; [reflexivity|].
  cbn [evalZ_sub]. f_equal.
  - apply map_ext_in. intros i Hi. apply in_seq in Hi. pose proof (Hk k (or_introl eq_refl)).
    rewrite !HE by lia. reflexivity.
  - destruct (_ =? 0)%nat; [reflexivity|]. apply IH. intros. apply Hk. right. assumption.
Qed.

Lemma evalZ_ext n q x y : (forall i, (i < n)%nat -> x i = y i) -> evalZ n q x = evalZ n q y.
Proof.
  intros HE. unfold evalZ. destruct (_ =? _)%nat; [reflexivity|].
  destruct (Nat.leb_spec q (n + 1)).
  - f_equal. apply map_ext_in. intros i Hi. apply in_seq in Hi. apply HE. lia.
  - f_equal. f_equal; [|f_equal].
    + apply map_ext_in. intros i Hi. apply in_seq in Hi. apply HE. lia.
    + apply map_ext_in. intros i Hi. apply in_seq in Hi. rewrite HE by lia. reflexivity.
    + destruct (_ <? _)%nat; [|reflexivity]. apply evalZ_sub_ext; [exact HE|].
      intros k Hk. apply in_seq in Hk. lia.
Qed.

Lemma evalP_shift_val n q P x xbase si : (1 <= n)%nat -> (1 <= q)%nat -> (q <= full n)%nat ->
  evalP_shift n q P x xbase (scale_vec n si)
  = Some (pdot (fun i => P i * scale_vec n si i) 0 (evalZ n q (vsub x xbase))).
Proof.
  intros Hn H1 H2. unfold evalP_shift. rewrite evalP_some by assumption. f_equal.
  rewrite <- evalZ_scale. f_equal. apply evalZ_ext. intros i Hi. unfold vsub. f_equal.
  unfold scale_vec. cbn [Nat.eqb]. destruct (Nat.leb_spec 1 n); [reflexivity|lia].
Qed.

Lemma taylor_shift n q P x xbase si : (1 <= n)%nat -> (1 <= q)%nat -> (q <= full n)%nat ->
  exact_expansion n (fun y => evalP_shift n q P y xbase (scale_vec n si)) x
    (gradP_shift n q P x xbase (scale_vec n si)) (hessP_shift n q P (scale_vec n si)).
Proof.
  intros Hn H1 H2 h. eexists. eexists.
  split; [apply evalP_shift_val; assumption|]. split; [apply evalP_shift_val; assumption|].
  rewrite (evalZ_ext n q (vsub (vadd x h) xbase) (vadd (vsub x xbase) h)).
  - apply taylor_aux; assumption.
  - intros i Hi. unfold vsub, vadd. ring.
Qed.

Lemma independent n q P Q : (1 <= q)%nat -> (q <= full n)%nat ->
  (forall x, evalP n q P x = evalP n q Q x) -> forall i, (i < q)%nat -> P i = Q i.
Proof.
  intros H1 H2 HE i Hi.
  assert (HZ : forall x, pdot (fun i => P i - Q i) 0 (evalZ n q x) = 0).
  { intros x. specialize (HE x). rewrite !evalP_some in HE by assumption. rewrite pdot_diff. injection HE. lra. }
  pose proof (independent0 n q _ H1 H2 HZ i Hi) as D. cbn beta in D. lra.
Qed.

Lemma represent_ex n c b A : symmetric n A -> (1 <= n)%nat ->
  exists P, forall x, evalP n (full n) P x = Some (quadratic n c b A x).
Proof. intros HA Hn. eexists. intros x. apply represent; assumption. Qed.
