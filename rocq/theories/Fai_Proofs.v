(** C89: the radius in a sequence of unsuccessful passes. *)
From Coq Require Import List Arith ZArith QArith Qpower Lqa Lia.
From Verif Require Import QB Book_Model Main_Model Main_Spec Main_Proofs Main_Proofs2 Main_Proofs3 Main_More Fai_Spec.
Local Open Scope Q_scope.

Section Fai.
Context {P : Type}.
Variable E : env P.
Hypothesis SN : sane E.
Hypothesis TF : 0 <= e_tolf E.

Lemma failing_reach s0 s k j i t : reach E s0 s -> failing E s k j i t -> reach E s0 t.
Proof. intros R H. induction H; [auto|econstructor; eauto|econstructor; eauto|econstructor; eauto]. Qed.

(** the working radius of a pass without improvement *)
Lemma same_radius s a s' r : niter (sN s') = (niter (sN s) + 1)%nat -> working_radius E s a s' r ->
  r = delta (sG s).
Proof. intros N [(_ & _ & H)|(H & _)]; [exact H|lia]. Qed.

Lemma pow2_S k : 2 ^ Z.of_nat (S k) == 2 * 2 ^ Z.of_nat k.
Proof. rewrite Nat2Z.inj_succ. unfold Z.succ. rewrite Qpower_plus by discriminate. change (2 ^ 1) with 2. ring. Qed.

Lemma pow2_pos k : 0 < 2 ^ Z.of_nat k.
Proof.
  induction k as [|k IH]; [reflexivity|]. rewrite pow2_S. lra.
Qed.

Lemma one_pass k0 d0 s0 t a t' : begins E k0 d0 s0 -> reach E s0 t -> pass E t a = Continue t' ->
  niter (sN t') = (niter (sN t) + 1)%nat -> 0 < pred (sG t') -> ib (sI t') <> mlast (sA t') ->
  (In (mlast (sA t')) (s_ind (iS (sI t'))) /\ 1 # 100000 < delta (sG t) /\ delta (sG t') == (1 # 2) * delta (sG t)) \/
  (In (mlast (sA t')) (s_ind (iS (sI t'))) /\ delta (sG t) <= 1 # 100000 /\ delta (sG t') == delta (sG t)) \/
  (~ In (mlast (sA t')) (s_ind (iS (sI t'))) /\ 1 # 10000000000 <= delta (sG t') /\ 2 * delta (sG t') <= delta (sG t)).
Proof.
  intros B R PS NI PP NB. destruct (radius_rules E SN TF _ _ _ _ _ _ B R PS) as (r & W & D).
  apply same_radius in W; [|exact NI]. subst r.
  destruct D as [(D & _)|[(_ & _ & D & _)|[(_ & _ & _ & DI & D)|(_ & DN & D)]]]; [lra|contradiction| |].
  - destruct D as [(D1 & D2)|(D1 & D2)]; [left|right; left]; (split; [exact DI|]); (split; [exact D1|]); [exact D2|rewrite D2; reflexivity].
  - right. right. split; [exact DN|]. destruct D as (g & m & ft & M & _ & (G1 & _) & D1 & D2).
    split; [exact D2|].
    assert (ML : m <= delta (sG t)) by (destruct M as [(M1 & M2)|(M1 & M2)]; lra).
    assert (GM : 0 < g * m) by lra.
    assert (MP : 0 < m).
    { destruct (Qlt_le_dec 0 m) as [H|H]; [exact H|]. exfalso.
      assert (0 <= g * (- m)) by (apply Qmult_le_0_compat; lra). lra. }
    assert (g * m <= (1 # 2) * m) by (apply Qmult_le_compat_r; lra). lra.
Qed.

Lemma halving k0 d0 s0 s k j i t : begins E k0 d0 s0 -> reach E s0 s -> failing E s k j i t ->
  delta (sG t) * 2 ^ Z.of_nat (k + j) <= delta (sG s) /\
  (1 # 10000000000 <= delta (sG s) \/ (0 < k)%nat -> 1 # 10000000000 <= delta (sG t)) /\
  ((0 < j)%nat -> 2 ^ Z.of_nat j <= (200000 # 1) * delta (sG s)) /\
  (k = 0%nat -> j = 0%nat -> delta (sG t) == delta (sG s)).
Proof.
  intros B R H. pose proof (reach_inv E SN _ _ _ _ B R) as (_ & DS & _).
  induction H as [|k j i t a t' H IH PS NI PP NB IN|k j i t a t' H IH PS NI PP NB IN L|k j i t a t' H IH PS NI PP NB IN L].
  - cbn [Nat.add Z.of_nat]. change (2 ^ 0) with 1. split; [lra|]. split; [intros [K|K]; [exact K|lia]|]. split; [lia|]. intros; reflexivity.
  - pose proof (failing_reach _ _ _ _ _ _ R H) as RT.
    destruct (one_pass _ _ _ _ _ _ B RT PS NI PP NB) as [(X & _)|[(X & _)|(_ & O1 & O2)]]; [contradiction|contradiction|].
    destruct IH as (I1 & I2 & I3 & _). change (S k + j)%nat with (S (k + j)). pose proof (pow2_pos (k + j)) as PW.
    rewrite pow2_S. split; [|split; [auto|split; [exact I3|discriminate]]].
    assert (2 * delta (sG t') * 2 ^ Z.of_nat (k + j) <= delta (sG t) * 2 ^ Z.of_nat (k + j)) by (apply Qmult_le_compat_r; lra). lra.
  - pose proof (failing_reach _ _ _ _ _ _ R H) as RT.
    destruct (one_pass _ _ _ _ _ _ B RT PS NI PP NB) as [(_ & _ & O)|[(_ & X & _)|(X & _)]]; [|lra|contradiction].
    destruct IH as (I1 & I2 & I3 & _). rewrite Nat.add_succ_r. pose proof (pow2_pos (k + j)) as PW. rewrite pow2_S.
    split; [rewrite O; lra|]. split; [intros _; rewrite O; lra|]. split; [|discriminate].
    intros _. rewrite pow2_S.
    assert (PK : 2 ^ Z.of_nat j <= 2 ^ Z.of_nat (k + j)).
    { clear -k. induction k as [|k IHk]; [apply Qle_refl|]. change (S k + j)%nat with (S (k + j)). rewrite pow2_S.
      pose proof (pow2_pos (k + j)). lra. }
    assert ((1 # 100000) * 2 ^ Z.of_nat (k + j) <= delta (sG t) * 2 ^ Z.of_nat (k + j)) by (apply Qmult_le_compat_r; lra).
    lra.
  - pose proof (failing_reach _ _ _ _ _ _ R H) as RT.
    destruct (one_pass _ _ _ _ _ _ B RT PS NI PP NB) as [(_ & X & _)|[(_ & _ & O)|(X & _)]]; [lra| |contradiction].
    destruct IH as (I1 & I2 & I3 & I4). split; [rewrite O; exact I1|]. split; [intros K; rewrite O; auto|]. split; [exact I3|].
    intros K1 K2. rewrite O. auto.
Qed.

(** how many unsuccessful passes can reduce the radius *)
Lemma count k0 d0 s0 s k j i t : begins E k0 d0 s0 -> reach E s0 s -> failing E s k j i t ->
  (0 < k)%nat \/ (0 < j)%nat -> 2 ^ Z.of_nat (k + j) <= (10000000000 # 1) * delta (sG s).
Proof.
  intros B R H KJ. destruct (halving _ _ _ _ _ _ _ _ B R H) as (H1 & H2 & H3 & _).
  pose proof (pow2_pos (k + j)) as PW.
  assert (L : 1 # 10000000000 <= delta (sG t)).
  { apply H2. destruct KJ as [K|J]; [auto|left].
    pose proof (H3 J) as H4. destruct j as [|j]; [lia|]. rewrite pow2_S in H4. 
    assert (1 <= 2 ^ Z.of_nat j).
    { clear. induction j as [|j IHj]; [apply Qle_refl|]. rewrite pow2_S. lra. }
    lra. }
  assert ((1 # 10000000000) * 2 ^ Z.of_nat (k + j) <= delta (sG t) * 2 ^ Z.of_nat (k + j)) by (apply Qmult_le_compat_r; lra).
  lra.
Qed.
End Fai.
