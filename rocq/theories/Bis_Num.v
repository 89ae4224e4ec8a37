(** How fast the interval of the search with stratLam = 0 shrinks. *)
From Coq Require Import Reals Lra Psatz Lia List Arith Bool.
From Verif Require Import RVec RBool MS_Model MS_Proofs MS_More Hom_Model Hom_More.
Open Scope R_scope.

Lemma theta13 : ms_theta * 10 ^ 13 = 1.
Proof. unfold ms_theta. apply Rinv_l, pow_nonzero. lra. Qed.
Lemma theta_pos : 0 < ms_theta.
Proof. apply Rinv_0_lt_compat, pow_lt. lra. Qed.
Lemma theta64 : 1 <= ms_theta * 2 ^ 64.
Proof.
  pose proof theta13. pose proof theta_pos. assert (10 ^ 13 <= 2 ^ 64); [|nra].
  apply Rle_trans with (16 ^ 13); [apply pow_incr; lra|]. apply Rle_trans with (16 ^ 16); [apply Rle_pow; [lra|lia]|].
  right. replace 16 with (2 ^ 4) by (cbn; lra). rewrite <- pow_mult. reflexivity.
Qed.
Lemma theta33 : ms_theta * 2 ^ 33 <= 1.
Proof.
  pose proof theta13. pose proof theta_pos. assert (2 ^ 33 <= 10 ^ 13); [|nra].
  apply Rle_trans with (8 ^ 11).
  - right. replace 8 with (2 ^ 3) by (cbn; lra). rewrite <- pow_mult. reflexivity.
  - apply Rle_trans with (10 ^ 11); [apply pow_incr; lra|apply Rle_pow; [lra|lia]].
Qed.

Lemma inner_eq l u : 0 <= l <= u -> hom_inner l u = Rmax (sqrt (l * u)) (l + ms_theta * (u - l)).
Proof. intros L. unfold hom_inner. destruct (Rltb_spec (l * u) 0); [nra|reflexivity]. Qed.
Lemma inner_theta l u : 0 <= l <= u -> ms_theta * u <= hom_inner l u.
Proof.
  intros L. rewrite inner_eq by exact L. eapply Rle_trans; [|apply Rmax_r]. pose proof theta_pos. pose proof theta33 as T.
  assert (1 <= 2 ^ 33) by (apply pow_R1_Rle; lra). assert (ms_theta <= 1) by nra. nra.
Qed.
Lemma inner_sqrt l u : 0 <= l <= u -> l * u <= hom_inner l u * hom_inner l u.
Proof.
  intros L. rewrite inner_eq by exact L. set (r := sqrt (l * u)). assert (0 <= r) by apply sqrt_pos.
  assert (r * r = l * u) by (apply sqrt_sqrt; nra). pose proof (Rmax_l r (l + ms_theta * (u - l))). nra.
Qed.

(** the ratio of the ends becomes its square root *)
Lemma ratio_step r l u : 1 <= r <= 2 ^ 32 -> 0 < l -> l <= u <= r * r * l ->
  hom_inner l u <= r * l /\ u <= r * hom_inner l u.
Proof.
  intros (R1 & R2) L (LU & UR). assert (L' : 0 <= l <= u) by lra. pose proof (inner_sqrt l u L') as SQ. pose proof (hom_inner_between l u L') as ((B1 & B2) & _).
  split.
  - rewrite inner_eq by exact L'. apply Rmax_lub.
    + apply Rsqr_incr_0_var; [|nra]. unfold Rsqr. rewrite sqrt_sqrt by nra. assert (l * u <= l * (r * r * l)) by (apply Rmult_le_compat_l; lra). nra.
    + assert (TR : ms_theta * (r + 1) <= 1).
      { pose proof theta33 as T. pose proof theta_pos. assert (2 ^ 33 = 2 * 2 ^ 32) by (cbn [pow]; ring). assert (1 <= 2 ^ 32) by (apply pow_R1_Rle; lra). nra. }
      assert (ms_theta * (u - l) <= ms_theta * ((r * r - 1) * l)) by (apply Rmult_le_compat_l; [apply Rlt_le, theta_pos|lra]).
      assert (ms_theta * ((r * r - 1) * l) = ms_theta * (r + 1) * ((r - 1) * l)) by ring.
      assert (ms_theta * (r + 1) * ((r - 1) * l) <= 1 * ((r - 1) * l)) by (apply Rmult_le_compat_r; [nra|exact TR]). lra.
  - set (t := hom_inner l u) in *. assert (0 < t) by lra. apply Rsqr_incr_0_var; [|nra]. unfold Rsqr.
    assert (A : u * u <= r * r * l * u) by (apply Rmult_le_compat_r; lra). assert (B : r * r * (l * u) <= r * r * (t * t)) by (apply Rmult_le_compat_l; [nra|exact SQ]). lra.
Qed.

Section Count.
Variables (J L : nat) (U : R).
(** an interval with at most [N] further trials *)
Definition few (N : nat) (l u : R) : Prop :=
  (exists j, (J - j + 6 + L <= N)%nat /\ u - l <= U * ms_theta ^ j) \/
  (exists j, (j <= 6)%nat /\ (j + L <= N)%nat /\ 0 < l /\ u <= 2 ^ (2 ^ j) * l) \/
  (exists k, (L - k <= N)%nat /\ 0 < l /\ u <= (1 + / 2 ^ k) * l).

Lemma few_step N l u : 0 <= l <= u -> 0 < u ->
  (forall j, (J <= j)%nat -> ~ u - l <= U * ms_theta ^ j) -> (forall k, (L <= k)%nat -> 0 < l -> ~ u <= (1 + / 2 ^ k) * l) ->
  few (S N) l u -> few N l (hom_inner l u) /\ few N (hom_inner l u) u.
Proof.
  intros LU UP NJ NL F. pose proof theta_pos as TP. pose proof (inner_theta l u LU) as TH. pose proof (hom_inner_between l u LU) as ((B1 & B2) & _).
  destruct F as [(j & HN & HU)|[(j & J6 & HN & LP & HU)|(k & HN & LP & HU)]].
  - assert (JJ : (j < J)%nat) by (destruct (Nat.lt_ge_cases j J) as [A|A]; [exact A|exfalso; exact (NJ j A HU)]).
    assert (RAT : forall x, 0 <= x -> u <= 2 ^ 64 * x \/ ~ ms_theta * u <= x).
    { intros x X. destruct (Rle_dec (ms_theta * u) x) as [Y|Y]; [left|right; exact Y]. pose proof theta64 as T6. nra. }
    assert (OUT : few N (hom_inner l u) u).
    { right. left. exists 6%nat. split; [lia|]. split; [lia|]. split; [nra|]. change (2 ^ 6)%nat with 64%nat.
      destruct (RAT (hom_inner l u)) as [X|X]; [lra|exact X|contradiction]. }
    split; [|exact OUT].
    destruct (Rle_dec (hom_inner l u) (l + ms_theta * (u - l))) as [TB|SB].
    + left. exists (S j). split; [lia|]. cbn [pow]. assert (ms_theta * (u - l) <= ms_theta * (U * ms_theta ^ j)) by (apply Rmult_le_compat_l; lra). lra.
    + right. left. exists 6%nat. split; [lia|]. split; [lia|]. change (2 ^ 6)%nat with 64%nat.
      assert (E : hom_inner l u = sqrt (l * u)).
      { rewrite inner_eq in * by exact LU. unfold Rmax in *. destruct (Rle_dec _ _); lra. }
      assert (Q : hom_inner l u * hom_inner l u = l * u) by (rewrite E; apply sqrt_sqrt; nra).
      set (t := hom_inner l u) in *. assert (TT : ms_theta * u * (ms_theta * u) <= l * u).
      { rewrite <- Q. assert (0 <= ms_theta * u) by nra. nra. }
      assert (LT : ms_theta * (ms_theta * u) <= l).
      { apply (Rmult_le_reg_r u); [exact UP|]. replace (ms_theta * (ms_theta * u) * u) with (ms_theta * u * (ms_theta * u)) by ring. exact TT. }
      assert (LP : 0 < l) by (assert (0 < ms_theta * (ms_theta * u)) by (apply Rmult_lt_0_compat; nra); lra).
      split; [exact LP|]. assert (TL : ms_theta * t <= l).
      { assert (0 <= ms_theta * t) by nra. assert ((ms_theta * t) * (ms_theta * t) <= l * l); [|nra].
        replace (ms_theta * t * (ms_theta * t)) with (ms_theta * ms_theta * (t * t)) by ring. rewrite Q.
        replace (ms_theta * ms_theta * (l * u)) with (l * (ms_theta * (ms_theta * u))) by ring. apply Rmult_le_compat_l; lra. }
      pose proof theta64 as T6. assert (0 <= 2 ^ 64) by (apply pow_le; lra). assert (t <= 2 ^ 64 * (ms_theta * t)) by nra. nra.
  - destruct j as [|j].
    + assert (U2 : u <= (1 + / 2 ^ 0) * l) by (cbn [pow Nat.pow] in *; lra).
      destruct (Nat.eq_dec L 0) as [L0|L0]; [exfalso; exact (NL 0%nat ltac:(lia) LP U2)|].
      assert (V : forall y, y = / 2 -> 1 + / 2 ^ 0 <= (1 + y) * (1 + y)) by (intros y ->; cbn [pow]; lra).
      specialize (V _ eq_refl).
      destruct (ratio_step (1 + / 2) l u) as (A & B).
      * split; [lra|]. apply Rle_trans with 2; [lra|]. rewrite <- (pow_1 2) at 1. apply Rle_pow; [lra|lia].
      * exact LP.
      * split; [lra|]. eapply Rle_trans; [exact U2|]. apply Rmult_le_compat_r; lra.
      * split; right; right; exists 1%nat; (split; [lia|]); cbn [pow]; rewrite Rmult_1_r; (split; [lra|assumption]).
    + set (r := 2 ^ (2 ^ j)). assert (RR : 2 ^ (2 ^ S j) = r * r).
      { unfold r. rewrite <- pow_add. f_equal. cbn [Nat.pow]. lia. }
      destruct (ratio_step r l u) as (A & B).
      * unfold r. split; [apply pow_R1_Rle; lra|]. apply Rle_pow; [lra|]. change 32%nat with (2 ^ 5)%nat. apply Nat.pow_le_mono_r; lia.
      * exact LP.
      * rewrite <- RR. lra.
      * split; right; left; exists j; (split; [lia|]); (split; [lia|]); (split; [lra|assumption]).
  - assert (KL : (k < L)%nat) by (destruct (Nat.lt_ge_cases k L) as [A|A]; [exact A|exfalso; exact (NL k A LP HU)]).
    assert (P2 : 0 < / 2 ^ k <= 1).
    { split; [apply Rinv_0_lt_compat, pow_lt; lra|]. rewrite <- Rinv_1. apply Rinv_le_contravar; [lra|apply pow_R1_Rle; lra]. }
    assert (HS : / 2 ^ S k = / 2 ^ k / 2) by (cbn [pow]; field; apply pow_nonzero; lra).
    destruct (ratio_step (1 + / 2 ^ S k) l u) as (A & B).
    + rewrite HS. split; [lra|]. apply Rle_trans with 2; [lra|]. rewrite <- (pow_1 2) at 1. apply Rle_pow; [lra|lia].
    + exact LP.
    + split; [lra|]. eapply Rle_trans; [exact HU|]. apply Rmult_le_compat_r; [lra|]. rewrite HS. nra.
    + split; right; right; exists (S k); (split; [lia|]); (split; [lra|assumption]).
Qed.
End Count.
