(** More about the trust-region solver: the value tried next and the way into the pseudo hard case. *)
From Coq Require Import Reals Lra Psatz Lia List Arith Bool.
From Verif Require Import RVec RBool Tri MS_Model MS_Spec MS_Proofs.
Import ListNotations.
Open Scope R_scope.

(** *** Newton's value for the secular equation is never too large *)
Lemma solve_dot n H lam s q d : (forall i, (i < n)%nat -> mv n H q i + lam * q i = s i) -> dot n d (mv n H q) + lam * dot n d q = dot n d s.
Proof.
  intros E. unfold dot. rewrite <- rsum_scal, <- rsum_plus. apply rsum_ext. intros i Hi. rewrite <- (E i Hi). ring.
Qed.

Lemma newton_below n g H lam mu s z p q Delta : symmetric n H -> shift_pd n H lam -> stationary n g H lam s -> 0 < norm n g ->
  stationary n g H mu z -> shift_psd n H mu -> norm n z = Delta -> 0 < Delta ->
  (forall i, (i < n)%nat -> mv n H q i + lam * q i = s i) -> (forall i, (i < n)%nat -> mv n H p i + lam * p i = z i) ->
  0 < dot n q s /\ lam + (norm n s - Delta) / Delta * (norm n s ^ 2 / dot n q s) <= mu.
Proof.
  intros SH PD SS GN SZ PS NZ DP EQ EP. set (del := mu - lam).
  assert (SV : veq n s (vadd z (vscal del p))).
  { assert (Z : veq n (vsub s (vadd z (vscal del p))) vzero).
    { apply dot_self_zero. destruct (Req_dec (dot n (vsub s (vadd z (vscal del p))) (vsub s (vadd z (vscal del p)))) 0) as [Z|NZ']; [exact Z|exfalso].
      assert (NV : ~ veq n (vsub s (vadd z (vscal del p))) vzero).
      { intros V. apply NZ'. rewrite (dot_ext n _ vzero _ vzero V V). apply dot_zero_l. }
      specialize (PD _ NV). unfold quad in PD.
      rewrite <- (Rplus_0_l (dot n _ (mv n H _))) in PD.
      assert (ZZ : dot n (vsub s (vadd z (vscal del p))) (mv n H (vsub s (vadd z (vscal del p)))) +
        lam * dot n (vsub s (vadd z (vscal del p))) (vsub s (vadd z (vscal del p))) = dot n (vsub s (vadd z (vscal del p))) vzero).
      { apply solve_dot. intros i Hi. unfold vzero. 
        rewrite mv_sub, mv_add, mv_scal. unfold vsub, vadd, vscal.
        pose proof (SS i Hi) as A1. pose proof (SZ i Hi) as A2. pose proof (EP i Hi) as A3.
        replace (mv n H s i) with (- g i - lam * s i) by lra. replace (mv n H z i) with (- g i - mu * z i) by lra.
        replace (mv n H p i) with (z i - lam * p i) by lra. unfold del. ring. }
      rewrite dot_zero_r in ZZ. lra. }
    intros i Hi. specialize (Z i Hi). unfold vsub, vzero in Z. lra. }
  assert (NS : ~ veq n s vzero).
  { intros V. apply (Rlt_not_eq _ _ GN). symmetry. unfold norm. 
    rewrite (dot_ext n g vzero g vzero), dot_zero_l; [apply sqrt_0| |]; intros i Hi; pose proof (SS i Hi) as A;
    rewrite (mv_ext n H s vzero i V), mv_zero, (V i Hi) in A; unfold vzero in *; lra. }
  pose proof (dot_self_pos n s NS) as SP.
  (* symmetry of the inverse *)
  assert (SYM : dot n z q = dot n p s).
  { pose proof (solve_dot n H lam s q p EQ) as A. pose proof (solve_dot n H lam z p q EP) as B.
    rewrite (dot_mv_sym n H p q SH) in A. rewrite (dot_sym n z q), <- B, <- A, (dot_sym n p q). ring. }
  set (m1 := dot n z z + del * dot n z p). set (m3 := dot n s s + del * dot n q s).
  assert (D1 : forall d, dot n d s = dot n d z + del * dot n d p).
  { intros d. rewrite (dot_ext n d d s _ (fun i _ => eq_refl) SV), dot_add_r, dot_scal_r. reflexivity. }
  assert (M1 : dot n z s = m1) by (rewrite D1; reflexivity).
  assert (M2 : dot n s s = dot n z s + del * dot n p s).
  { rewrite D1, (dot_sym n s z), (dot_sym n s p). reflexivity. }
  assert (Q : forall a b, 0 <= a * a * m1 + 2 * a * b * dot n s s + b * b * m3).
  { intros a b. set (u := vadd (vscal a z) (vscal b s)). set (v := vadd (vscal a p) (vscal b q)).
    assert (AV : forall i, (i < n)%nat -> mv n H v i + lam * v i = u i).
    { intros i Hi. unfold v. rewrite mv_add, !mv_scal. unfold u, vadd, vscal. rewrite <- (EP i Hi), <- (EQ i Hi). ring. }
    assert (E : a * a * m1 + 2 * a * b * dot n s s + b * b * m3 = dot n u u + del * dot n u v).
    { unfold u, v. rewrite !dot_add_l, !dot_add_r, !dot_scal_l, !dot_scal_r, SYM, (dot_sym n s z), (dot_sym n s p), (dot_sym n s q).
      unfold m1, m3. rewrite M2. ring. }
    rewrite E.
    assert (UV : 0 <= dot n u v).
    { pose proof (solve_dot n H lam u v v AV) as A. rewrite (dot_sym n u v), <- A. exact (shift_pd_psd n H lam PD v). }
    destruct (Rle_lt_dec 0 del) as [P|P].
    - pose proof (dot_self_nonneg n u). nra.
    - set (w := vadd u (vscal del v)).
      assert (VW : 0 <= dot n v w).
      { pose proof (solve_dot n H lam u v v AV) as A. unfold w. rewrite dot_add_r, dot_scal_r, <- A.
        pose proof (PS v) as B. unfold quad in B. unfold del. nra. }
      assert (X : dot n u u + del * dot n u v = dot n w w - del * dot n v w).
      { unfold w. rewrite !dot_add_l, !dot_add_r, !dot_scal_l, !dot_scal_r, (dot_sym n v u). ring. }
      rewrite X. pose proof (dot_self_nonneg n w). nra. }
  assert (M3 : 0 < m3).
  { pose proof (Q 0 1) as A. destruct (Req_dec m3 0) as [Z|Z]; [exfalso|nra].
    pose proof (Q 1 (- (m1 + 1) / (2 * dot n s s))) as B. rewrite Z in B.
    replace (1 * 1 * m1 + 2 * 1 * (- (m1 + 1) / (2 * dot n s s)) * dot n s s + - (m1 + 1) / (2 * dot n s s) * (- (m1 + 1) / (2 * dot n s s)) * 0) with (-1) in B by (field; lra). lra. }
  assert (C2 : dot n s s * dot n s s <= m1 * m3).
  { pose proof (Q m3 (- dot n s s)) as A. nra. }
  assert (C1 : m1 * m1 <= dot n z z * dot n s s) by (rewrite <- M1; apply cauchy_schwarz_sq).
  assert (M1P : 0 <= m1) by (pose proof (Q 1 0); lra).
  assert (QS : 0 < dot n q s).
  { pose proof (solve_dot n H lam s q q EQ) as A. rewrite <- A. apply (PD q). intros V. apply NS. intros i Hi. rewrite <- (EQ i Hi).
    rewrite (mv_ext n H q vzero i V), mv_zero, (V i Hi). unfold vzero. ring. }
  split; [exact QS|].
  assert (ZZ : dot n z z = Delta * Delta) by (rewrite <- NZ, norm_sq; reflexivity).
  pose proof (norm_sq n s) as NSQ. pose proof (norm_nonneg n s) as NN. set (r := norm n s) in *.
  assert (K : dot n s s * dot n s s * dot n s s <= Delta * Delta * (m3 * m3)).
  { rewrite <- ZZ. apply Rmult_le_reg_r with (dot n s s); [exact SP|].
    apply Rle_trans with (m1 * m3 * (m1 * m3)); [|replace (dot n z z * (m3 * m3) * dot n s s) with (dot n z z * dot n s s * (m3 * m3)) by ring;
      replace (m1 * m3 * (m1 * m3)) with (m1 * m1 * (m3 * m3)) by ring; apply Rmult_le_compat_r; [nra|exact C1]].
    replace (dot n s s * dot n s s * dot n s s * dot n s s) with (dot n s s * dot n s s * (dot n s s * dot n s s)) by ring.
    apply Rmult_le_compat; nra. }
  assert (K' : r * dot n s s <= Delta * m3).
  { apply Rsqr_incr_0_var; [|nra]. unfold Rsqr. rewrite <- NSQ in *. nra. }
  replace mu with (lam + del) by (unfold del; ring). apply Rplus_le_compat_l.
  apply Rmult_le_reg_r with (Delta * dot n q s); [nra|].
  replace ((r - Delta) / Delta * (r ^ 2 / dot n q s) * (Delta * dot n q s)) with ((r - Delta) * (r * r)) by (field; lra).
  unfold m3 in K'. rewrite <- NSQ in K'. nra.
Qed.

(** *** one pass *)
Section Pass.
Variable chol : mat -> option mat.
Variable slv : mat -> vec -> option vec.
Variables (n : nat) (g : vec) (H : mat) (Delta eps_D : R).

Lemma solve_system lam U b : chol_exact n chol -> slv_exact n slv -> symmetric n H -> chol (shifted H lam) = Some U ->
  exists y, slv (tr U) b = Some y /\ (forall i, (i < n)%nat -> mv n (tr U) y i = b i) /\
    exists q, (forall i, (i < n)%nat -> mv n U q i = y i) /\ (forall i, (i < n)%nat -> mv n H q i + lam * q i = b i).
Proof.
  intros C S SH E. destruct (C _ (symmetric_shifted n H lam SH)) as [C1 _]. destruct (C1 U E) as (UP & D & SQ).
  destruct (S (tr U) b) as (y & Ey & Hy); [apply triangle_tr; split; [right; exact UP|exact D]|].
  destruct (S U y) as (q & Eq & Hq); [split; [right; exact UP|exact D]|].
  exists y. split; [exact Ey|]. split; [exact Hy|]. exists q. split; [exact Hq|].
  intros i Hi. rewrite <- (mv_shifted n H lam q i Hi), <- (square_mv n U (shifted H lam) q i Hi SQ), <- (Hy i Hi). apply mv_ext. exact Hq.
Qed.

Lemma w_dot U s w q : (forall i, (i < n)%nat -> mv n (tr U) w i = s i) -> (forall i, (i < n)%nat -> mv n U q i = w i) -> dot n w w = dot n q s.
Proof.
  intros Hw Hq. transitivity (dot n (mv n U q) w).
  - apply dot_ext; intros i Hi; [symmetry; apply Hq, Hi|reflexivity].
  - rewrite dot_mv_tr. apply dot_ext; intros i Hi; [reflexivity|apply Hw, Hi].
Qed.

Lemma pass_value l u lam l' u' lam' st : chol_exact n chol -> slv_exact n slv -> symmetric n H ->
  ms_step chol slv n g H Delta eps_D l u lam = PNext l' u' lam' st ->
  (~ shift_pd n H lam /\ l' = lam /\ u' = u /\ lam' = (lam + u) / 2) \/
  (shift_pd n H lam /\ exists s q, stationary n g H lam s /\ (forall i, (i < n)%nat -> mv n H q i + lam * q i = s i) /\
     (((1 + eps_D) * Delta < norm n s /\ l' = lam /\ u' = u) \/
      (norm n s <= (1 + eps_D) * Delta /\ norm n s < (1 - eps_D) * Delta /\ / 10 ^ 12 < lam /\ l' = l /\ u' = lam)) /\
     let new := lam + (norm n s - Delta) / Delta * (norm n s ^ 2 / dot n q s) in
     let inside := l' + / 10 ^ 13 * (u' - l') < new < u' - / 10 ^ 13 * (u' - l') in
     (inside /\ lam' = new) \/ (~ inside /\ lam' = Rmax (sqrt (l' * u')) (l' + / 10 ^ 13 * (u' - l')))).
Proof.
  intros C S SH E. unfold ms_step in E. destruct (chol (shifted H lam)) as [U|] eqn:EC.
  - right. split; [exact (chol_pd n chol H lam U C SH EC)|].
    destruct (slv (tr U) g) as [y|] eqn:E1; [|discriminate]. destruct (slv _ y) as [s|] eqn:E2; [|discriminate].
    pose proof (chol_solution n chol slv H g lam U y s C S SH EC E1 E2) as SS.
    destruct (solve_system lam U s C S SH EC) as (w & Ew & Hw & q & Hq & AQ).
    destruct (_ || _)%bool eqn:X; [discriminate|]. rewrite Ew in E.
    rewrite (w_dot U s w q Hw Hq) in E. exists s, q. split; [exact SS|]. split; [exact AQ|].
    set (new := lam + (norm n s - Delta) / Delta * (norm n s ^ 2 / dot n q s)) in *.
    injection E as El Eu Em _. rewrite El, Eu in Em. split.
    + destruct (Rltb_spec ((1 + eps_D) * Delta) (norm n s)) as [L|L]; [left; auto|right].
      apply Rnot_lt_le in L. split; [exact L|]. apply orb_false_iff in X. destruct X as [X1 X2].
      rewrite (proj2 (Rleb_true _ _) L), !andb_true_r in *. rb. auto.
    + fold (ms_theta). destruct (Rltb_spec (l' + ms_theta * (u' - l')) new) as [A|A]; cbn [andb] in Em; [|right; split; [tauto|symmetry; exact Em]].
      destruct (Rltb_spec new (u' - ms_theta * (u' - l'))) as [B|B]; [left; split; [tauto|symmetry; exact Em]|right; split; [tauto|symmetry; exact Em]].
  - left. injection E as <- <- <- _. split; [exact (chol_none n chol H lam C SH EC)|]. repeat split. field.
Qed.

(** *** the way into the pseudo hard case *)
Lemma loop_hard k nf l u lam m : ms_loop chol slv n g H Delta eps_D k nf l u lam = Some (None, m) ->
  exists j l' u' lam', m = (nf + j)%nat /\ passes chol slv n g H Delta eps_D j l u lam = Some (l', u', lam') /\
    (j = k \/ ((j < k)%nat /\ u' - l' < ms_theta * Rmax 1 u') \/ (j = k /\ u' - l' < ms_theta * Rmax 1 u')).
Proof.
  revert nf l u lam. induction k as [|k IH]; intros nf l u lam E; cbn [ms_loop] in E.
  - injection E as <-. exists 0%nat, l, u, lam. split; [lia|]. split; [reflexivity|]. left. reflexivity.
  - destruct (ms_step _ _ _ _ _ _ _ _ _ _) as [|s|l' u' lam' st] eqn:ST; [discriminate|discriminate|].
    assert (STOP : st = ms_stop l' u').
    { unfold ms_step in ST. destruct (chol (shifted H lam)) as [U|]; [|injection ST as <- <- _ <-; reflexivity].
      destruct (slv (tr U) g) as [y|]; [|discriminate]. destruct (slv _ y) as [s|]; [|discriminate].
      destruct (_ || _)%bool; [discriminate|]. destruct (slv (tr U) s) as [w|]; [|discriminate]. injection ST as <- <- _ <-. reflexivity. }
    destruct st.
    + injection E as <-. exists 1%nat, l', u', lam'. split; [lia|]. split; [cbn [passes]; rewrite ST; reflexivity|].
      symmetry in STOP. unfold ms_stop in STOP. rb. right. destruct k; [right|left]; (split; [lia|exact STOP]).
    + destruct (IH _ _ _ _ E) as (j & a & b & c & M & P & D). exists (S j), a, b, c. split; [lia|].
      split; [cbn [passes]; rewrite ST; exact P|]. destruct D as [->|[[D D']|[D D']]]; [left; lia|right; left|right; right]; (split; [lia|exact D']).
Qed.
End Pass.

Lemma t_hard_entry chol slv eigv eigd n g H Delta eps_D o : solve_MS chol slv eigv eigd n g H Delta eps_D = Some o -> ms_hard o = true ->
  exists l u lam, passes chol slv n g H Delta eps_D (ms_nfact o) (ms_lower n g H Delta) (ms_upper n g H Delta)
      (ms_first (ms_lower n g H Delta) (ms_upper n g H Delta)) = Some (l, u, lam) /\
    (ms_nfact o = 300%nat \/ u - l < / 10 ^ 13 * Rmax 1 u).
Proof.
  intros E HC. unfold solve_MS in E. destruct (Reqb_spec Delta 0); [injection E as <-; discriminate|].
  destruct (Rltb _ _); [injection E as <-; discriminate|].
  destruct (ms_loop _ _ _ _ _ _ _ _ _ _ _ _) as [[[[s lam]|] m]|] eqn:L; [injection E as <-; discriminate| |discriminate].
  injection E as <-. destruct (loop_hard _ _ _ _ _ _ _ _ _ _ _ _ _ L) as (j & l & u & lam & M & P & D). cbn [Nat.add] in M. subst j.
  exists l, u, lam. unfold hard_case. cbn [ms_nfact]. split; [exact P|]. destruct D as [->|[[_ D]|[_ D]]]; [left; reflexivity|right; exact D|right; exact D].
Qed.

Lemma t_value chol slv n g H Delta eps_D l u lam l' u' lam' : chol_exact n chol -> slv_exact n slv -> symmetric n H -> 0 < norm n g -> 0 < Delta ->
  passes chol slv n g H Delta eps_D 1 l u lam = Some (l', u', lam') ->
  (~ shift_pd n H lam /\ l' = lam /\ u' = u /\ lam' = (lam + u) / 2) \/
  (shift_pd n H lam /\ exists s q new, stationary n g H lam s /\ (forall i, (i < n)%nat -> mv n H q i + lam * q i = s i) /\
     (((1 + eps_D) * Delta < norm n s /\ l' = lam /\ u' = u) \/
      (norm n s < (1 - eps_D) * Delta /\ / 10 ^ 12 < lam /\ l' = l /\ u' = lam)) /\
     new = lam + (norm n s - Delta) / Delta * (norm n s ^ 2 / dot n q s) /\
     ((l' + / 10 ^ 13 * (u' - l') < new < u' - / 10 ^ 13 * (u' - l') /\ lam' = new) \/
      (~ (l' + / 10 ^ 13 * (u' - l') < new < u' - / 10 ^ 13 * (u' - l')) /\ lam' = Rmax (sqrt (l' * u')) (l' + / 10 ^ 13 * (u' - l')))) /\
     (forall mu z, stationary n g H mu z -> shift_psd n H mu -> norm n z = Delta -> new <= mu)).
Proof.
  intros C S SH GN DP E. cbn [passes] in E. destruct (ms_step _ _ _ _ _ _ _ _ _ _) as [|s|a b c st] eqn:ST; try discriminate. injection E as <- <- <-.
  destruct (pass_value chol slv n g H Delta eps_D l u lam a b c st C S SH ST) as [K|(PD & s & q & SS & AQ & SIDE & V)]; [left; exact K|right].
  split; [exact PD|]. exists s, q, (lam + (norm n s - Delta) / Delta * (norm n s ^ 2 / dot n q s)). split; [exact SS|]. split; [exact AQ|].
  split; [tauto|]. split; [reflexivity|]. split; [exact V|].
  intros mu z SZ PS NZ.
  assert (P : exists p, forall i, (i < n)%nat -> mv n H p i + lam * p i = z i).
  { destruct (chol (shifted H lam)) as [U|] eqn:EC.
    - destruct (solve_system chol slv n H lam U z C S SH EC) as (y & _ & _ & p & _ & AP). exists p. exact AP.
    - exfalso. apply (chol_none n chol H lam C SH EC PD). }
  destruct P as (p & AP). exact (proj2 (newton_below n g H lam mu s z p q Delta SH PD SS GN SZ PS NZ DP AQ AP)).
Qed.

(** which message is left *)
Lemma t_message chol slv eigv eigd n g H Delta eps_D o :
  solve_MS chol slv eigv eigd n g H Delta eps_D = Some o ->
  (Delta = 0 -> ms_tag o = MsZeroRadius) /\
  (Delta <> 0 -> norm n g ^ 2 < / 10 ^ 12 -> ms_tag o = MsZeroGradient) /\
  (Delta <> 0 -> / 10 ^ 12 <= norm n g ^ 2 ->
    (ms_norms o < (1 - eps_D) * Delta -> ms_tag o = MsInterior) /\
    ((1 - eps_D) * Delta <= ms_norms o -> ms_tag o = MsBoundary)).
Proof.
  unfold solve_MS, ms_epsilon. destruct (Reqb Delta 0) eqn:ED.
  { apply Reqb_true in ED. intros K; injection K as <-. split; [auto|]. split; contradiction. }
  apply Reqb_false in ED. destruct (Rltb (norm n g ^ 2) (/ 10 ^ 12)) eqn:EG.
  { apply Rltb_true in EG. intros K; injection K as <-. split; [contradiction|]. split; [auto|]. intros _ K. lra. }
  apply Rltb_false in EG.
  assert (TG : forall (nn : R) t, t = (if Rltb nn ((1 - eps_D) * Delta) then MsInterior else MsBoundary) ->
    (nn < (1 - eps_D) * Delta -> t = MsInterior) /\ ((1 - eps_D) * Delta <= nn -> t = MsBoundary)).
  { intros nn t ->. destruct (Rltb nn ((1 - eps_D) * Delta)) eqn:EB.
    - apply Rltb_true in EB. split; auto. lra.
    - apply Rltb_false in EB. split; auto. lra. }
  destruct (ms_loop _ _ _ _ _ _ _ _ _ _ _ _) as [([(s, lam)|], k)|]; [| |discriminate];
    intros K; injection K as <-; (split; [contradiction|split; [intros _ K; lra|intros _ _]]); apply TG; reflexivity.
Qed.
