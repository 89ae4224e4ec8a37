(** The library's own solvers recognise first-order points with independent
    active gradients. *)
From Coq Require Import Reals List Lra Lia Arith Bool.
From Verif Require Import RVec RBool ProjGrad_Spec BL_Model BL_Spec BL_Proofs Hess_Model Mult_Model Mult_Spec Mult_Proofs Mult_Wit Kkt_Spec.
Import ListNotations.
Open Scope R_scope.

Lemma filter_le {T} (f : T -> bool) l : (length (filter f l) <= length l)%nat.
Proof. induction l as [|a l IH]; cbn; [lia|]. destruct (f a); cbn; lia. Qed.

Section P.
Variables (n nsl me : nat) (x : vec) (lb ub : nat -> xR) (oinf : xR) (dxmin : R).
Variables (g : vec) (ae : mat) (sl : vec).
Variables (evneg : bool) (ev : vec) (evec : mat).
Variable pin : nat -> mat -> list nat -> vec -> option vec.
Notation LO := (mlo n nsl x lb ub oinf dxmin).
Notation UP := (mup n nsl x lb ub oinf dxmin).
Notation K := (kept n nsl me x lb ub oinf dxmin).
Notation B := (rowsK n nsl me x lb ub oinf dxmin ae sl).
Notation RM := (red_mat n nsl me x lb ub oinf dxmin ae sl evneg ev evec).
Notation RB := (red_rhs n nsl me x lb ub oinf dxmin g ae sl).
Hypothesis Hev : negative_sound (n + nsl + me) (gram (n + nsl) (stacked n nsl me ae sl)) evneg.
Hypothesis Hs : (nsl <= me)%nat.
Hypothesis Hpin : solves_systems (n + me) pin.
Hypothesis Hind : independent n nsl me oinf dxmin x lb ub ae sl.

(** the rows kept are independent *)
Lemma rows_independent s : (forall j, (j < n + nsl)%nat -> rsum (length K) (fun p => B p j * s p) = 0) ->
  forall p, (p < length K)%nat -> s p = 0.
Proof.
  intros H.
  destruct (Hind (drop_slack n nsl (spread K s)) (fun k => drop_slack n nsl (spread K s) (n + k)%nat)) as [I1 I2].
  - apply zero_iff with (nsl := nsl). intros i Hi E1 E2. rewrite drop_small by exact Hi. unfold spread.
    destruct (index_of i K) as [p|] eqn:Ei; [|reflexivity]. exfalso. apply index_of_some in Ei. destruct Ei as [Hp Ei].
    assert (X : In i K) by (rewrite <- Ei; apply nth_In; exact Hp). apply kept_in in X. tauto.
  - intros j Hj.
    pose proof (lagr_spread n nsl me x lb ub oinf dxmin vzero ae sl s j Hj Hs) as L.
    unfold vadd at 1 in L. rewrite (H j Hj) in L.
    assert (Z : gloc n vzero j = 0) by (unfold gloc, vzero; destruct (Nat.ltb j n); reflexivity). rewrite Z in L.
    unfold lagr in *. unfold pad at 1 in L. unfold vzero at 1 in L. unfold vzero.
    assert (Z' : (if Nat.ltb j n then 0 else 0) = 0) by (destruct (Nat.ltb j n); reflexivity). rewrite Z' in L. lra.
  - intros p Hp. set (i := nth p K O).
    assert (Xi : In i K) by (apply nth_In; exact Hp).
    assert (E : spread K s i = s p).
    { unfold spread. destruct (index_of i K) as [q|] eqn:Ei.
      - apply index_of_some in Ei. destruct Ei as [Hq Ei].
        assert (q = p) by (apply (proj1 (NoDup_nth K O) (kept_nodup _ _ _ _ _ _ _ _)); assumption). subst. reflexivity.
      - apply index_of_none in Ei. contradiction. }
    rewrite <- E. pose proof (kept_lt _ _ _ _ _ _ _ _ _ Xi) as Li.
    destruct (Nat.lt_ge_cases i n) as [L|L].
    + rewrite <- (drop_small n nsl (spread K s) i L). apply I1. exact L.
    + destruct (Nat.lt_ge_cases i (n + nsl)) as [L'|L'].
      * apply spread_slack. lia.
      * replace i with (n + nsl + (i - (n + nsl)))%nat by lia. rewrite <- drop_big. apply I2. lia.
Qed.

(** a zero combination of the columns of the reduced matrix is trivial *)
Lemma red_injective s : (forall p, (p < length K)%nat -> mv (length K) RM s p = 0) -> forall p, (p < length K)%nat -> s p = 0.
Proof.
  intros H. apply rows_independent. intros j Hj.
  set (c := fun j => rsum (length K) (fun p => B p j * s p)).
  assert (D : dot (n + nsl) c c = 0).
  { unfold c at 1. rewrite (comb_dot (length K) (n + nsl) B s c). unfold dot. apply rsum_zero. intros p Hp.
    assert (E : mv (n + nsl) B c p = 0).
    { rewrite <- (H p Hp). unfold c. rewrite <- (M_comb (length K) (n + nsl) B s p). apply rsum_ext. intros q Hq.
      f_equal. symmetry. apply red_mat_eq. exact Hev. }
    rewrite E. ring. }
  assert (N : norm (n + nsl) c = 0) by (unfold norm; rewrite D; apply sqrt_0).
  apply (proj1 (norm_zero _ _)) in N. exact (N j Hj).
Qed.

(** at most one row for each variable and each constraint: slacks are cut out *)
Lemma kept_few : (length K <= n + me)%nat.
Proof.
  unfold kept. rewrite !seq_app, !filter_app, !app_length. cbn [Nat.add].
  assert (Z : forall l, (forall i, In i l -> (n <= i < n + nsl)%nat) ->
    filter (fun i => negb (xeqb (LO i) (UP i))) l = []).
  { induction l as [|i l IH]; intros H; [reflexivity|]. cbn [filter]. specialize (IH (fun j J => H j (or_intror J))).
    specialize (H i (or_introl eq_refl)). unfold mlo at 1, mup at 1. destruct (Nat.ltb_spec i n); [lia|].
    destruct (Nat.ltb_spec i (n + nsl)); [|lia]. cbn [xeqb]. destruct (Reqb_spec 0 0); [|congruence]. exact IH. }
  rewrite (Z (seq n nsl)) by (intros i Hi; apply in_seq in Hi; lia). cbn [length].
  pose proof (filter_le (fun i => negb (xeqb (LO i) (UP i))) (seq 0 n)) as L1.
  pose proof (filter_le (fun i => negb (xeqb (LO i) (UP i))) (seq (n + nsl) me)) as L2.
  rewrite seq_length in L1, L2. lia.
Qed.

Lemma returned mu lam : signs_ok n oinf dxmin x lb ub mu ->
  (forall mu' lam', zero_where_forced n oinf dxmin x lb ub mu' ->
     lagr_norm n nsl me g mu lam ae sl <= lagr_norm n nsl me g mu' lam' ae sl) ->
  exists lm, compute_multiplier n nsl me x lb ub oinf dxmin g ae sl evneg ev evec (lib_solver pin) = Some lm /\
    (forall i, (i < n)%nat -> lm i = mu i) /\ (forall k, (k < me)%nat -> lm (n + k)%nat = lam k).
Proof.
  intros Hsg Hmin.
  pose proof (proj2 (admissible_iff n nsl x lb ub oinf dxmin mu) Hsg) as Hadm.
  assert (Hmu : forall i, (i < n)%nat -> LO i = Fin 0 -> UP i = Fin 0 -> mu i = 0).
  { intros i Hi E1 E2. destruct (Hadm i Hi) as [B1 B2]. rewrite E1 in B1. rewrite E2 in B2. cbn in *. lra. }
  set (sn := fun p => glue n nsl mu lam (nth p K O)).
  (* the multipliers satisfy the reduced equations *)
  assert (NE : forall p, (p < length K)%nat -> mv (length K) RM sn p = RB p).
  { assert (Z : forall p, (p < length K)%nat -> mv (n + nsl) B (vadd (gloc n g) (fun j => rsum (length K) (fun p => B p j * sn p))) p = 0).
    { apply (normal_of_min (length K) (n + nsl) B (gloc n g) sn). intros t.
      pose (full := spread K t).
      assert (Hz : zero_where_forced n oinf dxmin x lb ub (drop_slack n nsl full)).
      { apply zero_iff with (nsl := nsl). intros i Hi E1 E2. rewrite drop_small by exact Hi. unfold full, spread.
        destruct (index_of i K) as [p|] eqn:Ei; [|reflexivity]. exfalso.
        apply index_of_some in Ei. destruct Ei as [Hp Ei].
        assert (X : In i K) by (rewrite <- Ei; apply nth_In; exact Hp). apply kept_in in X. tauto. }
      specialize (Hmin (drop_slack n nsl full) (fun k => drop_slack n nsl full (n + k)%nat) Hz).
      unfold lagr_norm in Hmin.
      rewrite (norm_ext _ _ _ (fun j Hj => lagr_glue n nsl me x lb ub oinf dxmin g ae sl Hs mu lam j Hj Hmu)) in Hmin.
      eapply Rle_trans; [exact Hmin|]. right. apply norm_ext. intros j Hj. symmetry. apply lagr_spread; assumption. }
    intros p Hp. specialize (Z p Hp). rewrite <- (small_res (length K) (n + nsl) B (gloc n g) sn p) in Z.
    rewrite red_rhs_eq.
    assert (E : mv (length K) RM sn p = mv (length K) (fun p q => rsum (n + nsl) (fun j => B p j * B q j)) sn p).
    { apply rsum_ext. intros q Hq. f_equal. apply red_mat_eq. exact Hev. }
    rewrite E. lra. }
  unfold compute_multiplier. destruct (list_eq_dec Nat.eq_dec K []) as [EK|EK].
  - rewrite EK. eexists. split; [reflexivity|]. split.
    + intros i Hi. rewrite drop_small by exact Hi. unfold vzero. symmetry.
      assert (NK : ~ In i K) by (rewrite EK; intros []).
      destruct (lo_cases n nsl x lb ub oinf dxmin i) as [E1|E1]; destruct (up_cases n nsl x lb ub oinf dxmin i) as [E2|E2];
        try (apply Hmu; assumption); exfalso; apply NK; apply kept_in; (split; [lia|]); intros [? ?]; congruence.
    + intros k Hk. exfalso. pose proof (kept_constraint n nsl me x lb ub oinf dxmin Hs k Hk) as X. rewrite EK in X. exact X.
  - destruct (Hpin (length K) RM RB kept_few (ex_intro _ sn NE)) as [p [Ep Sp]].
    assert (Lp : forall t, misfit (length K) (length K) RM RB p <= misfit (length K) (length K) RM RB t).
    { intros t. unfold misfit at 1. rewrite (proj2 (norm_zero (length K) _)); [apply norm_nonneg|].
      intros i Hi. unfold vsub, vzero. rewrite (Sp i Hi). ring. }
    assert (Eq : veq (length K) p sn).
    { intros i Hi.
      enough (vsub p sn i = 0) by (unfold vsub in *; lra). revert i Hi. apply red_injective. intros i Hi.
      pose proof (Sp i Hi) as Mp. pose proof (NE i Hi) as Ni.
      assert (E : mv (length K) RM (vsub p sn) i = mv (length K) RM p i - mv (length K) RM sn i).
      { unfold mv. rewrite <- rsum_minus. apply rsum_ext. intros q Hq. unfold vsub. ring. }
      rewrite E. lra. }
    assert (Hin : in_bounds (length K) (red_lo n nsl me x lb ub oinf dxmin) (red_up n nsl me x lb ub oinf dxmin) p).
    { intros q Hq. rewrite (Eq q Hq). unfold red_lo, red_up, sn.
      assert (X : In (nth q K O) K) by (apply nth_In; exact Hq).
      pose proof (proj1 (kept_in _ _ _ _ _ _ _ _ _) X) as [X1 X2]. unfold glue.
      destruct (Nat.ltb_spec (nth q K O) n) as [L|L]; [apply Hadm; exact L|].
      unfold mlo, mup. destruct (Nat.ltb_spec (nth q K O) n); [lia|].
      destruct (Nat.ltb_spec (nth q K O) (n + nsl)); cbn; auto. lra. }
    assert (LK : (0 < length K)%nat) by (destruct K; [congruence|cbn; lia]).
    destruct (blls_start (length K) (length K) RM RB (red_lo n nsl me x lb ub oinf dxmin) (red_up n nsl me x lb ub oinf dxmin)
      (pin (length K) RM) (proper_red _ _ _ _ _ _ _ _) p Ep LK Lp Hin) as [r [Er [_ [_ [Vr _]]]]].
    unfold lib_solver. rewrite Er. cbn [option_map].
    exists (drop_slack n nsl (full_mult n nsl me x lb ub oinf dxmin (r_s r))). split; [destruct K; [congruence|reflexivity]|].
    assert (FM : forall i, (i < n + nsl + me)%nat -> full_mult n nsl me x lb ub oinf dxmin (r_s r) i = glue n nsl mu lam i).
    { intros i Hi. unfold full_mult. destruct (index_of i K) as [q|] eqn:Ei.
      - apply index_of_some in Ei. destruct Ei as [Hq Ei]. rewrite (Vr q Hq), (Eq q Hq). unfold sn. rewrite Ei. reflexivity.
      - apply index_of_none in Ei. rewrite kept_in in Ei. unfold glue. destruct (Nat.ltb_spec i n) as [L|L].
        + symmetry.
          destruct (lo_cases n nsl x lb ub oinf dxmin i) as [E1|E1]; destruct (up_cases n nsl x lb ub oinf dxmin i) as [E2|E2];
            try (apply Hmu; assumption); exfalso; apply Ei; (split; [exact Hi|]); intros [? ?]; congruence.
        + destruct (Nat.ltb_spec i (n + nsl)) as [L'|L']; [reflexivity|]. exfalso. apply Ei. rewrite <- kept_in.
          replace i with (n + nsl + (i - (n + nsl)))%nat by lia. apply kept_constraint; [exact Hs|lia]. }
    split.
    + intros i Hi. rewrite drop_small, FM by lia. unfold glue. destruct (Nat.ltb_spec i n); [reflexivity|lia].
    + intros k Hk. rewrite drop_big, FM by lia. unfold glue. destruct (Nat.ltb_spec (n + nsl + k) n); [lia|].
      destruct (Nat.ltb_spec (n + nsl + k) (n + nsl)); [lia|]. f_equal. lia.
Qed.
End P.

(** ** First-order points *)
Section F.
Variables (n nsl me : nat) (x : vec) (lb ub : nat -> xR) (dxmin : R).
Variables (g ce : vec) (ae : mat) (sl : vec).
Variables (evneg : bool) (ev : vec) (evec : mat).
Variable pin : nat -> mat -> list nat -> vec -> option vec.
Variables (mu lam : vec).
Notation e5 := (1 / 10 ^ 5).
Hypothesis Hev : negative_sound (n + nsl + me) (gram (n + nsl) (stacked n nsl me ae sl)) evneg.
Hypothesis Hs : (nsl <= me)%nat.
Hypothesis Hpin : solves_systems (n + me) pin.
Hypothesis HF : first_order_point n nsl me e5 dxmin x lb ub g ce ae mu lam.
Hypothesis Hsl : slacks_fit nsl me ce sl.
Hypothesis HI : active_independent n nsl me e5 x lb ub ce ae.
Notation nlb := (fun i => near_only (lb i) (x i) NInf).
Notation nub := (fun i => near_only (ub i) (x i) PInf).

Lemma near_only_lb i : (close e5 (x i) (lb i) /\ nlb i = lb i) \/ (~ close e5 (x i) (lb i) /\ nlb i = NInf).
Proof.
  unfold near_only. destruct (near e5 (x i) (lb i)) eqn:E; [left|right]; (split; [|reflexivity]).
  - apply near_close. exact E.
  - intros C. apply near_close in C. congruence.
Qed.
Lemma near_only_ub i : (close e5 (x i) (ub i) /\ nub i = ub i) \/ (~ close e5 (x i) (ub i) /\ nub i = PInf).
Proof.
  unfold near_only. destruct (near e5 (x i) (ub i)) eqn:E; [left|right]; (split; [|reflexivity]).
  - apply near_close. exact E.
  - intros C. apply near_close in C. congruence.
Qed.

Lemma point_signs : signs_ok n PInf dxmin x nlb nub mu.
Proof.
  destruct HF as [_ [F1 [F2 _]]]. intros i Hi. split.
  - intros H. apply Rnot_lt_le. intros L. destruct (F1 i Hi L) as [C NC].
    destruct H as [H|[H1 H2]].
    + destruct (near_only_lb i) as [[_ E]|[X _]]; [|contradiction]. cbv beta in E. rewrite E in H.
      destruct C as [a [Ea _]]. rewrite Ea in H. exact H.
    + destruct (near_only_ub i) as [[_ E]|[_ E]]; cbv beta in E; rewrite E in *.
      * contradiction.
      * apply H1. exact Logic.I.
  - intros H. apply Rnot_lt_le. intros L. destruct (F2 i Hi L) as [C NC].
    destruct H as [H|[H1 H2]].
    + destruct (near_only_ub i) as [[_ E]|[X _]]; [|contradiction]. cbv beta in E. rewrite E in H.
      destruct C as [a [Ea _]]. rewrite Ea in H. exact H.
    + destruct (near_only_lb i) as [[_ E]|[_ E]]; cbv beta in E; rewrite E in *.
      * contradiction.
      * apply H1. exact Logic.I.
Qed.

Lemma slack_part l v t : (t < nsl)%nat ->
  lagr me (pad n v) (pad n l) lam (slack_jac n nsl me ae sl) (n + t)%nat = -2 * sl t * lam (me - nsl + t)%nat.
Proof.
  intros Ht. unfold lagr, pad. destruct (Nat.ltb_spec (n + t) n); [lia|].
  rewrite (rsum_single me (me - nsl + t)).
  - unfold slack_jac. destruct (Nat.ltb_spec (n + t) n); [lia|]. replace (n + t - n)%nat with t by lia. rewrite Nat.eqb_refl. ring.
  - lia.
  - intros k Hk Hne. unfold slack_jac. destruct (Nat.ltb_spec (n + t) n); [lia|]. replace (n + t - n)%nat with t by lia.
    destruct (Nat.eqb_spec k (me - nsl + t)); [contradiction|ring].
Qed.
End F.

Lemma slack_entry n nsl me ae sl (v l lam : vec) t : (nsl <= me)%nat -> (t < nsl)%nat ->
  lagr me (pad n v) (pad n l) lam (slack_jac n nsl me ae sl) (n + t)%nat = -2 * sl t * lam (me - nsl + t)%nat.
Proof. intros Hs Ht. apply slack_part; assumption. Qed.

Lemma var_entry n nsl me ae sl (v l lam : vec) j : (j < n)%nat ->
  lagr me (pad n v) (pad n l) lam (slack_jac n nsl me ae sl) j = lagr me v l lam ae j.
Proof.
  intros Hj. unfold lagr, pad. destruct (Nat.ltb_spec j n); [|lia]. f_equal. apply rsum_ext. intros k Hk.
  unfold slack_jac. destruct (Nat.ltb_spec j n); [reflexivity|lia].
Qed.

Lemma recognised n nsl me x lb ub dxmin g ce ae sl evneg ev evec pin mu lam :
  negative_sound (n + nsl + me) (gram (n + nsl) (stacked n nsl me ae sl)) evneg -> (nsl <= me)%nat -> solves_systems (n + me) pin ->
  first_order_point n nsl me (1 / 10 ^ 5) dxmin x lb ub g ce ae mu lam -> slacks_fit nsl me ce sl ->
  active_independent n nsl me (1 / 10 ^ 5) x lb ub ce ae ->
  exists glag feas compl lm,
    measures n nsl me x lb ub PInf dxmin g ce ae sl evneg ev evec (lib_solver pin) = Some (glag, feas, compl, lm) /\
    (forall j, (j < n)%nat -> glag j = 0 /\ compl j = 0 /\ lm j = mu j) /\
    (forall k, (k < me)%nat -> feas k = 0 /\ lm (n + k)%nat = lam k).
Proof.
  intros Hev Hs Hpin HF Hsl HI.
  pose proof (point_signs n nsl me x lb ub dxmin g ce ae mu lam HF) as SG.
  pose proof HF as [F0 [F1 [F2 [F3 F4]]]].
  assert (SZ : forall t, (t < nsl)%nat -> sl t * lam (me - nsl + t)%nat = 0).
  { intros t Ht. destruct (F4 (me - nsl + t)%nat ltac:(lia)) as [_ Z]. rewrite (Hsl t Ht) in Z.
    destruct (Rmult_integral _ _ Z) as [E|E]; [rewrite E; ring|]. destruct (Rmult_integral _ _ E) as [E'|E']; rewrite E'; ring. }
  assert (LZ : forall j, (j < n + nsl)%nat -> lagr me (pad n g) (pad n mu) lam (slack_jac n nsl me ae sl) j = 0).
  { intros j Hj. destruct (Nat.lt_ge_cases j n) as [L|L]; [rewrite var_entry by exact L; apply F0; exact L|].
    replace j with (n + (j - n))%nat by lia. rewrite slack_entry by lia. rewrite Rmult_assoc, SZ by lia. ring. }
  assert (ND : independent n nsl me PInf dxmin x (fun i => near_only (lb i) (x i) NInf) (fun i => near_only (ub i) (x i) PInf) ae sl).
  { intros mu' lam' Hz Hl. apply HI.
    - intros i Hi C1 C2. apply (Hz i Hi). intros t [S1 S2].
      destruct (near_only_lb x lb i) as [[X _]|[_ E1]]; [contradiction|].
      destruct (near_only_ub x ub i) as [[X _]|[_ E2]]; [contradiction|]. cbv beta in E1, E2. rewrite E1, E2 in *.
      assert (0 <= t) by (apply S1; left; exact Logic.I). assert (t <= 0) by (apply S2; left; exact Logic.I). lra.
    - intros k Hk Hc. specialize (Hl (n + (k - (me - nsl)))%nat ltac:(lia)).
      assert (E : lagr me vzero (pad n mu') lam' (slack_jac n nsl me ae sl) (n + (k - (me - nsl)))%nat
        = lagr me (pad n vzero) (pad n mu') lam' (slack_jac n nsl me ae sl) (n + (k - (me - nsl)))%nat).
      { unfold lagr, pad, vzero. destruct (Nat.ltb _ _); reflexivity. }
      rewrite E, slack_entry in Hl by lia. replace (me - nsl + (k - (me - nsl)))%nat with k in Hl by lia.
      assert (NS : sl (k - (me - nsl))%nat <> 0).
      { intros Z. apply Hc. replace k with (me - nsl + (k - (me - nsl)))%nat by lia. rewrite Hsl by lia. rewrite Z. ring. }
      destruct (Rmult_integral _ _ Hl) as [X|X]; [|exact X]. exfalso. apply NS. lra.
    - intros j Hj. rewrite <- (Hl j) by lia. rewrite <- (var_entry n nsl me ae sl vzero mu' lam' j Hj).
      unfold lagr, pad, vzero. destruct (Nat.ltb j n); reflexivity. }
  destruct (returned n nsl me x _ _ PInf dxmin g ae sl evneg ev evec pin Hev Hs Hpin ND mu lam SG) as [lm [EC [L1 L2]]].
  { intros mu' lam' _. unfold lagr_norm at 1. rewrite (proj2 (norm_zero (n + nsl) _)); [apply norm_nonneg|]. exact LZ. }
  assert (EM : measures n nsl me x lb ub PInf dxmin g ce ae sl evneg ev evec (lib_solver pin) =
    Some (opt_glag n nsl me x lb ub g ae sl lm, opt_feas nsl me sl ce, opt_compl, lm)) by (unfold measures; rewrite EC; reflexivity).
  eexists _, _, _, _. split; [exact EM|]. destruct (measures_meaning _ _ _ _ _ _ _ _ _ _ _ _ _ _ _ _ _ _ _ _ Hs EM) as [MC [MF [MS [MN MA]]]].
  split.
  - intros j Hj. split; [|split; [apply MC|apply L1; exact Hj]].
    assert (X : lagr me g mu lam ae j = lagr me g lm (fun k => lm (n + k)%nat) ae j).
    { unfold lagr. rewrite (L1 j Hj). f_equal. apply rsum_ext. intros k Hk. rewrite (L2 k Hk). reflexivity. }
    destruct (near_only_lb x lb j) as [[C _]|[C1 _]]; [rewrite (MN j Hj (or_introl C)), <- X; apply F0; exact Hj|].
    destruct (near_only_ub x ub j) as [[C _]|[C2 _]]; [rewrite (MN j Hj (or_intror C)), <- X; apply F0; exact Hj|].
    rewrite MA by (exact Hj || (intros [?|?]; contradiction)).
    assert (Z : mu j = 0).
    { destruct (Rtotal_order (mu j) 0) as [Y|[Y|Y]]; [destruct (F1 j Hj Y); contradiction|exact Y|destruct (F2 j Hj Y); contradiction]. }
    rewrite <- (F0 j Hj), X. unfold lagr, vzero. rewrite (L1 j Hj), Z. reflexivity.
  - intros k Hk. split; [|apply L2; exact Hk]. destruct (Nat.lt_ge_cases k (me - nsl)) as [L|L].
    + rewrite MF by exact L. apply F3. exact L.
    + replace k with (me - nsl + (k - (me - nsl)))%nat by lia. rewrite MS by lia. rewrite Hsl by lia. ring.
Qed.
