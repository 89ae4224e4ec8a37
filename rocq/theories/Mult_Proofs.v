From Coq Require Import Reals Lra Lia Arith List Bool Psatz.
From Verif Require Import RVec RBool ProjGrad_Spec BL_Model BL_Spec BL_Proofs Hess_Model Mult_Model Mult_Spec.
Import ListNotations.
Open Scope R_scope.

(** ** Positions in a list *)

Lemma index_of_some i l p : index_of i l = Some p -> (p < length l)%nat /\ nth p l O = i.
Proof.
  revert p. induction l as [|j t IH]; intros p H; cbn in H; [discriminate|].
  destruct (Nat.eqb_spec i j) as [->|Hne].
  - injection H as <-. cbn. split; [lia|reflexivity].
  - destruct (index_of i t) as [q|]; cbn in H; [|discriminate]. injection H as <-.
    destruct (IH q eq_refl). cbn. split; [lia|assumption].
Qed.

Lemma index_of_none i l : index_of i l = None <-> ~ In i l.
Proof.
  induction l as [|j t IH]; cbn; [tauto|].
  destruct (Nat.eqb_spec i j) as [->|Hne].
  - split; [discriminate|tauto].
  - destruct (index_of i t) as [q|]; cbn.
    + split; [discriminate|]. intros H. exfalso. destruct IH as [_ IH].
      assert (X : Some q = None) by (apply IH; tauto). discriminate.
    + split; [|reflexivity]. intros _ [E|E]; [congruence|]. apply IH; [reflexivity|exact E].
Qed.

Definition spread (K : list nat) (sn : vec) : vec :=
  fun i => match index_of i K with Some p => sn p | None => 0 end.

Lemma rsum_spread N K (F sn : vec) : NoDup K -> (forall i, In i K -> (i < N)%nat) ->
  rsum N (fun i => F i * spread K sn i) = rsum (length K) (fun p => F (nth p K O) * sn p).
Proof.
  revert sn. induction K as [|j t IH]; intros sn HD HB.
  - cbn [length rsum]. apply rsum_zero. intros. cbn. lra.
  - inversion HD as [|? ? Hj HD']; subst. cbn [length]. rewrite rsum_S_first. cbn [nth].
    rewrite <- (IH (fun p => sn (S p)) HD') by (intros; apply HB; right; assumption).
    rewrite (rsum_ext N _ (fun i => F i * (if Nat.eqb i j then sn O else 0) + F i * spread t (fun p => sn (S p)) i)).
    + rewrite rsum_plus. f_equal. rewrite (rsum_single N j).
      * rewrite Nat.eqb_refl. reflexivity.
      * apply HB. left. reflexivity.
      * intros i Hi Hne. destruct (Nat.eqb_spec i j); [congruence|lra].
    + intros i Hi. unfold spread. cbn [index_of]. destruct (Nat.eqb_spec i j) as [->|Hne].
      * assert (E : index_of j t = None) by (apply index_of_none; exact Hj). rewrite E. lra.
      * destruct (index_of i t); cbn; lra.
Qed.

(** ** Least squares through the normal matrix *)

Section LS.
Variables (k d : nat) (B : mat) (gl : vec).  (* B: k x d *)
Let M : mat := fun p q => rsum d (fun j => B p j * B q j).
Let rhs : vec := fun p => - mv d B gl p.
Let comb (s : vec) : vec := fun j => rsum k (fun p => B p j * s p). (* B' s *)

Lemma M_comb s p : mv k M s p = mv d B (comb s) p.
Proof.
  unfold mv, M, comb.
  rewrite (rsum_ext k _ (fun q => rsum d (fun j => B p j * (B q j * s q)))).
  2:{ intros q Hq. rewrite <- rsum_scal_r. apply rsum_ext. intros. ring. }
  rewrite rsum_swap. apply rsum_ext. intros j Hj. rewrite <- rsum_scal. reflexivity.
Qed.

Lemma comb_dot s v : dot d (comb s) v = dot k s (mv d B v).
Proof.
  unfold dot, comb, mv.
  rewrite (rsum_ext d _ (fun j => rsum k (fun p => s p * (B p j * v j)))).
  2:{ intros j Hj. rewrite <- rsum_scal_r. apply rsum_ext. intros. ring. }
  rewrite rsum_swap. apply rsum_ext. intros p Hp. rewrite <- rsum_scal. reflexivity.
Qed.

(** the residual of the small system is B applied to the Lagrangian gradient *)
Lemma small_res s p : mv k M s p - rhs p = mv d B (vadd gl (comb s)) p.
Proof. rewrite M_comb, mv_add. unfold rhs. lra. Qed.

Lemma normal_min s : (forall p, (p < k)%nat -> mv d B (vadd gl (comb s)) p = 0) ->
  forall t, norm d (vadd gl (comb s)) <= norm d (vadd gl (comb t)).
Proof.
  intros H t. apply norm_le_sq.
  set (v := vadd gl (comb s)).
  assert (E : veq d (vadd gl (comb t)) (vadd v (comb (vsub t s)))).
  { intros j Hj. unfold vadd, v, vadd, comb, vsub.
    rewrite (rsum_ext k (fun p => B p j * (t p - s p)) (fun p => B p j * t p - B p j * s p)) by (intros; ring).
    rewrite rsum_minus. lra. }
  rewrite (dot_ext _ _ _ _ _ E E), dot_add_l, !dot_add_r, (dot_sym d v (comb (vsub t s))).
  rewrite (comb_dot (vsub t s) v).
  assert (Z : dot k (vsub t s) (mv d B v) = 0).
  { apply rsum_zero. intros p Hp. fold v in H. rewrite (H p Hp). lra. }
  rewrite Z. pose proof (dot_self_nonneg d (comb (vsub t s))). lra.
Qed.

(** a minimiser of the Lagrangian gradient satisfies the normal equations *)
Lemma normal_of_min s : (forall t, norm d (vadd gl (comb s)) <= norm d (vadd gl (comb t))) ->
  forall p, (p < k)%nat -> mv d B (vadd gl (comb s)) p = 0.
Proof.
  intros H.
  assert (E : forall t, misfit d k (fun j p => B p j) (fun j => - gl j) t = norm d (vadd gl (comb t))).
  { intros t. apply norm_ext. intros j Hj. unfold vsub, vadd, mv, comb. lra. }
  assert (G := lsq_grad_zero d k (fun j p => B p j) (fun j => - gl j) s).
  assert (H' : forall t, misfit d k (fun j p => B p j) (fun j => - gl j) s <= misfit d k (fun j p => B p j) (fun j => - gl j) t)
    by (intros t; rewrite !E; apply H).
  intros p Hp. rewrite <- (G H' p Hp). unfold misfit_grad, mv at 1. apply rsum_ext. intros j Hj.
  f_equal. unfold vadd, mv, comb. lra.
Qed.

(** an unconstrained minimiser of the small system satisfies the normal equations *)
Lemma small_min_normal s : (forall t, misfit k k M rhs s <= misfit k k M rhs t) ->
  forall p, (p < k)%nat -> mv d B (vadd gl (comb s)) p = 0.
Proof.
  intros H.
  pose proof (lsq_grad_zero k k M rhs s H) as G.
  set (v := vadd gl (comb s)). set (w := mv d B v).
  assert (G' : forall q, (q < k)%nat -> mv k M w q = 0).
  { intros q Hq. rewrite <- (G q Hq). unfold misfit_grad, mv at 1. apply rsum_ext. intros i Hi.
    rewrite small_res. fold v. fold w. f_equal. unfold M. apply rsum_ext. intros. ring. }
  assert (Z1 : dot d (comb w) (comb w) = 0).
  { rewrite comb_dot. apply rsum_zero. intros p Hp. rewrite <- M_comb, G' by exact Hp. lra. }
  apply dot_self_zero in Z1.
  assert (Z2 : dot k w w = 0).
  { change w with (mv d B v) at 2. rewrite <- comb_dot. apply rsum_zero. intros j Hj.
    rewrite (Z1 j Hj). unfold vzero. lra. }
  apply (proj1 (dot_self_zero k w)) in Z2. exact Z2.
Qed.

(** if a point within the bounds satisfies them, so does every minimiser within the bounds *)
Lemma small_bounded_normal l u s t : solves k k M rhs l u s -> in_bounds k l u t ->
  (forall p, (p < k)%nat -> mv d B (vadd gl (comb t)) p = 0) ->
  forall p, (p < k)%nat -> mv d B (vadd gl (comb s)) p = 0.
Proof.
  intros [_ H] Ht HN. specialize (H t Ht).
  assert (Z : misfit k k M rhs t = 0).
  { unfold misfit. apply norm_zero. intros p Hp. unfold vsub. rewrite small_res. rewrite HN by exact Hp. reflexivity. }
  rewrite Z in H.
  assert (Z' : misfit k k M rhs s = 0) by (apply Rle_antisym; [exact H|apply norm_nonneg]).
  unfold misfit in Z'. apply (proj1 (norm_zero _ _)) in Z'. intros p Hp. specialize (Z' p Hp).
  unfold vsub, vzero in Z'. rewrite small_res in Z'. exact Z'.
Qed.
End LS.

(** ** The bounds on the multipliers *)

Section P.
Variables (n nsl me : nat) (x : vec) (lb ub : nat -> xR) (oinf : xR) (dxmin : R).
Variables (g : vec) (ae : mat) (sl : vec).
Variables (evneg : bool) (ev : vec) (evec : mat).
Variable solver : lsq_solver.

Notation LO := (mlo n nsl x lb ub oinf dxmin).
Notation UP := (mup n nsl x lb ub oinf dxmin).
Notation K := (kept n nsl me x lb ub oinf dxmin).
Notation A := (bigA n nsl me ae sl).

Lemma lo_cases i : LO i = Fin 0 \/ LO i = NInf.
Proof.
  unfold mlo. destruct (Nat.ltb i n); [destruct (_ && _); [auto|destruct (xleb _ _); auto]|].
  destruct (Nat.ltb _ _); auto.
Qed.
Lemma up_cases i : UP i = Fin 0 \/ UP i = PInf.
Proof.
  unfold mup. destruct (Nat.ltb i n); [destruct (_ && _); [auto|destruct (xleb _ _); auto]|].
  destruct (Nat.ltb _ _); auto.
Qed.

Lemma proper_red : proper_bounds (length K) (red_lo n nsl me x lb ub oinf dxmin) (red_up n nsl me x lb ub oinf dxmin).
Proof.
  intros p Hp. exists 0. unfold red_lo, red_up.
  destruct (lo_cases (nth p K O)) as [->| ->]; destruct (up_cases (nth p K O)) as [->| ->]; cbn; lra.
Qed.

Lemma kept_in i : In i K <-> (i < n + nsl + me)%nat /\ ~ (LO i = Fin 0 /\ UP i = Fin 0).
Proof.
  unfold kept. rewrite filter_In, in_seq, negb_true_iff.
  destruct (lo_cases i) as [->| ->]; destruct (up_cases i) as [->| ->]; cbn [xeqb].
  - destruct (Reqb_spec 0 0); [|congruence]. intuition (congruence || lia).
  - intuition (congruence || lia).
  - intuition (congruence || lia).
  - intuition (congruence || lia).
Qed.

Lemma kept_nodup : NoDup K.
Proof. apply NoDup_filter. apply seq_NoDup. Qed.
Lemma kept_lt i : In i K -> (i < n + nsl + me)%nat.
Proof. intros H. apply kept_in in H. tauto. Qed.

(** every multiplier is within the bounds of lines 100-121 *)
Lemma full_in sn : in_bounds (length K) (red_lo n nsl me x lb ub oinf dxmin) (red_up n nsl me x lb ub oinf dxmin) sn ->
  forall i, (i < n + nsl + me)%nat ->
  xle_r (LO i) (spread K sn i) /\ rle_x (spread K sn i) (UP i).
Proof.
  intros H i Hi. unfold spread. destruct (index_of i K) as [p|] eqn:E.
  - apply index_of_some in E. destruct E as [Hp E]. specialize (H p Hp). unfold red_lo, red_up in H.
    rewrite E in H. exact H.
  - apply index_of_none in E. rewrite kept_in in E.
    destruct (lo_cases i) as [L|L]; destruct (up_cases i) as [U|U]; rewrite L, U in *; cbn; try lra;
    exfalso; apply E; (split; [exact Hi|]); intros [? ?]; congruence.
Qed.

(** signs *)
Lemma xleb_xle e f : xleb e f = true <-> xle e f.
Proof.
  destruct e, f; cbn; try tauto; try (split; [discriminate|tauto]).
  destruct (Rleb_spec r r0); split; intros; try tauto; try discriminate; lra.
Qed.
Lemma xneg_opp e : xneg e = opp e.
Proof. destruct e; reflexivity. Qed.
Lemma near_close d y e : near d y e = true <-> close d y e.
Proof.
  unfold near, close. destruct e as [a| |].
  - destruct (Rltb_spec (Rabs (y - a)) d); split; intros H; try discriminate; try reflexivity.
    + exists a. auto.
    + destruct H as [a' [E H]]. injection E as <-. lra.
  - split; [discriminate|intros [a [E _]]; discriminate].
  - split; [discriminate|intros [a [E _]]; discriminate].
Qed.

Lemma sign_ok_iff i m : (i < n)%nat ->
  (sign_ok oinf dxmin (x i) (lb i) (ub i) m <-> xle_r (LO i) m /\ rle_x m (UP i)).
Proof.
  intros Hi. unfold sign_ok, mlo, mup. destruct (Nat.ltb_spec i n); [|lia].
  rewrite <- xneg_opp, <- !xleb_xle, <- !near_close.
  destruct (xleb (lb i) (xneg oinf)), (xleb oinf (ub i)), (near dxmin (x i) (lb i)), (near dxmin (x i) (ub i));
    cbn; intuition (try discriminate; try lra).
Qed.

Lemma forced_zero i : (i < n)%nat ->
  ((forall t, sign_ok oinf dxmin (x i) (lb i) (ub i) t -> t = 0) <-> LO i = Fin 0 /\ UP i = Fin 0).
Proof.
  intros Hi. split.
  - intros H. assert (H' : forall t, xle_r (LO i) t /\ rle_x t (UP i) -> t = 0) by (intros t Ht; apply H, sign_ok_iff; assumption).
    destruct (lo_cases i) as [E|E]; destruct (up_cases i) as [F|F]; rewrite E, F in *; auto; exfalso.
    + specialize (H' 1). cbn in H'. assert (1 = 0) by (apply H'; split; [lra|auto]). lra.
    + specialize (H' (-1)). cbn in H'. assert (-1 = 0) by (apply H'; split; [auto|lra]). lra.
    + specialize (H' 1). cbn in H'. assert (1 = 0) by (apply H'; split; auto). lra.
  - intros [E F] t Ht. apply sign_ok_iff in Ht; [|exact Hi]. rewrite E, F in Ht. cbn in Ht. lra.
Qed.

Lemma drop_small lm i : (i < n)%nat -> drop_slack n nsl lm i = lm i.
Proof. intros H. unfold drop_slack. destruct (Nat.ltb_spec i n); [reflexivity|lia]. Qed.

Lemma drop_big lm k : drop_slack n nsl lm (n + k)%nat = lm (n + nsl + k)%nat.
Proof. unfold drop_slack. destruct (Nat.ltb_spec (n + k) n); [lia|]. f_equal. lia. Qed.

(** what the answer looks like *)
Lemma compute_form lm :
  compute_multiplier n nsl me x lb ub oinf dxmin g ae sl evneg ev evec solver = Some lm ->
  (K = [] /\ lm = drop_slack n nsl vzero) \/
  exists sn, solver (length K) (red_mat n nsl me x lb ub oinf dxmin ae sl evneg ev evec)
      (red_rhs n nsl me x lb ub oinf dxmin g ae sl) (red_lo n nsl me x lb ub oinf dxmin)
      (red_up n nsl me x lb ub oinf dxmin) = Some sn /\ lm = drop_slack n nsl (spread K sn).
Proof.
  unfold compute_multiplier. destruct K as [|i0 l0] eqn:E.
  - intros H. injection H as <-. auto.
  - intros H. right. destruct (solver _ _ _ _ _) as [sn|]; [|discriminate]. injection H as <-.
    exists sn. split; [reflexivity|]. unfold full_mult, spread. rewrite E. reflexivity.
Qed.

Lemma mult_signs_call lm :
  (forall sn, solver (length K) (red_mat n nsl me x lb ub oinf dxmin ae sl evneg ev evec)
      (red_rhs n nsl me x lb ub oinf dxmin g ae sl) (red_lo n nsl me x lb ub oinf dxmin)
      (red_up n nsl me x lb ub oinf dxmin) = Some sn ->
    in_bounds (length K) (red_lo n nsl me x lb ub oinf dxmin) (red_up n nsl me x lb ub oinf dxmin) sn) ->
  compute_multiplier n nsl me x lb ub oinf dxmin g ae sl evneg ev evec solver = Some lm ->
  signs_ok n oinf dxmin x lb ub lm.
Proof.
  intros HR H. apply compute_form in H. destruct H as [[_ ->]|[sn [H ->]]].
  - intros i Hi. apply sign_ok_iff; [exact Hi|]. rewrite drop_small by exact Hi. unfold vzero.
    destruct (lo_cases i) as [->| ->]; destruct (up_cases i) as [->| ->]; cbn; lra.
  - intros i Hi. apply sign_ok_iff; [exact Hi|]. rewrite drop_small by exact Hi. apply full_in; [|lia].
    apply HR. exact H.
Qed.

Lemma mult_signs lm : respects_bounds solver ->
  compute_multiplier n nsl me x lb ub oinf dxmin g ae sl evneg ev evec solver = Some lm ->
  signs_ok n oinf dxmin x lb ub lm.
Proof. intros HR. apply mult_signs_call. intros sn Hs. eapply HR; [apply proper_red|exact Hs]. Qed.

(** ** Least squares *)

Lemma jac_slack k j : (k < me)%nat -> (j < n + nsl)%nat -> (nsl <= me)%nat ->
  jac n nsl me ae sl k j = slack_jac n nsl me ae sl k j.
Proof.
  intros Hk Hj Hs. unfold jac, slack_jac. destruct (Nat.ltb_spec j n); [reflexivity|].
  destruct (Nat.ltb_spec k (me - nsl)).
  - destruct (Nat.eqb_spec k (me - nsl + (j - n))); [lia|reflexivity].
  - destruct (Nat.eqb_spec (k - (me - nsl)) (j - n)); destruct (Nat.eqb_spec k (me - nsl + (j - n)));
      try reflexivity; lia.
Qed.

Hypothesis Hev : negative_sound (n + nsl + me) (gram (n + nsl) (stacked n nsl me ae sl)) evneg.

Lemma gram_psd N d B y : 0 <= quad N (gram d B) y.
Proof.
  unfold quad. 
  rewrite (dot_ext N y y _ (mv d B (fun j => rsum N (fun p => B p j * y p))) (fun i _ => eq_refl)).
  - rewrite <- comb_dot. apply dot_self_nonneg.
  - intros p Hp. apply (M_comb N d B).
Qed.

Lemma evneg_false : evneg = false.
Proof.
  destruct evneg; [|reflexivity]. destruct (Hev eq_refl) as [y Hy].
  pose proof (gram_psd (n + nsl + me) (n + nsl) (stacked n nsl me ae sl) y). lra.
Qed.

(** the reduced problem in terms of the rows kept *)
Definition rowsK : mat := fun p j => A (nth p K O) j.

Lemma red_mat_eq p q :
  red_mat n nsl me x lb ub oinf dxmin ae sl evneg ev evec p q = rsum (n + nsl) (fun j => rowsK p j * rowsK q j).
Proof. unfold red_mat, mAA. rewrite evneg_false. reflexivity. Qed.

Lemma red_rhs_eq p : red_rhs n nsl me x lb ub oinf dxmin g ae sl p = - mv (n + nsl) rowsK (gloc n g) p.
Proof. reflexivity. Qed.

(** A' times a full vector of multipliers *)
Lemma At_full (v : vec) j : (j < n + nsl)%nat -> (nsl <= me)%nat ->
  rsum (n + nsl + me) (fun i => A i j * v i)
  = v j + rsum me (fun k => slack_jac n nsl me ae sl k j * v (n + nsl + k)%nat).
Proof.
  intros Hj Hs. rewrite rsum_split. f_equal.
  - rewrite (rsum_single (n + nsl) j).
    + unfold bigA. destruct (Nat.ltb_spec j (n + nsl)); [|lia]. unfold idm. rewrite Nat.eqb_refl. lra.
    + exact Hj.
    + intros i Hi Hne. unfold bigA. destruct (Nat.ltb_spec i (n + nsl)); [|lia].
      unfold idm. destruct (Nat.eqb_spec i j); [congruence|lra].
  - apply rsum_ext. intros k Hk. f_equal. unfold bigA.
    destruct (Nat.ltb_spec (n + nsl + k) (n + nsl)); [lia|].
    replace (n + nsl + k - (n + nsl))%nat with k by lia. apply jac_slack; assumption.
Qed.

Lemma comb_spread sn j : (j < n + nsl)%nat -> (nsl <= me)%nat ->
  rsum (length K) (fun p => rowsK p j * sn p)
  = spread K sn j + rsum me (fun k => slack_jac n nsl me ae sl k j * spread K sn (n + nsl + k)%nat).
Proof.
  intros Hj Hs. unfold rowsK.
  rewrite <- (rsum_spread (n + nsl + me) K (fun i => A i j) sn kept_nodup kept_lt).
  apply At_full; assumption.
Qed.

Lemma spread_slack sn i : (n <= i < n + nsl)%nat -> spread K sn i = 0.
Proof.
  intros Hi. unfold spread. destruct (index_of i K) as [p|] eqn:E; [|reflexivity].
  exfalso. apply index_of_some in E. destruct E as [Hp E].
  assert (X : In i K) by (rewrite <- E; apply nth_In; exact Hp).
  apply kept_in in X. apply X. unfold mlo, mup.
  destruct (Nat.ltb_spec i n); [lia|]. destruct (Nat.ltb_spec i (n + nsl)); [auto|lia].
Qed.

(** the multipliers of the variables, extended by zeros for the slacks *)
Notation ext0 := (pad n).

Lemma lagr_spread sn j : (j < n + nsl)%nat -> (nsl <= me)%nat ->
  vadd (gloc n g) (fun j => rsum (length K) (fun p => rowsK p j * sn p)) j =
  lagr me (ext0 g) (ext0 (drop_slack n nsl (spread K sn))) (fun k => drop_slack n nsl (spread K sn) (n + k)%nat)
       (slack_jac n nsl me ae sl) j.
Proof.
  intros Hj Hs. unfold vadd, lagr. rewrite comb_spread by assumption.
  replace (gloc n g j) with (ext0 g j) by reflexivity.
  replace (ext0 (drop_slack n nsl (spread K sn)) j) with (spread K sn j).
  - rewrite (rsum_ext me (fun k => slack_jac n nsl me ae sl k j * drop_slack n nsl (spread K sn) (n + k)%nat)
      (fun k => slack_jac n nsl me ae sl k j * spread K sn (n + nsl + k)%nat)); [lra|].
    intros k Hk. rewrite drop_big. reflexivity.
  - unfold pad. destruct (Nat.ltb_spec j n).
    + rewrite drop_small by assumption. reflexivity.
    + apply spread_slack. lia.
Qed.

(** without any bound only the constraints are kept *)
Hypothesis Hsl : (nsl <= me)%nat.

Section Free.
Hypothesis Hfree : forall i, (i < n)%nat -> xleb (lb i) (xneg oinf) = true /\ xleb oinf (ub i) = true.

Lemma free_small i : (i < n + nsl)%nat -> LO i = Fin 0 /\ UP i = Fin 0.
Proof.
  intros Hi. unfold mlo, mup. destruct (Nat.ltb_spec i n).
  - destruct (Hfree i H) as [-> ->]. cbn [negb andb]. auto.
  - destruct (Nat.ltb_spec i (n + nsl)); [auto|lia].
Qed.

Lemma free_kept i : In i K <-> (n + nsl <= i < n + nsl + me)%nat.
Proof.
  rewrite kept_in. split.
  - intros [H1 H2]. split; [|exact H1]. destruct (Nat.le_gt_cases (n + nsl) i) as [L|L]; [exact L|].
    exfalso. apply H2. apply free_small. exact L.
  - intros [H1 H2]. split; [exact H2|]. unfold mlo, mup.
    destruct (Nat.ltb_spec i n); [lia|]. destruct (Nat.ltb_spec i (n + nsl)); [lia|]. intros [? _]; discriminate.
Qed.

Lemma free_red p : (p < length K)%nat ->
  red_lo n nsl me x lb ub oinf dxmin p = NInf /\ red_up n nsl me x lb ub oinf dxmin p = PInf.
Proof.
  intros Hp. assert (X : In (nth p K O) K) by (apply nth_In; exact Hp).
  apply free_kept in X. unfold red_lo, red_up, mlo, mup.
  destruct (Nat.ltb_spec (nth p K O) n); [lia|]. destruct (Nat.ltb_spec (nth p K O) (n + nsl)); [lia|]. auto.
Qed.
End Free.

(** any multipliers of the constraints can be written on the rows kept *)
Lemma kept_constraint k : (k < me)%nat -> In (n + nsl + k)%nat K.
Proof.
  intros Hk. apply kept_in. split; [lia|]. unfold mlo, mup.
  destruct (Nat.ltb_spec (n + nsl + k) n); [lia|]. destruct (Nat.ltb_spec (n + nsl + k) (n + nsl)); [lia|].
  intros [? _]; discriminate.
Qed.

(** restriction of a full vector *)
Lemma spread_restrict (v : vec) i : (forall i, (i < n + nsl + me)%nat -> ~ In i K -> v i = 0) -> (i < n + nsl + me)%nat ->
  spread K (fun p => v (nth p K O)) i = v i.
Proof.
  intros H Hi. unfold spread. destruct (index_of i K) as [p|] eqn:E.
  - apply index_of_some in E. destruct E as [_ ->]. reflexivity.
  - apply index_of_none in E. symmetry. apply H; assumption.
Qed.

(** multipliers on the rows kept with prescribed values *)
Definition glue (mu lam : vec) : vec := fun i => if Nat.ltb i n then mu i else if Nat.ltb i (n + nsl) then 0 else lam (i - (n + nsl))%nat.

Lemma lagr_glue mu lam j : (j < n + nsl)%nat ->
  (forall i, (i < n)%nat -> LO i = Fin 0 -> UP i = Fin 0 -> mu i = 0) ->
  lagr me (ext0 g) (ext0 mu) lam (slack_jac n nsl me ae sl) j =
  vadd (gloc n g) (fun j => rsum (length K) (fun p => rowsK p j * glue mu lam (nth p K O))) j.
Proof.
  intros Hj Hmu. rewrite (lagr_spread (fun p => glue mu lam (nth p K O))) by assumption.
  assert (HS : forall i, (i < n + nsl + me)%nat -> spread K (fun p => glue mu lam (nth p K O)) i = glue mu lam i).
  { intros i Hi. apply spread_restrict; [|exact Hi]. clear i Hi. intros i Hi Hn. rewrite kept_in in Hn.
    unfold glue. destruct (Nat.ltb_spec i n) as [L|L].
    - destruct (lo_cases i) as [E1|E1]; destruct (up_cases i) as [E2|E2];
        try (exfalso; apply Hn; split; [exact Hi|]; intros [? ?]; congruence).
      apply Hmu; assumption.
    - destruct (Nat.ltb_spec i (n + nsl)) as [L'|L']; [reflexivity|].
      exfalso. apply Hn. split; [exact Hi|]. unfold mlo, mup.
      destruct (Nat.ltb_spec i n); [lia|]. destruct (Nat.ltb_spec i (n + nsl)); [lia|]. intros [? _]; discriminate. }
  unfold lagr. f_equal; [f_equal|].
  - unfold pad. destruct (Nat.ltb_spec j n); [|reflexivity].
    rewrite drop_small by assumption. rewrite HS by lia. unfold glue. destruct (Nat.ltb_spec j n); [reflexivity|lia].
  - apply rsum_ext. intros k Hk. rewrite drop_big, HS by lia. unfold glue.
    destruct (Nat.ltb_spec (n + nsl + k) n); [lia|]. destruct (Nat.ltb_spec (n + nsl + k) (n + nsl)); [lia|].
    replace (n + nsl + k - (n + nsl))%nat with k by lia. reflexivity.
Qed.

Lemma lagr_min sn : (forall p, (p < length K)%nat ->
    mv (n + nsl) rowsK (vadd (gloc n g) (fun j => rsum (length K) (fun p => rowsK p j * sn p))) p = 0) ->
  forall mu lam, (forall i, (i < n)%nat -> LO i = Fin 0 -> UP i = Fin 0 -> mu i = 0) ->
  norm (n + nsl) (lagr me (ext0 g) (ext0 (drop_slack n nsl (spread K sn)))
    (fun k => drop_slack n nsl (spread K sn) (n + k)%nat) (slack_jac n nsl me ae sl)) <=
  norm (n + nsl) (lagr me (ext0 g) (ext0 mu) lam (slack_jac n nsl me ae sl)).
Proof.
  intros H mu lam Hmu.
  pose proof (normal_min (length K) (n + nsl) rowsK (gloc n g) sn H (fun p => glue mu lam (nth p K O))) as HM.
  rewrite (norm_ext _ _ _ (fun j Hj => lagr_glue mu lam j Hj Hmu)).
  eapply Rle_trans; [|exact HM]. right. apply norm_ext. intros j Hj. symmetry. apply lagr_spread; assumption.
Qed.

Lemma misfit_red s : misfit (length K) (length K) (red_mat n nsl me x lb ub oinf dxmin ae sl evneg ev evec)
   (red_rhs n nsl me x lb ub oinf dxmin g ae sl) s =
  misfit (length K) (length K) (fun p q => rsum (n + nsl) (fun j => rowsK p j * rowsK q j))
   (fun p => - mv (n + nsl) rowsK (gloc n g) p) s.
Proof.
  unfold misfit. apply norm_ext. intros p Hp. unfold vsub. rewrite red_rhs_eq. f_equal.
  unfold mv. apply rsum_ext. intros q Hq. rewrite red_mat_eq. reflexivity.
Qed.

(** empty list kept: nothing to choose *)
Lemma empty_min mu lam : K = [] -> (forall i, (i < n)%nat -> LO i = Fin 0 -> UP i = Fin 0 -> mu i = 0) ->
  norm (n + nsl) (lagr me (ext0 g) (ext0 (drop_slack n nsl vzero))
    (fun k => drop_slack n nsl vzero (n + k)%nat) (slack_jac n nsl me ae sl)) <=
  norm (n + nsl) (lagr me (ext0 g) (ext0 mu) lam (slack_jac n nsl me ae sl)).
Proof.
  intros E Hmu. assert (Hsp : spread K vzero = vzero) by (unfold spread; rewrite E; reflexivity).
  rewrite <- Hsp. apply lagr_min; [|exact Hmu].
  intros p Hp. rewrite E in Hp. cbn in Hp. lia.
Qed.

Lemma mult_least_squares_free lm : answers_solve solver ->
  (forall i, (i < n)%nat -> xleb (lb i) (xneg oinf) = true /\ xleb oinf (ub i) = true) ->
  compute_multiplier n nsl me x lb ub oinf dxmin g ae sl evneg ev evec solver = Some lm ->
  (forall i, (i < n)%nat -> lm i = 0) /\
  forall lam, norm (n + nsl) (lagr me (ext0 g) vzero (fun k => lm (n + k)%nat) (slack_jac n nsl me ae sl)) <=
              norm (n + nsl) (lagr me (ext0 g) vzero lam (slack_jac n nsl me ae sl)).
Proof.
  intros HS Hfree H.
  assert (Z : forall i, (i < n)%nat -> lm i = 0).
  { intros i Hi. apply compute_form in H. destruct H as [[_ ->]|[sn [_ ->]]]; rewrite drop_small by exact Hi; [reflexivity|].
    unfold spread. destruct (index_of i K) as [p|] eqn:E; [|reflexivity]. exfalso.
    apply index_of_some in E. destruct E as [Hp E].
    assert (X : In i K) by (rewrite <- E; apply nth_In; exact Hp). apply (free_kept Hfree) in X. lia. }
  split; [exact Z|]. intros lam.
  assert (C : norm (n + nsl) (lagr me (ext0 g) (ext0 lm) (fun k => lm (n + k)%nat) (slack_jac n nsl me ae sl)) <=
              norm (n + nsl) (lagr me (ext0 g) (ext0 vzero) lam (slack_jac n nsl me ae sl))).
  { apply compute_form in H. destruct H as [[E ->]|[sn [E ->]]].
    - apply empty_min; [exact E|reflexivity].
    - apply lagr_min; [|reflexivity].
      destruct (HS _ _ _ _ _ _ proper_red E) as [_ Hmin].
      apply small_min_normal. intros t. rewrite <- !misfit_red. apply Hmin.
      intros p Hp. destruct (free_red Hfree p Hp) as [-> ->]. cbn. auto. }
  rewrite (norm_ext (n + nsl) (lagr me (ext0 g) (ext0 lm) (fun k => lm (n + k)%nat) (slack_jac n nsl me ae sl))
    (lagr me (ext0 g) vzero (fun k => lm (n + k)%nat) (slack_jac n nsl me ae sl))) in C.
  2:{ intros j Hj. unfold lagr. f_equal. f_equal. unfold pad, vzero. destruct (Nat.ltb_spec j n); auto. }
  rewrite (norm_ext (n + nsl) (lagr me (ext0 g) (ext0 vzero) lam (slack_jac n nsl me ae sl))
    (lagr me (ext0 g) vzero lam (slack_jac n nsl me ae sl))) in C.
  2:{ intros j Hj. unfold lagr. f_equal. f_equal. unfold pad, vzero. destruct (Nat.ltb j n); auto. }
  exact C.
Qed.

(** With active bounds: right whenever some multipliers of the right signs
    solve the problem without signs. *)
Definition admissible (mu : vec) : Prop := forall i, (i < n)%nat -> xle_r (LO i) (mu i) /\ rle_x (mu i) (UP i).

Lemma mult_least_squares_signs lm : answers_solve solver ->
  (exists mu lam, admissible mu /\ forall mu' lam',
     (forall i, (i < n)%nat -> LO i = Fin 0 -> UP i = Fin 0 -> mu' i = 0) ->
     norm (n + nsl) (lagr me (ext0 g) (ext0 mu) lam (slack_jac n nsl me ae sl)) <=
     norm (n + nsl) (lagr me (ext0 g) (ext0 mu') lam' (slack_jac n nsl me ae sl))) ->
  compute_multiplier n nsl me x lb ub oinf dxmin g ae sl evneg ev evec solver = Some lm ->
  admissible lm /\
  forall mu' lam', (forall i, (i < n)%nat -> LO i = Fin 0 -> UP i = Fin 0 -> mu' i = 0) ->
  norm (n + nsl) (lagr me (ext0 g) (ext0 lm) (fun k => lm (n + k)%nat) (slack_jac n nsl me ae sl)) <=
  norm (n + nsl) (lagr me (ext0 g) (ext0 mu') lam' (slack_jac n nsl me ae sl)).
Proof.
  intros HS [mu [lam [Hadm Hmin]]] H.
  assert (Hmu : forall i, (i < n)%nat -> LO i = Fin 0 -> UP i = Fin 0 -> mu i = 0).
  { intros i Hi E1 E2. destruct (Hadm i Hi) as [B1 B2]. rewrite E1 in B1. rewrite E2 in B2. cbn in *. lra. }
  apply compute_form in H. destruct H as [[E ->]|[sn [E ->]]].
  - split.
    + intros i Hi. rewrite drop_small by exact Hi. unfold vzero.
      destruct (lo_cases i) as [->| ->]; destruct (up_cases i) as [->| ->]; cbn; lra.
    + intros mu' lam' Hmu'. apply empty_min; assumption.
  - destruct (HS _ _ _ _ _ _ proper_red E) as [Hin Hsol].
    split.
    + intros i Hi. rewrite drop_small by exact Hi. apply full_in; [exact Hin|lia].
    + apply lagr_min.
      apply (small_bounded_normal (length K) (n + nsl) rowsK (gloc n g)
        (red_lo n nsl me x lb ub oinf dxmin) (red_up n nsl me x lb ub oinf dxmin) sn (fun p => glue mu lam (nth p K O))).
      * split; [exact Hin|]. intros t Ht. specialize (Hsol t Ht). rewrite !misfit_red in Hsol. exact Hsol.
      * intros p Hp. unfold red_lo, red_up.
        assert (X : In (nth p K O) K) by (apply nth_In; exact Hp).
        pose proof (proj1 (kept_in _) X) as [X1 X2]. unfold glue.
        destruct (Nat.ltb_spec (nth p K O) n) as [L|L]; [apply Hadm; exact L|].
        unfold mlo, mup. destruct (Nat.ltb_spec (nth p K O) n); [lia|].
        destruct (Nat.ltb_spec (nth p K O) (n + nsl)); cbn; auto. lra.
      * (* the minimiser of the documented problem satisfies the normal equations *)
        apply (normal_of_min). intros t.
        pose (full := spread K t).
        specialize (Hmin (drop_slack n nsl full) (fun k => drop_slack n nsl full (n + k)%nat)).
        assert (Hz : forall i, (i < n)%nat -> LO i = Fin 0 -> UP i = Fin 0 -> drop_slack n nsl full i = 0).
        { intros i Hi E1 E2. rewrite drop_small by exact Hi. unfold full, spread.
          destruct (index_of i K) as [p|] eqn:Ei; [|reflexivity]. exfalso.
          apply index_of_some in Ei. destruct Ei as [Hp Ei].
          assert (X : In i K) by (rewrite <- Ei; apply nth_In; exact Hp). apply kept_in in X. tauto. }
        specialize (Hmin Hz).
        rewrite (norm_ext _ _ _ (fun j Hj => lagr_glue mu lam j Hj Hmu)) in Hmin.
        eapply Rle_trans; [exact Hmin|]. right. apply norm_ext. intros j Hj. symmetry. apply lagr_spread; assumption.
Qed.


Lemma admissible_iff mu : admissible mu <-> signs_ok n oinf dxmin x lb ub mu.
Proof. unfold admissible, signs_ok. split; intros H i Hi; apply sign_ok_iff; auto. Qed.

Lemma zero_iff mu : (forall i, (i < n)%nat -> LO i = Fin 0 -> UP i = Fin 0 -> mu i = 0) <->
  zero_where_forced n oinf dxmin x lb ub mu.
Proof.
  split.
  - intros H i Hi HF. apply forced_zero in HF; [|exact Hi]. apply H; tauto.
  - intros H i Hi E F. apply H; [exact Hi|]. apply forced_zero; auto.
Qed.

Lemma mult_signed_solves lm : answers_solve solver ->
  (exists mu lam, signs_ok n oinf dxmin x lb ub mu /\ forall mu' lam', zero_where_forced n oinf dxmin x lb ub mu' ->
     lagr_norm n nsl me g mu lam ae sl <= lagr_norm n nsl me g mu' lam' ae sl) ->
  compute_multiplier n nsl me x lb ub oinf dxmin g ae sl evneg ev evec solver = Some lm ->
  signs_ok n oinf dxmin x lb ub lm /\
  forall mu' lam', signs_ok n oinf dxmin x lb ub mu' ->
  lagr_norm n nsl me g lm (fun k => lm (n + k)%nat) ae sl <= lagr_norm n nsl me g mu' lam' ae sl.
Proof.
  intros HS [mu [lam [H1 H2]]] H.
  destruct (mult_least_squares_signs lm HS) as [R1 R2]; [|exact H|].
  - exists mu, lam. split; [apply admissible_iff; exact H1|]. intros mu' lam' Hz. apply H2. apply zero_iff. exact Hz.
  - split; [apply admissible_iff; exact R1|]. intros mu' lam' Hs. apply R2. intros i Hi E F.
    apply admissible_iff in Hs. destruct (Hs i Hi) as [B1 B2]. rewrite E in B1. rewrite F in B2. cbn in *. lra.
Qed.

Lemma mult_free lm : answers_solve solver ->
  (forall i, (i < n)%nat -> xle (lb i) (opp oinf) /\ xle oinf (ub i)) ->
  compute_multiplier n nsl me x lb ub oinf dxmin g ae sl evneg ev evec solver = Some lm ->
  (forall i, (i < n)%nat -> lm i = 0) /\
  forall lam, lagr_norm n nsl me g vzero (fun k => lm (n + k)%nat) ae sl <= lagr_norm n nsl me g vzero lam ae sl.
Proof.
  intros HS HF H. destruct (mult_least_squares_free lm HS) as [R1 R2]; [|exact H|].
  - intros i Hi. rewrite xneg_opp, !xleb_xle. apply HF. exact Hi.
  - split; [exact R1|]. intros lam. 
    assert (E : forall l, lagr_norm n nsl me g vzero l ae sl = norm (n + nsl) (lagr me (ext0 g) vzero l (slack_jac n nsl me ae sl))).
    { intros l. apply norm_ext. intros j Hj. unfold lagr. f_equal. f_equal. unfold pad, vzero. destruct (Nat.ltb j n); reflexivity. }
    rewrite !E. apply R2.
Qed.

End P.

(** ** The optimality measures *)

Section M.
Variables (n nsl me : nat) (x : vec) (lb ub : nat -> xR) (oinf : xR) (dxmin : R).
Variables (g ce : vec) (ae : mat) (sl : vec).
Variables (evneg : bool) (ev : vec) (evec : mat).
Variable solver : lsq_solver.

Definition main_lm : option vec :=
  compute_multiplier n nsl me x (fun i => near_only (lb i) (x i) NInf) (fun i => near_only (ub i) (x i) PInf)
          oinf dxmin g ae sl evneg ev evec solver.

Lemma near_signs lm : respects_bounds solver -> main_lm = Some lm ->
  forall i, (i < n)%nat -> (lm i < 0 -> close (1 / 10 ^ 5) (x i) (lb i)) /\ (0 < lm i -> close (1 / 10 ^ 5) (x i) (ub i)).
Proof.
  intros HR H i Hi. apply mult_signs in H; [|exact HR]. destruct (H i Hi) as [S1 S2]. unfold near_only in S1, S2. split; intros L.
  - apply near_close. destruct (near (1 / 10 ^ 5) (x i) (lb i)); [reflexivity|]. exfalso.
    assert (0 <= lm i); [|lra]. apply S1. left. cbn. exact Logic.I.
  - apply near_close. destruct (near (1 / 10 ^ 5) (x i) (ub i)); [reflexivity|]. exfalso.
    assert (lm i <= 0); [|lra]. apply S2. left. destruct oinf; cbn; exact Logic.I.
Qed.

Lemma measures_meaning glag feas compl lm : (nsl <= me)%nat ->
  measures n nsl me x lb ub oinf dxmin g ce ae sl evneg ev evec solver = Some (glag, feas, compl, lm) ->
  (forall i, compl i = 0) /\
  (forall k, (k < me - nsl)%nat -> feas k = ce k) /\
  (forall t, (t < nsl)%nat -> feas (me - nsl + t)%nat = ce (me - nsl + t)%nat - sl t * sl t) /\
  (forall j, (j < n)%nat -> close (1 / 10 ^ 5) (x j) (lb j) \/ close (1 / 10 ^ 5) (x j) (ub j) ->
     glag j = lagr me g lm (fun k => lm (n + k)%nat) ae j) /\
  (forall j, (j < n)%nat -> ~ (close (1 / 10 ^ 5) (x j) (lb j) \/ close (1 / 10 ^ 5) (x j) (ub j)) ->
     glag j = lagr me g vzero (fun k => lm (n + k)%nat) ae j).
Proof.
  intros Hs. unfold measures. destruct (compute_multiplier _ _ _ _ _ _ _ _ _ _ _ _ _ _ _) as [l|]; [|discriminate].
  intros H. injection H as <- <- <- <-.
  split; [reflexivity|]. split; [|split; [|split]].
  - intros k Hk. unfold opt_feas. destruct (Nat.ltb_spec k (me - nsl)); [reflexivity|lia].
  - intros t Ht. unfold opt_feas. destruct (Nat.ltb_spec (me - nsl + t) (me - nsl)); [lia|].
    replace (me - nsl + t - (me - nsl))%nat with t by lia. reflexivity.
  - intros j Hj Hc. unfold opt_glag, lagr. rewrite <- !near_close in Hc.
    assert (E : near (1 / 10 ^ 5) (x j) (lb j) || near (1 / 10 ^ 5) (x j) (ub j) = true) by (apply orb_true_iff; exact Hc).
    rewrite E. f_equal. apply rsum_ext. intros k Hk. unfold jac. destruct (Nat.ltb_spec j n); [reflexivity|lia].
  - intros j Hj Hc. unfold opt_glag, lagr. rewrite <- !near_close in Hc.
    assert (E : near (1 / 10 ^ 5) (x j) (lb j) || near (1 / 10 ^ 5) (x j) (ub j) = false).
    { apply not_true_iff_false. rewrite orb_true_iff. exact Hc. }
    rewrite E. f_equal. apply rsum_ext. intros k Hk. unfold jac. destruct (Nat.ltb_spec j n); [reflexivity|lia].
Qed.

Lemma measures_lm glag feas compl lm :
  measures n nsl me x lb ub oinf dxmin g ce ae sl evneg ev evec solver = Some (glag, feas, compl, lm) -> main_lm = Some lm.
Proof.
  unfold measures, main_lm. destruct (compute_multiplier _ _ _ _ _ _ _ _ _ _ _ _ _ _ _) as [l|]; [|discriminate].
  intros H. injection H as <- <- <- <-. reflexivity.
Qed.

(** passing the test: multipliers with the right signs for the bounds *)
Lemma measures_kkt glag feas compl lm : (nsl <= me)%nat -> respects_bounds solver ->
  measures n nsl me x lb ub oinf dxmin g ce ae sl evneg ev evec solver = Some (glag, feas, compl, lm) ->
  forall j, (j < n)%nat ->
    glag j = lagr me g lm (fun k => lm (n + k)%nat) ae j /\
    (lm j < 0 -> close (1 / 10 ^ 5) (x j) (lb j)) /\ (0 < lm j -> close (1 / 10 ^ 5) (x j) (ub j)).
Proof.
  intros Hs HR H j Hj. pose proof (near_signs lm HR (measures_lm _ _ _ _ H) j Hj) as [S1 S2].
  split; [|split; assumption].
  destruct (measures_meaning _ _ _ _ Hs H) as [_ [_ [_ [M1 M2]]]].
  destruct (near (1 / 10 ^ 5) (x j) (lb j)) eqn:E1; [apply M1; [exact Hj|left; apply near_close; exact E1]|].
  destruct (near (1 / 10 ^ 5) (x j) (ub j)) eqn:E2; [apply M1; [exact Hj|right; apply near_close; exact E2]|].
  rewrite M2; [|exact Hj|].
  - assert (Z : lm j = 0).
    { apply Rle_antisym; apply Rnot_lt_le; intros L.
      - apply S2 in L. apply near_close in L. congruence.
      - apply S1 in L. apply near_close in L. congruence. }
    unfold lagr, vzero. rewrite Z. reflexivity.
  - rewrite <- !near_close. rewrite E1, E2. intros [?|?]; discriminate.
Qed.

(** away from the bounds, slacks and multipliers are complementary *)
Lemma measures_slack glag feas compl lm : (nsl <= me)%nat -> answers_solve solver ->
  negative_sound (n + nsl + me) (gram (n + nsl) (stacked n nsl me ae sl)) evneg ->
  (forall i, (i < n)%nat -> ~ close (1 / 10 ^ 5) (x i) (lb i) /\ ~ close (1 / 10 ^ 5) (x i) (ub i)) ->
  measures n nsl me x lb ub oinf dxmin g ce ae sl evneg ev evec solver = Some (glag, feas, compl, lm) ->
  (forall j, (j < n)%nat -> glag j = 0) ->
  forall t, (t < nsl)%nat -> sl t * lm (n + (me - nsl + t))%nat = 0.
Proof.
  intros Hs HS Hev Hno H HG t Ht.
  pose proof (measures_lm _ _ _ _ H) as HL.
  assert (HF := mult_free n nsl me x (fun i => near_only (lb i) (x i) NInf) (fun i => near_only (ub i) (x i) PInf)
    oinf dxmin g ae sl evneg ev evec solver Hev Hs lm HS).
  destruct HF as [Z HM]; [|exact HL|].
  { intros i Hi. destruct (Hno i Hi) as [N1 N2]. unfold near_only. rewrite <- near_close in N1, N2.
    apply not_true_iff_false in N1, N2. rewrite N1, N2. split; [exact Logic.I|]. destruct oinf; exact Logic.I. }
  set (J := slack_jac n nsl me ae sl) in *. set (lam := fun k => lm (n + k)%nat) in *.
  assert (EL : forall l j, (j < n + nsl)%nat -> lagr me (pad n g) (pad n vzero) l J j = vadd (pad n g) (fun j => rsum me (fun k => J k j * l k)) j).
  { intros l j Hj. unfold lagr, vadd. unfold pad at 2, vzero. destruct (Nat.ltb j n); lra. }
  pose proof (normal_of_min me (n + nsl) J (pad n g) lam) as NM.
  assert (HM' : forall t, norm (n + nsl) (vadd (pad n g) (fun j => rsum me (fun k => J k j * lam k)))
     <= norm (n + nsl) (vadd (pad n g) (fun j => rsum me (fun k => J k j * t k)))).
  { intros l. rewrite <- (norm_ext _ _ _ (EL l)), <- (norm_ext _ _ _ (EL lam)). apply HM. }
  specialize (NM HM' (me - nsl + t)%nat ltac:(lia)).
  destruct (measures_meaning _ _ _ _ Hs H) as [_ [_ [_ [_ M2]]]].
  unfold mv in NM. rewrite rsum_split in NM.
  rewrite (rsum_zero n) in NM.
  2:{ intros j Hj. rewrite <- (EL lam j) by lia.
      assert (E : lagr me (pad n g) (pad n vzero) lam J j = glag j).
      { rewrite M2; [|exact Hj|specialize (Hno j Hj); tauto]. unfold lagr, pad, vzero.
        destruct (Nat.ltb_spec j n); [|lia]. f_equal. apply rsum_ext. intros k Hk. unfold J, slack_jac.
        destruct (Nat.ltb_spec j n); [reflexivity|lia]. }
      rewrite E, HG by exact Hj. lra. }
  rewrite (rsum_single nsl t) in NM; [|exact Ht|].
  - assert (EJ : J (me - nsl + t)%nat (n + t)%nat = -2 * sl t).
    { unfold J, slack_jac. destruct (Nat.ltb_spec (n + t) n); [lia|].
      replace (n + t - n)%nat with t by lia. rewrite Nat.eqb_refl. reflexivity. }
    rewrite EJ in NM. unfold vadd in NM. unfold pad in NM. destruct (Nat.ltb_spec (n + t) n); [lia|].
    rewrite (rsum_single me (me - nsl + t)) in NM; [|lia|].
    + rewrite EJ in NM. fold (lam (me - nsl + t)%nat). 
      assert (Q : sl t * (sl t * lam (me - nsl + t)%nat) = 0) by lra.
      apply Rmult_integral in Q. destruct Q as [Q|Q]; [rewrite Q; lra|exact Q].
    + intros k Hk Hne. unfold J, slack_jac. destruct (Nat.ltb_spec (n + t) n); [lia|].
      destruct (Nat.eqb_spec k (me - nsl + (n + t - n))); [lia|lra].
  - intros j Hj Hne. unfold J at 1. unfold slack_jac at 1. destruct (Nat.ltb_spec (n + j) n); [lia|].
    destruct (Nat.eqb_spec (me - nsl + t) (me - nsl + (n + j - n))); [lia|lra].
Qed.
End M.
