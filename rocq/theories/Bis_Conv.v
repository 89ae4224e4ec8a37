(** The search with stratLam = 0 finds a bound. *)
From Coq Require Import Reals Lra Psatz Lia List Arith Bool.
From Verif Require Import RVec RBool Tri ProjGrad_Spec MS_Model MS_Spec MS_Proofs MS_More BC_Model BC_Spec BC_Proofs BC_More Hom_Model Hom_Spec Hom_Proofs Hom_More Hom_Len Bis_Model Bis_Proofs Bis_Num.
Import ListNotations.
Open Scope R_scope.

(** steps for two multipliers *)
Lemma steps_apart m g A lam0 sg l u dl du : symmetric m A -> (forall x, sg * dot m x x <= quad m A x + lam0 * dot m x x) -> 
  stationary m g A l dl -> stationary m g A u du -> lam0 <= l <= u -> (sg + l - lam0) * norm m (vsub dl du) <= (u - l) * norm m du.
Proof.
  intros SA SG SL SU LU. set (e := vsub dl du).
  assert (E : quad m A e + l * dot m e e = (u - l) * dot m e du).
  { pose proof (stationary_dot m g A l dl e SL) as X. pose proof (stationary_dot m g A u du e SU) as Y. unfold quad.
    unfold e at 2. rewrite dot_mv_sub. unfold e at 4. rewrite (dot_sub_r m e dl du). lra. }
  pose proof (SG e) as S1. pose proof (cauchy_schwarz m e du) as CS. pose proof (Rle_abs (dot m e du)) as AB. rewrite <- norm_sq in S1, E.
  pose proof (norm_nonneg m e) as NE. pose proof (norm_nonneg m du) as ND.
  destruct (Req_dec (norm m e) 0) as [Z|Z]; [rewrite Z; nra|].
  assert (P : 0 < norm m e) by lra. apply (Rmult_le_reg_r (norm m e)); [exact P|].
  assert (F1 : (u - l) * dot m e du <= (u - l) * (norm m e * norm m du)) by (apply Rmult_le_compat_l; lra). nra.
Qed.
Lemma step_small m g A lam0 sg lam d : (forall x, sg * dot m x x <= quad m A x + lam0 * dot m x x) -> stationary m g A lam d ->
  (sg + lam - lam0) * norm m d <= norm m g.
Proof.
  intros SG S. pose proof (stationary_dot m g A lam d d S) as X. pose proof (SG d) as S1. unfold quad in S1.
  pose proof (cauchy_schwarz m g d) as CS. pose proof (Rle_abs (- dot m g d)) as AB.
  rewrite Rabs_Ropp in AB. pose proof (norm_nonneg m d) as ND. pose proof (norm_nonneg m g) as NG. rewrite <- (norm_sq m d) in S1, X.
  destruct (Req_dec (norm m d) 0) as [Z|Z]; [rewrite Z; lra|]. apply (Rmult_le_reg_r (norm m d)); [lra|]. nra.
Qed.

Section Conv.
Variable chol : mat -> option mat.
Variable slv : mat -> vec -> option vec.
Variables (n : nat) (lb ub : nat -> xR) (free : list nat) (Hf : mat) (gf s : vec).
Notation m := (length free).
Notation trial := (bis_trial chol slv lb ub free Hf gf s).
Notation search := (bis_search chol slv lb ub free Hf gf s).
Notation states := (bis_states chol slv lb ub free Hf gf s).
Notation after := (after lb ub free s).
Notation near_in := (near_in lb ub free s).
Notation touching := (touching lb ub free s).
Notation inside_of := (inside_of lb ub free).
Notation ix k := (nth k free 0%nat).
Hypothesis CE : chol_exact m chol.
Hypothesis SE : slv_exact m slv.
Hypothesis SH : symmetric m Hf.
Hypothesis ND : NoDup free.
Hypothesis FB : forall i, In i free -> (i < n)%nat.
Hypothesis W0 : in_bounds n lb ub vzero.
Hypothesis WS : in_bounds n lb ub s.

(** more than [e] beyond a bound, and more than [e] away from both bounds inside *)
Definition past (e x : R) (l u : xR) : Prop := ~ (xle_r l (x + e) /\ rle_x (x - e) u).
Definition deep (e x : R) (l u : xR) : Prop := (match l with Fin b => b + e < x | NInf => True | PInf => False end) /\
  (match u with Fin b => x + e < b | PInf => True | NInf => False end).

Lemma after_at d k : (k < m)%nat -> after d (ix k) = 0 \/ after d (ix k) = s (ix k) + d k.
Proof.
  intros Hk. unfold after. destruct (_ && _)%bool; [left; reflexivity|right]. unfold vadd. rewrite expand_at by assumption. reflexivity.
Qed.

Lemma not_near d : near_in d = false -> exists k, (k < m)%nat /\ past bc_eps (s (ix k) + d k) (lb (ix k)) (ub (ix k)).
Proof.
  unfold near_in. rewrite negb_false_iff. intros E. apply existsb_exists in E. destruct E as (i & II & F).
  destruct (In_nth free i 0%nat II) as (k & Hk & EK). exists k. split; [exact Hk|]. intros Q.
  enough (out_by lb ub bc_eps (after d) i = false) by congruence. apply outr. rewrite <- EK.
  destruct (after_at d k Hk) as [Z|Z]; rewrite Z; [|exact Q]. pose proof (W0 i (FB i II)) as W. rewrite <- EK in W. unfold vzero in W. pose proof eps_pos.
  destruct (lb (ix k)), (ub (ix k)); cbn in *; try tauto; lra.
Qed.
Lemma past_big e x d l u : 0 <= e -> xle_r l x /\ rle_x x u -> past e (x + d) l u -> e < Rabs d.
Proof.
  intros E0 W P. unfold past in P. apply Rnot_le_lt. intros A. apply P. assert (B : - e <= d <= e) by (unfold Rabs in A; destruct (Rcase_abs d); lra).
  destruct l, u; cbn in *; try tauto; lra.
Qed.
Lemma not_near_long d : near_in d = false -> bc_eps < norm m d.
Proof.
  intros E. destruct (not_near d E) as (k & Hk & P). pose proof (norm_comp m d k Hk).
  pose proof (past_big bc_eps _ _ _ _ (Rlt_le _ _ eps_pos) (WS _ (FB _ (nth_In _ _ Hk))) P). lra.
Qed.

(** inside and no component close to a bound *)
Lemma inside_deep d : inside_of (after d) = true -> touching d = false -> forall k, (k < m)%nat ->
  deep bc_eps (s (ix k) + d k) (lb (ix k)) (ub (ix k)).
Proof.
  intros IN TO k Hk. set (i := ix k). assert (II : In i free) by (apply nth_In; exact Hk).
  assert (NO : out_by lb ub 0 (after d) i = false).
  { pose proof (inside_spec lb ub free (after d)) as X. rewrite IN in X. exact (existsb_none _ _ X i II). }
  apply out0 in NO. pose proof (existsb_none _ _ TO i II) as NT. cbv beta in NT. apply orb_false_iff in NT. destruct NT as (NU & NL).
  pose proof (W0 i (FB i II)) as W. unfold vzero in W. pose proof eps_pos. pose proof tiny_eps. pose proof tiny_pos.
  assert (CZ : crit_zero lb ub (vadd s (expand free d)) i = false).
  { destruct (crit_zero lb ub (vadd s (expand free d)) i) eqn:CZ; [exfalso|reflexivity].
    assert (AZ : after d i = 0) by (unfold after; rewrite CZ, (proj2 (memb_spec i free) II); reflexivity).
    unfold u_act, l_act, near in NU, NL. rewrite AZ in NU, NL. apply held_crit in CZ. unfold held in CZ.
    assert (T10 : 1 / 10 ^ 10 = bc_tiny) by (unfold bc_tiny, Rdiv; ring). assert (T10' : -1 / 10 ^ 10 = - bc_tiny) by (unfold bc_tiny, Rdiv; ring). rewrite T10, T10' in CZ.
    destruct CZ as [(C & _)|(C & _)].
    - destruct (lb i) as [b| |]; cbn in C, W, NL; try tauto. rb. rewrite Rminus_0_r in NL. rewrite Rabs_left1 in NL by lra. lra.
    - destruct (ub i) as [b| |]; cbn in C, W, NU; try tauto. rb. rewrite Rminus_0_r in NU. rewrite Rabs_pos_eq in NU by lra. lra. }
  assert (AF : after d i = s i + d k).
  { unfold after. rewrite CZ, andb_false_r. unfold vadd, i. rewrite expand_at by assumption. reflexivity. }
  rewrite AF in NO. unfold u_act, l_act, near in NU, NL. rewrite AF in NU, NL. set (x := s i + d k) in *. clearbody x.
  unfold deep. destruct NO as (N1 & N2). split.
  - destruct (lb i) as [b| |]; cbn in *; try tauto. rb. rewrite Rabs_left1 in NL by lra. lra.
  - destruct (ub i) as [b| |]; cbn in *; try tauto. rb. rewrite Rabs_pos_eq in NU by lra. lra.
Qed.

(** close to the bounds, but outside: close to a bound *)
Lemma near_inside d : near_in d = true -> touching d = false -> inside_of (after d) = true.
Proof.
  unfold near_in. rewrite negb_true_iff. intros N T. apply negb_false_iff. rewrite <- inside_spec.
  destruct (existsb (out_by lb ub 0 (after d)) free) eqn:E; [exfalso|reflexivity].
  apply existsb_exists in E. destruct E as (i & II & F). pose proof (existsb_none _ _ N i II) as A. pose proof (existsb_none _ _ T i II) as B. cbv beta in B.
  apply outr in A. apply orb_false_iff in B. destruct B as (BU & BL). unfold u_act, l_act, near in BU, BL.
  enough (out_by lb ub 0 (after d) i = false) by congruence. apply out0. set (x := after d i) in *. pose proof eps_pos. destruct A as (A1 & A2). split.
  - destruct (lb i) as [b| |]; cbn in *; try tauto. rb. apply Rnot_lt_le. intros L. rewrite Rabs_pos_eq in BL by lra. lra.
  - destruct (ub i) as [b| |]; cbn in *; try tauto. rb. apply Rnot_lt_le. intros L. rewrite Rabs_left1 in BU by lra. lra.
Qed.

Lemma inside_near d : inside_of (after d) = true -> near_in d = true.
Proof.
  intros IN. unfold near_in. destruct (existsb (out_by lb ub bc_eps (after d)) free) eqn:E; [exfalso|reflexivity].
  pose proof (out_eps_out chol slv lb ub free Hf gf (after d) E) as F. rewrite inside_spec, IN in F. discriminate.
Qed.

Lemma past_deep e e' x y l u : 0 <= e -> 0 < e' -> past e x l u -> deep e' y l u -> e' < Rabs (x - y).
Proof.
  intros E E' P (D1 & D2). apply Rnot_le_lt. intros A. assert (B : - e' <= x - y <= e') by (unfold Rabs in A; destruct (Rcase_abs (x - y)); lra). apply P.
  destruct l, u; cbn in *; try tauto; lra.
Qed.

(** ** The start *)
Variables (lam0 : R) (d0 : vec).
Hypothesis L0 : 0 <= lam0.
Hypothesis ST0 : stationary m gf Hf lam0 d0.
Hypothesis PD0 : shift_pd m Hf lam0.
Hypothesis OUT : exists k, (k < m)%nat /\ past 0 (s (ix k) + d0 k) (lb (ix k)) (ub (ix k)).

Lemma PS0 : shift_psd m Hf lam0.
Proof. apply shift_pd_psd. exact PD0. Qed.
Lemma PD lam : lam0 <= lam -> shift_pd m Hf lam.
Proof. intros L x NX. pose proof (PD0 x NX). pose proof (dot_self_pos m x NX). nra. Qed.

(** a state after the first trial inside *)
Definition closed (st : hst) (out act : bool) : Prop :=
  h_hard st = false /\ h_back st = true /\ (out = true \/ act = false) /\ lam0 <= h_lower st <= h_upper st /\ lam0 < h_upper st /\ h_lam st = hom_inner (h_lower st) (h_upper st) /\
  (exists d, stationary m gf Hf (h_upper st) d /\ forall k, (k < m)%nat -> deep bc_eps (s (ix k) + d k) (lb (ix k)) (ub (ix k))) /\
  (h_lower st = lam0 \/ exists d, stationary m gf Hf (h_lower st) d /\ near_in d = false).

Lemma closed_apart st out act : closed st out act -> exists dl du, stationary m gf Hf (h_lower st) dl /\ stationary m gf Hf (h_upper st) du /\ bc_eps < norm m (vsub dl du).
Proof.
  intros (_ & _ & _ & B & BU & _ & (du & SU & DU) & LO). pose proof eps_pos as EP.
  destruct LO as [E|(dl & SL & NN)].
    - exists d0, du. rewrite E. split; [exact ST0|]. split; [exact SU|]. destruct OUT as (k & Hk & P). pose proof (norm_comp m (vsub d0 du) k Hk) as NC.
      pose proof (past_deep 0 bc_eps _ _ _ _ (Rle_refl 0) EP P (DU k Hk)) as G. unfold vsub in NC at 1. replace (s (ix k) + d0 k - (s (ix k) + du k)) with (d0 k - du k) in G by ring. lra.
    - exists dl, du. split; [exact SL|]. split; [exact SU|]. destruct (not_near dl NN) as (k & Hk & P). pose proof (norm_comp m (vsub dl du) k Hk) as NC.
      pose proof (past_deep bc_eps bc_eps _ _ _ _ (Rlt_le _ _ EP) EP P (DU k Hk)) as G. unfold vsub in NC at 1. replace (s (ix k) + dl k - (s (ix k) + du k)) with (dl k - du k) in G by ring. lra.
Qed.

Lemma closed_order st out act : closed st out act -> h_lower st < h_lam st < h_upper st /\ h_lam st < (h_lower st + h_upper st) / 2.
Proof.
  intros C. destruct (closed_apart _ _ _ C) as (dl & du & SL & SU & G). destruct C as (_ & _ & _ & B & BU & EL & _). pose proof eps_pos.
  assert (LT : h_lower st < h_upper st).
  { apply Rnot_le_lt. intros A. assert (EQ : h_lower st = h_upper st) by lra. rewrite EQ in SL.
    pose proof (stationary_unique m gf Hf _ dl du SH (PD _ (Rlt_le _ _ BU)) SL SU) as V.
    rewrite (proj2 (norm_zero m (vsub dl du))) in G; [lra|]. intros i Hi. unfold vsub, vzero. rewrite (V i Hi). ring. }
  assert (B' : 0 <= h_lower st <= h_upper st) by lra. destruct (hom_inner_between _ _ B') as ((A1 & A2) & A3). specialize (A3 LT).
  assert (MID : h_lam st < (h_lower st + h_upper st) / 2).
  { rewrite EL, inner_eq by exact B'. apply Rmax_lub_lt.
    - set (l := h_lower st) in *. set (u := h_upper st) in *. rewrite <- (sqrt_square ((l + u) / 2)) by lra. apply sqrt_lt_1_alt.
      split; [nra|]. assert (0 < (u - l) * (u - l)) by nra. nra.
    - pose proof theta33 as T. pose proof theta_pos. assert (4 <= 2 ^ 33) by (replace 4 with (2 ^ 2) by (cbn; lra); apply Rle_pow; [lra|lia]). assert (ms_theta <= / 4) by nra. nra. }
  rewrite EL in *. lra.
Qed.

(** a trial from such a state *)
Lemma closed_trial st out act : closed st out act -> (exists s', trial st out act = TBreak s') \/
  exists st' out' act', trial st out act = TNext st' out' act' /\ closed st' out' act' /\
    ((h_lower st' = h_lower st /\ h_upper st' = h_lam st) \/ (h_lower st' = h_lam st /\ h_upper st' = h_upper st)).
Proof.
  intros C. destruct (closed_order _ _ _ C) as ((O1 & O2) & _). pose proof C as (HH & HB & _ & B & BU & EL & DU & LO).
  destruct (bis_cases chol slv lb ub free Hf gf s CE SE SH st out act) as [([X|X] & _)|(_ & _ & d & SD & F)]; [congruence|exfalso; apply X, PD; lra|].
  unfold bfollows in F. cbv zeta in F. destruct F as [(_ & _ & F)|(NT & [(X & _)|(_ & F)])]; [left; eexists; exact F|congruence|right].
  assert (K : forall l u, lam0 <= l -> l <= u -> (h_lam st = l \/ h_lam st = u) -> bis_keep l u (h_lam st) = hom_inner l u).
  { intros l u L1 LU E. unfold bis_keep. cbv zeta. pose proof theta_pos. destruct (Rltb_spec (l + ms_theta * (u - l)) (h_lam st)) as [Y|Y]; [|reflexivity].
    destruct (Rltb_spec (h_lam st) (u - ms_theta * (u - l))) as [Z|Z]; [|reflexivity]. exfalso. destruct E as [E|E]; rewrite E in *; nra. }
  do 3 eexists. split; [exact F|]. clear F. destruct (inside_of (after d)) eqn:IN; cbn [negb].
  - assert (TO : touching d = false).
    { rewrite (inside_near d IN) in NT. exact NT. }
    assert (NI : near_in d = true) by (apply inside_near; exact IN).
    split; [|left; split; reflexivity]. rewrite NI. unfold closed. cbn [h_hard h_back h_lower h_upper h_lam].
    split; [reflexivity|]. split; [reflexivity|]. split; [right; reflexivity|]. split; [lra|]. split; [lra|]. split; [apply K; [lra|lra|right; reflexivity]|].
    split; [|exact LO]. exists d. split; [exact SD|]. apply inside_deep; assumption.
  - assert (NI : near_in d = false).
    { destruct (near_in d) eqn:NI; [|reflexivity]. cbn in NT. pose proof (near_inside d NI NT). congruence. }
    split; [|right; split; reflexivity]. rewrite NI. unfold closed. cbn [h_hard h_back h_lower h_upper h_lam].
    split; [reflexivity|]. split; [reflexivity|]. split; [left; reflexivity|]. split; [lra|]. split; [lra|]. split; [apply K; [lra|lra|left; reflexivity]|].
    split; [exact DU|]. right. exists d. split; assumption.
Qed.

(** ** Before the first trial inside *)
Notation la := (Rmax 1 lam0).
Definition opened (k : nat) (st : hst) (out act : bool) : Prop :=
  h_hard st = false /\ h_back st = false /\ out = true /\ h_lower st = lam0 /\ h_lam st = 2 ^ k * la.

Lemma opened_lam k st out act : opened (S k) st out act -> lam0 + 2 ^ k <= h_lam st.
Proof.
  intros (_ & _ & _ & _ & E). rewrite E. pose proof (Rmax_l 1 lam0). pose proof (Rmax_r 1 lam0). assert (1 <= 2 ^ k) by (apply pow_R1_Rle; lra). cbn [pow]. nra.
Qed.

Lemma opened_trial k st out act : opened (S k) st out act -> (exists s', trial st out act = TBreak s') \/
  exists st' out' act', trial st out act = TNext st' out' act' /\
    ((opened (S (S k)) st' out' act' /\ exists d, stationary m gf Hf (h_lam st) d /\ near_in d = false) \/
     (closed st' out' act' /\ h_lower st' = lam0 /\ h_upper st' = h_lam st)).
Proof.
  intros O. pose proof (opened_lam _ _ _ _ O) as LL. assert (1 <= 2 ^ k) by (apply pow_R1_Rle; lra). destruct O as (HH & HB & HO & LO & LA).
  destruct (bis_cases chol slv lb ub free Hf gf s CE SE SH st out act) as [([X|X] & _)|(_ & _ & d & SD & F)]; [congruence|exfalso; apply X, PD; lra|].
  unfold bfollows in F. cbv zeta in F. destruct F as [(_ & _ & F)|(NT & [(_ & NI & F)|(NI & F)])]; [left; eexists; exact F| |]; right; do 3 eexists; (split; [exact F|]).
  - left. split; [|exists d; split; assumption]. assert (IN : inside_of (after d) = false).
    { destruct (inside_of (after d)) eqn:IN; [|reflexivity]. rewrite (inside_near d IN) in NI. discriminate. }
    rewrite IN. unfold opened. cbn [h_hard h_back h_lower h_lam negb]. repeat split; try assumption. rewrite LA. cbn [pow]. ring.
  - right. destruct NI as [NI|NI]; [congruence|]. rewrite NI in *. cbn in NT. pose proof (near_inside d NI NT) as IN. rewrite IN. cbn [negb h_lower h_upper].
    split; [|split; [exact LO|reflexivity]]. unfold closed. cbn [h_hard h_back h_lower h_upper h_lam].
    split; [reflexivity|]. split; [reflexivity|]. split; [right; reflexivity|]. split; [lra|]. split; [lra|]. split.
    + unfold bis_keep. cbv zeta. rewrite LO. pose proof theta_pos. destruct (Rltb_spec (h_lam st) (h_lam st - ms_theta * (h_lam st - lam0))); [nra|]. rewrite andb_false_r. reflexivity.
    + split; [|left; exact LO]. exists d. split; [exact SD|]. apply inside_deep; assumption.
Qed.

(** ** The number of trials *)
Variable sg : R.
Hypothesis SG0 : 0 < sg.
Hypothesis SG : forall x, sg * dot m x x <= quad m Hf x + lam0 * dot m x x.
Lemma closed_gap st out act : closed st out act -> (sg + h_lower st - lam0) * bc_eps < (h_upper st - h_lower st) * norm m d0.
Proof.
  intros C. destruct (closed_apart _ _ _ C) as (dl & du & SL & SU & G). destruct C as (_ & _ & _ & B & BU & _).
  pose proof (steps_apart m gf Hf lam0 sg _ _ dl du SH SG SL SU B) as A.
  pose proof (step_short free Hf gf SH lam0 d0 ST0 PS0 (h_upper st) du (Rlt_le _ _ BU) (PD _ (Rlt_le _ _ BU)) SU) as C.
  assert ((h_upper st - h_lower st) * norm m du <= (h_upper st - h_lower st) * norm m d0) by (apply Rmult_le_compat_l; lra).
  assert ((sg + h_lower st - lam0) * bc_eps < (sg + h_lower st - lam0) * norm m (vsub dl du)) by (apply Rmult_lt_compat_l; lra). lra.
Qed.

Variables (K J L : nat).
Notation D := (norm m d0).
Hypothesis HK : norm m gf <= 2 ^ K * bc_eps.
Hypothesis HJ : 2 ^ S K * la * D <= 10 ^ (13 * J) * bc_eps * sg.
Hypothesis HL : D <= 2 ^ L * bc_eps.
Hypothesis HL0 : lam0 * D <= 2 ^ L * bc_eps * sg.
Notation U := (2 ^ S K * la).

Lemma theta_pow j : ms_theta ^ j * 10 ^ (13 * j) = 1.
Proof. rewrite pow_mult, <- Rpow_mult_distr, theta13. apply pow1. Qed.
Lemma D_nonneg : 0 <= D.
Proof. apply norm_nonneg. Qed.
Lemma la_pos : 1 <= la.
Proof. apply Rmax_l. Qed.

Lemma not_J st out act : closed st out act -> h_upper st <= U -> forall j, (J <= j)%nat -> ~ h_upper st - h_lower st <= U * ms_theta ^ j.
Proof.
  intros C _ j Hj A. pose proof (closed_gap _ _ _ C) as G. pose proof D_nonneg as DN. pose proof la_pos as LP. pose proof eps_pos as EP. destruct C as (_ & _ & _ & B & _).
  assert (TJ : ms_theta ^ j <= ms_theta ^ J).
  { replace j with (J + (j - J))%nat by lia. rewrite pow_add. assert (0 < ms_theta ^ J) by (apply pow_lt, theta_pos).
    assert (ms_theta ^ (j - J) <= 1).
    { rewrite <- (pow1 (j - J)). apply pow_incr. pose proof theta_pos. pose proof theta33. assert (1 <= 2 ^ 33) by (apply pow_R1_Rle; lra). nra. }
    nra. }
  assert (UP : 0 <= U) by (apply Rmult_le_pos; [apply pow_le; lra|lra]).
  assert (X : (h_upper st - h_lower st) * D <= U * ms_theta ^ J * D).
  { apply Rmult_le_compat_r; [exact DN|]. eapply Rle_trans; [exact A|]. apply Rmult_le_compat_l; assumption. }
  assert (Y : U * ms_theta ^ J * D <= bc_eps * sg).
  { pose proof (theta_pow J) as TP. assert (0 < ms_theta ^ J) by (apply pow_lt, theta_pos).
    assert (ms_theta ^ J * (U * D) <= ms_theta ^ J * (10 ^ (13 * J) * bc_eps * sg)) by (apply Rmult_le_compat_l; lra).
    replace (ms_theta ^ J * (10 ^ (13 * J) * bc_eps * sg)) with (ms_theta ^ J * 10 ^ (13 * J) * (bc_eps * sg)) in * by ring. rewrite TP in *. lra. }
  assert (sg * bc_eps <= (sg + h_lower st - lam0) * bc_eps) by (apply Rmult_le_compat_r; lra). lra.
Qed.
Lemma not_L st out act : closed st out act -> forall k, (L <= k)%nat -> 0 < h_lower st -> ~ h_upper st <= (1 + / 2 ^ k) * h_lower st.
Proof.
  intros C k Hk LP A. pose proof (closed_gap _ _ _ C) as G. pose proof D_nonneg as DN. pose proof eps_pos as EP. destruct C as (_ & _ & _ & B & _).
  set (l := h_lower st) in *. set (u := h_upper st) in *.
  assert (P : 0 < 2 ^ L) by (apply pow_lt; lra). assert (Q : / 2 ^ k <= / 2 ^ L) by (apply Rinv_le_contravar; [exact P|apply Rle_pow; [lra|exact Hk]]).
  assert (X : (u - l) * D <= / 2 ^ L * (l * D)).
  { assert (u - l <= / 2 ^ L * l) by nra. assert ((u - l) * D <= / 2 ^ L * l * D) by (apply Rmult_le_compat_r; assumption). lra. }
  assert (Y : l * D <= 2 ^ L * (bc_eps * (sg + l - lam0))).
  { assert ((l - lam0) * D <= (l - lam0) * (2 ^ L * bc_eps)) by (apply Rmult_le_compat_l; lra). lra. }
  assert (Z : / 2 ^ L * (l * D) <= / 2 ^ L * (2 ^ L * (bc_eps * (sg + l - lam0)))) by (apply Rmult_le_compat_l; [apply Rlt_le, Rinv_0_lt_compat; exact P|exact Y]).
  replace (/ 2 ^ L * (2 ^ L * (bc_eps * (sg + l - lam0)))) with (bc_eps * (sg + l - lam0)) in Z by (field; lra). lra.
Qed.

Lemma closed_search N : forall left i st out act, closed st out act -> h_upper st <= U -> few J L U N (h_lower st) (h_upper st) -> (N <= S left)%nat ->
  exists s' t, search left i st out act = HomBreak s' t /\ (t <= i + N)%nat.
Proof.
  induction N as [|N IH]; intros left i st out act C UU F HN.
  - exfalso. destruct F as [(j & A & B)|[(j & A & A' & B & B')|(k & A & B & B')]].
    + lia.
    + assert (j = 0%nat) by lia. subst j. apply (not_L _ _ _ C 0%nat); [lia|exact B|]. cbn [pow Nat.pow] in *. lra.
    + exact (not_L _ _ _ C k ltac:(lia) B B').
  - pose proof C as (_ & _ & OA & B & BU & EL & _).
    assert (GO : negb (negb act || out) = false) by (destruct OA as [-> | ->]; [rewrite orb_true_r|]; reflexivity).
    assert (NXT : few J L U N (h_lower st) (h_lam st) /\ few J L U N (h_lam st) (h_upper st)).
    { rewrite EL. apply few_step; [lra|lra|exact (not_J _ _ _ C UU)|exact (not_L _ _ _ C)|exact F]. }
    destruct (closed_trial _ _ _ C) as [(s' & T)|(st' & out' & act' & T & C' & E)].
    + exists s', (S i). split; [|lia]. destruct left; cbn [bis_search]; rewrite GO, T; reflexivity.
    + assert (UU' : h_upper st' <= U) by (destruct (closed_order _ _ _ C) as ((_ & X) & _); destruct E as [(_ & ->)|(_ & ->)]; lra).
      assert (F' : few J L U N (h_lower st') (h_upper st')) by (destruct E as [(-> & ->)|(-> & ->)]; apply NXT).
      destruct left as [|k].
      * assert (N = 0%nat) as -> by lia. exfalso. destruct F' as [(j & A & _)|[(j & A & A' & Q & Q')|(k & A & Q & Q')]].
        -- lia.
        -- assert (j = 0%nat) by lia. subst j. apply (not_L _ _ _ C' 0%nat); [lia|exact Q|]. cbn [pow Nat.pow] in *. lra.
        -- exact (not_L _ _ _ C' k ltac:(lia) Q Q').
      * destruct (IH k (S i) st' out' act' C' UU' F' ltac:(lia)) as (s' & t & S1 & S2). exists s', t. split; [|lia].
        cbn [bis_search]. rewrite GO, T. exact S1.
Qed.

Lemma opened_search r : forall k q i st out act, opened (S k) st out act -> (K <= k + r)%nat -> (k <= K)%nat -> (r + 1 + J + 6 + L <= S q)%nat ->
  exists s' t, search q i st out act = HomBreak s' t /\ (t <= i + (r + 1 + J + 6 + L))%nat.
Proof.
  induction r as [|r IH]; intros k q i st out act O HR HKK HN; pose proof (opened_lam _ _ _ _ O) as LL.
  all: assert (GO : negb (negb act || out) = false) by (destruct O as (_ & _ & -> & _); rewrite orb_true_r; reflexivity).
  all: assert (UU : h_lam st <= U) by (destruct O as (_ & _ & _ & _ & ->); apply Rmult_le_compat_r; [pose proof la_pos; lra|apply Rle_pow; [lra|lia]]).
  all: destruct (opened_trial _ _ _ _ O) as [(s' & T)|(st' & out' & act' & T & [(O' & d & SD & NI)|(C & E1 & E2)])].
  all: try (exists s', (S i); split; [|lia]; destruct q; cbn [bis_search]; rewrite GO, T; reflexivity).
  1: { exfalso. assert (k = K) as -> by lia. pose proof (not_near_long d NI) as A. pose proof (step_small m gf Hf lam0 sg _ d SG SD) as B.
       assert (P : 0 < 2 ^ K) by (apply pow_lt; lra). pose proof eps_pos as EP. nra. }
  2: { destruct q as [|q]; [lia|]. destruct (Nat.eq_dec k K) as [EK|EK].
       - exfalso. subst k. pose proof (not_near_long d NI) as A. pose proof (step_small m gf Hf lam0 sg _ d SG SD) as B.
         assert (P : 0 < 2 ^ K) by (apply pow_lt; lra). pose proof eps_pos as EP. nra.
       - destruct (IH (S k) q (S i) st' out' act' O' ltac:(lia) ltac:(lia) ltac:(lia)) as (s' & t & S1 & S2). exists s', t. split; [|lia].
         cbn [bis_search]. rewrite GO, T. exact S1. }
  all: destruct q as [|q]; [lia|]; assert (F : few J L U (J + 6 + L) (h_lower st') (h_upper st')) by
    (left; exists 0%nat; split; [lia|]; cbn [pow]; rewrite E1, E2; rewrite Rmult_1_r; change (2 * 2 ^ K) with (2 ^ S K); lra);
    assert (UU' : h_upper st' <= U) by (rewrite E2; exact UU);
    destruct (closed_search (J + 6 + L) q (S i) st' out' act' C UU' F ltac:(lia)) as (s' & t & S1 & S2); exists s', t; (split; [|lia]);
    cbn [bis_search]; rewrite GO, T; exact S1.
Qed.
End Conv.
