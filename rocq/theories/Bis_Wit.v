(** Instances for the theorems about the search with stratLam = 0: one variable, 1/2 x^2 - G x with x <= 1. *)
From Coq Require Import Reals Lra Psatz Lia List Arith Bool.
From Verif Require Import RVec RBool Tri ProjGrad_Spec MS_Model MS_Spec MS_Proofs MS_More MS_Wit Chol BC_Model BC_Spec BC_Proofs BC_More BC_Wit Hom_Model Hom_Spec Hom_Proofs Hom_More Hom_Len Hom_Next Hom_One Hom_Fin Hom_Wit
  Bis_Model Bis_Spec Bis_Proofs Bis_Len Bis_Num Bis_Conv Bis_Fin.
Import ListNotations.
Open Scope R_scope.

Section G.
Variables (G D : R).
Hypothesis G1 : 2 <= G.
Hypothesis GD : G <= D.
Notation gG := (c (- G)).
Notation Hf := (sub_mat [0%nat] (m1 1)).
Notation gf := (sub_vec [0%nat] gG).

Lemma ansG j : exists o, msw j 1 gf Hf D = Some o /\ ms_s o 0%nat = G /\ ms_lambda o = 0 /\ ms_hard o = false.
Proof.
  destruct (msw_newton j 1 gf Hf D (c G)) as (o & E & V & L & HH).
  - apply sym1.
  - lra.
  - rewrite norm_c. unfold sub_vec, c. rewrite Rabs_left by lra. pose proof (tiny_le 12). nra.
  - apply posdef1. lra.
  - intros i Hi. unfold mv, sub_mat, m1, sub_vec, c. cbn [rsum]. lra.
  - rewrite norm_c. unfold c. rewrite Rabs_pos_eq by lra. lra.
  - exists o. split; [exact E|]. split; [exact (V 0%nat Nat.lt_0_1)|]. split; assumption.
Qed.
Lemma startsG o j : msw j 1 gf Hf D = Some o -> ms_s o 0%nat = G -> starts 1 (m1 1) lo3 hi3 [0%nat] vzero gG D ep o.
Proof.
  intros E V. unfold starts. cbv zeta. split; [constructor; [intros []|constructor]|]. split; [intros i [<-|[]]; lia|].
  split; [exact box3|]. split; [exact box3|].
  split; [apply (msw_sound j 1%nat); [apply sym1|lra|exact E]|].
  assert (SA : vadd vzero (expand [0%nat] (ms_s o)) 0%nat = G) by (unfold vadd, vzero; rewrite ex1, V; ring).
  split.
  - exists 0%nat. split; [left; reflexivity|]. rewrite SA. unfold beyond, lo3, hi3. cbn. lra.
  - split; [|intros i _; left; reflexivity]. intros i [<-|[]]. rewrite SA. unfold lo3, hi3, vzero. cbn. split; intros X Y; injection Y; lra.
Qed.

(** a stationary step *)
Lemma stepG lam d : 0 <= lam -> stationary 1 gf Hf lam d -> d 0%nat * (1 + lam) = G.
Proof.
  intros L S. specialize (S 0%nat Nat.lt_0_1). revert S. unfold shifted, mv, sub_mat, m1, sub_vec, c, idm. cbn. intros S. lra.
Qed.
Lemma afterG d : 0 < d 0%nat -> after lo3 hi3 [0%nat] vzero d 0%nat = d 0%nat.
Proof.
  intros P. destruct (after_point lo3 hi3 [0%nat] vzero d) with (k := 0%nat) as [(HE & _)|(_ & HE)].
  - constructor; [intros []|constructor].
  - cbn; lia.
  - exfalso. pose proof e5. pose proof e10. unfold held, lo3, hi3 in HE. cbn [nth rle_x xle_r] in HE. unfold Rdiv in HE. lra.
  - cbn [nth] in HE. rewrite HE. unfold vzero. ring.
Qed.

Notation trial := (bis_trial (cholx 1) (slvx 1) lo3 hi3 [0%nat] Hf gf vzero).
Notation states := (bis_states (cholx 1) (slvx 1) lo3 hi3 [0%nat] Hf gf vzero).
Notation search := (bis_search (cholx 1) (slvx 1) lo3 hi3 [0%nat] Hf gf vzero).

Lemma pdG lam : 0 <= lam -> shift_pd 1 Hf lam.
Proof.
  intros L v NV. unfold quad, dot, mv, shifted, sub_mat, m1, idm. cbn.
  assert (v 0%nat <> 0) by (intros Z; apply NV; intros i Hi; assert (i = 0%nat) as -> by lia; exact Z). assert (0 < v 0%nat * v 0%nat) by nra. nra.
Qed.

(** far outside: the multiplier is doubled *)
Lemma farG st out act : h_hard st = false -> h_back st = false -> 0 <= h_lam st -> 12 / 10 * (1 + h_lam st) < G ->
  exists st', trial st out act = TNext st' true act /\ h_hard st' = false /\ h_back st' = false /\ h_lam st' = 2 * h_lam st /\ h_lower st' = h_lower st.
Proof.
  intros HH HB L F. pose proof e5.
  destruct (bis_cases (cholx 1) (slvx 1) lo3 hi3 [0%nat] Hf gf vzero (cholx_exact 1) (slvx_exact 1) (sym1 _) st out act) as [([X|X] & _)|(_ & _ & d & SD & B)]; [congruence|exfalso; apply X, pdG; exact L|].
  pose proof (stepG _ _ L SD) as DE. assert (D2 : 12 / 10 < d 0%nat) by nra.
  assert (AF : after lo3 hi3 [0%nat] vzero d 0%nat = d 0%nat) by (apply afterG; lra).
  assert (NI : near_in lo3 hi3 [0%nat] vzero d = false).
  { destruct (near_in _ _ _ _ _) eqn:NI; [exfalso|reflexivity]. apply near_within in NI. destruct (NI 0%nat (or_introl eq_refl)) as (_ & X).
    rewrite AF in X. unfold hi3 in X. cbn in X. unfold Rdiv in X. lra. }
  assert (IN : inside_of lo3 hi3 [0%nat] (after lo3 hi3 [0%nat] vzero d) = false).
  { destruct (inside_of _ _ _ _) eqn:IN; [exfalso|reflexivity]. apply inside_within in IN. destruct (IN 0%nat (or_introl eq_refl)) as (_ & X).
    rewrite AF in X. unfold hi3 in X. cbn in X. lra. }
  unfold bfollows in B. cbv zeta in B. rewrite NI, IN in B. destruct B as [(X & _)|(_ & [(_ & _ & B)|([X|X] & _)])]; try congruence.
  rewrite B. eexists. split; [reflexivity|]. cbn. repeat split; assumption.
Qed.

(** the search goes on doubling until the 100 trials are used up *)
Lemma limitG left : forall i st act, h_hard st = false -> h_back st = false -> 0 <= h_lam st -> 2 * (1 + 2 ^ left * h_lam st) < G ->
  search left i st true act = HomLimit (S (i + left)).
Proof.
  induction left as [|left IH]; intros i st act HH HB L F; cbn [bis_search]; rewrite orb_true_r; cbn [negb].
  - cbn [pow] in F. destruct (farG st true act HH HB L ltac:(lra)) as (st' & E & _). rewrite E. rewrite Nat.add_0_r. reflexivity.
  - assert (1 <= 2 ^ left) by (apply pow_R1_Rle; lra). cbn [pow] in F.
    destruct (farG st true act HH HB L ltac:(nra)) as (st' & E & H1 & H2 & H3 & _). rewrite E. rewrite IH; [f_equal; lia|assumption|assumption|rewrite H3; lra|].
    rewrite H3. lra.
Qed.

(** well inside: the multiplier becomes the upper end *)
Lemma nearG st out act : h_hard st = false -> 0 <= h_lam st -> G < 9 / 10 * (1 + h_lam st) ->
  exists st' act', trial st out act = TNext st' false act' /\ h_back st' = true /\ h_lower st' = h_lower st /\ h_upper st' = h_lam st.
Proof.
  intros HH L F. pose proof e5.
  destruct (bis_cases (cholx 1) (slvx 1) lo3 hi3 [0%nat] Hf gf vzero (cholx_exact 1) (slvx_exact 1) (sym1 _) st out act) as [([X|X] & _)|(_ & _ & d & SD & B)]; [congruence|exfalso; apply X, pdG; exact L|].
  pose proof (stepG _ _ L SD) as DE. assert (D1 : 0 < d 0%nat) by nra. assert (D2 : d 0%nat < 9 / 10) by nra.
  assert (AF : after lo3 hi3 [0%nat] vzero d 0%nat = d 0%nat) by (apply afterG; lra).
  assert (IN : inside_of lo3 hi3 [0%nat] (after lo3 hi3 [0%nat] vzero d) = true).
  { apply inside_within. intros i [<-|[]]. rewrite AF. unfold lo3, hi3. cbn. lra. }
  assert (TO : touching lo3 hi3 [0%nat] vzero d = false).
  { destruct (touching _ _ _ _ _) eqn:TO; [exfalso|reflexivity]. apply touching_touches in TO. destruct TO as (i & b & [<-|[]] & BD & AB). rewrite AF in AB.
    unfold lo3, hi3 in BD. unfold Rdiv in AB. destruct BD as [BD|BD]; injection BD as <-; unfold Rabs in AB; destruct (Rcase_abs _); lra. }
  pose proof (inside_near (cholx 1) (slvx 1) lo3 hi3 [0%nat] (sub_mat [0%nat] (m1 1)) gf vzero d IN) as NI.
  unfold bfollows in B. cbv zeta in B. rewrite NI, IN, TO in B. destruct B as [(_ & X & _)|(_ & [(_ & X & _)|(_ & B)])]; try congruence.
  rewrite B. do 2 eexists. split; [reflexivity|]. cbn. repeat split.
Qed.
End G.

(** G = 4: outside for the multiplier 2, inside for 4 *)
Definition g5 : vec := c (- (4)).
Lemma ans5 : exists o, msw 1 1 (sub_vec [0%nat] g5) (sub_mat [0%nat] (m1 1)) 10 = Some o /\ ms_s o 0%nat = 4 /\ ms_lambda o = 0 /\ ms_hard o = false /\
  starts 1 (m1 1) lo3 hi3 [0%nat] vzero g5 10 ep o.
Proof.
  destruct (ansG 4 10 ltac:(lra) ltac:(lra) 1) as (o & E & V & L & HH). exists o. repeat (split; [assumption|]). exact (startsG 4 10 ltac:(lra) ltac:(lra) o 1 E V).
Qed.

Lemma open5 o act : ms_lambda o = 0 -> ms_hard o = false -> exists st, bis_states (cholx 1) (slvx 1) lo3 hi3 [0%nat] (sub_mat [0%nat] (m1 1)) (sub_vec [0%nat] g5) vzero 1
    (bis_start lo3 hi3 [0%nat] vzero 1 g5 (m1 1) (ms_lambda o) (ms_hard o) (vadd vzero (expand [0%nat] (ms_s o)))) true act = Some (st, true, act) /\
  h_hard st = false /\ h_back st = false /\ h_lam st = 4 /\ h_lower st = 0.
Proof.
  intros L HH. rewrite L, HH. cbn [bis_states].
  destruct (farG 4 (bis_start lo3 hi3 [0%nat] vzero 1 g5 (m1 1) 0 false (vadd vzero (expand [0%nat] (ms_s o)))) true act) as (st & E & A & B & C & F);
    try reflexivity; cbn [h_lam bis_start]; rewrite ?Rmax_left by lra; try lra.
  cbn [h_lam h_lower bis_start] in C, F. rewrite Rmax_left in C by lra. unfold g5 in E |- *. rewrite E. exists st. split; [reflexivity|]. repeat split; try assumption; lra.
Qed.
Lemma close5 o act : starts 1 (m1 1) lo3 hi3 [0%nat] vzero g5 10 ep o -> ms_lambda o = 0 -> ms_hard o = false ->
  exists st act', bis_states (cholx 1) (slvx 1) lo3 hi3 [0%nat] (sub_mat [0%nat] (m1 1)) (sub_vec [0%nat] g5) vzero 2
    (bis_start lo3 hi3 [0%nat] vzero 1 g5 (m1 1) (ms_lambda o) (ms_hard o) (vadd vzero (expand [0%nat] (ms_s o)))) true act = Some (st, false, act') /\
  h_back st = true /\ h_lower st = 0 /\ h_upper st = 4 /\ h_lam st = 4 / 10 ^ 13.
Proof.
  intros ST L HH. destruct (open5 o act L HH) as (st & E & A & B & C & F).
  destruct (nearG 4 ltac:(lra) st true act A ltac:(rewrite C; lra) ltac:(rewrite C; lra)) as (st' & act' & E' & A' & B' & C').
  assert (S2 : bis_states (cholx 1) (slvx 1) lo3 hi3 [0%nat] (sub_mat [0%nat] (m1 1)) (sub_vec [0%nat] g5) vzero 2
    (bis_start lo3 hi3 [0%nat] vzero 1 g5 (m1 1) (ms_lambda o) (ms_hard o) (vadd vzero (expand [0%nat] (ms_s o)))) true act = Some (st', false, act')).
  { cbn [bis_states] in E |- *. destruct (bis_trial _ _ _ _ _ _ _ _ _ true act); try discriminate. injection E as -> -> ->. unfold g5 in *. rewrite E'. reflexivity. }
  exists st', act'. split; [exact S2|]. split; [exact A'|]. split; [congruence|]. split; [congruence|].
  destruct (bf_interval cholx slvx 1 (m1 1) lo3 hi3 [0%nat] vzero g5 10 ep o cholx_exact slvx_exact (sym1 _) ST HH 2 act st' false act' S2) as [(X & _)|(_ & _ & _ & X & _)]; [congruence|].
  rewrite X, B', C', F, C, Rmult_0_l, sqrt_0. pose proof (pow_lt 10 13 ltac:(lra)) as P. pose proof (Rinv_0_lt_compat _ P). rewrite Rmax_right; unfold Rdiv; nra.
Qed.
Lemma count5 o : ms_s o 0%nat = 4 -> ms_lambda o = 0 ->
  (forall x, 1 * dot 1 x x <= quad 1 (sub_mat [0%nat] (m1 1)) x + ms_lambda o * dot 1 x x) /\
  norm 1 (sub_vec [0%nat] g5) <= 2 ^ 19 / 10 ^ 5 /\ 2 ^ 20 * Rmax 1 (ms_lambda o) * norm 1 (ms_s o) <= 10 ^ (13 * 1) * 1 / 10 ^ 5 /\
  norm 1 (ms_s o) <= 2 ^ 19 / 10 ^ 5 /\ ms_lambda o * norm 1 (ms_s o) <= 2 ^ 19 * 1 / 10 ^ 5.
Proof.
  intros V L. rewrite !norm_c, V, L. unfold sub_vec, g5, c. rewrite (Rabs_left (- (4))), (Rabs_pos_eq 4), Rmax_left by lra.
  split; [|split; [|split; [|split]]].
  - intros x. unfold quad, dot, mv, sub_mat, m1. cbn. lra.
  - cbn. lra.
  - cbn. lra.
  - cbn. lra.
  - cbn. lra.
Qed.

(** G = 2^110: the 100 trials do not suffice *)
Definition big : R := 2 ^ 110.
Lemma big_le : 4 * (1 + 2 ^ 99 * 2) < big.
Proof.
  unfold big. replace 110%nat with (100 + 10)%nat by lia. rewrite pow_add. replace (2 ^ 99 * 2) with (2 ^ 100) by (replace 100%nat with (S 99) at 1 by lia; cbn [pow]; ring).
  assert (1 <= 2 ^ 100) by (apply pow_R1_Rle; lra). assert (2 ^ 10 = 1024) as -> by (cbn; lra). generalize dependent (2 ^ 100). intros x Hx. lra.
Qed.
Lemma big_1 : 4 <= big.
Proof. pose proof big_le. assert (0 < 2 ^ 99) by (apply pow_lt; lra). lra. Qed.
Definition g6 : vec := c (- big).
Lemma run6 : exists o, solve_bc0 msw 1 (m1 1) lo3 hi3 g6 big cholx slvx = Some (Some o) /\ bc_s o = vzero /\ bc_end o = BcLimit /\ bc_trials o = 100%nat.
Proof.
  pose proof e5. pose proof e10. pose proof big_1 as B1. destruct (ansG big big ltac:(lra) ltac:(lra) 1) as (m & E & V & L & HH). fold g6 in E.
  assert (GC : filter (g_crit lo3 hi3 g6) (seq 0 1) = []).
  { cbn [seq filter]. unfold g_crit, g6, c, lo3, hi3, xabs_le, xler. rewrite (Rabs_left (-10)) by lra. num. reflexivity. }
  unfold solve_bc0. rewrite GC. change (complement 1 []) with [0%nat]. cbn [bcs_outer length].
  set (sa := vadd vzero (expand [0%nat] (ms_s m))).
  assert (SA : sa 0%nat = big) by (unfold sa, vadd, vzero; rewrite ex1, V; ring).
  assert (CALL : ms_calls (ms_part msw) 1 (m1 1) lo3 hi3 1 0 vzero g6 big g6 [] [0%nat] =
     CGo [] [0%nat] sa (vadd g6 (expand [0%nat] (ms_gplus m))) 1).
  { cbn [ms_calls length]. unfold ms_part at 1. rewrite E. fold sa.
    assert (F1 : u_crit hi3 sa 0%nat = false).
    { unfold u_crit, above, hi3, xsub, xler. rewrite SA. num. reflexivity. }
    assert (F2 : l_crit lo3 sa 0%nat = false).
    { unfold l_crit, below, lo3, rlex. rewrite SA. num. reflexivity. }
    cbn [filter]. rewrite F1, F2. reflexivity. }
  rewrite CALL.
  assert (OUT : existsb (out_by lo3 hi3 0 sa) [0%nat] = true).
  { cbn [existsb]. unfold out_by, lo3, hi3, rlex, xler. rewrite SA. num. reflexivity. }
  rewrite OUT. unfold bis_of. cbn [length]. rewrite E.
  rewrite (limitG big ltac:(lra) 99 0).
  - eexists. split; [reflexivity|]. repeat split.
  - exact HH.
  - reflexivity.
  - cbn [h_lam bis_start]. rewrite L, Rmax_left by lra. lra.
  - cbn [h_lam bis_start]. rewrite L, (Rmax_left 2) by lra. pose proof big_le as X. assert (0 < 2 ^ 99) by (apply pow_lt; lra). generalize dependent (2 ^ 99). intros x F1 F2. lra.
Qed.
Lemma r_progress0 : ~ forall ms chol slv n H lb ub g Delta eps o,
  (forall k, chol_exact k (chol k)) -> (forall k, slv_exact k (slv k)) -> symmetric n H -> posdef n H -> ms_sound ms eps -> 0 <= eps <= 1 / 100 ->
  1 <= Delta -> (forall i, (i < n)%nat -> ~ rle_x (-1 / 4) (lb i) /\ ~ xle_r (ub i) (1 / 4)) -> 1 <= norm n g ->
  solve_bc0 ms n H lb ub g Delta chol slv = Some (Some o) -> ~ veq n (bc_s o) vzero.
Proof.
  intros A. pose proof big_1. destruct run6 as (o & E & Z & _). refine (A msw cholx slvx 1%nat (m1 1) lo3 hi3 g6 big ep o cholx_exact slvx_exact (sym1 _) _ msw_sound _ _ _ _ E _).
  - intros v NV. apply (posdef1 1 [0%nat] ltac:(lra) v NV).
  - split; [exact ep_pos|]. unfold ep. replace (1 / 100) with (/ 10 ^ 2) by (field). apply Rinv_le_contravar; [apply pow_lt; lra|]. apply Rle_pow; [lra|lia].
  - lra.
  - intros i Hi. unfold lo3, hi3. cbn. lra.
  - rewrite norm_c. unfold g6, c. rewrite Rabs_left by lra. lra.
  - rewrite Z. intros i Hi. reflexivity.
Qed.
Lemma r_bisection : ~ forall chol slv n H lb ub free s g Delta eps o,
  (forall k, chol_exact k (chol k)) -> (forall k, slv_exact k (slv k)) -> symmetric n H -> starts n H lb ub free s g Delta eps o -> ms_hard o = false ->
  forall k act st out' act',
  bis_states (chol (length free)) (slv (length free)) lb ub free (sub_mat free H) (sub_vec free g) s k
    (bis_start lb ub free s n g H (ms_lambda o) (ms_hard o) (vadd s (expand free (ms_s o)))) true act = Some (st, out', act') ->
  h_back st = true -> h_lam st = (h_lower st + h_upper st) / 2.
Proof.
  intros A. destruct ans5 as (o & E & V & L & HH & ST). destruct (close5 o true ST L HH) as (st & act' & S2 & B & LO & UP & LA).
  pose proof (A cholx slvx 1%nat (m1 1) lo3 hi3 [0%nat] vzero g5 10 ep o cholx_exact slvx_exact (sym1 _) ST HH 2%nat true st false act' S2 B) as X.
  rewrite LA, LO, UP in X. assert (P : 10 <= 10 ^ 13) by (replace 10 with (10 ^ 1) at 1 by ring; apply Rle_pow; [lra|lia]).
  assert (4 / 10 ^ 13 <= 4 / 10) by (apply Rmult_le_compat_l; [lra|]; apply Rinv_le_contravar; lra). lra.
Qed.
