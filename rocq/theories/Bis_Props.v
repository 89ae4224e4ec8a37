(** C79: the search for the multiplier with stratLam = 0 in the bound-constrained trust-region solver. *)
From Coq Require Import Reals Lra Lia List Arith.
From Verif Require Import RVec RBool Tri ProjGrad_Spec MS_Model MS_Spec BC_Model BC_Spec Hom_Model Hom_Spec MS_Wit Chol BC_Wit Hom_Wit Bis_Model Bis_Spec Bis_Len Bis_Fin Bis_Wit.
Import ListNotations.
Open Scope R_scope.

(** the solver is an instance of the one of C38 *)
Theorem C79_refines : forall ms chol slv n H lb ub g Delta, exists hom,
  solve_bc0 ms n H lb ub g Delta chol slv = solve_bc (ms_part ms) hom n H lb ub g Delta.
Proof. exact b_refines. Qed.
Print Assumptions C79_refines.

(** exact linear algebra raises no exception *)
Theorem C79_ends : forall ms chol slv n H lb ub g Delta,
  (forall k, chol_exact k (chol k)) -> (forall k, slv_exact k (slv k)) -> symmetric n H -> in_bounds n lb ub vzero ->
  (forall j k g A D, symmetric k A -> ms j k g A D <> None) ->
  exists o, solve_bc0 ms n H lb ub g Delta chol slv = Some (Some o).
Proof. exact b_ends. Qed.
Print Assumptions C79_ends.

Example C79_ends_nonvacuous : (forall k, chol_exact k (cholx k)) /\ (forall k, slv_exact k (slvx k)) /\
  (forall j k g A D, symmetric k A -> msf j k g A D <> None) /\ in_bounds 1 lo3 hi3 vzero.
Proof. exact (conj cholx_exact (conj slvx_exact (conj msf_some box3))). Qed.

(** what the next interval and the next multiplier are *)
Theorem C79_next : forall chol slv n H lb ub free s g Delta eps o,
  (forall k, chol_exact k (chol k)) -> (forall k, slv_exact k (slv k)) -> symmetric n H ->
  starts n H lb ub free s g Delta eps o -> ms_hard o = false -> forall k act st out1 act1 st' out' act',
  bis_states (chol (length free)) (slv (length free)) lb ub free (sub_mat free H) (sub_vec free g) s k
    (bis_start lb ub free s n g H (ms_lambda o) (ms_hard o) (vadd s (expand free (ms_s o)))) true act = Some (st, out1, act1) ->
  bis_states (chol (length free)) (slv (length free)) lb ub free (sub_mat free H) (sub_vec free g) s 1 st out1 act1 = Some (st', out', act') ->
  exists d y, stationary (length free) (sub_vec free g) (sub_mat free H) (h_lam st) d /\ trial_point lb ub free s d y /\
  ~ (within (1 / 10 ^ 5) lb ub free y /\ touches lb ub free y) /\
  ((h_back st = false /\ ~ within (1 / 10 ^ 5) lb ub free y /\ h_back st' = false /\ h_lower st' = h_lower st /\ h_lam st' = 2 * h_lam st /\
      ((h_upper st < 2 * h_lam st /\ h_upper st' = 2 * h_lam st') \/ (2 * h_lam st <= h_upper st /\ h_upper st' = h_upper st))) \/
   ((h_back st = true \/ within (1 / 10 ^ 5) lb ub free y) /\ h_back st' = true /\
      ((within 0 lb ub free y /\ h_lower st' = h_lower st /\ h_upper st' = h_lam st) \/
       (~ within (1 / 10 ^ 5) lb ub free y /\ h_lower st' = h_lam st /\ h_upper st' = h_upper st)) /\
      h_lam st' = Rmax (sqrt (h_lower st' * h_upper st')) (h_lower st' + 1 / 10 ^ 13 * (h_upper st' - h_lower st')))).
Proof. exact bf_next. Qed.
Print Assumptions C79_next.

(** the first trial in the hard case *)
Theorem C79_hard_case : forall chol slv n H lb ub free s g Delta eps o,
  (forall k, chol_exact k (chol k)) -> (forall k, slv_exact k (slv k)) -> symmetric n H ->
  starts n H lb ub free s g Delta eps o -> forall act, ms_hard o = true ->
  exists st', bis_states (chol (length free)) (slv (length free)) lb ub free (sub_mat free H) (sub_vec free g) s 1
    (bis_start lb ub free s n g H (ms_lambda o) (ms_hard o) (vadd s (expand free (ms_s o)))) true act = Some (st', true, act) /\
  h_lower st' = Rmax 2 (2 * ms_lambda o) /\
  h_upper st' = h_upper (bis_start lb ub free s n g H (ms_lambda o) (ms_hard o) (vadd s (expand free (ms_s o)))) /\
  h_lam st' = (Rmax 2 (2 * ms_lambda o) + h_upper (bis_start lb ub free s n g H (ms_lambda o) (ms_hard o) (vadd s (expand free (ms_s o))))) / 2 /\
  h_hard st' = false /\ h_back st' = false.
Proof. exact bf_hard. Qed.
Print Assumptions C79_hard_case.

(** the interval and the multiplier before and after the first trial within the bounds *)
Theorem C79_interval : forall chol slv n H lb ub free s g Delta eps o,
  (forall k, chol_exact k (chol k)) -> (forall k, slv_exact k (slv k)) -> symmetric n H ->
  starts n H lb ub free s g Delta eps o -> ms_hard o = false -> forall k act st out' act',
  bis_states (chol (length free)) (slv (length free)) lb ub free (sub_mat free H) (sub_vec free g) s k
    (bis_start lb ub free s n g H (ms_lambda o) (ms_hard o) (vadd s (expand free (ms_s o)))) true act = Some (st, out', act') ->
  (h_back st = false /\ h_lower st = ms_lambda o /\ h_lam st = 2 ^ k * Rmax 2 (2 * ms_lambda o) /\
    forall j, (j < k)%nat -> exists d y, stationary (length free) (sub_vec free g) (sub_mat free H) (2 ^ j * Rmax 2 (2 * ms_lambda o)) d /\
      trial_point lb ub free s d y /\ ~ within (1 / 10 ^ 5) lb ub free y) \/
  (h_back st = true /\ ms_lambda o <= h_lower st /\ h_lower st < h_lam st < (h_lower st + h_upper st) / 2 /\
    h_lam st = Rmax (sqrt (h_lower st * h_upper st)) (h_lower st + 1 / 10 ^ 13 * (h_upper st - h_lower st)) /\
    (exists d y, stationary (length free) (sub_vec free g) (sub_mat free H) (h_upper st) d /\ trial_point lb ub free s d y /\
      within 0 lb ub free y /\ ~ touches lb ub free y) /\
    (h_lower st = ms_lambda o \/ exists d y, stationary (length free) (sub_vec free g) (sub_mat free H) (h_lower st) d /\
      trial_point lb ub free s d y /\ ~ within (1 / 10 ^ 5) lb ub free y)).
Proof. exact bf_interval. Qed.
Print Assumptions C79_interval.

Example C79_interval_nonvacuous : exists o, starts 1 (m1 1) lo3 hi3 [0%nat] vzero g5 10 (/ 10 ^ 4) o /\ ms_hard o = false /\
  forall act, exists st1 st2 act', h_back st1 = false /\ h_back st2 = true /\
    bis_states (cholx 1) (slvx 1) lo3 hi3 [0%nat] (sub_mat [0%nat] (m1 1)) (sub_vec [0%nat] g5) vzero 1
      (bis_start lo3 hi3 [0%nat] vzero 1 g5 (m1 1) (ms_lambda o) (ms_hard o) (vadd vzero (expand [0%nat] (ms_s o)))) true act = Some (st1, true, act) /\
    bis_states (cholx 1) (slvx 1) lo3 hi3 [0%nat] (sub_mat [0%nat] (m1 1)) (sub_vec [0%nat] g5) vzero 2
      (bis_start lo3 hi3 [0%nat] vzero 1 g5 (m1 1) (ms_lambda o) (ms_hard o) (vadd vzero (expand [0%nat] (ms_s o)))) true act = Some (st2, false, act').
Proof.
  destruct ans5 as (o & E & V & L & HH & ST). exists o. split; [exact ST|]. split; [exact HH|]. intros act.
  destruct (open5 o act L HH) as (st1 & E1 & _ & B1 & _). destruct (close5 o act ST L HH) as (st2 & act' & E2 & B2 & _).
  exists st1, st2, act'. auto.
Qed.

(** the multiplier is not the midpoint of the interval *)
Theorem C79_bisection_refuted : ~ forall chol slv n H lb ub free s g Delta eps o,
  (forall k, chol_exact k (chol k)) -> (forall k, slv_exact k (slv k)) -> symmetric n H -> starts n H lb ub free s g Delta eps o -> ms_hard o = false ->
  forall k act st out' act',
  bis_states (chol (length free)) (slv (length free)) lb ub free (sub_mat free H) (sub_vec free g) s k
    (bis_start lb ub free s n g H (ms_lambda o) (ms_hard o) (vadd s (expand free (ms_s o)))) true act = Some (st, out', act') ->
  h_back st = true -> h_lam st = (h_lower st + h_upper st) / 2.
Proof. exact r_bisection. Qed.
Print Assumptions C79_bisection_refuted.

Example C79_bisection_witness : exists o, starts 1 (m1 1) lo3 hi3 [0%nat] vzero g5 10 (/ 10 ^ 4) o /\ ms_hard o = false /\
  forall act, exists st act', bis_states (cholx 1) (slvx 1) lo3 hi3 [0%nat] (sub_mat [0%nat] (m1 1)) (sub_vec [0%nat] g5) vzero 2
      (bis_start lo3 hi3 [0%nat] vzero 1 g5 (m1 1) (ms_lambda o) (ms_hard o) (vadd vzero (expand [0%nat] (ms_s o)))) true act = Some (st, false, act') /\
    h_back st = true /\ h_lower st = 0 /\ h_upper st = 4 /\ h_lam st = 4 / 10 ^ 13.
Proof.
  destruct ans5 as (o & E & V & L & HH & ST). exists o. split; [exact ST|]. split; [exact HH|]. intros act. exact (close5 o act ST L HH).
Qed.

(** the step of a search that found a bound *)
Theorem C79_found : forall ms chol slv n H lb ub free s g Delta eps o,
  (forall k, chol_exact k (chol k)) -> (forall k, slv_exact k (slv k)) -> symmetric n H ->
  starts n H lb ub free s g Delta eps o -> forall c s' j,
  ms c (length free) (sub_vec free g) (sub_mat free H) Delta = Some o ->
  bis_of ms n H lb ub chol slv c free s g (vadd s (expand free (ms_s o))) Delta = HomBreak s' j ->
  in_bounds n lb ub s' /\
  exists lam d, ms_lambda o < lam /\ shift_pd (length free) (sub_mat free H) lam /\
    stationary (length free) (sub_vec free g) (sub_mat free H) lam d /\ norm (length free) d <= norm (length free) (ms_s o) /\
    qmodel (length free) (sub_vec free g) (sub_mat free H) d <= - (lam / 2 * dot (length free) d d) /\
    placed lb ub free s d s' /\ exists i, In i free /\ (lb i = Fin (s' i) \/ ub i = Fin (s' i)).
Proof. exact bf_found. Qed.
Print Assumptions C79_found.

(** the search ends at a bound within K + J + L + 7 trials *)
Theorem C79_succeeds : forall ms chol slv n H lb ub free s g Delta eps o,
  (forall k, chol_exact k (chol k)) -> (forall k, slv_exact k (slv k)) -> symmetric n H ->
  starts n H lb ub free s g Delta eps o -> ms_hard o = false -> forall c sg K J L,
  ms c (length free) (sub_vec free g) (sub_mat free H) Delta = Some o ->
  0 < sg -> (forall x, sg * dot (length free) x x <= quad (length free) (sub_mat free H) x + ms_lambda o * dot (length free) x x) ->
  norm (length free) (sub_vec free g) <= 2 ^ K / 10 ^ 5 ->
  2 ^ S K * Rmax 1 (ms_lambda o) * norm (length free) (ms_s o) <= 10 ^ (13 * J) * sg / 10 ^ 5 ->
  norm (length free) (ms_s o) <= 2 ^ L / 10 ^ 5 -> ms_lambda o * norm (length free) (ms_s o) <= 2 ^ L * sg / 10 ^ 5 ->
  (K + J + L + 7 <= 100)%nat ->
  exists s' t, bis_of ms n H lb ub chol slv c free s g (vadd s (expand free (ms_s o))) Delta = HomBreak s' t /\ (t <= K + J + L + 7)%nat.
Proof. exact bf_succeeds. Qed.
Print Assumptions C79_succeeds.

Example C79_succeeds_nonvacuous : exists o, starts 1 (m1 1) lo3 hi3 [0%nat] vzero g5 10 (/ 10 ^ 4) o /\ ms_hard o = false /\
  msw 1 1 (sub_vec [0%nat] g5) (sub_mat [0%nat] (m1 1)) 10 = Some o /\
  (forall x, 1 * dot 1 x x <= quad 1 (sub_mat [0%nat] (m1 1)) x + ms_lambda o * dot 1 x x) /\
  norm 1 (sub_vec [0%nat] g5) <= 2 ^ 19 / 10 ^ 5 /\ 2 ^ 20 * Rmax 1 (ms_lambda o) * norm 1 (ms_s o) <= 10 ^ (13 * 1) * 1 / 10 ^ 5 /\
  norm 1 (ms_s o) <= 2 ^ 19 / 10 ^ 5 /\ ms_lambda o * norm 1 (ms_s o) <= 2 ^ 19 * 1 / 10 ^ 5.
Proof.
  destruct ans5 as (o & E & V & L & HH & ST). exists o. exact (conj ST (conj HH (conj E (count5 o V L)))).
Qed.

Example C79_found_nonvacuous : exists o s' t, starts 1 (m1 1) lo3 hi3 [0%nat] vzero g5 10 (/ 10 ^ 4) o /\
  msw 1 1 (sub_vec [0%nat] g5) (sub_mat [0%nat] (m1 1)) 10 = Some o /\
  bis_of msw 1 (m1 1) lo3 hi3 cholx slvx 1 [0%nat] vzero g5 (vadd vzero (expand [0%nat] (ms_s o))) 10 = HomBreak s' t.
Proof.
  destruct ans5 as (o & E & V & L & HH & ST). destruct (count5 o V L) as (C1 & C2 & C3 & C4 & C5).
  destruct (C79_succeeds msw cholx slvx 1 (m1 1) lo3 hi3 [0%nat] vzero g5 10 _ o cholx_exact slvx_exact (sym1 _) ST HH 1 1 19 1 19 E Rlt_0_1 C1 C2 C3 C4 C5 ltac:(lia)) as (s' & t & A & _).
  exists o, s', t. auto.
Qed.

(** the length of the step of the whole solver *)
Theorem C79_length : forall ms chol slv n H lb ub g Delta eps o,
  (forall k, chol_exact k (chol k)) -> (forall k, slv_exact k (slv k)) -> symmetric n H ->
  ms_sound ms eps -> 0 <= eps -> 0 <= Delta -> in_bounds n lb ub vzero ->
  solve_bc0 ms n H lb ub g Delta chol slv = Some (Some o) ->
  norm n (bc_s o) <= (1 + eps) * Delta + sqrt (INR n) / 10 ^ 5.
Proof. exact bf_length. Qed.
Print Assumptions C79_length.

Example C79_length_nonvacuous : ms_sound msw (/ 10 ^ 4) /\ exists o, solve_bc0 msw 1 (m1 1) lo3 hi3 g6 big cholx slvx = Some (Some o).
Proof. split; [exact msw_sound|]. destruct run6 as (o & E & _). exists o. exact E. Qed.

(** a convex model, bounds and radius not in the way of a step, and yet the step zero *)
Theorem C79_progress_refuted : ~ forall ms chol slv n H lb ub g Delta eps o,
  (forall k, chol_exact k (chol k)) -> (forall k, slv_exact k (slv k)) -> symmetric n H -> posdef n H -> ms_sound ms eps -> 0 <= eps <= 1 / 100 ->
  1 <= Delta -> (forall i, (i < n)%nat -> ~ rle_x (-1 / 4) (lb i) /\ ~ xle_r (ub i) (1 / 4)) -> 1 <= norm n g ->
  solve_bc0 ms n H lb ub g Delta chol slv = Some (Some o) -> ~ veq n (bc_s o) vzero.
Proof. exact r_progress0. Qed.
Print Assumptions C79_progress_refuted.

Example C79_progress_witness : exists o, solve_bc0 msw 1 (m1 1) lo3 hi3 g6 big cholx slvx = Some (Some o) /\ bc_s o = vzero /\ bc_end o = BcLimit /\ bc_trials o = 100%nat.
Proof. exact run6. Qed.
