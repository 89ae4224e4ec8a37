(** C70: the search for the multiplier in the bound-constrained trust-region solver. *)
From Coq Require Import Reals Lra List Arith.
From Verif Require Import RVec RBool Tri ProjGrad_Spec MS_Model MS_Spec BC_Model BC_Spec Hom_Model Hom_Spec MS_Wit Chol BC_Wit Hom_Proofs Hom_Len Hom_Next Hom_One Hom_Fin Hom_Wit.
Import ListNotations.
Open Scope R_scope.

(** with the search in place the solver is an instance of the one of C38 *)
Theorem C70_refines : forall ms chol slv n H lb ub g Delta, exists hom,
  solve_bcx ms chol slv n H lb ub g Delta = solve_bc (ms_part ms) hom n H lb ub g Delta.
Proof. exact t_refines. Qed.
Print Assumptions C70_refines.

(** exact linear algebra raises no exception *)
Theorem C70_ends : forall ms chol slv n H lb ub g Delta,
  (forall k, chol_exact k (chol k)) -> (forall k, slv_exact k (slv k)) -> symmetric n H -> in_bounds n lb ub vzero ->
  (forall j k g A D, symmetric k A -> ms j k g A D <> None) ->
  exists o, solve_bcx ms chol slv n H lb ub g Delta = Some (Some o).
Proof. exact t_ends_x. Qed.
Print Assumptions C70_ends.

Example C70_ends_nonvacuous : (forall k, chol_exact k (cholx k)) /\ (forall k, slv_exact k (slvx k)) /\
  (forall j k g A D, symmetric k A -> msf j k g A D <> None) /\ in_bounds 1 lo3 hi3 vzero.
Proof. exact (conj cholx_exact (conj slvx_exact (conj msf_some box3))). Qed.

(** the unconstrained solver of C37 gives sound answers outside the pseudo hard case *)
Theorem C70_applies : forall chol slv (eig : nat -> mat -> mat * vec) eps ms, 0 <= eps ->
  (forall k, chol_exact k (chol k)) -> (forall k, slv_exact k (slv k)) ->
  (forall j k g A D o, ms j k g A D = Some o ->
     solve_MS (chol k) (slv k) (fst (eig k A)) (snd (eig k A)) k g A D eps = Some o /\
     (ms_hard o = false \/ ((0 < k)%nat /\ eigen_exact k A (snd (eig k A)) (fst (eig k A)) /\ exists mu, hard_instance k g A (snd (eig k A)) mu D))) ->
  ms_sound ms eps.
Proof. exact t_applies. Qed.
Print Assumptions C70_applies.

Example C70_applies_nonvacuous : ms_sound msw (/ 10 ^ 4) /\
  exists o, msw 1 1 (sub_vec [0%nat] g3) (sub_mat [0%nat] (m1 1)) 10 = Some o /\ ms_s o 0%nat = 3.
Proof. split; [exact msw_sound|]. destruct (ans3 1) as (o & E & V & _). exists o. exact (conj E V). Qed.

(** the multiplier stays in its interval, which stays above the multiplier at the start *)
Theorem C70_bracket : forall chol slv n H lb ub free s g Delta eps o,
  (forall k, chol_exact k (chol k)) -> (forall k, slv_exact k (slv k)) -> symmetric n H ->
  starts n H lb ub free s g Delta eps o -> forall k act st out' act',
  hom_states (chol (length free)) (slv (length free)) lb ub free (sub_mat free H) (sub_vec free g) s k
    (hom_start lb ub free s n g H (ms_lambda o) (ms_hard o) (vadd s (expand free (ms_s o)))) true act = Some (st, out', act') ->
  ms_lambda o <= h_lower st <= h_lam st /\ h_lam st <= h_upper st /\
  (h_hard st = false -> shift_pd (length free) (sub_mat free H) (h_lam st)).
Proof. exact f_bracket. Qed.
Print Assumptions C70_bracket.

Example C70_bracket_nonvacuous : exists o, starts 1 (m1 1) lo3 hi3 [0%nat] vzero g3 10 (/ 10 ^ 4) o /\ ms_hard o = false /\
  forall act, exists st' act', hom_states (cholx 1) (slvx 1) lo3 hi3 [0%nat] (sub_mat [0%nat] (m1 1)) (sub_vec [0%nat] g3) vzero 1
    (hom_start lo3 hi3 [0%nat] vzero 1 g3 (m1 1) (ms_lambda o) (ms_hard o) (vadd vzero (expand [0%nat] (ms_s o)))) true act = Some (st', true, act').
Proof.
  destruct (ans3 1) as (o & E & V & L & HH). exists o. split; [exact (starts3 o 1 E V)|]. split; [exact HH|]. intros act. exact (step3 o act E V L HH).
Qed.

(** what the next interval and the next multiplier are *)
Theorem C70_next : forall chol slv n H lb ub free s g Delta eps o,
  (forall k, chol_exact k (chol k)) -> (forall k, slv_exact k (slv k)) -> symmetric n H ->
  starts n H lb ub free s g Delta eps o -> forall k act st out1 act1 st' out' act',
  hom_states (chol (length free)) (slv (length free)) lb ub free (sub_mat free H) (sub_vec free g) s k
    (hom_start lb ub free s n g H (ms_lambda o) (ms_hard o) (vadd s (expand free (ms_s o)))) true act = Some (st, out1, act1) ->
  hom_states (chol (length free)) (slv (length free)) lb ub free (sub_mat free H) (sub_vec free g) s 1 st out1 act1 = Some (st', out', act') ->
  ((h_hard st = true \/ ~ shift_pd (length free) (sub_mat free H) (h_lam st)) /\
     h_lower st' = h_lam st /\ h_upper st' = h_upper st /\ h_lam st' = (h_lam st + h_upper st) / 2 /\ h_hard st' = false /\ out' = out1) \/
  (h_hard st = false /\ shift_pd (length free) (sub_mat free H) (h_lam st) /\ h_hard st' = false /\
   exists d dp y q b isu,
     stationary (length free) (sub_vec free g) (sub_mat free H) (h_lam st) d /\
     (forall k, (k < length free)%nat -> let i := nth k free 0%nat in
        (held (lb i) (ub i) (vadd s (expand free d) i) /\ dp k = 0 /\ y i = 0) \/
        (~ held (lb i) (ub i) (vadd s (expand free d) i) /\ dp k = d k /\ y i = vadd s (expand free d) i)) /\
     (forall i, (i < length free)%nat -> mv (length free) (sub_mat free H) q i + h_lam st * q i = dp i) /\ (b < length free)%nat /\
     (((exists k isu', (k < length free)%nat /\ over isu' (lb (nth k free 0%nat)) (ub (nth k free 0%nat)) (y (nth k free 0%nat))) /\ out' = true /\
        h_lower st' = h_lam st /\ over isu (lb (nth b free 0%nat)) (ub (nth b free 0%nat)) (y (nth b free 0%nat)) /\
        (forall k isu', (k < length free)%nat -> over isu' (lb (nth k free 0%nat)) (ub (nth k free 0%nat)) (y (nth k free 0%nat)) ->
           away isu' (lb (nth k free 0%nat)) (ub (nth k free 0%nat)) (y (nth k free 0%nat)) <= away isu (lb (nth b free 0%nat)) (ub (nth b free 0%nat)) (y (nth b free 0%nat)))) \/
      ((forall k isu', (k < length free)%nat -> ~ over isu' (lb (nth k free 0%nat)) (ub (nth k free 0%nat)) (y (nth k free 0%nat))) /\ out' = false /\
        h_lower st' = h_lower st /\ In b (if isu then h_uinit st else h_linit st) /\
        (forall k (isu' : bool), In k (if isu' then h_uinit st else h_linit st) ->
           away isu (lb (nth b free 0%nat)) (ub (nth b free 0%nat)) (y (nth b free 0%nat)) <= away isu' (lb (nth k free 0%nat)) (ub (nth k free 0%nat)) (y (nth k free 0%nat))))) /\
     let u := if out' then h_upper st else h_lam st in
     let gap := xval (side isu (lb (nth b free 0%nat)) (ub (nth b free 0%nat))) - s (nth b free 0%nat) in
     let new := h_lam st + (Rabs (dp b) - Rabs gap) / Rabs gap * (Rabs (dp b) ^ 2 / (dp b * q b)) in
     gap <> 0 /\
     ((opposed (dp b) gap /\ h_upper st' = u /\ safeguarded (h_lower st') u ((h_lower st' + u) / 2) (h_lam st')) \/
     (~ opposed (dp b) gap /\ dp b * q b <> 0 /\
       (((h_back st' = true \/ new < u) /\ h_upper st' = u) \/ (h_back st' = false /\ u <= new /\ h_upper st' = 2 * new)) /\
       safeguarded (h_lower st') (h_upper st') new (h_lam st')) \/
     (~ opposed (dp b) gap /\ dp b * q b = 0 /\ h_upper st' = u /\
       h_lam st' = Rmax (sqrt (h_lower st' * u)) (h_lower st' + 1 / 10 ^ 13 * (u - h_lower st'))))).
Proof. exact f_next. Qed.
Print Assumptions C70_next.

(** what a successful search returns *)
Theorem C70_found : forall ms chol slv n H lb ub free s g Delta eps o,
  (forall k, chol_exact k (chol k)) -> (forall k, slv_exact k (slv k)) -> symmetric n H ->
  starts n H lb ub free s g Delta eps o -> forall j s' i,
  ms j (length free) (sub_vec free g) (sub_mat free H) Delta = Some o ->
  search_of ms chol slv n H lb ub j free s g (vadd s (expand free (ms_s o))) Delta = HomBreak s' i ->
  in_bounds n lb ub s' /\
  exists lam d, ms_lambda o <= lam /\ shift_pd (length free) (sub_mat free H) lam /\
    stationary (length free) (sub_vec free g) (sub_mat free H) lam d /\
    norm (length free) d <= norm (length free) (ms_s o) /\
    qmodel (length free) (sub_vec free g) (sub_mat free H) d <= - (lam / 2 * dot (length free) d d) /\
    placed lb ub free s d s' /\ exists i, In i free /\ (lb i = Fin (s' i) \/ ub i = Fin (s' i)).
Proof. exact f_found. Qed.
Print Assumptions C70_found.

Example C70_found_nonvacuous : exists o, starts 1 (m1 1) lo3 hi3 [0%nat] vzero g3 10 (/ 10 ^ 4) o /\
  msw 1 1 (sub_vec [0%nat] g3) (sub_mat [0%nat] (m1 1)) 10 = Some o /\
  exists s' i, search_of msw cholx slvx 1 (m1 1) lo3 hi3 1 [0%nat] vzero g3 (vadd vzero (expand [0%nat] (ms_s o))) 10 = HomBreak s' i /\ s' 0%nat = 1.
Proof.
  destruct (ans3 1) as (o & E & V & L & HH). exists o. split; [exact (starts3 o 1 E V)|]. split; [exact E|].
  destruct (search3 1 o E V L HH) as (s' & i & S & _ & T). exists s', i. exact (conj S T).
Qed.

(** the length of the step of the whole solver *)
Theorem C70_length : forall ms chol slv n H lb ub g Delta eps o,
  (forall k, chol_exact k (chol k)) -> (forall k, slv_exact k (slv k)) -> symmetric n H ->
  ms_sound ms eps -> 0 <= eps -> 0 <= Delta -> in_bounds n lb ub vzero ->
  solve_bcx ms chol slv n H lb ub g Delta = Some (Some o) ->
  norm n (bc_s o) <= (1 + eps) * Delta + sqrt (INR n) / 10 ^ 5.
Proof. exact f_length. Qed.
Print Assumptions C70_length.

Example C70_length_nonvacuous : exists o, solve_bcx msw cholx slvx 1 (m1 1) lo3 hi3 g3 10 = Some (Some o) /\
  bc_s o 0%nat = 1 /\ bc_end o = BcNoFree /\ (bc_trials o <= 2)%nat.
Proof. exact run3. Qed.

(** one free variable with an upper bound in the way: at most two trials *)
Theorem C70_one_variable : forall ms chol slv n H lb ub i s g Delta eps b j o,
  (forall k, chol_exact k (chol k)) -> (forall k, slv_exact k (slv k)) -> symmetric n H -> (i < n)%nat ->
  in_bounds n lb ub s -> ub i = Fin b -> / 10 ^ 10 < b -> ~ rle_x (b - 2 * / 10 ^ 5) (lb i) ->
  ms j 1%nat (sub_vec [i] g) (sub_mat [i] H) Delta = Some o ->
  answer_sound 1 (sub_vec [i] g) (sub_mat [i] H) Delta eps o -> ms_hard o = false ->
  s i < b -> b < vadd s (expand [i] (ms_s o)) i ->
  let upper := Rmax 0 (norm n g / (b - s i) + ms_hn n H) in
  let new := Rabs (g i) / (b - s i) - H i i in
  let upper' := if Rleb upper new then 2 * new else upper in
  ms_lambda o + 1 / 10 ^ 13 * (upper' - ms_lambda o) < new <= upper' - 1 / 10 ^ 13 * (upper' - ms_lambda o) ->
  exists s' t, search_of ms chol slv n H lb ub j [i] s g (vadd s (expand [i] (ms_s o))) Delta = HomBreak s' t /\ (t <= 2)%nat /\ s' i = b.
Proof. exact t_one. Qed.
Print Assumptions C70_one_variable.

Example C70_one_variable_nonvacuous : exists o, msw 1 1 (sub_vec [0%nat] g3) (sub_mat [0%nat] (m1 1)) 10 = Some o /\ ms_hard o = false /\
  exists s' t, search_of msw cholx slvx 1 (m1 1) lo3 hi3 1 [0%nat] vzero g3 (vadd vzero (expand [0%nat] (ms_s o))) 10 = HomBreak s' t /\ (t <= 2)%nat /\ s' 0%nat = 1.
Proof. destruct (ans3 1) as (o & E & V & L & HH). exists o. exact (conj E (conj HH (search3 1 o E V L HH))). Qed.

(** Newton's value becomes infinite only if the derivative it divides by is zero *)
Theorem C70_breakdown : forall chol slv n H lb ub free s g Delta eps o,
  (forall k, chol_exact k (chol k)) -> (forall k, slv_exact k (slv k)) -> symmetric n H ->
  starts n H lb ub free s g Delta eps o -> forall k act st out1 act1,
  hom_states (chol (length free)) (slv (length free)) lb ub free (sub_mat free H) (sub_vec free g) s k
    (hom_start lb ub free s n g H (ms_lambda o) (ms_hard o) (vadd s (expand free (ms_s o)))) true act = Some (st, out1, act1) ->
  hom_trial (chol (length free)) (slv (length free)) lb ub free (sub_mat free H) (sub_vec free g) s st out1 act1 = TNever ->
  h_hard st = false /\ exists d dp q b isu, stationary (length free) (sub_vec free g) (sub_mat free H) (h_lam st) d /\
    (forall k, (k < length free)%nat -> dp k = d k \/ dp k = 0) /\
    (forall i, (i < length free)%nat -> mv (length free) (sub_mat free H) q i + h_lam st * q i = dp i) /\ (b < length free)%nat /\
    Rabs (xval (side isu (lb (nth b free 0%nat)) (ub (nth b free 0%nat))) - s (nth b free 0%nat)) < Rabs (dp b) /\ q b = 0.
Proof. exact f_never. Qed.
Print Assumptions C70_breakdown.

Example C70_breakdown_nonvacuous : exists o st, starts 2 H4 lo4 hi4 fr vzero g4 10 (/ 10 ^ 4) o /\
  st = hom_start lo4 hi4 fr vzero 2 g4 H4 (ms_lambda o) (ms_hard o) (vadd vzero (expand fr (ms_s o))) /\
  hom_trial (cholx 2) (slvx 2) lo4 hi4 fr (sub_mat fr H4) (sub_vec fr g4) vzero st true false = TNever.
Proof. exact never4. Qed.

(** a convex model, bounds and radius not in the way of a step, and yet the step zero *)
Theorem C70_progress_refuted : ~ forall ms chol slv n H lb ub g Delta eps o,
  (forall k, chol_exact k (chol k)) -> (forall k, slv_exact k (slv k)) -> symmetric n H -> posdef n H -> ms_sound ms eps -> 0 <= eps <= 1 / 100 ->
  1 <= Delta -> (forall i, (i < n)%nat -> ~ rle_x (-1 / 4) (lb i) /\ ~ xle_r (ub i) (1 / 4)) -> 1 <= norm n g ->
  solve_bcx ms chol slv n H lb ub g Delta = Some (Some o) -> ~ veq n (bc_s o) vzero.
Proof. exact r_progress. Qed.
Print Assumptions C70_progress_refuted.

Example C70_progress_witness : exists o, solve_bcx msw cholx slvx 2 H4 lo4 hi4 g4 10 = Some (Some o) /\ bc_s o = vzero /\ bc_end o = BcLimit.
Proof. exact run4. Qed.
