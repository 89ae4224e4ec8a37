(** C01-C10, C16, C53: property theorems about the main loop.

    [begins E k0 d0 s0]: s0 is a first state with consistent data; [reach E s0 s]: s
    is the state at some loop head; [pass E s a]: the pass starting there with the
    answers [a] of the routines that are not modelled. *)
From Coq Require Import List Arith ZArith QArith Qabs Bool Lia.
Import ListNotations.
From Verif Require Import QB Book_Model Book_Spec Book_Wit Main_Model Main_Spec Main_Proofs3 Main_More Main_Wit.
Local Open Scope Q_scope.

(** ** C01: exit code 0 *)

Theorem C01_certificate : forall (P : Type) (E : env P), sane E ->
  forall k0 d0 s0 s a s' f, begins E k0 d0 s0 -> reach E s0 s -> pass E s a = Return 0 s' f ->
  (exists t, (t == 1 \/ t == 100) /\
     glagn (sN s') <= t * e_tolg E /\ feasn (sN s') <= t * e_tolf E /\
     compl (sN s') <= t * e_tolb E) /\
  poised (sN s') * yrad (sN s') <= 100 * (1 # 100000) /\
  (forall i, (i < length (ince (sN s')))%nat ->
     Qabs (residual (sl (sG s')) (ince (sN s')) i) <= feasn (sN s')).
Proof. exact (@certificate). Qed.
Print Assumptions C01_certificate.

Theorem C01_complete : forall (P : Type) (E : env P) s a,
  (niter (sN s) < e_miter E)%nat -> (nsim (sA s) < e_msimul E)%nat ->
  a_exc1 a = false -> 0 <= e_tolf E -> 0 <= e_tolb E ->
  a_glagn1 a <= e_tolg E -> feasible E s -> a_poised a * a_yrad a <= 1 # 1000 ->
  exists s', pass E s a = Return 0 s' (Fin (inff (sN s))) /\ sI s' = sI s /\ sA s' = sA s.
Proof. exact (@certificate_complete). Qed.
Print Assumptions C01_complete.

Example C01_complete_ex : feasible (wE (unc f_up) 0 9 100) (su (unc f_up) f_up 9 100) /\
  a_glagn1 w_fine <= e_tolg (wE (unc f_up) 0 9 100) /\ a_poised w_fine * a_yrad w_fine <= 1 # 1000 /\
  exists s', pass (wE (unc f_up) 0 9 100) (su (unc f_up) f_up 9 100) w_fine = Return 0 s' (Fin 10).
Proof.
  split; [intros i H; cbn in H; inversion H|]. split; [vm_compute; discriminate|]. split; [vm_compute; discriminate|].
  eexists. vm_compute. reflexivity.
Qed.

Theorem C01_requested_tolerance_refuted : exists s' f,
  run (wE (unc f_up) 0 9 100) 5 (fun _ => w_end) 0 (su (unc f_up) f_up 9 100) = Some (Return 0 s' f) /\
  glagn (sN s') == 50 * e_tolg (wE (unc f_up) 0 9 100).
Proof. exact loose_certificate. Qed.
Print Assumptions C01_requested_tolerance_refuted.

Example C01_ex : sane (wE (unc f_up) 0 9 100) /\
  begins (wE (unc f_up) 0 9 100) 2 1 (su (unc f_up) f_up 9 100).
Proof. split; [apply wE_sane|apply su_begins; vm_compute; congruence]. Qed.

(** runs and loop heads *)
Theorem C01_runs : forall (P : Type) (E : env P) s0 s n ans k fl s' f,
  reach E s0 s -> run E n ans k s = Some (Return fl s' f) ->
  exists s1 a, reach E s0 s1 /\ pass E s1 a = Return fl s' f.
Proof. exact (@run_reach). Qed.
Print Assumptions C01_runs.

(** ** C02: iterations *)

Theorem C02_budget : forall (P : Type) (E : env P), sane E ->
  forall k0 d0 s0 s a fl s' f, begins E k0 d0 s0 -> reach E s0 s -> pass E s a = Return fl s' f ->
  (niter (sN s') <= e_miter E + 1)%nat.
Proof. exact (@iterations_ret). Qed.
Print Assumptions C02_budget.

Theorem C02_at_most_miter_refuted : exists s' f,
  run (wE (unc f_up) 0 2 100) 5 (fun _ => w_bad) 0 (su (unc f_up) f_up 2 100) = Some (Return 5 s' f) /\
  niter (sN s') = 3%nat.
Proof. exact extra_iteration. Qed.
Print Assumptions C02_at_most_miter_refuted.

Example C02_ex : sane (wE (unc f_up) 0 2 100) /\
  begins (wE (unc f_up) 0 2 100) 2 1 (su (unc f_up) f_up 2 100).
Proof. split; [apply wE_sane|apply su_begins; vm_compute; congruence]. Qed.

(** ** C03: evaluations *)

Theorem C03_budget : forall (P : Type) (E : env P), sane E ->
  forall k0 d0 s0 s a fl s' f, begins E k0 d0 s0 -> reach E s0 s -> pass E s a = Return fl s' f ->
  nsim (sA s') = length (calls (sA s')) /\
  (length (calls (sA s')) <= Nat.max k0 (e_msimul E - 1 + length (s_Y (iS (sI s')))))%nat.
Proof. exact (@evaluations_ret). Qed.
Print Assumptions C03_budget.

Theorem C03_loop_head : forall (P : Type) (E : env P), sane E ->
  forall k0 d0 s0 s, begins E k0 d0 s0 -> reach E s0 s ->
  nsim (sA s) = length (calls (sA s)) /\
  (nsim (sA s) <= Nat.max k0 (e_msimul E - 1 + length (s_Y (iS (sI s)))))%nat.
Proof. exact (@evaluations). Qed.
Print Assumptions C03_loop_head.

(** the bound is attained: msimul = 4 and p = 2 give 5 = msimul - 1 + p calls *)
Theorem C03_at_most_msimul_refuted : exists s' f,
  run (wE (unc f_up) 0 100 4) 5 (fun _ => w_bad) 0 (su (unc f_up) f_up 100 4) = Some (Return 6 s' f) /\
  length (calls (sA s')) = 5%nat /\ length (s_Y (iS (sI s'))) = 2%nat.
Proof. exact extra_evaluation. Qed.
Print Assumptions C03_at_most_msimul_refuted.

Example C03_ex : sane (wE (unc f_up) 0 100 4) /\
  begins (wE (unc f_up) 0 100 4) 2 1 (su (unc f_up) f_up 100 4).
Proof. split; [apply wE_sane|apply su_begins; vm_compute; congruence]. Qed.

(** ** C04: termination *)

Theorem C04_terminates : forall (P : Type) (E : env P), sane E ->
  forall k0 d0 s0, begins E k0 d0 s0 -> forall ans k, run E (S (e_miter E)) ans k s0 <> None.
Proof. exact (@terminates). Qed.
Print Assumptions C04_terminates.

Example C04_ex : run (wE (unc f_up) 0 9 100) 3 (fun _ => w_bad) 0 (su (unc f_up) f_up 9 100) = None /\
  run (wE (unc f_up) 0 9 100) 10 (fun _ => w_bad) 0 (su (unc f_up) f_up 9 100) <> None.
Proof. split; vm_compute; congruence. Qed.

(** ** C05: exit codes *)

Theorem C05_codes : forall (P : Type) (E : env P), sane E ->
  forall k0 d0 s0 s a fl s' f, begins E k0 d0 s0 -> reach E s0 s -> pass E s a = Return fl s' f ->
  In fl [0; 3; 5; 6; 15; 30]%nat /\
  (fl = 5%nat <-> (e_miter E <= niter (sN s))%nat) /\
  (fl = 6%nat <-> (niter (sN s) < e_miter E /\ e_msimul E <= nsim (sA s))%nat) /\
  (fl = 30%nat -> inject_Z (10 ^ 299) < sigma (sG s') \/ a_minf a = true).
Proof. exact (@codes). Qed.
Print Assumptions C05_codes.

Theorem C05_stalled : forall (P : Type) (E : env P), sane E ->
  forall k0 d0 s0 s a s' f, begins E k0 d0 s0 -> reach E s0 s -> pass E s a = Return 15 s' f ->
  exists r, (r = delta (sG s') \/ r = epsc (sG s') \/ r == 1 # 100000) /\ negligible E s' r.
Proof. exact (@stalled). Qed.
Print Assumptions C05_stalled.

Example C05_stalled_ex : exists s' f,
  run (wE (unc f_up) 0 100 100) 50 (fun _ => w_bad) 0 (su (unc f_up) f_up 100 100) = Some (Return 15 s' f) /\
  epsc (sG s') == 1 # 100000000000.
Proof. do 2 eexists. split; [vm_compute; reflexivity|]. reflexivity. Qed.

Example C05_ex : exists s' f s'' f'',
  run (wE (unc f_up) 0 2 100) 5 (fun _ => w_bad) 0 (su (unc f_up) f_up 2 100) = Some (Return 5 s' f) /\
  run (wE (unc f_up) 0 100 4) 5 (fun _ => w_bad) 0 (su (unc f_up) f_up 100 4) = Some (Return 6 s'' f'').
Proof. do 4 eexists. split; vm_compute; reflexivity. Qed.

(** ** C06: the incumbent was evaluated *)

Theorem C06_incumbent : forall (P : Type) (E : env P), sane E ->
  forall k0 d0 s0 s, begins E k0 d0 s0 -> reach E s0 s ->
  evaluated E (calls (sA s)) (ix (sI s)) (ifx (sI s)) /\
  nth_error (Xs (sA s)) (ib (sI s)) = Some (ix (sI s)).
Proof. exact (@incumbent_evaluated). Qed.
Print Assumptions C06_incumbent.

Theorem C06_returned : forall (P : Type) (E : env P), sane E ->
  forall k0 d0 s0 s a fl s' f, begins E k0 d0 s0 -> reach E s0 s -> pass E s a = Return fl s' f ->
  evaluated E (calls (sA s')) (ix (sI s')) (ifx (sI s')) /\
  nth_error (Xs (sA s')) (ib (sI s')) = Some (ix (sI s')).
Proof. exact (@returned_evaluated). Qed.
Print Assumptions C06_returned.

Theorem C06_constraints : forall (P : Type) (E : env P), sane E ->
  forall k0 d0 s0 s a fl s' f, begins E k0 d0 s0 -> reach E s0 s -> tame E -> e_me E <> 0%nat ->
  pass E s a = Return fl s' f ->
  nth_error (Xs (sA s')) (ib (sI s')) = Some (ix (sI s')) /\
  nth_error (ceXs (sA s')) (ib (sI s')) = Some (ince (sN s')).
Proof. exact (@reported_constraints). Qed.
Print Assumptions C06_constraints.

Theorem C06_info_f : forall (P : Type) (E : env P), sane E ->
  forall k0 d0 s0 s a s', begins E k0 d0 s0 -> reach E s0 s -> pass E s a = Continue s' ->
  (rej (sG s') = true /\ inff (sN s') = f0 (sG s')) \/
  (rej (sG s') = false /\ capped (inff (sN s')) (ifx (sI s')) /\ ib (sI s') = mlast (sA s')) \/
  (pred (sG s') == -1 /\ ib (sI s') <> mlast (sA s') /\ rej (sG s') = rej (sG s) /\ exists k c,
      length (calls (sA s')) = (k + 1)%nat /\ answered E k (a_xnew a) (inff (sN s')) c).
Proof. exact (@reported_f). Qed.
Print Assumptions C06_info_f.

(** info.f is 15, the value at the rejected trial point 5; the returned point is 0 *)
Theorem C06_info_f_refuted : exists s',
  run (wE (unc f_up) 0 1 100) 5 (fun _ => w_bad) 0 (su (unc f_up) f_up 1 100) = Some (Return 5 s' (Fin 15)) /\
  ix (sI s') = 0 /\ ifx (sI s') = 10 /\ f_up (ix (sI s')) == 10.
Proof. exact wrong_f. Qed.
Print Assumptions C06_info_f_refuted.

Example C06_ex : sane (wE (unc f_up) 0 1 100) /\
  begins (wE (unc f_up) 0 1 100) 2 1 (su (unc f_up) f_up 1 100).
Proof. split; [apply wE_sane|apply su_begins; vm_compute; congruence]. Qed.

(** ** C07: accepted steps *)

Theorem C07_accepted : forall (P : Type) (E : env P), sane E ->
  forall k0 d0 s0 s a s', begins E k0 d0 s0 -> reach E s0 s -> pass E s a = Continue s' ->
  ib (sI s') = mlast (sA s') ->
  ix (sI s') = a_xnew a /\ merit (sG s') < merit0 (sG s') /\
  merit0 (sG s') == f0 (sG s') + sigma (sG s') * ce0n (sG s') /\
  merit (sG s') = ifx (sI s') + sigma (sG s') * cn E (resid (a_slplus a) (ceplus (sG s'))).
Proof. exact (@accepted_merit). Qed.
Print Assumptions C07_accepted.

Theorem C07_unconstrained : forall (P : Type) (E : env P), sane E ->
  forall k0 d0 s0 s a s', begins E k0 d0 s0 -> reach E s0 s -> pass E s a = Continue s' ->
  rej (sG s) = false -> e_me E = 0%nat -> ifx (sI s') <= ifx (sI s).
Proof. exact (@unconstrained_descent). Qed.
Print Assumptions C07_unconstrained.

Theorem C07_reference : forall (P : Type) (E : env P), sane E ->
  forall k0 d0 s0 s a s', begins E k0 d0 s0 -> reach E s0 s -> pass E s a = Continue s' ->
  (rej (sG s) = false -> niter (sN s') = (niter (sN s) + 1)%nat ->
     f0 (sG s') = inff (sN s) /\ ce0n (sG s') = cn E (resid (sl (sG s)) (ince (sN s)))) /\
  (rej (sG s) = true -> f0 (sG s') = f0 (sG s) /\ ce0n (sG s') = ce0n (sG s)).
Proof. exact (@reference). Qed.
Print Assumptions C07_reference.

Theorem C07_slacks : forall (P : Type) (E : env P), sane E ->
  forall k0 d0 s0 s a s', begins E k0 d0 s0 -> reach E s0 s -> pass E s a = Continue s' ->
  ib (sI s') <> mlast (sA s') -> sl (sG s') = sl (sG s).
Proof. exact (@slacks). Qed.
Print Assumptions C07_slacks.

(** which trial points become the incumbent *)
Theorem C07_decision : forall (P : Type) (E : env P), sane E ->
  forall k0 d0 s0 s a s', begins E k0 d0 s0 -> reach E s0 s -> pass E s a = Continue s' ->
  let new := mlast (sA s') in let ind := s_ind (iS (sI s')) in
  (ib (sI s') = new -> 0 < pred (sG s') /\ decreases (1 # 10000) s' /\ In new ind) /\
  (0 < pred (sG s') -> decreases (1 # 10000) s' -> ib (sI s') = new \/ ~ In new ind) /\
  (0 < pred (sG s') \/ (pred (sG s') == -1 /\ ~ In new ind)).
Proof. exact (@decision). Qed.
Print Assumptions C07_decision.

(** after a rejection, an accepted step can increase the objective of the incumbent *)
Theorem C07_descent_refuted : exists (E : env Q) s0 s a s', sane E /\ begins E 2 1 s0 /\
  e_me E = 0%nat /\ reach E s0 s /\ pass E s a = Continue s' /\ ib (sI s') = mlast (sA s') /\
  ifx (sI s) == 1 /\ ifx (sI s') == 5.
Proof. exact stale_merit. Qed.
Print Assumptions C07_descent_refuted.

(** ** C08: penalty parameter *)

Theorem C08_penalty : forall (P : Type) (E : env P), sane E ->
  forall k0 d0 s0 s a s', begins E k0 d0 s0 -> reach E s0 s -> pass E s a = Continue s' ->
  sigma (sG s0) = 1 /\ 1 <= sigma (sG s) /\
  (sigma (sG s') = sigma (sG s) \/ (3 # 2) * sigma (sG s) <= sigma (sG s')) /\
  (0 < a_rpred a -> pred (sG s') == - a_qcost a + sigma (sG s') * a_rpred a /\
     (3 # 10) * sigma (sG s') * a_rpred a <= pred (sG s')).
Proof. exact (@penalty). Qed.
Print Assumptions C08_penalty.

Theorem C08_rule : forall (P : Type) (E : env P), sane E ->
  forall k0 d0 s0 s a s', begins E k0 d0 s0 -> reach E s0 s -> pass E s a = Continue s' ->
  (a_rpred a == 0 -> sigma (sG s') = sigma (sG s)) /\
  (forall b, ~ a_rpred a == 0 -> b * ((7 # 10) * a_rpred a) == a_qcost a ->
     (b <= sigma (sG s) /\ sigma (sG s') = sigma (sG s)) \/
     (sigma (sG s) < b /\ larger b ((3 # 2) * sigma (sG s)) (sigma (sG s')))) /\
  (let p := - a_qcost a + sigma (sG s') * a_rpred a in
   (0 <= a_rpred a /\ 0 < p /\ pred (sG s') == p) \/
   ((a_rpred a < 0 \/ p <= 0) /\ pred (sG s') == -1)).
Proof. exact (@penalty_rule). Qed.
Print Assumptions C08_rule.

(** predicted cost 7, predicted reduction 1: the parameter goes from 1 to 10 *)
Example C08_ex : exists s', 
  pass (wE (unc f_up) 0 9 100) (su (unc f_up) f_up 9 100) (wa 5 7 1 false 1 1 0) = Continue s' /\
  sigma (sG s') == 10 /\ pred (sG s') == 3.
Proof. eexists. split; [vm_compute; reflexivity|]. split; reflexivity. Qed.

(** ** C09: radius *)

Theorem C09_low : forall (P : Type) (E : env P), sane E ->
  forall k0 d0 s0 s, begins E k0 d0 s0 -> reach E s0 s ->
  0 < delta (sG s) /\ (d0 <= delta (sG s) \/ (1 # 10000000000) <= delta (sG s)).
Proof. exact (@radius_low). Qed.
Print Assumptions C09_low.

Theorem C09_high : forall (P : Type) (E : env P), sane E ->
  forall k0 d0 s0 s, begins E k0 d0 s0 -> reach_if E (fun a => a_active a = false) s0 s ->
  delta (sG s) <= d0 \/ delta (sG s) <= 100000.
Proof. exact (@radius_high). Qed.
Print Assumptions C09_high.

(** the rules for the radius: [working_radius] before the step, [decided] after it *)
Theorem C09_rule : forall (P : Type) (E : env P), sane E -> 0 <= e_tolf E ->
  forall k0 d0 s0 s a s', begins E k0 d0 s0 -> reach E s0 s -> pass E s a = Continue s' ->
  exists r, working_radius E s a s' r /\ decided a r s'.
Proof. exact (@radius_rules). Qed.
Print Assumptions C09_rule.

(** all four cases occur: rejected and included (1 to 1/2), no decrease predicted
    (two iterations counted), not included (1/2 to 1/4), accepted (1 to 5) *)
Example C09_rule_ex :
  (exists s', pass w7E w7s (w7 0) = Continue s' /\ delta (sG s') == 1 # 2 /\ In (mlast (sA s')) (s_ind (iS (sI s')))) /\
  (exists s', pass w7E w7s1 (w7 1) = Continue s' /\ pred (sG s') == -1 /\ niter (sN s') = 3%nat) /\
  (exists s', pass w7E w7s1 w_out = Continue s' /\ delta (sG s') == 1 # 4 /\ ~ In (mlast (sA s')) (s_ind (iS (sI s')))) /\
  (exists s', pass w9E (su (unc f9) f9 17 100) (w9 0) = Continue s' /\ delta (sG s') == 5 /\ ib (sI s') = mlast (sA s')).
Proof.
  split; [|split; [|split]]; (eexists; split; [vm_compute; reflexivity|]); (split; [reflexivity|]).
  - vm_compute. auto.
  - reflexivity.
  - vm_compute. intros [H|[H|[H|[]]]]; discriminate.
  - reflexivity.
Qed.

Theorem C09_maximum_refuted : exists s' f,
  run w9E 30 w9 0 (su (unc f9) f9 17 100) = Some (Return 5 s' f) /\ delta (sG s') == 327680.
Proof. exact big_radius. Qed.
Print Assumptions C09_maximum_refuted.

Example C09_ex : sane w9E /\ begins w9E 2 1 (su (unc f9) f9 17 100).
Proof. split; [apply wE_sane|apply su_begins; vm_compute; congruence]. Qed.

(** ** C10: bookkeeping *)

Theorem C10_bookkeeping : forall (P : Type) (E : env P), sane E ->
  forall k0 d0 s0 s, begins E k0 d0 s0 -> reach E s0 s ->
  same_points E s /\ incumbent_first s /\ (tame E -> e_me E <> 0%nat -> same_constraints s).
Proof. exact (@bookkeeping). Qed.
Print Assumptions C10_bookkeeping.

Theorem C10_size : forall (P : Type) (E : env P), sane E ->
  forall k0 d0 s0 s a s', begins E k0 d0 s0 -> reach E s0 s -> pass E s a = Continue s' ->
  length (s_Y (iS (sI s'))) = length (s_Y (iS (sI s))) \/
  (length (s_Y (iS (sI s'))) = (length (s_Y (iS (sI s))) + 1)%nat /\
   (length (s_Y (iS (sI s'))) <= e_pfinal E \/
    e_whichmodel E = 3 /\ length (s_Y (iS (sI s'))) <= 2 * e_pfinal E)%nat).
Proof. exact (@set_size). Qed.
Print Assumptions C10_size.

Theorem C10_archive : forall (P : Type) (E : env P), sane E ->
  forall k0 d0 s0 s a s', begins E k0 d0 s0 -> reach E s0 s -> pass E s a = Continue s' ->
  (exists tl, calls (sA s') = calls (sA s) ++ tl) /\ (mlast (sA s) < mlast (sA s'))%nat /\
  (forall i, (i <= mlast (sA s))%nat -> nth_error (Xs (sA s')) i = nth_error (Xs (sA s)) i /\
     nth_error (fXs (sA s')) i = nth_error (fXs (sA s)) i /\
     (tame E -> nth_error (ceXs (sA s')) i = nth_error (ceXs (sA s)) i)) /\
  nth_error (Xs (sA s')) (mlast (sA s')) = Some (a_xnew a).
Proof. exact (@archive_kept). Qed.
Print Assumptions C10_archive.

Example C10_ex : sane (E53 (fun _ => 1 # 1000)) /\
  begins (E53 (fun _ => 1 # 1000)) 2 1 (s53 (fun _ => 1 # 1000)) /\
  exists s', pass (E53 (fun _ => 1 # 1000)) (s53 (fun _ => 1 # 1000)) w53 = Continue s' /\
    ix (sI s') = 2 /\ same_constraints s' /\ ib (sI s') = mlast (sA s').
Proof.
  split; [apply wE_sane|]. split; [|exact nonzero_fine].
  apply s53_begins; unfold huge; vm_compute; intros [H|H]; auto.
Qed.

(** ** C16: failing user functions *)

Theorem C16_goes_on : forall (P : Type) (E : env P), sane E ->
  forall k0 d0 s0 s a s', begins E k0 d0 s0 -> reach E s0 s -> pass E s a = Continue s' ->
  new_calls_good E s s'.
Proof. exact (@failures_continue). Qed.
Print Assumptions C16_goes_on.

Theorem C16_returns : forall (P : Type) (E : env P), sane E ->
  forall k0 d0 s0 s a fl s' f, begins E k0 d0 s0 -> reach E s0 s -> pass E s a = Return fl s' f ->
  (fl <> 3%nat -> new_calls_good E s s') /\
  (fl = 3%nat -> exists cl, calls (sA s') = cl ++ [a_xnew a] /\ ~ good_call E (length cl) (a_xnew a) /\
     (forall k y, nth_error cl k = Some y -> (length (calls (sA s)) <= k)%nat -> good_call E k y)).
Proof. exact (@failures_return). Qed.
Print Assumptions C16_returns.

Theorem C16_reported_refuted :
  run (wE (near_fails f_up) 0 9 100) 5 (fun _ => w_bad) 0 (su (near_fails f_up) f_up 9 100) = Some Crash.
Proof. exact improvement_failure. Qed.
Print Assumptions C16_reported_refuted.

Example C16_ex : begins (wE (far_fails f_up) 0 9 100) 2 1 (su (far_fails f_up) f_up 9 100) /\
  exists s', run (wE (far_fails f_up) 0 9 100) 5 (fun _ => w_bad) 0 (su (far_fails f_up) f_up 9 100)
      = Some (Return 3 s' NaN) /\
    calls (sA s') = [0; 1; 5] /\ ix (sI s') = 0.
Proof. split; [apply su_begins; vm_compute; congruence|exact trial_failure]. Qed.

(** ** C53: constraint values that are all zero *)

Theorem C53_never_included : forall (P : Type) (E : env P), sane E ->
  forall k0 d0 s0 s a s', begins E k0 d0 s0 -> reach E s0 s -> pass E s a = Continue s' ->
  tame E -> e_me E <> 0%nat -> all_zero (ceXs (sA s')) ->
  ~ In (mlast (sA s')) (s_ind (iS (sI s'))) /\ ib (sI s') <> mlast (sA s').
Proof. exact (@zero_constraints). Qed.
Print Assumptions C53_never_included.

Theorem C53_crash : pass (E53 (fun _ => 0)) (s53 (fun _ => 0)) w53 = Crash.
Proof. exact zero_crash. Qed.
Print Assumptions C53_crash.

Example C53_ex : begins (E53 (fun _ => 0)) 2 1 (s53 (fun _ => 0)).
Proof. apply s53_begins; unfold huge; vm_compute; intros [H|H]; auto. Qed.
