(** C78: property theorems about the final report of a call.

    [report fuel i w] is the list of entries printed after the main loop by the call with
    the arguments [i] (None: nothing is printed there), [solve fuel i w] the end of the
    same call. *)
From Coq Require Import List Arith ZArith QArith Bool String Lia Lqa.
Import ListNotations.
From Verif Require Import QB Book_Spec Book_Wit Main_Model Main_Spec Opt_Model Opt_Spec Drv_Model Pre_Model Pre_Spec Pre_Wit
  Sol_Model Sol_Spec Sol_Wit Con_Spec Out_Model Out_Spec Rep_Model Rep_Spec Rep_Proofs Rep_Wit.
Local Open Scope Q_scope.

(** the report exists exactly when the main loop gives a point *)
Theorem C78_when : forall w, sorts_desc (w_argsort w) -> forall fuel i,
  (exists es, report fuel i w = Some es) <-> exists fl y cl, solve fuel i w = Some (Gives fl (Some y) cl).
Proof. exact report_when. Qed.
Print Assumptions C78_when.

Example C78_when_ex :
  solve 5 one_iter (rworld uid (rans [0] 1)) = Some (Gives 5 (Some [0]) [[3]; [2]; [0]]) /\
  report 5 one_iter (rworld uid (rans [0] 1)) = Some [ECode 5 "maximum number of iterations"; EValue 0; ELag (Fin 1); EFeas (Fin 3);
    EIters 1; EEvals 3; EVar 0 0; ECon 0 0].
Proof. exact stale_report. Qed.

(** below verbosity 1 it is empty; otherwise it has exactly one exit code, one value and
    one count: those of the call *)
Theorem C78_says : forall w, sorts_desc (w_argsort w) -> forall fuel i fl y cl es o,
  solve fuel i w = Some (Gives fl (Some y) cl) -> report fuel i w = Some es -> validate (i_opts i) = VDone o ->
  (~ loud o 1 -> es = []) /\
  (loud o 1 ->
    (exists t, forall c t', In (ECode c t') es <-> c = fl /\ t' = t) /\
    (exists f, (forall f', In (EValue f') es <-> f' = f) /\
       exists j v, nth_error cl j = Some y /\ gives (w_user w) j y v /\ capped v f) /\
    (forall k, In (EEvals k) es <-> k = List.length cl)).
Proof. exact report_says. Qed.
Print Assumptions C78_says.

Example C78_says_ex :
  solve 5 few_iters (rworld uid (rans [0] 0)) = Some (Gives 0 (Some [0]) [[3]; [2]; [0]]) /\
  report 5 few_iters (rworld uid (rans [0] 0)) = Some [ECode 0 "converged"; EValue 0; ELag (Fin 0); EFeas (Fin 0);
    EIters 2; EEvals 3; EVar 0 0; ECon 0 0].
Proof. exact good_report. Qed.

(** the number of iterations: one, at most one above options.miter, which is reached with
    code 5; at the verbosities 1, 2 and 3 it is the number of iterations in convhist.m *)
Theorem C78_iterations : forall w, sorts_desc (w_argsort w) -> forall fuel i fl y cl es o,
  solve fuel i w = Some (Gives fl (Some y) cl) -> report fuel i w = Some es -> validate (i_opts i) = VDone o -> loud o 1 ->
  exists N, (forall k, In (EIters k) es <-> k = N) /\
    (forall q m, has_value (miter o) q -> 0 <= q -> counts_below q m -> (N <= m + 1)%nat /\ (fl = 5%nat -> (m <= N)%nat)) /\
    (medium o -> exists ls, file fuel i w = Some (complete ls) /\ counted fl N (map l_it ls)).
Proof. exact report_iters. Qed.
Print Assumptions C78_iterations.

Example C78_iterations_ex : file 5 one_iter (rworld uid (rans [0] 1)) = Some (complete [mkline 1 2 3; mkline 1 3 0]).
Proof. vm_compute. reflexivity. Qed.

(** either the norm of the Lagrangian gradient and the feasibility, or the norm of the
    gradient; the first whenever there are constraints *)
Theorem C78_norms : forall w, sorts_desc (w_argsort w) -> forall fuel i fl y cl es o,
  solve fuel i w = Some (Gives fl (Some y) cl) -> report fuel i w = Some es -> validate (i_opts i) = VDone o -> loud o 1 ->
  ((exists g c, forall g' c', (In (ELag g') es <-> g' = g) /\ (In (EFeas c') es <-> c' = c) /\ ~ In (EGrad g') es) \/
   (exists g, forall g' c', (In (EGrad g') es <-> g' = g) /\ ~ In (ELag g') es /\ ~ In (EFeas c') es)) /\
  (forall m, well_behaved (w_user w) -> fixed_number (w_user w) m -> (0 < m)%nat -> exists g, In (ELag g) es).
Proof. exact report_norms. Qed.
Print Assumptions C78_norms.

Example C78_norms_ex : well_behaved uid /\ fixed_number uid 1 /\
  exists es, report 5 few_iters (rworld uid (rans [0] 0)) = Some es /\ In (ELag (Fin 0)) es.
Proof.
  split; [exact uid_ok|]. split; [exact uid_one|]. eexists. split; [apply good_report|]. cbn. tauto.
Qed.

(** the text beside the exit code is not empty and determines the code *)
Theorem C78_texts : forall w, sorts_desc (w_argsort w) -> forall fuel i fl y cl es o t,
  solve fuel i w = Some (Gives fl (Some y) cl) -> report fuel i w = Some es -> validate (i_opts i) = VDone o -> In (ECode fl t) es ->
  t <> ""%string /\ (t = "converged"%string <-> fl = 0%nat) /\
  forall w' fuel' i' fl' y' cl' es' o', sorts_desc (w_argsort w') -> solve fuel' i' w' = Some (Gives fl' (Some y') cl') ->
    report fuel' i' w' = Some es' -> validate (i_opts i') = VDone o' -> In (ECode fl' t) es' -> fl' = fl.
Proof. exact report_texts. Qed.
Print Assumptions C78_texts.

Example C78_texts_ex : exists es, report 5 few_iters (rworld uid (rans [0] 0)) = Some es /\ In (ECode 0 "converged"%string) es.
Proof. eexists. split; [apply good_report|]. left. reflexivity. Qed.

(** exit code 0: the printed norms are numbers within a hundred times the tolerances *)
Theorem C78_converged : forall w, sorts_desc (w_argsort w) -> forall fuel i y cl es o,
  solve fuel i w = Some (Gives 0 (Some y) cl) -> report fuel i w = Some es -> validate (i_opts i) = VDone o ->
  (forall g, In (ELag g) es \/ In (EGrad g) es -> exists q t, g = Fin q /\ has_value (tol_grad o) t /\ q <= 100 * t) /\
  (forall c, In (EFeas c) es -> exists q t, c = Fin q /\ has_value (tol_feas o) t /\ q <= 100 * t).
Proof. exact report_converged. Qed.
Print Assumptions C78_converged.

Example C78_converged_ex : exists es, solve 5 few_iters (rworld uid (rans [0] 0)) = Some (Gives 0 (Some [0]) [[3]; [2]; [0]]) /\
  report 5 few_iters (rworld uid (rans [0] 0)) = Some es /\ In (ELag (Fin 0)) es /\ In (EFeas (Fin 0)) es.
Proof. eexists. split; [apply good_report|]. split; [apply good_report|]. split; cbn; tauto. Qed.

(** NaN is printed as a norm exactly when no iteration was done; the exit code is 6 then *)
Theorem C78_nan : forall w, sorts_desc (w_argsort w) -> forall fuel i fl y cl es o,
  solve fuel i w = Some (Gives fl (Some y) cl) -> report fuel i w = Some es -> validate (i_opts i) = VDone o -> loud o 1 ->
  (shows_nan es <-> In (EIters 0) es) /\ (In (EIters 0) es -> fl = 6%nat).
Proof. exact report_nan. Qed.
Print Assumptions C78_nan.

Example C78_nan_ex : exists es, solve 5 no_iter (rworld uid (rans [0] 0)) = Some (Gives 6 (Some [3]) [[3]; [2]]) /\
  report 5 no_iter (rworld uid (rans [0] 0)) = Some es /\ shows_nan es.
Proof. eexists. split; [apply nan_report|]. split; [apply nan_report|]. left. cbn. tauto. Qed.

(** above verbosity 2 the tables show the returned point and the first 40 constraint
    values of one and the same evaluation at it *)
Theorem C78_tables : forall w, sorts_desc (w_argsort w) -> forall fuel i fl y cl es o m,
  well_behaved (w_user w) -> fixed_number (w_user w) m -> (0 < m)%nat ->
  solve fuel i w = Some (Gives fl (Some y) cl) -> report fuel i w = Some es -> validate (i_opts i) = VDone o -> louder o 2 ->
  (forall j x, In (EVar j x) es -> x = nth j y 0) /\
  (forall l, In (EVars l) es -> l = firstn (Nat.min (List.length (i_x0 i)) 40) y) /\
  ((exists l, In (EVars l) es) \/ forall j, (j < List.length (i_x0 i))%nat -> (j < 40)%nat -> In (EVar j (nth j y 0)) es) /\
  (In EDots es <-> (40 < List.length (i_x0 i) \/ 40 < m)%nat) /\
  exists k v cs, nth_error cl k = Some y /\ o_f (w_user w k y) = Some (Fin v) /\ o_c (w_user w k y) = Some (map Fin cs) /\
    (forall f, In (EValue f) es -> capped v f) /\
    forall j c, In (ECon j c) es <-> nth_error cs j = Some c /\ (j < 40)%nat.
Proof. exact report_tables. Qed.
Print Assumptions C78_tables.

Example C78_tables_ex : well_behaved uid /\ fixed_number uid 1 /\
  (exists o, validate (i_opts few_iters) = VDone o /\ louder o 2) /\
  exists es, report 5 few_iters (rworld uid (rans [0] 0)) = Some es /\ In (EVar 0 0) es /\ In (ECon 0 0) es.
Proof.
  split; [exact uid_ok|]. split; [exact uid_one|]. split; [exact few_opts|].
  eexists. split; [apply good_report|]. split; cbn; tauto.
Qed.

(** the printed feasibility is not that of the printed point: 3 and 0 *)
Theorem C78_feasibility_refuted : exists fuel i w o y cl es c j,
  sorts_desc (w_argsort w) /\ well_behaved (w_user w) /\ fixed_number (w_user w) 1 /\
  validate (i_opts i) = VDone o /\ solve fuel i w = Some (Gives 5 (Some y) cl) /\ report fuel i w = Some es /\
  In (EFeas (Fin c)) es /\ In (ECon j 0) es /\ c == 3 /\ forall k, o_c (w_user w k y) = Some [Fin 0].
Proof. exact stale. Qed.
Print Assumptions C78_feasibility_refuted.

(** where the text goes *)
Theorem C78_place : forall i o, validate (i_opts i) = VDone o ->
  exists f, fout o = Some f /\
    (fprintf f = Some Screen <-> to_screen (fout (i_opts i))) /\
    (fprintf f = Some ErrorOutput <-> fout (i_opts i) = Some (NInt 2)) /\
    (fprintf f = None <-> unusable (fout (i_opts i))).
Proof. exact where_printed. Qed.
Print Assumptions C78_place.

Example C78_place_ex : exists o, validate (i_opts (rcall (rlim (Some (NInt 2)) (NInt 3) (NInt 5) (NInt 50)))) = VDone o.
Proof. eexists. vm_compute. reflexivity. Qed.

(** a floating-point options.fout that is not negative: no report and no point unless the
    verbosity is 0 *)
Theorem C78_fout : forall w fuel i fl y cl o, needs_output w i -> validate (i_opts i) = VDone o -> louder o 0 ->
  unusable (fout (i_opts i)) ->
  report fuel i w = None /\ solve fuel i w <> Some (Gives fl (Some y) cl).
Proof. exact no_output. Qed.
Print Assumptions C78_fout.

Example C78_fout_ex : (exists o, validate (i_opts (rcall (rlim (Some (NFlt (Fin 1))) (NInt 1) (NInt 5) (NInt 50)))) = VDone o /\ louder o 0) /\
  unusable (Some (NFlt (Fin 1))).
Proof.
  split; [|cbn; lra]. eexists. split; [vm_compute; reflexivity|]. exists (NInt 1). split; [reflexivity|].
  right. exists 1. split; [reflexivity|]. lra.
Qed.
