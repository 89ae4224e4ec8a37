(** C57, C66: property theorems about complete calls of sqpdfo_.

    [solve fuel i w] is the end of the call with the arguments [i]; [w] stands for the
    user functions and for everything that is not modelled; [Gives fl x cl]: the call
    returns with exit code [fl] and the point [x] (None: not a result of the main
    loop) after the calls [cl] of the user functions. *)
From Coq Require Import List Arith ZArith QArith Bool Lia.
Import ListNotations.
From Verif Require Import QB Book_Spec Book_Wit Main_Model Opt_Model Drv_Model Drv_Spec Pre_Model Pre_Spec Pre_Wit
  Sol_Model Sol_Spec Sol_Proofs Sol_More Sol_Wit.
Local Open Scope Q_scope.

(** the possible exit codes; codes 1 and 2 come without any call of the user functions *)
Theorem C57_codes : forall w, sorts_desc (w_argsort w) -> forall fuel i fl x cl,
  solve fuel i w = Some (Gives fl x cl) ->
  In fl [0; 1; 2; 3; 5; 6; 15; 30]%nat /\
  (In fl [1; 2]%nat -> cl = [] /\ x = None) /\
  (x = None -> In fl [1; 2; 3]%nat).
Proof. exact call_codes. Qed.
Print Assumptions C57_codes.

Example C57_codes_ex :
  solve 5 (icall (lim (NInt 3) (NInt 50)) [3]) (sworld usum (sans [5])) =
    Some (Gives 5 (Some [3]) [[3]; [3 - 1]; [5]; [1]; [5]]) /\
  solve 5 (icall (lim (NInt 0) (NInt 50)) [5]) (sworld usum (sans [5])) = Some (Gives 1 None []) /\
  solve 9 (icall (lim (NInt 3) (NInt 3)) [3]) (sworld usum (sans [5])) =
    Some (Gives 6 (Some [3]) [[3]; [3 - 1]; [5]]).
Proof. split; [|split]; vm_compute; reflexivity. Qed.

(** the point returned by the main loop is one of the points evaluated, and its
    evaluation succeeded *)
Theorem C57_point : forall w, sorts_desc (w_argsort w) -> forall fuel i fl y cl,
  solve fuel i w = Some (Gives fl (Some y) cl) ->
  exists j v, nth_error cl j = Some y /\ gives (w_user w) j y v.
Proof. exact call_point. Qed.
Print Assumptions C57_point.

(** exit code 3 means that the last evaluation, and only it, failed; with any other code
    all evaluations succeeded *)
Theorem C57_failures : forall w, sorts_desc (w_argsort w) -> forall fuel i fl x cl,
  solve fuel i w = Some (Gives fl x cl) ->
  (fl <> 3%nat -> all_succeed (w_user w) cl) /\ (fl = 3%nat -> last_fails (w_user w) cl).
Proof. exact call_failures. Qed.
Print Assumptions C57_failures.

Example C57_failures_ex :
  solve 5 (icall (lim (NInt 3) (NInt 50)) [3]) (sworld ufar (sans [5])) =
    Some (Gives 3 (Some [3]) [[3]; [3 - 1]; [5]]) /\
  solve 5 (icall (lim (NInt 3) (NInt 50)) [5]) (sworld ufar (sans [5])) = Some (Gives 3 None [[5]]).
Proof. split; vm_compute; reflexivity. Qed.

(** number of evaluations: the limit (rounded up), less one, plus the size of the largest
    interpolation set *)
Theorem C57_budget : forall w, sorts_desc (w_argsort w) -> forall fuel i fl x cl o q m,
  solve fuel i w = Some (Gives fl x cl) -> bounded_below (w_user w) ->
  validate (i_opts i) = VDone o -> has_value (msimul o) q -> 0 <= q -> counts_below q m ->
  let n := length (i_x0 i) in
  (length cl <= Nat.max (n + 1) (m - 1 + Nat.max (n + 1) (largest o n)))%nat.
Proof. exact call_budget. Qed.
Print Assumptions C57_budget.

Example C57_budget_ex : counts_below (5 # 2) 3 /\ bounded_below unear.
Proof.
  split.
  - intros k. unfold Qlt. cbn. lia.
  - intros k y v (H & _). unfold unear in H. cbn in H. destruct (qltb (nth 0 y 0) 2) eqn:B; [discriminate|].
    injection H as <-. apply qltb_false in B. apply Qle_trans with 2; [vm_compute; discriminate|exact B].
Qed.

(** termination: within miter + 1 passes if no objective value is below -1e25, and also
    for every user function if the adjusted start point does not vanish *)
Theorem C57_ends : forall w, sorts_desc (w_argsort w) -> forall i o q m,
  validate (i_opts i) = VDone o -> has_value (miter o) q -> 0 <= q -> counts_below q m ->
  (bounded_below (w_user w) -> solve (S m) i w <> None) /\
  ((forall k x d fx, slacks_of i = Some k ->
      adjust (i_int i) (full_lb i k) (full_ub i k) (i_x0 i) 0 delta0 = Some (x, d, fx) -> 0 < w_nrm w x) ->
   exists fuel, solve fuel i w <> None).
Proof. exact call_ends. Qed.
Print Assumptions C57_ends.

Example C57_ends_ex : exists o, validate (lim (NInt 3) (NInt 50)) = VDone o /\ has_value (miter o) 3 /\ counts_below 3 3.
Proof.
  eexists. split; [vm_compute; reflexivity|]. split; [eexists; split; reflexivity|].
  intros k. unfold Qlt. cbn. lia.
Qed.

(** without these assumptions a call need not end *)
Theorem C57_ends_refuted : exists i w, sorts_desc (w_argsort w) /\ forall fuel, solve fuel i w = None.
Proof. exact endless_call. Qed.
Print Assumptions C57_ends_refuted.

(** a failing objective does not always lead to an exit code *)
Theorem C57_always_code_refuted :
  solve 5 (icall (lim (NInt 3) (NInt 50)) [3]) (sworld unear (sans [5])) = Some Raises.
Proof. exact failing_call. Qed.
Print Assumptions C57_always_code_refuted.

(** ** C66: early ends of a call, bounds, and traces of earlier calls *)

(** the process is ended exactly for function arguments that are not functions *)
Theorem C66_quits : forall w fuel i, solve fuel i w = Some Quits <-> to_quit (i_args i).
Proof. exact call_quits. Qed.
Print Assumptions C66_quits.

Example C66_quits_ex : to_quit (mkargs unit FnOther FnNone true None None None None tt).
Proof. left. right. reflexivity. Qed.

(** when exit code 1 is returned *)
Theorem C66_code1 : forall w, sorts_desc (w_argsort w) -> forall fuel i,
  (exists x cl, solve fuel i w = Some (Gives 1 x cl)) <->
  to_refuse (i_args i) \/
  (~ to_quit (i_args i) /\ arrays_ok i /\
   ((exists o, validate (i_opts i) = VFail o) \/ (i_x0 i = [] /\ exists o, validate (i_opts i) = VDone o))).
Proof. exact call_code1. Qed.
Print Assumptions C66_code1.

Example C66_code1_ex : exists o, validate (lim (NInt 0) (NInt 50)) = VFail o.
Proof. eexists. vm_compute. reflexivity. Qed.

(** when exit code 2 is returned (floating-point start array) *)
Theorem C66_code2 : forall w, sorts_desc (w_argsort w) -> forall fuel i, well_sized i -> i_int i = false ->
  (exists x cl, solve fuel i w = Some (Gives 2 x cl)) <->
  ~ to_refuse (i_args i) /\ ~ to_quit (i_args i) /\ arrays_ok i /\ (exists o, validate (i_opts i) = VDone o) /\
  ((exists j, (j < length (i_x0 i))%nat /\ crossed (box_lb i) (box_ub i) j) \/
   (forall j, (j < length (i_x0 i))%nat -> pinned (box_lb i) (box_ub i) j)).
Proof. exact call_code2. Qed.
Print Assumptions C66_code2.

Example C66_code2_ex :
  well_sized (with_box (icall (lim (NInt 3) (NInt 50)) [3]) (Some [Some 1]) (Some [Some 0])) /\
  solve 5 (with_box (icall (lim (NInt 3) (NInt 50)) [3]) (Some [Some 1]) (Some [Some 0])) (sworld usum (sans [5])) =
    Some (Gives 2 None []).
Proof. split; [repeat split; cbn; lia|vm_compute; reflexivity]. Qed.

(** the first n+1 evaluations are within the bounds given, or within +-1e20 *)
Theorem C66_box : forall w, sorts_desc (w_argsort w) -> forall fuel i fl x cl j y k,
  well_sized i -> i_int i = false -> solve fuel i w = Some (Gives fl x cl) ->
  nth_error cl j = Some y -> (j <= length (i_x0 i))%nat -> (k < length (i_x0 i))%nat ->
  respects (box_lb i) (box_ub i) y k.
Proof. exact call_box. Qed.
Print Assumptions C66_box.

Example C66_box_ex :
  exists fl x cl, solve 5 (with_box (icall (lim (NInt 3) (NInt 50)) [3]) (Some [Some 0]) (Some [Some 4])) (sworld usum (sans [5])) =
    Some (Gives fl x cl) /\ (1 < length cl)%nat.
Proof. do 3 eexists. split; [vm_compute; reflexivity|cbn; lia]. Qed.

(** empty bound arrays mean no bounds, if there are no inequalities *)
Theorem C66_empty : forall w fuel i, ~ has_ineq (i_args i) ->
  solve fuel (with_box i (Some []) (i_ub i)) w = solve fuel (with_box i (Some (repeat None (length (i_x0 i)))) (i_ub i)) w /\
  solve fuel (with_box i (i_lb i) (Some [])) w = solve fuel (with_box i (i_lb i) (Some (repeat None (length (i_x0 i))))) w.
Proof. exact call_empty. Qed.
Print Assumptions C66_empty.

Example C66_empty_ex : ~ has_ineq (i_args (icall (lim (NInt 3) (NInt 50)) [3])) /\
  exists fl x cl, solve 5 (with_box (icall (lim (NInt 3) (NInt 50)) [3]) (Some []) (Some [])) (sworld usum (sans [5])) = Some (Gives fl x cl).
Proof. split; [intros H; apply H; reflexivity|]. do 3 eexists. vm_compute. reflexivity. Qed.

(** the bounds handed on: those of the variables, then 0 and 1e20 for every slack *)
Theorem C66_slack_bounds : forall i k, well_sized i -> has_ineq (i_args i) ->
  length (full_lb i k) = (length (i_x0 i) + k)%nat /\ length (full_ub i k) = (length (i_x0 i) + k)%nat /\
  (forall j, (j < length (i_x0 i))%nat -> nth_error (full_lb i k) j = nth_error (box_lb i) j /\
     nth_error (full_ub i k) j = nth_error (box_ub i) j) /\
  (forall j, (j < k)%nat -> nth_error (full_lb i k) (length (i_x0 i) + j) = Some (Some 0) /\
     nth_error (full_ub i k) (length (i_x0 i) + j) = Some (Some (inject_Z (10 ^ 20)))).
Proof. exact slack_bounds. Qed.
Print Assumptions C66_slack_bounds.

Example C66_slack_bounds_ex : has_ineq (mkargs unit (FnFun 0) (FnFun 1) true None (Some 2%nat) None None tt).
Proof. discriminate. Qed.

(** a call with inequalities does not depend on earlier calls ... *)
Theorem C66_earlier_calls : forall w fuel i k, has_ineq (i_args i) -> solve fuel (with_left i k) w = solve fuel i w.
Proof. exact call_left_ineq. Qed.
Print Assumptions C66_earlier_calls.

(** ... but an unconstrained problem that is solved in a new process ends with an exception
    after a call with inequalities *)
Theorem C66_earlier_calls_refuted : forall w fuel i k fl y cl,
  ~ has_ineq (i_args i) -> unconstrained (w_user w) -> (0 < k)%nat ->
  solve fuel (with_left i 0) w = Some (Gives fl (Some y) cl) -> solve fuel (with_left i k) w = Some Raises.
Proof. exact call_left. Qed.
Print Assumptions C66_earlier_calls_refuted.

Example C66_earlier_calls_ex : unconstrained usum /\
  solve 5 (with_left (icall (lim (NInt 3) (NInt 50)) [3]) 1) (sworld usum (sans [5])) = Some Raises.
Proof.
  split; [|vm_compute; reflexivity]. intros k y c H. cbn in H. injection H as <-. reflexivity.
Qed.
