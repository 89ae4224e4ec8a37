(** The evaluation of the user functions (C67). *)
From Coq Require Import List ZArith QArith Bool.
Import ListNotations.
From Verif Require Import QB Book_Model Main_Model Usr_Model Usr_Spec Usr_Proofs Usr_Wit.
Local Open Scope Q_scope.

(** The objective is called once, with the components of the point; then the constraint
    function, if there is one, is called once, with the list as the objective left it -
    whatever the objective answered, and also if it raised. *)
Theorem C67_calls : forall U y, v_calls (evaluate U y) =
  ToF y :: match u_c U with None => [] | Some _ => [ToC (f_left U y)] end.
Proof. exact evaluate_calls. Qed.
Print Assumptions C67_calls.

Example C67_calls_ex : v_calls (evaluate usr_raise [1; 2]) = [ToF [1; 2]; ToC [1; 2]] /\
  v_verdict (evaluate usr_raise [1; 2]) = Failed.
Proof. split; reflexivity. Qed.

(** Whatever the user functions do to their argument, the archive holds the point and the
    solver goes on with it. *)
Theorem C67_point : forall U y, v_point (evaluate U y) = y /\ v_after (evaluate U y) = y.
Proof. exact evaluate_point. Qed.
Print Assumptions C67_point.

Example C67_point_ex : snd (u_f usr_rev [1; 2]) = [2; 1] /\ v_after (evaluate usr_rev [1; 2]) = [1; 2].
Proof. split; reflexivity. Qed.

(** If the objective keeps its hands off its argument, all calls are at the point. *)
Theorem C67_same_point : forall U y k, hands_off U -> In k (v_calls (evaluate U y)) -> k = ToF y \/ k = ToC y.
Proof. exact same_point. Qed.
Print Assumptions C67_same_point.

Example C67_same_point_ex : hands_off usr_plain /\ In (ToC [1; 2]) (v_calls (evaluate usr_plain [1; 2])).
Proof. split; [intro y; reflexivity|]. cbn. tauto. Qed.

(** Otherwise constraint values may be recorded that belong to another point. *)
Theorem C67_same_point_refuted : ~ (forall U y f ce, v_verdict (evaluate U y) = Recorded f ce ->
  forall z, In (ToC z) (v_calls (evaluate U y)) -> z = y).
Proof. exact other_point. Qed.
Print Assumptions C67_same_point_refuted.

(** An evaluation is recorded exactly if the objective answers with a finite number and
    the constraint function with numbers other than NaN.  Recorded are the real part of
    the objective value, at most 1e25, and the constraint values cut off at 1e25 on both
    sides. *)
Theorem C67_recorded : forall U y f ce, v_verdict (evaluate U y) = Recorded f ce <->
  exists q vs, finite_part (f_at U y) q /\ c_at U y = CVal vs /\ Forall2 cut vs ce /\
    (q < c1e25 -> f = q) /\ (c1e25 <= q -> f = c1e25).
Proof. exact recorded_iff. Qed.
Print Assumptions C67_recorded.

Example C67_recorded_ex : v_verdict (evaluate usr_big [4]) = Recorded c1e25 [- c1e25; c1e25; 1].
Proof. reflexivity. Qed.

(** It fails with the exit code for failed simulations exactly if the objective raises
    anything or answers with NaN or an infinity, or answers with a finite number while the
    constraint function raises or answers with a NaN. *)
Theorem C67_failed : forall U y, v_verdict (evaluate U y) = Failed <->
  (f_at U y = FRaise \/ (exists v, f_at U y = FVal v /\ forall q, v <> Fin q) \/
   (exists a b, f_at U y = FComplex a b /\ ((forall q, a <> Fin q) \/ (forall q, b <> Fin q)))) \/
  ((exists q, finite_part (f_at U y) q) /\ (c_at U y = CRaise \/ exists vs, c_at U y = CVal vs /\ In NaN vs)).
Proof. exact failed_iff. Qed.
Print Assumptions C67_failed.

Example C67_failed_ex : f_at usr_raise [1] = FRaise /\ v_verdict (evaluate usr_raise [1]) = Failed.
Proof. split; reflexivity. Qed.

(** In all other cases an exception leaves the solver: the objective answers with
    something that is no number or with several numbers, or with a finite number while
    the answer of the constraint function is no array of numbers. *)
Theorem C67_escapes : forall U y, v_verdict (evaluate U y) = Escapes <->
  no_number (f_at U y) \/ ((exists q, finite_part (f_at U y) q) /\ (c_at U y = COther \/ c_at U y = CRagged)).
Proof. exact escapes_iff. Qed.
Print Assumptions C67_escapes.

Example C67_escapes_ex : no_number (f_at usr_none [1]) /\ v_verdict (evaluate usr_none [1]) = Escapes.
Proof. split; [left; reflexivity|reflexivity]. Qed.

(** The imaginary part of a complex objective value is ignored. *)
Theorem C67_imaginary : forall U V y q p, f_at U y = FComplex (Fin q) (Fin p) -> f_at V y = FVal (Fin q) ->
  f_left U y = f_left V y -> u_c U = u_c V -> v_verdict (evaluate U y) = v_verdict (evaluate V y).
Proof. exact imaginary. Qed.
Print Assumptions C67_imaginary.

Example C67_imaginary_ex : v_verdict (evaluate usr_complex [1]) = Recorded 1 [].
Proof. reflexivity. Qed.

(** For answers made of numbers and exceptions this is the evaluation that the model of
    the main loop uses. *)
Theorem C67_in_loop : forall U y o, seen (f_at U y) (c_at U y) o ->
  v_verdict (evaluate U y) = match eval_user o with EvOk f ce => Recorded (qmin c1e25 f) ce | EvFail _ => Failed end.
Proof. exact as_in_loop. Qed.
Print Assumptions C67_in_loop.

Example C67_in_loop_ex : seen (f_at usr_plain [1]) (c_at usr_plain [1]) (mkout (Some (Fin (1 + 0))) (Some [Fin 1])).
Proof. split; reflexivity. Qed.

(** The evaluation returns a message exactly if the objective raises, the constraint
    function raises, or no array can be made of the constraint values. *)
Theorem C67_message : forall U y, r_msg (func U y) = true <->
  f_at U y = FRaise \/ c_at U y = CRaise \/ c_at U y = CRagged.
Proof. exact message_iff. Qed.
Print Assumptions C67_message.

Example C67_message_ex : r_msg (func usr_raise [1]) = true /\ r_msg (func usr_plain [1]) = false.
Proof. split; reflexivity. Qed.
