(** C75: the constraints at the point that is returned.  Model: Main_Model.v, Sol_Model.v. *)
From Coq Require Import List Arith ZArith QArith Qabs Bool.
Import ListNotations.
From Verif Require Import QB Book_Model Book_Spec Main_Model Main_Spec Opt_Model Drv_Model Sol_Model Sol_Spec Con_Spec Con_Proofs Con_Call
  Book_Wit Main_Wit Set_Wit Slk_RunWit Con_Wit.
Local Open Scope Q_scope.

Theorem C75_recorded : forall (P : Type) (E : env P), sane E -> tame E ->
  forall k0 d0 s0 s, begins E k0 d0 s0 -> recorded E s0 -> reach E s0 s -> recorded E s.
Proof. exact (@c_reach). Qed.
Print Assumptions C75_recorded.

Example C75_recorded_ex : sane E59 /\ tame E59 /\ recorded E59 s59 /\ exists s1 s2, begins E59 2 1 s59 /\ reach E59 s59 s1 /\
  (length (Xs (sA s59)) < length (Xs (sA s1)))%nat /\ e_me E59 = 1%nat /\ pass E59 s1 f73 = Return 0 s2 (Fin (-2)) /\ ix (sI s2) == 2.
Proof. split; [apply wE_sane|]. split; [exact tame59|]. split; [exact recorded59|exact run75]. Qed.

Theorem C75_returned : forall (P : Type) (E : env P), sane E -> tame E ->
  forall k0 d0 s0 s a fl s' f, begins E k0 d0 s0 -> recorded E s0 -> reach E s0 s -> e_me E <> 0%nat ->
  pass E s a = Return fl s' f ->
  answers_at E (calls (sA s')) (ix (sI s')) (ifx (sI s')) (ince (sN s')).
Proof. exact (@c_info). Qed.
Print Assumptions C75_returned.

Theorem C75_feasible : forall (P : Type) (E : env P), sane E -> tame E ->
  forall k0 d0 s0 s a s' f, begins E k0 d0 s0 -> recorded E s0 -> reach E s0 s -> e_me E <> 0%nat ->
  pass E s a = Return 0 s' f ->
  exists c, answers_at E (calls (sA s')) (ix (sI s')) (ifx (sI s')) c /\
    within (100 * e_tolf E) (length (sl (sG s'))) c.
Proof. exact (@c_feasible). Qed.
Print Assumptions C75_feasible.

(** a complete call that reports success *)
Theorem C75_call : forall w, sorts_desc (w_argsort w) -> well_behaved (w_user w) -> constrained (w_user w) ->
  forall fuel i y cl m o, solve fuel i w = Some (Gives 0 (Some y) cl) ->
  validate (i_opts i) = VDone o -> slacks_of i = Some m ->
  exists q k v c, has_value (tol_feas o) q /\ nth_error cl k = Some y /\
    o_f (w_user w k y) = Some (Fin v) /\ o_c (w_user w k y) = Some (map Fin c) /\
    (forall j r, nth_error c j = Some r -> - (100 * q) <= r) /\
    (slacks_kept w m -> within (100 * q) m c).
Proof. exact call_feasible. Qed.
Print Assumptions C75_call.

Example C75_call_ex : sorts_desc (w_argsort (world75 1 u75)) /\ (well_behaved u75 /\ constrained u75) /\ slacks_kept (world75 1 u75) 1 /\
  exists o cl, solve 5 i75 (world75 1 u75) = Some (Gives 0 (Some [3]) cl) /\ validate (i_opts i75) = VDone o /\ slacks_of i75 = Some 1%nat.
Proof. split; [exact w_sort_ok|]. split; [exact u75_ok|]. split; [exact w75_kept|exact call75]. Qed.

(** success is reported at a point where the only equality has the value 1e30 *)
Theorem C75_huge_refuted : exists i w y cl, sorts_desc (w_argsort w) /\ constrained (w_user w) /\
  solve 5 i w = Some (Gives 0 (Some y) cl) /\ slacks_of i = Some 0%nat /\ slacks_kept w 0 /\
  forall k, o_c (w_user w k y) = Some [Fin (inject_Z (10 ^ 30))].
Proof. exact huge_call. Qed.
Print Assumptions C75_huge_refuted.
