(** C08: the penalty parameter stays bounded if the required values do. *)
From Coq Require Import List Arith ZArith QArith Lqa.
From Verif Require Import Main_Model Main_Spec Main_Wit Pen_Spec Pen_Proofs.
Local Open Scope Q_scope.

(** If every pass requires at most [K], the parameter never exceeds the larger of 1 and 1.5 * K,
    and after [k] changes it is at least 1.5 to the power [k]. *)
Theorem C08_bounded : forall (P : Type) (E : env P), sane E ->
  forall k0 d0 s0 K k s, begins E k0 d0 s0 -> changed_in E (required_at_most K) s0 k s ->
  (sigma (sG s) <= 1 \/ sigma (sG s) <= (3 # 2) * K) /\ (3 # 2) ^ Z.of_nat k <= sigma (sG s).
Proof. exact (@bounded). Qed.
Print Assumptions C08_bounded.

(** The number of changes is bounded. *)
Theorem C08_changes : forall (P : Type) (E : env P), sane E ->
  forall k0 d0 s0 K k s, begins E k0 d0 s0 -> changed_in E (required_at_most K) s0 k s ->
  (3 # 2) ^ Z.of_nat k <= 1 \/ (3 # 2) ^ Z.of_nat k <= (3 # 2) * K.
Proof. exact (@bounded_count). Qed.
Print Assumptions C08_changes.

(** One pass that requires 10. *)
Example C08_bounded_ex : exists s',
  changed_in (wE (unc f_up) 0 9 100) (required_at_most 10) (su (unc f_up) f_up 9 100) 1 s' /\ sigma (sG s') == 10.
Proof.
  assert (K : exists s', pass (wE (unc f_up) 0 9 100) (su (unc f_up) f_up 9 100) (wa 5 7 1 false 1 1 0) = Continue s' /\
    sigma (sG s') = 70 # 7) by (eexists; split; [vm_compute; reflexivity|reflexivity]).
  destruct K as (s' & K & S). exists s'. split; [|rewrite S; reflexivity].
  eapply ch_more; [apply ch_start| |exact K|rewrite S; vm_compute; congruence].
  intros b _ H. cbn [a_rpred a_qcost wa] in H. lra.
Qed.
