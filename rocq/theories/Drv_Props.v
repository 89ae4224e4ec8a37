(** Properties C20, C21, C22, C54: the entry of the solver. *)
From Coq Require Import List Arith ZArith QArith Reals Bool Lia Lra.
Import ListNotations.
From Verif Require Import Main_Model Opt_Model Drv_Model Drv_Spec Drv_Proofs Drv_Wit.

(** ** C20: argument checks *)

(** exactly the listed calls are refused with exit code 1 *)
Theorem C20_refused : forall (D : Type) (a : args D), check_args a = Wrong <-> to_refuse a.
Proof. exact (@refuse_iff). Qed.
Print Assumptions C20_refused.

(** exactly the calls with objects that are not plain functions end the process *)
Theorem C20_quit : forall (D : Type) (a : args D), check_args a = Quit <-> to_quit a.
Proof. exact (@quit_iff). Qed.
Print Assumptions C20_quit.

(** all other calls enter the computation, with the given functions *)
Theorem C20_entered : forall (D : Type) (a : args D),
  (exists f c, check_args a = Enter f c) <-> ~ to_refuse a /\ ~ to_quit a.
Proof. exact (@enter_iff). Qed.
Print Assumptions C20_entered.

Theorem C20_functions : forall (D : Type) (a : args D) f c, check_args a = Enter f c ->
  a_f a = FnFun f /\ (forall k, c = Some k <-> a_c a = FnFun k) /\ a_x0 a = true.
Proof. exact (@enter_handles). Qed.
Print Assumptions C20_functions.

(** a refused call runs nothing *)
Theorem C20_no_run : forall (D Res : Type)
  (rest : D -> option nat -> option nat -> option (nat * list R) -> Res * list R) (a : args D) g,
  to_refuse a ->
  fst (call rest a g) = OWrong /\
  g_nbr (snd (call rest a g)) = g_nbr g /\ g_sl (snd (call rest a g)) = g_sl g.
Proof. exact (@refused_call). Qed.
Print Assumptions C20_no_run.

Example C20_ex_refused : to_refuse (mkargs unit (FnFun 0) FnNone true (Some 1%nat) None None None tt).
Proof. right. split; [exists 0%nat; reflexivity|]. left. split; [reflexivity|]. simpl. lia. Qed.

Example C20_ex_entered : exists f c,
  check_args (mkargs unit (FnFun 3) (FnFun 4) true (Some 1%nat) None None None tt) = Enter f c.
Proof. exists 3%nat, (Some 4%nat). reflexivity. Qed.

Example C20_ex_quit : to_quit (mkargs unit (FnFun 3) FnOther true None None None None tt).
Proof. right. split; [exists 3%nat; reflexivity|reflexivity]. Qed.

(** ** C21: number of slack variables *)

Theorem C21_number : forall me mi li ui,
  (forall l, li = Some l -> (mi + me <= length l)%nat) ->
  (forall u, ui = Some u -> (mi + me <= length u)%nat) ->
  exists t, slack_count me mi li ui = Some (mi + t)%nat /\
  number_of (mi + me) (two_sided (given_li (mi + me) li) (given_ui (mi + me) ui)) t.
Proof. exact slack_count_number. Qed.
Print Assumptions C21_number.

(** the number of two-sided constraints is well defined *)
Theorem C21_unique : forall n P k k', number_of n P k -> number_of n P k' -> k = k'.
Proof. exact number_unique. Qed.
Print Assumptions C21_unique.

(** no additional slack if one of the two bound arrays is not given *)
Theorem C21_onesided : forall me mi li ui,
  (forall l, li = Some l -> (mi + me <= length l)%nat) ->
  (forall u, ui = Some u -> (mi + me <= length u)%nat) ->
  li = None \/ ui = None -> slack_count me mi li ui = Some mi.
Proof. exact slack_count_onesided. Qed.
Print Assumptions C21_onesided.

(** bound arrays that are too short raise an exception *)
Theorem C21_short : forall me mi li ui, (0 < mi)%nat ->
  (exists l, li = Some l /\ (length l < mi + me)%nat) \/
  (exists u, ui = Some u /\ (length u < mi + me)%nat) ->
  slack_count me mi li ui = None.
Proof. exact slack_count_raises. Qed.
Print Assumptions C21_short.

Example C21_ex : slack_count 1 2 (Some [Fin 0; Fin (-5); NInf]) (Some [Fin 0; Fin 5; Fin 3]) = Some 3%nat.
Proof. vm_compute. reflexivity. Qed.

Example C21_ex_equality_counted :
  slack_count 1 1 (Some [Fin 0; Fin 0]) (Some [Fin 1; PInf]) = Some 2%nat.
Proof. vm_compute. reflexivity. Qed.

(** ** C22: successive calls *)

Theorem C22_independent : forall (D Res : Type)
  (rest : D -> option nat -> option nat -> option (nat * list R) -> Res * list R) hist a,
  has_ineq a \/ Forall (fun b => ~ has_ineq b) hist ->
  result_after rest hist a = result_after rest [] a.
Proof. exact (@independent). Qed.
Print Assumptions C22_independent.

(** otherwise the slack count of the last call with inequalities is still in force *)
Theorem C22_leftover_count : forall (D Res : Type)
  (rest : D -> option nat -> option nat -> option (nat * list R) -> Res * list R) b g k,
  has_ineq b -> (exists f c, check_args b = Enter f c) ->
  slack_count (num_of (a_me b)) (num_of (a_mi b)) (a_li b) (a_ui b) = Some k ->
  forall hist, Forall (fun b => ~ has_ineq b) hist ->
  g_nbr (after rest (b :: hist) g) = k.
Proof. exact (@leak). Qed.
Print Assumptions C22_leftover_count.

(** with more leftover slacks than constraints, the start of the later call raises *)
Theorem C22_leftover_raises : forall nbr ce ub, (length ce < nbr)%nat -> initial_feas nbr ce ub = None.
Proof. exact initial_feas_raises. Qed.
Print Assumptions C22_leftover_raises.

(** witness: one inequality, then an unconstrained problem *)
Theorem C22_dependence_refuted :
  result_after start_only [with_ineq] without = ORes None /\
  result_after start_only [] without = ORes (Some []).
Proof. exact dependence. Qed.
Print Assumptions C22_dependence_refuted.

Example C22_ex : has_ineq with_ineq /\ ~ has_ineq without /\
  (exists f c, check_args with_ineq = Enter f c) /\ slack_count 0 1 None None = Some 1%nat.
Proof.
  split; [discriminate|]. split; [intros H; apply H; reflexivity|].
  split; [exists 1%nat, (Some 2%nat); reflexivity|vm_compute; reflexivity].
Qed.

(** ** C54: initial slacks *)

(** the last [nbr] constraints are measured as inequalities with upper bound [ub],
    the others as equalities *)
Theorem C54_initial_residuals : forall nbr ce ub,
  (0 < nbr)%nat -> (nbr <= length ce)%nat -> (nbr <= length ub)%nat ->
  (forall j, (length ub - nbr <= j < length ub)%nat -> (0 <= nth j ub 0)%R) ->
  exists r, initial_feas nbr ce ub = Some r /\ length r = length ce /\
  (forall i, (i < length ce - nbr)%nat -> nth i r 0%R = nth i ce 0%R) /\
  (forall i, (i < nbr)%nat ->
     nth (length ce - nbr + i) r 0%R =
     (nth (length ce - nbr + i) ce 0 -
      Rmax 0 (Rmin (nth (length ce - nbr + i) ce 0) (nth (length ub - nbr + i) ub 0)))%R).
Proof. exact initial_feas_values. Qed.
Print Assumptions C54_initial_residuals.

(** so a positive value up to the bound among the last [nbr] constraints is not counted *)
Theorem C54_positive_hidden : forall nbr ce ub,
  (0 < nbr)%nat -> (nbr <= length ce)%nat -> (nbr <= length ub)%nat ->
  (forall j, (length ub - nbr <= j < length ub)%nat -> (0 <= nth j ub 0)%R) ->
  exists r, initial_feas nbr ce ub = Some r /\
  forall i, (i < nbr)%nat ->
    (0 < nth (length ce - nbr + i) ce 0 <= nth (length ub - nbr + i) ub 0)%R ->
    nth (length ce - nbr + i) r 0%R = 0%R.
Proof. exact initial_feas_hides. Qed.
Print Assumptions C54_positive_hidden.

(** one equality and one two-sided inequality: two slacks, and the violation 4 of the
    equality is reported as 0 *)
Theorem C54_equality_violation_refuted :
  slack_count 1 1 (Some [Fin 0; Fin 0]) (Some [Fin 0; Fin 1]) = Some 2%nat /\
  exists r, initial_feas 2 [4%R; (1 / 2)%R] [5%R; 5%R; 5%R] = Some r /\ nth 0 r 1%R = 0%R.
Proof. exact equality_violation. Qed.
Print Assumptions C54_equality_violation_refuted.
