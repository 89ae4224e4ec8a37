(** Sample calls used in the examples of Drv_Props.v. *)
From Coq Require Import List Arith ZArith QArith Reals Bool Lia Lra.
Import ListNotations.
From Verif Require Import Main_Model Drv_Model Drv_Spec Drv_Proofs.

(** the two calls used as witness: one inequality, then an unconstrained problem *)
Definition with_ineq : args (list R * list R) :=
  mkargs _ (FnFun 1) (FnFun 2) true None (Some 1%nat) None None ([1%R], [2%R; 1%R]).
Definition without : args (list R * list R) :=
  mkargs _ (FnFun 1) FnNone true None None None None ([], [2%R]).
Definition start_only (d : list R * list R) (f c : option nat) (s : option (nat * list R)) :
  option (list R) * list R :=
  (initial_feas (match s with Some p => fst p | None => 0 end) (fst d) (snd d), []).

Lemma dependence :
  result_after start_only [with_ineq] without = ORes None /\
  result_after start_only [] without = ORes (Some []).
Proof. split; reflexivity. Qed.
