(** Concrete complete calls used in the Examples. *)
From Coq Require Import List Arith ZArith QArith Bool Lia Lqa.
Import ListNotations.
From Verif Require Import QB Book_Model Book_Spec Book_Wit Main_Model Opt_Model Drv_Model Pre_Model Pre_Spec Pre_Proofs Pre_Wit
  Sol_Model Sol_Spec.
Local Open Scope Q_scope.

(** no options except the two limits *)
Definition lim (mt ms : num) : opts :=
  mkopts None None None None None (Some mt) (Some ms) None None None None None None.

(** objective given, no constraints, start point x0, no bounds *)
Definition icall (o : opts) (x0 : list Q) : input :=
  mkin (mkargs unit (FnFun 0) FnNone true None None None None tt) o false None None x0 0.

(** answers: trial point y, no reduction predicted *)
Definition sans (y : list Q) : answers (list Q) :=
  mkans false false false false 1 1 1 1 (fun _ _ j => NewPt [inject_Z (Z.of_nat j)] (1 # 10)) None 1 y 0 false []
    1 1 (-1) false (fun _ => 1) (fun _ => 1) (fun _ => 1).

Definition sworld (u : nat -> list Q -> outcome) (a : answers (list Q)) : world :=
  mkworld u n1 yes yes (fun _ c => c) false [0] (fun a b => qabs (nth 0 a 0 - nth 0 b 0)) n1 w_sort n1 (fun _ => true)
    (fun s _ => s) (fun _ => a).

(** the objective fails in call number 3 (the fourth), far from the start *)
Definition ufar (k : nat) (y : list Q) : outcome :=
  mkout (if qltb 4 (nth 0 y 0) then None else Some (Fin (nth 0 y 0))) (Some []).

Definition i_zero : input := icall (lim (NInt 5) (NInt 5)) [0].
Definition w_low : world := sworld ulow (sans [0]).

Lemma i_zero_lb : full_lb i_zero 0 = [Some (- c1e20)].
Proof. reflexivity. Qed.
Lemma i_zero_ub : full_ub i_zero 0 = [Some c1e20].
Proof. reflexivity. Qed.
Lemma i_zero_opts : exists o, validate (i_opts i_zero) = VDone o.
Proof. eexists. vm_compute. reflexivity. Qed.

Lemma endless_call : exists i w, sorts_desc (w_argsort w) /\ forall fuel, solve fuel i w = None.
Proof.
  exists i_zero, w_low. split; [exact w_sort_ok|]. intros fuel. unfold solve.
  change (check_args (i_args i_zero)) with (Enter 0 None). cbv iota beta.
  change (slacks_of i_zero) with (Some 0%nat). cbv iota beta.
  destruct i_zero_opts as (o & ->). cbv iota zeta. rewrite i_zero_lb, i_zero_ub.
  change (i_x0 i_zero) with [0]. change (i_int i_zero) with false. cbn [length Nat.ltb Nat.leb orb].
  assert (A : adjust false [Some (- c1e20)] [Some c1e20] [0] 0 delta0 = Some ([0], 1, [])) by (vm_compute; reflexivity).
  assert (PR : prelim ulow n1 yes yes fuel false [Some (- c1e20)] [Some c1e20] [0] = None).
  { unfold prelim. rewrite A. apply endless; [reflexivity|reflexivity|reflexivity|].
    intros k y. eexists. split; [reflexivity|]. split; reflexivity. }
  change (w_user w_low) with ulow. change (w_nrm w_low) with n1. change (w_geom w_low) with yes.
  change (w_fit w_low) with yes. rewrite PR. reflexivity.
Qed.

(** the objective fails left of 2: at the point chosen for an improvement of the set *)
Definition unear (k : nat) (y : list Q) : outcome :=
  mkout (if qltb (nth 0 y 0) 2 then None else Some (Fin (nth 0 y 0))) (Some []).

Lemma failing_call : solve 5 (icall (lim (NInt 3) (NInt 50)) [3]) (sworld unear (sans [5])) = Some Raises.
Proof. vm_compute. reflexivity. Qed.
