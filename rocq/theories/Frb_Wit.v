(** C48: one variable, the point 0, minimum-Frobenius-norm mode. *)
From Coq Require Import Reals List Arith Lra Lia.
From Verif Require Import RVec RBool Tri Poly_Model Poly_Spec Int_Model Int_Spec Int_Wit.
Open Scope R_scope.

Definition Y0 (j : nat) : vec := fun _ => 0.
Definition Q0 : mat := fun i j => match i, j with 0%nat, 1%nat => 1 | 1%nat, 0%nat => 1 | 2%nat, 2%nat => 1 | _, _ => 0 end.
Definition R0 : mat := fun i j => match i, j with 0%nat, 0%nat => 1 | 1%nat, 1%nat => 1 | _, _ => 0 end.
Definition qr0 (r c : nat) (A : mat) : mat * mat := (Q0, R0).
Definition b0 : built := mkbuilt Q0 R0 vzero (fun _ => 1).
(** the constant 5 *)
Definition z5 : vec := fun i => if (i =? 1)%nat then 5 else 0.

Lemma frob_case : build qr0 ill0 cure0 1 false 1 1 Y0 = Some b0 /\ exactly_built qr0 ill0 1 false 1 1 Y0 /\
  forall i, (i < 1 + (1 + 1))%nat -> mv (1 + (1 + 1)) (b_Q b0) (mv (1 + (1 + 1)) (b_R b0) z5) i = if (i <? 1)%nat then 5 else 0.
Proof.
  split; [reflexivity|]. split.
  - unfold exactly_built. change (eff_mode 1 1 1) with 1%nat. cbn [to_factor]. change (compl 1 1) with false. cbn match.
    split; [reflexivity|]. unfold qr0. change (full 1) with 3%nat. split; [|split].
    + intros i j Hi Hj. destruct i as [|[|[|i]]], j as [|[|[|j]]]; try lia; cbn; unfold Q0, R0, zmat, pts, Y0; cbn; lra.
    + intros i j Hi Hj. destruct i as [|[|[|i]]], j as [|[|[|j]]]; try lia; cbn; unfold Q0, idm; cbn; lra.
    + intros i j Hi Hj L. destruct i as [|[|[|i]]], j as [|[|[|j]]]; try lia; reflexivity.
  - intros i Hi. destruct i as [|[|[|i]]]; try lia; unfold mv, b0, z5; cbn; lra.
Qed.

(** C31: two points, a matrix without a zero entry *)
Definition b2 : built := mkbuilt idm (fun _ _ => 2) vzero (fun _ => 1).
Lemma elementwise_case : (2 = 1 + 1)%nat /\ forall i j, (i < 2)%nat -> (j < 2)%nat -> b_R b2 i j <> 0.
Proof. split; [reflexivity|]. intros i j _ _. cbn. lra. Qed.
