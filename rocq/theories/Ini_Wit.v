(** Witnesses for the first multipliers. *)
From Coq Require Import Reals Arith List Bool Lra Lia.
From Verif Require Import RVec RBool ProjGrad_Spec BL_Spec Hess_Model Mult_Model Mult_Spec Mult_Proofs Mult_Wit Ini_Model.
Import ListNotations.
Open Scope R_scope.

(** One variable, one inequality with slack 0, gradient -1 (as in [c_run]). *)
Lemma ini_c_run : exists glag feas compl lm,
  first_measures true 1 1 1 0 vzero (fun _ => NInf) (fun _ => PInf) PInf adx cg vzero (fun _ _ => 1) vzero false vzero (fun _ _ => 0) csol
    = Some (glag, feas, compl, lm) /\
  glag 0%nat = 0 /\ feas 0%nat = 0 /\ lm 0%nat = 0 /\ lm 1%nat = 1.
Proof.
  assert (EK : kept 1 1 1 vzero (fun _ => xneg PInf) (fun _ => PInf) PInf adx = [2]%nat).
  { unfold kept. change (seq 0 (1 + 1 + 1)) with [0; 1; 2]%nat. cbn. destruct (Reqb_spec 0 0); [|congruence]. reflexivity. }
  unfold first_measures, compute_multiplier. cbn [Nat.add Nat.eqb]. rewrite EK. unfold csol. rewrite one_match; [|reflexivity|].
  - eexists _, _, _, _. split; [reflexivity|].
    unfold opt_glag, opt_feas, drop_slack, full_mult. rewrite EK. cbn. unfold jac, cg, vzero. cbn.
    repeat split; lra.
  - intros p Hp. unfold red_lo, red_up, red_rhs, red_mat. rewrite EK.
    destruct p as [|p]; [|lia]. cbn [nth].
    split; [unfold mAg, mv, bigA, gloc, jac, cg, vzero; cbn; lra|]. split; [reflexivity|]. split; [reflexivity|].
    intros q Hq. destruct q as [|q]; [|lia]. cbn [nth]; unfold mAA, check_convex, bigA, jac, vzero; cbn; lra.
Qed.

(** Minimise x over x >= 0, at x = 0. *)
Lemma ini_b_run : exists glag feas compl lm,
  first_measures true 1 0 0 1 vzero (fun _ => Fin 0) (fun _ => PInf) PInf adx (fun _ => 1) vzero (fun _ _ => 0) vzero false vzero (fun _ _ => 0) bsol
    = Some (glag, feas, compl, lm) /\ glag 0%nat = 1.
Proof.
  assert (EK : kept 1 0 0 vzero (fun _ => xneg PInf) (fun _ => PInf) PInf adx = []).
  { unfold kept. change (seq 0 (1 + 0 + 0)) with [0]%nat. cbn. destruct (Reqb_spec 0 0); [|congruence]. reflexivity. }
  unfold first_measures, compute_multiplier. cbn [Nat.add Nat.eqb]. rewrite EK.
  eexists _, _, _, _. split; [reflexivity|]. unfold opt_glag, drop_slack, vzero. cbn. destruct (_ || _); lra.
Qed.

Lemma b_first_order : first_order_conditions 1 0 0 vzero (fun _ => Fin 0) (fun _ => PInf) (fun _ => 1) vzero (fun _ _ => 0).
Proof.
  exists (fun _ => -1), vzero. split; [intros j Hj; unfold lagr; cbn; lra|].
  split; [reflexivity|]. split; [intros; lra|]. split; intros; lia.
Qed.

Lemma first_optimal_refuted : ~ (forall n nsl me counted x lb ub oinf dxmin g ce ae sl evneg ev evec solver glag feas compl lm,
  (nsl <= me)%nat -> (1 <= counted + me)%nat -> answers_solve solver ->
  negative_sound (n + nsl + me) (gram (n + nsl) (stacked n nsl me ae sl)) evneg ->
  first_order_conditions n nsl me x lb ub g ce ae ->
  first_measures true n nsl me counted x lb ub oinf dxmin g ce ae sl evneg ev evec solver = Some (glag, feas, compl, lm) ->
  forall j, (j < n)%nat -> glag j = 0).
Proof.
  intros H. destruct ini_b_run as (glag & feas & compl & lm & E & G).
  assert (HN : negative_sound (1 + 0 + 0) (gram (1 + 0) (stacked 1 0 0 (fun _ _ => 0) vzero)) false) by (intros X; discriminate).
  specialize (H 1%nat O O 1%nat _ _ _ _ _ _ _ _ _ _ _ _ _ _ _ _ _ (le_n 0) (le_n 1) bsol_solves HN b_first_order E 0%nat ltac:(lia)). lra.
Qed.
