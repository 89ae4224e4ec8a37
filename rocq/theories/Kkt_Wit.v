(** Witnesses for the recognition of first-order points: one variable. *)
From Coq Require Import Reals List Lra Lia Arith Bool.
From Verif Require Import RVec RBool ProjGrad_Spec BL_Model BL_Spec BL_Proofs Hess_Model Mult_Model Mult_Spec Mult_Proofs Mult_Wit Kkt_Spec.
Import ListNotations.
Open Scope R_scope.

(** systems of order 1 *)
Definition pin1 (k : nat) (M : mat) (f : list nat) (b : vec) : option vec :=
  Some (fun i => if Reqb (M O O) 0 then 0 else b O / M O O).

Lemma pin1_solves : solves_systems (1 + 0) pin1.
Proof.
  intros k M b Hk [t Ht]. eexists. split; [reflexivity|]. intros i Hi. destruct k as [|[|k]]; [lia| |lia].
  destruct i; [|lia]. specialize (Ht O ltac:(lia)). unfold mv in *. cbn [rsum] in *.
  destruct (Reqb_spec (M O O) 0) as [E|E]; [rewrite E in *; lra|field; exact E].
Qed.

(** minimise x for x >= 0, at 0 *)
Definition kd : R := 1 / 10 ^ 6.
Lemma e5_pos : 0 < 1 / 10 ^ 5.
Proof. apply Rdiv_lt_0_compat; [lra|apply pow_lt; lra]. Qed.
Lemma kd_pos : 0 < kd.
Proof. apply Rdiv_lt_0_compat; [lra|apply pow_lt; lra]. Qed.
Lemma kd_small : kd < 1 / 10 ^ 5.
Proof. unfold kd. cbn [pow]. lra. Qed.

Lemma low_point : first_order_point 1 0 0 (1 / 10 ^ 5) kd vzero (fun _ => Fin 0) (fun _ => PInf) (fun _ => 1) vzero
  (fun _ _ => 0) (fun _ => -1) vzero.
Proof.
  repeat split; try (intros; lia).
  - intros j Hj. unfold lagr. cbn. lra.
  - exists 0. split; [reflexivity|]. unfold vzero. rewrite Rminus_0_r, Rabs_R0. exact e5_pos.
  - intros [a [E _]]. discriminate.
  - lra.
  - lra.
Qed.

Lemma low_independent : active_independent 1 0 0 (1 / 10 ^ 5) vzero (fun _ => Fin 0) (fun _ => PInf) vzero (fun _ _ => 0).
Proof.
  intros mu lam _ _ H. split; [|intros k Hk; lia]. intros i Hi. specialize (H i Hi). unfold lagr, vzero in H. cbn in H. lra.
Qed.

Lemma no_slack : slacks_fit 0 0 vzero vzero.
Proof. intros t Ht. lia. Qed.
Lemma sound_false N M : negative_sound N M false.
Proof. intros H. discriminate. Qed.

(** minimise x for 0 <= x <= 5e-7, at 0, with dxmin = 1e-6 *)
Definition kub : nat -> xR := fun _ => Fin (kd / 2).
Lemma tight_point : first_order_point 1 0 0 (1 / 10 ^ 5) 0 vzero (fun _ => Fin 0) kub (fun _ => 1) vzero
  (fun _ _ => 0) (fun _ => -1) vzero.
Proof.
  repeat split; try (intros; lia).
  - intros j Hj. unfold lagr. cbn. lra.
  - exists 0. split; [reflexivity|]. unfold vzero. rewrite Rminus_0_r, Rabs_R0. exact e5_pos.
  - intros [a [_ E]]. pose proof (Rabs_pos (vzero j - a)). lra.
  - lra.
  - lra.
Qed.
Lemma tight_independent : active_independent 1 0 0 (1 / 10 ^ 5) vzero (fun _ => Fin 0) kub vzero (fun _ _ => 0).
Proof.
  intros mu lam _ _ H. split; [|intros k Hk; lia]. intros i Hi. specialize (H i Hi). unfold lagr, vzero in H. cbn in H. lra.
Qed.

Lemma tight_near : near (1 / 10 ^ 5) (vzero O) (Fin 0) = true /\ near (1 / 10 ^ 5) (vzero O) (kub O) = true /\
  near kd (vzero O) (Fin 0) = true /\ near kd (vzero O) (kub O) = true.
Proof.
  pose proof e5_pos. pose proof kd_pos. pose proof kd_small. rewrite !near_close. unfold vzero, kub.
  assert (Z : Rabs (0 - 0) = 0) by (rewrite Rminus_0_r; apply Rabs_R0).
  assert (Y : Rabs (0 - kd / 2) = kd / 2) by (rewrite Rabs_left; lra).
  repeat split; eexists; (split; [reflexivity|]); rewrite ?Z, ?Y; lra.
Qed.

Lemma tight_run : exists glag feas compl lm,
  measures 1 0 0 vzero (fun _ => Fin 0) kub PInf kd (fun _ => 1) vzero (fun _ _ => 0) vzero false vzero (fun _ _ => 0) (lib_solver pin1)
    = Some (glag, feas, compl, lm) /\ glag O = 1 /\ lm O = 0.
Proof.
  destruct tight_near as [N1 [N2 [N3 N4]]].
  assert (EK : kept 1 0 0 vzero (fun i => near_only (Fin 0) (vzero i) NInf) (fun i => near_only (kub i) (vzero i) PInf) PInf kd = []).
  { unfold kept. cbn [Nat.add seq filter]. unfold mlo, mup. cbn [Nat.ltb Nat.leb]. unfold near_only. rewrite N1, N2.
    assert (X1 : xleb PInf (kub O) = false) by reflexivity. rewrite X1, N4, N3. cbn [xleb xneg negb andb xeqb].
    destruct (Reqb_spec 0 0); [reflexivity|congruence]. }
  eexists _, _, _, _. split; [unfold measures, compute_multiplier; rewrite EK; reflexivity|].
  unfold opt_glag, drop_slack. cbn. split; [|reflexivity]. unfold vzero. destruct (_ || _)%bool; lra.
Qed.

(** a first-order point between two bounds closer than dxmin is missed *)
Lemma tight_missed : ~ (forall n nsl me x lb ub dxmin g ce ae sl evneg ev evec pin mu lam,
  negative_sound (n + nsl + me) (gram (n + nsl) (stacked n nsl me ae sl)) evneg -> (nsl <= me)%nat -> solves_systems (n + me) pin ->
  first_order_point n nsl me (1 / 10 ^ 5) 0 x lb ub g ce ae mu lam -> slacks_fit nsl me ce sl ->
  active_independent n nsl me (1 / 10 ^ 5) x lb ub ce ae ->
  exists glag feas compl lm,
    measures n nsl me x lb ub PInf dxmin g ce ae sl evneg ev evec (lib_solver pin) = Some (glag, feas, compl, lm) /\
    (forall j, (j < n)%nat -> glag j = 0)).
Proof.
  intros H. destruct tight_run as [gl [fe [co [lm [E [G _]]]]]].
  destruct (H 1%nat 0%nat 0%nat vzero (fun _ => Fin 0) kub kd (fun _ => 1) vzero (fun _ _ => 0) vzero false vzero (fun _ _ => 0) pin1
    (fun _ => -1) vzero (sound_false _ _) (le_n 0) pin1_solves tight_point no_slack tight_independent) as [gl' [fe' [co' [lm' [E' G']]]]].
  rewrite E in E'. injection E' as <- <- <- <-. specialize (G' O ltac:(lia)). lra.
Qed.
