(** Two variables without bounds: the constraint [x0 = 0], once and twice. *)
From Coq Require Import Reals List Arith Bool Lra Lia.
From Verif Require Import RVec RBool Tri ProjGrad_Spec MS_Model MS_Spec Chol CG_Spec CG_Proofs CG_More TR_Model TR_Spec Null_Model Null_Spec Null_Wit
  Step_Spec Lib_Model Lib_Spec Lib_Proofs Lib_More Lib_Wit Cau_Spec Cau_Proofs.
Import ListNotations.
Open Scope R_scope.

Definition freel : nat -> xR := fun _ => NInf.
Definition freeu : nat -> xR := fun _ => PInf.
Definition g8 : vec := vscal 2 (unitv 1).
Definition svd8 (_ _ : nat) (_ : mat) : vec * mat := (one_sv 1, idm).

Local Notation run8 ce ae := (step_lib mst cholx slvx eig5 svd8 pin5 (/ 2) PInf 0 vzero 2 0 freel freeu (/ 10 ^ 7) idm ce ae vzero 22 vzero 1 g8 vzero).

Lemma clear8 : svd_clear 2 0 [0] [unitv 0] vzero svd8.
Proof.
  intros m A M H _. cbn [length] in M, H. assert (m = 1%nat) as -> by lia. cbn [svd8 fst snd]. split.
  - destruct (row_svd 1 ltac:(lra)) as (S1 & S2 & U & S3 & S4). split; [exact S1|]. split; [exact S2|]. exists U. split; [exact S3|].
    intros i j Hi Hj. cbn [Nat.add] in *. rewrite <- (S4 i j Hi Hj). destruct i as [|i]; [|lia]. rewrite (H 0%nat j ltac:(lia) Hj).
    unfold lin_row, lin_con, row, dot, unitv, vzero. cbn [nth length Nat.sub Nat.ltb Nat.leb rsum]. destruct j as [|[|j]]; cbn; [ring|ring|lia].
  - intros i _ H1. exfalso. unfold one_sv in H1. assert (/ 10 ^ 15 < 1); [|lra].
    rewrite <- Rinv_1. apply Rinv_lt_contravar; [rewrite Rmult_1_l; apply pow_lt; lra|]. apply Rlt_pow_R1; [lra|lia].
Qed.

Lemma idm_sym n : symmetric n idm.
Proof. intros i j _ _; unfold idm; rewrite Nat.eqb_sym; reflexivity. Qed.

Lemma lag8 me ae : lag_grad 2 freel freeu me ae vzero g8 vzero g8.
Proof.
  intros i _. cbn. split; [intros [[]|[]]|]. intros _. rewrite (rsum_zero me); [ring|]. intros k _. unfold vzero. ring.
Qed.
Lemma held8 L i : held_count freel freeu vzero L vzero i.
Proof.
  exists 0, 0. unfold vzero, held_low, held_up, freel, freeu. cbn. split; [ring|]. split; right; (split; [tauto|reflexivity]).
Qed.

Lemma ends8 ce ae : exists o, run8 ce ae = TrOut o /\ tr_passes o = 1%nat.
Proof.
  destruct (lib_ends mst cholx slvx eig5 svd8 pin5 (/ 2) PInf 0 vzero 2 0 freel freeu (/ 10 ^ 7) idm ce ae vzero 22 vzero 1 g8 vzero) as [o E].
  - lia.
  - lia.
  - apply Rinv_le_contravar; [apply pow_lt; lra|]. apply Rle_pow; [lra|lia].
  - intros i _. exact I.
  - exact cholx_exact.
  - exact slvx_exact.
  - exact mst_total.
  - exact pin5_total.
  - intros i _. split; exact I.
  - intros i Hi. lia.
  - exists o. split; [exact E|]. eapply c_lib_one; [|exact E]. intros i _. split; reflexivity.
Qed.

(** the restoration step is zero *)
Lemma rest8 {Msg} (restore : nat -> vec -> mat -> (nat -> xR) -> (nat -> xR) -> R -> option (vec * Msg)) cvx ce ae w r a :
  (forall k, (k < length ce)%nat -> nth k ce 0 = 0) -> restores restore cvx 2 0 freel freeu ce ae vzero w vzero 1 r a -> r = vzero.
Proof.
  intros C H. destruct H as [(_ & H & _)|(H & _)]; [exact H|]. exfalso.
  assert (Z : norm (2 + 0) (lsq_grad 2 0 ce ae vzero) = 0).
  { assert (V : veq (2 + 0) (lsq_grad 2 0 ce ae vzero) vzero).
    { intros j _. unfold lsq_grad. transitivity 0; [|reflexivity]. apply rsum_zero. intros k Hk.
      assert (E : lin_con 2 0 ce ae vzero vzero k = 0).
      { unfold lin_con. rewrite (C k Hk), dot_zero_r. unfold vzero. destruct (_ <? _)%nat; [ring|]. cbv zeta. ring. }
      rewrite E. ring. }
    unfold norm. rewrite (dot_ext _ _ _ _ _ V V), dot_zero_l. apply sqrt_0. }
  rewrite Z in H. assert (0 < / 10 ^ 14) by (apply Rinv_0_lt_compat, pow_lt; lra). lra.
Qed.

Lemma norm8 : norm 2 g8 = 2.
Proof.
  unfold norm. replace (dot 2 g8 g8) with (2 * 2); [apply sqrt_square; lra|]. unfold dot, g8, vscal, unitv. cbn. ring.
Qed.

(** the slope is tangential *)
Lemma part8 ce ae : (forall k, (k < length ce)%nat -> nth k ae vzero = unitv 0) -> tangent_part 2 0 freel freeu ce ae vzero vzero g8 (slope 2 idm g8 vzero) g8.
Proof.
  intros H. split; [split|].
  - intros k Hk. unfold lin_con. rewrite (H k Hk). rewrite dot_zero_r. replace (dot 2 (unitv 0) g8) with 0 by (unfold dot, g8, vscal, unitv; cbn; ring).
    destruct (_ <? _)%nat; [ring|]. cbv zeta. unfold vzero. ring.
  - intros i _ [[[] _]|[[] _]].
  - intros q _. rewrite dot_sub_l. rewrite (dot_ext_l (2 + 0) (slope 2 idm g8 vzero) g8); [ring|].
    intros i Hi. unfold slope. rewrite (proj2 (Nat.ltb_lt i 2)) by lia. rewrite mv_zero. ring.
Qed.

Lemma value8 : lag_model 2 idm g8 (vsub vzero (vscal (/ 2) g8)) = -3 / 2.
Proof. unfold lag_model, quad, dot, mv, g8, vsub, vscal, vzero, unitv, idm. cbn. field. Qed.

Lemma fall8 : exists o, run8 [0] [unitv 0] = TrOut o /\ tr_passes o = 1%nat /\ lag_model 2 idm g8 (tr_x o) <= -3 / 2.
Proof.
  destruct (ends8 [0] [unitv 0]) as (o & E & P). exists o. split; [exact E|]. split; [exact P|].
  destruct (c_library mst cholx slvx eig5 svd8 pin5 (/ 2) PInf 0 vzero 2 0 freel freeu (/ 10 ^ 7) idm [0] [unitv 0] vzero 22 vzero 1 g8 vzero g8 vzero o
    eq_refl ltac:(cbn; lia) (lag8 _ _) (fun i _ => held8 g8 i)) as (r & a & R & B).
  - rewrite (rsum_zero 2) by reflexivity. cbn. lra.
  - apply idm_sym.
  - lra.
  - lra.
  - exact clear8.
  - exact E.
  - exact P.
  - assert (r = vzero) as -> by (revert R; apply rest8; intros [|k] K; [reflexivity|cbn in K; lia]).
    assert (PT := part8 [0] [unitv 0] ltac:(intros [|k] K; [reflexivity|cbn in K; lia])).
    specialize (B g8 (/ 2) PT). change (2 + 0)%nat with 2%nat in B. rewrite norm8, value8 in B. specialize (B ltac:(lra) ltac:(lra) ltac:(lra)).
    assert (EV : veq 2 (tr_x o) (vsub (tr_x o) vzero)) by (intros i _; unfold vsub, vzero; ring).
    unfold lag_model in *. rewrite (quad_ext 2 idm _ _ EV), (dot_ext_r 2 g8 _ _ EV). exact B.
Qed.

(** the constraint given twice: no step at all *)
Lemma twice8 : exists o, run8 [0; 0] [unitv 0; unitv 0] = TrOut o /\ tr_passes o = 1%nat /\ forall i, tr_x o i = 0.
Proof.
  destruct (ends8 [0; 0] [unitv 0; unitv 0]) as (o & E & P). exists o. split; [exact E|]. split; [exact P|].
  destruct (c_lib_full mst cholx slvx eig5 svd8 pin5 (/ 2) PInf 0 vzero 2 0 freel freeu (/ 10 ^ 7) idm [0; 0] [unitv 0; unitv 0] vzero 22 vzero 1 g8 vzero g8 vzero o
    eq_refl ltac:(cbn; lia) (lag8 _ _) (fun i _ => held8 g8 i) ltac:(rewrite (rsum_zero 2) by reflexivity; cbn; lra) E P) as (r & a & R & B).
  assert (r = vzero) as -> by (revert R; apply rest8; intros [|[|k]] K; [reflexivity|reflexivity|cbn in K; lia]).
  intros i. rewrite B. unfold vzero. ring.
Qed.

Lemma twice_refuted : ~ forall ms chol slv eig svd pin tol oinf dxmin gi n nsl lb ub thr M0 ce ae sl fuel x delta g lm L w o,
  length ae = length ce -> (nsl <= length ce)%nat -> lag_grad n lb ub (length ce) ae x g lm L ->
  (forall i, (i < n)%nat -> held_count lb ub x L w i) -> symmetric n M0 -> 0 <= delta -> 0 <= tol -> svd_clear n nsl ce ae sl svd ->
  step_lib ms chol slv eig svd pin tol oinf dxmin gi n nsl lb ub thr M0 ce ae sl fuel x delta g lm = TrOut o -> tr_passes o = 1%nat ->
  exists r a, restores (restore_lib ms chol slv) (cvx_lib eig (n + nsl)) n nsl lb ub ce ae sl w x delta r a /\
    forall p s, tangent_part n nsl lb ub ce ae sl x L (slope n M0 g r) p -> tol < norm (n + nsl) p -> 0 <= s -> s * norm (n + nsl) p <= delta ->
    lag_model n M0 g (vsub (tr_x o) x) <= lag_model n M0 g (vsub r (vscal s p)).
Proof.
  intros H. destruct twice8 as (o & E & P & X).
  assert (SC : svd_clear 2 0 [0; 0] [unitv 0; unitv 0] vzero svd8) by (intros m A M; cbn [length] in M; lia).
  destruct (H mst cholx slvx eig5 svd8 pin5 (/ 2) PInf 0 vzero 2%nat 0%nat freel freeu (/ 10 ^ 7) idm [0; 0] [unitv 0; unitv 0] vzero 22%nat vzero 1 g8 vzero g8 vzero o
    eq_refl ltac:(cbn; lia) (lag8 _ _) (fun i _ => held8 g8 i) (idm_sym 2) ltac:(lra) ltac:(lra) SC E P) as (r & a & R & B).
  assert (r = vzero) as -> by (revert R; apply rest8; intros [|[|k]] K; [reflexivity|reflexivity|cbn in K; lia]).
  assert (PT := part8 [0; 0] [unitv 0; unitv 0] ltac:(intros [|[|k]] K; [reflexivity|reflexivity|cbn in K; lia])).
  specialize (B g8 (/ 2) PT). change (2 + 0)%nat with 2%nat in B. rewrite norm8, value8 in B. specialize (B ltac:(lra) ltac:(lra) ltac:(lra)).
  assert (EV : veq 2 (vsub (tr_x o) vzero) vzero) by (intros i _; unfold vsub; rewrite X; unfold vzero; ring).
  unfold lag_model in B. rewrite (quad_ext 2 idm _ _ EV), (dot_ext_r 2 g8 _ _ EV), dot_zero_r in B. unfold quad in B. rewrite dot_zero_l in B. lra.
Qed.

(** the hypothesis about the null space can be met *)
Lemma spans8 : null_spans 2 0 freel freeu [0] [unitv 0] vzero vzero g8 (fun _ => Some (1%nat, fun i _ => unitv 1 i)).
Proof.
  intros rows k Z _ E. injection E as <- <-. split; [|split].
  - intros a b Ha Hb. assert (a = 0%nat) as -> by lia. assert (b = 0%nat) as -> by lia. unfold unitv, idm. cbn. ring.
  - intros j _. split; [|intros i _ [[[] _]|[[] _]]]. intros [|k] K; [|cbn in K; lia]. unfold lin_con, dot, unitv, vzero. cbn. ring.
  - intros q [Q _]. specialize (Q 0%nat ltac:(cbn; lia)). unfold lin_con, dot, unitv, vzero in Q. cbn in Q.
    exists (fun _ => q 1%nat). intros [|[|i]] Hi; [| |cbn in Hi; lia]; unfold mv, unitv; cbn; lra.
Qed.
