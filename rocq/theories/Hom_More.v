(** Proofs about the search for the multiplier with exact linear algebra. *)
From Coq Require Import Reals Lra Psatz Lia List Arith Bool.
From Verif Require Import RVec RBool Tri ProjGrad_Spec MS_Model MS_Spec MS_Proofs MS_More BC_Model BC_Proofs Hom_Model Hom_Spec Hom_Proofs.
Import ListNotations.
Open Scope R_scope.

Lemma pd_above n A lam lam' : shift_psd n A lam -> lam < lam' -> shift_pd n A lam'.
Proof. intros P L x NX. pose proof (P x). pose proof (dot_self_pos n x NX). nra. Qed.

Lemma stationary_unique n g A lam d d' : symmetric n A -> shift_pd n A lam -> stationary n g A lam d -> stationary n g A lam d' -> veq n d d'.
Proof.
  intros SA P D D'. destruct (Req_EM_T (dot n (vsub d d') (vsub d d')) 0) as [E|E].
  - apply dot_self_zero in E. intros i Hi. specialize (E i Hi). unfold vsub, vzero in E. lra.
  - exfalso. assert (NZ : ~ veq n (vsub d d') vzero) by (intros Z; apply E; apply dot_self_zero; exact Z).
    pose proof (P _ NZ) as Q. unfold quad in Q.
    assert (Z : dot n (vsub d d') (mv n A (vsub d d')) + lam * dot n (vsub d d') (vsub d d') = 0); [|lra].
    pose proof (stationary_dot n g A lam d (vsub d d') D). pose proof (stationary_dot n g A lam d' (vsub d d') D').
    rewrite dot_mv_sub, (dot_sub_r n (vsub d d') d d'). lra.
Qed.

Lemma hom_inner_between l u : 0 <= l <= u -> l <= hom_inner l u <= u /\ (l < u -> l < hom_inner l u).
Proof.
  intros L. unfold hom_inner. destruct (Rltb_spec (l * u) 0); [nra|]. pose proof (inner_between l u L) as B. pose proof theta_range as T.
  unfold ms_inner in B. split; [exact B|]. intros LU. eapply Rlt_le_trans; [|apply Rmax_r]. nra.
Qed.
Lemma hom_keep_between l u new : 0 <= l <= u -> l <= hom_keep l u new <= u /\ (l < u -> l < hom_keep l u new).
Proof.
  intros L. unfold hom_keep. pose proof theta_range as T. cbv zeta.
  destruct (Rltb_spec (l + ms_theta * (u - l)) new) as [A|A]; [|apply hom_inner_between; exact L].
  destruct (Rleb_spec new (u - ms_theta * (u - l))) as [B|B]; cbn [andb]; [|apply hom_inner_between; exact L].
  split; [nra|]. intros _. nra.
Qed.

Section Exact.
Variable chol : mat -> option mat.
Variable slv : mat -> vec -> option vec.
Variables (lb ub : nat -> xR) (free : list nat) (Hf : mat) (gf s : vec).
Notation m := (length free).
Notation trial := (hom_trial chol slv lb ub free Hf gf s).
Notation search := (hom_search chol slv lb ub free Hf gf s).
Notation states := (hom_states chol slv lb ub free Hf gf s).
Notation after := (after lb ub free s).
Notation cleared := (cleared lb ub free s).
Notation near_in := (near_in lb ub free s).
Notation touching := (touching lb ub free s).
Hypothesis CE : chol_exact m chol.
Hypothesis SE : slv_exact m slv.
Hypothesis SH : symmetric m Hf.

(** the state a successful trial leads to *)
Definition follows (st : hst) (out act : bool) (d : vec) (r : tres) : Prop :=
  (near_in d = true /\ touching d = true /\ r = TBreak (move lb ub free (after d) (vadd s (expand free (cleared d))))) \/
  ((near_in d && touching d)%bool = false /\
   let inside := inside_of lb ub free (after d) in
   let back := (h_back st || near_in d)%bool in
   let l := if inside then h_lower st else h_lam st in
   let u := if inside then h_lam st else h_upper st in
   (back = false /\ r = TNever) \/
   exists u' lam' iu il, r = TNext (mkh l u' lam' false back iu il) (negb inside) (if near_in d then false else act) /\
     (u' = u \/ (back = false /\ exists new, u <= new /\ u' = 2 * new)) /\
     ((exists new, lam' = hom_keep l u' new) \/ lam' = hom_inner l u')).

Lemma trial_cases st out act :
  ((h_hard st = true \/ ~ shift_pd m Hf (h_lam st)) /\
    trial st out act = TNext (mkh (h_lam st) (h_upper st) ((1 - / 2) * h_lam st + / 2 * h_upper st) false
      (h_back st) (h_uinit st) (h_linit st)) out act) \/
  (h_hard st = false /\ shift_pd m Hf (h_lam st) /\
    exists d, stationary m gf Hf (h_lam st) d /\ follows st out act d (trial st out act)).
Proof.
  unfold hom_trial. destruct (chol (shifted Hf (h_lam st))) as [U|] eqn:CU.
  2:{ left. split; [right; apply (chol_none m chol); assumption|reflexivity]. }
  destruct (h_hard st) eqn:HH; [left; split; [left; reflexivity|reflexivity]|]. right. split; [reflexivity|].
  split; [eapply chol_pd; eassumption|].
  pose proof (proj1 (CE _ (symmetric_shifted m Hf (h_lam st) SH)) U CU) as (UP & DN & SQ).
  assert (TT : triangle m (tr U)) by (apply triangle_tr; split; [right; exact UP|exact DN]).
  destruct (SE (tr U) gf TT) as (y & Ey & _). destruct (SE (fun i j => - U i j) y (neg_triangle m U UP DN)) as (d & Ed & _).
  rewrite Ey, Ed. exists d. split; [exact (chol_solution m chol slv Hf gf (h_lam st) U y d CE SE SH CU Ey Ed)|].
  fold (cleared d). fold (after d). cbv zeta. fold (near_in d). fold (touching d). fold (inside_of lb ub free (after d)).
  destruct (target _ _ _ _ _ _ _ _) as [k isu].
  unfold follows. cbv zeta. destruct (near_in d && touching d)%bool eqn:NT.
  { left. apply andb_true_iff in NT. destruct NT. split; [assumption|]. split; [assumption|reflexivity]. }
  right. split; [reflexivity|].
  destruct (negb (Reqb _ _)).
  { right. do 4 eexists. split; [reflexivity|]. split; [left; reflexivity|]. left. eexists. reflexivity. }
  destruct (SE (tr U) (unitv k) TT) as (w1 & E1 & _). destruct (SE (tr U) (cleared d) TT) as (w2 & E2 & _). rewrite E1, E2.
  destruct (Reqb _ 0).
  - destruct (Rltb _ _ && negb _)%bool eqn:B.
    + left. apply andb_true_iff in B. destruct B as [_ B]. apply negb_true_iff in B. split; [exact B|reflexivity].
    + right. do 4 eexists. split; [reflexivity|]. split; [left; reflexivity|]. right. reflexivity.
  - right. do 4 eexists. split; [reflexivity|]. split; [|left; eexists; reflexivity].
    match goal with |- context [if ?b then _ else _] => destruct b eqn:B end; [|left; reflexivity].
    right. apply andb_true_iff in B. destruct B as [B1 B2]. apply negb_true_iff in B1. split; [exact B1|]. rb. eexists. split; [exact B2|reflexivity].
Qed.

Lemma search_total left : forall i st out act, search left i st out act <> HomRaise.
Proof.
  induction left as [|k IH]; intros i st out act; cbn [hom_search]; (destruct (negb (negb act || out)); [discriminate|]);
    destruct (trial_cases st out act) as [(_ & ->)|(_ & _ & d & _ & [(_ & _ & ->)|(_ & [(_ & ->)|(u' & lam' & iu & il & -> & _)])])]; try discriminate; try apply IH.
Qed.

(** a start from the unconstrained solution *)
Variables (lam0 : R) (d0 : vec).
Hypothesis L0 : 0 <= lam0.
Hypothesis ST0 : stationary m gf Hf lam0 d0.
Hypothesis PS0 : shift_psd m Hf lam0.

Definition inv (st : hst) : Prop :=
  lam0 <= h_lower st <= h_lam st /\ h_lam st <= h_upper st /\
  (h_hard st = false -> shift_pd m Hf (h_lam st)) /\ (h_hard st = true -> h_lam st < h_upper st).

Lemma inv_next st out act st' out' act' : inv st -> trial st out act = TNext st' out' act' -> inv st'.
Proof.
  intros ((I1 & I2) & I3 & I4 & I5) E. destruct (trial_cases st out act) as [([HT|HT] & E')|(HF & PD & d & SD & F)].
  - rewrite E' in E. injection E as <- <- <-. specialize (I5 HT). unfold inv. cbn. repeat split; try lra; try discriminate.
    intros _. apply (pd_above m Hf lam0); [exact PS0|lra].
  - destruct (h_hard st) eqn:HH; [|exfalso; apply HT, I4; reflexivity].
    rewrite E' in E. injection E as <- <- <-. specialize (I5 eq_refl). unfold inv. cbn. repeat split; try lra; try discriminate.
    intros _. apply (pd_above m Hf lam0); [exact PS0|lra].
  - destruct F as [(_ & _ & F)|(_ & F)]; [rewrite F in E; discriminate|]. cbv zeta in F.
    destruct F as [(_ & F)|(u' & lam' & iu & il & F & U' & LM)]; [rewrite F in E; discriminate|].
    rewrite F in E. injection E as <- <- <-. clear F.
    set (ins := inside_of lb ub free (after d)) in *. set (l := if ins then h_lower st else h_lam st) in *.
    set (u := if ins then h_lam st else h_upper st) in *.
    assert (LU : lam0 <= l <= u) by (unfold l, u; destruct ins; lra).
    assert (LB : l = h_lam st \/ (l <= h_lam st /\ u = h_lam st)) by (unfold l, u; destruct ins; [right; split; [lra|reflexivity]|left; reflexivity]).
    clearbody l u. assert (UU : u <= u') by (destruct U' as [->|(_ & new & A & ->)]; lra).
    assert (B : l <= lam' <= u' /\ (l < u' -> l < lam')).
    { destruct LM as [(new & ->)| ->]; [apply hom_keep_between|apply hom_inner_between]; lra. }
    unfold inv. cbn. repeat split; try lra; try discriminate. intros _.
    destruct (Rlt_dec l u') as [LT|GE]; [apply (pd_above m Hf lam0); [exact PS0|lra]|].
    replace lam' with (h_lam st) by lra. exact PD.
Qed.

Lemma inv_states k : forall st out act st' out' act', inv st -> states k st out act = Some (st', out', act') -> inv st'.
Proof.
  induction k as [|k IH]; intros st out act st' out' act' I0 E; cbn [hom_states] in E; [injection E as <- <- <-; exact I0|].
  destruct (trial st out act) as [| | |st1 o1 a1] eqn:T; try discriminate. exact (IH _ _ _ _ _ _ (inv_next _ _ _ _ _ _ I0 T) E).
Qed.

(** the step of a trial is not longer than the unconstrained step *)
Lemma step_short lam d : lam0 <= lam -> shift_pd m Hf lam -> stationary m gf Hf lam d -> norm m d <= norm m d0.
Proof.
  intros L P S. destruct (Rlt_dec lam0 lam) as [LT|GE].
  - exact (secular_mono m gf Hf lam0 lam d0 d SH ST0 PS0 S (shift_pd_psd m Hf lam P) LT).
  - replace lam with lam0 in * by lra. right. apply norm_ext. exact (stationary_unique m gf Hf lam0 d d0 SH P S ST0).
Qed.

(** where a search that finds a step comes from *)
Lemma search_found left : forall i st out act s' j, inv st -> search left i st out act = HomBreak s' j ->
  exists lam d, lam0 <= lam /\ shift_pd m Hf lam /\ stationary m gf Hf lam d /\ near_in d = true /\ touching d = true /\
    s' = move lb ub free (after d) (vadd s (expand free (cleared d))).
Proof.
  induction left as [|k IH]; intros i st out act s' j I0 E; cbn [hom_search] in E;
    (destruct (negb (negb act || out)); [discriminate|]); destruct (trial st out act) as [|s1| |st' out' act'] eqn:T; try discriminate.
  1,2: injection E as <- <-; destruct (trial_cases st out act) as [(_ & X)|(_ & PD & d & SD & F)]; [rewrite X in T; discriminate|];
    destruct F as [(N & TT & X)|(_ & [(_ & X)|(u' & lam' & iu & il & X & _)])]; rewrite X in T; try discriminate; injection T as <-;
    exists (h_lam st), d; destruct I0 as ((I1 & I2) & _); repeat split; try assumption; lra.
  exact (IH _ _ _ _ _ _ (inv_next _ _ _ _ _ _ I0 T) E).
Qed.
End Exact.
