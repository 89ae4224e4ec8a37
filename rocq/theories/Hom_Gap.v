(** The bound Newton's iteration aims at is finite and not where the component is now. *)
From Coq Require Import Reals Lra Psatz Lia List Arith Bool.
From Verif Require Import RVec RBool Tri ProjGrad_Spec MS_Model MS_Spec MS_Proofs MS_More BC_Model BC_Spec BC_Proofs BC_More Hom_Model Hom_Spec Hom_Proofs Hom_More Hom_Len Hom_Next.
Import ListNotations.
Open Scope R_scope.

Section Gap.
Variable chol : mat -> option mat.
Variable slv : mat -> vec -> option vec.
Variables (n : nat) (lb ub : nat -> xR) (free : list nat) (Hf : mat) (gf s : vec).
Hypothesis FB : forall i, In i free -> (i < n)%nat.
Hypothesis W0 : in_bounds n lb ub vzero.
Hypothesis CL : clear_of lb ub free s.
Notation m := (length free).
Notation trial := (hom_trial chol slv lb ub free Hf gf s).
Notation after := (after lb ub free s).

Definition apart (isu : bool) (k : nat) : Prop := exists v, side isu (lb (nth k free 0%nat)) (ub (nth k free 0%nat)) = Fin v /\ v <> s (nth k free 0%nat).

Lemma over_apart d isu k : (k < m)%nat -> over isu (lb (nth k free 0%nat)) (ub (nth k free 0%nat)) (after d (nth k free 0%nat)) -> apart isu k.
Proof.
  intros Hk O. unfold apart. set (i := nth k free 0%nat) in *. assert (I : In i free) by (apply nth_In; exact Hk).
  pose proof (W0 i (FB i I)) as (L0 & U0). unfold vzero in L0, U0. pose proof (CL i I) as CI. pose proof eps_pos. pose proof tiny_pos.
  unfold after in O. rewrite (proj2 (memb_spec i free) I) in O. cbn [andb] in O.
  destruct (crit_zero lb ub (vadd s (expand free d)) i) eqn:CZ; [exfalso; destruct isu; cbn in O; tauto|].
  assert (NH : ~ held (lb i) (ub i) (vadd s (expand free d) i)) by (intros X; apply held_crit in X; congruence).
  unfold held in NH. set (x := vadd s (expand free d) i) in *. clearbody x.
  replace (1 / 10 ^ 5) with bc_eps in NH by (unfold bc_eps, Rdiv; ring). replace (1 / 10 ^ 10) with bc_tiny in NH by (unfold bc_tiny, Rdiv; ring).
  replace (-1 / 10 ^ 10) with (- bc_tiny) in NH by (unfold bc_tiny, Rdiv; ring).
  destruct isu; cbn [side over] in O |- *.
  - destruct (ub i) as [b| |] eqn:UB; cbn in O, U0, NH; try tauto. exists b. split; [reflexivity|]. intros E.
    destruct CI as [Z|(_ & Z)]; [|apply Z; rewrite E; reflexivity]. apply NH. right. lra.
  - destruct (lb i) as [b| |] eqn:LB; cbn in O, L0, NH; try tauto. exists b. split; [reflexivity|]. intros E.
    destruct CI as [Z|(Z & _)]; [|apply Z; rewrite E; reflexivity]. apply NH. left. lra.
Qed.

Definition aparts (st : hst) : Prop := forall k (isu : bool), In k (if isu then h_uinit st else h_linit st) -> apart isu k.

Lemma aparts_next st out act st' out' act' : aparts st -> trial st out act = TNext st' out' act' -> aparts st'.
Proof.
  intros AP E.
  assert (X : (h_uinit st' = h_uinit st /\ h_linit st' = h_linit st) \/ exists d, h_uinit st' = uinit' lb ub free st (after d) /\ h_linit st' = linit' lb ub free st (after d)).
  { revert E. unfold hom_trial. destruct (chol _) as [U|]; [|intros E; injection E as <- <- <-; left; split; reflexivity].
    destruct (h_hard st); [intros E; injection E as <- <- <-; left; split; reflexivity|].
    destruct (slv (tr U) gf) as [y|]; [|discriminate]. destruct (slv _ y) as [d|]; [|discriminate].
    fold (cleared lb ub free s d). fold (after d). cbv zeta. fold (uinit' lb ub free st (after d)). fold (linit' lb ub free st (after d)).
    destruct (target _ _ _ _ _ _ _ _) as [k isu]. destruct (_ && _)%bool; [discriminate|].
    destruct (negb (Reqb _ _)); [intros E; injection E as <- <- <-; right; exists d; split; reflexivity|].
    destruct (slv (tr U) (unitv k)) as [w1|]; [|discriminate]. destruct (slv (tr U) (cleared lb ub free s d)) as [w2|]; [|discriminate].
    destruct (Reqb _ 0); [destruct (_ && _)%bool; [discriminate|]|]; intros E; injection E as <- <- <-; right; exists d; split; reflexivity. }
  intros k isu I. destruct X as [(EU & EL)|(d & EU & EL)]; rewrite EU, EL in I; [exact (AP k isu I)|].
  destruct isu.
  - assert (J : In k (h_uinit st) \/ In k (out_u ub free (after d))).
    { revert I. unfold uinit'. destruct (out_u ub free (after d)), (out_l lb free (after d)); rewrite ?in_app_iff; tauto. }
    destruct J as [J|J]; [exact (AP k true J)|]. apply out_u_spec with (lb := lb) in J. destruct J as (Hk & O). exact (over_apart d true k Hk O).
  - assert (J : In k (h_linit st) \/ In k (out_l lb free (after d))).
    { revert I. unfold linit'. destruct (out_u ub free (after d)), (out_l lb free (after d)); rewrite ?in_app_iff; tauto. }
    destruct J as [J|J]; [exact (AP k false J)|]. apply out_l_spec with (ub := ub) in J. destruct J as (Hk & O). exact (over_apart d false k Hk O).
Qed.
Lemma aparts_states k : forall st out act st' out' act', aparts st ->
  hom_states chol slv lb ub free Hf gf s k st out act = Some (st', out', act') -> aparts st'.
Proof.
  induction k as [|k IH]; intros st out act st' out' act' I0 E; cbn [hom_states] in E; [injection E as <- <- <-; exact I0|].
  destruct (trial st out act) as [| | |st1 o1 a1] eqn:T; try discriminate. exact (IH _ _ _ _ _ _ (aparts_next _ _ _ _ _ _ I0 T) E).
Qed.
Lemma aparts_start g H lam hard sa : room lb ub free s sa -> aparts (hom_start lb ub free s n g H lam hard sa).
Proof.
  intros RM k isu I. unfold hom_start in I. cbn [h_uinit h_linit] in I. unfold apart.
  destruct isu; [apply out_u_spec with (lb := lb) in I|apply out_l_spec with (ub := ub) in I]; destruct I as (Hk & O); cbn [side over] in *;
    set (i := nth k free 0%nat) in *; assert (II : In i free) by (apply nth_In; exact Hk); pose proof (W0 i (FB i II)) as (L0 & U0); unfold vzero in L0, U0; destruct (RM i II) as (R1 & R2).
  - specialize (R2 O). destruct (ub i) as [b| |]; cbn in O, U0; try tauto. exists b. split; [reflexivity|]. intros E. apply R2. rewrite E. reflexivity.
  - specialize (R1 O). destruct (lb i) as [b| |]; cbn in O, L0; try tauto. exists b. split; [reflexivity|]. intros E. apply R1. rewrite E. reflexivity.
Qed.
End Gap.
