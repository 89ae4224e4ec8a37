(** One free variable with an upper bound in the way: at most two trials. *)
From Coq Require Import Reals Lra Psatz Lia List Arith Bool.
From Verif Require Import RVec RBool Tri ProjGrad_Spec MS_Model MS_Spec MS_Proofs MS_More BC_Model BC_Spec BC_Proofs BC_More Hom_Model Hom_Spec Hom_Proofs Hom_More Hom_Len Hom_Next.
Import ListNotations.
Open Scope R_scope.

Lemma search_step chol slv lb ub free Hf gf s left i st act :
  hom_search chol slv lb ub free Hf gf s (S left) i st true act =
  match hom_trial chol slv lb ub free Hf gf s st true act with
  | TRaise => HomRaise | TBreak s' => HomBreak s' (S i) | TNever => HomLimit (i + S left + 1)
  | TNext st' out' act' => hom_search chol slv lb ub free Hf gf s left (S i) st' out' act'
  end.
Proof. cbn [hom_search]. rewrite orb_true_r. reflexivity. Qed.

Section One.
Variable ms : nat -> nat -> vec -> mat -> R -> option ms_out.
Variable chol : nat -> mat -> option mat.
Variable slv : nat -> mat -> vec -> option vec.
Variables (n : nat) (H : mat) (lb ub : nat -> xR) (i : nat) (s g : vec) (Delta eps b : R) (c : nat) (o : ms_out).
Hypothesis CE : forall k, chol_exact k (chol k).
Hypothesis SE : forall k, slv_exact k (slv k).
Hypothesis SH : symmetric n H.
Hypothesis Hi : (i < n)%nat.
Hypothesis WS : in_bounds n lb ub s.
Hypothesis UB : ub i = Fin b.
Hypothesis BT : bc_tiny < b.
Hypothesis LB : ~ rle_x (b - 2 * bc_eps) (lb i).
Hypothesis MSO : ms c 1 (sub_vec [i] g) (sub_mat [i] H) Delta = Some o.
Hypothesis AS : answer_sound 1 (sub_vec [i] g) (sub_mat [i] H) Delta eps o.
Hypothesis NH : ms_hard o = false.
Hypothesis GAP : s i < b.
Notation sa := (vadd s (expand [i] (ms_s o))).
Hypothesis OUT : b < sa i.
Notation upper := (Rmax 0 (norm n g / (b - s i) + ms_hn n H)).
Notation new := (Rabs (g i) / (b - s i) - H i i).
Notation upper' := (if Rleb upper new then 2 * new else upper).
Hypothesis OK : ms_lambda o + 1 / 10 ^ 13 * (upper' - ms_lambda o) < new <= upper' - 1 / 10 ^ 13 * (upper' - ms_lambda o).

Lemma ND1 : NoDup [i].
Proof. constructor; [intros []|constructor]. Qed.
Lemma FB1 j : In j [i] -> (j < n)%nat.
Proof. intros [<-|[]]. exact Hi. Qed.
Lemma SS1 : symmetric 1 (sub_mat [i] H).
Proof. exact (sub_sym n H [i] SH FB1). Qed.
Lemma at_i d : vadd s (expand [i] d) i = s i + d 0%nat.
Proof. unfold vadd. rewrite (expand_at [i] d 0 ND1 (Nat.lt_0_1) : expand [i] d i = d 0%nat). reflexivity. Qed.

Lemma low_i x : b - bc_eps <= x -> xle_r (lb i) x /\ xabs_le (xsub (lb i) x) bc_eps = false /\ (rle_x (x - bc_eps) (lb i) -> False).
Proof.
  intros X. pose proof (WS i Hi) as W. pose proof eps_pos. destruct (lb i) as [a| |]; cbn in LB, W |- *; try tauto.
  split; [lra|]. split; [apply Rleb_false; rewrite Rabs_left by lra; lra|lra].
Qed.

Lemma free_point x d : d 0%nat = x - s i -> b <= x ->
  after lb ub [i] s d i = x /\ cleared lb ub [i] s d 0%nat = d 0%nat /\ ~ held (lb i) (ub i) (vadd s (expand [i] d) i).
Proof.
  intros D X. assert (E : vadd s (expand [i] d) i = x) by (rewrite at_i, D; ring). pose proof eps_pos as EP. pose proof tiny_pos.
  assert (NHD : ~ held (lb i) (ub i) (vadd s (expand [i] d) i)).
  { rewrite E, UB. unfold held. replace (1 / 10 ^ 5) with bc_eps by (unfold bc_eps, Rdiv; ring). replace (1 / 10 ^ 10) with bc_tiny by (unfold bc_tiny, Rdiv; ring).
    intros [(_ & A)|(A & _)]; [exact (proj2 (proj2 (low_i x ltac:(lra))) A)|cbn in A; lra]. }
  assert (CZ : crit_zero lb ub (vadd s (expand [i] d)) i = false).
  { destruct (crit_zero lb ub (vadd s (expand [i] d)) i) eqn:Z; [|reflexivity]. exfalso. apply NHD. apply (proj2 (held_crit lb ub (vadd s (expand [i] d)) i)). exact Z. }
  split; [|split; [|exact NHD]].
  - unfold after. rewrite CZ, andb_false_r. exact E.
  - unfold cleared. change (nth 0 [i] 0%nat) with i. rewrite CZ. reflexivity.
Qed.

(** a trial with the component at most 1e-5 beyond the bound ends the search at the bound *)
Lemma free_break x d : d 0%nat = x - s i -> b <= x <= b + bc_eps ->
  near_in lb ub [i] s d = true /\ touching lb ub [i] s d = true /\
  move lb ub [i] (after lb ub [i] s d) (vadd s (expand [i] (cleared lb ub [i] s d))) i = b.
Proof.
  intros D X. pose proof eps_pos as EP. destruct (free_point x d D (proj1 X)) as (A & _). destruct (low_i x ltac:(lra)) as (L1 & L2 & _).
  assert (UA : xabs_le (xsub (ub i) x) bc_eps = true).
  { rewrite UB. cbn. apply Rleb_true. rewrite Rabs_left1 by lra. lra. }
  split; [|split].
  - unfold near_in. cbn [existsb]. rewrite orb_false_r. apply negb_true_iff, outr. rewrite A, UB. cbn.
    split; [|lra]. destruct (low_i (x + bc_eps) ltac:(lra)) as (L3 & _). exact L3.
  - unfold touching. cbn [existsb]. unfold u_act, near. rewrite A, UA. reflexivity.
  - unfold move. cbn [memb existsb]. rewrite Nat.eqb_refl. cbn [orb]. unfold l_act, u_act, near. rewrite A, L2, UA, UB. reflexivity.
Qed.

Lemma t_one : exists s' j, search_of ms chol slv n H lb ub c [i] s g sa Delta = HomBreak s' j /\ (j <= 2)%nat /\ s' i = b.
Proof.
  pose proof eps_pos as EP. pose proof ND1 as ND. pose proof FB1 as FB. pose proof SS1 as SS.
  set (a := H i i) in *. set (lam := ms_lambda o) in *. set (del := b - s i) in *. assert (DP : 0 < del) by (unfold del; lra).
  assert (SAI : sa i = s i + ms_s o 0%nat) by apply at_i.
  assert (OX : existsb (out_by lb ub 0 sa) [i] = true).
  { cbn [existsb]. rewrite orb_false_r. destruct (out_by lb ub 0 sa i) eqn:Z; [reflexivity|]. apply out0 in Z. rewrite UB in Z. cbn in Z. lra. }
  assert (RM : room lb ub [i] s sa).
  { intros j [<-|[]]. split; intros X E; [|rewrite UB in E; injection E; lra]. apply X. apply (proj1 (low_i (sa i) ltac:(lra))). }
  destruct (sound_start ms n H lb ub SH [i] s g Delta eps c o sa ND FB WS AS eq_refl OX RM MSO) as (L0 & S0 & P0 & I0). fold lam in L0, S0, P0, I0.
  assert (AL : 0 < a + lam).
  { destruct I0 as (_ & _ & PD & _). cbn [hom_start h_hard h_lam] in PD. specialize (PD NH). specialize (PD (fun _ => 1)).
    unfold quad, dot, mv, sub_mat in PD. cbn in PD. fold a in PD. enough (0 < 0 + 1 * (0 + a * 1) + lam * (0 + 1 * 1)) by lra. apply PD.
    intros Z. specialize (Z 0%nat (Nat.lt_0_1)). unfold vzero in Z. lra. }
  assert (SOLVE : forall mu d, stationary 1 (sub_vec [i] g) (sub_mat [i] H) mu d -> (a + mu) * d 0%nat = - g i).
  { intros mu d S. specialize (S 0%nat (Nat.lt_0_1)). unfold mv, sub_mat, sub_vec in S. cbn in S. fold a in S. lra. }
  pose proof (SOLVE lam (ms_s o) S0) as SD0. assert (D0P : del < ms_s o 0%nat) by (unfold del; lra).
  assert (GN : g i < 0) by nra.
  assert (NEWLT : lam < new).
  { rewrite (Rabs_left (g i)) by exact GN. fold del. fold a. apply (Rmult_lt_reg_r del); [exact DP|]. unfold Rminus, Rdiv. rewrite Rmult_plus_distr_r, Rmult_assoc, Rinv_l by lra. nra. }
  assert (NEWEQ : (a + new) * del = - g i).
  { rewrite (Rabs_left (g i)) by exact GN. fold del. fold a. field. lra. }
  unfold search_of. cbn [length]. rewrite MSO. fold lam. rewrite NH in *.
  set (st0 := hom_start lb ub [i] s n g H lam false sa) in *.
  pose proof (listed_start lb ub [i] s n g H lam false sa OX) as LS0. fold st0 in LS0.
  assert (DELTA : hom_delta lb ub [i] s sa = del).
  { unfold hom_delta, out_u, out_l, comp. cbn [length seq filter nth]. rewrite UB. cbn [rlex].
    rewrite (proj2 (Rleb_false _ _) OUT). cbn [negb]. rewrite (proj2 (xler_true (sa i) (lb i))) by (apply (proj1 (low_i (sa i) ltac:(lra)))).
    cbn [negb]. unfold argmin_in, gap_u, comp. cbn [hd tl arg_max nth]. rewrite UB. cbn [xval]. apply Rabs_pos_eq. unfold del in *. lra. }
  assert (UP0 : h_upper st0 = upper) by (unfold st0, hom_start; cbn [h_upper]; rewrite DELTA; reflexivity).
  generalize (existsb (fun j => u_act ub sa j || l_act lb sa j)%bool [i]). intros act.
  rewrite search_step. destruct (trial_cases (chol 1%nat) (slv 1%nat) lb ub [i] (sub_mat [i] H) (sub_vec [i] g) s (CE 1%nat) (SE 1%nat) SS st0 true act)
    as [([X|X] & _)|(_ & PD0 & d & SD & F)]; [discriminate|exfalso; apply X; apply (proj1 (proj2 (proj2 I0))); reflexivity|].
  pose proof (SOLVE _ _ SD) as SD1. change (h_lam st0) with lam in SD1, SD, PD0.
  assert (DE : d 0%nat = ms_s o 0%nat) by nra.
  destruct (free_point (sa i) d ltac:(rewrite DE, SAI; ring) ltac:(lra)) as (AF & CL & NHD).
  destruct F as [(N & T & ->)|(NT & F)].
  { eexists. exists 1%nat. split; [reflexivity|]. split; [lia|].
    unfold near_in in N. apply negb_true_iff in N. cbn [existsb] in N. rewrite orb_false_r in N. apply outr in N. rewrite AF, UB in N. cbn in N.
    apply (free_break (sa i)); [rewrite DE, SAI; ring|lra]. }
  assert (FAR : b + bc_eps < sa i).
  { apply Rnot_le_lt. intros L. destruct (free_break (sa i) d ltac:(rewrite DE, SAI; ring) ltac:(lra)) as (A & B & _). rewrite A, B in NT. discriminate. }
  assert (NI : near_in lb ub [i] s d = false).
  { destruct (near_in lb ub [i] s d) eqn:N; [|reflexivity]. unfold near_in in N. apply negb_true_iff in N. cbn [existsb] in N. rewrite orb_false_r in N.
    apply outr in N. rewrite AF, UB in N. cbn in N. lra. }
  cbv zeta in F. rewrite NI in F. destruct F as [(_ & TN)|(u' & lam' & iu & il & TN & _)].
  { exfalso. destruct (trial_never (chol 1%nat) (slv 1%nat) lb ub [i] (sub_mat [i] H) (sub_vec [i] g) s (CE 1%nat) (SE 1%nat) SS st0 true act (proj1 LS0) (proj2 LS0) TN)
      as (_ & _ & d1 & q & k & isu & S1 & Q1 & Hk & GB & QZ).
    cbn [length] in Hk. assert (k = 0)%nat by lia. subst k. specialize (Q1 0%nat (Nat.lt_0_1)).
    unfold mv, sub_mat in Q1. cbn in Q1. rewrite QZ in Q1. rewrite <- Q1 in GB.
    match type of GB with ?x < Rabs ?y => replace y with 0 in GB by ring; rewrite Rabs_R0 in GB; pose proof (Rabs_pos (xval (side isu (lb i) (ub i)) - s i)); cbn [nth] in GB; lra end. }
  rewrite TN. destruct (trial_value (chol 1%nat) (slv 1%nat) lb ub [i] (sub_mat [i] H) (sub_vec [i] g) s (CE 1%nat) (SE 1%nat) SS st0 true act _ _ _
    ltac:(destruct I0 as ((Y1 & Y2) & _); lra) ltac:(destruct I0 as (_ & Y & _); exact Y) (proj1 LS0) (proj2 LS0) TN)
    as [([X|X] & _)|(_ & _ & _ & d1 & dp & y & q & k & isu & S1 & CLR & Q1 & Hk & CS & V)]; [discriminate|contradiction|].
  cbn [length] in Hk. assert (k = 0)%nat by lia. subst k. pose proof (SOLVE _ _ S1) as SD2. change (h_lam st0) with lam in SD2.
  assert (D1 : d1 0%nat = ms_s o 0%nat) by nra.
  destruct (free_point (sa i) d1 ltac:(rewrite D1, SAI; ring) ltac:(lra)) as (_ & _ & NHD1).
  specialize (CLR 0%nat (Nat.lt_0_1)). cbn [nth] in CLR. destruct CLR as [(X & _)|(_ & DP0 & YI)]; [contradiction|].
  rewrite at_i, D1, <- SAI in YI. rewrite D1 in DP0. cbn [nth] in CS, V.
  assert (OVT : over true (lb i) (ub i) (y i)) by (rewrite YI, UB; cbn; lra).
  assert (ISU : isu = true /\ negb (inside_of lb ub [i] (after lb ub [i] s d)) = true /\ (if inside_of lb ub [i] (after lb ub [i] s d) then h_lower st0 else h_lam st0) = lam).
  { destruct CS as [(_ & O1 & LO & OV & _)|(X & _)]; [|exfalso; exact (X 0%nat true (Nat.lt_0_1) OVT)].
    split; [|split; [exact O1|exact LO]]. destruct isu; [reflexivity|]. exfalso. apply OV. rewrite YI. exact (proj1 (low_i (sa i) ltac:(lra))). }
  destruct ISU as (-> & OB & LO). cbv zeta in V. rewrite OB in *. cbn [h_lower h_upper h_lam h_back] in V. rewrite LO in V.
  change (h_back st0) with false in V. cbn [orb negb andb] in V. rewrite UP0 in V. change (h_lam st0) with lam in V.
  unfold side in V. rewrite UB in V. cbn [xval] in V. fold del in V. rewrite DP0 in V.
  assert (QE : (a + lam) * q 0%nat = ms_s o 0%nat).
  { specialize (Q1 0%nat (Nat.lt_0_1)). unfold mv, sub_mat in Q1. cbn in Q1. fold a lam in Q1. rewrite DP0 in Q1. lra. }
  set (D := ms_s o 0%nat) in *. assert (QP : 0 < q 0%nat) by nra.
  assert (NV : lam + (Rabs D - Rabs del) / Rabs del * (Rabs D ^ 2 / (D * q 0%nat)) = new).
  { rewrite !Rabs_pos_eq by lra. rewrite (Rabs_left (g i)) by exact GN. fold del. fold a.
    assert (QV : q 0%nat = D / (a + lam)) by (rewrite <- QE; field; lra). rewrite QV.
    transitivity (((a + lam) * D) / del - a); [field; repeat split; lra|]. rewrite SD0. reflexivity. }
  rewrite NV in V. assert (NOP : ~ opposed D del) by (intros X; apply X; left; lra).
  destruct V as [(X & _)|[(_ & _ & UE & SG)|(_ & X & _)]]; [contradiction| |exfalso; nra].
  subst u'. assert (LE : lam' = new).
  { destruct SG as [(_ & E)|(X & _)]; [exact E|]. exfalso. apply X. exact OK. }
  subst lam'. rewrite LO in *.
  match goal with |- context [hom_search _ _ _ _ _ _ _ _ 98 1 ?st true ?ac] => set (st1 := st); set (act1 := ac) end.
  change 98%nat with (S 97). rewrite search_step.
  assert (PD1 : shift_pd 1 (sub_mat [i] H) new) by (apply (pd_above 1 _ lam); [exact P0|exact NEWLT]).
  destruct (trial_cases (chol 1%nat) (slv 1%nat) lb ub [i] (sub_mat [i] H) (sub_vec [i] g) s (CE 1%nat) (SE 1%nat) SS st1 true act1)
    as [([X|X] & _)|(_ & _ & d2 & SD3 & F)]; [discriminate|contradiction|].
  pose proof (SOLVE _ _ SD3) as SD4. change (h_lam st1) with new in SD4.
  assert (D2 : d2 0%nat = b - s i) by (fold del; nra).
  destruct (free_break b d2 D2 ltac:(lra)) as (A & B & M).
  destruct F as [(_ & _ & ->)|(X & _)]; [|rewrite A, B in X; discriminate].
  eexists. exists 2%nat. split; [reflexivity|]. split; [lia|exact M].
Qed.
End One.
