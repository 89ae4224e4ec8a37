(** Instances for the theorems about the bound-constrained trust-region solver. *)
From Coq Require Import Reals Lra Psatz Lia List Arith Bool.
From Verif Require Import RVec RBool Tri ProjGrad_Spec MS_Model MS_Spec MS_Proofs MS_Wit Chol BC_Model BC_Spec BC_Proofs BC_More.
Import ListNotations.
Open Scope R_scope.

Definition eigx (_ : nat) (_ : mat) : mat * vec := (idm, vzero).
Lemma eigx_ok k A i : (i < k)%nat -> 0 < norm k (fun j => fst (eigx k A) j i).
Proof.
  intros Hi. apply Rlt_le_trans with 1; [lra|]. right. symmetry. unfold norm. transitivity (sqrt 1); [|apply sqrt_1].
  f_equal. exact (eq_trans (idm_orth k i i Hi Hi) ltac:(unfold idm; rewrite Nat.eqb_refl; reflexivity)).
Qed.
Lemma msx_bounded eps : 0 <= eps -> ms_bounded (ms_of cholx slvx eigx eps) eps.
Proof. intros HE. apply ms_of_bounded; [exact HE|exact cholx_exact|exact slvx_exact|exact eigx_ok]. Qed.

Lemma e5 : 0 < bc_eps <= / 10.
Proof.
  split; [apply eps_pos|]. unfold bc_eps. apply Rinv_le_contravar; [lra|]. replace 10 with (10 ^ 1) at 1 by ring.
  apply Rle_pow; [lra|lia].
Qed.
Lemma e10 : 0 < bc_tiny <= / 10.
Proof. pose proof tiny_pos. pose proof tiny_eps. pose proof e5. lra. Qed.

(** decide comparisons of numbers *)
Ltac num := repeat (match goal with
  | |- context [Rltb ?x ?y] => first [rewrite (proj2 (Rltb_true x y)) by lra | rewrite (proj2 (Rltb_false x y)) by lra]
  | |- context [Rleb ?x ?y] => first [rewrite (proj2 (Rleb_true x y)) by lra | rewrite (proj2 (Rleb_false x y)) by lra]
  end).

(** the homotopy ends at once *)
Lemma hom_first hom lb ub left i pass free s act d :
  let s1 := vadd s (expand free d) in
  let sd := fun i => if (memb i free && crit_zero lb ub s1 i)%bool then 0 else s1 i in
  hom pass (S i) free s = HStep d -> existsb (out_by lb ub bc_eps sd) free = false ->
  existsb (fun i => u_act ub sd i || l_act lb sd i)%bool free = true ->
  hom_loop hom lb ub left i pass free s true act =
    HomBreak (move lb ub free sd (vadd s (expand free (fun k => if crit_zero lb ub s1 (nth k free 0%nat) then 0 else d k)))) (S i).
Proof.
  cbv zeta. intros E O A. destruct left; cbn [hom_loop]; rewrite orb_true_r, E; cbn [negb]; rewrite O; cbn [negb]; rewrite A; reflexivity.
Qed.
(** it ends with the limit if nothing works *)
Lemma hom_fails lb ub hom left i pass free s act : (forall j, hom pass j free s = HFail) ->
  hom_loop hom lb ub left i pass free s true act = HomLimit (i + left + 1).
Proof.
  intros F. revert i. induction left as [|k IH]; intros i; cbn [hom_loop]; rewrite orb_true_r, F; cbn [negb].
  - f_equal. lia.
  - rewrite IH. f_equal. lia.
Qed.

(** one variable: -100 <= s <= 1/2, radius 1; the homotopy answers -100 *)
Definition lo1 : nat -> xR := fun _ => Fin (-100).
Definition hi1 : nat -> xR := fun _ => Fin (/ 2).
Definition ms1 (_ _ : nat) (_ : vec) (_ : mat) (D : R) : option (vec * vec) := Some (c D, vzero).
Definition hom1 (_ _ : nat) (_ : list nat) (_ : vec) : hans := HStep (c (-100)).

Lemma ms1_bounded : ms_bounded (fun j k g A D => if (k =? 1)%nat then ms1 j k g A D else None) 0.
Proof.
  intros j k g A D d gp _ HD E. destruct (Nat.eqb_spec k 1) as [->|]; [|discriminate]. injection E as <- <-.
  rewrite norm_c. unfold c. rewrite Rabs_pos_eq by exact HD. lra.
Qed.

Lemma ex1 d : expand [0%nat] d 0%nat = d 0%nat.
Proof. unfold expand. cbn. ring. Qed.

Lemma far_case : exists o,
  solve_bc (fun j k g A D => if (k =? 1)%nat then ms1 j k g A D else None) hom1 1 (m1 0) lo1 hi1 (c (-1)) 1 = Some (Some o) /\
  bc_end o = BcError7 /\ norm 1 (bc_s o) = 100.
Proof.
  pose proof e5. pose proof e10.
  assert (GC : filter (g_crit lo1 hi1 (c (-1))) (seq 0 1) = []).
  { cbn [seq filter]. unfold g_crit, c, lo1, hi1, xabs_le, xler. rewrite (Rabs_left (-100)) by lra. num. reflexivity. }
  unfold solve_bc. rewrite GC. change (complement 1 []) with [0%nat]. cbn [bc_outer length].
  set (sa := vadd vzero (expand [0%nat] (c 1))).
  assert (SA : sa 0%nat = 1) by (unfold sa, vadd, vzero; rewrite ex1; unfold c; ring).
  assert (CALL : ms_calls (fun j k g A D => if (k =? 1)%nat then ms1 j k g A D else None) 1 (m1 0) lo1 hi1 1 0 vzero (c (-1)) 1 (c (-1)) [] [0%nat] =
     CGo [] [0%nat] sa (vadd (c (-1)) (expand [0%nat] vzero)) 1).
  { cbn [ms_calls length Nat.eqb ms1]. fold sa.
    assert (F1 : u_crit hi1 sa 0%nat = false).
    { unfold u_crit, above, hi1, xsub, xler. rewrite SA. num. reflexivity. }
    assert (F2 : l_crit lo1 sa 0%nat = false).
    { unfold l_crit, below, lo1, rlex. rewrite SA. num. reflexivity. }
    cbn [filter]. rewrite F1, F2. reflexivity. }
  rewrite CALL.
  assert (OUT : existsb (out_by lo1 hi1 0 sa) [0%nat] = true).
  { cbn [existsb]. unfold out_by, lo1, hi1, rlex, xler. rewrite SA. num. reflexivity. }
  rewrite OUT.
  set (s1 := vadd vzero (expand [0%nat] (c (-100)))).
  assert (S1 : s1 0%nat = -100) by (unfold s1, vadd, vzero; rewrite ex1; unfold c; ring).
  assert (CZ : crit_zero lo1 hi1 s1 0%nat = false).
  { unfold crit_zero, u_crit, l_crit, above, below, lo1, hi1, xsub, xler, rlex. rewrite S1. num. reflexivity. }
  assert (HOM : exists s', hom_loop hom1 lo1 hi1 99 0 1 [0%nat] vzero true (existsb (fun i => u_act hi1 sa i || l_act lo1 sa i)%bool [0%nat]) = HomBreak s' 1 /\ s' 0%nat = -100).
  { 
    set (sd := fun i => if (memb i [0%nat] && crit_zero lo1 hi1 s1 i)%bool then 0 else s1 i).
    assert (SD : sd 0%nat = -100) by (unfold sd; rewrite CZ, andb_false_r; exact S1).
    assert (O : existsb (out_by lo1 hi1 bc_eps sd) [0%nat] = false).
    { cbn [existsb]. unfold out_by, lo1, hi1, rlex, xler. rewrite SD. num. reflexivity. }
    assert (A : existsb (fun i => u_act hi1 sd i || l_act lo1 sd i)%bool [0%nat] = true).
    { cbn [existsb]. unfold l_act, near, lo1, xsub, xabs_le. rewrite SD. replace (-100 - -100) with 0 by ring. rewrite Rabs_R0. num.
      rewrite orb_true_r. reflexivity. }
    rewrite (hom_first hom1 lo1 hi1 99 0 1 [0%nat] vzero _ (c (-100)) eq_refl O A). eexists. split; [reflexivity|].
    fold s1. fold sd. unfold move. cbn [memb existsb Nat.eqb orb]. unfold l_act, near, lo1, xsub, xabs_le. rewrite SD.
    replace (-100 - -100) with 0 by ring. rewrite Rabs_R0. num. reflexivity. }
  destruct HOM as (s' & -> & S'). 
  assert (N : norm 1 s' = 100) by (rewrite norm_c, S', Rabs_left by lra; ring).
  rewrite N. num. eexists. split; [reflexivity|]. cbn [bc_end bc_s]. split; [reflexivity|exact N].
Qed.

(** one variable, Newton step -1 inside: the gradient reported is that at the start *)
Definition lo2 : nat -> xR := fun _ => Fin (-10).
Definition hi2 : nat -> xR := fun _ => PInf.
Definition msn (_ k : nat) (g : vec) (A : mat) (D : R) : option (vec * vec) :=
  match solve_MS chol1 slv1 idm (c 1) k g A D (/ 10000) with Some o => Some (ms_s o, ms_gplus o) | None => None end.
Lemma grad_case hom : exists o, solve_bc msn hom 1 (m1 1) lo2 hi2 (c 1) 2 = Some (Some o) /\
  bc_end o = BcInterior /\ bc_s o 0%nat = -1 /\ bc_gplus o 0%nat = 1.
Proof.
  pose proof e5. pose proof e10.
  assert (GC : filter (g_crit lo2 hi2 (c 1)) (seq 0 1) = []).
  { cbn [seq filter]. unfold g_crit, c, lo2, hi2, xabs_le, xler. rewrite (Rabs_left (-10)) by lra. num. reflexivity. }
  destruct newton_case as (m & EM & VM & _ & _ & HM). pose proof (VM 0%nat ltac:(lia)) as M0. unfold c in M0.
  assert (GP : ms_gplus m 0%nat = 0).
  { pose proof (fun h1 h2 h3 h4 h5 => t_regular chol1 slv1 idm (c 1) 1 (c 1) (m1 1) 2 (/ 10000) m h1 h2 h3 h4 h5 EM HM) as TR.
    destruct (TR chol1_exact slv1_exact (sym1 _) ltac:(lra)) as (_ & _ & _ & _ & _ & _ & _ & ->).
    - rewrite norm_c. unfold c. rewrite Rabs_R1, pow1. apply tiny_le.
    - unfold vadd, mv, c, m1. cbn. rewrite M0. ring. }
  unfold solve_bc. rewrite GC. change (complement 1 []) with [0%nat]. cbn [bc_outer length].
  set (sa := vadd vzero (expand [0%nat] (ms_s m))).
  assert (SA : sa 0%nat = -1) by (unfold sa, vadd, vzero; rewrite ex1, M0; ring).
  assert (CALL : ms_calls msn 1 (m1 1) lo2 hi2 1 0 vzero (c 1) 2 (c 1) [] [0%nat] =
     CGo [] [0%nat] sa (vadd (c 1) (expand [0%nat] (ms_gplus m))) 1).
  { cbn [ms_calls length]. unfold msn at 1.
    change (solve_MS chol1 slv1 idm (c 1) 1 (sub_vec [0%nat] (c 1)) (sub_mat [0%nat] (m1 1)) 2 (/ 10000)) with newton_out.
    rewrite EM. fold sa.
    assert (F1 : u_crit hi2 sa 0%nat = false) by reflexivity.
    assert (F2 : l_crit lo2 sa 0%nat = false).
    { unfold l_crit, below, lo2, rlex. rewrite SA. num. reflexivity. }
    cbn [filter]. rewrite F1, F2. reflexivity. }
  rewrite CALL.
  assert (OUT : existsb (out_by lo2 hi2 0 sa) [0%nat] = false).
  { cbn [existsb]. unfold out_by, lo2, hi2, rlex, xler. rewrite SA. num. reflexivity. }
  rewrite OUT. eexists. split; [reflexivity|]. cbn [bc_end bc_s bc_gplus]. split; [reflexivity|]. split; [exact SA|].
  unfold vadd. rewrite ex1, GP. unfold c. ring.
Qed.

(** two variables in [-1,1], radius 10: the first pass moves the first variable to its
    bound, the second pass runs into the limit *)
Definition lo3 : nat -> xR := fun _ => Fin (-1).
Definition hi3 : nat -> xR := fun _ => Fin 1.
Definition first2 : vec := fun i => if (i =? 0)%nat then 2 else 0.
Definition first1 : vec := fun i => if (i =? 0)%nat then 1 else 0.
Definition ms3 (_ _ : nat) (_ : vec) (_ : mat) (_ : R) : option (vec * vec) := Some (first2, vzero).
Definition hom3 (pass _ : nat) (_ : list nat) (_ : vec) : hans := match pass with 1%nat => HStep first1 | _ => HFail end.

Lemma stale_case : exists o, solve_bc ms3 hom3 2 (m1 0) lo3 hi3 (c (-1)) 10 = Some (Some o) /\
  bc_end o = BcLimit /\ bc_s o = vzero /\ bc_value o = -1.
Proof.
  pose proof e5. pose proof e10.
  assert (GCi : forall i, g_crit lo3 hi3 (c (-1)) i = false).
  { intros i. unfold g_crit, c, lo3, hi3, xabs_le, xler. num. reflexivity. }
  assert (UC : forall s i, u_crit hi3 s i = false).
  { intros s i. unfold u_crit, hi3, xler. num. apply andb_false_r. }
  assert (LC : forall s i, l_crit lo3 s i = false).
  { intros s i. unfold l_crit, lo3, rlex. num. apply andb_false_r. }
  assert (CZ : forall s i, crit_zero lo3 hi3 s i = false) by (intros; unfold crit_zero; rewrite UC, LC; reflexivity).
  unfold solve_bc.
  assert (GC : filter (g_crit lo3 hi3 (c (-1))) (seq 0 2) = []) by (cbn [seq filter]; rewrite !GCi; reflexivity).
  rewrite GC. change (complement 2 []) with [0%nat; 1%nat].
  assert (CALL : forall c0 s D gp a f, ms_calls ms3 2 (m1 0) lo3 hi3 (length f) c0 s (c (-1)) D gp a f =
     match length f with O => CFuel | S _ => CGo a f (vadd s (expand f first2)) (vadd gp (expand f vzero)) (S c0) end).
  { intros c0 s D gp a f. destruct (length f) eqn:L; [reflexivity|]. cbn [ms_calls ms3].
    assert (F1 : forall s f, filter (u_crit hi3 s) f = []) by (intros s0; induction f0 as [|x f0 IH]; cbn; [|rewrite UC]; auto).
    assert (F2 : forall s f, filter (l_crit lo3 s) f = []) by (intros s0; induction f0 as [|x f0 IH]; cbn; [|rewrite LC]; auto).
    rewrite F1, F2. reflexivity. }
  cbn [bc_outer]. rewrite CALL. cbn [length].
  set (sa := vadd vzero (expand [0%nat; 1%nat] first2)).
  assert (SA : sa 0%nat = 2) by (unfold sa, vadd, vzero, expand, first2, idm; cbn; ring).
  assert (OUT : existsb (out_by lo3 hi3 0 sa) [0%nat; 1%nat] = true).
  { cbn [existsb]. unfold out_by at 1, lo3, hi3, rlex, xler. rewrite SA. num. reflexivity. }
  rewrite OUT.
  set (s1 := vadd vzero (expand [0%nat; 1%nat] first1)).
  assert (S10 : s1 0%nat = 1) by (unfold s1, vadd, vzero, expand, first1, idm; cbn; ring).
  assert (S11 : s1 1%nat = 0) by (unfold s1, vadd, vzero, expand, first1, idm; cbn; ring).
  set (sd := fun i => if (memb i [0%nat; 1%nat] && crit_zero lo3 hi3 s1 i)%bool then 0 else s1 i).
  assert (SD0 : sd 0%nat = 1) by (unfold sd; rewrite CZ, andb_false_r; exact S10).
  assert (SD1 : sd 1%nat = 0) by (unfold sd; rewrite CZ, andb_false_r; exact S11).
  assert (O : existsb (out_by lo3 hi3 bc_eps sd) [0%nat; 1%nat] = false).
  { cbn [existsb]. unfold out_by, lo3, hi3, rlex, xler. rewrite SD0, SD1. num. reflexivity. }
  assert (U0 : u_act hi3 sd 0%nat = true).
  { unfold u_act, near, hi3, xsub, xabs_le. rewrite SD0. replace (1 - 1) with 0 by ring. rewrite Rabs_R0. num. reflexivity. }
  assert (L0 : l_act lo3 sd 0%nat = false).
  { unfold l_act, near, lo3, xsub, xabs_le. rewrite SD0. rewrite Rabs_left by lra. num. reflexivity. }
  assert (U1 : u_act hi3 sd 1%nat = false).
  { unfold u_act, near, hi3, xsub, xabs_le. rewrite SD1. rewrite Rabs_pos_eq by lra. num. reflexivity. }
  assert (L1 : l_act lo3 sd 1%nat = false).
  { unfold l_act, near, lo3, xsub, xabs_le. rewrite SD1. rewrite Rabs_left by lra. num. reflexivity. }
  assert (A : existsb (fun i => u_act hi3 sd i || l_act lo3 sd i)%bool [0%nat; 1%nat] = true) by (cbn [existsb]; rewrite U0; reflexivity).
  rewrite (hom_first hom3 lo3 hi3 99 0 1 [0%nat; 1%nat] vzero _ first1 eq_refl O A). fold s1. fold sd.
  set (s' := move lo3 hi3 [0%nat; 1%nat] sd _).
  assert (T0 : s' 0%nat = 1) by (unfold s', move; cbn [memb existsb Nat.eqb orb]; rewrite L0, U0; reflexivity).
  assert (T1 : s' 1%nat = 0).
  { unfold s', move. cbn [memb existsb Nat.eqb orb]. rewrite L1, U1. unfold vadd. rewrite expand_mask, CZ. exact S11. }
  clearbody s'. clear SD0 SD1 O U0 L0 U1 L1 A. clearbody sd. clear sd.
  assert (N : norm 2 s' = 1).
  { unfold norm, dot. cbn [rsum]. rewrite T0, T1. transitivity (sqrt 1); [f_equal; ring|apply sqrt_1]. }
  assert (V : bc_model 2 (m1 0) (c (-1)) s' = -1).
  { unfold bc_model, dot, mv, m1, c. cbn [rsum]. rewrite T0, T1. field. }
  rewrite N, V. num.
  assert (AT : filter (at_bound lo3 hi3 s') (seq 0 2) = [0%nat]).
  { cbn [seq filter]. unfold at_bound, above, below, lo3, hi3, xsub, xler, rlex. rewrite T0, T1. num. reflexivity. }
  rewrite AT. change (complement 2 [0%nat]) with [1%nat].
  set (g' := vadd (c (-1)) (mv 2 (m1 0) s')).
  assert (G' : g' 1%nat = -1) by (unfold g', vadd, mv, m1, c; cbn; ring).
  assert (CR : forallb (fun i => Rleb (Rabs (g' i)) (/ 10 ^ 5)) [1%nat] = false).
  { cbn [forallb]. rewrite G', Rabs_left by lra. change (/ 10 ^ 5) with bc_eps. num. reflexivity. }
  rewrite CR.
  assert (GC1 : filter (g_crit lo3 hi3 g') [1%nat] = []).
  { cbn [filter]. unfold g_crit, lo3, hi3, xabs_le, xler. rewrite G'. num. reflexivity. }
  rewrite GC1. change (filter (fun i => negb (memb i ([0%nat] ++ []))) [1%nat]) with [1%nat].
  cbn [bc_outer ms_calls length ms3 filter]. rewrite UC, LC. cbn [app].
  set (sb := vadd s' (expand [1%nat] first2)).
  assert (SB : sb 1%nat = 2) by (unfold sb, vadd, expand, first2, idm; cbn; rewrite T1; ring).
  assert (OUT2 : existsb (out_by lo3 hi3 0 sb) [1%nat] = true).
  { cbn [existsb]. unfold out_by at 1, lo3, hi3, rlex, xler. rewrite SB. num. reflexivity. }
  rewrite OUT2, hom_fails by reflexivity. eexists. split; [reflexivity|]. repeat split.
Qed.

Lemma r_radius : ~ forall ms hom n H lb ub g Delta o, symmetric n H -> 0 <= Delta -> ms_bounded ms 0 -> in_bounds n lb ub vzero ->
  solve_bc ms hom n H lb ub g Delta = Some (Some o) -> norm n (bc_s o) <= Delta + 1.
Proof.
  intros F. destruct far_case as (o & E & _ & N).
  assert (norm 1 (bc_s o) <= 1 + 1); [|lra].
  apply (F _ _ _ _ _ _ _ _ o) with (5 := E); [apply sym1|lra|exact ms1_bounded|].
  intros i Hi. unfold lo1, hi1, vzero. cbn. lra.
Qed.
Lemma r_value : ~ forall ms hom n H lb ub g Delta o, symmetric n H -> 0 <= Delta -> in_bounds n lb ub vzero ->
  solve_bc ms hom n H lb ub g Delta = Some (Some o) -> bc_value o = qmodel n g H (bc_s o).
Proof.
  intros F. destruct stale_case as (o & E & _ & S & V).
  assert (X : bc_value o = qmodel 2 (c (-1)) (m1 0) (bc_s o)).
  { apply (F _ _ _ _ _ _ _ _ o) with (4 := E); [intros i j _ _; reflexivity|lra|].
    intros i Hi. unfold lo3, hi3, vzero. cbn. lra. }
  rewrite S, V in X. unfold qmodel, quad in X. rewrite dot_zero_r, dot_zero_l in X. lra.
Qed.
Lemma r_gplus : ~ forall ms hom n H lb ub g Delta o, symmetric n H -> 0 <= Delta -> in_bounds n lb ub vzero ->
  solve_bc ms hom n H lb ub g Delta = Some (Some o) -> bc_end o = BcInterior -> veq n (bc_gplus o) (vadd g (mv n H (bc_s o))).
Proof.
  intros F. destruct (grad_case hom1) as (o & E & T & S & G).
  assert (X : veq 1 (bc_gplus o) (vadd (c 1) (mv 1 (m1 1) (bc_s o)))).
  { apply (F _ _ _ _ _ _ _ _ o) with (4 := E); [apply sym1|lra| |exact T].
    intros i Hi. unfold lo2, hi2, vzero. cbn. lra. }
  specialize (X 0%nat ltac:(lia)). rewrite G in X. unfold vadd, mv, c, m1 in X. cbn in X. rewrite S in X. lra.
Qed.
