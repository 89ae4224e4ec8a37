(** The start of the search, the step it finds, and the length of the step of the solver. *)
From Coq Require Import Reals Lra Psatz Lia List Arith Bool.
From Verif Require Import RVec RBool Tri ProjGrad_Spec MS_Model MS_Spec MS_Proofs MS_More BC_Model BC_Spec BC_Proofs BC_More Hom_Model Hom_Spec Hom_Proofs Hom_More.
Import ListNotations.
Open Scope R_scope.

Lemma expand_at l d k : NoDup l -> (k < length l)%nat -> expand l d (nth k l 0%nat) = d k.
Proof.
  intros ND Hk. unfold expand. rewrite (rsum_single (length l) k); [|exact Hk|].
  - unfold idm. rewrite Nat.eqb_refl. ring.
  - intros j Hj NE. unfold idm. destruct (Nat.eqb_spec (nth k l 0%nat) (nth j l 0%nat)) as [E|E]; [|ring].
    exfalso. apply NE. symmetry. exact (proj1 (NoDup_nth l 0%nat) ND k j Hk Hj E).
Qed.

Lemma norm_comp n x i : (i < n)%nat -> Rabs (x i) <= norm n x.
Proof.
  intros Hi. unfold norm. rewrite <- sqrt_Rsqr_abs. apply sqrt_le_1_alt. unfold Rsqr, dot.
  apply (rsum_ge_term n (fun j => x j * x j) i); try exact Hi; intros; nra.
Qed.

Lemma norm_abs_le n x y : (forall i, (i < n)%nat -> Rabs (x i) <= Rabs (y i)) -> norm n x <= norm n y.
Proof.
  intros A. unfold norm. apply sqrt_le_1_alt. unfold dot. apply rsum_le. intros i Hi. specialize (A i Hi).
  pose proof (Rabs_pos (x i)). assert (X : forall t, t * t = Rabs t * Rabs t) by (intros t; rewrite <- Rabs_mult; symmetry; apply Rabs_pos_eq; nra).
  rewrite (X (x i)), (X (y i)). nra.
Qed.

Lemma norm_all_le n x r : 0 <= r -> (forall i, (i < n)%nat -> Rabs (x i) <= r) -> norm n x <= sqrt (INR n) * r.
Proof.
  intros R0 A. unfold norm. rewrite <- (sqrt_square r R0) at 1. rewrite <- sqrt_mult_alt by apply pos_INR. apply sqrt_le_1_alt.
  unfold dot. eapply Rle_trans; [apply (rsum_le n _ (fun _ => r * r))|].
  - intros i Hi. specialize (A i Hi). pose proof (Rabs_pos (x i)).
    assert (X : x i * x i = Rabs (x i) * Rabs (x i)) by (rewrite <- Rabs_mult; symmetry; apply Rabs_pos_eq; nra). rewrite X. nra.
  - right. clear. induction n as [|n IH]; [cbn; ring|]. rewrite S_INR. cbn [rsum]. rewrite IH. ring.
Qed.

(** restriction to some variables *)
Lemma dot_expand n l x v : NoDup l -> (forall i, In i l -> (i < n)%nat) -> dot n (expand l x) v = dot (length l) x (sub_vec l v).
Proof.
  intros ND B. change (expand l x) with (mv (length l) (fun i k => idm i (nth k l 0%nat)) x). rewrite dot_mv_tr.
  apply dot_ext; [intros i Hi; reflexivity|]. intros k Hk. unfold mv, tr, sub_vec. rewrite (rsum_single n (nth k l 0%nat)).
  - unfold idm. rewrite Nat.eqb_refl. ring.
  - apply B, nth_In, Hk.
  - intros j Hj NE. unfold idm. destruct (Nat.eqb_spec j (nth k l 0%nat)); [contradiction|ring].
Qed.
Lemma sub_norm n l v : NoDup l -> (forall i, In i l -> (i < n)%nat) -> norm (length l) (sub_vec l v) <= norm n v.
Proof.
  intros ND B. pose proof (cauchy_schwarz n (expand l (sub_vec l v)) v) as C. rewrite (dot_expand n l _ v ND B), (expand_norm n l _ ND B) in C.
  rewrite Rabs_pos_eq in C by apply dot_self_nonneg. rewrite <- norm_sq in C. pose proof (norm_nonneg (length l) (sub_vec l v)). pose proof (norm_nonneg n v). nra.
Qed.
Lemma sub_mv n l A x i : NoDup l -> (forall i, In i l -> (i < n)%nat) -> (i < length l)%nat ->
  mv (length l) (sub_mat l A) x i = sub_vec l (mv n A (expand l x)) i.
Proof.
  intros ND B Hi. unfold sub_vec. transitivity (dot n (expand l x) (A (nth i l 0%nat))).
  - rewrite (dot_expand n l x _ ND B). unfold mv, dot, sub_mat, sub_vec. apply rsum_ext. intros; ring.
  - unfold mv, dot. apply rsum_ext. intros; ring.
Qed.

Lemma arg_max_in f l b : In (arg_max f l b) (b :: l).
Proof.
  revert b. induction l as [|k l IH]; intros b; cbn [arg_max]; [left; reflexivity|].
  destruct (IH (if Rltb (f b) (f k) then k else b)) as [E|E]; [|right; right; exact E].
  rewrite <- E. destruct (Rltb (f b) (f k)); [right; left; reflexivity|left; reflexivity].
Qed.
Lemma argmin_in_in f l : l <> [] -> In (argmin_in f l) l.
Proof. destruct l as [|a l]; [contradiction|]. intros _. exact (arg_max_in _ l a). Qed.

Lemma held_crit lb ub x : forall i, held (lb i) (ub i) (x i) <-> crit_zero lb ub x i = true.
Proof.
  intros i. unfold held, crit_zero, u_crit, l_crit, above, below. rewrite orb_true_iff, !andb_true_iff, !rlex_true, !xler_true.
  change bc_tiny with (/ 10 ^ 10). change bc_eps with (/ 10 ^ 5).
  replace (-1 / 10 ^ 10) with (- / 10 ^ 10) by (unfold Rdiv; ring).
  replace (1 / 10 ^ 10) with (/ 10 ^ 10) by (unfold Rdiv; ring). replace (1 / 10 ^ 5) with (/ 10 ^ 5) by (unfold Rdiv; ring).
  assert (X : xle_r (ub i) (x i + / 10 ^ 5) <-> xle_r (xsub (ub i) (x i)) (/ 10 ^ 5)) by (destruct (ub i); cbn -[pow]; [split; intros; lra|tauto|tauto]).
  rewrite X. tauto.
Qed.

Section Found.
Variables (n : nat) (lb ub : nat -> xR) (free : list nat) (s : vec).
Hypothesis ND : NoDup free.
Hypothesis FB : forall i, In i free -> (i < n)%nat.
Hypothesis W0 : in_bounds n lb ub vzero.

Lemma placed_of d : near_in lb ub free s d = true ->
  placed lb ub free s d (move lb ub free (after lb ub free s d) (vadd s (expand free (cleared lb ub free s d)))).
Proof.
  intros N. pose proof eps_pos as EP. pose proof tiny_pos as TP. pose proof tiny_eps as TE. split.
  - intros i NI. unfold move. rewrite (proj2 (memb_false i free) NI). unfold vadd. rewrite expand_out by exact NI. ring.
  - intros k Hk i x. assert (II : In i free) by (apply nth_In; exact Hk).
    assert (XE : vadd s (expand free d) i = x) by (unfold vadd, i; rewrite expand_at by assumption; reflexivity).
    unfold near_in in N. apply negb_true_iff in N. pose proof (existsb_none _ _ N i II) as O. apply outr in O.
    unfold move. rewrite (proj2 (memb_spec i free) II).
    assert (AF : after lb ub free s d i = if crit_zero lb ub (vadd s (expand free d)) i then 0 else x).
    { unfold after. rewrite (proj2 (memb_spec i free) II). cbn [andb]. rewrite XE. reflexivity. }
    pose proof (held_crit lb ub (vadd s (expand free d)) i) as HC. rewrite XE in HC.
    unfold l_act, u_act, near. rewrite AF in *.
    replace (1 / 10 ^ 5) with bc_eps by (unfold bc_eps, Rdiv; ring).
    destruct (crit_zero lb ub (vadd s (expand free d)) i) eqn:CZ.
    + right. right. assert (HD : held (lb i) (ub i) x) by (apply HC; reflexivity). split; [exact HD|].
      specialize (W0 i (FB i II)). unfold vzero in W0. unfold held in HD.
      replace (-1 / 10 ^ 10) with (- bc_tiny) in HD by (unfold bc_tiny, Rdiv; ring).
      replace (1 / 10 ^ 10) with bc_tiny in HD by (unfold bc_tiny, Rdiv; ring).
      replace (1 / 10 ^ 5) with bc_eps in HD by (unfold bc_eps, Rdiv; ring).
      destruct (lb i) as [a| |], (ub i) as [b| |]; cbn in W0, HD |- *; try tauto.
      * destruct (Rleb_spec (Rabs (a - 0)) bc_eps) as [A|A]; [rewrite Rminus_0_r in A; split; [left; reflexivity|exact A]|].
        destruct (Rleb_spec (Rabs (b - 0)) bc_eps) as [B|B]; [rewrite Rminus_0_r in B; split; [right; reflexivity|exact B]|].
        exfalso. rewrite Rabs_left1 in A by lra. rewrite Rabs_pos_eq in B by lra. lra.
      * destruct (Rleb_spec (Rabs (a - 0)) bc_eps) as [A|A]; [rewrite Rminus_0_r in A; split; [left; reflexivity|exact A]|].
        exfalso. rewrite Rabs_left1 in A by lra. lra.
      * destruct (Rleb_spec (Rabs (b - 0)) bc_eps) as [B|B]; [rewrite Rminus_0_r in B; split; [right; reflexivity|exact B]|].
        exfalso. rewrite Rabs_pos_eq in B by lra. lra.
    + assert (NH : ~ held (lb i) (ub i) x) by (intros X; apply HC in X; discriminate).
      assert (SX : vadd s (expand free (cleared lb ub free s d)) i = x).
      { unfold vadd, cleared. rewrite (expand_mask (crit_zero lb ub (vadd s (expand free d))) free d i), CZ. exact XE. }
      assert (AB : forall a, Rabs (a - x) <= bc_eps -> Rabs (xval (Fin a) - x) <= bc_eps) by (intros a A; exact A).
      destruct (xabs_le (xsub (lb i) x) bc_eps) eqn:LA.
      { right. left. split; [exact NH|]. destruct (lb i) as [a| |]; cbn in LA |- *; try discriminate. rb. split; [left; reflexivity|exact LA]. }
      destruct (xabs_le (xsub (ub i) x) bc_eps) eqn:UA.
      { right. left. split; [exact NH|]. destruct (ub i) as [a| |]; cbn in UA |- *; try discriminate. rb. split; [right; reflexivity|exact UA]. }
      left. split; [exact NH|]. split; [exact SX|]. unfold beyond. intros X. apply X. clear X AB HC NH SX.
      destruct (lb i) as [a| |], (ub i) as [b| |]; cbn in O, LA, UA |- *; try tauto; rb; repeat split;
        repeat match goal with A : _ < Rabs ?t |- _ => revert A; unfold Rabs; destruct (Rcase_abs t); intros end; lra.
Qed.

(** length of a placed step *)
Lemma placed_norm d s' : placed lb ub free s d s' -> norm n s' <= norm n s + norm (length free) d + sqrt (INR n) * / 10 ^ 5.
Proof.
  intros (P1 & P2).
  set (x := fun i => if memb i free && crit_zero lb ub (vadd s (expand free d)) i then 0 else vadd s (expand free d) i).
  apply Rle_trans with (norm n (vadd x (vsub s' x))).
  { right. apply norm_ext. intros i Hi. unfold vadd, vsub. ring. }
  eapply Rle_trans; [apply norm_triangle|]. apply Rplus_le_compat.
  - eapply Rle_trans; [|rewrite <- (expand_norm n free d ND FB); apply norm_triangle]. apply norm_abs_le. intros i Hi. unfold x.
    destruct (_ && _)%bool; [rewrite Rabs_R0; apply Rabs_pos|lra].
  - apply norm_all_le; [apply Rlt_le, eps_pos|]. intros i Hi. unfold vsub, x.
    destruct (memb i free) eqn:MB; cbn [andb].
    + apply memb_spec in MB. destruct (In_nth free i 0%nat MB) as (k & Hk & EK). specialize (P2 k Hk). cbv zeta in P2. rewrite EK in P2.
      assert (XE : vadd s (expand free d) i = s i + d k) by (unfold vadd; rewrite <- EK, expand_at by assumption; reflexivity).
      pose proof (held_crit lb ub (vadd s (expand free d)) i) as HC. rewrite XE in HC.
      replace (1 / 10 ^ 5) with (/ 10 ^ 5) in P2 by (unfold Rdiv; ring).
      destruct (crit_zero lb ub (vadd s (expand free d)) i) eqn:CZ.
      * rewrite Rminus_0_r. assert (held (lb i) (ub i) (s i + d k)) by (apply HC; reflexivity). tauto.
      * assert (~ held (lb i) (ub i) (s i + d k)) by (intros X; apply HC in X; discriminate). rewrite XE.
        destruct P2 as [(_ & -> & _)|[(_ & _ & A)|(X & _)]]; [|exact A|contradiction].
        unfold Rminus. rewrite Rplus_opp_r, Rabs_R0. apply Rlt_le, eps_pos.
    + apply memb_false in MB. rewrite (P1 i MB). unfold vadd. rewrite expand_out by exact MB.
      replace (s i - (s i + 0)) with 0 by ring. rewrite Rabs_R0. apply Rlt_le, eps_pos.
Qed.
End Found.

(** ** The start *)
Section Start.
Variables (n : nat) (lb ub : nat -> xR) (free : list nat) (s g : vec) (H : mat).
Hypothesis ND : NoDup free.
Hypothesis FB : forall i, In i free -> (i < n)%nat.
Hypothesis SH : symmetric n H.
Variable d0 : vec.
Notation m := (length free).
Notation sa := (vadd s (expand free d0)).
Hypothesis WS : in_bounds n lb ub s.
(** components outside start away from the bound *)
Hypothesis ROOM : forall i, In i free -> (~ xle_r (lb i) (sa i) -> lb i <> Fin (s i)) /\ (~ rle_x (sa i) (ub i) -> ub i <> Fin (s i)).
Hypothesis OUT : existsb (out_by lb ub 0 sa) free = true.

Lemma start_delta : exists k, (k < m)%nat /\ 0 < hom_delta lb ub free s sa < Rabs (d0 k).
Proof.
  assert (KU : forall k, In k (out_u ub free sa) -> (k < m)%nat /\ 0 < gap_u ub free s k < Rabs (d0 k)).
  { intros k I. apply filter_In in I. destruct I as [I F]. apply in_seq in I. assert (Hk : (k < m)%nat) by lia. split; [exact Hk|].
    assert (II : In (comp free k) free) by (apply nth_In; exact Hk). pose proof (ROOM _ II) as RM. pose proof (WS _ (FB _ II)) as W.
    assert (E : sa (comp free k) = s (comp free k) + d0 k) by (unfold vadd, comp; rewrite expand_at by assumption; reflexivity).
    rewrite E in *. unfold gap_u. destruct (ub (comp free k)) as [b| |]; cbn in F, W |- *; try discriminate; [|tauto].
    destruct (Rleb_spec (s (comp free k) + d0 k) b) as [X|X]; [discriminate|].
    assert (NB : b <> s (comp free k)).
    { intros Z. apply (proj2 RM); [cbn; lra|]. f_equal. exact Z. }
    rewrite (Rabs_pos_eq (b - _)), Rabs_pos_eq by lra. lra. }
  assert (KL : forall k, In k (out_l lb free sa) -> (k < m)%nat /\ 0 < gap_l lb free s k < Rabs (d0 k)).
  { intros k I. apply filter_In in I. destruct I as [I F]. apply in_seq in I. assert (Hk : (k < m)%nat) by lia. split; [exact Hk|].
    assert (II : In (comp free k) free) by (apply nth_In; exact Hk). pose proof (ROOM _ II) as RM. pose proof (WS _ (FB _ II)) as W.
    assert (E : sa (comp free k) = s (comp free k) + d0 k) by (unfold vadd, comp; rewrite expand_at by assumption; reflexivity).
    rewrite E in *. unfold gap_l. destruct (lb (comp free k)) as [b| |]; cbn in F, W |- *; try discriminate; [|tauto].
    destruct (Rleb_spec b (s (comp free k) + d0 k)) as [X|X]; [discriminate|].
    assert (NB : b <> s (comp free k)).
    { intros Z. apply (proj1 RM); [cbn; lra|]. f_equal. exact Z. }
    rewrite (Rabs_pos_eq (_ - b)), Rabs_left by lra. lra. }
  rewrite inside_spec in OUT. apply negb_true_iff in OUT. unfold inside_of in OUT. unfold hom_delta.
  destruct (out_u ub free sa) as [|a ou] eqn:EU, (out_l lb free sa) as [|b ol] eqn:EL; [discriminate| | |].
  - eexists. apply KL, argmin_in_in. discriminate.
  - eexists. apply KU, argmin_in_in. discriminate.
  - pose proof (KU _ (argmin_in_in (gap_u ub free s) (a :: ou) ltac:(discriminate))) as (A1 & A2).
    pose proof (KL _ (argmin_in_in (gap_l lb free s) (b :: ol) ltac:(discriminate))) as (B1 & B2).
    unfold Rmin. destruct (Rle_dec _ _); eexists; split; [exact A1|exact A2|exact B1|exact B2].
Qed.

Lemma start_inv lam hard : 0 <= lam -> stationary m (sub_vec free g) (sub_mat free H) lam d0 ->
  (hard = false -> shift_pd m (sub_mat free H) lam) -> 0 < norm m (sub_vec free g) ->
  inv free (sub_mat free H) lam (hom_start lb ub free s n g H lam hard sa).
Proof.
  intros L0 S P NG. destruct start_delta as (k & Hk & D0 & D1). remember (hom_delta lb ub free s sa) as de eqn:DE.
  pose proof (norm_comp m d0 k Hk) as NC. pose proof (sub_norm n free g ND FB) as GN.
  assert (B : lam * norm m d0 <= norm n g + ms_hn n H * norm m d0).
  { rewrite <- (Rabs_pos_eq lam L0), <- norm_scal.
    rewrite (norm_ext m (vscal lam d0) (vneg (vadd (sub_vec free g) (sub_vec free (mv n H (expand free d0)))))).
    - rewrite norm_neg. eapply Rle_trans; [apply norm_triangle|]. apply Rplus_le_compat; [exact GN|].
      eapply Rle_trans; [apply (sub_norm n); assumption|]. rewrite <- (expand_norm n free d0 ND FB). apply norm_mv_hn. exact SH.
    - intros i Hi. pose proof (S i Hi) as E. rewrite (sub_mv n free H d0 i ND FB Hi) in E. unfold vscal, vneg, vadd. lra. }
  assert (LT : lam < Rmax 0 (norm n g / de + ms_hn n H)).
  { eapply Rlt_le_trans; [|apply Rmax_r]. pose proof (hn_nonneg n H) as HN. set (N := norm m d0) in *. assert (NP : 0 < N) by lra.
    assert (lam <= norm n g / N + ms_hn n H).
    { apply (Rmult_le_reg_r N); [exact NP|]. rewrite Rmult_plus_distr_r. unfold Rdiv. rewrite Rmult_assoc, Rinv_l by lra. lra. }
    assert (norm n g / N < norm n g / de); [|lra]. apply Rmult_lt_compat_l; [lra|]. apply Rinv_lt_contravar; [nra|lra]. }
  unfold inv, hom_start. rewrite <- DE. cbn [h_lower h_upper h_lam h_hard]. repeat split; try lra; assumption.
Qed.
End Start.

(** ** One pass *)
Section Pass.
Variable ms : nat -> nat -> vec -> mat -> R -> option ms_out.
Variable chol : nat -> mat -> option mat.
Variable slv : nat -> mat -> vec -> option vec.
Variables (n : nat) (H : mat) (lb ub : nat -> xR).
Hypothesis CE : forall k, chol_exact k (chol k).
Hypothesis SE : forall k, slv_exact k (slv k).
Hypothesis SH : symmetric n H.
Hypothesis W0 : in_bounds n lb ub vzero.

Lemma sound_start free s g Delta eps c o sa : NoDup free -> (forall i, In i free -> (i < n)%nat) -> in_bounds n lb ub s -> 
  answer_sound (length free) (sub_vec free g) (sub_mat free H) Delta eps o ->
  sa = vadd s (expand free (ms_s o)) -> existsb (out_by lb ub 0 sa) free = true -> room lb ub free s sa ->
  ms c (length free) (sub_vec free g) (sub_mat free H) Delta = Some o ->
  0 <= ms_lambda o /\ stationary (length free) (sub_vec free g) (sub_mat free H) (ms_lambda o) (ms_s o) /\
  shift_psd (length free) (sub_mat free H) (ms_lambda o) /\
  inv free (sub_mat free H) (ms_lambda o) (hom_start lb ub free s n g H (ms_lambda o) (ms_hard o) sa).
Proof.
  intros ND FB WS (_ & AS) -> OUT RM MSO.
  assert (NZ : ~ veq (length free) (ms_s o) vzero).
  { intros Z. apply existsb_exists in OUT. destruct OUT as (i & II & F). assert (X : out_by lb ub 0 (vadd s (expand free (ms_s o))) i = false); [|congruence].
    apply out0. destruct (In_nth free i 0%nat II) as (k & Hk & EK).
    replace (vadd s (expand free (ms_s o)) i) with (s i); [exact (WS i (FB i II))|].
    unfold vadd. rewrite <- EK, expand_at, (Z k Hk) by assumption. unfold vzero. ring. }
  destruct (AS NZ) as (A1 & A2 & A3 & A4 & A5). split; [exact A1|]. split; [exact A2|]. split; [exact A3|].
  apply start_inv; assumption.
Qed.

Lemma t_found free s g Delta eps c o sa s' j : NoDup free -> (forall i, In i free -> (i < n)%nat) -> in_bounds n lb ub s -> 
  answer_sound (length free) (sub_vec free g) (sub_mat free H) Delta eps o ->
  sa = vadd s (expand free (ms_s o)) -> existsb (out_by lb ub 0 sa) free = true -> room lb ub free s sa ->
  ms c (length free) (sub_vec free g) (sub_mat free H) Delta = Some o ->
  search_of ms chol slv n H lb ub c free s g sa Delta = HomBreak s' j ->
  in_bounds n lb ub s' /\
  exists lam d, ms_lambda o <= lam /\ shift_pd (length free) (sub_mat free H) lam /\
    stationary (length free) (sub_vec free g) (sub_mat free H) lam d /\
    norm (length free) d <= norm (length free) (ms_s o) /\
    qmodel (length free) (sub_vec free g) (sub_mat free H) d <= - (lam / 2 * dot (length free) d d) /\
    placed lb ub free s d s' /\ exists i, In i free /\ (lb i = Fin (s' i) \/ ub i = Fin (s' i)).
Proof.
  intros ND FB WS AS SA OUT RM MSO E. destruct (sound_start free s g Delta eps c o sa ND FB WS AS SA OUT RM MSO) as (L0 & S0 & P0 & I0).
  unfold search_of in E. rewrite MSO in E. pose proof (sub_sym n H free SH FB) as SS.
  destruct (search_found _ _ lb ub free (sub_mat free H) (sub_vec free g) s (CE _) (SE _) SS (ms_lambda o) L0 P0 _ _ _ _ _ _ _ I0 E)
    as (lam & d & A1 & A2 & A3 & A4 & A5 & A6).
  pose proof A4 as A4'. unfold near_in in A4'. apply negb_true_iff in A4'.
  destruct (move_in (ms_part ms) (fun _ _ _ _ => HRaise) n H lb ub vzero 0 free _ _ s d WS eq_refl eq_refl A4') as (MW & _).
  pose proof (placed_of n lb ub free s ND FB W0 d A4) as PL. rewrite A6. split; [exact MW|].
  exists lam, d. split; [exact A1|]. split; [exact A2|]. split; [exact A3|].
  split; [exact (step_short free (sub_mat free H) (sub_vec free g) SS (ms_lambda o) (ms_s o) S0 P0 lam d A1 A2 A3)|].
  split; [apply opt_descent; [exact SS|exact A3|apply shift_pd_psd; exact A2|lra]|]. split; [exact PL|].
  unfold touching in A5. apply existsb_exists in A5. destruct A5 as (i & II & AC). exists i. split; [exact II|].
  unfold move. rewrite (proj2 (memb_spec i free) II). unfold u_act, l_act, near in *.
  destruct (lb i) as [a| |], (ub i) as [b| |]; cbn [xsub xabs_le xval] in AC |- *; try discriminate;
    repeat match goal with |- context [if ?b then _ else _] => destruct b eqn:?; cbn [xval] end; try (left; reflexivity); try (right; reflexivity);
    try rewrite orb_false_r in AC; try rewrite orb_false_l in AC; try congruence; try discriminate.
Qed.

Lemma t_bracket_states free s g Delta eps c o sa k act st out' act' : NoDup free -> (forall i, In i free -> (i < n)%nat) -> in_bounds n lb ub s -> 
  answer_sound (length free) (sub_vec free g) (sub_mat free H) Delta eps o ->
  sa = vadd s (expand free (ms_s o)) -> existsb (out_by lb ub 0 sa) free = true -> room lb ub free s sa ->
  ms c (length free) (sub_vec free g) (sub_mat free H) Delta = Some o ->
  hom_states (chol (length free)) (slv (length free)) lb ub free (sub_mat free H) (sub_vec free g) s k
    (hom_start lb ub free s n g H (ms_lambda o) (ms_hard o) sa) true act = Some (st, out', act') ->
  ms_lambda o <= h_lower st <= h_lam st /\ h_lam st <= h_upper st /\
  (h_hard st = false -> shift_pd (length free) (sub_mat free H) (h_lam st)).
Proof.
  intros ND FB WS AS SA OUT RM MSO E. destruct (sound_start free s g Delta eps c o sa ND FB WS AS SA OUT RM MSO) as (L0 & S0 & P0 & I0).
  pose proof (sub_sym n H free SH FB) as SS.
  destruct (inv_states _ _ lb ub free (sub_mat free H) (sub_vec free g) s (CE _) (SE _) SS (ms_lambda o) L0 P0 _ _ _ _ _ _ _ I0 E) as (A & B & C & _).
  split; [exact A|]. split; [exact B|exact C].
Qed.

(** ** Length of the step *)
Variables (g0 : vec) (Delta0 eps : R).
Hypothesis MS : ms_sound ms eps.
Hypothesis E0 : 0 <= eps.
Hypothesis D0 : 0 <= Delta0.
Definition bound : R := (1 + eps) * Delta0 + sqrt (INR n) * / 10 ^ 5.

Lemma bound_big x : x <= (1 + eps) * Delta0 -> x <= bound.
Proof. intros L. unfold bound. pose proof (sqrt_pos (INR n)). pose proof eps_pos as EP. unfold bc_eps in EP. nra. Qed.

Lemma outer_length fuel : forall passes calls trials s g Delta norms value gplus active free tag,
  in_bounds n lb ub s -> good n active free -> Delta = Delta0 - norm n s -> 0 <= Delta ->
  (forall i, In i free -> s i = 0 \/ (lb i <> Fin (s i) /\ ub i <> Fin (s i))) ->
  match bcx_outer ms chol slv n H lb ub g0 Delta0 fuel passes calls trials s g Delta norms value gplus active free tag with
  | Some (Some o) => norm n (bc_s o) <= bound
  | _ => True
  end.
Proof.
  assert (SM : forall x, x <= Delta0 -> x <= bound) by (intros x L; apply bound_big; nra).
  induction fuel as [|k IH]; intros passes calls trials s g Delta norms value gplus active free tag W G ED DD RM;
    cbn [bcx_outer]; destruct free as [|f0 fr] eqn:FE; try exact Logic.I; try (cbn [bc_s]; apply SM; lra).
  rewrite <- FE in *. assert (NE : free <> []) by (rewrite FE; discriminate).
  pose proof (calls_spec (ms_part ms) (fun _ _ _ _ => HRaise) n H lb ub g0 (length free) calls s g Delta gplus active free G (le_n _) NE) as CS.
  destruct (ms_calls (ms_part ms) n H lb ub (length free) calls s g Delta gplus active free) as [|gp c|a1 f1 sa gp c|]; try exact Logic.I; [cbn [bc_s]; apply SM; lra|].
  destruct CS as (G1 & I1 & NE1 & CC1 & (d & gp' & MP & SA) & CR). unfold ms_part in MP.
  destruct (ms c (length f1) (sub_vec f1 g) (sub_mat f1 H) Delta) as [o|] eqn:MSO; [|discriminate]. injection MP as Ed Eg. subst d.
  assert (B1 : forall i, In i f1 -> (i < n)%nat) by (intros i X; apply G1; exact X).
  pose proof (sub_sym n H f1 SH B1) as SS. pose proof (MS _ _ _ _ _ _ SS DD MSO) as AS. pose proof (proj1 AS) as LEN.
  destruct (existsb (out_by lb ub 0 sa) f1) eqn:O.
  - assert (RM1 : room lb ub f1 s sa).
    { intros i II. destruct (CR i II) as (C1 & C2). pose proof tiny_pos. pose proof eps_pos. split; intros BY E.
      - destruct (RM i (I1 i II)) as [Z|(Z & _)]; [|contradiction]. rewrite Z in E. rewrite E in BY. cbn in BY.
        unfold l_crit, below in C2. rewrite E in C2. cbn in C2. rewrite !(proj2 (Rleb_true _ _)) in C2 by lra. discriminate.
      - destruct (RM i (I1 i II)) as [Z|(_ & Z)]; [|contradiction]. rewrite Z in E. rewrite E in BY. cbn in BY.
        unfold u_crit, above in C1. rewrite E in C1. cbn in C1. rewrite !(proj2 (Rleb_true _ _)) in C1 by lra. discriminate. }
    destruct (search_of ms chol slv n H lb ub c f1 s g sa Delta) as [| |i|s' i] eqn:SO; try exact Logic.I.
    + cbn [bc_s]. rewrite (proj2 (norm_zero n vzero)) by (intros j J; reflexivity). apply SM. exact D0.
    + destruct (t_found f1 s g Delta eps c o sa s' i (proj2 G1) B1 W AS SA O RM1 MSO SO) as (W' & lam & d & _ & _ & _ & NS & _ & PL & _).
      pose proof (placed_norm n lb ub f1 s (proj2 G1) B1 d s' PL) as PN.
      assert (LB : norm n s' <= bound).
      { unfold bound. pose proof (norm_nonneg n s). eapply Rle_trans; [exact PN|]. apply Rplus_le_compat_r.
        apply Rle_trans with (norm n s + (1 + eps) * Delta); [lra|]. rewrite ED. nra. }
      cbv zeta. destruct (Rltb_spec (Delta0 - norm n s') (- bc_eps)) as [L|L]; [exact LB|].
      destruct (Rltb_spec (Delta0 - norm n s') 0) as [L'|L']; [exact LB|].
      destruct (complement n (filter (at_bound lb ub s') (seq 0 n))) as [|y ys] eqn:F2; [exact LB|].
      rewrite <- F2 in *. destruct (forallb _ _); [exact LB|].
      apply IH; auto; [|lra|].
      * split; [|apply NoDup_filter, complement_nodup]. intros k'. rewrite filter_In, negb_true_iff, memb_false.
        rewrite complement_in, in_app_iff. tauto.
      * intros q IQ. right. apply filter_In in IQ. destruct IQ as (IQ & _). apply complement_in in IQ. destruct IQ as (Hq & NQ).
        assert (AB : at_bound lb ub s' q = false).
        { destruct (at_bound lb ub s' q) eqn:X; [|reflexivity]. exfalso. apply NQ. apply filter_In. split; [apply in_seq; lia|exact X]. }
        unfold at_bound, above, below in AB. apply orb_false_iff in AB. destruct AB as (X1 & X2). pose proof eps_pos.
        split; intros E; [rewrite E in X2; cbn in X2|rewrite E in X1; cbn in X1]; rb; lra.
  - cbn [bc_s]. apply bound_big. rewrite SA. eapply Rle_trans; [apply norm_triangle|]. rewrite (expand_norm n f1 _ (proj2 G1) B1).
    pose proof (norm_nonneg n s). nra.
Qed.

Lemma t_length o : solve_bcx ms chol slv n H lb ub g0 Delta0 = Some (Some o) -> norm n (bc_s o) <= bound.
Proof.
  intros E. unfold solve_bcx in E. pose proof (outer_length n 0 0 0 vzero g0 Delta0 0 0 g0 _ _ BcNoFree W0
    (good_complement n (filter (g_crit lb ub g0) (seq 0 n)))) as X. cbv zeta in E. rewrite E in X. apply X.
  - rewrite (proj2 (norm_zero n vzero)) by (intros j J; reflexivity). ring.
  - exact D0.
  - intros i _. left. reflexivity.
Qed.
End Pass.

(** ** No exception *)
Lemma outer_total ms chol slv n H lb ub g0 Delta0 fuel : (forall k, chol_exact k (chol k)) -> (forall k, slv_exact k (slv k)) -> symmetric n H ->
  (forall j k g A D, symmetric k A -> ms j k g A D <> None) ->
  forall passes calls trials s g Delta norms value gplus active free tag, good n active free ->
  bcx_outer ms chol slv n H lb ub g0 Delta0 fuel passes calls trials s g Delta norms value gplus active free tag <> None.
Proof.
  intros CE SE SH NR.
  assert (CALLS : forall k c s g Delta gp a f, (forall i, In i f -> (i < n)%nat) -> ms_calls (ms_part ms) n H lb ub k c s g Delta gp a f <> CRaise).
  { induction k as [|k IH]; intros c s g Delta gp a f B; cbn [ms_calls]; [discriminate|]. unfold ms_part at 1.
    pose proof (NR (S c) (length f) (sub_vec f g) (sub_mat f H) Delta (sub_sym n H f SH B)) as X.
    destruct (ms (S c) (length f) (sub_vec f g) (sub_mat f H) Delta) as [o|]; [|congruence]. cbv zeta.
    match goal with |- context [match ?l with nil => _ | _ :: _ => _ end] => destruct l as [|x cr] end; [discriminate|].
    match goal with |- context [complement n ?l] => remember (complement n l) as f2 eqn:F2; assert (B2 : forall i, In i f2 -> (i < n)%nat)
      by (intros i Q; rewrite F2 in Q; apply complement_in in Q; tauto) end.
    destruct f2 as [|y ys]; [discriminate|]. apply IH. exact B2. }
  induction fuel as [|k IH]; intros passes calls trials s g Delta norms value gplus active free tag G;
    cbn [bcx_outer]; destruct free as [|f0 fr] eqn:FE; try discriminate.
  rewrite <- FE in *. assert (NE : free <> []) by (rewrite FE; discriminate).
  pose proof (calls_spec (ms_part ms) (fun _ _ _ _ => HRaise) n H lb ub g0 (length free) calls s g Delta gplus active free G (le_n _) NE) as CS.
  pose proof (CALLS (length free) calls s g Delta gplus active free ltac:(intros i Q; apply G; exact Q)) as CR0.
  destruct (ms_calls (ms_part ms) n H lb ub (length free) calls s g Delta gplus active free) as [|gp c|a1 f1 sa gp c|]; try discriminate; [congruence|].
  destruct CS as (G1 & I1 & NE1 & CC1 & _ & CR).
  assert (B1 : forall i, In i f1 -> (i < n)%nat) by (intros i X; apply G1; exact X).
  destruct (existsb (out_by lb ub 0 sa) f1); [|discriminate].
  assert (ST : search_of ms chol slv n H lb ub c f1 s g sa Delta <> HomRaise).
  { unfold search_of. pose proof (NR c (length f1) (sub_vec f1 g) (sub_mat f1 H) Delta (sub_sym n H f1 SH B1)) as X.
    destruct (ms c (length f1) (sub_vec f1 g) (sub_mat f1 H) Delta) as [o|]; [|congruence]. apply search_total; [apply CE|apply SE|exact (sub_sym n H f1 SH B1)]. }
  destruct (search_of ms chol slv n H lb ub c f1 s g sa Delta) as [| |i|s' i]; try discriminate; [congruence|]. cbv zeta.
  destruct (Rltb _ _); [discriminate|]. destruct (Rltb _ _); [discriminate|].
  destruct (complement n (filter (at_bound lb ub s') (seq 0 n))) as [|y ys] eqn:F2; [discriminate|]. rewrite <- F2.
  destruct (forallb _ _); [discriminate|]. apply IH. split; [|apply NoDup_filter, complement_nodup].
  intros k'. rewrite filter_In, negb_true_iff, memb_false. rewrite complement_in, in_app_iff. tauto.
Qed.

Lemma t_ends_x ms chol slv n H lb ub g0 Delta0 : (forall k, chol_exact k (chol k)) -> (forall k, slv_exact k (slv k)) -> symmetric n H ->
  in_bounds n lb ub vzero -> (forall j k g A D, symmetric k A -> ms j k g A D <> None) ->
  exists o, solve_bcx ms chol slv n H lb ub g0 Delta0 = Some (Some o).
Proof.
  intros CE SE SH W NR. destruct (t_refines ms chol slv n H lb ub g0 Delta0) as (hom & E).
  pose proof (solve_fin (ms_part ms) hom n H lb ub g0 Delta0 W) as F. rewrite <- E in F.
  pose proof (outer_total ms chol slv n H lb ub g0 Delta0 n CE SE SH NR 0 0 0 vzero g0 Delta0 0 0 g0 _ _ BcNoFree
    (good_complement n (filter (g_crit lb ub g0) (seq 0 n)))) as T.
  unfold solve_bcx in *. cbv zeta in *. destruct (bcx_outer _ _ _ _ _ _ _ _ _ _ _ _ _ _ _ _ _ _ _ _ _ _) as [[o|]|]; [exists o; reflexivity|contradiction|congruence].
Qed.
