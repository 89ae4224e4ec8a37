(** Further proofs about the bound-constrained trust-region solver: length of the step,
    pinned variables, the unconstrained solver in place. *)
From Coq Require Import Reals Lra Psatz Lia List Arith Bool.
From Verif Require Import RVec RBool Tri ProjGrad_Spec MS_Model MS_Spec MS_Proofs BC_Model BC_Spec BC_Proofs.
Import ListNotations.
Open Scope R_scope.

Section More.
Variable ms : nat -> nat -> vec -> mat -> R -> option (vec * vec).
Variable hom : nat -> nat -> list nat -> vec -> hans.
Variables (n : nat) (H : mat) (lb ub : nat -> xR) (g0 : vec) (Delta0 : R).
Notation within := (in_bounds n lb ub).
Notation outer := (bc_outer ms hom n H lb ub g0 Delta0).

Definition short (eps : R) (o : bc_out) : Prop :=
  match bc_end o with
  | BcInterior => norm n (bc_s o) <= (1 + eps) * Delta0
  | BcRadiusUsed => norm n (bc_s o) <= Delta0 + / 10 ^ 5
  | BcError7 => Delta0 + / 10 ^ 5 < norm n (bc_s o)
  | _ => norm n (bc_s o) <= Delta0
  end.

Lemma sub_sym l : symmetric n H -> (forall i, In i l -> (i < n)%nat) -> symmetric (length l) (sub_mat l H).
Proof. intros S B i j Hi Hj. unfold sub_mat. apply S; apply B, nth_In; assumption. Qed.

Lemma outer_norm eps fuel passes calls trials s g Delta norms value gplus active free tag :
  ms_bounded ms eps -> symmetric n H -> 0 <= eps -> within s -> within vzero ->
  good n active free -> Delta = Delta0 - norm n s -> 0 <= Delta -> 0 <= Delta0 -> tag = BcNoFree ->
  match outer fuel passes calls trials s g Delta norms value gplus active free tag with
  | Some (Some o) => short eps o
  | _ => True
  end.
Proof.
  intros MB SH HE. revert passes calls trials s g Delta norms value gplus active free tag.
  induction fuel as [|k IH]; intros passes calls trials s g Delta norms value gplus active free tag W W0 G ED D0 DD TG;
    cbn [bc_outer]; destruct free as [|f0 fr] eqn:FE.
  - unfold short. cbn. rewrite TG. lra.
  - exact I.
  - unfold short. cbn. rewrite TG. lra.
  - rewrite <- FE in *. assert (NE : free <> []) by (rewrite FE; discriminate).
    pose proof (calls_spec ms hom n H lb ub g0 (length free) calls s g Delta gplus active free G (le_n _) NE) as CS.
    destruct (ms_calls ms n H lb ub (length free) calls s g Delta gplus active free) as [|gp c|a1 f1 sa gp c|]; [exact I| | |exact I].
    + unfold short. cbn. lra.
    + destruct CS as (G1 & I1 & NE1 & CC1 & (d & gp' & MS & SA) & CR).
      destruct (existsb (out_by lb ub 0 sa) f1) eqn:O.
      * pose proof (hom_spec ms hom n H lb ub g0 Delta0 99 0 (S passes) f1 s true (existsb (fun i => u_act ub sa i || l_act lb sa i)%bool f1) W (or_introl eq_refl)
          ltac:(intros j J; apply G1; exact J)) as HS.
        destruct (hom_loop hom lb ub 99 0 (S passes) f1 s true _) as [| |i|s' i]; [exact I|exact I| |].
        -- unfold short. cbn. rewrite (proj2 (norm_zero n vzero)) by (intros j J; reflexivity). exact DD.
        -- destruct HS as (HI & W' & SAME & EX).
           change bc_eps with (/ 10 ^ 5). destruct (Rltb_spec (Delta0 - norm n s') (- / 10 ^ 5)) as [L|L]; [unfold short; cbn -[pow]; lra|].
           destruct (Rltb_spec (Delta0 - norm n s') 0) as [L'|L']; [unfold short; cbn -[pow]; lra|].
           destruct (complement n (filter (at_bound lb ub s') (seq 0 n))) as [|y ys] eqn:F2; [unfold short; cbn -[pow]; lra|].
           rewrite <- F2 in *. destruct (forallb _ _); [unfold short; cbn -[pow]; lra|].
           apply IH; auto; [|lra]. split; [|apply NoDup_filter, complement_nodup]. intros k'. rewrite filter_In, negb_true_iff, memb_false.
           rewrite complement_in, in_app_iff. tauto.
      * unfold short. cbn -[pow]. rewrite SA. eapply Rle_trans; [apply norm_triangle|].
        assert (B1 : forall i, In i f1 -> (i < n)%nat) by (intros i X; apply G1; exact X).
        rewrite (expand_norm n f1 d (proj2 G1) B1).
        pose proof (MB _ _ _ _ _ _ _ (sub_sym f1 SH B1) D0 MS). pose proof (norm_nonneg n s). nra.
Qed.

Lemma t_short eps o : ms_bounded ms eps -> symmetric n H -> 0 <= eps -> 0 <= Delta0 -> within vzero ->
  solve_bc ms hom n H lb ub g0 Delta0 = Some (Some o) -> short eps o.
Proof.
  intros MB SH HE DD W E. unfold solve_bc in E.
  pose proof (outer_norm eps n 0 0 0 vzero g0 Delta0 0 0 g0 _ _ BcNoFree MB SH HE W W
    (good_complement n (filter (g_crit lb ub g0) (seq 0 n)))) as X.
  rewrite E in X. apply X; auto. rewrite (proj2 (norm_zero n vzero)) by (intros j J; reflexivity). ring.
Qed.

(** pinned variables do not move *)
Lemma outer_pinned i fuel passes calls trials s g Delta norms value gplus active free tag :
  (i < n)%nat -> (lb i = Fin 0 \/ ub i = Fin 0) ->
  within s -> within vzero -> good n active free -> s i = 0 -> ~ In i free ->
  match outer fuel passes calls trials s g Delta norms value gplus active free tag with
  | Some (Some o) => bc_s o i = 0
  | _ => True
  end.
Proof.
  intros Hi PB. revert passes calls trials s g Delta norms value gplus active free tag.
  induction fuel as [|k IH]; intros passes calls trials s g Delta norms value gplus active free tag W W0 G S0 NI;
    cbn [bc_outer]; destruct free as [|f0 fr] eqn:FE; try exact S0; try exact I.
  rewrite <- FE in *. assert (NE : free <> []) by (rewrite FE; discriminate).
  pose proof (calls_spec ms hom n H lb ub g0 (length free) calls s g Delta gplus active free G (le_n _) NE) as CS.
  destruct (ms_calls ms n H lb ub (length free) calls s g Delta gplus active free) as [|gp c|a1 f1 sa gp c|]; [exact I|exact S0| |exact I].
  destruct CS as (G1 & I1 & NE1 & CC1 & (d & gp' & MS & SA) & CR).
  assert (NI1 : ~ In i f1) by (intros X; apply NI, I1, X).
  destruct (existsb (out_by lb ub 0 sa) f1) eqn:O.
  - pose proof (hom_spec ms hom n H lb ub g0 Delta0 99 0 (S passes) f1 s true (existsb (fun i => u_act ub sa i || l_act lb sa i)%bool f1) W (or_introl eq_refl)
      ltac:(intros j J; apply G1; exact J)) as HS.
    destruct (hom_loop hom lb ub 99 0 (S passes) f1 s true _) as [| |t|s' t]; [exact I|exact I|reflexivity|].
    destruct HS as (HI & W' & SAME & EX).
    assert (S0' : s' i = 0) by (rewrite SAME by exact NI1; exact S0).
    destruct (Rltb _ _); [exact S0'|]. destruct (Rltb _ _); [exact S0'|].
    destruct (complement n (filter (at_bound lb ub s') (seq 0 n))) as [|y ys] eqn:F2; [exact S0'|].
    rewrite <- F2 in *. destruct (forallb _ _); [exact S0'|].
    apply IH; auto.
    + split; [|apply NoDup_filter, complement_nodup]. intros k'. rewrite filter_In, negb_true_iff, memb_false.
      rewrite complement_in, in_app_iff. tauto.
    + rewrite filter_In, complement_in. intros ((_ & X) & _). apply X. apply filter_In. split; [apply in_seq; lia|].
      unfold at_bound, above, below. pose proof eps_pos. apply orb_true_iff.
      destruct PB as [-> | ->]; [right|left]; cbn; apply Rleb_true; rewrite S0'; lra.
  - cbn. rewrite SA. unfold vadd. rewrite expand_out by exact NI1. lra.
Qed.

Lemma t_pinned o i : within vzero -> (i < n)%nat -> pinned lb ub g0 i ->
  solve_bc ms hom n H lb ub g0 Delta0 = Some (Some o) -> bc_s o i = 0.
Proof.
  intros W Hi P E. unfold solve_bc in E.
  pose proof (outer_pinned i n 0 0 0 vzero g0 Delta0 0 0 g0 _ _ BcNoFree Hi ltac:(destruct P as [[_ X]|[_ X]]; tauto) W W
    (good_complement n (filter (g_crit lb ub g0) (seq 0 n))) eq_refl) as X.
  rewrite E in X. apply X. rewrite complement_in. intros (_ & N). apply N. apply filter_In. split; [apply in_seq; lia|].
  unfold g_crit. pose proof tiny_pos. apply orb_true_iff. destruct P as [[P ->]|[P ->]]; [left|right]; apply andb_true_iff; split.
  - apply Rltb_true. exact P.
  - cbn. apply Rleb_true. rewrite Rabs_R0. lra.
  - apply Rltb_true. exact P.
  - cbn. apply Rleb_true. lra.
Qed.

(** no exception if the linear algebra raises none *)
Lemma calls_raise k c s g Delta gp a f : (forall j k g A D, ms j k g A D <> None) ->
  ms_calls ms n H lb ub k c s g Delta gp a f <> CRaise.
Proof.
  intros NR. revert c gp a f. induction k as [|k IH]; intros c gp a f; cbn [ms_calls]; [discriminate|].
  destruct (ms _ _ _ _ _) as [[d gp']|] eqn:M; [|exfalso; exact (NR _ _ _ _ _ M)].
  match goal with |- context [match ?l with nil => _ | _ :: _ => _ end] => destruct l as [|x cr] end; [discriminate|].
  match goal with |- context [match ?l with nil => _ | _ :: _ => _ end] => destruct l as [|y fs] end; [discriminate|apply IH].
Qed.
Lemma hom_raise left i pass free s out act : (forall p i f s, hom p i f s <> HRaise) ->
  hom_loop hom lb ub left i pass free s out act <> HomRaise.
Proof.
  intros NR. revert i out act. induction left as [|k IH]; intros i out act; cbn [hom_loop];
    (destruct (negb (negb act || out)); [discriminate|]);
    destruct (hom pass (S i) free s) as [d| |] eqn:E; try discriminate; try (exfalso; exact (NR _ _ _ _ E)); try apply IH.
  - destruct (negb _); [|discriminate]. match goal with |- context [if ?b then HomBreak _ _ else _] => destruct b end; discriminate.
  - destruct (negb _); [|apply IH]. match goal with |- context [if ?b then HomBreak _ _ else _] => destruct b end; [discriminate|apply IH].
Qed.
Lemma outer_raise fuel passes calls trials s g Delta norms value gplus active free tag :
  (forall j k g A D, ms j k g A D <> None) -> (forall p i f s, hom p i f s <> HRaise) ->
  outer fuel passes calls trials s g Delta norms value gplus active free tag <> None.
Proof.
  intros N1 N2. revert passes calls trials s g Delta norms value gplus active free tag.
  induction fuel as [|k IH]; intros passes calls trials s g Delta norms value gplus active free tag;
    cbn [bc_outer]; destruct free as [|f0 fr] eqn:FE; try discriminate. rewrite <- FE in *.
  pose proof (calls_raise (length free) calls s g Delta gplus active free N1) as C.
  destruct (ms_calls _ _ _ _ _ _ _ _ _ _ _ _ _) as [|gp c|a1 f1 sa gp c|]; [congruence|discriminate| |discriminate].
  destruct (existsb _ _); [|discriminate].
  match goal with |- context [hom_loop ?a ?b ?c ?d ?e ?f ?g ?h ?i ?j] => pose proof (hom_raise d e f g h i j N2) as HR; destruct (hom_loop a b c d e f g h i j) as [| |t|s' t] end;
    [congruence|discriminate|discriminate|].
  destruct (Rltb _ _); [discriminate|]. destruct (Rltb _ _); [discriminate|].
  match goal with |- context [match ?l with nil => _ | _ :: _ => _ end] => destruct l as [|y fs] end; [discriminate|].
  destruct (forallb _ _); [discriminate|apply IH].
Qed.

Lemma t_ends : within vzero -> (forall j k g A D, ms j k g A D <> None) -> (forall p i f s, hom p i f s <> HRaise) ->
  exists o, solve_bc ms hom n H lb ub g0 Delta0 = Some (Some o).
Proof.
  intros W N1 N2. pose proof (solve_fin ms hom n H lb ub g0 Delta0 W) as F.
  pose proof (outer_raise n 0 0 0 vzero g0 Delta0 0 0 g0 (filter (g_crit lb ub g0) (seq 0 n)) (complement n (filter (g_crit lb ub g0) (seq 0 n))) BcNoFree N1 N2) as R.
  unfold solve_bc in *. destruct (outer _ _ _ _ _ _ _ _ _ _ _ _ _) as [[o|]|]; [exists o; reflexivity|contradiction|congruence].
Qed.

Lemma t_feasible o : within vzero -> solve_bc ms hom n H lb ub g0 Delta0 = Some (Some o) -> within (bc_s o).
Proof. intros W E. pose proof (solve_fin ms hom n H lb ub g0 Delta0 W) as F. rewrite E in F. exact (proj1 F). Qed.

Lemma t_work : within vzero -> solve_bc ms hom n H lb ub g0 Delta0 <> Some None /\
  forall o, solve_bc ms hom n H lb ub g0 Delta0 = Some (Some o) ->
  (bc_passes o <= n)%nat /\ (bc_calls o <= n * n)%nat /\ (bc_trials o <= 100 * n)%nat.
Proof.
  intros W. pose proof (solve_fin ms hom n H lb ub g0 Delta0 W) as F. split.
  - intros E. rewrite E in F. exact F.
  - intros o E. rewrite E in F. destruct F as (_ & A & B & C & _). split; [exact A|]. split; nia.
Qed.

Lemma t_reported o : within vzero -> solve_bc ms hom n H lb ub g0 Delta0 = Some (Some o) ->
  bc_norms o = norm n (bc_s o) /\
  (bc_end o <> BcLimit -> bc_value o = qmodel n g0 H (bc_s o)) /\ (bc_end o = BcLimit -> bc_s o = vzero).
Proof.
  intros W E. pose proof (solve_fin ms hom n H lb ub g0 Delta0 W) as F. rewrite E in F.
  destruct F as (_ & _ & _ & _ & A & B & C). split; [exact A|]. split; [|exact C].
  intros X. rewrite (B X). unfold bc_model, qmodel, quad. rewrite (dot_sym n g0). ring.
Qed.
End More.

Lemma ms_of_bounded chol slv eig eps : 0 <= eps -> (forall k, chol_exact k (chol k)) -> (forall k, slv_exact k (slv k)) ->
  (forall k A i, (i < k)%nat -> 0 < norm k (fun j => fst (eig k A) j i)) ->
  ms_bounded (ms_of chol slv eig eps) eps.
Proof.
  intros HE C SL EV j k g A Delta d gp SA DD E. unfold ms_of in E.
  destruct (solve_MS _ _ _ _ _ _ _ _ _) as [o|] eqn:SO; [|discriminate]. injection E as <- <-.
  assert (Z : norm k vzero <= (1 + eps) * Delta).
  { rewrite (proj2 (norm_zero k vzero)) by (intros i Hi; reflexivity). nra. }
  destruct (Req_EM_T Delta 0) as [->|ND].
  - rewrite (proj1 (t_zero _ _ _ _ _ _ _ _ _ o (or_introl eq_refl) SO)). exact Z.
  - destruct (Rlt_or_le (norm k g ^ 2) (/ 10 ^ 12)) as [L|L].
    + rewrite (proj1 (t_zero _ _ _ _ _ _ _ _ _ o (or_intror L) SO)). exact Z.
    + destruct (ms_hard o) eqn:HC.
      * destruct k as [|k]; [unfold norm, dot; cbn; rewrite sqrt_0; nra|].
        pose proof (fun a b => t_hard_norm _ _ _ _ _ _ _ _ _ o a b (Nat.lt_0_succ k) SO HC) as X.
        destruct (X ltac:(lra) (EV (S k) A)) as (_ & [(_ & N & _)|(_ & N)]); rewrite N; [nra|exact Z].
      * pose proof (fun a => t_regular _ _ _ _ _ _ _ _ _ o (C k) (SL k) SA a L SO HC) as X. destruct (X ltac:(lra)) as (_ & _ & _ & N & B & _). rewrite <- N. exact B.
Qed.
