(** A variable along which nothing happens stays at its bound in the bound-constrained solver. *)
From Coq Require Import Reals Lra Psatz Lia List Arith Bool.
From Verif Require Import RVec RBool Tri ProjGrad_Spec MS_Model MS_Spec BC_Model BC_Spec BC_Proofs BC_More Hom_Model Hom_Spec Hom_Proofs Hom_Len Slk_Spec.
Import ListNotations.
Open Scope R_scope.

(** the unconstrained solver does not move along a coordinate in which nothing happens *)
Definition still (ms : nat -> nat -> vec -> mat -> R -> option (vec * vec)) : Prop :=
  forall j k g A D d gp i, symmetric k A -> possemidef k A -> 0 <= D -> ms j k g A D = Some (d, gp) -> (i < k)%nat -> g i = 0 -> (forall l, (l < k)%nat -> A i l = 0) -> d i = 0.

Lemma sound_still ms eps : ms_sound ms eps -> never_hard ms -> still (ms_part ms).
Proof.
  intros MS NH j k g A D d gp i SA PA D0 E Hi G0 A0. unfold ms_part in E. destruct (ms j k g A D) as [o|] eqn:EO; [|discriminate]. injection E as <- _.
  destruct (MS j k g A D o SA D0 EO) as [_ P]. 
  destruct (Req_EM_T (norm k (ms_s o)) 0) as [V|V]; [exact (proj1 (norm_zero k _) V i Hi)|]. rewrite norm_zero in V.
  destruct (P V) as (L0 & ST & _ & PD & _). specialize (PD (NH _ _ _ _ _ _ SA PA EO)).
  assert (NU : ~ veq k (unitv i) vzero). { intros X. specialize (X i Hi). unfold unitv, vzero in X. rewrite Nat.eqb_refl in X. lra. }
  specialize (PD (unitv i) NU).
  assert (QU : quad k A (unitv i) = A i i).
  { unfold quad. rewrite dot_unitv by exact Hi. unfold mv. rewrite (rsum_single k i); [unfold unitv; rewrite Nat.eqb_refl; ring|exact Hi|].
    intros l _ N. unfold unitv. rewrite (proj2 (Nat.eqb_neq _ _) N). ring. }
  rewrite QU, (A0 i Hi), dot_unitv in PD by exact Hi. unfold unitv in PD. rewrite Nat.eqb_refl in PD.
  specialize (ST i Hi). rewrite G0 in ST. assert (M0 : mv k A (ms_s o) i = 0) by (apply rsum_zero; intros l Hl; rewrite (A0 l Hl); ring).
  rewrite M0 in ST. nra.
Qed.

Section More.
Variable ms : nat -> nat -> vec -> mat -> R -> option (vec * vec).
Variable hom : nat -> nat -> list nat -> vec -> hans.
Variables (n : nat) (H : mat) (lb ub : nat -> xR) (g0 : vec) (Delta0 : R).
Notation within := (in_bounds n lb ub).
Notation outer := (bc_outer ms hom n H lb ub g0 Delta0).

Lemma expand_at f d i p : (p < length f)%nat -> nth p f 0%nat = i -> NoDup f -> expand f d i = d p.
Proof.
  intros P E ND. unfold expand. rewrite (rsum_single (length f) p); [unfold idm; rewrite E, Nat.eqb_refl; ring|exact P|].
  intros j J N. unfold idm. destruct (Nat.eqb_spec i (nth j f 0%nat)) as [X|X]; [|ring]. exfalso. apply N.
  apply (proj1 (NoDup_nth f 0%nat) ND j p J P). congruence.
Qed.

Lemma sub_psd l : possemidef n H -> NoDup l -> (forall i, In i l -> (i < n)%nat) -> possemidef (length l) (sub_mat l H).
Proof.
  intros PH ND B y. replace (quad (length l) (sub_mat l H) y) with (quad n H (expand l y)); [apply PH|].
  unfold quad. rewrite (dot_expand n l y _ ND B). apply dot_ext; [intros i _; reflexivity|]. intros i Hi. symmetry. apply (sub_mv n l H y i ND B Hi).
Qed.

Lemma outer_still i fuel passes calls trials s g Delta norms value gplus active free tag :
  still ms -> symmetric n H -> possemidef n H -> (i < n)%nat -> lb i = Fin 0 -> g0 i = 0 -> (forall l, (l < n)%nat -> H i l = 0) ->
  within s -> within vzero -> good n active free -> s i = 0 -> g i = 0 -> 0 <= Delta ->
  match outer fuel passes calls trials s g Delta norms value gplus active free tag with
  | Some (Some o) => bc_s o i = 0
  | _ => True
  end.
Proof.
  intros ST SH PH Hi LB G0 H0. revert passes calls trials s g Delta norms value gplus active free tag.
  induction fuel as [|k IH]; intros passes calls trials s g Delta norms value gplus active free tag W W0 G S0 GI D0;
    cbn [bc_outer]; destruct free as [|f0 fr] eqn:FE; try exact S0; try exact I.
  rewrite <- FE in *. assert (NE : free <> []) by (rewrite FE; discriminate).
  pose proof (calls_spec ms hom n H lb ub g0 (length free) calls s g Delta gplus active free G (le_n _) NE) as CS.
  destruct (ms_calls ms n H lb ub (length free) calls s g Delta gplus active free) as [|gp c|a1 f1 sa gp c|]; [exact I|exact S0| |exact I].
  destruct CS as (G1 & I1 & NE1 & CC1 & (d & gp' & MS & SA) & CR).
  assert (B1 : forall j, In j f1 -> (j < n)%nat) by (intros j X; apply G1; exact X).
  assert (NI1 : ~ In i f1).
  { intros X. destruct (CR i X) as [_ C]. destruct (In_nth f1 i 0%nat X) as (p & P & E).
    assert (DP : d p = 0).
    { apply (ST _ _ _ _ _ _ _ p (sub_sym n H f1 SH B1) (sub_psd f1 PH (proj2 G1) B1) D0 MS P); [unfold sub_vec; rewrite E; exact GI|].
      intros l L. unfold sub_mat. rewrite E. apply H0, B1, nth_In, L. }
    assert (S1 : sa i = 0) by (rewrite SA; unfold vadd; rewrite (expand_at f1 d i p P E (proj2 G1)), S0, DP; ring).
    unfold l_crit, below in C. rewrite LB, S1 in C. pose proof eps_pos. pose proof tiny_pos. apply andb_false_iff in C.
    cbn in C. destruct C as [C|C]; apply Rleb_false in C; lra. }
  destruct (existsb (out_by lb ub 0 sa) f1) eqn:O.
  - pose proof (hom_spec ms hom n H lb ub g0 Delta0 99 0 (S passes) f1 s true (existsb (fun i => u_act ub sa i || l_act lb sa i)%bool f1) W (or_introl eq_refl) B1) as HS.
    destruct (hom_loop hom lb ub 99 0 (S passes) f1 s true _) as [| |t|s' t]; [exact I|exact I|reflexivity|].
    destruct HS as (HI & W' & SAME & EX).
    assert (S0' : s' i = 0) by (rewrite SAME by exact NI1; exact S0).
    destruct (Rltb _ _); [exact S0'|]. destruct (Rltb_spec (Delta0 - norm n s') 0) as [L|L]; [exact S0'|].
    destruct (complement n (filter (at_bound lb ub s') (seq 0 n))) as [|y ys] eqn:F2; [exact S0'|].
    rewrite <- F2 in *. destruct (forallb _ _); [exact S0'|].
    apply IH; auto.
    + split; [|apply NoDup_filter, complement_nodup]. intros k'. rewrite filter_In, negb_true_iff, memb_false.
      rewrite complement_in, in_app_iff. tauto.
    + unfold vadd. rewrite G0. rewrite Rplus_0_l. apply rsum_zero. intros l Hl. rewrite (H0 l Hl). ring.
    + lra.
  - cbn. rewrite SA. unfold vadd. rewrite expand_out by exact NI1. lra.
Qed.

Lemma t_still o i : still ms -> symmetric n H -> possemidef n H -> (i < n)%nat -> lb i = Fin 0 -> g0 i = 0 -> (forall l, (l < n)%nat -> H i l = 0) ->
  within vzero -> 0 <= Delta0 -> solve_bc ms hom n H lb ub g0 Delta0 = Some (Some o) -> bc_s o i = 0.
Proof.
  intros ST SH PH Hi LB G0 H0 W D0 E. unfold solve_bc in E.
  pose proof (outer_still i n 0 0 0 vzero g0 Delta0 0 0 g0 _ _ BcNoFree ST SH PH Hi LB G0 H0 W W
    (good_complement n (filter (g_crit lb ub g0) (seq 0 n))) eq_refl G0 D0) as X.
  rewrite E in X. exact X.
Qed.
End More.
