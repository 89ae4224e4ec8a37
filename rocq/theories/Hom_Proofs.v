(** Proofs about the search for the multiplier: every run is a run of BC_Model. *)
From Coq Require Import Reals Lra Psatz Lia List Arith Bool.
From Verif Require Import RVec RBool Tri ProjGrad_Spec MS_Model MS_Spec MS_Proofs BC_Model BC_Proofs Hom_Model.
Import ListNotations.
Open Scope R_scope.

Lemma filter_seq_nil (f : nat -> bool) m : filter f (seq 0 m) = [] <-> forall k, (k < m)%nat -> f k = false.
Proof.
  split.
  - intros E k Hk. destruct (f k) eqn:F; [|reflexivity]. exfalso.
    assert (I : In k (filter f (seq 0 m))) by (apply filter_In; split; [apply in_seq; lia|exact F]). rewrite E in I. exact I.
  - intros A. destruct (filter f (seq 0 m)) as [|x l] eqn:E; [reflexivity|]. exfalso.
    assert (I : In x (filter f (seq 0 m))) by (rewrite E; left; reflexivity). apply filter_In in I. destruct I as [I F].
    apply in_seq in I. rewrite A in F by lia. discriminate.
Qed.

Section Search.
Variable chol : mat -> option mat.
Variable slv : mat -> vec -> option vec.
Variables (lb ub : nat -> xR) (free : list nat) (Hf : mat) (gf s : vec).
Notation trial := (hom_trial chol slv lb ub free Hf gf s).
Notation search := (hom_search chol slv lb ub free Hf gf s).

(** nothing outside *)
Definition inside_of (sd : vec) : bool := match out_u ub free sd, out_l lb free sd with nil, nil => true | _, _ => false end.

Lemma inside_spec sd : existsb (out_by lb ub 0 sd) free = negb (inside_of sd).
Proof.
  unfold inside_of. destruct (existsb (out_by lb ub 0 sd) free) eqn:E.
  - apply existsb_exists in E. destruct E as (j & J & F). destruct (In_nth free j 0%nat J) as (k & Hk & EK).
    destruct (out_u ub free sd) eqn:OU; [|reflexivity]. destruct (out_l lb free sd) eqn:OL; [|reflexivity]. exfalso.
    unfold out_u in OU. unfold out_l in OL. rewrite filter_seq_nil in OU, OL. specialize (OU k Hk). specialize (OL k Hk).
    unfold comp in OU, OL. rewrite EK in OU, OL. unfold out_by in F. rewrite Rminus_0_r, Rplus_0_r, OU, OL in F. discriminate.
  - assert (OU : out_u ub free sd = []).
    { apply filter_seq_nil. intros k Hk. pose proof (existsb_none _ _ E (comp free k) (nth_In _ _ Hk)) as F.
      unfold out_by in F. rewrite Rminus_0_r, Rplus_0_r in F. apply orb_false_iff in F. exact (proj1 F). }
    assert (OL : out_l lb free sd = []).
    { apply filter_seq_nil. intros k Hk. pose proof (existsb_none _ _ E (comp free k) (nth_In _ _ Hk)) as F.
      unfold out_by in F. rewrite Rminus_0_r, Rplus_0_r in F. apply orb_false_iff in F. exact (proj2 F). }
    rewrite OU, OL. reflexivity.
Qed.

Lemma out_eps_out sd : existsb (out_by lb ub bc_eps sd) free = true -> existsb (out_by lb ub 0 sd) free = true.
Proof.
  intros E. apply existsb_exists in E. destruct E as (j & J & F). apply existsb_exists. exists j. split; [exact J|].
  destruct (out_by lb ub 0 sd j) eqn:Z; [reflexivity|]. exfalso. apply out0 in Z. enough (out_by lb ub bc_eps sd j = false) by congruence.
  apply outr. pose proof eps_pos. destruct (lb j), (ub j); cbn in *; try tauto; lra.
Qed.

(** the point and the step after clearing critical components *)
Definition after (d : vec) : vec := fun i => if memb i free && crit_zero lb ub (vadd s (expand free d)) i then 0 else vadd s (expand free d) i.
Definition cleared (d : vec) : vec := fun k => if crit_zero lb ub (vadd s (expand free d)) (nth k free 0%nat) then 0 else d k.
Definition near_in (d : vec) : bool := negb (existsb (out_by lb ub bc_eps (after d)) free).
Definition touching (d : vec) : bool := existsb (fun i => u_act ub (after d) i || l_act lb (after d) i) free.

(** a trial in terms of its step *)
Inductive shape (st : hst) (out act : bool) : tres -> hans -> Prop :=
| sh_fail : shape st out act (TNext (mkh (h_lam st) (h_upper st) ((1 - / 2) * h_lam st + / 2 * h_upper st) false
    (h_back st) (h_uinit st) (h_linit st)) out act) HFail
| sh_raise : shape st out act TRaise HRaise
| sh_break d : near_in d = true -> touching d = true ->
    shape st out act (TBreak (move lb ub free (after d) (vadd s (expand free (cleared d))))) (HStep d)
| sh_never d : near_in d = false -> shape st out act TNever (HStep d)
| sh_next d st' : (near_in d && touching d)%bool = false -> h_hard st' = false ->
    shape st out act (TNext st' (negb (inside_of (after d))) (if near_in d then false else act)) (HStep d).

Lemma trial_shape st out act : exists a, shape st out act (trial st out act) a.
Proof.
  unfold hom_trial. destruct (chol _) as [U|]; [|eexists; apply sh_fail]. destruct (h_hard st); [eexists; apply sh_fail|].
  destruct (slv (tr U) gf) as [y|]; [|eexists; apply sh_raise]. destruct (slv _ y) as [d|]; [|eexists; apply sh_raise].
  fold (cleared d). fold (after d). cbv zeta.
  fold (near_in d). fold (touching d). fold (inside_of (after d)).
  destruct (target _ _ _ _ _ _ _ _) as [k isu].
  destruct (near_in d && touching d)%bool eqn:NT.
  - exists (HStep d). apply andb_true_iff in NT. destruct NT. apply sh_break; assumption.
  - destruct (negb (Reqb _ _)); [exists (HStep d); apply sh_next; [exact NT|reflexivity]|].
    destruct (slv (tr U) (unitv k)) as [w1|]; [|eexists; apply sh_raise].
    destruct (slv (tr U) (cleared d)) as [w2|]; [|eexists; apply sh_raise].
    destruct (Reqb _ 0).
    + destruct (Rltb _ _ && negb _)%bool eqn:B.
      * exists (HStep d). apply sh_never. apply andb_true_iff in B. destruct B as [_ B]. apply negb_true_iff, orb_false_iff in B. tauto.
      * exists (HStep d). apply sh_next; [exact NT|reflexivity].
    + exists (HStep d). apply sh_next; [exact NT|reflexivity].
Qed.

Lemma fail_loop hom pass left i act : (forall j, (i < j)%nat -> hom pass j free s = HFail) ->
  hom_loop hom lb ub left i pass free s true act = HomLimit (i + left + 1).
Proof.
  revert i. induction left as [|k IH]; intros i F; cbn [hom_loop]; rewrite orb_true_r, (F (S i)) by lia.
  - cbn. f_equal. lia.
  - cbn. rewrite IH by (intros; apply F; lia). f_equal. lia.
Qed.

Lemma raise_loop hom pass left i act : hom pass (S i) free s = HRaise -> hom_loop hom lb ub left i pass free s true act = HomRaise.
Proof. intros E. destruct left; cbn [hom_loop]; rewrite orb_true_r, E; reflexivity. Qed.

Lemma search_refines left : forall i st out act, exists h : nat -> hans, forall hom pass,
  (forall j, (i < j)%nat -> hom pass j free s = h j) -> search left i st out act = hom_loop hom lb ub left i pass free s out act.
Proof.
  induction left as [|k IH]; intros i st out act; destruct (trial_shape st out act) as (a & SH).
  - exists (fun _ => a). intros hom pass HH. cbn [hom_search hom_loop]. destruct (negb (negb act || out)) eqn:C; [reflexivity|].
    rewrite (HH (S i)) by lia. destruct SH as [| |d N T|d N|d st' NT HF]; try reflexivity.
    + cbv zeta. fold (cleared d). fold (after d). fold (near_in d). fold (touching d). rewrite N, T. reflexivity.
    + cbv zeta. fold (cleared d). fold (after d). fold (near_in d). fold (touching d). rewrite N. f_equal. lia.
    + cbv zeta. fold (cleared d). fold (after d). fold (near_in d). fold (touching d). destruct (near_in d); [|reflexivity]. cbn in NT. rewrite NT. reflexivity.
  - destruct (trial st out act) as [|s'| |st' out' act'] eqn:TE.
    + exists (fun _ => a). intros hom pass HH. cbn [hom_search hom_loop]. destruct (negb (negb act || out)) eqn:C; [reflexivity|].
      rewrite (HH (S i)) by lia. rewrite TE. inversion SH. reflexivity.
    + exists (fun _ => a). intros hom pass HH. cbn [hom_search hom_loop]. destruct (negb (negb act || out)) eqn:C; [reflexivity|].
      rewrite (HH (S i)) by lia. rewrite TE. inversion SH as [| |d N T E1 E2|d N|d st' NT HF]. subst.
      cbv zeta. fold (cleared d). fold (after d). fold (near_in d). fold (touching d). rewrite N, T. reflexivity.
    + exists (fun j => if Nat.eqb j (S i) then a else HFail). intros hom pass HH. cbn [hom_search hom_loop].
      destruct (negb (negb act || out)) eqn:C; [reflexivity|].
      rewrite (HH (S i)) by lia. rewrite Nat.eqb_refl, TE. inversion SH as [| |d N T E1 E2|d N|d st' NT HF]. subst.
      cbv zeta. fold (cleared d). fold (after d). fold (near_in d). fold (touching d). rewrite N.
      rewrite out_eps_out by (unfold near_in in N; apply negb_false_iff in N; exact N).
      rewrite fail_loop; [f_equal; lia|]. intros j Hj. rewrite HH by lia. destruct (Nat.eqb_spec j (S i)); [lia|reflexivity].
    + destruct (IH (S i) st' out' act') as (h' & IHh).
      exists (fun j => if Nat.eqb j (S i) then a else h' j). intros hom pass HH. cbn [hom_search hom_loop].
      destruct (negb (negb act || out)) eqn:C; [reflexivity|].
      assert (REST : forall j, (S i < j)%nat -> hom pass j free s = h' j).
      { intros j Hj. rewrite HH by lia. destruct (Nat.eqb_spec j (S i)); [lia|reflexivity]. }
      rewrite (HH (S i)) by lia. rewrite Nat.eqb_refl, TE. inversion SH as [E1 E2|  |d N T E1 E2|d N|d st1 NT HF E1 E2]; subst.
      * exact (IHh hom pass REST).
      * cbv zeta. fold (cleared d). fold (after d). fold (near_in d). fold (touching d). rewrite (inside_spec (after d)).
        rewrite (IHh hom pass REST). destruct (near_in d); [|reflexivity]. cbn in NT. rewrite NT. reflexivity.
Qed.
End Search.

(** ** The solver *)
Section Solver.
Variable ms : nat -> nat -> vec -> mat -> R -> option ms_out.
Variable chol : nat -> mat -> option mat.
Variable slv : nat -> mat -> vec -> option vec.
Variables (n : nat) (H : mat) (lb ub : nat -> xR) (g0 : vec) (Delta0 : R).

Lemma outer_refines fuel : forall passes calls trials s g Delta norms value gplus active free tag,
  exists h : nat -> nat -> hans, forall hom, (forall p j f s, (passes < p)%nat -> hom p j f s = h p j) ->
  bcx_outer ms chol slv n H lb ub g0 Delta0 fuel passes calls trials s g Delta norms value gplus active free tag =
  bc_outer (ms_part ms) hom n H lb ub g0 Delta0 fuel passes calls trials s g Delta norms value gplus active free tag.
Proof.
  induction fuel as [|k IH]; intros passes calls trials s g Delta norms value gplus active free tag.
  - exists (fun _ _ => HRaise). intros hom _. reflexivity.
  - destruct free as [|f0 fr] eqn:FE; [exists (fun _ _ => HRaise); intros hom _; reflexivity|]. rewrite <- FE.
    destruct (ms_calls (ms_part ms) n H lb ub (length free) calls s g Delta gplus active free) as [|gp c|a1 f1 sa gp c|] eqn:MC;
      try (exists (fun _ _ => HRaise); intros hom _; cbn [bcx_outer bc_outer]; rewrite FE; cbv zeta; rewrite <- FE, MC; reflexivity).
    assert (HR : exists h : nat -> hans, forall hom, (forall j f s, hom (S passes) j f s = h j) ->
      search_of ms chol slv n H lb ub c f1 s g sa Delta = hom_loop hom lb ub 99 0 (S passes) f1 s true
        (existsb (fun i => u_act ub sa i || l_act lb sa i)%bool f1)).
    { unfold search_of. destruct (ms c (length f1) (sub_vec f1 g) (sub_mat f1 H) Delta) as [o|].
      - destruct (search_refines (chol (length f1)) (slv (length f1)) lb ub f1 (sub_mat f1 H) (sub_vec f1 g) s 99 0
          (hom_start lb ub f1 s n g H (ms_lambda o) (ms_hard o) sa) true
          (existsb (fun i => u_act ub sa i || l_act lb sa i)%bool f1)) as (h & Hh).
        exists h. intros hom HH. apply Hh. intros j _. apply HH.
      - exists (fun _ => HRaise). intros hom HH. symmetry. apply raise_loop. apply HH. }
    destruct HR as (h1 & H1).
    destruct (search_of ms chol slv n H lb ub c f1 s g sa Delta) as [| |i|s' i] eqn:SO.
    1-3: exists (fun p j => h1 j); intros hom HH; cbn [bcx_outer bc_outer]; rewrite FE; cbv zeta; rewrite <- FE, MC, SO;
      rewrite <- (H1 hom) by (intros; apply HH; lia); reflexivity.
    destruct (IH (S passes) c (trials + i)%nat s' (vadd g0 (mv n H s')) (Delta0 - norm n s') (norm n s') (bc_model n H g0 s') gp
      (filter (at_bound lb ub s') (seq 0 n) ++ filter (g_crit lb ub (vadd g0 (mv n H s'))) (complement n (filter (at_bound lb ub s') (seq 0 n))))
      (filter (fun i => negb (memb i (filter (at_bound lb ub s') (seq 0 n) ++ filter (g_crit lb ub (vadd g0 (mv n H s')))
        (complement n (filter (at_bound lb ub s') (seq 0 n)))))) (complement n (filter (at_bound lb ub s') (seq 0 n)))) BcNoFree) as (h2 & H2).
    exists (fun p j => if Nat.eqb p (S passes) then h1 j else h2 p j). intros hom HH. cbn [bcx_outer bc_outer]. rewrite FE. cbv zeta. rewrite <- FE, MC, SO.
    rewrite <- (H1 hom) by (intros; rewrite HH by lia; rewrite Nat.eqb_refl; reflexivity).
    rewrite (H2 hom); [reflexivity|]. intros p j f s0 Hp. rewrite HH by lia. destruct (Nat.eqb_spec p (S passes)); [lia|reflexivity].
Qed.

Lemma t_refines : exists hom, solve_bcx ms chol slv n H lb ub g0 Delta0 = solve_bc (ms_part ms) hom n H lb ub g0 Delta0.
Proof.
  destruct (outer_refines n 0 0 0 vzero g0 Delta0 0 0 g0 (filter (g_crit lb ub g0) (seq 0 n))
    (complement n (filter (g_crit lb ub g0) (seq 0 n))) BcNoFree) as (h & Hh).
  exists (fun p j _ _ => h p j). apply Hh. reflexivity.
Qed.
End Solver.
