(** Proofs about the search with stratLam = 0: every run is a run of BC_Model; what a trial does. *)
From Coq Require Import Reals Lra Psatz Lia List Arith Bool.
From Verif Require Import RVec RBool Tri ProjGrad_Spec MS_Model MS_Spec MS_Proofs MS_More BC_Model BC_Proofs Hom_Model Hom_Spec Hom_Proofs Hom_More Bis_Model.
Import ListNotations.
Open Scope R_scope.

Section Search.
Variable chol : mat -> option mat.
Variable slv : mat -> vec -> option vec.
Variables (lb ub : nat -> xR) (free : list nat) (Hf : mat) (gf s : vec).
Notation m := (length free).
Notation trial := (bis_trial chol slv lb ub free Hf gf s).
Notation search := (bis_search chol slv lb ub free Hf gf s).
Notation states := (bis_states chol slv lb ub free Hf gf s).
Notation shape := (shape lb ub free s).
Notation after := (after lb ub free s).
Notation cleared := (cleared lb ub free s).
Notation near_in := (near_in lb ub free s).
Notation touching := (touching lb ub free s).
Notation inside_of := (inside_of lb ub free).

Lemma bis_shape st out act : (exists a, shape st out act (trial st out act) a) /\ trial st out act <> TNever.
Proof.
  unfold bis_trial. destruct (chol _) as [U|]; [|split; [eexists; apply sh_fail|discriminate]].
  destruct (h_hard st); [split; [eexists; apply sh_fail|discriminate]|].
  destruct (slv (tr U) gf) as [y|]; [|split; [eexists; apply sh_raise|discriminate]]. destruct (slv _ y) as [d|]; [|split; [eexists; apply sh_raise|discriminate]].
  fold (cleared d). fold (after d). cbv zeta. fold (near_in d). fold (touching d). fold (inside_of (after d)).
  destruct (near_in d && touching d)%bool eqn:NT.
  - split; [|discriminate]. exists (HStep d). apply andb_true_iff in NT. destruct NT. apply sh_break; assumption.
  - destruct (negb (_ || _)); (split; [exists (HStep d); apply sh_next; [exact NT|reflexivity]|discriminate]).
Qed.

Lemma bis_refines left : forall i st out act, exists h : nat -> hans, forall hom pass,
  (forall j, (i < j)%nat -> hom pass j free s = h j) -> search left i st out act = hom_loop hom lb ub left i pass free s out act.
Proof.
  induction left as [|k IH]; intros i st out act; destruct (bis_shape st out act) as ((a & SH) & NV).
  - exists (fun _ => a). intros hom pass HH. cbn [bis_search hom_loop]. destruct (negb (negb act || out)) eqn:C; [reflexivity|].
    rewrite (HH (S i)) by lia. destruct SH as [| |d N T|d N|d st' NT HF]; try reflexivity.
    + cbv zeta. fold (cleared d). fold (after d). fold (near_in d). fold (touching d). rewrite N, T. reflexivity.
    + congruence.
    + cbv zeta. fold (cleared d). fold (after d). fold (near_in d). fold (touching d). destruct (near_in d); [|reflexivity]. cbn in NT. rewrite NT. reflexivity.
  - destruct (trial st out act) as [|s'| |st' out' act'] eqn:TE; [| |congruence|].
    + exists (fun _ => a). intros hom pass HH. cbn [bis_search hom_loop]. destruct (negb (negb act || out)) eqn:C; [reflexivity|].
      rewrite (HH (S i)) by lia. rewrite TE. inversion SH. reflexivity.
    + exists (fun _ => a). intros hom pass HH. cbn [bis_search hom_loop]. destruct (negb (negb act || out)) eqn:C; [reflexivity|].
      rewrite (HH (S i)) by lia. rewrite TE. inversion SH as [| |d N T E1 E2|d N|d st' NT HF]. subst.
      cbv zeta. fold (cleared d). fold (after d). fold (near_in d). fold (touching d). rewrite N, T. reflexivity.
    + destruct (IH (S i) st' out' act') as (h' & IHh).
      exists (fun j => if Nat.eqb j (S i) then a else h' j). intros hom pass HH. cbn [bis_search hom_loop].
      destruct (negb (negb act || out)) eqn:C; [reflexivity|].
      assert (REST : forall j, (S i < j)%nat -> hom pass j free s = h' j).
      { intros j Hj. rewrite HH by lia. destruct (Nat.eqb_spec j (S i)); [lia|reflexivity]. }
      rewrite (HH (S i)) by lia. rewrite Nat.eqb_refl, TE. inversion SH as [E1 E2|  |d N T E1 E2|d N|d st1 NT HF E1 E2]; subst.
      * exact (IHh hom pass REST).
      * cbv zeta. fold (cleared d). fold (after d). fold (near_in d). fold (touching d). rewrite (inside_spec lb ub free (after d)).
        rewrite (IHh hom pass REST). destruct (near_in d); [|reflexivity]. cbn in NT. rewrite NT. reflexivity.
Qed.

(** ** A trial with exact linear algebra *)
Hypothesis CE : chol_exact m chol.
Hypothesis SE : slv_exact m slv.
Hypothesis SH : symmetric m Hf.

Definition bfollows (st : hst) (out act : bool) (d : vec) (r : tres) : Prop :=
  let acts := if near_in d then false else act in
  let inside := inside_of (after d) in
  (near_in d = true /\ touching d = true /\ r = TBreak (move lb ub free (after d) (vadd s (expand free (cleared d))))) \/
  ((near_in d && touching d)%bool = false /\
   ((h_back st = false /\ near_in d = false /\
     r = TNext (mkh (h_lower st) (if Rltb (h_upper st) (2 * h_lam st) then 2 * (2 * h_lam st) else h_upper st) (2 * h_lam st) false false (h_uinit st) (h_linit st)) (negb inside) acts) \/
    ((h_back st = true \/ near_in d = true) /\
     let l := if inside then h_lower st else h_lam st in
     let u := if inside then h_lam st else h_upper st in
     r = TNext (mkh l u (bis_keep l u (h_lam st)) false true (h_uinit st) (h_linit st)) (negb inside) acts))).

Lemma bis_cases st out act :
  ((h_hard st = true \/ ~ shift_pd m Hf (h_lam st)) /\
    trial st out act = TNext (mkh (h_lam st) (h_upper st) ((1 - / 2) * h_lam st + / 2 * h_upper st) false
      (h_back st) (h_uinit st) (h_linit st)) out act) \/
  (h_hard st = false /\ shift_pd m Hf (h_lam st) /\
    exists d, stationary m gf Hf (h_lam st) d /\ bfollows st out act d (trial st out act)).
Proof.
  unfold bis_trial. destruct (chol (shifted Hf (h_lam st))) as [U|] eqn:CU.
  2:{ left. split; [right; apply (chol_none m chol); assumption|reflexivity]. }
  destruct (h_hard st) eqn:HH; [left; split; [left; reflexivity|reflexivity]|]. right. split; [reflexivity|].
  split; [eapply chol_pd; eassumption|].
  pose proof (proj1 (CE _ (symmetric_shifted m Hf (h_lam st) SH)) U CU) as (UP & DN & SQ).
  assert (TT : triangle m (tr U)) by (apply triangle_tr; split; [right; exact UP|exact DN]).
  destruct (SE (tr U) gf TT) as (y & Ey & _). destruct (SE (fun i j => - U i j) y (neg_triangle m U UP DN)) as (d & Ed & _).
  rewrite Ey, Ed. exists d. split; [exact (chol_solution m chol slv Hf gf (h_lam st) U y d CE SE SH CU Ey Ed)|].
  fold (cleared d). fold (after d). cbv zeta. fold (near_in d). fold (touching d). fold (inside_of (after d)).
  replace ((h_lam st + h_lam st) / 2) with (h_lam st) by field.
  unfold bfollows. cbv zeta. destruct (near_in d && touching d)%bool eqn:NT.
  { left. apply andb_true_iff in NT. destruct NT. split; [assumption|]. split; [assumption|reflexivity]. }
  right. split; [reflexivity|]. destruct (h_back st), (near_in d); cbn [orb negb]; auto.
Qed.

Lemma bis_total left : forall i st out act, search left i st out act <> HomRaise.
Proof.
  induction left as [|k IH]; intros i st out act; cbn [bis_search]; (destruct (negb (negb act || out)); [discriminate|]);
    destruct (bis_cases st out act) as [(_ & ->)|(_ & _ & d & _ & [(_ & _ & ->)|(_ & [(_ & _ & ->)|(_ & ->)])])]; try discriminate; try apply IH.
Qed.

(** ** A start from the unconstrained solution *)
Variables (lam0 : R) (d0 : vec).
Hypothesis L0 : 0 <= lam0.
Hypothesis ST0 : stationary m gf Hf lam0 d0.
Hypothesis PS0 : shift_psd m Hf lam0.

Definition binv (st : hst) : Prop := lam0 <= h_lower st /\ lam0 < h_upper st /\ lam0 < h_lam st.

Lemma inner_above l u : lam0 <= l -> lam0 < u -> (l = lam0 \/ lam0 < l) -> lam0 < hom_inner l u.
Proof.
  intros A B C. unfold hom_inner. destruct (Rltb_spec (l * u) 0); [nra|]. pose proof theta_range as T.
  destruct C as [->|C].
  - eapply Rlt_le_trans; [|apply Rmax_r]. nra.
  - eapply Rlt_le_trans; [|apply Rmax_l]. rewrite <- (sqrt_square lam0 L0). apply sqrt_lt_1_alt. split; [nra|]. nra.
Qed.
Lemma keep_above l u new : lam0 <= l -> lam0 < u -> lam0 < new -> lam0 < bis_keep l u new.
Proof.
  intros A B C. unfold bis_keep. cbv zeta. destruct (_ && _)%bool; [exact C|]. apply inner_above; [exact A|exact B|lra].
Qed.

Lemma binv_next st out act st' out' act' : binv st -> trial st out act = TNext st' out' act' -> binv st'.
Proof.
  intros (I1 & I2 & I3) E. destruct (bis_cases st out act) as [(_ & E')|(_ & _ & d & _ & F)].
  - rewrite E' in E. injection E as <- <- <-. unfold binv. cbn. lra.
  - unfold bfollows in F. cbv zeta in F. destruct F as [(_ & _ & F)|(_ & [(_ & _ & F)|(_ & F)])]; rewrite F in E; try discriminate; injection E as <- <- <-; unfold binv; cbn [h_lower h_upper h_lam].
    + split; [exact I1|]. split; [|lra]. destruct (Rltb _ _); lra.
    + set (ins := inside_of (after d)) in *. assert (A : lam0 <= (if ins then h_lower st else h_lam st)) by (destruct ins; lra).
      assert (B : lam0 < (if ins then h_lam st else h_upper st)) by (destruct ins; lra).
      split; [exact A|]. split; [exact B|]. apply keep_above; assumption.
Qed.
Lemma binv_states k : forall st out act st' out' act', binv st -> states k st out act = Some (st', out', act') -> binv st'.
Proof.
  induction k as [|k IH]; intros st out act st' out' act' I0 E; cbn [bis_states] in E; [injection E as <- <- <-; exact I0|].
  destruct (trial st out act) as [| | |st1 o1 a1] eqn:T; try discriminate. exact (IH _ _ _ _ _ _ (binv_next _ _ _ _ _ _ I0 T) E).
Qed.
Lemma binv_pd st : binv st -> shift_pd m Hf (h_lam st).
Proof. intros (_ & _ & I). exact (pd_above m Hf lam0 _ PS0 I). Qed.

(** where a search that finds a step comes from *)
Lemma bis_found left : forall i st out act s' j, binv st -> search left i st out act = HomBreak s' j ->
  exists lam d, lam0 < lam /\ shift_pd m Hf lam /\ stationary m gf Hf lam d /\ near_in d = true /\ touching d = true /\
    s' = move lb ub free (after d) (vadd s (expand free (cleared d))).
Proof.
  induction left as [|k IH]; intros i st out act s' j I0 E; cbn [bis_search] in E;
    (destruct (negb (negb act || out)); [discriminate|]); destruct (trial st out act) as [|s1| |st' out' act'] eqn:T; try discriminate.
  1,2: injection E as <- <-; destruct (bis_cases st out act) as [(_ & X)|(_ & PD & d & SD & F)]; [rewrite X in T; discriminate|];
    destruct F as [(N & TT & X)|(_ & [(_ & _ & X)|(_ & X)])]; rewrite X in T; try discriminate; injection T as <-;
    exists (h_lam st), d; destruct I0 as (I1 & I2 & I3); repeat split; assumption.
  exact (IH _ _ _ _ _ _ (binv_next _ _ _ _ _ _ I0 T) E).
Qed.
End Search.
