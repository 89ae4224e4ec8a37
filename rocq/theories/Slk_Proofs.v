(** A slack that is zero stays zero in the trust-region step. *)
From Coq Require Import Reals Lra Psatz Lia List Arith Bool ZArith.
From Verif Require Import RVec RBool Tri ProjGrad_Spec MS_Model MS_Spec BC_Model BC_Spec BC_Proofs BC_More Hom_Model Hom_Spec Hom_Proofs Hess_Model Null_Model Null_Spec Null_Proofs
  CG_Model TR_Model TR_Spec TR_Proofs Step_Spec Mult_Model Lib_Model Lib_Spec Lib_Proofs Lib_More Slk_Model Slk_Spec Slk_BC.
Import ListNotations.
Open Scope R_scope.

(** ** adjustment *)
Lemma adjust_spec nsl me ce slp i : (i < nsl)%nat -> (nsl <= me)%nat ->
  (slp i <> 0 -> adjust nsl me ce slp i = slp i) /\
  (slp i = 0 -> ce (me - nsl + i)%nat <= 1 / 100 -> adjust nsl me ce slp i = 0) /\
  (slp i = 0 -> 1 / 100 < ce (me - nsl + i)%nat -> 1 / 10 < adjust nsl me ce slp i /\ with_slacks nsl me ce (adjust nsl me ce slp) (me - nsl + i)%nat = 0).
Proof.
  intros Hi L. assert (A : forall v, ce (me - nsl + i)%nat = v -> adjust nsl me ce slp i = if (Reqb (slp i) 0 && Rltb (1 / 100) v)%bool then sqrt v else slp i) by (intros v <-; reflexivity).
  specialize (A _ eq_refl). split; [|split].
  - intros N. rewrite A, (proj2 (Reqb_false _ _) N). reflexivity.
  - intros Z V. rewrite A, (proj2 (Rltb_false _ _) V), andb_false_r. exact Z.
  - intros Z V. rewrite (proj2 (Reqb_true _ _) Z), (proj2 (Rltb_true _ _) V) in A. cbn [andb] in A.
    split.
    + rewrite A. apply Rsqr_incrst_0; [|lra|apply sqrt_pos]. rewrite Rsqr_sqrt by lra. unfold Rsqr. lra.
    + unfold with_slacks. destruct (Nat.ltb_spec (me - nsl + i) (me - nsl)); [lia|]. replace (me - nsl + i - (me - nsl))%nat with i by lia.
      rewrite A. rewrite <- Rsqr_pow2, Rsqr_sqrt by lra. ring.
Qed.

Lemma adjust_residual nsl me ce slp : (nsl <= me)%nat -> norm me (with_slacks nsl me ce (adjust nsl me ce slp)) <= norm me (with_slacks nsl me ce slp).
Proof.
  intros L. unfold norm. apply sqrt_le_1_alt. unfold dot. apply rsum_le. intros k K.
  destruct (Nat.ltb_spec k (me - nsl)) as [C|C].
  - unfold with_slacks. rewrite (proj2 (Nat.ltb_lt _ _) C). lra.
  - set (i := (k - (me - nsl))%nat). assert (Hi : (i < nsl)%nat) by (unfold i; lia). assert (KE : k = (me - nsl + i)%nat) by (unfold i; lia).
    destruct (adjust_spec nsl me ce slp i Hi L) as (A1 & A2 & A3).
    destruct (Req_EM_T (slp i) 0) as [Z|Z].
    + destruct (Rle_or_lt (ce (me - nsl + i)%nat) (1 / 100)) as [V|V].
      * unfold with_slacks. rewrite (proj2 (Nat.ltb_ge _ _) C). fold i. rewrite (A2 Z V), Z. lra.
      * destruct (A3 Z V) as [_ R0]. rewrite KE, R0. nra.
    + unfold with_slacks. rewrite (proj2 (Nat.ltb_ge _ _) C). fold i. rewrite (A1 Z). lra.
Qed.

(** ** tangential step *)
Lemma comp_perp k w dc dn D : dot k w dc = 0 -> dot k w dn = 0 -> dot k w (fst (comp_dir k dc dn D)) = 0.
Proof.
  intros A B. unfold comp_dir. destruct (Reqb _ 0); [exact A|]. destruct (Rleb 0 _); [exact A|]. cbn [fst].
  match goal with |- context [vscal ?t _] => generalize t end. intros t. rewrite dot_add_r, dot_scal_r, dot_sub_r, A, B. ring.
Qed.

Lemma loop_perp k A w D tol2 mi : (forall v, dot k w (mv k A v) = 0) -> forall rem it x g prev,
  dot k w x = 0 -> dot k w g = 0 -> (forall d a, prev = Some (d, a) -> dot k w d = 0) ->
  dot k w (tcg_x (tcg_loop k A D tol2 mi rem it x g prev)) = 0.
Proof.
  intros HA. induction rem as [|rem IH]; intros it x g prev HX HG HP; cbn [tcg_loop]; destruct (Rleb (dot k g g) tol2); try exact HX.
  set (d := match prev with None => vneg g | Some (d_, g2_) => vadd (vneg g) (vscal (dot k g g / g2_) d_) end).
  assert (HD : dot k w d = 0).
  { unfold d. destruct prev as [[d_ a]|].
    - rewrite dot_add_r, dot_scal_r, dot_neg_r, HG, (HP d_ a eq_refl). ring.
    - rewrite dot_neg_r, HG. ring. }
  destruct (Rleb (dot k d (mv k A d)) 0).
  - cbn [tcg_x]. apply comp_perp; [exact HX|]. rewrite dot_add_r, HX, HD. ring.
  - set (al := - dot k g d / dot k d (mv k A d)).
    assert (HXX : dot k w (vadd x (vscal al d)) = 0) by (rewrite dot_add_r, dot_scal_r, HX, HD; ring).
    destruct (Rltb _ _); [cbn [tcg_x]; apply comp_perp; assumption|].
    apply IH; [exact HXX| |intros ? ? E; injection E as <- _; exact HD].
    rewrite dot_add_r, dot_scal_r, HG, HA. ring.
Qed.

Lemma cg_perp k A b w D mi tol u a : (forall v, dot k w (mv k A v) = 0) -> dot k w b = 0 -> cg_of mi tol k A b D = Some (u, a) -> dot k w u = 0.
Proof.
  intros HA HB E. unfold cg_of in E. injection E as <- _. unfold truncated_cg.
  apply loop_perp; [exact HA|apply dot_zero_r| |discriminate]. rewrite dot_neg_r, HB. ring.
Qed.

Lemma turn dim k Z (w y : vec) : dot k w (mv dim (fun j i => Z i j) y) = dot dim (mv k Z w) y.
Proof.
  unfold dot, mv. rewrite (rsum_ext k _ (fun p => rsum dim (fun a => w p * (Z a p * y a)))) by (intros; symmetry; apply rsum_scal).
  rewrite rsum_swap. apply rsum_ext. intros a _. rewrite <- rsum_scal_r. apply rsum_ext. intros; ring.
Qed.

Section Step.
Variable restore : nat -> vec -> mat -> (nat -> xR) -> (nat -> xR) -> R -> option (vec * rmsg).
Variable cvx : mat -> mat.
Variable null : list vec -> option (nat * mat).
Variable mult : nat -> vec -> option vec.
Variables (n nsl : nat) (lb ub : nat -> xR) (thr : R).
Variables (M0 : mat) (ce : list R) (ae : list vec) (sl : vec) (mi : nat) (tol : R) (q : nat).
Notation D := (n + nsl)%nat.
Notation i0 := (n + q)%nat.
Hypothesis Q : (q < nsl)%nat.
Hypothesis SP : forall rows k Z, null rows = Some (k, Z) -> spans_free D rows k Z.

(** the gradient and all rows vanish along the slack *)
Definition flat (s : st) : Prop := s_g s i0 = 0 /\ forall a, In a (s_gcon s) -> a i0 = 0.

Lemma mx_flat v : mv D (Mx n M0) v i0 = 0.
Proof.
  apply rsum_zero. intros j _. unfold Mx. destruct (Nat.ltb_spec i0 n); [lia|]. cbn [andb]. ring.
Qed.

Lemma tangent_flat s r t a : flat s -> tangent null (cg_of mi tol) n nsl M0 s r = Some (t, a) -> t i0 = 0.
Proof.
  intros [FG FR] E. unfold tangent in E. destruct (_ <? _)%nat; [|injection E as <- _; reflexivity].
  destruct (null (s_gcon s)) as [[k Z]|] eqn:EN; [|discriminate]. change (dim n nsl) with D in E.
  pose proof (SP _ _ _ EN i0 ltac:(lia) FR) as SPAN. set (w := mv D (tr Z) (unitv i0)) in *.
  assert (WE : forall j, w j = Z i0 j).
  { intros j. unfold w, mv, tr. rewrite (rsum_single D i0); [unfold unitv; rewrite Nat.eqb_refl; ring|lia|].
    intros p _ N. unfold unitv. rewrite (proj2 (Nat.eqb_neq _ _) N). ring. }
  assert (PICK : forall y, dot D (mv k Z w) y = y i0).
  { intros y. rewrite <- (dot_unitv D i0 y) by lia. apply dot_ext; [intros j J; symmetry; apply SPAN; exact J|intros j _; reflexivity]. }
  set (Mt := fun i j => dot D (fun a => Z a i) (mv D (Mx n M0) (fun b => Z b j))) in E.
  set (gt := mv D (fun j i => Z i j) (vadd (s_g s) (mv D (Mx n M0) r))) in E.
  destruct (cg_of mi tol k Mt (vneg gt) (s_del s)) as [[u act]|] eqn:EC; [|discriminate]. injection E as <- _.
  transitivity (dot k w u); [apply rsum_ext; intros j _; rewrite WE; reflexivity|].
  apply (cg_perp k Mt (vneg gt) w (s_del s) mi tol u act); [| |exact EC].
  - intros v. unfold dot at 1. unfold mv at 1.
    rewrite (rsum_ext k _ (fun p => rsum k (fun j => w p * Mt p j * v j))) by (intros p _; rewrite <- rsum_scal; apply rsum_ext; intros; ring).
    rewrite rsum_swap. apply rsum_zero. intros j _. rewrite rsum_scal_r.
    change (rsum k (fun p => w p * Mt p j)) with (dot k w (mv D (fun j i => Z i j) (mv D (Mx n M0) (fun b => Z b j)))).
    rewrite turn, PICK, mx_flat. ring.
  - rewrite dot_neg_r. unfold gt. rewrite turn, PICK. unfold vadd. rewrite FG, mx_flat. ring.
Qed.

Lemma shorten_flat k s r t sln s' : flat s -> r i0 = 0 -> t i0 = 0 -> sl q = 0 -> sln q = 0 ->
  shorten n nsl lb ub M0 ce sl k s r t sln = Some s' -> flat s' /\ s_slnew s' q = 0 /\ s_fix s' = s_fix s.
Proof.
  intros [FG FR] R0 T0 S0 N0 E.
  assert (GO : forall rho, flat (mkst (vadd (vadd (s_x s) r) (vscal rho t)) (s_con s)
      (map (fun p => if (fst p <? length ce)%nat then vadd (snd p) (mv D (Mx n M0) (vadd r (vscal rho t))) else snd p) (combine (seq 0 (length (s_gcon s))) (s_gcon s)))
      (s_fix s) (vadd (s_g s) (mv D (Mx n M0) (vadd r (vscal rho t)))) (s_del s - / 2 * norm n (vadd r (vscal rho t)))
      (if (k =? 1)%nat then vadd (vadd sl (slpart n r)) (slpart n (vscal rho t)) else vadd sln (slpart n (vscal rho t)))
      (s_lm s) (s_rpred s) (s_moves s ++ [vadd r (vscal rho t)]))).
  { intros rho. split; cbn [s_g s_gcon].
    - unfold vadd at 1. rewrite FG, mx_flat. ring.
    - intros a I. apply in_map_iff in I. destruct I as ((p & b) & <- & I). apply in_combine_r in I. cbn [fst snd].
      destruct (p <? length ce)%nat; [|apply FR; exact I]. unfold vadd at 1. rewrite (FR b I), mx_flat. ring. }
  assert (SN : forall rho, (if (k =? 1)%nat then vadd (vadd sl (slpart n r)) (slpart n (vscal rho t)) else vadd sln (slpart n (vscal rho t))) q = 0).
  { intros rho. destruct (k =? 1)%nat; unfold vadd, slpart, vscal; rewrite ?S0, ?R0, ?T0, ?N0; ring. }
  unfold shorten in E. destruct (minratio _ _ _ _ _ _); [|discriminate|]; injection E as <-; (split; [apply GO|split; [apply SN|reflexivity]]).
Qed.

Lemma scan_fix m i x v xa : scan lb ub thr m i x = (v, xa) -> (forall j, v = Some j -> (j < i + m)%nat) /\ forall j, In j xa -> (j < i + m)%nat.
Proof.
  revert i v xa. induction m as [|m IH]; intros i v xa E; cbn [scan] in E; [injection E as <- <-; split; [discriminate|contradiction]|].
  destruct (under _ _ _); [injection E as <- <-; split; [intros j X; injection X as <-; lia|contradiction]|].
  assert (K : forall v' a', scan lb ub thr m (S i) x = (v', a') -> (v', i :: a') = (v, xa) -> (forall j, v = Some j -> (j < i + S m)%nat) /\ forall j, In j xa -> (j < i + S m)%nat).
  { intros v' a' ES X. injection X as <- <-. destruct (IH _ _ _ ES) as [P1 P2]. split; [intros j X; specialize (P1 j X); lia|].
    intros j [<-|I]; [lia|specialize (P2 j I); lia]. }
  destruct (close _ _ _); [destruct (scan _ _ _ _ _ _) as [v' a'] eqn:ES; apply (K v' a' eq_refl E)|].
  destruct (TR_Model.over _ _ _); [injection E as <- <-; split; [intros j X; injection X as <-; lia|contradiction]|].
  destruct (close _ _ _); [destruct (scan _ _ _ _ _ _) as [v' a'] eqn:ES; apply (K v' a' eq_refl E)|].
  destruct (IH _ _ _ E) as [P1 P2]. split; [intros j X; specialize (P1 j X); lia|intros j I; specialize (P2 j I); lia].
Qed.

Lemma unit_flat j : (j < n)%nat -> unitv j i0 = 0.
Proof. intros J. unfold unitv. destruct (Nat.eqb_spec i0 j); [lia|reflexivity]. Qed.

Lemma in_remove {A} j (l : list A) y : In y (remove_nth j l) -> In y l.
Proof. unfold remove_nth. intros I. apply in_app_or in I. destruct I as [I|I]; [rewrite <- (firstn_skipn j l)|rewrite <- (firstn_skipn (S j) l)]; apply in_or_app; auto. Qed.
Lemma in_first {A} j (l : list A) y : In y (firstn j l) -> In y l.
Proof. intros I. rewrite <- (firstn_skipn j l). apply in_or_app. auto. Qed.

(** what [choose] hands on *)
Lemma choose_flat k s xnew step viol xa : (forall a, In a (s_gcon s) -> a i0 = 0) -> (forall j, In j (s_fix s) -> (j < n)%nat) -> (forall j, In j xa -> (j < n)%nat) ->
  match choose mult n ce k s xnew step viol xa with
  | ChDone _ _ f _ gc | ChGo _ f _ gc => (forall a, In a gc -> a i0 = 0) /\ forall j, In j f -> (j < n)%nat
  | _ => True
  end.
Proof.
  intros FR FX FA.
  assert (BACK : forall f, (forall j, In j f -> (j < n)%nat) -> forall a, In a (firstn (me ce) (s_gcon s) ++ map unitv f) -> a i0 = 0).
  { intros f Hf a I. apply in_app_or in I. destruct I as [I|I]; [apply FR; eapply in_first; exact I|].
    apply in_map_iff in I. destruct I as (j & <- & I). apply unit_flat, Hf, I. }
  unfold choose. destruct (Rleb _ _).
  - destruct (_ || _)%bool; [exact Logic.I|]. destruct (s_fix s) as [|f0 fr] eqn:EF; [split; [exact FR|exact FX]|]. rewrite <- EF in *.
    destruct (mult k xnew) as [lm|]; [|exact Logic.I]. destruct (argmin _) as [m j]. destruct (Rltb m 0); [|split; [exact FR|exact FX]].
    destruct (same_set _ _); cbn [fst snd].
    + assert (RM : forall l, In l (remove_nth j (s_fix s)) -> (l < n)%nat) by (intros l I; apply FX; eapply in_remove; exact I).
      split; [apply BACK; exact RM|exact RM].
    + split; [apply BACK; exact FA|exact FA].
  - destruct viol; split; assumption.
Qed.

Definition sound (k : nat) (s : st) : Prop := flat s /\ (forall j, In j (s_fix s) -> (j < n)%nat) /\ ((k =? 1)%nat = false -> s_slnew s q = 0).

Lemma clip_flat s t : s q = 0 -> t q = 0 -> clip n lb ub s t q = 0.
Proof. intros S0 T0. unfold clip. rewrite S0, T0. destruct (negb _); destruct (negb _); ring. Qed.

Lemma loop_flat fuel k s : sl q = 0 -> (forall k' s' r rp a, flat s' -> restoration restore cvx n nsl lb ub sl k' s' = Some (r, rp, a) -> (k' = 1%nat -> s' = s) -> r i0 = 0) ->
  (1 <= k)%nat -> sound k s ->
  match tr_loop restore cvx null (cg_of mi tol) mult n nsl lb ub thr M0 ce sl fuel k s with TrOut o => tr_sl o q = 0 | _ => True end.
Proof.
  intros S0. revert k s. 
  assert (GEN : forall fuel k s, (forall s' r rp a, flat s' -> (k = 1%nat -> s' = s) -> restoration restore cvx n nsl lb ub sl k s' = Some (r, rp, a) -> r i0 = 0) ->
    (1 <= k)%nat -> sound k s -> match tr_loop restore cvx null (cg_of mi tol) mult n nsl lb ub thr M0 ce sl fuel k s with TrOut o => tr_sl o q = 0 | _ => True end).
  { clear fuel. induction fuel as [|fuel IH]; intros k s RE K (FL & FX & SN); [exact Logic.I|]. cbn [tr_loop].
    destruct (restoration restore cvx n nsl lb ub sl k s) as [[[r rp] actr]|] eqn:ER; [|exact Logic.I].
    pose proof (RE s r rp actr FL (fun _ => eq_refl) ER) as R0.
    destruct (tangent null (cg_of mi tol) n nsl M0 s r) as [[t actt]|] eqn:ET; [|exact Logic.I].
    pose proof (tangent_flat s r t actt FL ET) as T0.
    assert (TS : slpart n t q = 0) by exact T0. assert (RS : slpart n r q = 0) by exact R0.
    set (sln := clip n lb ub _ _).
    assert (LN : sln q = 0).
    { unfold sln. apply clip_flat; [|exact TS]. destruct (k =? 1)%nat eqn:K1; unfold vadd; rewrite ?S0, ?RS, ?TS, ?(SN eq_refl); ring. }
    clearbody sln. destruct (scan lb ub thr n 0 (vadd (vadd (s_x s) r) t)) as [v xa] eqn:ES.
    destruct (scan_fix n 0 _ v xa ES) as [V1 V2]. cbn [Nat.add] in V1, V2.
    set (s1 := match v with Some i => _ | None => _ end).
    assert (F1 : flat s1).
    { unfold s1. destruct FL as [FG FR]. destruct v as [j|]; split; cbn [s_g s_gcon]; try exact FG; try exact FR.
      intros a I. apply in_app_or in I. destruct I as [I|[<-|[]]]; [apply FR; exact I|]. apply unit_flat, V1. reflexivity. }
    assert (X1 : forall j, In j (s_fix s1) -> (j < n)%nat).
    { unfold s1. destruct v as [j|]; cbn [s_fix]; [|exact FX]. intros l I. apply in_app_or in I. destruct I as [I|[<-|[]]]; [apply FX; exact I|apply V1; reflexivity]. }
    assert (N1 : s_slnew s1 q = 0) by (unfold s1; destruct v; exact LN).
    clearbody s1. pose proof (choose_flat k s1 (vadd (vadd (s_x s) r) t) (vadd r t) (match v with Some _ => true | None => false end) xa (proj2 F1) X1 V2) as CF.
    assert (NEXT : forall s', sound (S k) s' -> match tr_loop restore cvx null (cg_of mi tol) mult n nsl lb ub thr M0 ce sl fuel (S k) s' with TrOut o => tr_sl o q = 0 | _ => True end).
    { intros s' SO. apply IH; [|lia|exact SO]. intros s'' r' rp' a' FL' _ E. rewrite rest_later in E by lia. injection E as <- _ _. reflexivity. }
    destruct (choose mult n ce k s1 _ _ _ _) as [| |how lm f c gc|lm f c gc]; [exact Logic.I|exact LN| |].
    + destruct CF as [C1 C2]. assert (F2 : flat (mkst (s_x s1) c gc f (s_g s1) (s_del s1) (s_slnew s1) lm rp (s_moves s1))) by (split; [exact (proj1 F1)|exact C1]).
      destruct v as [j|]; [|exact LN]. destruct (shorten n nsl lb ub M0 ce sl k _ r t sln) as [s3|] eqn:SH; [|exact Logic.I].
      destruct (shorten_flat _ _ _ _ _ _ F2 R0 T0 S0 LN SH) as (_ & P & _). exact P.
    + destruct CF as [C1 C2]. assert (F2 : flat (mkst (s_x s1) c gc f (s_g s1) (s_del s1) (s_slnew s1) lm rp (s_moves s1))) by (split; [exact (proj1 F1)|exact C1]).
      destruct v as [j|].
      * destruct (shorten n nsl lb ub M0 ce sl k _ r t sln) as [s3|] eqn:SH; [|exact Logic.I].
        destruct (shorten_flat _ _ _ _ _ _ F2 R0 T0 S0 LN SH) as (P1 & P2 & P3). apply NEXT. split; [exact P1|split; [rewrite P3; exact C2|intros _; exact P2]].
      * apply NEXT. split; [exact F2|split; [exact C2|intros _; exact N1]]. }
  intros k s RE K SO. apply GEN; [|exact K|exact SO]. intros s' r rp a FL E1 E2. exact (RE k s' r rp a FL E2 E1).
Qed.

Lemma start_flat x g lm delta : sl q = 0 -> let a := active0 n nsl lb ub ce ae sl x g lm in
  sound 1 (mkst x (con0 nsl ce sl ++ map (fun _ => 0) a) (gcon0 n nsl ce ae sl ++ map unitv a) [] (gx0 n g) delta vzero lm 0 []).
Proof.
  intros S0 a. split; [split|split]; cbn [s_g s_gcon s_fix].
  - unfold gx0. destruct (Nat.ltb_spec i0 n); [lia|reflexivity].
  - intros v I. apply in_app_or in I. destruct I as [I|I].
    + unfold gcon0 in I. apply in_map_iff in I. destruct I as ((p & b) & <- & _). destruct (Nat.ltb_spec i0 n); [lia|]. cbn [fst].
      replace (i0 - n)%nat with q by lia. destruct (_ =? _)%nat; [rewrite S0; ring|reflexivity].
    + apply in_map_iff in I. destruct I as (j & <- & I). apply unit_flat. unfold a, active0 in I. apply in_flat_map in I. destruct I as (i & Hi & I). apply in_seq in Hi.
      apply in_app_or in I. destruct I as [I|I]; destruct (_ && _)%bool; try contradiction; destruct I as [<-|[]]; lia.
  - contradiction.
  - discriminate.
Qed.
End Step.

(** ** the step with the library's solvers *)
Lemma gram_psd k rows : possemidef k (rows_gram rows).
Proof.
  intros y. induction rows as [|a l IH].
  - unfold quad. apply Req_le. symmetry. apply rsum_zero. intros i _. replace (mv k (rows_gram []) y i) with 0; [ring|].
    symmetry. apply rsum_zero. intros j _. cbn. ring.
  - replace (quad k (rows_gram (a :: l)) y) with (dot k a y * dot k a y + quad k (rows_gram l) y); [nra|].
    unfold quad. unfold dot at 1 2. rewrite <- rsum_scal_r. unfold dot at 1. rewrite <- rsum_plus. apply rsum_ext. intros i _.
    unfold mv. rewrite (rsum_ext k (fun j => rows_gram (a :: l) i j * y j) (fun j => a i * (a j * y j) + rows_gram l i j * y j))
      by (intros j _; change (rows_gram (a :: l) i j) with (a i * a j + rows_gram l i j); ring).
    rewrite rsum_plus, rsum_scal. ring.
Qed.
Lemma gram_flat rows i j : (forall a, In a rows -> a i = 0) -> rows_gram rows i j = 0.
Proof.
  induction rows as [|a l IH]; intros Z; [reflexivity|]. change (a i * a j + rows_gram l i j = 0).
  rewrite (Z a (or_introl eq_refl)), IH by (intros b B; apply Z; right; exact B). ring.
Qed.
Lemma rows_t_flat c rows i : (forall a, In a rows -> a i = 0) -> rows_t c rows i = 0.
Proof.
  revert rows. induction c as [|e c IH]; intros [|a l] Z; try reflexivity. change (e * a i + rows_t c l i = 0).
  rewrite (Z a (or_introl eq_refl)), IH by (intros b B; apply Z; right; exact B). ring.
Qed.

Section Lib.
Variable ms : nat -> nat -> vec -> mat -> R -> option ms_out.
Variable chol : nat -> mat -> option mat.
Variable slv : nat -> mat -> vec -> option vec.
Variable eig : nat -> mat -> bool * vec * mat.
Variable svd : nat -> nat -> mat -> vec * mat.
Variable pin : nat -> mat -> list nat -> vec -> option vec.
Variables (tol : R) (oinf : xR) (dxmin : R) (gi : vec) (n nsl : nat) (lb ub : nat -> xR) (thr : R) (M0 : mat) (ce : list R) (ae : list vec) (sl : vec) (fuel : nat) (x : vec) (delta : R) (g lm : vec).
Notation run := (step_lib ms chol slv eig svd pin tol oinf dxmin gi n nsl lb ub thr M0 ce ae sl fuel x delta g lm).

Lemma lib_zero eps q o : (q < nsl)%nat -> sl q = 0 -> lb (n + q)%nat = Fin 0 -> 0 <= delta ->
  eig_convex eig -> ms_sound ms eps -> never_hard ms ->
  (forall rows k Z, null_lib svd (n + nsl) rows = Some (k, Z) -> spans_free (n + nsl) rows k Z) ->
  in_bounds n lb ub x -> (forall i, (i < nsl)%nat -> xle_r (lb (n + i)%nat) (sl i) /\ rle_x (sl i) (ub (n + i)%nat)) ->
  run = TrOut o -> tr_sl o q = 0.
Proof.
  intros Hq S0 LB D0 EC MS NH SP X SI E. unfold step_lib, solve_con in E.
  pose proof (start_flat n nsl lb ub ce ae sl q Hq x g lm delta S0) as ST. cbv zeta in ST.
  match type of ST with sound _ _ _ ?s => set (st0 := s) in * end.
  pose proof (loop_flat (restore_lib ms chol slv) (cvx_lib eig (n + nsl)) (null_lib svd (n + nsl)) (mult_lib eig pin n nsl lb ub oinf dxmin gi ae sl)
    n nsl lb ub thr M0 ce sl (20 * (n + nsl - length ce)) tol q Hq SP fuel 1 st0 S0) as LF.
  rewrite E in LF. apply LF; [|lia|exact ST]. clear LF E.
  intros k' s' r rp a FL RE EQ. unfold restoration in RE. destruct (k' =? 1)%nat eqn:K1; [|cbn [andb] in RE; injection RE as <- _ _; reflexivity].
  apply Nat.eqb_eq in K1. specialize (EQ K1). destruct (Rltb _ _); cbn [andb] in RE; [|injection RE as <- _ _; reflexivity].
  destruct (restore_lib _ _ _ _ _ _ _ _ _) as [[r' m]|] eqn:RL; [|discriminate]. injection RE as <- _ _.
  change (dim n nsl) with (n + nsl)%nat in RL. rewrite (lib_convex eig (n + nsl) _ EC (gram_psd _ _)) in RL. unfold restore_lib in RL.
  match type of RL with context [solve_bcx _ _ _ ?k ?A ?l ?u ?h ?D] => destruct (t_refines ms chol slv k A l u h D) as (hom & EH);
    destruct (solve_bcx ms chol slv k A l u h D) as [[b|]|] eqn:SB; try discriminate end. injection RL as <- _. symmetry in EH.
  destruct FL as [FG FR].
  eapply (t_still (ms_part ms) hom (n + nsl)%nat (rows_gram (s_gcon s')) (fun i => xsub (lb i) (join n (s_x s') sl i)) _ (rows_t (s_con s') (s_gcon s')) (s_del s') b (n + q)%nat (sound_still ms eps MS NH)); [| |lia| | | | | |exact EH].
  - apply gram_sym.
  - apply gram_psd.
  - cbv beta. unfold join. destruct (Nat.ltb_spec (n + q) n); [lia|]. replace (n + q - n)%nat with q by lia. rewrite LB, S0. cbn. f_equal. ring.
  - apply rows_t_flat. exact FR.
  - intros l _. apply gram_flat. exact FR.
  - apply (lib_within n nsl lb ub sl x X SI). intros i Hi. unfold join, both. rewrite EQ. reflexivity.
  - rewrite EQ. exact D0.
Qed.
End Lib.

(** exact singular values *)
Lemma svd_spans rows dim sv vh : svd_exact (length rows) dim (rows_mat rows) sv vh ->
  spans_free dim rows (fst (null_ (length rows) dim sv vh)) (snd (null_ (length rows) dim sv vh)).
Proof.
  intros SV i Hi Z. apply (z_complete (length rows) dim (rows_mat rows) sv vh SV). intros r Hr.
  transitivity (rows_mat rows r i); [|unfold rows_mat; apply Z, nth_In, Hr]. unfold mv.
  rewrite (rsum_single dim i); [unfold unitv; rewrite Nat.eqb_refl; ring|exact Hi|]. intros j _ N. unfold unitv. rewrite (proj2 (Nat.eqb_neq _ _) N). ring.
Qed.
