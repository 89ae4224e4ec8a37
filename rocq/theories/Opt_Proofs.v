(** Proofs about the validation of the options. *)
From Coq Require Import List ZArith QArith Bool String Ascii Lia Lqa.
Import ListNotations.
From Verif Require Import QB Main_Model Opt_Model Opt_Spec.
Local Open Scope Q_scope.

(** ** Comparisons *)

Lemma neg_iff x : xlt (val x) zero = true <-> is_neg x.
Proof.
  destruct x as [z|[q| | |]]; simpl; try (split; congruence || tauto).
  - rewrite qltb_iff. unfold Qlt, inject_Z; simpl. lia.
  - apply qltb_iff.
Qed.

Lemma six_iff x : xlt (Fin 6) (val x) = true <-> above6 x.
Proof.
  destruct x as [z|[q| | |]]; simpl; try (split; congruence || tauto).
  - rewrite qltb_iff. unfold Qlt, inject_Z; simpl. lia.
  - apply qltb_iff.
Qed.

Lemma zero_iff x : xeq (val x) zero = true <-> is_zero x.
Proof.
  destruct x as [z|[q| | |]]; simpl; try (split; congruence || tauto).
  - rewrite qeqb_iff. unfold Qeq, inject_Z; simpl. lia.
  - apply qeqb_iff.
Qed.

Lemma le0_false_iff x : xle (val x) zero = false <-> is_pos x \/ is_nan_num x.
Proof.
  unfold is_nan_num.
  destruct x as [z|[q| | |]]; simpl.
  - rewrite qleb_false. unfold Qlt, inject_Z; simpl. split; [intros H; left; lia|].
    intros [H|H]; [lia|discriminate].
  - rewrite qleb_false. split; [tauto|]. intros [H|H]; [exact H|discriminate].
  - split; auto.
  - split; [discriminate|]. intros [H|H]; [contradiction|discriminate].
  - split; auto.
Qed.

Lemma trichotomy x : xlt (val x) zero = false -> xeq (val x) zero = false -> is_pos x \/ is_nan_num x.
Proof.
  intros H1 H2. unfold is_nan_num.
  assert (N1 : ~ is_neg x) by (rewrite <- neg_iff; congruence).
  assert (N2 : ~ is_zero x) by (rewrite <- zero_iff; congruence).
  destruct x as [z|[q| | |]]; simpl in *; try tauto.
  - left. lia.
  - left. destruct (Qlt_le_dec 0 q) as [L|L]; [exact L|].
    exfalso. destruct (Qlt_le_dec q 0) as [L2|L2]; [tauto|].
    apply N2. apply Qle_antisym; assumption.
Qed.

Lemma pos_excl x : is_pos x \/ is_nan_num x -> ~ is_neg x /\ ~ is_zero x.
Proof.
  unfold is_nan_num. intros [H|H].
  - destruct x as [z|[q| | |]]; simpl in *; try contradiction; split; intros K; try contradiction; try lia; try lra.
  - subst x. simpl. tauto.
Qed.

Lemma neg_not_six x : is_neg x -> ~ above6 x.
Proof.
  destruct x as [z|[q| | |]]; simpl; try tauto; try lia.
  intros A B. lra.
Qed.

(** ** Words *)

Lemma lower_c_small c : lower_c c = small_letter c.
Proof. reflexivity. Qed.

Lemma lower_blank c : Ascii.eqb (lower_c c) " "%char = Ascii.eqb c " "%char.
Proof. destruct c as [[] [] [] [] [] [] [] []]; reflexivity. Qed.

Lemma word_list s :
  list_ascii_of_string (word s) =
  map small_letter (filter (fun c => negb (Ascii.eqb c " ")) (list_ascii_of_string s)).
Proof.
  unfold word. induction s as [|c s IH]; [reflexivity|].
  cbn [lower_s no_blank list_ascii_of_string filter]. rewrite lower_blank.
  destruct (Ascii.eqb c " "); cbn [negb]; [exact IH|].
  cbn [list_ascii_of_string map]. rewrite IH, lower_c_small. reflexivity.
Qed.

Lemma las_inj s t : list_ascii_of_string s = list_ascii_of_string t -> s = t.
Proof.
  revert t. induction s as [|c s IH]; intros [|d t] H; simpl in H; try discriminate; [reflexivity|].
  injection H as -> H. f_equal. apply IH; exact H.
Qed.

Lemma spells_word s w : spells s w <-> word s = w.
Proof.
  unfold spells. rewrite <- word_list. split; [apply las_inj|intros ->; reflexivity].
Qed.

Lemma lookup_some tab s z : lookup tab s = Some z -> exists w, In (w, z) tab /\ spells s w.
Proof.
  unfold lookup. destruct (find _ tab) as [[w k]|] eqn:F; [|discriminate].
  intros H; injection H as <-. apply find_some in F. destruct F as [I E]. simpl in E.
  apply String.eqb_eq in E. exists w. split; [exact I|]. apply spells_word. congruence.
Qed.

Lemma lookup_none tab s : lookup tab s = None -> forall w z, In (w, z) tab -> ~ spells s w.
Proof.
  unfold lookup. destruct (find _ tab) as [e|] eqn:F; [discriminate|].
  intros _ w z I S. apply spells_word in S.
  pose proof (find_none _ _ F _ I) as N. simpl in N. rewrite S, String.eqb_refl in N. discriminate.
Qed.

Ltac flds := cbn [fout verbose algo dxmin inff_ miter msimul tol_grad tol_feas tol_bnds hess wmodel degree].
Ltac flds_in H := cbn [fout verbose algo dxmin inff_ miter msimul tol_grad tol_feas tol_bnds hess wmodel degree] in H.

(** ** The steps *)

Lemma fout_done o o' : v_fout o = VDone o' ->
  exists x, kept_or is_neg (NInt 1) (fout o) (Some x) /\
  o' = mkopts (Some x) (verbose o) (algo o) (dxmin o) (inff_ o) (miter o) (msimul o)
         (tol_grad o) (tol_feas o) (tol_bnds o) (hess o) (wmodel o) (degree o).
Proof.
  unfold v_fout, kept_or. destruct (fout o) as [x|].
  - destruct (xlt (val x) zero) eqn:E.
    + destruct (fmt_i_ok x); [|discriminate]. intros H; injection H as <-.
      exists (NInt 1). split; [|reflexivity]. left. split; [apply neg_iff; exact E|reflexivity].
    + intros H; injection H as <-. exists x. split; [|reflexivity]. right. split; [|reflexivity].
      rewrite <- neg_iff. congruence.
  - intros H; injection H as <-. exists (NInt 1). split; reflexivity.
Qed.

Lemma verbose_done o o' : v_verbose o = VDone o' ->
  exists x, kept_or (fun x => is_neg x \/ above6 x) (NInt 1) (verbose o) (Some x) /\
  o' = mkopts (fout o) (Some x) (algo o) (dxmin o) (inff_ o) (miter o) (msimul o)
         (tol_grad o) (tol_feas o) (tol_bnds o) (hess o) (wmodel o) (degree o).
Proof.
  unfold v_verbose, kept_or. destruct (verbose o) as [x|].
  - destruct (xlt (val x) zero || xlt (Fin 6) (val x))%bool eqn:E.
    + destruct (fmt_i_ok x && can_print o)%bool; [|discriminate]. intros H; injection H as <-.
      exists (NInt 1). split; [|reflexivity]. left. split; [|reflexivity].
      apply orb_true_iff in E. rewrite neg_iff, six_iff in E. exact E.
    + intros H; injection H as <-. exists x. split; [|reflexivity]. right. split; [|reflexivity].
      rewrite <- neg_iff, <- six_iff, <- orb_true_iff. congruence.
  - intros H; injection H as <-. exists (NInt 1). split; reflexivity.
Qed.

Lemma enum_done tab d get put o o' : v_enum tab d get put o = VDone o' ->
  exists v, one_of tab d (get o) (Some v) /\ o' = put o v.
Proof.
  unfold v_enum, one_of. destruct (get o) as [[s|z]|].
  - destruct (lookup tab s) as [z|] eqn:L.
    + intros H; injection H as <-. exists (VInt z). split; [|reflexivity].
      destruct (lookup_some _ _ _ L) as (w & I & S). exists w, z. auto.
    + unfold fail_fout. destruct (talks o), (can_print o); discriminate.
  - discriminate.
  - intros H; injection H as <-. exists (VInt d). auto.
Qed.

Lemma fail_fout_not_done o o' : fail_fout o <> VDone o'.
Proof. unfold fail_fout. destruct (talks o), (can_print o); discriminate. Qed.

Lemma dxmin_done o o' : v_dxmin o = VDone o' ->
  exists x, positive_or (NFlt (Fin (1 # 100000000))) (dxmin o) (Some x) /\
  o' = mkopts (fout o) (verbose o) (algo o) (Some x) (inff_ o) (miter o) (msimul o)
         (tol_grad o) (tol_feas o) (tol_bnds o) (hess o) (wmodel o) (degree o).
Proof.
  unfold v_dxmin, positive_or. destruct (dxmin o) as [x|].
  - destruct (xle (val x) zero) eqn:E.
    + intros H. exfalso. exact (fail_fout_not_done _ _ H).
    + intros H; injection H as <-. exists x. split; [|reflexivity]. split; [|reflexivity].
      apply le0_false_iff; exact E.
  - intros H; injection H as <-. eexists. split; reflexivity.
Qed.

Lemma inf_done o o' : v_inf o = VDone o' ->
  exists x, positive_or (NFlt PInf) (inff_ o) (Some x) /\
  o' = mkopts (fout o) (verbose o) (algo o) (dxmin o) (Some x) (miter o) (msimul o)
         (tol_grad o) (tol_feas o) (tol_bnds o) (hess o) (wmodel o) (degree o).
Proof.
  unfold v_inf, positive_or. destruct (inff_ o) as [x|].
  - destruct (xle (val x) zero) eqn:E; [discriminate|].
    intros H; injection H as <-. exists x. split; [|reflexivity]. split; [|reflexivity].
    apply le0_false_iff; exact E.
  - intros H; injection H as <-. eexists. split; reflexivity.
Qed.

Lemma miter_done o o' : v_miter o = VDone o' ->
  exists x, positive_or (NInt 1000) (miter o) (Some x) /\
  o' = mkopts (fout o) (verbose o) (algo o) (dxmin o) (inff_ o) (Some x) (msimul o)
         (tol_grad o) (tol_feas o) (tol_bnds o) (hess o) (wmodel o) (degree o).
Proof.
  unfold v_miter, positive_or. destruct (miter o) as [x|].
  - destruct (xle (val x) zero) eqn:E; [discriminate|].
    intros H; injection H as <-. exists x. split; [|reflexivity]. split; [|reflexivity].
    apply le0_false_iff; exact E.
  - intros H; injection H as <-. eexists. split; reflexivity.
Qed.

Lemma msimul_done o o' : v_msimul o = VDone o' ->
  exists x, positive_or (NInt 1000) (msimul o) (Some x) /\
  o' = mkopts (fout o) (verbose o) (algo o) (dxmin o) (inff_ o) (miter o) (Some x)
         (tol_grad o) (tol_feas o) (tol_bnds o) (hess o) (wmodel o) (degree o).
Proof.
  unfold v_msimul, positive_or. destruct (msimul o) as [x|].
  - destruct (xle (val x) zero) eqn:E; [discriminate|].
    intros H; injection H as <-. exists x. split; [|reflexivity]. split; [|reflexivity].
    apply le0_false_iff; exact E.
  - intros H; injection H as <-. eexists. split; reflexivity.
Qed.

Lemma tol_done get put o o' : v_tol get put o = VDone o' ->
  exists x, tolerance (get o) (Some x) /\ o' = put o x.
Proof.
  unfold v_tol, tolerance. destruct (get o) as [x|].
  - destruct (xlt (val x) zero) eqn:E1; [discriminate|].
    destruct (xeq (val x) zero) eqn:E2; intros H; injection H as <-.
    + exists dtol. split; [|reflexivity]. left. split; [apply zero_iff; exact E2|reflexivity].
    + exists x. split; [|reflexivity]. right. split; [apply trichotomy; assumption|reflexivity].
  - intros H; injection H as <-. exists dtol. split; reflexivity.
Qed.

Lemma vbind_done r k o : vbind r k = VDone o -> exists o1, r = VDone o1 /\ k o1 = VDone o.
Proof. destruct r as [o1|o1|]; simpl; intros H; try discriminate. exists o1. auto. Qed.

Lemma validate_accepted o o' : validate o = VDone o' -> accepted o o'.
Proof.
  unfold validate, steps. cbn [fold_left].
  intros H.
  apply vbind_done in H. destruct H as (o12 & H & S13).
  apply vbind_done in H. destruct H as (o11 & H & S12).
  apply vbind_done in H. destruct H as (o10 & H & S11).
  apply vbind_done in H. destruct H as (o9 & H & S10).
  apply vbind_done in H. destruct H as (o8 & H & S9).
  apply vbind_done in H. destruct H as (o7 & H & S8).
  apply vbind_done in H. destruct H as (o6 & H & S7).
  apply vbind_done in H. destruct H as (o5 & H & S6).
  apply vbind_done in H. destruct H as (o4 & H & S5).
  apply vbind_done in H. destruct H as (o3 & H & S4).
  apply vbind_done in H. destruct H as (o2 & H & S3).
  apply vbind_done in H. destruct H as (o1 & H & S2).
  cbn [vbind] in H.
  apply fout_done in H. destruct H as (x1 & R1 & E1).
  destruct o as [p1 p2 p3 p4 p5 p6 p7 p8 p9 p10 p11 p12 p13].
  flds_in R1. flds_in E1. subst o1.
  apply verbose_done in S2. destruct S2 as (x2 & R2 & E2). flds_in R2. flds_in E2. subst o2.
  apply enum_done in S3. destruct S3 as (x3 & R3 & E3). flds_in R3. flds_in E3. subst o3.
  apply dxmin_done in S4. destruct S4 as (x4 & R4 & E4). flds_in R4. flds_in E4. subst o4.
  apply inf_done in S5. destruct S5 as (x5 & R5 & E5). flds_in R5. flds_in E5. subst o5.
  apply miter_done in S6. destruct S6 as (x6 & R6 & E6). flds_in R6. flds_in E6. subst o6.
  apply msimul_done in S7. destruct S7 as (x7 & R7 & E7). flds_in R7. flds_in E7. subst o7.
  apply tol_done in S8. destruct S8 as (x8 & R8 & E8). flds_in R8. flds_in E8. subst o8.
  apply tol_done in S9. destruct S9 as (x9 & R9 & E9). flds_in R9. flds_in E9. subst o9.
  apply tol_done in S10. destruct S10 as (x10 & R10 & E10). flds_in R10. flds_in E10. subst o10.
  apply enum_done in S11. destruct S11 as (x11 & R11 & E11). flds_in R11. flds_in E11. subst o11.
  apply enum_done in S12. destruct S12 as (x12 & R12 & E12). flds_in R12. flds_in E12. subst o12.
  apply enum_done in S13. destruct S13 as (x13 & R13 & E13). flds_in R13. flds_in E13. subst o'.
  unfold accepted.
  cbn [fout verbose algo dxmin inff_ miter msimul tol_grad tol_feas tol_bnds hess wmodel degree].
  split; [exact R1|]. split; [exact R2|]. split; [exact R3|]. split; [exact R4|].
  split; [exact R5|]. split; [exact R6|]. split; [exact R7|]. split; [exact R8|].
  split; [exact R9|]. split; [exact R10|]. split; [exact R11|]. split; [exact R12|exact R13].
Qed.

(** ** The ranges *)

Lemma kept_range bad d old new : kept_or bad d old new -> ~ bad d -> exists x, new = Some x /\ ~ bad x.
Proof.
  unfold kept_or. destruct old as [x|].
  - intros [[_ ->]|[N ->]] D; eauto.
  - intros -> D; eauto.
Qed.
Lemma positive_range d old new : positive_or d old new -> is_pos d ->
  exists x, new = Some x /\ (is_pos x \/ is_nan_num x).
Proof.
  unfold positive_or. destruct old as [x|].
  - intros [P ->] D; eauto.
  - intros -> D; eauto.
Qed.
Lemma tolerance_range old new : tolerance old new ->
  exists x, new = Some x /\ (is_pos x \/ is_nan_num x).
Proof.
  assert (D : is_pos (NFlt (Fin (1 # 100000)))) by reflexivity.
  unfold tolerance. destruct old as [x|].
  - intros [[_ ->]|[P ->]]; eauto.
  - intros ->; eauto.
Qed.
Lemma one_of_range tab d old new : one_of tab d old new -> In d (map snd tab) ->
  exists z, new = Some (VInt z) /\ In z (map snd tab).
Proof.
  unfold one_of. destruct old as [[s|z]|]; [|contradiction|].
  - intros (w & z & I & _ & ->) _. exists z. split; [reflexivity|].
    change z with (snd (w, z)). apply in_map. exact I.
  - intros -> D. eauto.
Qed.

Lemma accepted_range o o' : accepted o o' -> in_range o'.
Proof.
  unfold accepted. intros (A1&A2&A3&A4&A5&A6&A7&A8&A9&A10&A11&A12&A13).
  unfold in_range. split; [|split; [|split; [|split; [|split; [|split]]]]].
  - apply (kept_range _ _ _ _ A1). simpl. lia.
  - destruct (kept_range _ _ _ _ A2) as (x & E & N); [simpl; lia|]. exists x. tauto.
  - intros get I. simpl in I.
    destruct I as [<-|[<-|[<-|[<-|[<-|[<-|[<-|[]]]]]]]].
    + apply (positive_range _ _ _ A4). reflexivity.
    + apply (positive_range _ _ _ A5). exact Logic.I.
    + apply (positive_range _ _ _ A6). reflexivity.
    + apply (positive_range _ _ _ A7). reflexivity.
    + apply (tolerance_range _ _ A8).
    + apply (tolerance_range _ _ A9).
    + apply (tolerance_range _ _ A10).
  - destruct (one_of_range _ _ _ _ A3) as (z & E & I); [simpl; tauto|].
    simpl in I. destruct I as [<-|[<-|[]]]; auto.
  - destruct (one_of_range _ _ _ _ A11) as (z & E & I); [simpl; tauto|].
    simpl in I. destruct I as [<-|[<-|[]]]; auto.
  - destruct (one_of_range _ _ _ _ A12) as (z & E & I); [simpl; tauto|].
    exists z. split; [exact E|]. simpl in I. lia.
  - destruct (one_of_range _ _ _ _ A13) as (z & E & I); [simpl; tauto|].
    exists z. split; [exact E|]. simpl in I. lia.
Qed.

(** ** Plain options either pass or fail with flag 1 *)

Definition ready (o : opts) : Prop := can_print o = true.

Lemma fail_ready o : ready o -> fail_fout o = VFail o.
Proof. unfold ready, fail_fout. intros ->. destruct (talks o); reflexivity. Qed.

Lemma enum_total tab d get put o :
  ready o -> (forall z, get o <> Some (VInt z)) ->
  (exists v, one_of tab d (get o) (Some v) /\ v_enum tab d get put o = VDone (put o v)) \/
  ((forall v, ~ one_of tab d (get o) v) /\ v_enum tab d get put o = VFail o).
Proof.
  intros R N. unfold v_enum, one_of. destruct (get o) as [[s|z]|].
  - destruct (lookup tab s) as [z|] eqn:L.
    + left. destruct (lookup_some _ _ _ L) as (w & I & S).
      exists (VInt z). split; [exists w, z; auto|reflexivity].
    + right. split; [|apply fail_ready; exact R].
      intros v (w & z & I & S & _). exact (lookup_none _ _ L _ _ I S).
  - exfalso. exact (N z eq_refl).
  - left. exists (VInt d). auto.
Qed.

Ltac pos_total R x :=
  destruct (xle (val x) zero) eqn:E;
  [ right; split; [intros v [P _]; apply le0_false_iff in P; congruence|
                   try apply fail_ready; try reflexivity; try exact R]
  | left; exists x; split; [split; [apply le0_false_iff; exact E|reflexivity]|reflexivity] ].

Lemma dxmin_total o : ready o ->
  (exists x, positive_or (NFlt (Fin (1 # 100000000))) (dxmin o) (Some x) /\ v_dxmin o =
     VDone (mkopts (fout o) (verbose o) (algo o) (Some x) (inff_ o) (miter o) (msimul o)
         (tol_grad o) (tol_feas o) (tol_bnds o) (hess o) (wmodel o) (degree o))) \/
  ((forall v, ~ positive_or (NFlt (Fin (1 # 100000000))) (dxmin o) v) /\ v_dxmin o = VFail o).
Proof.
  intros R. unfold v_dxmin, positive_or. destruct (dxmin o) as [x|].
  - pos_total R x.
  - left. eexists. split; reflexivity.
Qed.
Lemma inf_total o :
  (exists x, positive_or (NFlt PInf) (inff_ o) (Some x) /\ v_inf o =
     VDone (mkopts (fout o) (verbose o) (algo o) (dxmin o) (Some x) (miter o) (msimul o)
         (tol_grad o) (tol_feas o) (tol_bnds o) (hess o) (wmodel o) (degree o))) \/
  ((forall v, ~ positive_or (NFlt PInf) (inff_ o) v) /\ v_inf o = VFail o).
Proof.
  unfold v_inf, positive_or. destruct (inff_ o) as [x|].
  - pos_total Logic.I x.
  - left. eexists. split; reflexivity.
Qed.
Lemma miter_total o :
  (exists x, positive_or (NInt 1000) (miter o) (Some x) /\ v_miter o =
     VDone (mkopts (fout o) (verbose o) (algo o) (dxmin o) (inff_ o) (Some x) (msimul o)
         (tol_grad o) (tol_feas o) (tol_bnds o) (hess o) (wmodel o) (degree o))) \/
  ((forall v, ~ positive_or (NInt 1000) (miter o) v) /\ v_miter o = VFail o).
Proof.
  unfold v_miter, positive_or. destruct (miter o) as [x|].
  - pos_total Logic.I x.
  - left. eexists. split; reflexivity.
Qed.
Lemma msimul_total o :
  (exists x, positive_or (NInt 1000) (msimul o) (Some x) /\ v_msimul o =
     VDone (mkopts (fout o) (verbose o) (algo o) (dxmin o) (inff_ o) (miter o) (Some x)
         (tol_grad o) (tol_feas o) (tol_bnds o) (hess o) (wmodel o) (degree o))) \/
  ((forall v, ~ positive_or (NInt 1000) (msimul o) v) /\ v_msimul o = VFail o).
Proof.
  unfold v_msimul, positive_or. destruct (msimul o) as [x|].
  - pos_total Logic.I x.
  - left. eexists. split; reflexivity.
Qed.
Lemma tol_total get put o :
  (exists x, tolerance (get o) (Some x) /\ v_tol get put o = VDone (put o x)) \/
  ((forall v, ~ tolerance (get o) v) /\ v_tol get put o = VFail o).
Proof.
  unfold v_tol, tolerance. destruct (get o) as [x|].
  - destruct (xlt (val x) zero) eqn:E1.
    + right. split; [|reflexivity]. apply neg_iff in E1.
      intros v [[Z _]|[P _]].
      * destruct x as [z|[q| | |]]; simpl in *; try contradiction; [lia|].
        rewrite Z in E1. exact (Qlt_irrefl _ E1).
      * destruct (pos_excl _ P) as [N _]. contradiction.
    + left. destruct (xeq (val x) zero) eqn:E2.
      * exists dtol. split; [left; split; [apply zero_iff; exact E2|reflexivity]|reflexivity].
      * exists x. split; [right; split; [apply trichotomy; assumption|reflexivity]|reflexivity].
  - left. exists dtol. split; reflexivity.
Qed.

Lemma fout_total o : (forall x, fout o = Some x -> exists z, x = NInt z) ->
  exists z, kept_or is_neg (NInt 1) (fout o) (Some (NInt z)) /\ v_fout o =
   VDone (mkopts (Some (NInt z)) (verbose o) (algo o) (dxmin o) (inff_ o) (miter o) (msimul o)
         (tol_grad o) (tol_feas o) (tol_bnds o) (hess o) (wmodel o) (degree o)).
Proof.
  intros H. unfold v_fout, kept_or. destruct (fout o) as [x|].
  - destruct (H x eq_refl) as [z ->]. destruct (xlt (val (NInt z)) zero) eqn:E.
    + exists 1%Z. split; [left; split; [apply neg_iff; exact E|reflexivity]|reflexivity].
    + exists z. split; [right; split; [rewrite <- neg_iff; congruence|reflexivity]|reflexivity].
  - exists 1%Z. split; reflexivity.
Qed.
Lemma verbose_total o : ready o -> (forall x, verbose o = Some x -> ~ infinite x) ->
  exists x, kept_or (fun x => is_neg x \/ above6 x) (NInt 1) (verbose o) (Some x) /\ v_verbose o =
   VDone (mkopts (fout o) (Some x) (algo o) (dxmin o) (inff_ o) (miter o) (msimul o)
         (tol_grad o) (tol_feas o) (tol_bnds o) (hess o) (wmodel o) (degree o)).
Proof.
  intros R H. unfold v_verbose, kept_or. destruct (verbose o) as [x|].
  - specialize (H x eq_refl).
    assert (F : fmt_i_ok x = true).
    { unfold infinite in H. destruct x as [z|[q| | |]]; simpl; try reflexivity; exfalso; tauto. }
    rewrite R, F. cbn [andb].
    destruct (xlt (val x) zero || xlt (Fin 6) (val x))%bool eqn:E.
    + exists (NInt 1). split; [|reflexivity]. left. split; [|reflexivity].
      apply orb_true_iff in E. rewrite neg_iff, six_iff in E. exact E.
    + exists x. split; [|reflexivity]. right. split; [|reflexivity].
      rewrite <- neg_iff, <- six_iff, <- orb_true_iff. congruence.
  - exists (NInt 1). split; reflexivity.
Qed.

Lemma vbind_fail_run o (l : list (opts -> vres)) : fold_left vbind l (VFail o) = VFail o.
Proof. induction l; simpl; auto. Qed.

Lemma validate_plain o : plain o ->
  (exists o', validate o = VDone o' /\ accepted o o') \/
  ((forall o', ~ accepted o o') /\ exists o', validate o = VFail o').
Proof.
  destruct o as [p1 p2 p3 p4 p5 p6 p7 p8 p9 p10 p11 p12 p13].
  intros (P1 & P2 & P3). flds_in P1. flds_in P2. flds_in P3.
  destruct (validate (mkopts p1 p2 p3 p4 p5 p6 p7 p8 p9 p10 p11 p12 p13)) as [o'|o'|] eqn:V.
  - left. exists o'. split; [reflexivity|]. apply validate_accepted; exact V.
  - right. split; [|eauto]. revert V.
    unfold validate, steps. cbn [fold_left]. cbn [vbind].
    destruct (fout_total (mkopts p1 p2 p3 p4 p5 p6 p7 p8 p9 p10 p11 p12 p13) P1) as (z1 & R1 & ->). cbn [vbind]. flds.
    set (o1 := mkopts _ _ _ _ _ _ _ _ _ _ _ _ _).
    assert (RD : forall a b c d e f g h i j k l, ready (mkopts (Some (NInt z1)) a b c d e f g h i j k l)) by reflexivity.
    destruct (verbose_total o1 (RD _ _ _ _ _ _ _ _ _ _ _ _) P2) as (x2 & R2 & ->). cbn [vbind].
    subst o1. flds. flds_in R2. set (o2 := mkopts _ _ _ _ _ _ _ _ _ _ _ _ _).
    intros V o'' A. unfold accepted in A.
    destruct A as (A1&A2&A3&A4&A5&A6&A7&A8&A9&A10&A11&A12&A13). revert V.
    destruct (enum_total tab_algo 120 algo
      (fun o v => mkopts (fout o) (verbose o) (Some v) (dxmin o) (inff_ o) (miter o) (msimul o)
                 (tol_grad o) (tol_feas o) (tol_bnds o) (hess o) (wmodel o) (degree o)) o2 (RD _ _ _ _ _ _ _ _ _ _ _ _)
      (fun z => proj1 (P3 z))) as [(x3 & R3 & E)|(N & E)];
      [|exfalso; exact (N _ A3)].
    unfold v_algo. rewrite E. clear E. cbn [vbind]. subst o2. flds. set (o3 := mkopts _ _ _ _ _ _ _ _ _ _ _ _ _).
    destruct (dxmin_total o3 (RD _ _ _ _ _ _ _ _ _ _ _ _)) as [(x4 & R4 & ->)|(N & _)]; [|exfalso; exact (N _ A4)].
    cbn [vbind]. subst o3. flds. set (o4 := mkopts _ _ _ _ _ _ _ _ _ _ _ _ _).
    destruct (inf_total o4) as [(x5 & R5 & ->)|(N & _)]; [|exfalso; exact (N _ A5)].
    cbn [vbind]. subst o4. flds. set (o5 := mkopts _ _ _ _ _ _ _ _ _ _ _ _ _).
    destruct (miter_total o5) as [(x6 & R6 & ->)|(N & _)]; [|exfalso; exact (N _ A6)].
    cbn [vbind]. subst o5. flds. set (o6 := mkopts _ _ _ _ _ _ _ _ _ _ _ _ _).
    destruct (msimul_total o6) as [(x7 & R7 & ->)|(N & _)]; [|exfalso; exact (N _ A7)].
    cbn [vbind]. subst o6. flds. set (o7 := mkopts _ _ _ _ _ _ _ _ _ _ _ _ _).
    unfold v_tolg. edestruct (tol_total tol_grad) as [(x8 & R8 & ->)|(N & _)]; [|exfalso; exact (N _ A8)].
    cbn [vbind]. subst o7. flds. set (o8 := mkopts _ _ _ _ _ _ _ _ _ _ _ _ _).
    unfold v_tolf. edestruct (tol_total tol_feas) as [(x9 & R9 & ->)|(N & _)]; [|exfalso; exact (N _ A9)].
    cbn [vbind]. subst o8. flds. set (o9 := mkopts _ _ _ _ _ _ _ _ _ _ _ _ _).
    unfold v_tolb. edestruct (tol_total tol_bnds) as [(x10 & R10 & ->)|(N & _)]; [|exfalso; exact (N _ A10)].
    cbn [vbind]. subst o9. flds. set (o10 := mkopts _ _ _ _ _ _ _ _ _ _ _ _ _).
    unfold v_hess. edestruct (enum_total tab_hess 131 hess) as [(x11 & R11 & E)|(N & E)];
      [| |rewrite E; clear E|exfalso; exact (N _ A11)];
      [exact (RD _ _ _ _ _ _ _ _ _ _ _ _)|exact (fun z => proj1 (proj2 (P3 z)))|].
    cbn [vbind]. subst o10. flds. set (o11 := mkopts _ _ _ _ _ _ _ _ _ _ _ _ _).
    unfold v_wmodel. edestruct (enum_total tab_model 0 wmodel) as [(x12 & R12 & E)|(N & E)];
      [| |rewrite E; clear E|exfalso; exact (N _ A12)];
      [exact (RD _ _ _ _ _ _ _ _ _ _ _ _)|exact (fun z => proj1 (proj2 (proj2 (P3 z))))|].
    cbn [vbind]. subst o11. flds. set (o12 := mkopts _ _ _ _ _ _ _ _ _ _ _ _ _).
    unfold v_degree. edestruct (enum_total tab_degree 141 degree) as [(x13 & R13 & E)|(N & E)];
      [| |rewrite E; clear E|exfalso; exact (N _ A13)];
      [exact (RD _ _ _ _ _ _ _ _ _ _ _ _)|exact (fun z => proj2 (proj2 (proj2 (P3 z))))|].
    discriminate.
  - exfalso. revert V.
    unfold validate, steps. cbn [fold_left]. cbn [vbind].
    destruct (fout_total (mkopts p1 p2 p3 p4 p5 p6 p7 p8 p9 p10 p11 p12 p13) P1) as (z1 & R1 & ->). cbn [vbind]. flds.
    set (o1 := mkopts _ _ _ _ _ _ _ _ _ _ _ _ _).
    assert (RD : forall a b c d e f g h i j k l, ready (mkopts (Some (NInt z1)) a b c d e f g h i j k l)) by reflexivity.
    destruct (verbose_total o1 (RD _ _ _ _ _ _ _ _ _ _ _ _) P2) as (x2 & R2 & ->). cbn [vbind].
    subst o1. flds. flds_in R2. set (o2 := mkopts _ _ _ _ _ _ _ _ _ _ _ _ _).
    destruct (enum_total tab_algo 120 algo
      (fun o v => mkopts (fout o) (verbose o) (Some v) (dxmin o) (inff_ o) (miter o) (msimul o)
                 (tol_grad o) (tol_feas o) (tol_bnds o) (hess o) (wmodel o) (degree o)) o2 (RD _ _ _ _ _ _ _ _ _ _ _ _)
      (fun z => proj1 (P3 z))) as [(x3 & R3 & E)|(N & E)];
      unfold v_algo; rewrite E; clear E; cbn [vbind]; [|discriminate].
    subst o2. flds. set (o3 := mkopts _ _ _ _ _ _ _ _ _ _ _ _ _).
    destruct (dxmin_total o3 (RD _ _ _ _ _ _ _ _ _ _ _ _)) as [(x4 & R4 & ->)|(N & ->)]; [|discriminate].
    cbn [vbind]. subst o3. flds. set (o4 := mkopts _ _ _ _ _ _ _ _ _ _ _ _ _).
    destruct (inf_total o4) as [(x5 & R5 & ->)|(N & ->)]; [|discriminate].
    cbn [vbind]. subst o4. flds. set (o5 := mkopts _ _ _ _ _ _ _ _ _ _ _ _ _).
    destruct (miter_total o5) as [(x6 & R6 & ->)|(N & ->)]; [|discriminate].
    cbn [vbind]. subst o5. flds. set (o6 := mkopts _ _ _ _ _ _ _ _ _ _ _ _ _).
    destruct (msimul_total o6) as [(x7 & R7 & ->)|(N & ->)]; [|discriminate].
    cbn [vbind]. subst o6. flds. set (o7 := mkopts _ _ _ _ _ _ _ _ _ _ _ _ _).
    unfold v_tolg. edestruct (tol_total tol_grad) as [(x8 & R8 & ->)|(N & ->)]; [|discriminate].
    cbn [vbind]. subst o7. flds. set (o8 := mkopts _ _ _ _ _ _ _ _ _ _ _ _ _).
    unfold v_tolf. edestruct (tol_total tol_feas) as [(x9 & R9 & ->)|(N & ->)]; [|discriminate].
    cbn [vbind]. subst o8. flds. set (o9 := mkopts _ _ _ _ _ _ _ _ _ _ _ _ _).
    unfold v_tolb. edestruct (tol_total tol_bnds) as [(x10 & R10 & ->)|(N & ->)]; [|discriminate].
    cbn [vbind]. subst o9. flds. set (o10 := mkopts _ _ _ _ _ _ _ _ _ _ _ _ _).
    unfold v_hess. edestruct (enum_total tab_hess 131 hess) as [(x11 & R11 & E)|(N & E)];
      [| |rewrite E; clear E|rewrite E; discriminate];
      [exact (RD _ _ _ _ _ _ _ _ _ _ _ _)|exact (fun z => proj1 (proj2 (P3 z)))|].
    cbn [vbind]. subst o10. flds. set (o11 := mkopts _ _ _ _ _ _ _ _ _ _ _ _ _).
    unfold v_wmodel. edestruct (enum_total tab_model 0 wmodel) as [(x12 & R12 & E)|(N & E)];
      [| |rewrite E; clear E|rewrite E; discriminate];
      [exact (RD _ _ _ _ _ _ _ _ _ _ _ _)|exact (fun z => proj1 (proj2 (proj2 (P3 z))))|].
    cbn [vbind]. subst o11. flds. set (o12 := mkopts _ _ _ _ _ _ _ _ _ _ _ _ _).
    unfold v_degree. edestruct (enum_total tab_degree 141 degree) as [(x13 & R13 & E)|(N & E)];
      [| |rewrite E; clear E; discriminate|rewrite E; discriminate];
      [exact (RD _ _ _ _ _ _ _ _ _ _ _ _)|exact (fun z => proj2 (proj2 (proj2 (P3 z))))].
Qed.

(** ** Validating twice *)

Lemma neg_false x : ~ is_neg x -> xlt (val x) zero = false.
Proof. intros N. destruct (xlt (val x) zero) eqn:E; [apply neg_iff in E; contradiction|reflexivity]. Qed.
Lemma six_false x : ~ above6 x -> xlt (Fin 6) (val x) = false.
Proof. intros N. destruct (xlt (Fin 6) (val x)) eqn:E; [apply six_iff in E; contradiction|reflexivity]. Qed.
Lemma zero_false x : is_pos x \/ is_nan_num x -> xeq (val x) zero = false.
Proof.
  intros P. destruct (xeq (val x) zero) eqn:E; [|reflexivity].
  apply zero_iff in E. destruct (pos_excl _ P) as [_ N]. contradiction.
Qed.

Lemma validate_again o : in_range o -> exists o',
  validate (numeric_part o) = VDone o' /\ numeric_part o' = numeric_part o.
Proof.
  intros ((x1 & E1 & N1) & (x2 & E2 & N2 & S2) & G & _).
  destruct (G dxmin) as (x4 & E4 & R4); [simpl; tauto|].
  destruct (G inff_) as (x5 & E5 & R5); [simpl; tauto|].
  destruct (G miter) as (x6 & E6 & R6); [simpl; tauto|].
  destruct (G msimul) as (x7 & E7 & R7); [simpl; tauto|].
  destruct (G tol_grad) as (x8 & E8 & R8); [simpl; tauto|].
  destruct (G tol_feas) as (x9 & E9 & R9); [simpl; tauto|].
  destruct (G tol_bnds) as (x10 & E10 & R10); [simpl; tauto|].
  clear G. destruct o as [p1 p2 p3 p4 p5 p6 p7 p8 p9 p10 p11 p12 p13].
  flds_in E1. flds_in E2. flds_in E4. flds_in E5. flds_in E6. flds_in E7. flds_in E8. flds_in E9. flds_in E10.
  subst. unfold numeric_part. flds.
  exists (mkopts (Some x1) (Some x2) (Some (VInt 120)) (Some x4) (Some x5) (Some x6) (Some x7)
           (Some x8) (Some x9) (Some x10) (Some (VInt 131)) (Some (VInt 0)) (Some (VInt 141))).
  split; [|reflexivity].
  unfold validate, steps. cbn [fold_left vbind].
  unfold v_fout. flds. rewrite (neg_false _ N1). cbn [vbind].
  unfold v_verbose. flds. rewrite (neg_false _ N2), (six_false _ S2). cbn [vbind orb].
  unfold v_algo, v_enum. flds. cbn [vbind].
  unfold v_dxmin. flds. rewrite (proj2 (le0_false_iff _) R4). cbn [vbind].
  unfold v_inf. flds. rewrite (proj2 (le0_false_iff _) R5). cbn [vbind].
  unfold v_miter. flds. rewrite (proj2 (le0_false_iff _) R6). cbn [vbind].
  unfold v_msimul. flds. rewrite (proj2 (le0_false_iff _) R7). cbn [vbind].
  unfold v_tolg, v_tol. flds. rewrite (neg_false _ (proj1 (pos_excl _ R8))), (zero_false _ R8). cbn [vbind].
  unfold v_tolf, v_tol. flds. rewrite (neg_false _ (proj1 (pos_excl _ R9))), (zero_false _ R9). cbn [vbind].
  unfold v_tolb, v_tol. flds. rewrite (neg_false _ (proj1 (pos_excl _ R10))), (zero_false _ R10). cbn [vbind].
  unfold v_hess, v_enum. flds. cbn [vbind].
  unfold v_wmodel, v_enum. flds. cbn [vbind].
  unfold v_degree, v_enum. flds. reflexivity.
Qed.

Lemma numeric_twice o o' : validate o = VDone o' -> exists o'',
  validate (numeric_part o') = VDone o'' /\ numeric_part o'' = numeric_part o'.
Proof. intros H. apply validate_again. apply (accepted_range o). apply validate_accepted. exact H. Qed.

Lemma vbind_raise_run (l : list (opts -> vres)) : fold_left vbind l VRaise = VRaise.
Proof. induction l; simpl; auto. Qed.

Lemma second_raises o o' : validate o = VDone o' -> validate o' = VRaise.
Proof.
  intros H. pose proof (accepted_range _ _ (validate_accepted _ _ H)) as
    ((x1 & E1 & N1) & (x2 & E2 & N2 & S2) & _ & A & _).
  clear H. destruct o' as [p1 p2 p3 p4 p5 p6 p7 p8 p9 p10 p11 p12 p13].
  flds_in E1. flds_in E2. flds_in A. subst.
  unfold validate, steps. cbn [fold_left vbind].
  unfold v_fout. flds. rewrite (neg_false _ N1). cbn [vbind].
  unfold v_verbose. flds. rewrite (neg_false _ N2), (six_false _ S2). cbn [vbind orb].
  unfold v_algo, v_enum. flds. destruct A as [-> | ->]; reflexivity.
Qed.

(** ** The caller's object *)

Lemma hset_same h r v : hcell (hset h r v) r = v.
Proof. unfold hset; simpl. rewrite Nat.eqb_refl. reflexivity. Qed.
Lemma hset_other h r v i : i <> r -> hcell (hset h r v) i = hcell h i.
Proof. unfold hset; simpl. intros N. destruct (Nat.eqb_spec i r); [contradiction|reflexivity]. Qed.

Lemma copy_instance h r : fst (hcell h r) = Instance ->
  exists h', hcopy h r = (h', hnext h) /\ hnext h' = S (hnext h) /\
  hcell h' (hnext h) = hcell h r /\ (forall i, i <> hnext h -> hcell h' i = hcell h i).
Proof.
  intros E. unfold hcopy. rewrite E. eexists. split; [reflexivity|].
  split; [reflexivity|]. split; [apply hset_same|]. intros i N. apply (hset_other (mkheap (S (hnext h)) (hcell h))). exact N.
Qed.

Lemma instance_untouched h r : fst (hcell h r) = Instance -> (r < hnext h)%nat ->
  snd (run_options h r) = validate (snd (hcell h r)) /\
  forall i, (i < hnext h)%nat -> hcell (fst (run_options h r)) i = hcell h i.
Proof.
  intros E L. unfold run_options.
  destruct (copy_instance h r E) as (h1 & -> & X1 & C1 & O1).
  assert (E1 : fst (hcell h1 (hnext h)) = Instance) by (rewrite C1; exact E).
  destruct (copy_instance h1 _ E1) as (h2 & -> & X2 & C2 & O2).
  assert (E2 : fst (hcell h2 (hnext h1)) = Instance) by (rewrite C2, C1; exact E).
  destruct (copy_instance h2 _ E2) as (h3 & -> & X3 & C3 & O3).
  assert (C : hcell h3 (hnext h2) = hcell h r) by congruence.
  unfold validate_at. rewrite C.
  assert (K : forall i, (i < hnext h)%nat -> hcell h3 i = hcell h i).
  { intros i Li. rewrite O3, O2, O1; [reflexivity| | |]; lia. }
  destruct (validate (snd (hcell h r))) as [o|o|] eqn:V; cbn [fst snd]; (split; [reflexivity|]);
    intros i Li; try (apply K; exact Li); rewrite hset_other by lia; apply K; exact Li.
Qed.

Lemma class_overwritten h r o' : fst (hcell h r) = ClassObj ->
  validate (snd (hcell h r)) = VDone o' ->
  hcell (fst (run_options h r)) r = (ClassObj, o') /\
  snd (run_options (fst (run_options h r)) r) = VRaise.
Proof.
  intros E V.
  assert (R : run_options h r = (hset h r (ClassObj, o'), VDone o')).
  { unfold run_options, hcopy. rewrite E. rewrite E. rewrite E.
    unfold validate_at. rewrite V, E. reflexivity. }
  rewrite R. cbn [fst]. split; [apply hset_same|].
  unfold run_options, hcopy. rewrite hset_same. cbn [fst]. rewrite hset_same. cbn [fst].
  rewrite hset_same. cbn [fst]. unfold validate_at. rewrite hset_same. cbn [snd].
  rewrite (second_raises _ _ V). reflexivity.
Qed.
