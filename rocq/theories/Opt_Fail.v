(** Proofs about the validations that do not succeed. *)
From Coq Require Import List ZArith QArith Bool String Ascii Lia Lqa.
Import ListNotations.
From Verif Require Import QB Main_Model Opt_Model Opt_Spec Opt_Proofs.
Local Open Scope Q_scope.

Lemma same_refl k o : same k o o.
Proof. do 13 (destruct k as [|k]; [reflexivity|]). exact Logic.I. Qed.
Lemma same_trans k o p q : same k o p -> same k p q -> same k o q.
Proof. do 13 (destruct k as [|k]; [cbn; congruence|]). exact (fun _ _ => Logic.I). Qed.
Lemma rule_left k o p q : same k o p -> rule k p q -> rule k o q.
Proof.
  do 13 (destruct k as [|k]; [cbn [same rule]; intros ->; exact (fun H => H)|]).
  exact (fun _ _ => Logic.I).
Qed.
Lemma rule_right k o p q : rule k o p -> same k p q -> rule k o q.
Proof.
  do 13 (destruct k as [|k]; [cbn [same rule]; intros H <-; exact H|]).
  exact (fun _ _ => Logic.I).
Qed.
Lemma same_sym k o p : same k o p -> same k p o.
Proof. do 13 (destruct k as [|k]; [cbn; congruence|]). exact (fun _ => Logic.I). Qed.

(** one step *)
Definition good_step (k : nat) (v : opts -> vres) : Prop := forall o,
  match v o with
  | VDone o' => rule k o o' /\ forall i, i <> k -> same i o o'
  | VFail o' => o' = o /\ (forall q, ~ rule k o q) /\ ~ raises_at k o o
  | VRaise => raises_at k o o
  end.

Ltac others := let i := fresh "i" in let N := fresh "N" in
  intros i N; do 13 (destruct i as [|i]; [try reflexivity; try (exfalso; apply N; reflexivity)|]);
  exact Logic.I.

Lemma talks_iff o : talks o = true <-> speaking o.
Proof.
  unfold talks, speaking. destruct (verbose o) as [x|].
  - rewrite negb_true_iff. split.
    + intros E. exists x. split; [reflexivity|]. rewrite <- zero_iff. unfold zero. congruence.
    + intros (y & Y & N). injection Y as <-. rewrite <- zero_iff in N. unfold zero in N.
      destruct (xeq (val x) (Fin 0)); congruence.
  - split; [discriminate|]. intros (y & Y & _). discriminate.
Qed.
Lemma print_iff o : can_print o = true <-> printable o.
Proof.
  unfold can_print, printable. destruct (fout o) as [[z|x]|]; split; intros H; try discriminate; eauto.
  - destruct H as (z & H). discriminate.
  - destruct H as (z & H). discriminate.
Qed.
Lemma mute_iff o : (talks o = true /\ can_print o = false) <-> mute o.
Proof.
  unfold mute. rewrite talks_iff, <- print_iff. destruct (can_print o); intuition congruence.
Qed.
Lemma fail_fout_cases o :
  (fail_fout o = VFail o /\ ~ mute o) \/ (fail_fout o = VRaise /\ mute o).
Proof.
  rewrite <- mute_iff. unfold fail_fout.
  destruct (talks o), (can_print o); [left|right|left|left]; split; try reflexivity; intuition congruence.
Qed.
Lemma infinite_iff x : fmt_i_ok x = false <-> infinite x.
Proof.
  unfold fmt_i_ok, infinite. destruct x as [z|[q| | |]]; simpl; split; intros H; try discriminate;
    try (destruct H; discriminate); auto.
Qed.

Lemma fout_step : good_step 0 v_fout.
Proof.
  intros o. unfold v_fout. destruct (fout o) as [x|] eqn:F.
  - destruct (xlt (val x) zero) eqn:E.
    + apply neg_iff in E. destruct (fmt_i_ok x) eqn:I.
      * split; [|others]. cbn [rule]. rewrite F. left. split; [exact E|reflexivity].
      * apply infinite_iff in I. cbn [raises_at]. rewrite F.
        destruct I as [->| ->]; [destruct E|reflexivity].
    + split; [|others]. cbn [rule]. rewrite F. right. split; [|reflexivity].
      rewrite <- neg_iff. congruence.
  - split; [|others]. cbn [rule]. rewrite F. reflexivity.
Qed.

Lemma verbose_step : good_step 1 v_verbose.
Proof.
  intros o. unfold v_verbose. destruct (verbose o) as [x|] eqn:F.
  - destruct (xlt (val x) zero || xlt (Fin 6) (val x))%bool eqn:E.
    + apply orb_true_iff in E. rewrite neg_iff, six_iff in E.
      destruct (fmt_i_ok x && can_print o)%bool eqn:I.
      * split; [|others]. cbn [rule]. rewrite F. left. split; [exact E|reflexivity].
      * cbn [raises_at]. exists x. split; [exact F|]. split; [exact E|].
        apply andb_false_iff in I. rewrite infinite_iff in I. rewrite <- print_iff.
        destruct I as [I|I]; [left; exact I|right; congruence].
    + split; [|others]. cbn [rule]. rewrite F. right. split; [|reflexivity].
      rewrite <- neg_iff, <- six_iff, <- orb_true_iff. congruence.
  - split; [|others]. cbn [rule]. rewrite F. reflexivity.
Qed.

Lemma enum_step tab d get put o :
  match v_enum tab d get put o with
  | VDone o' => exists v, one_of tab d (get o) (Some v) /\ o' = put o v
  | VFail o' => o' = o /\ (forall v, ~ one_of tab d (get o) v) /\ ~ wrong_word tab (get o) o
  | VRaise => wrong_word tab (get o) o
  end.
Proof.
  unfold v_enum, wrong_word. destruct (get o) as [[s|z]|].
  - destruct (lookup tab s) as [z|] eqn:L.
    + exists (VInt z). split; [|reflexivity]. destruct (lookup_some _ _ _ L) as (w & I & P).
      cbn [one_of]. eauto.
    + pose proof (lookup_none _ _ L) as NN.
      destruct (fail_fout_cases o) as [[-> M]|[-> M]].
      * split; [reflexivity|]. split.
        { intros v (w & z & I & P & _). exact (NN w z I P). }
        { intros [_ H]. exact (M H). }
      * split; [|exact M]. intros w z I. exact (NN w z I).
  - exact Logic.I.
  - exists (VInt d). split; reflexivity.
Qed.

Ltac enum_case := let o := fresh "o" in let K := fresh "K" in let K1 := fresh "K" in let K2 := fresh "K" in intros o;
  match goal with |- match ?v o with _ => _ end => unfold v end;
  match goal with |- match v_enum ?tab ?d ?get ?put o with _ => _ end =>
    pose proof (enum_step tab d get put o) as K; destruct (v_enum tab d get put o) as [o'|o'|] end;
  [destruct K as (v & K & ->); split; [exact K|others]
  |destruct K as (-> & K1 & K2); split; [reflexivity|]; split; [intros q; apply K1|exact K2]
  |exact K].

Lemma algo_step : good_step 2 v_algo. Proof. enum_case. Qed.
Lemma hess_step : good_step 10 v_hess. Proof. enum_case. Qed.
Lemma wmodel_step : good_step 11 v_wmodel. Proof. enum_case. Qed.
Lemma degree_step : good_step 12 v_degree. Proof. enum_case. Qed.

Lemma nonpos_iff x : xle (val x) zero = true <-> ~ (is_pos x \/ is_nan_num x).
Proof. rewrite <- le0_false_iff. destruct (xle (val x) zero); intuition congruence. Qed.

Lemma dxmin_step : good_step 3 v_dxmin.
Proof.
  intros o. unfold v_dxmin. destruct (dxmin o) as [x|] eqn:F.
  - destruct (xle (val x) zero) eqn:E.
    + apply nonpos_iff in E. destruct (fail_fout_cases o) as [[-> M]|[-> M]].
      * split; [reflexivity|]. split.
        { intros q. cbn [rule]. rewrite F. intros [P _]. exact (E P). }
        { cbn [raises_at]. intros (y & _ & _ & H). exact (M H). }
      * cbn [raises_at]. exists x. auto.
    + split; [|others]. cbn [rule]. rewrite F. split; [|reflexivity]. apply le0_false_iff. exact E.
  - split; [|others]. cbn [rule]. rewrite F. reflexivity.
Qed.

Ltac pos_case F := let o := fresh "o" in let E := fresh "E" in let P := fresh "P" in let x := fresh "x" in intros o;
  match goal with |- match ?v o with _ => _ end => unfold v end;
  match goal with |- match match ?g with _ => _ end with _ => _ end => destruct g as [x|] eqn:F end;
  [destruct (xle (val x) zero) eqn:E;
   [apply nonpos_iff in E; split; [reflexivity|]; split;
      [intros q; cbn [rule]; rewrite F; intros [P _]; exact (E P)|exact (fun H => H)]
   |split; [cbn [rule]; rewrite F; split; [apply le0_false_iff; exact E|reflexivity]|others]]
  |split; [cbn [rule]; rewrite F; reflexivity|others]].

Lemma inf_step : good_step 4 v_inf. Proof. pos_case F. Qed.
Lemma miter_step : good_step 5 v_miter. Proof. pos_case F. Qed.
Lemma msimul_step : good_step 6 v_msimul. Proof. pos_case F. Qed.

Lemma tol_step get put o :
  match v_tol get put o with
  | VDone o' => exists v, tolerance (get o) (Some v) /\ o' = put o v
  | VFail o' => o' = o /\ (forall v, ~ tolerance (get o) v)
  | VRaise => False
  end.
Proof.
  pose proof (tol_done get put o) as D. unfold v_tol in *.
  destruct (get o) as [x|]; [|apply D; reflexivity].
  destruct (xlt (val x) zero) eqn:E.
  - split; [reflexivity|]. apply neg_iff in E. intros v [[Z _]|[P _]].
    + destruct x as [z|[q| | |]]; cbn in *; try contradiction; try lia. rewrite Z in E. lra.
    + destruct (pos_excl x P) as [N _]. exact (N E).
  - destruct (xeq (val x) zero); apply D; reflexivity.
Qed.

Ltac tol_case := let o := fresh "o" in let K := fresh "K" in let K1 := fresh "K" in intros o;
  match goal with |- match ?v o with _ => _ end => unfold v end;
  match goal with |- match v_tol ?get ?put o with _ => _ end =>
    pose proof (tol_step get put o) as K; destruct (v_tol get put o) as [o'|o'|] end;
  [destruct K as (v & K & ->); split; [exact K|others]
  |destruct K as (-> & K1); split; [reflexivity|]; split; [intros q; apply K1|exact (fun H => H)]
  |destruct K].

Lemma tolg_step : good_step 7 v_tolg. Proof. tol_case. Qed.
Lemma tolf_step : good_step 8 v_tolf. Proof. tol_case. Qed.
Lemma tolb_step : good_step 9 v_tolb. Proof. tol_case. Qed.

(** all of them *)
Lemma good_steps : forall k v, nth_error steps k = Some v -> good_step k v.
Proof.
  intros k v H. unfold steps in H.
  destruct k as [|k]; [injection H as <-; exact fout_step|].
  destruct k as [|k]; [injection H as <-; exact verbose_step|].
  destruct k as [|k]; [injection H as <-; exact algo_step|].
  destruct k as [|k]; [injection H as <-; exact dxmin_step|].
  destruct k as [|k]; [injection H as <-; exact inf_step|].
  destruct k as [|k]; [injection H as <-; exact miter_step|].
  destruct k as [|k]; [injection H as <-; exact msimul_step|].
  destruct k as [|k]; [injection H as <-; exact tolg_step|].
  destruct k as [|k]; [injection H as <-; exact tolf_step|].
  destruct k as [|k]; [injection H as <-; exact tolb_step|].
  destruct k as [|k]; [injection H as <-; exact hess_step|].
  destruct k as [|k]; [injection H as <-; exact wmodel_step|].
  destruct k as [|k]; [injection H as <-; exact degree_step|].
  destruct k; discriminate.
Qed.

Lemma raises_left k o p : same k o p -> raises_at k p p -> raises_at k o p.
Proof.
  do 13 (destruct k as [|k]; [cbn [same raises_at]; intros E H; try rewrite E; exact H|]).
  exact (fun _ H => H).
Qed.
Lemma raises_right k o p : same k o p -> raises_at k o p -> raises_at k p p.
Proof.
  do 13 (destruct k as [|k]; [cbn [same raises_at]; intros E H; try rewrite <- E; exact H|]).
  exact (fun _ H => H).
Qed.

Lemma validate_from : forall l k o p,
  (forall j v, nth_error l j = Some v -> good_step (k + j) v) ->
  reached k o p ->
  match fold_left vbind l (VDone p) with
  | VDone o' => reached (k + List.length l) o o'
  | VFail o' => exists j, (k <= j < k + List.length l)%nat /\ reached j o o' /\ (forall q, ~ rule j o q) /\ ~ raises_at j o o'
  | VRaise => exists j o', (k <= j < k + List.length l)%nat /\ reached j o o' /\ raises_at j o o'
  end.
Proof.
  induction l as [|v l IH]; intros k o p G Re.
  - cbn. rewrite Nat.add_0_r. exact Re.
  - cbn [fold_left vbind List.length].
    pose proof (G 0%nat v eq_refl p) as K. rewrite Nat.add_0_r in K.
    destruct Re as [R1 R2].
    destruct (v p) as [p'|p'|] eqn:Ev.
    + destruct K as [K1 K2].
      assert (Re' : reached (S k) o p').
      { split.
        - intros i Hi. destruct (Nat.eq_dec i k) as [->|Ni].
          + apply (rule_left k o p); [apply R2; lia|exact K1].
          + apply (rule_right i o p); [apply R1; lia|apply K2; exact Ni].
        - intros i Hi. apply (same_trans i o p); [apply R2; lia|apply K2; lia]. }
      specialize (IH (S k) o p').
      destruct (fold_left vbind l (VDone p')) as [q|q|] eqn:El.
      * replace (k + S (List.length l))%nat with (S k + List.length l)%nat by lia. apply IH; [|exact Re'].
        intros j w Hj. replace (S k + j)%nat with (k + S j)%nat by lia. apply G. exact Hj.
      * destruct IH as (j & Hj & T); [|exact Re'|].
        { intros j w Hj. replace (S k + j)%nat with (k + S j)%nat by lia. apply G. exact Hj. }
        exists j. split; [lia|exact T].
      * destruct IH as (j & q & Hj & T); [|exact Re'|].
        { intros j w Hj. replace (S k + j)%nat with (k + S j)%nat by lia. apply G. exact Hj. }
        exists j, q. split; [lia|exact T].
    + destruct K as (-> & K1 & K2). rewrite vbind_fail_run. exists k. split; [lia|]. split; [split; assumption|].
      split.
      * intros q Hq. apply (K1 q). apply (rule_left k p o q); [apply same_sym, R2; lia|exact Hq].
      * intros H. apply K2. apply (raises_right k o p); [apply R2; lia|exact H].
    + rewrite vbind_raise_run. exists k, p. split; [lia|]. split; [split; assumption|].
      apply raises_left; [apply R2; lia|exact K].
Qed.

Lemma validate_outcome o :
  match validate o with
  | VDone o' => reached 13 o o'
  | VFail o' => exists k, (k < 13)%nat /\ reached k o o' /\ (forall q, ~ rule k o q) /\ ~ raises_at k o o'
  | VRaise => exists k o', (k < 13)%nat /\ reached k o o' /\ raises_at k o o'
  end.
Proof.
  pose proof (validate_from steps 0 o o good_steps) as K.
  assert (R0 : reached 0 o o) by (split; [intros i Hi; lia|intros i _; apply same_refl]).
  specialize (K R0). unfold validate.
  destruct (fold_left vbind steps (VDone o)).
  - exact K.
  - destruct K as (j & Hj & T). exists j. split; [cbn in Hj; lia|exact T].
  - destruct K as (j & q & Hj & T). exists j, q. split; [cbn in Hj; lia|exact T].
Qed.

(** what a failing validation of a class leaves behind *)
Lemma class_failed h r o' : fst (hcell h r) = ClassObj -> validate (snd (hcell h r)) = VFail o' ->
  hcell (fst (run_options h r)) r = (ClassObj, o').
Proof.
  intros K V. unfold run_options, hcopy. rewrite K. rewrite K. rewrite K.
  unfold validate_at. rewrite V. cbn [fst]. rewrite hset_same, K. reflexivity.
Qed.

(** the outcomes exclude each other, so the description determines the outcome *)
Lemma accepted_reached o o' : accepted o o' <-> forall k, (k < 13)%nat -> rule k o o'.
Proof.
  split.
  - intros (A1&A2&A3&A4&A5&A6&A7&A8&A9&A10&A11&A12&A13) k Hk.
    do 13 (destruct k as [|k]; [assumption|]). lia.
  - intros H. unfold accepted.
    repeat split; [apply (H 0%nat)|apply (H 1%nat)|apply (H 2%nat)|apply (H 3%nat)|apply (H 4%nat)|apply (H 5%nat)
    |apply (H 6%nat)|apply (H 7%nat)|apply (H 8%nat)|apply (H 9%nat)|apply (H 10%nat)|apply (H 11%nat)|apply (H 12%nat)]; lia.
Qed.
