(** Proofs about the bound-constrained trust-region solver. *)
From Coq Require Import Reals Lra Psatz Lia List Arith Bool.
From Verif Require Import RVec RBool Tri ProjGrad_Spec MS_Spec BC_Model.
Import ListNotations.
Open Scope R_scope.

(** ** Lists of positions *)

Lemma memb_spec i l : memb i l = true <-> In i l.
Proof.
  unfold memb. rewrite existsb_exists. split.
  - intros (x & I & E). apply Nat.eqb_eq in E. subst. exact I.
  - intros I. exists i. split; [exact I|apply Nat.eqb_refl].
Qed.
Lemma memb_false i l : memb i l = false <-> ~ In i l.
Proof. rewrite <- memb_spec. destruct (memb i l); split; intros; congruence. Qed.

Lemma complement_in n l i : In i (complement n l) <-> (i < n)%nat /\ ~ In i l.
Proof.
  unfold complement. rewrite filter_In, in_seq, negb_true_iff, memb_false. split; intros [A B]; split; try assumption; lia.
Qed.
Lemma complement_nodup n l : NoDup (complement n l).
Proof. apply NoDup_filter, seq_NoDup. Qed.

(** [free] are the positions not in [active] *)
Definition good (n : nat) (active free : list nat) : Prop :=
  (forall i, In i free <-> (i < n)%nat /\ ~ In i active) /\ NoDup free.

Lemma good_complement n l : good n l (complement n l).
Proof. split; [intros i; apply complement_in|apply complement_nodup]. Qed.

Lemma good_length n a f : good n a f -> (length f <= n)%nat.
Proof.
  intros (G & ND). assert (L : (length f <= length (seq 0 n))%nat); [|rewrite seq_length in L; exact L].
  apply NoDup_incl_length; [exact ND|]. intros i I. apply G in I. apply in_seq. lia.
Qed.

Lemma shrink n a f crit f' a' : good n a f -> good n a' f' -> (forall i, In i a' <-> In i a \/ In i crit) ->
  (forall i, In i crit -> In i f) -> crit <> [] -> (length f' < length f)%nat /\ incl f' f.
Proof.
  intros (G & ND) (G' & ND') A C NE. destruct crit as [|x crit]; [contradiction|].
  assert (INC : incl f' f).
  { intros i I. apply G' in I. apply G. split; [tauto|]. intros J. apply (proj2 I), A. left. exact J. }
  split; [|exact INC]. assert (X : In x f) by (apply C; left; reflexivity).
  assert (NX : ~ In x f') by (intros I; apply G' in I; apply (proj2 I), A; right; left; reflexivity).
  assert (L : (length (x :: f') <= length f)%nat).
  { apply NoDup_incl_length; [constructor; assumption|]. intros i [<-|I]; [exact X|exact (INC i I)]. }
  cbn in L. lia.
Qed.

Lemma filter_length_le {A} (f : A -> bool) l : (length (filter f l) <= length l)%nat.
Proof. induction l as [|a l IH]; cbn; [lia|]. destruct (f a); cbn; lia. Qed.

Definition count (n : nat) (f : nat -> bool) : nat := length (filter f (seq 0 n)).

Lemma count_mono n f g : (forall i, (i < n)%nat -> f i = true -> g i = true) -> (count n f <= count n g)%nat.
Proof.
  intros M. unfold count. apply NoDup_incl_length; [apply NoDup_filter, seq_NoDup|].
  intros i I. apply filter_In in I. destruct I as [I F]. apply filter_In. split; [exact I|]. apply in_seq in I. apply M; [lia|exact F].
Qed.
Lemma count_mono_lt n f g k : (forall i, (i < n)%nat -> f i = true -> g i = true) -> (k < n)%nat -> f k = false -> g k = true ->
  (count n f < count n g)%nat.
Proof.
  intros M Hk F G. unfold count.
  assert (L : (length (k :: filter f (seq 0 n)) <= length (filter g (seq 0 n)))%nat).
  { apply NoDup_incl_length.
    - constructor; [|apply NoDup_filter, seq_NoDup]. intros I. apply filter_In in I. destruct I. congruence.
    - intros i [<-|I]; apply filter_In; [split; [apply in_seq; lia|exact G]|].
      apply filter_In in I. destruct I as [I X]. split; [exact I|]. apply in_seq in I. apply M; [lia|exact X]. }
  cbn in L. lia.
Qed.
Lemma count_lt n f k : (k < n)%nat -> f k = false -> (count n f < n)%nat.
Proof.
  intros Hk F. pose proof (count_mono_lt n f (fun _ => true) k ltac:(auto) Hk F eq_refl) as L.
  unfold count in *. eapply Nat.lt_le_trans; [exact L|]. pose proof (filter_length_le (fun _ : nat => true) (seq 0 n)) as X. rewrite seq_length in X. exact X.
Qed.
Lemma count_pos n f k : (k < n)%nat -> f k = true -> (0 < count n f)%nat.
Proof.
  intros Hk F. pose proof (count_mono_lt n (fun _ => false) f k ltac:(discriminate) Hk eq_refl F). lia.
Qed.

(** ** Embedding of reduced vectors *)

Lemma expand_out l d i : ~ In i l -> expand l d i = 0.
Proof.
  intros N. unfold expand. apply rsum_zero. intros k Hk. unfold idm.
  destruct (Nat.eqb_spec i (nth k l 0%nat)) as [E|E]; [|ring]. exfalso. apply N. rewrite E. apply nth_In. exact Hk.
Qed.
Lemma expand_mask (f : nat -> bool) l d i :
  expand l (fun k => if f (nth k l 0%nat) then 0 else d k) i = if f i then 0 else expand l d i.
Proof.
  unfold expand. destruct (f i) eqn:F.
  - apply rsum_zero. intros k Hk. unfold idm. destruct (Nat.eqb_spec i (nth k l 0%nat)) as [E|E]; [|ring]. rewrite <- E, F. ring.
  - apply rsum_ext. intros k Hk. unfold idm. destruct (Nat.eqb_spec i (nth k l 0%nat)) as [E|E]; [|ring]. rewrite <- E, F. reflexivity.
Qed.
Lemma expand_orth n l : NoDup l -> (forall i, In i l -> (i < n)%nat) -> orthonormal n (length l) (fun i k => idm i (nth k l 0%nat)).
Proof.
  intros ND B a b Ha Hb. pose proof (B _ (nth_In l 0%nat Ha)) as La.
  rewrite (rsum_single n (nth a l 0%nat)); [|exact La|].
  - unfold idm. rewrite Nat.eqb_refl. destruct (Nat.eqb_spec a b) as [->|N]; [rewrite Nat.eqb_refl; ring|].
    destruct (Nat.eqb_spec (nth a l 0%nat) (nth b l 0%nat)) as [E|E]; [|ring].
    exfalso. apply N. apply (proj1 (NoDup_nth l 0%nat) ND a b Ha Hb E).
  - intros i Hi N. unfold idm. destruct (Nat.eqb_spec i (nth a l 0%nat)); [contradiction|ring].
Qed.
Lemma expand_norm n l d : NoDup l -> (forall i, In i l -> (i < n)%nat) -> norm n (expand l d) = norm (length l) d.
Proof.
  intros ND B. unfold norm. f_equal. exact (orth_norm n (length l) _ d (expand_orth n l ND B)).
Qed.

(** ** Bounds *)

Lemma eps_pos : 0 < bc_eps.
Proof. apply Rinv_0_lt_compat, pow_lt. lra. Qed.
Lemma tiny_pos : 0 < bc_tiny.
Proof. apply Rinv_0_lt_compat, pow_lt. lra. Qed.
Lemma tiny_eps : bc_tiny <= bc_eps.
Proof. unfold bc_tiny, bc_eps. apply Rinv_le_contravar; [apply pow_lt; lra|]. apply Rle_pow; [lra|lia]. Qed.

Lemma out0 lb ub s i : out_by lb ub 0 s i = false <-> xle_r (lb i) (s i) /\ rle_x (s i) (ub i).
Proof.
  unfold out_by. rewrite orb_false_iff, !negb_false_iff, Rminus_0_r, Rplus_0_r, rlex_true, xler_true. tauto.
Qed.
Lemma outr lb ub r s i : out_by lb ub r s i = false <-> xle_r (lb i) (s i + r) /\ rle_x (s i - r) (ub i).
Proof.
  unfold out_by. rewrite orb_false_iff, !negb_false_iff, rlex_true, xler_true. tauto.
Qed.

Lemma existsb_none {A} (f : A -> bool) l : existsb f l = false -> forall x, In x l -> f x = false.
Proof.
  intros E x I. destruct (f x) eqn:F; [|reflexivity]. assert (existsb f l = true) by (apply existsb_exists; exists x; split; assumption).
  congruence.
Qed.

Section Proofs.
Variable ms : nat -> nat -> vec -> mat -> R -> option (vec * vec).
Variable hom : nat -> nat -> list nat -> vec -> hans.
Variables (n : nat) (H : mat) (lb ub : nat -> xR) (g0 : vec) (Delta0 : R).
Notation within := (in_bounds n lb ub).

(** *** The calls of the unconstrained solver *)

Lemma calls_spec k c s g Delta gp a f : good n a f -> (length f <= k)%nat -> f <> [] ->
  match ms_calls ms n H lb ub k c s g Delta gp a f with
  | CFuel => False
  | CRaise => True
  | CFixed _ c' => (c <= c' <= c + length f)%nat
  | CGo a1 f1 sa _ c' => good n a1 f1 /\ incl f1 f /\ f1 <> [] /\ (c <= c' <= c + length f)%nat /\
      (exists d gp', ms c' (length f1) (sub_vec f1 g) (sub_mat f1 H) Delta = Some (d, gp') /\ sa = vadd s (expand f1 d)) /\
      forall i, In i f1 -> u_crit ub sa i = false /\ l_crit lb sa i = false
  end.
Proof.
  revert c gp a f. induction k as [|k IH]; intros c gp a f G L NE; [destruct f; [contradiction|cbn in L; lia]|].
  cbn [ms_calls]. destruct (ms (S c) (length f) (sub_vec f g) (sub_mat f H) Delta) as [[d gp']|] eqn:M; [|exact I].
  set (sa := vadd s (expand f d)). set (crit := filter (u_crit ub sa) f ++ filter (l_crit lb sa) f).
  assert (CI : forall i, In i crit -> In i f).
  { intros i I. unfold crit in I. apply in_app_or in I. destruct I as [I|I]; apply filter_In in I; tauto. }
  assert (F0 : (1 <= length f)%nat) by (destruct f; [contradiction|cbn; lia]).
  destruct crit as [|x cr] eqn:CE.
  - split; [exact G|]. split; [intros i I; exact I|]. split; [exact NE|]. split; [lia|]. split; [exists d, gp'; split; [exact M|reflexivity]|].
    intros i I. unfold crit in CE. apply app_eq_nil in CE. destruct CE as [C1 C2].
    split; match goal with |- ?f i = false => destruct (f i) eqn:F; [exfalso|reflexivity] end.
    + assert (X : In i (filter (u_crit ub sa) f)) by (apply filter_In; split; assumption). rewrite C1 in X. exact X.
    + assert (X : In i (filter (l_crit lb sa) f)) by (apply filter_In; split; assumption). rewrite C2 in X. exact X.
  - set (cs := x :: cr) in *.
    pose proof (good_complement n (a ++ cs)) as G'.
    destruct (shrink n a f cs (complement n (a ++ cs)) (a ++ cs) G G' ltac:(intros i; apply in_app_iff) CI ltac:(unfold cs; discriminate)) as (SL & SI).
    destruct (complement n (a ++ cs)) as [|y fs] eqn:FE; [lia|].
    rewrite <- FE in *. specialize (IH (S c) (vadd gp (expand f gp')) (a ++ cs) (complement n (a ++ cs)) G' ltac:(lia) ltac:(rewrite FE; discriminate)).
    destruct (ms_calls _ _ _ _ _ k _ _ _ _ _ _ _) as [|gp1 c1|a1 f1 sa1 gp1 c1|]; [exact I|lia| |exact IH].
    destruct IH as (I1 & I2 & I3 & I4 & I5 & I6). split; [exact I1|]. split; [intros i I; apply SI, I2, I|]. split; [exact I3|]. split; [lia|]. split; assumption.
Qed.

(** *** The homotopy *)

Lemma move_in free sd sH s d : within s ->
  sd = (fun i => if memb i free && crit_zero lb ub (vadd s (expand free d)) i then 0 else vadd s (expand free d) i) ->
  sH = vadd s (expand free (fun k => if crit_zero lb ub (vadd s (expand free d)) (nth k free 0%nat) then 0 else d k)) ->
  existsb (out_by lb ub bc_eps sd) free = false ->
  within (move lb ub free sd sH) /\ (forall i, ~ In i free -> move lb ub free sd sH i = s i) /\
  (forall i, (i < n)%nat -> In i free -> (u_act ub sd i || l_act lb sd i)%bool = true -> at_bound lb ub (move lb ub free sd sH) i = true).
Proof.
  intros W -> -> E. set (s1 := vadd s (expand free d)) in *.
  set (sd := fun i => if memb i free && crit_zero lb ub s1 i then 0 else s1 i) in *.
  set (d' := fun k => if crit_zero lb ub s1 (nth k free 0%nat) then 0 else d k).
  pose proof (existsb_none _ _ E) as EN. pose proof eps_pos as EP. split; [|split].
  - intros i Hi. destruct (W i Hi) as (W1 & W2). unfold move.
    destruct (memb i free) eqn:M.
    + pose proof M as MI. apply memb_spec in MI. specialize (EN i MI). apply outr in EN. destruct EN as (O1 & O2).
      unfold l_act, u_act, near in *.
      destruct (lb i) as [l| |] eqn:EL; cbn [xsub xabs_le xval xle_r] in *; [destruct (Rleb_spec (Rabs (l - sd i)) bc_eps) as [A|A]|contradiction|].
      * cbn. destruct (ub i); cbn in *; try tauto; lra.
      * destruct (ub i) as [u| |] eqn:EU; cbn [xsub xabs_le xval rle_x] in *; [destruct (Rleb_spec (Rabs (u - sd i)) bc_eps) as [B|B]| |contradiction].
        -- lra.
        -- unfold vadd, d'. rewrite expand_mask. destruct (crit_zero lb ub s1 i) eqn:C; [lra|].
           assert (SI : sd i = s i + expand free d i) by (unfold sd; rewrite C, andb_false_r; reflexivity).
           rewrite <- SI. unfold Rabs in *. destruct (Rcase_abs _), (Rcase_abs _); lra.
        -- unfold vadd, d'. rewrite expand_mask. destruct (crit_zero lb ub s1 i) eqn:C; [lra|].
           assert (SI : sd i = s i + expand free d i) by (unfold sd; rewrite C, andb_false_r; reflexivity).
           rewrite <- SI. unfold Rabs in *. destruct (Rcase_abs _); lra.
      * destruct (ub i) as [u| |] eqn:EU; cbn [xsub xabs_le xval rle_x] in *; [destruct (Rleb_spec (Rabs (u - sd i)) bc_eps) as [B|B]| |contradiction].
        -- lra.
        -- unfold vadd, d'. rewrite expand_mask. destruct (crit_zero lb ub s1 i) eqn:C; [lra|].
           assert (SI : sd i = s i + expand free d i) by (unfold sd; rewrite C, andb_false_r; reflexivity).
           rewrite <- SI. unfold Rabs in *. destruct (Rcase_abs _); lra.
        -- tauto.
    + apply memb_false in M. unfold vadd. rewrite expand_out by exact M. rewrite Rplus_0_r. tauto.
  - intros i N. unfold move. apply memb_false in N as M. rewrite M. unfold vadd. rewrite expand_out by exact N. ring.
  - intros i Hi I A. unfold at_bound, move. apply memb_spec in I as M. rewrite M.
    apply orb_true_iff. destruct (l_act lb sd i) eqn:LA.
    + right. unfold l_act, near in LA. destruct (lb i) as [l| |]; cbn in LA; try discriminate.
      unfold below. cbn. apply Rleb_true. lra.
    + left. rewrite orb_false_r in A. rewrite A. unfold u_act, near in A. destruct (ub i) as [u| |]; cbn in A; try discriminate.
      unfold above. cbn. apply Rleb_true. lra.
Qed.

Lemma hom_spec left i pass free s out act : within s -> (out = true \/ act = false) -> (forall j, In j free -> (j < n)%nat) ->
  match hom_loop hom lb ub left i pass free s out act with
  | HomFall => False
  | HomRaise => True
  | HomLimit i' => i' = (i + left + 1)%nat
  | HomBreak s' i' => (i' <= i + left + 1)%nat /\ within s' /\ (forall j, ~ In j free -> s' j = s j) /\
      exists j, In j free /\ at_bound lb ub s' j = true
  end.
Proof.
  intros W C B. revert i out act C. induction left as [|k IH]; intros i out act C; cbn [hom_loop];
    (replace (negb (negb act || out)) with false by (destruct C as [-> | ->]; [rewrite orb_true_r|]; reflexivity));
    destruct (hom pass (S i) free s) as [d| |]; try exact I; try lia.
  - set (sd := fun i => _).
    destruct (existsb (out_by lb ub bc_eps sd) free) eqn:E; cbn [negb]; [lia|].
    match goal with |- context [if existsb ?f free then HomBreak _ _ else _] => destruct (existsb f free) eqn:A end; [|lia].
    destruct (move_in free sd _ s d W eq_refl eq_refl E) as (M1 & M2 & M3).
    split; [lia|]. split; [exact M1|]. split; [exact M2|]. apply existsb_exists in A. destruct A as (j & J & F).
    exists j. split; [exact J|]. apply M3; auto.
  - set (sd := fun i => _).
    destruct (existsb (out_by lb ub bc_eps sd) free) eqn:E; cbn [negb].
    + assert (O : existsb (out_by lb ub 0 sd) free = true).
      { apply existsb_exists in E. destruct E as (j & J & F). apply existsb_exists. exists j. split; [exact J|].
        destruct (out_by lb ub 0 sd j) eqn:Z; [reflexivity|]. exfalso. apply out0 in Z. enough (out_by lb ub bc_eps sd j = false) by congruence.
        apply outr. pose proof eps_pos. destruct (lb j), (ub j); cbn in *; try tauto; lra. }
      specialize (IH (S i) (existsb (out_by lb ub 0 sd) free) act (or_introl O)).
      destruct (hom_loop _ _ _ k _ _ _ _ _ _); [exact I|exact IH|lia|]. destruct IH as (I1 & I2). split; [lia|exact I2].
    + match goal with |- context [if existsb ?f free then HomBreak _ _ else _] => destruct (existsb f free) eqn:A end.
      * destruct (move_in free sd _ s d W eq_refl eq_refl E) as (M1 & M2 & M3).
        split; [lia|]. split; [exact M1|]. split; [exact M2|]. apply existsb_exists in A. destruct A as (j & J & F).
        exists j. split; [exact J|]. apply M3; auto.
      * specialize (IH (S i) (existsb (out_by lb ub 0 sd) free) false (or_intror eq_refl)).
        destruct (hom_loop _ _ _ k _ _ _ _ _ _); [exact I|exact IH|lia|]. destruct IH as (I1 & I2). split; [lia|exact I2].
  - specialize (IH (S i) out act C). destruct (hom_loop _ _ _ k _ _ _ _ _ _); [exact I|exact IH|lia|]. destruct IH as (I1 & I2). split; [lia|exact I2].
Qed.

(** *** The outer loop *)

(** holds at the head of every pass *)
Definition head (passes calls trials : nat) (s : vec) (norms value : R) (active free : list nat) : Prop :=
  within s /\ good n active free /\ norms = norm n s /\ value = bc_model n H g0 s /\
  (passes <= count n (at_bound lb ub s))%nat /\
  (passes <> 0%nat -> forall i, In i free -> at_bound lb ub s i = false) /\
  (calls <= passes * n)%nat /\ (trials <= passes * 100)%nat.

Definition fin (o : bc_out) : Prop :=
  within (bc_s o) /\ (bc_passes o <= n)%nat /\ (bc_calls o <= bc_passes o * n)%nat /\ (bc_trials o <= bc_passes o * 100)%nat /\
  bc_norms o = norm n (bc_s o) /\ (bc_end o <> BcLimit -> bc_value o = bc_model n H g0 (bc_s o)) /\
  (bc_end o = BcLimit -> bc_s o = vzero).

Lemma outer_step passes calls trials s s' g' (a1 f1 : list nat) i c norms value active free :
  head passes calls trials s norms value active free -> free <> [] ->
  good n a1 f1 -> incl f1 free -> (c <= calls + length free)%nat -> (i <= 100)%nat ->
  within s' -> (forall j, ~ In j f1 -> s' j = s j) -> (exists j, In j f1 /\ at_bound lb ub s' j = true) ->
  let a2 := filter (at_bound lb ub s') (seq 0 n) in
  let f2 := complement n a2 in
  let a3 := a2 ++ filter (g_crit lb ub g') f2 in
  let f3 := filter (fun i => negb (memb i a3)) f2 in
  head (S passes) c (trials + i) s' (norm n s') (bc_model n H g0 s') a3 f3 /\ (S passes <= n)%nat.
Proof.
  intros (W & G & _ & _ & CT & NB & CC & CTr) NE G1 I1 HC HI W' SAME (j & J & AJ) a2 f2 a3 f3.
  assert (F2 : forall i, In i f2 -> at_bound lb ub s' i = false).
  { intros k K. apply complement_in in K. destruct K as [K1 K2]. destruct (at_bound lb ub s' k) eqn:A; [|reflexivity].
    exfalso. apply K2. apply filter_In. split; [apply in_seq; lia|exact A]. }
  assert (KEEP : passes <> 0%nat -> forall k, (k < n)%nat -> at_bound lb ub s k = true -> at_bound lb ub s' k = true).
  { intros P k Hk A. unfold at_bound. rewrite SAME; [exact A|]. intros K. pose proof (NB P k (I1 k K)). congruence. }
  assert (Jn : (j < n)%nat) by (apply G1; exact J).
  assert (CT' : (S passes <= count n (at_bound lb ub s'))%nat).
  { destruct (Nat.eq_dec passes 0) as [->|P]; [exact (count_pos n _ j Jn AJ)|].
    pose proof (count_mono_lt n (at_bound lb ub s) (at_bound lb ub s') j (KEEP P) Jn (NB P j (I1 j J)) AJ). lia. }
  pose proof (good_length n active free G) as LF.
  assert (CN : (count n (at_bound lb ub s') <= n)%nat) by (unfold count; eapply Nat.le_trans; [apply filter_length_le|rewrite seq_length; lia]).
  split; [|lia]. unfold head. split; [exact W'|]. split.
  - split; [|apply NoDup_filter, complement_nodup]. intros k. unfold f3. rewrite filter_In, negb_true_iff, memb_false.
    unfold f2. rewrite complement_in. unfold a3. rewrite in_app_iff. tauto.
  - split; [reflexivity|]. split; [reflexivity|]. split; [exact CT'|]. split.
    + intros _ k K. apply F2. apply filter_In in K. tauto.
    + split; [nia|lia].
Qed.

Lemma outer_spec fuel passes calls trials s g Delta norms value gplus active free tag :
  within vzero -> head passes calls trials s norms value active free -> (passes + fuel = n)%nat -> tag <> BcLimit ->
  match bc_outer ms hom n H lb ub g0 Delta0 fuel passes calls trials s g Delta norms value gplus active free tag with
  | None => True
  | Some None => False
  | Some (Some o) => fin o
  end.
Proof.
  intros W0. revert passes calls trials s g Delta norms value gplus active free tag.
  induction fuel as [|k IH]; intros passes calls trials s g Delta norms value gplus active free tag HD PF TG;
    pose proof HD as (W & G & EN & EV & CT & NB & CC & CTr); cbn [bc_outer]; destruct free as [|f0 fr] eqn:FE.
  - unfold fin. cbn. repeat split; auto; try lia; try congruence; apply W; assumption.
  - (* a free variable is not counted as being at a bound *)
    assert (f0 < n)%nat by (apply G; left; reflexivity).
    assert (P : passes <> 0%nat) by lia. pose proof (NB P f0 (or_introl eq_refl)) as A.
    pose proof (count_lt n _ f0 H0 A). lia.
  - unfold fin. cbn. repeat split; auto; try lia; try congruence; apply W; assumption.
  - rewrite <- FE in *. assert (NE : free <> []) by (rewrite FE; discriminate).
    assert (LF : (length free <= n)%nat) by exact (good_length n active free G).
    pose proof (calls_spec (length free) calls s g Delta gplus active free G (le_n _) NE) as CS.
    assert (PN : (S passes <= n)%nat) by lia.
    destruct (ms_calls ms n H lb ub (length free) calls s g Delta gplus active free) as [|gp c|a1 f1 sa gp c|]; [exact I| | |exact CS].
    + unfold fin. cbn. repeat split; auto; try lia; try congruence; try (apply W; assumption); nia.
    + destruct CS as (G1 & I1 & NE1 & CC1 & (d & gp' & MS & SA) & CR).
      destruct (existsb (out_by lb ub 0 sa) f1) eqn:O.
      * pose proof (hom_spec 99 0 (S passes) f1 s true (existsb (fun i => u_act ub sa i || l_act lb sa i)%bool f1) W (or_introl eq_refl)
          ltac:(intros j J; apply G1; exact J)) as HS.
        destruct (hom_loop hom lb ub 99 0 (S passes) f1 s true _) as [| |i|s' i]; [exact I|exact HS| |].
        -- unfold fin. cbn. repeat split; auto; try lia; try congruence; try nia; try (apply W0; assumption).
           symmetry. apply norm_zero. intros j J. reflexivity.
        -- destruct HS as (HI & W' & SAME & EX).
           pose proof (outer_step passes calls trials s s' (vadd g0 (mv n H s')) a1 f1 i c norms value active free HD NE G1 I1
             ltac:(lia) ltac:(lia) W' SAME EX) as (HD' & PN'). cbv zeta in HD'.
           assert (FIN : forall t, t <> BcLimit -> fin (mkbc s' (norm n s') (bc_model n H g0 s') gp t c (S passes) (trials + i))).
           { intros t T. unfold fin. cbn. destruct HD' as (_ & _ & _ & _ & _ & _ & X1 & X2). repeat split; auto; try congruence; apply W'; assumption. }
           destruct (Rltb _ _); [apply FIN; discriminate|]. destruct (Rltb _ _); [apply FIN; discriminate|].
           destruct (complement n (filter (at_bound lb ub s') (seq 0 n))) as [|y ys] eqn:F2; [apply FIN; discriminate|].
           rewrite <- F2 in *. destruct (forallb _ _); [apply FIN; discriminate|].
           apply IH; [exact HD'|lia|discriminate].
      * assert (WA : within sa).
        { intros j J. destruct (in_dec Nat.eq_dec j f1) as [K|K].
          - apply out0. apply (existsb_none _ _ O). exact K.
          - rewrite SA. unfold vadd. rewrite expand_out, Rplus_0_r by exact K. apply W. exact J. }
        unfold fin. cbn. repeat split; auto; try lia; try congruence; try nia; apply WA; assumption.
Qed.

Lemma start_head : within vzero ->
  head 0 0 0 vzero 0 0 (filter (g_crit lb ub g0) (seq 0 n)) (complement n (filter (g_crit lb ub g0) (seq 0 n))).
Proof.
  intros W. unfold head. split; [exact W|]. split; [apply good_complement|].
  split; [symmetry; apply norm_zero; intros j J; reflexivity|]. split.
  - unfold bc_model. rewrite !dot_zero_l. ring.
  - repeat split; try lia.
Qed.

Lemma solve_fin : within vzero ->
  match solve_bc ms hom n H lb ub g0 Delta0 with
  | None => True | Some None => False | Some (Some o) => fin o
  end.
Proof. intros W. unfold solve_bc. apply outer_spec; [exact W|apply start_head; exact W|lia|discriminate]. Qed.
End Proofs.
