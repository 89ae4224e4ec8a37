(** Proofs about rsort and removeByInd. *)
From Coq Require Import List Arith ZArith QArith Bool Permutation Sorting Lia Lqa.
Import ListNotations.
From Verif Require Import Rst_Model Rst_Spec.
Local Open Scope Q_scope.

(** ** runs of equal neighbours *)
Definition same_head (a : Q) (t : list Q) : bool := match t with [] => false | b :: _ => Qeq_bool b a end.

Lemma ends_cons a t : ends (a :: t) = if same_head a t then map S (ends t) else 0%nat :: map S (ends t).
Proof.
  unfold ends. cbn [length seq filter]. rewrite <- seq_shift.
  assert (E : forall l, filter (last_of_run (a :: t)) (map S l) = map S (filter (last_of_run t) l)).
  { induction l as [|i l IH]; [reflexivity|]. cbn [map filter].
    change (last_of_run (a :: t) (S i)) with (last_of_run t i). rewrite IH. now destruct (last_of_run t i). }
  rewrite E. unfold last_of_run at 1, same_head. cbn [nth_error nth]. destruct t as [|b t]; [reflexivity|].
  cbn [nth_error]. now destruct (Qeq_bool b a).
Qed.

Lemma ends_not_nil a t : ends (a :: t) <> [].
Proof.
  revert a. induction t as [|b t IH]; intros a; rewrite ends_cons; cbn [same_head]; [discriminate|].
  destruct (Qeq_bool b a); [|discriminate]. specialize (IH b). destruct (ends (b :: t)); [congruence|discriminate].
Qed.

(** the values kept *)
Lemma take_S a t l : take (a :: t) (map S l) = take t l.
Proof. unfold take. rewrite map_map. reflexivity. Qed.
Lemma kept_cons a t : take (a :: t) (ends (a :: t)) = if same_head a t then take t (ends t) else a :: take t (ends t).
Proof. rewrite ends_cons. destruct (same_head a t); [apply take_S|]. change (a :: take (a :: t) (map S (ends t)) = a :: take t (ends t)). now rewrite take_S. Qed.

(** lengths of the runs, as computed with unit weights *)
Fixpoint gaps (a : nat) (t : list nat) : list nat := match t with [] => [] | b :: u => (b - a)%nat :: gaps b u end.
Definition run_lengths (e : list nat) : list nat := match e with [] => [] | i :: t => (i + 1)%nat :: gaps i t end.
Lemma gaps_S a t : gaps (S a) (map S t) = gaps a t.
Proof. revert a. induction t as [|b t IH]; intros a; [reflexivity|]. cbn [map gaps]. now rewrite IH. Qed.

Lemma runs_cons a t : run_lengths (ends (a :: t)) =
  if same_head a t then match run_lengths (ends t) with [] => [] | k :: u => S k :: u end
  else 1%nat :: run_lengths (ends t).
Proof.
  rewrite ends_cons. destruct (same_head a t) eqn:H.
  - destruct (ends t) as [|i e]; [reflexivity|]. cbn [map run_lengths]. now rewrite gaps_S.
  - cbn [run_lengths]. f_equal. destruct (ends t) as [|i e]; [reflexivity|]. cbn [map gaps run_lengths].
    rewrite gaps_S. f_equal. lia.
Qed.

(** ** sorted lists *)
Definition ascending (x : list Q) : Prop := forall i j, (i < j < length x)%nat -> nth i x 0 <= nth j x 0.
Lemma ascending_tl a t : ascending (a :: t) -> ascending t.
Proof. intros H i j L. apply (H (S i) (S j)). cbn. lia. Qed.
Lemma ascending_hd a t y : ascending (a :: t) -> In y t -> a <= y.
Proof. intros H I. destruct (In_nth _ _ 0 I) as (i & L & <-). apply (H 0%nat (S i)). cbn. lia. Qed.

Lemma same_head_false a t y : ascending (a :: t) -> same_head a t = false -> In y t -> a < y.
Proof.
  intros H S I. destruct t as [|b t]; [contradiction|]. cbn in S. apply Qeq_bool_neq in S.
  pose proof (ascending_hd _ _ b H (or_introl eq_refl)) as L.
  assert (a < b) by (apply Qle_lteq in L; destruct L as [L|L]; [exact L|exfalso; apply S; now symmetry]).
  destruct I as [<-|I]; [assumption|].
  apply Qlt_le_trans with b; [assumption|]. eapply ascending_hd; [eapply ascending_tl; exact H|exact I].
Qed.

Lemma kept_in x y : In y (take x (ends x)) -> In y x.
Proof.
  revert y. induction x as [|a t IH]; intros y H; [contradiction|]. rewrite kept_cons in H.
  destruct (same_head a t); [right; auto|]. destruct H as [->|H]; [now left|right; auto].
Qed.

Lemma kept_occurs v x : occurs v (take x (ends x)) <-> occurs v x.
Proof.
  split; [intros (y & I & E); exists y; split; [now apply kept_in|exact E]|].
  induction x as [|a t IH]; intros (y & I & E); [contradiction|]. rewrite kept_cons.
  destruct (same_head a t) eqn:S.
  - apply IH. destruct I as [->|I]; [|exists y; auto].
    destruct t as [|b t]; [discriminate|]. apply Qeq_bool_iff in S. exists b. split; [now left|]. now rewrite S.
  - destruct I as [->|I]; [exists y; split; [now left|exact E]|].
    destruct IH as (z & J & F); [exists y; auto|]. exists z. split; [now right|exact F].
Qed.

Lemma increasing_cons a l : (forall y, In y l -> a < y) -> increasing l -> increasing (a :: l).
Proof.
  intros H I i j L. destruct i as [|i], j as [|j]; cbn [nth length] in *; try lia.
  - apply H. apply nth_In. lia.
  - apply I. lia.
Qed.
Lemma kept_increasing x : ascending x -> increasing (take x (ends x)).
Proof.
  induction x as [|a t IH]; intros A; [intros i j L; cbn in L; lia|]. rewrite kept_cons.
  specialize (IH (ascending_tl _ _ A)). destruct (same_head a t) eqn:S; [exact IH|].
  apply increasing_cons; [|exact IH]. intros y I. eapply same_head_false; [exact A|exact S|now apply kept_in].
Qed.

Lemma times_absent v t : (forall y, In y t -> ~ y == v) -> times v t = 0%nat.
Proof.
  induction t as [|b t IH]; intros H; [reflexivity|]. cbn [times]. destruct (Qeq_bool b v) eqn:E.
  - apply Qeq_bool_iff in E. exfalso. apply (H b); [now left|exact E].
  - apply IH. intros y I. apply H. now right.
Qed.
Lemma times_eq v v' t : v == v' -> times v t = times v' t.
Proof.
  intros E. induction t as [|b t IH]; [reflexivity|]. cbn [times]. rewrite IH.
  replace (Qeq_bool b v) with (Qeq_bool b v'); [reflexivity|]. apply eq_true_iff_eq. rewrite !Qeq_bool_iff. rewrite E. reflexivity.
Qed.

Lemma kept_head b t : exists u, take (b :: t) (ends (b :: t)) = nth 0 (take (b :: t) (ends (b :: t))) 0 :: u /\
  nth 0 (take (b :: t) (ends (b :: t))) 0 == b.
Proof.
  revert b. induction t as [|c t IH]; intros b; rewrite kept_cons; cbn [same_head].
  - exists []. split; reflexivity.
  - destruct (Qeq_bool c b) eqn:E.
    + destruct (IH c) as (u & A & B). exists u. split; [exact A|]. rewrite B. now apply Qeq_bool_iff.
    + eexists. split; reflexivity.
Qed.

(** the lengths of the runs count the occurrences *)
Lemma runs_count x : ascending x -> run_lengths (ends x) = map (fun v => times v x) (take x (ends x)).
Proof.
  induction x as [|a t IH]; intros A; [reflexivity|].
  specialize (IH (ascending_tl _ _ A)). rewrite runs_cons, kept_cons.
  destruct (same_head a t) eqn:S.
  - destruct t as [|b t]; [discriminate|]. cbn in S. apply Qeq_bool_iff in S.
    destruct (kept_head b t) as (u & K & E). rewrite K in IH |- *. rewrite IH. cbn [map].
    set (h := nth 0 (take (b :: t) (ends (b :: t))) 0) in *.
    pose proof (kept_increasing _ (ascending_tl _ _ A)) as I. rewrite K in I.
    f_equal.
    + cbn [times]. replace (Qeq_bool a h) with true; [reflexivity|]. symmetry. apply Qeq_bool_iff. rewrite E. now symmetry.
    + apply map_ext_in. intros v V. destruct (In_nth _ _ 0 V) as (i & L & <-).
      specialize (I 0%nat (Datatypes.S i)). cbn [nth length] in I. assert (h < nth i u 0) by (apply I; lia).
      cbn [times]. replace (Qeq_bool a (nth i u 0)) with false; [reflexivity|].
      symmetry. apply not_true_iff_false. rewrite Qeq_bool_iff. lra.
  - cbn [map]. f_equal.
    + cbn [times]. replace (Qeq_bool a a) with true by (symmetry; apply Qeq_bool_iff; reflexivity).
      rewrite times_absent; [reflexivity|]. intros y I E. pose proof (same_head_false _ _ y A S I). lra.
    + rewrite IH. apply map_ext_in. intros v V. cbn [times].
      replace (Qeq_bool a v) with false; [reflexivity|]. symmetry. apply not_true_iff_false. rewrite Qeq_bool_iff.
      pose proof (same_head_false _ _ v A S (kept_in _ _ V)). lra.
Qed.

(** ** unit weights *)
Lemma ends_lt x i : In i (ends x) -> (i < length x)%nat.
Proof. unfold ends. intros H. apply filter_In in H. destruct H as [H _]. apply in_seq in H. lia. Qed.

Lemma sum_ones n : fold_right Qplus 0 (repeat 1 n) == inject_Z (Z.of_nat n).
Proof.
  induction n as [|n IH]; [reflexivity|]. cbn [repeat fold_right]. rewrite IH, Nat2Z.inj_succ.
  unfold Z.succ. rewrite inject_Z_plus. ring.
Qed.
Lemma firstn_repeat (c : Q) k n : (k <= n)%nat -> firstn k (repeat c n) = repeat c k.
Proof. revert n. induction k as [|k IH]; intros n H; [reflexivity|]. destruct n; [lia|]. cbn. rewrite IH by lia. reflexivity. Qed.
Lemma skipn_repeat (c : Q) k n : skipn k (repeat c n) = repeat c (n - k).
Proof. revert n. induction k as [|k IH]; intros n; [cbn; now rewrite Nat.sub_0_r|]. destruct n; [reflexivity|]. cbn. apply IH. Qed.
Lemma slice_ones n a b : (b <= n)%nat -> sum_slice (repeat 1 n) a b == inject_Z (Z.of_nat (b - a)).
Proof. intros H. unfold sum_slice. rewrite skipn_repeat, firstn_repeat by lia. apply sum_ones. Qed.

Definition qs_of (l : list nat) : list Q := map (fun k => inject_Z (Z.of_nat k)) l.
Lemma later_ones n a t : (forall i, In i t -> (i <= n)%nat) -> Forall2 Qeq (later_weights (repeat 1 n) a t) (qs_of (gaps a t)).
Proof.
  revert a. induction t as [|b t IH]; intros a H; [constructor|]. cbn. constructor.
  - apply slice_ones. apply H. now left.
  - apply IH. intros i I. apply H. now right.
Qed.

Lemma take_ones (p : list nat) n : (forall i, In i p -> (i < n)%nat) -> take (repeat 1 n) p = repeat 1 (length p).
Proof.
  unfold take. induction p as [|i p IH]; intros H; [reflexivity|]. cbn [map length repeat]. f_equal.
  - apply (repeat_spec n 1). apply nth_In. rewrite repeat_length. apply H. now left.
  - apply IH. intros j J. apply H. now right.
Qed.

(** ** the arrangement *)
Lemma sorts_facts p x : sorts p x -> ascending (take x p) /\ Permutation (take x p) x.
Proof.
  intros [P H]. split.
  - intros i j L. unfold take in *. rewrite map_length in L.
    assert (N : forall k, (k < length p)%nat -> nth k (map (fun i => nth i x 0) p) 0 = nth (nth k p 0%nat) x 0).
    { intros k K. rewrite (nth_indep _ 0 (nth 0%nat x 0)) by (rewrite map_length; exact K). exact (map_nth (fun i => nth i x 0) p 0%nat k). }
    rewrite !N by lia. now apply H.
  - unfold take. transitivity (map (fun i => nth i x 0) (seq 0 (length x))); [now apply Permutation_map|].
    replace (map (fun i => nth i x 0) (seq 0 (length x))) with x; [reflexivity|].
    clear. induction x as [|a t IH]; [reflexivity|]. cbn [length seq map nth]. f_equal.
    rewrite <- seq_shift, map_map. exact IH.
Qed.
Lemma times_perm v l l' : Permutation l l' -> times v l = times v l'.
Proof.
  induction 1 as [|a l l' P IH|a b l|l l' l'' P1 IH1 P2 IH2]; cbn [times]; [reflexivity|now rewrite IH| |congruence].
  destruct (Qeq_bool a v), (Qeq_bool b v); reflexivity.
Qed.
Lemma occurs_perm v l l' : Permutation l l' -> (occurs v l <-> occurs v l').
Proof.
  intros P. split; intros (y & I & E); exists y; (split; [|exact E]).
  - eapply Permutation_in; eauto.
  - eapply Permutation_in; [symmetry|]; eauto.
Qed.

Lemma rsort_inv py3 p x w rx rw cdf dof : rsort py3 p x w = Some (rx, rw, cdf, dof) ->
  py3 = false /\ rx = take (take x p) (ends (take x p)) /\ dof = length p /\
  (exists i0 t, ends (take x p) = i0 :: t /\ rw = sum_slice (take w p) 0 (i0 + 1) :: later_weights (take w p) i0 t) /\
  cdf = map (fun q => (fst q - (1 # 2) * snd q) / nth (length rw - 1) (cumsum 0 rw) 0) (combine (cumsum 0 rw) rw).
Proof.
  unfold rsort. destruct (ends (take x p)) as [|i0 t] eqn:E; [discriminate|]. destruct py3; [discriminate|].
  intros H. injection H as <- <- <- <-. split; [reflexivity|]. split; [reflexivity|].
  split; [unfold take; now rewrite map_length|]. split; [now exists i0, t|].
  assert (L : forall u a, length (later_weights (take w p) a u) = length u).
  { induction u as [|b u IH]; intros a; [reflexivity|]. cbn. now rewrite IH. }
  cbn [length]. rewrite L. reflexivity.
Qed.

Lemma later_length w a u : length (later_weights w a u) = length u.
Proof. revert a. induction u as [|b u IH]; intros a; [reflexivity|]. cbn. now rewrite IH. Qed.

(** values *)
Lemma rsort_values py3 p x w rx rw cdf dof : sorts p x -> rsort py3 p x w = Some (rx, rw, cdf, dof) ->
  increasing rx /\ (forall v, occurs v rx <-> occurs v x) /\ length rw = length rx /\ length cdf = length rx /\ dof = length x.
Proof.
  intros S H. destruct (sorts_facts _ _ S) as [A P]. apply rsort_inv in H.
  destruct H as (_ & -> & -> & (i0 & t & E & Ew) & Ec).
  assert (Lw : length rw = length (take (take x p) (ends (take x p)))).
  { transitivity (length (ends (take x p))); [rewrite E, Ew; cbn [length]; now rewrite later_length|].
    symmetry. apply map_length. }
  assert (Lc : forall s l, length (cumsum s l) = length l).
  { intros s l. revert s. induction l as [|a l IH]; intros s; [reflexivity|]. cbn. now rewrite IH. }
  split; [now apply kept_increasing|]. split.
  { intros v. rewrite kept_occurs. now apply occurs_perm. }
  split; [exact Lw|]. split.
  - rewrite Ec, map_length, combine_length, Lc. lia.
  - apply Permutation_length in P. unfold take in P. rewrite map_length in P. exact P.
Qed.

(** unit weights are counted correctly *)
Lemma Forall2_nth (l l' : list Q) i : Forall2 Qeq l l' -> nth i l 0 == nth i l' 0.
Proof. intros H. revert i. induction H as [|a b l l' E F IH]; intros i; destruct i; cbn; try reflexivity; auto. Qed.

Lemma rsort_unit py3 p x rx rw cdf dof : sorts p x -> rsort py3 p x (repeat 1 (length x)) = Some (rx, rw, cdf, dof) ->
  forall i, (i < length rx)%nat -> nth i rw 0 == inject_Z (Z.of_nat (times (nth i rx 0) x)).
Proof.
  intros S H i Hi. destruct (sorts_facts _ _ S) as [A P]. apply rsort_inv in H.
  destruct H as (_ & -> & _ & (i0 & t & E & ->) & _).
  assert (B : forall j, In j p -> (j < length x)%nat).
  { intros j J. destruct S as [Q _]. apply (Permutation_in _ Q) in J. apply in_seq in J. lia. }
  rewrite (take_ones p (length x) B).
  assert (Lt : length (take x p) = length p) by (unfold take; apply map_length).
  assert (F : Forall2 Qeq (sum_slice (repeat 1 (length p)) 0 (i0 + 1) :: later_weights (repeat 1 (length p)) i0 t)
                (qs_of (run_lengths (ends (take x p))))).
  { rewrite E. cbn. constructor.
    - replace (i0 + 1)%nat with (i0 + 1 - 0)%nat at 2 by lia. apply slice_ones.
      assert (i0 < length (take x p))%nat by (apply ends_lt; rewrite E; now left). lia.
    - apply later_ones. intros j J. assert (j < length (take x p))%nat by (apply ends_lt; rewrite E; now right). lia. }
  rewrite (Forall2_nth _ _ i F). rewrite (runs_count _ A). unfold qs_of. rewrite map_map.
  set (K := take (take x p) (ends (take x p))) in *.
  rewrite (nth_indep _ 0 ((fun v => inject_Z (Z.of_nat (times v (take x p)))) 0)) by (rewrite map_length; exact Hi).
  rewrite (map_nth (fun v => inject_Z (Z.of_nat (times v (take x p)))) K 0 i).
  now rewrite (times_perm _ _ _ P).
Qed.

(** the distribution belongs to the weights returned *)
Lemma cumsum_nth l : forall s i, (i < length l)%nat -> nth i (cumsum s l) 0 == s + total (firstn (S i) l).
Proof.
  induction l as [|a l IH]; intros s i Hi; [cbn in Hi; lia|]. destruct i as [|i]; cbn [cumsum nth firstn total].
  - ring.
  - rewrite IH by (cbn in Hi; lia). cbn [firstn total]. ring.
Qed.
Lemma rsort_cdf py3 p x w rx rw cdf dof : rsort py3 p x w = Some (rx, rw, cdf, dof) -> ~ total rw == 0 ->
  forall i, (i < length rw)%nat -> nth i cdf 0 == (total (firstn (S i) rw) - (1 # 2) * nth i rw 0) / total rw.
Proof.
  intros H _ i Hi. apply rsort_inv in H. destruct H as (_ & _ & _ & _ & ->).
  assert (Lc : forall s l, length (cumsum s l) = length l).
  { intros s l. revert s. induction l as [|a l IH]; intros s; [reflexivity|]. cbn. now rewrite IH. }
  set (T := nth (length rw - 1) (cumsum 0 rw) 0).
  assert (ET : T == total rw).
  { unfold T. rewrite cumsum_nth by lia. replace (S (length rw - 1)) with (length rw) by lia. rewrite firstn_all. ring. }
  set (f := fun q : Q * Q => (fst q - (1 # 2) * snd q) / T).
  rewrite (nth_indep _ 0 (f (0, 0))) by (rewrite map_length, combine_length, Lc; lia).
  rewrite (map_nth f). rewrite combine_nth by apply Lc. unfold f. cbn [fst snd].
  rewrite cumsum_nth by exact Hi. rewrite ET. rewrite Qplus_0_l. reflexivity.
Qed.

Lemma rsort_python3 p x w : rsort true p x w = None.
Proof. unfold rsort. destruct (ends (take x p)); reflexivity. Qed.

Lemma rsort_returns p x w : sorts p x -> x <> [] -> exists r, rsort false p x w = Some r.
Proof.
  intros S N. destruct (sorts_facts _ _ S) as [_ P]. unfold rsort.
  destruct (take x p) as [|a t] eqn:E.
  - apply Permutation_length in P. destruct x; [congruence|discriminate].
  - pose proof (ends_not_nil a t). destruct (ends (a :: t)); [congruence|]. eexists. reflexivity.
Qed.

(** given weights are not added up correctly *)
Lemma sorted_12 : sorts [0%nat; 1%nat] [1; 2].
Proof.
  split; [reflexivity|]. intros i j L. cbn [length] in L.
  assert (i = 0%nat) as -> by lia. assert (j = 1%nat) as -> by lia. cbn. discriminate.
Qed.
Lemma rsort_weights_refuted : ~ (forall p x w rx rw cdf dof, sorts p x -> length w = length x ->
  rsort false p x w = Some (rx, rw, cdf, dof) ->
  forall i, (i < length rx)%nat -> nth i rw 0 == weight (nth i rx 0) x w).
Proof.
  intros H.
  assert (E : exists cdf, rsort false [0%nat; 1%nat] [1; 2] [1; 3] = Some ([1; 2], [1; 1], cdf, 2%nat)) by (eexists; vm_compute; reflexivity).
  destruct E as (cdf & E). specialize (H _ _ _ _ _ _ _ sorted_12 eq_refl E 1%nat ltac:(cbn; lia)). vm_compute in H. discriminate.
Qed.
Lemma rsort_total_refuted : ~ (forall p x w rx rw cdf dof, sorts p x -> length w = length x ->
  rsort false p x w = Some (rx, rw, cdf, dof) -> total rw == total w).
Proof.
  intros H.
  assert (E : exists cdf, rsort false [0%nat; 1%nat] [1; 2] [1; 3] = Some ([1; 2], [1; 1], cdf, 2%nat)) by (eexists; vm_compute; reflexivity).
  destruct E as (cdf & E). specialize (H _ _ _ _ _ _ _ sorted_12 eq_refl E). vm_compute in H. discriminate.
Qed.

(** ** removeByInd *)
Lemma remove_python3 a ind : remove_by_ind true a ind = None.
Proof. unfold remove_by_ind. destruct (_ <? _)%nat; reflexivity. Qed.

Lemma remaining_combine (keep : nat -> bool) (a : list Z) : forall s,
  map snd (filter (fun p => keep (fst p)) (combine (seq s (length a)) a)) =
  map (fun i => nth (i - s) a 0%Z) (filter keep (seq s (length a))).
Proof.
  induction a as [|z a IH]; intros s; [reflexivity|]. cbn [length seq combine filter fst].
  assert (E : map snd (filter (fun p => keep (fst p)) (combine (seq (S s) (length a)) a)) =
              map (fun i => nth (i - s) (z :: a) 0%Z) (filter keep (seq (S s) (length a)))).
  { rewrite IH. apply map_ext_in. intros i I. apply filter_In in I. destruct I as [I _]. apply in_seq in I.
    replace (i - s)%nat with (S (i - S s)) by lia. reflexivity. }
  destruct (keep s); cbn [map snd]; rewrite E; [|reflexivity]. now rewrite Nat.sub_diag.
Qed.

Lemma seq_increasing n : forall s, StronglySorted lt (seq s n).
Proof.
  induction n as [|n IH]; intros s; cbn [seq]; constructor; [apply IH|].
  apply Forall_forall. intros i I. apply in_seq in I. lia.
Qed.
Lemma filter_increasing f (l : list nat) : StronglySorted lt l -> StronglySorted lt (filter f l).
Proof.
  induction 1 as [|a l S IH F]; [constructor|]. cbn [filter]. destruct (f a); [|exact IH]. constructor; [exact IH|].
  apply Forall_forall. intros i I. apply filter_In in I. eapply Forall_forall in F; [exact F|apply I].
Qed.

Lemma split_length (f : nat -> bool) l : (length (filter f l) + length (filter (fun i => negb (f i)) l) = length l)%nat.
Proof. induction l as [|a l IH]; [reflexivity|]. cbn [filter length]. destruct (f a); cbn [negb length]; lia. Qed.

Lemma increasing_unique (l l' : list nat) : StronglySorted lt l -> StronglySorted lt l' -> (forall i, In i l <-> In i l') -> l = l'.
Proof.
  intros S. revert l'. induction S as [|a l S IH F]; intros l' S' E.
  - destruct l' as [|b l']; [reflexivity|]. exfalso. apply (proj2 (E b)). now left.
  - destruct l' as [|b l']; [exfalso; apply (proj1 (E a)); now left|].
    inversion_clear S' as [|? ? S2 F2]. rewrite Forall_forall in F, F2.
    assert (a = b) as ->.
    { destruct (proj1 (E a) (or_introl eq_refl)) as [X|X]; [now symmetry|].
      destruct (proj2 (E b) (or_introl eq_refl)) as [Y|Y]; [exact Y|]. specialize (F _ Y). specialize (F2 _ X). lia. }
    f_equal. apply IH; [exact S2|]. intros i. split; intros I.
    + destruct (proj1 (E i) (or_intror I)) as [X|X]; [|exact X]. subst i. specialize (F _ I). lia.
    + destruct (proj2 (E i) (or_intror I)) as [X|X]; [|exact X]. subst i. specialize (F2 _ I). lia.
Qed.

Lemma remove_spec a ind r : remove_by_ind false a ind = Some r <->
  NoDup ind /\ (forall i, In i ind -> (i < length a)%nat) /\ others a ind r.
Proof.
  unfold remove_by_ind.
  set (listed := fun i => existsb (Nat.eqb i) ind).
  assert (LI : forall i, listed i = true <-> In i ind).
  { intros i. unfold listed. rewrite existsb_exists. split; [intros (j & J & E); apply Nat.eqb_eq in E; now subst|].
    intros I. exists i. split; [exact I|apply Nat.eqb_refl]. }
  set (q := filter (fun i => negb (listed i)) (seq 0 (length a))).
  assert (K : map snd (filter (fun p => negb (existsb (Nat.eqb (fst p)) ind)) (combine (seq 0 (length a)) a)) =
              map (fun i => nth i a 0%Z) q).
  { etransitivity; [exact (remaining_combine (fun i => negb (listed i)) a 0)|]. apply map_ext. intros i. now rewrite Nat.sub_0_r. }
  rewrite K, map_length.
  assert (C : (length (filter listed (seq 0 (length a))) + length q = length a)%nat).
  { unfold q. rewrite split_length. apply seq_length. }
  assert (ND : NoDup (filter listed (seq 0 (length a)))) by (apply NoDup_filter, seq_NoDup).
  assert (IN : incl (filter listed (seq 0 (length a))) ind).
  { intros i I. apply filter_In in I. now apply LI. }
  pose proof (NoDup_incl_length ND IN) as LE.
  assert (QI : forall i, In i q <-> (i < length a)%nat /\ ~ In i ind).
  { intros i. unfold q. rewrite filter_In, in_seq, negb_true_iff, <- LI. destruct (listed i); split; intros [X Y]; split; auto; try lia; congruence. }
  assert (QS : StronglySorted lt q) by (apply filter_increasing, seq_increasing).
  split.
  - destruct (Nat.ltb_spec (length a) (length ind)) as [L|L]; [discriminate|].
    destruct (Nat.leb_spec (length q) (length a - length ind)) as [M|M]; [|discriminate].
    intros H. assert (L2 : (length ind <= length (filter listed (seq 0 (length a))))%nat) by lia.
    split; [exact (NoDup_incl_NoDup ND L2 IN)|]. split.
    + intros i I. pose proof (NoDup_length_incl ND L2 IN i I) as J. apply filter_In in J. destruct J as [J _]. apply in_seq in J. lia.
    + injection H as <-. exists q. split; [|split; [exact QS|exact QI]].
      replace (length a - length ind - length q)%nat with 0%nat by lia. apply app_nil_r.
  - intros (N & B & q' & -> & S' & I').
    assert (q' = q) as ->.
    { apply increasing_unique; [exact S'|exact QS|]. intros i. rewrite I', QI. reflexivity. }
    assert (L2 : (length ind <= length (filter listed (seq 0 (length a))))%nat).
    { apply NoDup_incl_length; [exact N|]. intros i I. apply filter_In. split; [|now apply LI]. apply in_seq. specialize (B i I). lia. }
    destruct (Nat.ltb_spec (length a) (length ind)) as [L|L]; [lia|].
    destruct (Nat.leb_spec (length q) (length a - length ind)) as [M|M]; [|lia].
    f_equal. replace (length a - length ind - length q)%nat with 0%nat by lia. apply app_nil_r.
Qed.

Lemma both_python3 p x w a ind : rsort true p x w = None /\ remove_by_ind true a ind = None.
Proof. split; [apply rsort_python3|apply remove_python3]. Qed.
