(** The first optimality test without bounds and constraints, and with them. *)
From Coq Require Import List Arith ZArith QArith Bool Lia Lqa Qabs.
Import ListNotations.
From Verif Require Import QB Book_Model Main_Model Opt_Model Opt_Spec Opt_Proofs Drv_Model Pre_Model Pre_Spec Pre_Proofs Sol_Model Sol_Spec Sol_Proofs
  Sol_More Out_Model Out_Spec Out_More Free_Model Free_Spec.

(** an empty array of multipliers never fits *)
Lemma empty_lm n I : bound_part [n; 1%nat] [0%nat] I = false.
Proof.
  unfold bound_part, taken. destruct I as [|j I]; [reflexivity|].
  destruct (forallb _ (j :: I)); [|reflexivity].
  replace (forallb (fun j0 => (j0 <? 0)%nat) (j :: I)) with false by (cbn; destruct j; reflexivity). reflexivity.
Qed.

(** a column that covers the variables always fits *)
Lemma column_lm n m I : (n <= m)%nat -> (forall j, In j I -> (j < n)%nat) -> bound_part [n; 1%nat] [m; 1%nat] I = true.
Proof.
  intros L H. unfold bound_part, taken.
  assert (K : forall q, (n <= q)%nat -> forallb (fun j => (j <? q)%nat) I = true).
  { intros q Lq. apply forallb_forall. intros j J. apply Nat.ltb_lt. specialize (H j J). lia. }
  rewrite !K by lia. destruct I as [|j I]; [reflexivity|].
  unfold index_shape. set (p := length (j :: I)). clearbody p.
  unfold sum_shape. cbn [app rev meet]. rewrite !Nat.eqb_refl. cbn [rev app]. unfold fits. cbn [rev app stores]. rewrite !Nat.eqb_refl. reflexivity.
Qed.

Lemma active_in n lb ub x j : In j (active n lb ub x) -> (j < n)%nat.
Proof. unfold active. intros H. apply filter_In in H. destruct H as (H & _). apply in_seq in H. lia. Qed.

Lemma first_test o n lb ub x me :
  first_test_raises o n lb ub x me = true <-> count_bounds (inf_of o) n lb ub = 0%nat /\ me = 0%nat.
Proof.
  unfold first_test_raises, first_lm. destruct (Nat.ltb_spec 0 (count_bounds (inf_of o) n lb ub + me)) as [H|H].
  - rewrite column_lm; [|lia|intros j; apply active_in]. split; [discriminate|intros (A & B); lia].
  - rewrite empty_lm. split; [intros _; lia|reflexivity].
Qed.

Lemma inf_kept i o : validate (i_opts i) = VDone o -> inf_of o = infinity i.
Proof.
  intros V. apply validate_accepted in V. destruct V as (_ & _ & _ & _ & P & _). unfold positive_or in P. unfold inf_of, infinity.
  destruct (inff_ (i_opts i)) as [v|]; [destruct P as (_ & ->)|rewrite P]; reflexivity.
Qed.

Lemma nth_repeat_none j n : nth j (repeat (None : bnd) n) None = None.
Proof. revert j. induction n as [|n IH]; intros [|j]; cbn; auto. Qed.

Lemma full_given i k j : no_ineq i ->
  nth j (full_lb i k) None = nth j (given_lb i) None /\ nth j (full_ub i k) None = nth j (given_ub i) None.
Proof.
  intros N. unfold no_ineq in N. unfold full_lb, full_ub, appended, given_lb, given_ub. rewrite N. cbn [repeat]. rewrite !app_nil_r.
  split.
  - destruct (match i_lb i with Some l => l | None => _ end) as [|b l]; [|reflexivity].
    rewrite nth_repeat_none. destruct j; reflexivity.
  - destruct (match i_ub i with Some l => l | None => _ end) as [|b l]; [|reflexivity].
    rewrite nth_repeat_none. destruct j; reflexivity.
Qed.

Lemma free_count i k o : no_ineq i -> validate (i_opts i) = VDone o ->
  (count_bounds (inf_of o) (length (i_x0 i)) (full_lb i k) (full_ub i k) = 0%nat <-> free i).
Proof.
  intros N V. rewrite no_bounds, (inf_kept _ _ V). unfold free.
  split; intros H j J; specialize (H j J); destruct (full_given i k j N) as (A & B); rewrite A, B in *; exact H.
Qed.

Lemma ready_empty w fuel int lb ub x0 cl X fX ceX d : unconstrained (w_user w) ->
  prelim (w_user w) (w_nrm w) (w_geom w) (w_fit w) fuel int lb ub x0 = Some (PReady cl X fX ceX d) -> ceX = [].
Proof.
  intros UC PR.
  destruct (prelim_cases w _ _ _ _ _ _ PR) as [(Q & _)|[(Q & _)|[Q|[(x1 & d1 & N & A & Rn)|(x1 & d1 & f1 & fx & A & N & Rn)]]]];
    try discriminate; exact (rounds_unconstrained w UC _ _ _ _ _ _ _ _ _ Rn).
Qed.

(** a call without bounds and constraints that gets past the initial evaluations *)
Lemma free_raises w fuel i f c k o cl X fX ceX d :
  no_ineq i -> free i -> unconstrained (w_user w) -> covers w i ->
  check_args (i_args i) = Enter f c -> slacks_of i = Some k -> validate (i_opts i) = VDone o ->
  (length (i_x0 i) <= length (full_lb i k))%nat -> (length (i_x0 i) <= length (full_ub i k))%nat ->
  prelim (w_user w) (w_nrm w) (w_geom w) (w_fit w) fuel (i_int i) (full_lb i k) (full_ub i k) (i_x0 i)
      = Some (PReady cl X fX ceX d) ->
  solve fuel i w = Some Raises.
Proof.
  intros N F UC CV CA SL V L U PR. unfold solve. rewrite CA, SL, V. cbv zeta.
  destruct (Nat.ltb_spec (length (full_lb i k)) (length (i_x0 i))); [lia|].
  destruct (Nat.ltb_spec (length (full_ub i k)) (length (i_x0 i))); [lia|]. cbn [orb]. rewrite PR.
  pose proof (ready_empty _ _ _ _ _ _ _ _ _ _ _ UC PR) as ->.
  assert (W : w_late w = true).
  { apply (CV _ _ _ _ _ _ _ _ SL V PR). apply first_test. split; [apply (free_count i k o N V); exact F|reflexivity]. }
  unfold continue_. rewrite W. destruct (_ <? _)%nat; reflexivity.
Qed.

(** no point is ever returned *)
Lemma free_no_point w fuel i fl x cl :
  no_ineq i -> free i -> unconstrained (w_user w) -> covers w i ->
  solve fuel i w = Some (Gives fl x cl) -> x = None /\ In fl [1; 2; 3]%nat.
Proof.
  intros N F UC CV H.
  destruct (solve_cases w _ _ _ _ _ H) as [([-> | ->] & -> & ->)|[(-> & -> & _)|(k & o & cl0 & X & fX & ceX & d & SL & V & L & U & PR & C)]];
    [cbn; auto|cbn; auto|cbn; auto|].
  pose proof (ready_empty _ _ _ _ _ _ _ _ _ _ _ UC PR) as ->.
  assert (W : w_late w = true).
  { apply (CV _ _ _ _ _ _ _ _ SL V PR). apply first_test. split; [apply (free_count i k o N V); exact F|reflexivity]. }
  unfold continue_ in C. rewrite W in C. destruct (_ <? _)%nat; discriminate.
Qed.

(** the defaults count as bounds, unless the user lowers the infinity to 1e20 or less *)
Lemma default_bounds i : i_lb i = None -> i_ub i = None -> (0 < length (i_x0 i))%nat ->
  (free i <-> (exists r, infinity i = Fin r /\ (r <= c1e20)%Q) \/ infinity i = NInf \/ infinity i = NaN).
Proof.
  intros A B P. unfold free, given_lb, given_ub. rewrite A, B. clear A B. set (n := length (i_x0 i)) in *. clearbody n.
  assert (NR : forall (v : bnd) j, (j < n)%nat -> nth j (repeat v n) None = v).
  { clear. intros v. induction n as [|n IH]; intros j J; [lia|]. destruct j; cbn; [reflexivity|apply IH; lia]. }
  split.
  - intros H. specialize (H 0%nat P). rewrite !NR in H by exact P. destruct (infinity i) as [r| | |]; cbn in H; auto.
    + left. exists r. split; [reflexivity|]. destruct H as (_ & H). apply H. reflexivity.
    + destruct H; discriminate.
  - intros H j J. rewrite !NR by exact J. destruct H as [(r & -> & H)|[-> | ->]]; cbn; auto.
    split; intros q [= <-]; [apply Qopp_le_compat; exact H|exact H].
Qed.

Lemma test_raises o n lb ub x me :
  first_test_raises o n lb ub x me = true <->
  (forall j, (j < n)%nat -> unbounded (inf_of o) (nth j lb None) (nth j ub None)) /\ me = 0%nat.
Proof. rewrite first_test, no_bounds. reflexivity. Qed.

(** the variables whose multipliers are added *)
Lemma near_close b x : near b x = true <-> close_to b x.
Proof.
  unfold near, close_to, c1em5. destruct b as [q|].
  - rewrite qltb_iff, (Book_Proofs.qabs_Qabs (q - x)), Qabs.Qabs_Qlt_condition. split.
    + intros (A & B). exists q. split; [reflexivity|]. split; lra.
    + intros (q' & [= <-] & A & B). split; lra.
  - split; [discriminate|intros (q & [=] & _)].
Qed.

Lemma active_close n lb ub x j :
  In j (active n lb ub x) <->
  (j < n)%nat /\ (close_to (nth j lb None) (nth j x 0%Q) \/ close_to (nth j ub None) (nth j x 0%Q)).
Proof.
  unfold active. rewrite filter_In, in_seq, orb_true_iff, !near_close. split; intros (A & B); (split; [lia|exact B]).
Qed.

(** which arrays of multipliers can be added *)
Lemma all_below I m : forallb (fun j => (j <? m)%nat) I = true <-> (forall j, In j I -> (j < m)%nat).
Proof.
  rewrite forallb_forall. split; intros H j J; specialize (H j J); apply Nat.ltb_lt; exact H.
Qed.

Lemma table_lm n m k I : I <> [] ->
  (bound_part [n; 1%nat] [m; k] I = true <-> (forall j, In j I -> (j < n)%nat /\ (j < m)%nat) /\ k = 1%nat).
Proof.
  intros NE. unfold bound_part, taken.
  destruct (forallb (fun j => (j <? n)%nat) I) eqn:A.
  - rewrite all_below in A. destruct (forallb (fun j => (j <? m)%nat) I) eqn:B.
    + rewrite all_below in B. destruct I as [|j I]; [contradiction|].
      unfold index_shape. set (p := length (j :: I)). clearbody p.
      unfold sum_shape, fits. cbn [app rev meet]. rewrite !Nat.eqb_refl.
      destruct k as [|[|k]]; cbn [Nat.eqb rev app stores orb andb]; rewrite ?Nat.eqb_refl; cbn [orb andb].
      * split; [discriminate|intros (_ & [=])].
      * split; [intros _; auto|reflexivity].
      * split; [discriminate|intros (_ & [=])].
    + split; [discriminate|]. intros (H & _). enough (false = true) by discriminate. rewrite <- B. apply all_below. intros j J. apply (H j J).
  - split; [discriminate|]. intros (H & _). enough (false = true) by discriminate. rewrite <- A. apply all_below. intros j J. apply (H j J).
Qed.

Lemma flat_lm n m I : I <> [] ->
  (bound_part [n; 1%nat] [m] I = true <-> (forall j, In j I -> (j < n)%nat /\ (j < m)%nat) /\ length I = 1%nat).
Proof.
  intros NE. unfold bound_part, taken.
  destruct (forallb (fun j => (j <? n)%nat) I) eqn:A.
  - rewrite all_below in A. destruct (forallb (fun j => (j <? m)%nat) I) eqn:B.
    + rewrite all_below in B. destruct I as [|j I]; [contradiction|].
      unfold index_shape. set (p := length (j :: I)). assert (P : p <> 0%nat) by (unfold p; cbn; lia). clearbody p.
      unfold sum_shape, fits. cbn [app rev meet].
      destruct p as [|[|p]]; [contradiction| |]; cbn [Nat.eqb rev app stores orb andb]; rewrite ?Nat.eqb_refl; cbn [orb andb Nat.eqb rev app stores];
        rewrite ?Nat.eqb_refl; cbn [orb andb].
      * split; [intros _; auto|reflexivity].
      * split; [discriminate|intros (_ & [=])].
    + split; [discriminate|]. intros (H & _). enough (false = true) by discriminate. rewrite <- B. apply all_below. intros j J. apply (H j J).
  - split; [discriminate|]. intros (H & _). enough (false = true) by discriminate. rewrite <- A. apply all_below. intros j J. apply (H j J).
Qed.

(** ** The rules for shapes in terms of axes *)
Lemma stores_axes v : forall t, stores v t = true <-> forall k, nth k v 1%nat = 1%nat \/ nth k v 1%nat = nth k t 1%nat.
Proof.
  induction v as [|x v IH]; intros t.
  - split; [|reflexivity]. intros _ [|k]; left; reflexivity.
  - destruct t as [|y t]; cbn [stores]; rewrite andb_true_iff, ?orb_true_iff, ?Nat.eqb_eq, IH; split.
    + intros (A & B) [|k]; [left; exact A|]. destruct (B k) as [C|C]; [left; exact C|].
      left. cbn [nth]. rewrite C. destruct k; reflexivity.
    + intros H. split; [destruct (H 0%nat) as [C|C]; exact C|]. intros k. destruct (H (S k)) as [C|C]; cbn [nth] in C; auto.
    + intros (A & B) [|k]; [cbn [nth]; tauto|exact (B k)].
    + intros H. split; [destruct (H 0%nat); cbn [nth] in *; tauto|]. intros k. exact (H (S k)).
Qed.

Lemma fits_axes v t : fits v t = true <-> forall k, axis v k = 1%nat \/ axis v k = axis t k.
Proof. apply stores_axes. Qed.

Definition joined (x y z : nat) : Prop := (x = 1%nat /\ z = y) \/ (y = 1%nat /\ z = x) \/ (x = y /\ z = x).

Lemma nth_nil k : nth k (@nil nat) 1%nat = 1%nat.
Proof. destruct k; reflexivity. Qed.

Lemma ext_shape (b : shape) : forall c, length c = length b -> (forall k, nth k c 1%nat = nth k b 1%nat) -> c = b.
Proof.
  intros c L H. apply (nth_ext c b 1%nat 1%nat); [exact L|]. intros k _. apply H.
Qed.

Lemma meet_axes a : forall b c, meet a b = Some c <->
  length c = max (length a) (length b) /\ forall k, joined (nth k a 1%nat) (nth k b 1%nat) (nth k c 1%nat).
Proof.
  induction a as [|x a IH]; intros b c.
  - cbn [meet length Nat.max]. split.
    + intros [= <-]. split; [reflexivity|]. intros k. rewrite nth_nil. left. auto.
    + intros (L & H). f_equal. symmetry. apply ext_shape; [exact L|]. intros k. specialize (H k). rewrite nth_nil in H.
      unfold joined in H. destruct H as [(_ & H)|[(H1 & H)|(H1 & H)]]; congruence.
  - destruct b as [|y b]; cbn [meet].
    + cbn [length]. rewrite Nat.max_0_r. split.
      * intros [= <-]. split; [reflexivity|]. intros k. rewrite nth_nil. right. left. auto.
      * intros (L & H). f_equal. symmetry. apply ext_shape; [exact L|]. intros k. specialize (H k). rewrite nth_nil in H.
        unfold joined in H. destruct H as [(H1 & H)|[(_ & H)|(H1 & H)]]; congruence.
    + cbn [length]. rewrite <- Nat.succ_max_distr. split.
      * destruct (meet a b) as [d|] eqn:E; [|discriminate]. apply IH in E. destruct E as (L & H).
        destruct (Nat.eqb_spec x y) as [->|N1]; [|destruct (Nat.eqb_spec x 1) as [->|N2]; [|destruct (Nat.eqb_spec y 1) as [->|N3]; [|discriminate]]];
          intros [= <-]; (split; [cbn [length]; rewrite L; reflexivity|]); intros [|k]; try exact (H k); cbn [nth]; unfold joined; auto.
      * intros (L & H). destruct c as [|z c]; [discriminate|]. cbn [length] in L. injection L as L.
        assert (E : meet a b = Some c) by (apply IH; split; [exact L|]; intros k; exact (H (S k))). rewrite E.
        specialize (H 0%nat). cbn [nth] in H. unfold joined in H.
        destruct (Nat.eqb_spec x y) as [->|N1]; [|destruct (Nat.eqb_spec x 1) as [->|N2]; [|destruct (Nat.eqb_spec y 1) as [->|N3]]];
          destruct H as [(H1 & H)|[(H1 & H)|(H1 & H)]]; subst; try reflexivity; try contradiction; congruence.
Qed.

Lemma sum_axes a b c : sum_shape a b = Some c <->
  length c = max (length a) (length b) /\
  forall k, (axis a k = 1%nat /\ axis c k = axis b k) \/ (axis b k = 1%nat /\ axis c k = axis a k) \/ (axis a k = axis b k /\ axis c k = axis a k).
Proof.
  unfold sum_shape, axis. split.
  - destruct (meet (rev a) (rev b)) as [d|] eqn:E; [|discriminate]. intros [= <-]. apply meet_axes in E.
    rewrite !rev_length in *. rewrite rev_involutive. exact E.
  - intros (L & H). assert (E : meet (rev a) (rev b) = Some (rev c)) by (apply meet_axes; rewrite !rev_length; split; [exact L|exact H]).
    rewrite E, rev_involutive. reflexivity.
Qed.
