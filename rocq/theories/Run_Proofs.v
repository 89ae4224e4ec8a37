From Coq Require Import List Arith ZArith QArith Qabs Qfield Bool Lia Lqa Sorting.Sorted.
Import ListNotations.
From Verif Require Import QB Main_Model Run_Model Run_Spec.
Local Open Scope Q_scope.

(** ** order *)
Lemma xle_refl a : a <> NaN -> xle a a.
Proof. destruct a; cbn; auto; intros; try lra. Qed.
Lemma xle_trans a b c : xle a b -> xle b c -> xle a c.
Proof. destruct a, b, c; cbn; auto; try contradiction. intros; lra. Qed.
Lemma xltb_xle a b : xltb a b = true -> xle a b.
Proof. destruct a, b; cbn; auto; try discriminate. intros H. apply qltb_iff in H. lra. Qed.
Lemma xltb_not a b : a <> NaN -> b <> NaN -> xltb a b = false -> xle b a.
Proof. destruct a, b; cbn; auto; try discriminate; try contradiction. intros _ _ H. apply qltb_false in H. exact H. Qed.
Lemma is_nan_iff a : is_nan a = true <-> a = NaN.
Proof. destruct a; cbn; split; congruence. Qed.

Lemma fmax_cases a b : (a = NaN /\ fmax a b = b) \/ (a <> NaN /\ b = NaN /\ fmax a b = a) \/
  (a <> NaN /\ b <> NaN /\ ((fmax a b = b /\ xle a b) \/ (fmax a b = a /\ xle b a))).
Proof.
  unfold fmax. destruct (is_nan a) eqn:A; [left; apply is_nan_iff in A; auto|right].
  assert (NA : a <> NaN) by (intros X; apply is_nan_iff in X; congruence).
  destruct (is_nan b) eqn:B; [left; apply is_nan_iff in B; auto|right].
  assert (NB : b <> NaN) by (intros X; apply is_nan_iff in X; congruence).
  split; [auto|split; [auto|]]. destruct (xltb a b) eqn:L; [left; split; [auto|apply xltb_xle; auto]|right; split; [auto|apply xltb_not; auto]].
Qed.
Lemma fmin_cases a b : (a = NaN /\ fmin a b = b) \/ (a <> NaN /\ b = NaN /\ fmin a b = a) \/
  (a <> NaN /\ b <> NaN /\ ((fmin a b = b /\ xle b a) \/ (fmin a b = a /\ xle a b))).
Proof.
  unfold fmin. destruct (is_nan a) eqn:A; [left; apply is_nan_iff in A; auto|right].
  assert (NA : a <> NaN) by (intros X; apply is_nan_iff in X; congruence).
  destruct (is_nan b) eqn:B; [left; apply is_nan_iff in B; auto|right].
  assert (NB : b <> NaN) by (intros X; apply is_nan_iff in X; congruence).
  split; [auto|split; [auto|]]. destruct (xltb b a) eqn:L; [left; split; [auto|apply xltb_xle; auto]|right; split; [auto|apply xltb_not; auto]].
Qed.

Lemma greatest_cons a l v : greatest l v -> greatest (a :: l) (fmax a v).
Proof.
  intros G. destruct (fmax_cases a v) as [(A & E)|[(A & B & E)|(A & B & C)]].
  - rewrite E. destruct G as [(V & N)|(V & I & M)]; [left|right].
    + split; [auto|]. intros x [<-|X]; auto.
    + split; [auto|]. split; [right; auto|]. intros x [<-|X] NX; [contradiction|auto].
  - rewrite E. right. split; [auto|]. split; [left; auto|]. intros x [<-|X] NX; [apply xle_refl; auto|].
    destruct G as [(_ & N)|(V & _)]; [elim NX; auto|contradiction].
  - destruct G as [(V & _)|(_ & I & M)]; [contradiction|]. right.
    destruct C as [(E & L)|(E & L)]; rewrite E.
    + split; [auto|]. split; [right; auto|]. intros x [<-|X] NX; auto.
    + split; [auto|]. split; [left; auto|]. intros x [<-|X] NX; [apply xle_refl; auto|eapply xle_trans; [apply M; auto|auto]].
Qed.
Lemma least_cons a l v : least l v -> least (a :: l) (fmin a v).
Proof.
  intros G. destruct (fmin_cases a v) as [(A & E)|[(A & B & E)|(A & B & C)]].
  - rewrite E. destruct G as [(V & N)|(V & I & M)]; [left|right].
    + split; [auto|]. intros x [<-|X]; auto.
    + split; [auto|]. split; [right; auto|]. intros x [<-|X] NX; [contradiction|auto].
  - rewrite E. right. split; [auto|]. split; [left; auto|]. intros x [<-|X] NX; [apply xle_refl; auto|].
    destruct G as [(_ & N)|(V & _)]; [elim NX; auto|contradiction].
  - destruct G as [(V & _)|(_ & I & M)]; [contradiction|]. right.
    destruct C as [(E & L)|(E & L)]; rewrite E.
    + split; [auto|]. split; [right; auto|]. intros x [<-|X] NX; auto.
    + split; [auto|]. split; [left; auto|]. intros x [<-|X] NX; [apply xle_refl; auto|eapply xle_trans; [exact L|apply M; auto]].
Qed.
Lemma greatest_nil : greatest [] NaN. Proof. left. split; [auto|intros x []]. Qed.
Lemma least_nil : least [] NaN. Proof. left. split; [auto|intros x []]. Qed.

Lemma fmax_nan a : fmax a NaN = a.
Proof. destruct a; reflexivity. Qed.
Lemma fmin_nan a : fmin a NaN = a.
Proof. destruct a; reflexivity. Qed.
Lemma t_fmax a b : greatest [a; b] (fmax a b).
Proof.
  apply greatest_cons. pose proof (greatest_cons b [] NaN greatest_nil) as G. rewrite fmax_nan in G. exact G.
Qed.
Lemma t_fmin a b : least [a; b] (fmin a b).
Proof.
  apply least_cons. pose proof (least_cons b [] NaN least_nil) as G. rewrite fmin_nan in G. exact G.
Qed.

Lemma nanmax_greatest a : greatest a (nanmax a).
Proof. induction a as [|x a IH]; [apply greatest_nil|apply greatest_cons, IH]. Qed.
Lemma nanmin_least a : least a (nanmin a).
Proof. induction a as [|x a IH]; [apply least_nil|apply least_cons, IH]. Qed.

Lemma combine_nth' (a d : list xQ) i : length a = length d -> (i < length a)%nat ->
  nth_error (combine a d) i = Some (nth i a NaN, nth i d NaN).
Proof.
  intros L Hi. rewrite <- combine_nth by exact L. apply nth_error_nth'. rewrite combine_length, <- L. lia.
Qed.

Lemma broadcast_same f (a d : list xQ) : length a = length d ->
  exists r, broadcast f a d = Some r /\ length r = length a /\
    forall i, (i < length a)%nat -> nth_error r i = Some ((f (nth i a NaN) (nth i d NaN)) : xQ).
Proof.
  intros L. unfold broadcast. rewrite L, Nat.eqb_refl. eexists. split; [reflexivity|].
  split; [rewrite map_length, combine_length; lia|]. intros i Hi.
  rewrite nth_error_map, combine_nth' by lia. reflexivity.
Qed.

Lemma t_max2 a d : length a = length d -> exists r, max2 a d = Some r /\ length r = length a /\
  forall i, (i < length a)%nat -> greatest [nth i a NaN; nth i d NaN] (nth i r NaN).
Proof.
  intros L. destruct a as [|x a].
  - exists []. split; [reflexivity|]. split; [reflexivity|]. cbn. lia.
  - destruct (broadcast_same fmax (x :: a) d L) as (r & E & LR & N). exists r. split; [exact E|]. split; [exact LR|].
    intros i Hi. rewrite (nth_error_nth _ _ NaN (N i Hi)). apply t_fmax.
Qed.
Lemma t_min2 a d : length a = length d -> exists r, min2 a d = Some r /\ length r = length a /\
  forall i, (i < length a)%nat -> least [nth i a NaN; nth i d NaN] (nth i r NaN).
Proof.
  intros L. destruct a as [|x a].
  - exists []. split; [reflexivity|]. split; [reflexivity|]. cbn. lia.
  - destruct (broadcast_same fmin (x :: a) d L) as (r & E & LR & N). exists r. split; [exact E|]. split; [exact LR|].
    intros i Hi. rewrite (nth_error_nth _ _ NaN (N i Hi)). apply t_fmin.
Qed.

(** a number as second argument *)
Lemma t_max2_scalar a y : exists r, max2 a [y] = Some r /\ length r = length a /\
  forall i, (i < length a)%nat -> greatest [nth i a NaN; y] (nth i r NaN).
Proof.
  destruct a as [|x [|x' a]].
  - exists []. split; [reflexivity|]. split; [reflexivity|]. cbn. lia.
  - exists [fmax x y]. split; [reflexivity|]. split; [reflexivity|]. intros [|i] Hi; [apply t_fmax|cbn in Hi; lia].
  - exists (map (fun z => fmax z y) (x :: x' :: a)). split; [reflexivity|]. split; [apply map_length|].
    generalize (x :: x' :: a). intros l i Hi.
    rewrite (nth_indep (map (fun z => fmax z y) l) NaN (fmax NaN y)) by (rewrite map_length; exact Hi).
    rewrite (map_nth (fun z => fmax z y) l NaN i). apply t_fmax.
Qed.
Lemma t_min2_scalar a y : exists r, min2 a [y] = Some r /\ length r = length a /\
  forall i, (i < length a)%nat -> least [nth i a NaN; y] (nth i r NaN).
Proof.
  destruct a as [|x [|x' a]].
  - exists []. split; [reflexivity|]. split; [reflexivity|]. cbn. lia.
  - exists [fmin x y]. split; [reflexivity|]. split; [reflexivity|]. intros [|i] Hi; [apply t_fmin|cbn in Hi; lia].
  - exists (map (fun z => fmin z y) (x :: x' :: a)). split; [reflexivity|]. split; [apply map_length|].
    generalize (x :: x' :: a). intros l i Hi.
    rewrite (nth_indep (map (fun z => fmin z y) l) NaN (fmin NaN y)) by (rewrite map_length; exact Hi).
    rewrite (map_nth (fun z => fmin z y) l NaN i). apply t_fmin.
Qed.

(** a number as first argument *)
Lemma t_number_first (F : xQ -> xQ -> xQ) (G : list xQ -> xQ -> Prop) x d :
  (forall a b, G [a; b] (F a b)) -> exists r, broadcast F [x] d = Some r /\ length r = length d /\
  forall i, (i < length d)%nat -> G [x; nth i d NaN] (nth i r NaN).
Proof.
  intros T. destruct d as [|y [|y' d]].
  - exists []. split; [reflexivity|]. split; [reflexivity|]. cbn. lia.
  - exists [F x y]. split; [reflexivity|]. split; [reflexivity|]. intros [|i] Hi; [apply T|cbn in Hi; lia].
  - exists (map (F x) (y :: y' :: d)). split; [reflexivity|]. split; [apply map_length|].
    generalize (y :: y' :: d). intros l i Hi.
    rewrite (nth_indep (map (F x) l) NaN (F x NaN)) by (rewrite map_length; exact Hi).
    rewrite (map_nth (F x) l NaN i). apply T.
Qed.
Lemma t_max2_first x d : exists r, max2 [x] d = Some r /\ length r = length d /\
  forall i, (i < length d)%nat -> greatest [x; nth i d NaN] (nth i r NaN).
Proof. exact (t_number_first fmax greatest x d t_fmax). Qed.
Lemma t_min2_first x d : exists r, min2 [x] d = Some r /\ length r = length d /\
  forall i, (i < length d)%nat -> least [x; nth i d NaN] (nth i r NaN).
Proof. exact (t_number_first fmin least x d t_fmin). Qed.
(** other lengths *)
Lemma t_lengths_raise a d : a <> [] -> length a <> length d -> length a <> 1%nat -> length d <> 1%nat -> max2 a d = None /\ min2 a d = None.
Proof.
  intros NA L A1 D1. unfold max2, min2, broadcast. destruct a as [|x [|x' a]]; [congruence|cbn in A1; congruence|].
  destruct (Nat.eqb_spec (length (x :: x' :: a)) (length d)) as [E|_]; [congruence|].
  destruct d as [|y [|y' d]]; [split; reflexivity|cbn in D1; congruence|split; reflexivity].
Qed.
Lemma t_position_empty : max1 [] = [] /\ min1 [] = [] /\ max1_pos [] = Some ([], []) /\ min1_pos [] = Some ([], []).
Proof. repeat split. Qed.

Lemma t_max2_empty d : max2 [] d = Some [].
Proof. reflexivity. Qed.

(** ** position *)
Lemma xeqb_iff a b : xeqb a b = true <-> xeq a b.
Proof.
  unfold xeq. destruct a, b; cbn; split; try discriminate; try tauto; try (intros [? ?]; contradiction).
  - intros H. apply qeqb_iff in H. lra.
  - intros [H1 H2]. apply qeqb_iff. lra.
Qed.
Lemma position_spec v a : forall k j, position v a k = Some j ->
  (k <= j < k + length a)%nat /\ xeq (nth (j - k) a NaN) v /\ forall i, (i < j - k)%nat -> ~ xeq (nth i a NaN) v.
Proof.
  induction a as [|x a IH]; intros k j H; [discriminate|]. cbn [position] in H.
  destruct (xeqb x v) eqn:E.
  - injection H as <-. rewrite Nat.sub_diag. cbn [length nth]. split; [lia|]. split; [apply xeqb_iff; exact E|intros i Hi; lia].
  - destruct (IH _ _ H) as (B & C & D). cbn [length]. split; [lia|].
    replace (j - k)%nat with (S (j - S k)) by lia. cbn [nth]. split; [exact C|].
    intros [|i] Hi; cbn [nth]; [intros X; apply xeqb_iff in X; congruence|apply D; lia].
Qed.
Lemma position_none v a : forall k, position v a k = None -> forall x, In x a -> ~ xeq x v.
Proof.
  induction a as [|x a IH]; intros k H y Y; [destruct Y|]. cbn [position] in H. destruct (xeqb x v) eqn:E; [discriminate|].
  destruct Y as [<-|Y]; [intros X; apply xeqb_iff in X; congruence|eapply IH; eauto].
Qed.

Lemma t_max1 a : a <> [] -> exists v, max1 a = [v] /\ greatest a v.
Proof. intros H. destruct a as [|x a]; [contradiction|]. eexists. split; [reflexivity|]. apply nanmax_greatest. Qed.
Lemma t_min1 a : a <> [] -> exists v, min1 a = [v] /\ least a v.
Proof. intros H. destruct a as [|x a]; [contradiction|]. eexists. split; [reflexivity|]. apply nanmin_least. Qed.

Lemma t_max1_pos a : (exists x, In x a /\ x <> NaN) -> exists v k, max1_pos a = Some ([v], [k]) /\ greatest a v /\
  (k < length a)%nat /\ xeq (nth k a NaN) v /\ forall i, (i < k)%nat -> ~ xeq (nth i a NaN) v.
Proof.
  intros (x & X & NX). destruct a as [|y a]; [destruct X|].
  pose proof (nanmax_greatest (y :: a)) as G. unfold max1_pos. set (v := nanmax (y :: a)) in *.
  destruct (position v (y :: a) 0) as [k|] eqn:P.
  - apply position_spec in P. rewrite Nat.sub_0_r in P. exists v, k. split; [reflexivity|]. split; [exact G|]. split; [lia|]. apply P.
  - exfalso. destruct G as [(_ & N)|(V & I & _)]; [apply NX; auto|]. apply (position_none _ _ _ P v I). split; apply xle_refl; exact V.
Qed.
Lemma t_min1_pos a : (exists x, In x a /\ x <> NaN) -> exists v k, min1_pos a = Some ([v], [k]) /\ least a v /\
  (k < length a)%nat /\ xeq (nth k a NaN) v /\ forall i, (i < k)%nat -> ~ xeq (nth i a NaN) v.
Proof.
  intros (x & X & NX). destruct a as [|y a]; [destruct X|].
  pose proof (nanmin_least (y :: a)) as G. unfold min1_pos. set (v := nanmin (y :: a)) in *.
  destruct (position v (y :: a) 0) as [k|] eqn:P.
  - apply position_spec in P. rewrite Nat.sub_0_r in P. exists v, k. split; [reflexivity|]. split; [exact G|]. split; [lia|]. apply P.
  - exfalso. destruct G as [(_ & N)|(V & I & _)]; [apply NX; auto|]. apply (position_none _ _ _ P v I). split; apply xle_refl; exact V.
Qed.
Lemma t_pos_nan a : a <> [] -> (forall x, In x a -> x = NaN) -> max1_pos a = None /\ min1_pos a = None.
Proof.
  intros NE H. assert (N : forall v k, position v a k = None).
  { intros v. clear NE. induction a as [|x a IH]; intros k; [reflexivity|]. cbn [position]. rewrite (H x) by (left; reflexivity). cbn.
    apply IH. intros y Y. apply H. right. exact Y. }
  destruct a as [|x a]; [contradiction|]. unfold max1_pos, min1_pos. rewrite !N. auto.
Qed.

(** ** find_ *)
Lemma trues_gen a : forall k, let l := map fst (filter snd (combine (seq k (length a)) a)) in
  StronglySorted lt l /\ forall i, In i l <-> (k <= i)%nat /\ nth (i - k) a false = true.
Proof.
  induction a as [|x a IH]; intros k; cbn [length seq combine filter map].
  - split; [constructor|]. intros i. split; [intros []|intros [_ H]; destruct (i - k)%nat; discriminate].
  - destruct (IH (S k)) as (S1 & I1).
    assert (T : forall i, In i (map fst (filter snd (combine (seq (S k) (length a)) a))) <-> (S k <= i)%nat /\ nth (i - k) (x :: a) false = true).
    { intros i. rewrite I1. split; intros (A & B); (split; [lia|]); replace (i - k)%nat with (S (i - S k)) in * by lia; exact B. }
    cbn [snd]. destruct x; cbn [map fst].
    + split.
      * constructor; [exact S1|]. apply Forall_forall. intros i Hi. apply I1 in Hi. lia.
      * intros i. cbn [In]. rewrite T. split.
        -- intros [<-|H]; [split; [lia|]; rewrite Nat.sub_diag; reflexivity|split; [lia|apply H]].
        -- intros (A & B). destruct (Nat.eq_dec k i); [left; auto|right; split; [lia|exact B]].
    + split; [exact S1|]. intros i. rewrite T. split; [intros (A & B); split; [lia|exact B]|].
      intros (A & B). split; [|exact B]. destruct (Nat.eq_dec k i) as [<-|]; [rewrite Nat.sub_diag in B; discriminate|lia].
Qed.

Lemma t_find a : exists l, find1 a None = Some l /\ StronglySorted lt l /\ forall i, In i l <-> nth i a false = true.
Proof.
  destruct (trues_gen a 0) as (S1 & I1). fold (trues a) in S1, I1. exists (trues a). split; [|split; [exact S1|]].
  - unfold find1. destruct (trues a); reflexivity.
  - intros i. rewrite I1, Nat.sub_0_r. split; [intros (_ & H); exact H|intros H; split; [lia|exact H]].
Qed.
Lemma t_find_first a n l : find1 a None = Some l ->
  (l = [] -> find1 a (Some n) = Some []) /\
  (l <> [] -> (n <= length l)%nat -> find1 a (Some n) = Some (firstn n l)) /\
  (l <> [] -> (length l < n)%nat -> find1 a (Some n) = None).
Proof.
  unfold find1. intros H. assert (trues a = l) as -> by (destruct (trues a); congruence). destruct l as [|i l].
  - split; [auto|]. split; contradiction.
  - split; [discriminate|]. split; intros _ L; [apply Nat.leb_le in L|apply Nat.leb_gt in L]; rewrite L; reflexivity.
Qed.

(** ** setdiff_ *)
Lemma insert_in x l y : In y (insert x l) <-> y = x \/ In y l.
Proof.
  induction l as [|z l IH]; [cbn; split; (intros [X|X]; auto)|]. cbn [insert]. destruct (x <? z)%nat.
  - cbn. split; (intros [X|X]; auto).
  - destruct (Nat.eqb_spec x z) as [->|]; cbn [In]; [split; [auto|intros [X|X]; auto]|].
    rewrite IH. split; [intros [X|[X|X]]; auto|intros [X|[X|X]]; auto].
Qed.
Lemma insert_sorted x l : StronglySorted lt l -> StronglySorted lt (insert x l).
Proof.
  induction 1 as [|z l S1 IH F]; cbn [insert]; [repeat constructor|].
  destruct (Nat.ltb_spec x z).
  - constructor; [constructor; auto|]. constructor; [auto|]. rewrite Forall_forall in *. intros y Y. specialize (F y Y). lia.
  - destruct (Nat.eqb_spec x z); [constructor; auto|]. constructor; [exact IH|]. apply Forall_forall. intros y Y.
    apply insert_in in Y. rewrite Forall_forall in F. destruct Y as [->|Y]; [lia|auto].
Qed.
Lemma filter_sorted (f : nat -> bool) l : StronglySorted lt l -> StronglySorted lt (filter f l).
Proof.
  induction 1 as [|z l S1 IH F]; cbn; [constructor|]. destruct (f z); [|exact IH]. constructor; [exact IH|].
  apply Forall_forall. intros y Y. apply filter_In in Y. rewrite Forall_forall in F. apply F, Y.
Qed.
Lemma t_setdiff a b : StronglySorted lt (setdiff a b) /\ forall x, In x (setdiff a b) <-> In x a /\ ~ In x b.
Proof.
  assert (U : StronglySorted lt (uniq a) /\ forall x, In x (uniq a) <-> In x a).
  { induction a as [|z a (IH1 & IH2)]; cbn; [split; [constructor|tauto]|]. split; [apply insert_sorted; exact IH1|].
    intros x. rewrite insert_in, IH2. split; (intros [->|X]; auto). }
  destruct U as (U1 & U2). split; [apply filter_sorted; exact U1|]. intros x. unfold setdiff. rewrite filter_In, U2, negb_true_iff.
  split; intros (A & B); (split; [exact A|]).
  - intros X. assert (existsb (Nat.eqb x) b = true); [|congruence]. apply existsb_exists. exists x. split; [exact X|apply Nat.eqb_refl].
  - destruct (existsb (Nat.eqb x) b) eqn:E; [|reflexivity]. apply existsb_exists in E. destruct E as (y & Y & Z).
    apply Nat.eqb_eq in Z. subst. contradiction.
Qed.

(** ** concatenate_ *)
Definition full (A : mx) : bool := negb (is_empty A).
Lemma del_len l : existsb is_empty l = true -> length l = S (length (del_empty l)).
Proof. induction l as [|A l IH]; cbn; [discriminate|]. destruct (is_empty A); cbn; [auto|]. intros H. rewrite <- IH by exact H. reflexivity. Qed.
Lemma del_none l : existsb is_empty l = false -> del_empty l = l.
Proof. induction l as [|A l IH]; cbn; [auto|]. destruct (is_empty A); cbn; [discriminate|]. intros H. rewrite IH by exact H. reflexivity. Qed.
Lemma del_filter l : filter full (del_empty l) = filter full l.
Proof.
  induction l as [|A l IH]; [reflexivity|]. cbn [del_empty filter]. assert (E : full A = negb (is_empty A)) by reflexivity.
  destruct (is_empty A); cbn [negb] in E; rewrite ?E; [reflexivity|]. cbn [filter]. rewrite E, IH. reflexivity.
Qed.
Lemma none_filter l : existsb is_empty l = false -> filter full l = l.
Proof. induction l as [|A l IH]; cbn; [auto|]. unfold full at 1. destruct (is_empty A); cbn; [discriminate|]. intros H. rewrite IH by exact H. reflexivity. Qed.
Lemma passes_filter k : forall l, (length l <= k)%nat -> passes k l = filter full l.
Proof.
  induction k as [|k IH]; intros l L.
  - destruct l; [reflexivity|cbn in L; lia].
  - cbn [passes]. destruct (existsb is_empty l) eqn:E.
    + rewrite IH by (rewrite (del_len l E) in L; lia). apply del_filter.
    + rewrite (del_none l E). clear L. transitivity l; [|symmetry; apply none_filter; exact E].
      clear IH. induction k as [|k IH]; [reflexivity|]. cbn. rewrite (del_none l E). exact IH.
Qed.

Lemma vcat_some l C : vcat l = Some C -> (forall A, In A l -> m_c A = m_c C) /\
  m_rows C = concat (map m_rows l) /\ m_r C = list_sum (map m_r l).
Proof.
  revert C. induction l as [|A l IH]; intros C H; [discriminate|]. destruct l as [|B l].
  - injection H as <-. cbn. split; [intros D [<-|[]]; reflexivity|]. rewrite app_nil_r. split; [reflexivity|lia].
  - change (vcat (A :: B :: l)) with (match vcat (B :: l) with Some B0 => if (m_c A =? m_c B0)%nat
       then Some (mkmx (m_r A + m_r B0) (m_c A) (m_rows A ++ m_rows B0)) else None | None => None end) in H.
    destruct (vcat (B :: l)) as [D|]; [|discriminate]. destruct (Nat.eqb_spec (m_c A) (m_c D)) as [E|]; [|discriminate].
    injection H as <-. destruct (IH D eq_refl) as (I1 & I2 & I3). cbn [m_r m_c m_rows].
    split; [|split].
    + intros X [<-|X1]; [reflexivity|]. rewrite E. apply I1. exact X1.
    + rewrite I2. reflexivity.
    + rewrite I3. reflexivity.
Qed.
Lemma vcat_total l w : l <> [] -> (forall A, In A l -> m_c A = w) -> exists C, vcat l = Some C /\ m_c C = w.
Proof.
  induction l as [|A l IH]; [contradiction|]. intros _ H. destruct l as [|B l].
  - exists A. split; [reflexivity|apply H; left; reflexivity].
  - destruct IH as (D & E & W); [discriminate|intros X X1; apply H; right; exact X1|].
    change (vcat (A :: B :: l)) with (match vcat (B :: l) with Some B0 => if (m_c A =? m_c B0)%nat
       then Some (mkmx (m_r A + m_r B0) (m_c A) (m_rows A ++ m_rows B0)) else None | None => None end).
    rewrite E, W, (H A) by (left; reflexivity). rewrite Nat.eqb_refl. eexists. split; [reflexivity|reflexivity].
Qed.

Lemma join_nth a b i : length a = length b -> nth i (join a b) [] = nth i a [] ++ nth i b [].
Proof.
  intros L. unfold join. change (@nil xQ) with ((fun p : list xQ * list xQ => fst p ++ snd p) ([], [])) at 1.
  rewrite map_nth, combine_nth by exact L. reflexivity.
Qed.
Lemma join_len a b : length a = length b -> length (join a b) = length a.
Proof. intros L. unfold join. rewrite map_length, combine_length. lia. Qed.
Lemma hcat_some l C : Forall shaped l -> hcat l = Some C -> (forall A, In A l -> m_r A = m_r C) /\
  m_c C = list_sum (map m_c l) /\ length (m_rows C) = m_r C /\
  forall i, nth i (m_rows C) [] = concat (map (fun A => nth i (m_rows A) []) l).
Proof.
  revert C. induction l as [|A l IH]; intros C SH H; [discriminate|]. inversion SH as [|? ? SA SL]; subst. destruct l as [|B l].
  - injection H as <-. cbn. split; [intros D [<-|[]]; reflexivity|]. split; [lia|]. split; [apply SA|]. intros i. rewrite app_nil_r. reflexivity.
  - change (hcat (A :: B :: l)) with (match hcat (B :: l) with Some B0 => if (m_r A =? m_r B0)%nat
       then Some (mkmx (m_r A) (m_c A + m_c B0) (join (m_rows A) (m_rows B0))) else None | None => None end) in H.
    destruct (hcat (B :: l)) as [D|]; [|discriminate]. destruct (Nat.eqb_spec (m_r A) (m_r D)) as [E|]; [|discriminate].
    injection H as <-. destruct (IH D SL eq_refl) as (I1 & I2 & I3 & I4). cbn [m_r m_c m_rows].
    assert (LL : length (m_rows A) = length (m_rows D)) by (rewrite I3, <- E; apply SA).
    split; [|split; [|split]].
    + intros X [<-|X1]; [reflexivity|]. rewrite E. apply I1. exact X1.
    + rewrite I2. reflexivity.
    + rewrite join_len by exact LL. apply SA.
    + intros i. rewrite join_nth by exact LL. rewrite I4. reflexivity.
Qed.
Lemma hcat_total l h : l <> [] -> (forall A, In A l -> m_r A = h) -> exists C, hcat l = Some C /\ m_r C = h.
Proof.
  induction l as [|A l IH]; [contradiction|]. intros _ H. destruct l as [|B l].
  - exists A. split; [reflexivity|apply H; left; reflexivity].
  - destruct IH as (D & E & W); [discriminate|intros X X1; apply H; right; exact X1|].
    change (hcat (A :: B :: l)) with (match hcat (B :: l) with Some B0 => if (m_r A =? m_r B0)%nat
       then Some (mkmx (m_r A) (m_c A + m_c B0) (join (m_rows A) (m_rows B0))) else None | None => None end).
    rewrite E, W, (H A) by (left; reflexivity). rewrite Nat.eqb_refl. eexists. split; [reflexivity|].
    cbn [m_r]. reflexivity.
Qed.

Lemma concat_form axis l : concatenate false axis l =
  match filter full l with [] => Some (mkmx 0 0 []) | l' => if (axis =? 0)%nat then vcat l' else hcat l' end.
Proof. unfold concatenate. cbn [andb]. rewrite passes_filter by lia. reflexivity. Qed.

Lemma full_iff A : full A = true <-> m_r A <> 0%nat /\ m_c A <> 0%nat.
Proof. unfold full, is_empty. rewrite negb_true_iff, orb_false_iff, !Nat.eqb_neq. reflexivity. Qed.

(** blocks below each other *)
Lemma t_vertical l C : concatenate false 0 l = Some C ->
  exists l', l' = filter (fun A => negb ((m_r A =? 0) || (m_c A =? 0))%nat) l /\
    (forall A, In A l' -> m_c A = m_c C) /\ m_rows C = concat (map m_rows l') /\ m_r C = list_sum (map m_r l').
Proof.
  rewrite concat_form. change (filter full l) with (filter (fun A => negb ((m_r A =? 0) || (m_c A =? 0))%nat) l).
  intros H. eexists. split; [reflexivity|]. destruct (filter _ l) as [|A l'].
  - injection H as <-. split; [intros A []|auto].
  - cbn [Nat.eqb] in H. apply vcat_some. exact H.
Qed.
(** blocks beside each other *)
Lemma t_horizontal l C : Forall shaped l -> concatenate false 1 l = Some C ->
  exists l', l' = filter (fun A => negb ((m_r A =? 0) || (m_c A =? 0))%nat) l /\
    (forall A, In A l' -> m_r A = m_r C) /\ m_c C = list_sum (map m_c l') /\
    length (m_rows C) = m_r C /\
    forall i, nth i (m_rows C) [] = concat (map (fun A => nth i (m_rows A) []) l').
Proof.
  intros SH. rewrite concat_form. change (filter full l) with (filter (fun A => negb ((m_r A =? 0) || (m_c A =? 0))%nat) l).
  intros H. eexists. split; [reflexivity|].
  assert (SF : Forall shaped (filter (fun A => negb ((m_r A =? 0) || (m_c A =? 0))%nat) l)).
  { apply Forall_forall. intros A HA. apply filter_In in HA. rewrite Forall_forall in SH. apply SH, HA. }
  destruct (filter _ l) as [|A l'].
  - injection H as <-. split; [intros A []|]. split; [reflexivity|]. split; [reflexivity|]. intros i. cbn. destruct i; reflexivity.
  - cbn [Nat.eqb] in H. apply hcat_some; assumption.
Qed.
(** when it works *)
Lemma t_concat_total axis l : 
  (exists C, concatenate false axis l = Some C) <->
  exists w, forall A, In A l -> m_r A <> 0%nat -> m_c A <> 0%nat -> (if (axis =? 0)%nat then m_c A else m_r A) = w.
Proof.
  rewrite concat_form. assert (I : forall A, In A (filter full l) <-> In A l /\ m_r A <> 0%nat /\ m_c A <> 0%nat).
  { intros A. rewrite filter_In, full_iff. reflexivity. }
  destruct (filter full l) as [|B l'] eqn:F.
  - split; [|eexists; reflexivity]. intros _. exists 0%nat. intros A HA R C. exfalso. apply (proj2 (I A)). auto.
  - rewrite <- F in *. assert (NE : filter full l <> []) by (rewrite F; discriminate). clear F. split.
    + intros (C & H). destruct (axis =? 0)%nat.
      * apply vcat_some in H. exists (m_c C). intros A HA R W. apply H, I. auto.
      * assert (HR : forall l C, hcat l = Some C -> forall A, In A l -> m_r A = m_r C).
        { clear. induction l as [|A l IH]; intros C H; [discriminate|]. destruct l as [|B l].
          - injection H as <-. intros D [<-|[]]. reflexivity.
          - change (hcat (A :: B :: l)) with (match hcat (B :: l) with Some B0 => if (m_r A =? m_r B0)%nat
              then Some (mkmx (m_r A) (m_c A + m_c B0) (join (m_rows A) (m_rows B0))) else None | None => None end) in H.
            destruct (hcat (B :: l)) as [D|]; [|discriminate]. destruct (Nat.eqb_spec (m_r A) (m_r D)) as [E|]; [|discriminate].
            injection H as <-. cbn [m_r]. intros X [<-|X1]; [reflexivity|]. rewrite E. apply (IH D eq_refl X X1). }
        exists (m_r C). intros A HA R W. apply (HR _ _ H), I. auto.
    + intros (w & H). destruct (axis =? 0)%nat.
      * destruct (vcat_total (filter full l) w NE) as (C & E & _); [intros A HA; apply I in HA; apply H; tauto|eauto].
      * destruct (hcat_total (filter full l) w NE) as (C & E & _); [intros A HA; apply I in HA; apply H; tauto|eauto].
Qed.
Lemma t_tuple axis l : (exists A, In A l /\ (m_r A = 0%nat \/ m_c A = 0%nat)) -> concatenate true axis l = None.
Proof.
  intros (A & HA & E). unfold concatenate. assert (X : existsb is_empty l = true).
  { apply existsb_exists. exists A. split; [exact HA|]. unfold is_empty. apply orb_true_iff. rewrite !Nat.eqb_eq. exact E. }
  rewrite X. reflexivity.
Qed.

(** ** compare_array *)
Lemma qabs_Qabs a : qabs a == Qabs a.
Proof.
  unfold qabs. destruct (qleb 0 a) eqn:E; qb.
  - rewrite Qabs_pos by exact E. reflexivity.
  - rewrite Qabs_neg by (apply Qlt_le_weak; exact E). reflexivity.
Qed.

Lemma pair_ok atol rtol (p : xQ * xQ) : 0 < rtol ->
  (same_inf p = true \/
   (xltb (xabs (xsub (fst p) (snd p))) (Fin atol) = true /\
    xltb (xabs (if (xleb (xabs (fst p)) atol || xleb (xabs (snd p)) atol)%bool then Fin 0
                else xdiv (xsub (fst p) (snd p)) (xadd (fst p) (Fin tinymin)))) (Fin rtol) = true)) <->
  agree atol rtol (fst p) (snd p).
Proof.
  intros RT. destruct p as [a b]. cbn [fst snd]. unfold agree. split.
  - intros [S|(A & B)].
    + destruct a, b; try discriminate; auto.
    + destruct a as [p| | |], b as [q| | |]; try discriminate. right. right. exists p, q. split; [auto|]. split; [auto|].
      cbn [xsub xopp xadd xabs xltb] in A. apply qltb_iff in A. rewrite qabs_Qabs in A.
      change (p + - q) with (p - q) in *. split; [exact A|]. cbn [xabs xleb] in B.
      destruct (qleb (qabs p) atol) eqn:P; [left; qb; rewrite qabs_Qabs in P; exact P|].
      destruct (qleb (qabs q) atol) eqn:Q; [right; left; qb; rewrite qabs_Qabs in Q; exact Q|].
      right; right. cbn [orb xsub xopp xadd xdiv] in B. change (p + - q) with (p - q) in B.
      destruct (qeqb (p + tinymin) 0) eqn:Z.
      * destruct (qeqb (p - q) 0); [discriminate|]. destruct (qltb 0 (p - q)); discriminate.
      * cbn [xabs xltb] in B. apply qltb_iff in B. apply qeqb_false in Z. rewrite qabs_Qabs in B.
        unfold Qdiv in B. rewrite Qabs_Qmult in B.
        assert (PP : 0 < Qabs (p + tinymin)).
        { destruct (Qlt_le_dec 0 (Qabs (p + tinymin))) as [L|L]; [exact L|]. exfalso. apply Z.
          apply Qabs_Qle_condition in L. lra. }
        fold tinymin. apply Qmult_lt_r with (z := / Qabs (p + tinymin)); [apply Qinv_lt_0_compat; exact PP|].
        rewrite <- Qmult_assoc, Qmult_inv_r by lra. rewrite Qmult_1_r. rewrite Qabs_Qinv in B. exact B.
  - intros [(-> & ->)|[(-> & ->)|(p & q & -> & -> & A & B)]]; [left; reflexivity|left; reflexivity|right].
    cbn [xsub xopp xadd xabs xltb xleb]. change (p + - q) with (p - q). split; [apply qltb_iff; rewrite qabs_Qabs; exact A|].
    destruct (qleb (qabs p) atol) eqn:P; [cbn; apply qltb_iff; exact RT|].
    destruct (qleb (qabs q) atol) eqn:Q; [cbn; apply qltb_iff; exact RT|].
    cbn [orb]. qb. rewrite qabs_Qabs in P, Q. destruct B as [B|[B|B]]; [lra|lra|].
    fold tinymin in B. cbn [xdiv].
    destruct (qeqb (p + tinymin) 0) eqn:Z.
    + exfalso. apply qeqb_iff in Z. rewrite Z in B. change (Qabs 0) with 0 in B. pose proof (Qabs_nonneg (p - q)). lra.
    + apply qeqb_false in Z. cbn [xabs xltb]. apply qltb_iff. rewrite qabs_Qabs. unfold Qdiv. rewrite Qabs_Qmult, Qabs_Qinv.
      assert (PP : 0 < Qabs (p + tinymin)).
      { destruct (Qlt_le_dec 0 (Qabs (p + tinymin))) as [L|L]; [exact L|]. exfalso. apply Z. apply Qabs_Qle_condition in L. lra. }
      apply Qmult_lt_r with (z := Qabs (p + tinymin)); [exact PP|]. rewrite <- Qmult_assoc, (Qmult_comm (/ _)), Qmult_inv_r, Qmult_1_r by lra.
      exact B.
Qed.

Lemma t_compare x y atol rtol : 0 < rtol -> length x = length y ->
  (compare_array x y atol rtol = true <-> forall i, (i < length x)%nat -> agree atol rtol (nth i x NaN) (nth i y NaN)).
Proof.
  intros RT L. unfold compare_array. rewrite andb_true_iff, !forallb_forall. split.
  - intros (A & B) i Hi. set (p := (nth i x NaN, nth i y NaN)).
    assert (IN : In p (combine x y)) by (eapply nth_error_In; apply combine_nth'; [exact L|exact Hi]).
    apply (pair_ok atol rtol p RT). destruct (same_inf p) eqn:S; [auto|right].
    assert (IF : In p (filter (fun p => negb (same_inf p)) (combine x y))) by (apply filter_In; rewrite S; auto).
    split; [apply A; exact IF|apply B; exact IF].
  - intros H. assert (G : forall p, In p (filter (fun p => negb (same_inf p)) (combine x y)) -> same_inf p = false /\ agree atol rtol (fst p) (snd p)).
    { intros p HP. apply filter_In in HP. destruct HP as (HP & S). apply negb_true_iff in S. split; [exact S|].
      apply (In_nth _ _ (NaN, NaN)) in HP. destruct HP as (i & Hi & E). rewrite combine_length in Hi.
      rewrite combine_nth in E by exact L. subst p. cbn [fst snd]. apply H. lia. }
    split; intros p HP; destruct (G p HP) as (S & AG); apply (pair_ok atol rtol p RT) in AG; destruct AG as [AG|AG]; try congruence; apply AG.
Qed.

Lemma r_symmetric : ~ forall x y atol rtol, 0 < atol -> 0 < rtol -> length x = length y ->
  compare_array x y atol rtol = true -> compare_array y x atol rtol = true.
Proof.
  intros F. specialize (F [Fin (29 # 10)] [Fin 2] 1 (2 # 5) eq_refl eq_refl eq_refl).
  assert (E : compare_array [Fin (29 # 10)] [Fin 2] 1 (2 # 5) = true) by (vm_compute; reflexivity).
  apply F in E. vm_compute in E. discriminate.
Qed.

Lemma t_compare_self x atol rtol : 0 < atol -> 0 < rtol ->
  (compare_array x x atol rtol = true <-> forall v, In v x -> v <> NaN /\
     (forall p, v = Fin p -> Qabs p <= atol \/ ~ p == - (1 # (2 ^ 1022)))).
Proof.
  intros AT RT. rewrite (t_compare x x atol rtol RT eq_refl). split.
  - intros H v V. apply (In_nth _ _ NaN) in V. destruct V as (i & Hi & <-). specialize (H i Hi).
    destruct H as [(E & _)|[(E & _)|(p & q & E & E2 & _ & O)]]; rewrite E in *.
    + split; [discriminate|]. discriminate.
    + split; [discriminate|]. discriminate.
    + split; [discriminate|]. intros p' P'. injection P' as <-. destruct O as [O|[O|O]]; [auto| |].
      * assert (Fin p = Fin q) by congruence. injection H as <-. auto.
      * right. intros Z. assert (p + (1 # (2 ^ 1022)) == 0) as Z' by (rewrite Z; rewrite Qplus_comm; apply Qplus_opp_r).
        rewrite Z' in O. change (Qabs 0) with 0 in O. pose proof (Qabs_nonneg (p - q)). lra.
  - intros H i Hi. destruct (H (nth i x NaN) (nth_In _ _ Hi)) as (N & P). destruct (nth i x NaN) as [p| | |]; [|left; auto|right; left; auto|contradiction].
    right; right. exists p, p. split; [auto|]. split; [auto|]. assert (Z : p - p == 0) by ring. rewrite Z. change (Qabs 0) with 0.
    split; [exact AT|]. destruct (P p eq_refl) as [B|B]; [auto|]. right; right.
    apply Qle_lt_trans with (rtol * 0); [lra|]. apply Qmult_lt_l; [exact RT|].
    destruct (Qlt_le_dec 0 (Qabs (p + (1 # (2 ^ 1022))))) as [L|L]; [exact L|]. exfalso. apply B.
    apply Qabs_Qle_condition in L. destruct L as (L1 & L2). apply Qle_antisym.
    + apply Qplus_le_l with (1 # 2 ^ 1022). eapply Qle_trans; [exact L2|]. rewrite Qplus_comm, Qplus_opp_r. apply Qle_refl.
    + apply Qplus_le_l with (1 # 2 ^ 1022). eapply Qle_trans; [|exact L1]. rewrite Qplus_comm, Qplus_opp_r. apply Qle_refl.
Qed.
