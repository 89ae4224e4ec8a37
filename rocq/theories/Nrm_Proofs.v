(** Proofs about norms and sizes. *)
From Coq Require Import Reals Lra Lia Arith List Bool.
From Verif Require Import RVec Nrm_Model Nrm_Spec.
Import ListNotations.
Open Scope R_scope.

Lemma nsize_entries a : nsize a = entries (nshape a).
Proof. unfold nsize. induction (nshape a) as [|k t IH]; cbn; [reflexivity|now rewrite IH]. Qed.

Lemma entries_app s t : entries (s ++ t) = (entries s * entries t)%nat.
Proof. induction s as [|k u IH]; cbn; [lia|]. rewrite IH. lia. Qed.
Lemma entries_ones k : entries (repeat 1%nat k) = 1%nat.
Proof. induction k as [|k IH]; cbn; [reflexivity|]. rewrite IH. reflexivity. Qed.

Lemma count1_le s : (count1 s <= List.length s)%nat.
Proof. unfold count1. induction s as [|k t IH]; [cbn; lia|]. cbn [filter List.length]. destruct (1 =? k)%nat; cbn [List.length]; lia. Qed.
Lemma count1_all s : (List.length s <= count1 s)%nat -> s = repeat 1%nat (List.length s).
Proof.
  induction s as [|k t IH]; [reflexivity|]. unfold count1. cbn [filter List.length repeat].
  pose proof (count1_le t) as H. unfold count1 in H.
  destruct (Nat.eqb_spec 1 k) as [<-|N]; cbn [List.length]; intros L; [|lia].
  f_equal. apply IH. unfold count1. lia.
Qed.
Lemma count1_ones k t : count1 (repeat 1%nat k ++ t) = (k + count1 t)%nat.
Proof.
  induction k as [|k IH]; [reflexivity|].
  change (S (count1 (repeat 1%nat k ++ t)) = S (k + count1 t)). now rewrite IH.
Qed.
Lemma count1_repeat k : count1 (repeat 1%nat k) = k.
Proof. rewrite <- (app_nil_r (repeat 1%nat k)), count1_ones. cbn. lia. Qed.

Lemma vector_count s : vector_shape s <-> (List.length s - count1 s <= 1)%nat.
Proof.
  split.
  - intros (a & b & k & [-> | ->]).
    + rewrite count1_ones, app_length, repeat_length. cbn [List.length]. rewrite repeat_length.
      assert (b <= count1 (k :: repeat 1%nat b))%nat; [|lia].
      pose proof (count1_repeat b) as E. unfold count1 in *. cbn [filter].
      destruct (1 =? k)%nat; cbn [List.length]; lia.
    + rewrite count1_repeat, repeat_length. lia.
  - induction s as [|k t IH]; intros H.
    + exists 0%nat, 0%nat, 0%nat. right. reflexivity.
    + pose proof (count1_le t) as L.
      destruct (Nat.eqb_spec k 1) as [->|N].
      * assert (E : count1 (1%nat :: t) = S (count1 t)) by reflexivity. rewrite E in H. cbn [List.length] in H.
        destruct IH as (a & b & k & [-> | ->]); [lia| |].
        -- exists (S a), b, k. left. reflexivity.
        -- exists (S a), 0%nat, 0%nat. right. reflexivity.
      * assert (E : count1 (k :: t) = count1 t).
        { unfold count1. cbn [filter]. destruct (Nat.eqb_spec 1 k); [congruence|reflexivity]. }
        rewrite E in H. cbn [List.length] in H.
        exists 0%nat, (List.length t), k. left. cbn [repeat app]. f_equal. apply count1_all. lia.
Qed.

Lemma isvector_iff a : isvector a = true <-> entries (nshape a) <> 0%nat /\ vector_shape (nshape a).
Proof.
  unfold isvector. rewrite andb_true_iff, negb_true_iff, Nat.eqb_neq, Nat.leb_le, nsize_entries, vector_count. reflexivity.
Qed.

Lemma rmax_largest n f : (1 <= n)%nat -> (forall i, (i < n)%nat -> 0 <= f i) -> largest n f (rmax n f).
Proof.
  induction n as [|n IH]; [lia|]. intros _ P. cbn [rmax].
  destruct n as [|n].
  - cbn [rmax]. rewrite Rmax_right by (apply P; lia). split.
    + intros i Hi. assert (i = 0)%nat as -> by lia. lra.
    + exists 0%nat. split; [lia|reflexivity].
  - destruct IH as [U (j & Hj & Ej)]; [lia|intros i Hi; apply P; lia|]. split.
    + intros i Hi. destruct (Nat.eq_dec i (S n)) as [->|N]; [apply Rmax_r|].
      eapply Rle_trans; [apply U; lia|apply Rmax_l].
    + destruct (Rle_dec (rmax (S n) f) (f (S n))) as [L|L].
      * exists (S n). split; [lia|]. now rewrite Rmax_right.
      * exists j. split; [lia|]. rewrite Rmax_left by lra. exact Ej.
Qed.
Lemma rmax_ext n f g : (forall i, (i < n)%nat -> f i = g i) -> rmax n f = rmax n g.
Proof. induction n as [|n IH]; intros H; [reflexivity|]. cbn [rmax]. rewrite IH, H; auto. Qed.

(** the operator norm of a matrix with one row is the length of the row *)
Lemma operator_row n (A : mat) v s : (forall j, (j < n)%nat -> A 0%nat j = v j) ->
  operator_norm 1 n A s -> s = norm n v.
Proof.
  intros E (P & U & x & X1 & X2).
  assert (D : forall y, norm 1 (mv n A y) = Rabs (dot n v y)).
  { intros y. unfold norm at 1, dot at 1. cbn [rsum].
    assert (mv n A y 0%nat = dot n v y) as -> by (apply rsum_ext; intros j Hj; now rewrite E).
    rewrite Rplus_0_l. apply sqrt_Rsqr_abs. }
  assert (L : s <= norm n v).
  { rewrite <- X2, D. eapply Rle_trans; [apply cauchy_schwarz|]. rewrite X1. lra. }
  pose proof (norm_nonneg n v) as N.
  destruct (Req_dec (norm n v) 0) as [Z|Z]; [lra|].
  specialize (U v). rewrite D in U. rewrite <- norm_sq in U. rewrite Rabs_pos_eq in U by nra.
  apply Rmult_le_reg_r in U; lra.
Qed.

Lemma norm_vector svmax a : rows_right svmax -> entries (nshape a) <> 0%nat -> vector_shape (nshape a) ->
  norm_ svmax a OTwo = Some (norm (entries (nshape a)) (ndat a)) /\
  exists m, norm_ svmax a OInf = Some m /\ largest (entries (nshape a)) (fun i => Rabs (ndat a i)) m.
Proof.
  intros S E V. assert (I : isvector a = true) by (apply isvector_iff; auto).
  assert (Ne : nempty a = false) by (unfold nempty; rewrite nsize_entries; now apply Nat.eqb_neq).
  unfold norm_. rewrite Ne, I, nsize_entries. set (n := entries (nshape a)) in *. unfold np_norm. cbn [nshape ndat]. split.
  - f_equal. eapply operator_row; [|apply S; lia]. intros j _. reflexivity.
  - eexists. split; [reflexivity|].
    rewrite (rmax_ext n _ (fun i => Rabs (ndat a i))).
    + apply rmax_largest; [lia|]. intros. apply Rabs_pos.
    + intros i _. cbn [rsum]. rewrite Nat.mul_1_r, Nat.add_0_r. lra.
Qed.

Lemma norm_matrix svmax a r c : nshape a = [r; c] -> (2 <= r)%nat -> (2 <= c)%nat ->
  let A := fun i j => ndat a (i * c + j)%nat in
  norm_ svmax a OTwo = Some (svmax r c A) /\
  (exists s, norm_ svmax a OInf = Some s /\ largest r (fun i => rsum c (fun j => Rabs (A i j))) s) /\
  norm_ svmax a OFro = Some (sqrt (rsum r (fun i => rsum c (fun j => A i j * A i j)))).
Proof.
  intros E Hr Hc A.
  assert (Ne : nempty a = false).
  { unfold nempty. rewrite nsize_entries, E. cbn. apply Nat.eqb_neq. nia. }
  assert (I : isvector a = false).
  { unfold isvector. rewrite E. unfold count1. cbn [filter].
    destruct (Nat.eqb_spec 1 r); [lia|]. destruct (Nat.eqb_spec 1 c); [lia|]. cbn. apply andb_false_r. }
  unfold norm_. rewrite Ne, I. unfold np_norm. rewrite E. repeat split.
  - eexists. split; [reflexivity|]. apply rmax_largest; [lia|]. intros i _. apply rsum_nonneg. intros. apply Rabs_pos.
  - f_equal. unfold norm, dot. f_equal. clear. induction r as [|r IH]; [reflexivity|].
    cbn [rsum]. rewrite <- IH. unfold A. replace (S r * c)%nat with (r * c + c)%nat by lia. now rewrite rsum_split.
Qed.

Lemma norm_empty svmax a o : entries (nshape a) = 0%nat -> norm_ svmax a o = Some 0.
Proof. intros E. unfold norm_, nempty. rewrite nsize_entries, E. reflexivity. Qed.

Lemma norm_raises svmax a o : norm_ svmax a o = None <->
  entries (nshape a) <> 0%nat /\ List.length (nshape a) <> 2%nat /\ (o = OFro \/ ~ vector_shape (nshape a)).
Proof.
  destruct (Nat.eq_dec (entries (nshape a)) 0) as [Z|Z].
  { rewrite norm_empty by exact Z. split; [discriminate|tauto]. }
  assert (Ne : nempty a = false) by (unfold nempty; rewrite nsize_entries; now apply Nat.eqb_neq).
  unfold norm_. rewrite Ne.
  destruct (isvector a) eqn:I.
  - apply isvector_iff in I. destruct I as [_ V]. destruct o; unfold np_norm; cbn [nshape ndat].
    + split; [discriminate|intros (_ & _ & [K|K]); [discriminate|tauto]].
    + split; [discriminate|intros (_ & _ & [K|K]); [discriminate|tauto]].
    + destruct (nshape a) as [|r [|c [|d t]]]; cbn [List.length].
      * split; [intros _|reflexivity]. split; [exact Z|]. split; [discriminate|now left].
      * split; [intros _|reflexivity]. split; [exact Z|]. split; [discriminate|now left].
      * split; [discriminate|lia].
      * split; [intros _|reflexivity]. split; [exact Z|]. split; [lia|now left].
  - assert (V : ~ vector_shape (nshape a)).
    { intros V. rewrite (proj2 (isvector_iff a)) in I by auto. discriminate. }
    unfold np_norm. destruct (nshape a) as [|r [|c [|d t]]] eqn:Es.
    + exfalso. apply V. exists 0%nat, 0%nat, 0%nat. right. reflexivity.
    + exfalso. apply V. exists 0%nat, 0%nat, r. left. reflexivity.
    + destruct o; (split; [discriminate|cbn; lia]).
    + split; [intros _|reflexivity]. split; [exact Z|]. split; [cbn; lia|now right].
Qed.

Lemma fold_max_in s : s <> [] -> In (fold_right Nat.max 0%nat s) s.
Proof.
  induction s as [|k t IH]; [congruence|]. intros _. cbn [fold_right].
  destruct t as [|j t]; [left; cbn; lia|]. destruct (Nat.max_spec k (fold_right Nat.max 0%nat (j :: t))) as [[_ ->]|[_ ->]].
  - right. apply IH. discriminate.
  - now left.
Qed.
Lemma fold_max_ge s k : In k s -> (k <= fold_right Nat.max 0%nat s)%nat.
Proof. induction s as [|j t IH]; [contradiction|]. cbn [fold_right]. intros [->|H]; [lia|]. specialize (IH H). lia. Qed.

Lemma length_spec a : (length_ a = None <-> nshape a = []) /\
  forall l, length_ a = Some l -> In l (nshape a) /\ forall k, In k (nshape a) -> (k <= l)%nat.
Proof.
  unfold length_. destruct (nshape a) as [|k t]; [split; [tauto|discriminate]|].
  split; [split; discriminate|]. intros l E. injection E as <-. split.
  - apply (fold_max_in (k :: t)). discriminate.
  - apply fold_max_ge.
Qed.

Lemma entries_zero s : In 0%nat s -> entries s = 0%nat.
Proof. induction s as [|k t IH]; [contradiction|]. intros [->|H]; cbn; [reflexivity|]. rewrite IH by exact H. lia. Qed.
Lemma entries_nonzero s : entries s = 0%nat -> In 0%nat s.
Proof. induction s as [|k t IH]; cbn; [lia|]. intros H. apply Nat.eq_mul_0 in H. destruct H as [->|H]; auto. Qed.

Lemma length_matlab a l : length_ a = Some l ->
  (matlab_length (nshape a) l <-> entries (nshape a) <> 0%nat \/ forall k, In k (nshape a) -> k = 0%nat).
Proof.
  intros E. destruct (proj2 (length_spec a) l E) as [I U]. unfold matlab_length. split.
  - intros [[Z ->]|[N _]]; [|now left]. right. intros k K. specialize (U k K). lia.
  - intros [N|Z]; [right; auto|]. left. specialize (Z l I). subst l. split; [|reflexivity]. now apply entries_zero.
Qed.

Lemma size_product a : (List.length (nshape a) <= 2)%nat -> (size_ a 1 * size_ a 2 = entries (nshape a))%nat.
Proof.
  unfold size_. destruct (nshape a) as [|r [|c [|d t]]]; cbn; lia.
Qed.

Lemma zeros_like_spec ok a : (List.length (nshape a) <> 1%nat -> zeros_like ok a = Some (nshape a)) /\
  (forall n, nshape a = [n] -> zeros_like ok a = None \/ zeros_like ok a = Some [n; n]).
Proof.
  unfold zeros_like, zeros1. split.
  - destruct (nshape a) as [|r [|c t]]; cbn; [reflexivity|lia|reflexivity].
  - intros n ->. destruct ok; auto.
Qed.

(** a choice of singular values as assumed *)
Lemma row_norm_right : rows_right (fun _ c A => norm c (A 0%nat)).
Proof.
  intros c A Hc.
  assert (D : forall y, norm 1 (mv c A y) = Rabs (dot c (A 0%nat) y)).
  { intros y. unfold norm at 1, dot at 1. cbn [rsum]. rewrite Rplus_0_l. apply sqrt_Rsqr_abs. }
  pose proof (norm_nonneg c (A 0%nat)) as N. split; [exact N|]. split.
  - intros x. rewrite D. apply cauchy_schwarz.
  - destruct (Req_dec (norm c (A 0%nat)) 0) as [Z|Z].
    + exists (unitv 0). split.
      * unfold norm. rewrite dot_unitv by lia. unfold unitv. cbn. apply sqrt_1.
      * rewrite D, dot_sym, dot_unitv by lia. rewrite Z. apply norm_zero in Z. rewrite Z by lia. apply Rabs_R0.
    + exists (vscal (/ norm c (A 0%nat)) (A 0%nat)).
      assert (0 < / norm c (A 0%nat)) by (apply Rinv_0_lt_compat; lra). split.
      * rewrite norm_scal, Rabs_pos_eq by lra. field. exact Z.
      * rewrite D, dot_scal_r, <- norm_sq. rewrite Rabs_pos_eq by nra. field. exact Z.
Qed.

Lemma matlab_refuted : ~ (forall a l, length_ a = Some l -> matlab_length (nshape a) l).
Proof.
  intros H. specialize (H (mknarr [0%nat; 5%nat] vzero) 5%nat eq_refl).
  destruct H as [[_ K]|[K _]]; [discriminate|apply K; reflexivity].
Qed.

Lemma zeros_int ok k : zeros1 ok (ZInt k) = None /\ zeros1 ok (ZNum k) = Some [k; k].
Proof. split; reflexivity. Qed.
