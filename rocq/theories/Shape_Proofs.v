(** Proofs about shapes. *)
From Coq Require Import List Arith ZArith QArith Bool Lia.
Import ListNotations.
From Verif Require Import Pre_Model Shape_Model Shape_Spec.
Local Open Scope nat_scope.

(** a bound array after concatenation and replacement *)
Definition final (n : nat) (a : arr) : arr := if is_empty a then Arr2 n 1 else a.

Lemma cmp_col r1 r2 j : comparable (Arr2 r1 1) (Arr2 r2 1) j = ((j <? r1) && (j <? r2))%bool.
Proof. unfold comparable, row_size. cbn [size1 size2]. destruct (j <? r1), (j <? r2); reflexivity. Qed.

Lemma forall_col r1 r2 n : 0 < n ->
  forallb (comparable (Arr2 r1 1) (Arr2 r2 1)) (seq 0 n) = true <-> n <= r1 /\ n <= r2.
Proof.
  intros N. rewrite forallb_forall. split.
  - intros H. specialize (H (n - 1)). rewrite cmp_col in H.
    assert (I : In (n - 1) (seq 0 n)) by (apply in_seq; lia). apply H in I. apply andb_prop in I.
    destruct I as (I1 & I2). apply Nat.ltb_lt in I1, I2. lia.
  - intros (H1 & H2) j I. apply in_seq in I. rewrite cmp_col. apply andb_true_intro.
    split; apply Nat.ltb_lt; lia.
Qed.

Lemma cmp_first (a b : arr) : is_empty a = false -> is_empty b = false -> comparable a b 0 = true -> size2 a = 1 /\ size2 b = 1.
Proof.
  unfold comparable, row_size. intros E1 E2.
  assert (P : forall a, is_empty a = false -> 1 <= size1 a /\ 1 <= size2 a).
  { intros [m|r q] H; cbn in *; [apply Nat.eqb_neq in H; lia|]. apply orb_false_elim in H. destruct H as (H1 & H2).
    apply Nat.eqb_neq in H1, H2. lia. }
  destruct (P a E1), (P b E2). replace (0 <? size1 a) with true by (symmetry; apply Nat.ltb_lt; lia).
  replace (0 <? size1 b) with true by (symmetry; apply Nat.ltb_lt; lia). unfold bcast1.
  destruct (size2 a =? size2 b) eqn:B1.
  - apply Nat.eqb_eq in B1. intros H3. apply Nat.leb_le in H3. lia.
  - destruct (size2 a =? 1) eqn:B2; [|destruct (size2 b =? 1) eqn:B3; [|discriminate]].
    + intros H3. apply Nat.leb_le in H3. apply Nat.eqb_neq in B1. apply Nat.eqb_eq in B2. lia.
    + intros H3. apply Nat.leb_le in H3. apply Nat.eqb_neq in B1. apply Nat.eqb_eq in B3. lia.
Qed.

Lemma count_col n r1 r2 : n <= r1 -> n <= r2 -> countable n (Arr2 r1 1) (Arr2 r2 1) = true.
Proof.
  intros H1 H2. unfold countable, head, as_matrix, bcast. cbn [fst snd].
  rewrite (Nat.min_l n r1), (Nat.min_l n r2) by lia. unfold bcast1. rewrite !Nat.eqb_refl. reflexivity.
Qed.

Lemma final_nonempty n a : 0 < n -> is_empty (final n a) = false.
Proof.
  intros N. unfold final. destruct (is_empty a) eqn:E; [|exact E]. cbn.
  apply orb_false_intro; [apply Nat.eqb_neq; lia|reflexivity].
Qed.

(** the end of the analysis, once the start point is known to be fine *)
Lemma usable_iff n L U : 0 < n ->
  (exists l u, (if negb (countable n (final n L) (final n U)) then EarlyError else
   if forallb (comparable (final n L) (final n U)) (seq 0 n) then projected n (final n L) (final n U) else EarlyError)
   = Usable n l u) <->
  (exists r1 r2, final n L = Arr2 r1 1 /\ final n U = Arr2 r2 1 /\ n <= r1 /\ n <= r2).
Proof.
  intros N. pose proof (final_nonempty n L N) as E1. pose proof (final_nonempty n U N) as E2. split.
  - intros (l & u & H). destruct (negb (countable n (final n L) (final n U))); [discriminate|].
    destruct (forallb (comparable (final n L) (final n U)) (seq 0 n)) eqn:F; [|discriminate].
    assert (C0 : comparable (final n L) (final n U) 0 = true).
    { rewrite forallb_forall in F. apply F. apply in_seq. lia. }
    destruct (cmp_first _ _ E1 E2 C0) as (S1 & S2). unfold projected in H.
    destruct (final n L) as [m1|r1 c1], (final n U) as [m2|r2 c2]; try discriminate.
    cbn [size2] in S1, S2. subst c1 c2. apply forall_col in F; auto. exists r1, r2. tauto.
  - intros (r1 & r2 & -> & -> & H1 & H2). rewrite count_col by auto. cbn [negb].
    destruct (forall_col r1 r2 n N) as (_ & ->); auto. cbn [projected]. eauto.
Qed.

Lemma upright_ok x0 n : start_point x0 n -> 0 < n -> size2 (upright (wrap x0)) = 1 /\ size1 (upright (wrap x0)) = n.
Proof.
  intros S N. destruct S; cbn [wrap]; unfold upright; cbn [size1 size2]; try (split; reflexivity).
  - destruct (1 <? n) eqn:B; cbn [andb transpose Nat.eqb]; cbn [size1 size2]; [auto|]. apply Nat.ltb_ge in B. lia.
  - destruct (n =? 1) eqn:B; cbn [andb Nat.ltb Nat.leb transpose]; cbn [size1 size2]; auto.
  - destruct (1 <? n) eqn:B; cbn [andb transpose Nat.eqb]; cbn [size1 size2]; [auto|]. apply Nat.ltb_ge in B. lia.
  - destruct (n =? 1) eqn:B; cbn [andb Nat.ltb Nat.leb transpose size1 size2]; auto.
Qed.

Lemma upright_conv x0 n : size2 (upright (wrap x0)) = 1 -> size1 (upright (wrap x0)) = n -> 0 < n -> start_point x0 n.
Proof.
  intros H1 H2 N. destruct x0 as [m| |[m|r c]]; cbn [wrap] in *.
  - unfold upright in *. cbn [size1 size2] in *. destruct (1 <? m) eqn:B; cbn [andb transpose Nat.eqb size1 size2] in *.
    + subst. constructor.
    + subst. constructor.
  - unfold upright in *; cbn in *. subst. constructor.
  - unfold upright in *. cbn [size1 size2] in *. destruct (m =? 1); cbn in *; subst; constructor.
  - unfold upright in *. cbn [size1 size2] in *. destruct (r =? 1) eqn:B1, (1 <? c) eqn:B2; cbn [andb transpose size1 size2] in *;
      subst; try (apply Nat.eqb_eq in B1; subst); try constructor.
Qed.

(** default bounds are a column exactly for a lying start point (or one component) *)
Lemma default_column x0 n k : start_point x0 n -> 0 < n ->
  (exists r a, append_rows k (bound_arr (wrap x0) None) = Some a /\ final n a = Arr2 r 1 /\ n <= r) <->
  (lying x0 \/ (n = 1 /\ x0 = PArray (Arr2 1 1))).
Proof.
  intros S N. cbn [bound_arr]. split.
  - intros (r & a & H & F & L). destruct S; cbn [wrap transpose] in *; try (left; constructor).
    + destruct k; cbn in H; [|discriminate]. injection H as <-. cbn in F. discriminate.
    + destruct k; cbn in H; [|discriminate]. injection H as <-. unfold final in F. cbn [is_empty] in F.
      destruct (n =? 0) eqn:B; [apply Nat.eqb_eq in B; lia|discriminate].
    + assert (n = 1).
      { destruct k; cbn [append_rows] in H.
        - injection H as <-. unfold final in F. cbn [is_empty orb Nat.eqb] in F.
          destruct (n =? 0) eqn:B; [apply Nat.eqb_eq in B; lia|]. injection F as _ F. exact F.
        - destruct n as [|[|n]]; [discriminate|reflexivity|discriminate]. }
      subst. left. constructor.
  - intros [LY|(-> & ->)].
    + destruct LY; inversion S; subst; cbn [wrap transpose].
      * exists (n + k), (Arr2 (n + k) 1). split.
        { destruct k; cbn [append_rows]; [rewrite Nat.add_0_r|]; reflexivity. }
        split; [|lia]. unfold final. cbn [is_empty].
        replace (n + k =? 0) with false by (symmetry; apply Nat.eqb_neq; lia). reflexivity.
      * exists (n + k), (Arr2 (n + k) 1). split.
        { destruct k; cbn [append_rows]; [rewrite Nat.add_0_r|]; reflexivity. }
        split; [|lia]. unfold final. cbn [is_empty].
        replace (n + k =? 0) with false by (symmetry; apply Nat.eqb_neq; lia). reflexivity.
      * exists (1 + k), (Arr2 (1 + k) 1). split.
        { destruct k; cbn [append_rows]; reflexivity. }
        split; [|lia]. unfold final. cbn. reflexivity.
    + exists (1 + k), (Arr2 (1 + k) 1). split.
      { destruct k; cbn [append_rows]; reflexivity. }
      split; [|lia]. unfold final. cbn. reflexivity.
Qed.

Lemma given_column x0 n k g : 0 < n ->
  (exists r a, append_rows k (bound_arr (wrap x0) (Some g)) = Some a /\ final n a = Arr2 r 1 /\ n <= r) <->
  (exists m, column g m /\ (n <= m + k \/ (m = 0 /\ k = 0))) \/ (k = 0 /\ exists a, g = PArray a /\ is_empty a = true).
Proof.
  intros N.
  assert (COL : forall m, (exists r a, append_rows k (Arr2 m 1) = Some a /\ final n a = Arr2 r 1 /\ n <= r) <->
     (n <= m + k \/ (m = 0 /\ k = 0))).
  { intros m.
    assert (AR : append_rows k (Arr2 m 1) = Some (Arr2 (m + k) 1)).
    { destruct k; cbn [append_rows]; [rewrite Nat.add_0_r|]; reflexivity. }
    rewrite AR. unfold final. split.
    - intros (r & a & H & F & L). injection H as <-. cbn [is_empty] in F.
      destruct (m + k =? 0) eqn:B; cbn [orb] in F.
      + apply Nat.eqb_eq in B. lia.
      + injection F as F. lia.
    - intros [H|(-> & ->)].
      + exists (m + k), (Arr2 (m + k) 1). split; [reflexivity|]. cbn [is_empty].
        replace (m + k =? 0) with false by (symmetry; apply Nat.eqb_neq; lia). cbn. auto.
      + exists n, (Arr2 0 1). cbn. auto. }
  destruct g as [m| |[m|r c]]; cbn [bound_arr wrap transpose].
  - rewrite COL. split.
    + intros H. left. exists m. split; [constructor|exact H].
    + intros [(m' & C & H)|(_ & a & H & _)]; [|discriminate]. inversion C; subst. exact H.
  - split.
    + intros (r & a & H & F & L). destruct k; cbn in H; [|discriminate]. injection H as <-. cbn in F. discriminate.
    + intros [(m' & C & H)|(_ & a & H & _)]; [inversion C|discriminate].
  - split.
    + intros (r & a & H & F & L). destruct k; cbn in H; [|discriminate]. injection H as <-.
      right. split; [reflexivity|]. exists (Arr1 m). split; [reflexivity|]. unfold final in F.
      destruct (is_empty (Arr1 m)); [reflexivity|discriminate].
    + intros [(m' & C & H)|(-> & a & H & E)]; [inversion C|]. injection H as <-.
      exists n, (Arr1 m). split; [reflexivity|]. unfold final. rewrite E. auto.
  - destruct (Nat.eq_dec c 1) as [->|NC].
    + rewrite COL. split.
      * intros H. left. exists r. split; [constructor|exact H].
      * intros [(m' & C & H)|(-> & a & H & E)].
        -- inversion C; subst. exact H.
        -- injection H as <-. cbn in E. rewrite orb_false_r in E. apply Nat.eqb_eq in E. auto.
    + split.
      * intros (q & a & H & F & L). destruct k.
        -- cbn in H. injection H as <-. right. split; [reflexivity|]. exists (Arr2 r c). split; [reflexivity|].
           unfold final in F. destruct (is_empty (Arr2 r c)) eqn:E; [reflexivity|]. injection F as _ F. congruence.
        -- exfalso. destruct c as [|[|c]]; try congruence; discriminate.
      * intros [(m' & C & H)|(-> & a & H & E)]; [inversion C; subst; congruence|]. injection H as <-.
        exists n, (Arr2 r c). split; [reflexivity|]. unfold final. rewrite E. auto.
Qed.

(** ** The whole analysis *)

Lemma void_iff a : is_empty a = true <-> void a.
Proof.
  split.
  - destruct a as [m|r q]; cbn; intros H.
    + apply Nat.eqb_eq in H. subst. constructor.
    + apply orb_prop in H. destruct H as [H|H]; apply Nat.eqb_eq in H; subst; constructor.
  - destruct 1; cbn; auto using orb_true_r.
Qed.

(** a bound argument with which [append_rows] succeeds and gives a column *)
Definition fits (x0 : given) (n k : nat) (b : option given) : Prop :=
  exists r a, append_rows k (bound_arr (wrap x0) b) = Some a /\ final n a = Arr2 r 1 /\ n <= r.

Lemma fits_iff x0 n k b : start_point x0 n -> 0 < n -> fits x0 n k b <-> serves x0 n k b.
Proof.
  intros S N. unfold fits, serves. destruct b as [g|].
  - rewrite (given_column x0 n k g N). split.
    + intros [H|(K & a & H & E)]; [left; exact H|]. right. split; [exact K|]. exists a. rewrite <- void_iff. auto.
    + intros [H|(K & a & H & E)]; [left; exact H|]. right. split; [exact K|]. exists a. rewrite void_iff. auto.
  - rewrite (default_column x0 n k S N). split; [|tauto]. intros [H|(_ & ->)]; [exact H|constructor].
Qed.

Lemma shapes_usable x0 lb ub k n L U :
  shapes_of x0 lb ub k = Usable n L U -> start_point x0 n /\ 0 < n /\ fits x0 n k lb /\ fits x0 n k ub /\
  exists r1 r2, L = Arr2 r1 1 /\ U = Arr2 r2 1.
Proof.
  unfold shapes_of. destruct (append_rows k (bound_arr (wrap x0) lb)) as [l|] eqn:AL; [|discriminate].
  destruct (append_rows k (bound_arr (wrap x0) ub)) as [u|] eqn:AU; [|discriminate].
  destruct (size2 (upright (wrap x0)) =? 1) eqn:S2; cbn [negb]; [|discriminate].
  apply Nat.eqb_eq in S2. set (m := size1 (upright (wrap x0))) in *.
  destruct (m =? 0) eqn:M0; [discriminate|]. apply Nat.eqb_neq in M0. assert (M : 0 < m) by lia.
  fold (final m l) (final m u). intros H.
  assert (E : m = n).
  { destruct (negb _) in H; [discriminate|]. destruct (forallb _ _) in H; [|discriminate].
    unfold projected in H. destruct (final m l), (final m u); try discriminate. congruence. }
  assert (X : exists l' u', (if negb (countable m (final m l) (final m u)) then EarlyError else
   if forallb (comparable (final m l) (final m u)) (seq 0 m) then projected m (final m l) (final m u) else EarlyError)
   = Usable m l' u') by (exists L, U; rewrite H; congruence).
  apply (usable_iff m l u M) in X. destruct X as (r1 & r2 & F1 & F2 & L1 & L2). subst n.
  repeat split.
  - apply upright_conv; auto.
  - exact M.
  - exists r1, l. auto.
  - exists r2, u. auto.
  - exists r1, r2. rewrite F1, F2 in H. rewrite count_col in H by auto. cbn [negb] in H.
    destruct (forallb _ _) in H; [|discriminate]. cbn [projected] in H. split; congruence.
Qed.

Lemma usable_shapes x0 lb ub k n :
  start_point x0 n -> 0 < n -> fits x0 n k lb -> fits x0 n k ub -> exists L U, shapes_of x0 lb ub k = Usable n L U.
Proof.
  intros S N (r1 & l & AL & F1 & L1) (r2 & u & AU & F2 & L2). destruct (upright_ok x0 n S N) as (S2 & S1).
  unfold shapes_of. rewrite AL, AU, S2, S1. cbn [negb Nat.eqb].
  replace (n =? 0) with false by (symmetry; apply Nat.eqb_neq; lia).
  fold (final n l) (final n u). apply (usable_iff n l u N). eauto 6.
Qed.

(** exactly which arguments reach the main loop *)
Lemma usable_exactly x0 lb ub k n :
  (exists L U, shapes_of x0 lb ub k = Usable n L U) <->
  start_point x0 n /\ 0 < n /\ serves x0 n k lb /\ serves x0 n k ub.
Proof.
  split.
  - intros (L & U & H). apply shapes_usable in H. destruct H as (S & N & F1 & F2 & _).
    rewrite fits_iff in F1, F2 by assumption. tauto.
  - intros (S & N & F1 & F2). rewrite <- (fits_iff x0 n k) in F1, F2 by assumption.
    apply usable_shapes; auto.
Qed.

(** ** Consequences *)

(** one-dimensional bounds of the right length *)
Lemma flat_comparable n j : j < n -> comparable (Arr1 n) (Arr1 n) j = true.
Proof.
  intros H. unfold comparable, row_size. cbn [size1 size2].
  replace (j <? n) with true by (symmetry; apply Nat.ltb_lt; lia). reflexivity.
Qed.

Lemma flat_late x0 n l u : start_point x0 n -> 0 < n ->
  bound_arr (wrap x0) l = Arr1 n -> bound_arr (wrap x0) u = Arr1 n -> shapes_of x0 l u 0 = LateError.
Proof.
  intros S N BL BU. destruct (upright_ok x0 n S N) as (S2 & S1).
  unfold shapes_of. rewrite BL, BU, S2, S1. cbn [append_rows negb Nat.eqb].
  assert (E : is_empty (Arr1 n) = false) by (cbn; apply Nat.eqb_neq; lia). rewrite E.
  replace (n =? 0) with false by (symmetry; apply Nat.eqb_neq; lia).
  unfold countable, head, as_matrix, bcast, bcast1. cbn [fst snd]. rewrite !Nat.eqb_refl. cbn [negb].
  replace (forallb (comparable (Arr1 n) (Arr1 n)) (seq 0 n)) with true; [reflexivity|].
  symmetry. apply forallb_forall. intros j I. apply in_seq in I. apply flat_comparable. lia.
Qed.

Lemma flat_start n : 0 < n -> shapes_of (PArray (Arr1 n)) None None 0 = LateError.
Proof. intros N. apply flat_late with n; auto. constructor. Qed.

Lemma number_start : shapes_of PNumber None None 0 = LateError.
Proof. reflexivity. Qed.

Lemma flat_bounds x0 n : start_point x0 n -> 0 < n ->
  shapes_of x0 (Some (PArray (Arr1 n))) (Some (PArray (Arr1 n))) 0 = LateError.
Proof. intros S N. apply flat_late with n; auto. Qed.

(** a column as start point, with default bounds *)
Lemma column_start n k : 2 <= n -> shapes_of (PArray (Arr2 n 1)) None None k = EarlyError.
Proof.
  intros N. unfold shapes_of. cbn [wrap bound_arr transpose]. destruct k.
  - cbn [append_rows]. destruct (upright_ok _ n (sp_col n)) as (S2 & S1); [lia|]. cbn [wrap] in S1, S2.
    rewrite S1, S2. cbn [negb Nat.eqb]. replace (n =? 0) with false by (symmetry; apply Nat.eqb_neq; lia).
    assert (E : is_empty (Arr2 1 n) = false) by (cbn; apply Nat.eqb_neq; lia). rewrite E.
    destruct (negb (countable n (Arr2 1 n) (Arr2 1 n))); [reflexivity|].
    destruct (forallb (comparable (Arr2 1 n) (Arr2 1 n)) (seq 0 n)) eqn:F; [|reflexivity].
    rewrite forallb_forall in F. specialize (F 0). rewrite in_seq in F. specialize (F ltac:(lia)).
    apply cmp_first in F; auto. cbn [size2] in F. lia.
  - destruct n as [|[|n]]; try lia. reflexivity.
Qed.

(** with slacks, every bound array must be a column *)
Lemma slack_column x0 lb ub k : 0 < k ->
  (forall r, bound_arr (wrap x0) lb <> Arr2 r 1) \/ (forall r, bound_arr (wrap x0) ub <> Arr2 r 1) ->
  shapes_of x0 lb ub k = EarlyError.
Proof.
  intros K H. unfold shapes_of. destruct k; [lia|].
  assert (A : forall a, (forall r, a <> Arr2 r 1) -> append_rows (S k) a = None).
  { intros [m|r [|[|q]]] B; cbn; auto. now elim (B r). }
  destruct H as [H|H].
  - rewrite (A _ H). reflexivity.
  - rewrite (A _ H). now destruct (append_rows (S k) (bound_arr (wrap x0) lb)).
Qed.

Lemma flat_slacks n k : 0 < k -> shapes_of (PArray (Arr1 n)) None None k = EarlyError.
Proof. intros K. apply slack_column; auto. left. cbn. discriminate. Qed.

Lemma flat_bounds_slacks x0 b n k : 0 < k -> shapes_of x0 (Some (PArray (Arr1 n))) b k = EarlyError /\
  shapes_of x0 b (Some (PArray (Arr1 n))) k = EarlyError.
Proof. intros K. split; apply slack_column; auto; [left|right]; cbn; discriminate. Qed.

Lemma flat_bounds_both x0 n : start_point x0 n -> 0 < n ->
  shapes_of x0 (Some (PArray (Arr1 n))) (Some (PArray (Arr1 n))) 0 = LateError /\
  forall k b, 0 < k -> shapes_of x0 (Some (PArray (Arr1 n))) b k = EarlyError /\
                      shapes_of x0 b (Some (PArray (Arr1 n))) k = EarlyError.
Proof. intros S N. split; [apply flat_bounds; auto|]. intros k b K. apply flat_bounds_slacks; auto. Qed.

(** ** Bounds of the slacks *)

Lemma bounds_exact b n k fill : length b = n ->
  variable_bounds b n k fill = b /\ slack_bounds b n k fill = repeat fill k.
Proof.
  intros <-. unfold variable_bounds, slack_bounds, with_slacks. split.
  - rewrite firstn_app, Nat.sub_diag, firstn_all. cbn. apply app_nil_r.
  - rewrite skipn_app, skipn_all, Nat.sub_diag. cbn. rewrite firstn_all2; [reflexivity|]. rewrite repeat_length. lia.
Qed.

Lemma bounds_long b s n k fill : length b = n -> length s = k ->
  variable_bounds (b ++ s) n k fill = b /\ slack_bounds (b ++ s) n k fill = s.
Proof.
  intros <- <-. unfold variable_bounds, slack_bounds, with_slacks. rewrite <- app_assoc. split.
  - rewrite firstn_app, Nat.sub_diag, firstn_all. cbn. apply app_nil_r.
  - rewrite skipn_app, skipn_all, Nat.sub_diag. cbn [skipn app].
    rewrite firstn_app, Nat.sub_diag, firstn_all. cbn. apply app_nil_r.
Qed.

Lemma firstn_repeat (A : Type) (a : A) m k : m <= k -> firstn m (repeat a k) = repeat a m.
Proof. revert k. induction m; intros k H; [reflexivity|]. destruct k; [lia|]. cbn. rewrite IHm by lia. reflexivity. Qed.

Lemma bounds_short b n k fill : length b < n -> n <= length b + k ->
  variable_bounds b n k fill = b ++ repeat fill (n - length b) /\
  length (slack_bounds b n k fill) < k /\
  (2 <= n -> bcast (length (firstn (n + k) (with_slacks b k fill)), 1) (n + k, 1) = None).
Proof.
  intros H1 H2. unfold variable_bounds, slack_bounds, with_slacks. split; [|split].
  - rewrite firstn_app, firstn_all2 by lia. rewrite firstn_repeat by lia. reflexivity.
  - rewrite firstn_length, skipn_length, app_length, repeat_length. lia.
  - intros N. rewrite firstn_length, app_length, repeat_length, Nat.min_r by lia. unfold bcast, bcast1. cbn [fst snd].
    replace (length b + k =? n + k) with false by (symmetry; apply Nat.eqb_neq; lia).
    replace (length b + k =? 1) with false by (symmetry; apply Nat.eqb_neq; lia).
    replace (n + k =? 1) with false by (symmetry; apply Nat.eqb_neq; lia). reflexivity.
Qed.
