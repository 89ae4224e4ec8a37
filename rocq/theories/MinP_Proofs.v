(** Proofs about one pass of the main loop of minq. *)
From Coq Require Import Reals List Arith ZArith Lra Lia Bool.
From Verif Require Import RVec RBool MinQ_Model MinQ_Spec MinQ_Proofs LDL_Model LDL_Spec LDL_Proofs MinS_Model MinS_Spec MinS_Proofs MinS_Sub MinS_Main MinP_Spec.
Import ListNotations.
Open Scope R_scope.

(** ** the marks of quadMin *)
Lemma quadMin_marks lo hi b a t lba uba : xle_r lo 0 -> rle_x 0 hi ->
  quadMin lo hi b a = {| qm_x := Some (Fin t); qm_lba := lba; qm_uba := uba; qm_ier := false |} ->
  (lba || uba = true <-> ~ (a = 0 /\ b = 0) /\ (lo = Fin t \/ hi = Fin t)).
Proof.
  intros L H. unfold quadMin. destruct (_ || _); [discriminate|].
  destruct (Reqb a 0 && Reqb b 0) eqn:Z.
  { intros E. injection E as <- <- <-. apply andb_prop in Z. destruct Z. rb. split; [discriminate|]. intros [X _]. exfalso. apply X. split; assumption. }
  assert (N : ~ (a = 0 /\ b = 0)).
  { intros [-> ->]. rewrite (proj2 (Reqb_true 0 0) eq_refl) in Z. discriminate. }
  destruct (Rleb_spec a 0) as [C|C].
  - set (l := if is_ninf lo then false else _). intros E. injection E as E1 <- <-. rewrite orb_negb_r. split; [|reflexivity].
    intros _. split; [exact N|]. destruct l; cbn [negb] in E1; [left|right]; exact E1.
  - intros E. injection E as E1 <- <-.
    destruct (xler hi (- b / a)) eqn:E3; [rewrite orb_true_r; split; [intros _; split; [exact N|right; exact E1]|reflexivity]|].
    destruct (rlex (- b / a) lo) eqn:E2; cbn [orb]; [split; [intros _; split; [exact N|left; exact E1]|reflexivity]|].
    split; [discriminate|]. intros [_ X]. injection E1 as E1. rewrite E1 in *.
    destruct X as [X|X]; rewrite X in *; cbn in E2, E3; rb; lra.
Qed.

(** ** ends of the range of steps *)
Lemma fold_max_attained (f : nat -> xR) t l : fold_right (fun i a => xmax (f i) a) NInf l = Fin t -> exists i, In i l /\ f i = Fin t.
Proof.
  induction l as [|i l IH]; cbn; [discriminate|]. destruct (fold_right _ _ _) as [b| |] eqn:F.
  - destruct (f i) as [a| |] eqn:E; cbn; [|discriminate|].
    + unfold Rmax. destruct (Rle_dec a b); intros H; [destruct (IH H) as (j & A & B); exists j; auto|].
      injection H as <-. exists i. auto.
    + intros H. destruct (IH H) as (j & A & B). exists j. auto.
  - destruct (f i); cbn; discriminate.
  - destruct (f i) as [a| |] eqn:E; cbn; [|discriminate|discriminate]. intros H. injection H as <-. exists i. auto.
Qed.
Lemma fold_min_attained (f : nat -> xR) t l : fold_right (fun i a => xmin (f i) a) PInf l = Fin t -> exists i, In i l /\ f i = Fin t.
Proof.
  induction l as [|i l IH]; cbn; [discriminate|]. destruct (fold_right _ _ _) as [b| |] eqn:F.
  - destruct (f i) as [a| |] eqn:E; cbn; [| |discriminate].
    + unfold Rmin. destruct (Rle_dec a b); intros H; [injection H as <-; exists i; auto|].
      destruct (IH H) as (j & A & B); exists j; auto.
    + intros H. destruct (IH H) as (j & A & B). exists j. auto.
  - destruct (f i) as [a| |] eqn:E; cbn; [|discriminate|discriminate]. intros H. injection H as <-. exists i. auto.
  - destruct (f i); cbn; discriminate.
Qed.
Lemma fold_max_hit (f : nat -> xR) t l i : xle_r (fold_right (fun i a => xmax (f i) a) NInf l) t -> In i l -> f i = Fin t ->
  fold_right (fun i a => xmax (f i) a) NInf l = Fin t.
Proof.
  intros H Hi E. destruct (fold_right _ _ _) as [a| |] eqn:F; cbn in H; [|destruct H|].
  - f_equal. apply Rle_antisym; [exact H|]. assert (X : xle_r (fold_right (fun i a => xmax (f i) a) NInf l) a) by (rewrite F; cbn; lra).
    pose proof (proj1 (fold_max f a l) X i Hi) as Y. rewrite E in Y. exact Y.
  - exfalso. assert (X : xle_r (fold_right (fun i a => xmax (f i) a) NInf l) (t - 1)) by (rewrite F; exact I).
    pose proof (proj1 (fold_max f (t - 1) l) X i Hi) as Y. rewrite E in Y. cbn in Y. lra.
Qed.
Lemma fold_min_hit (f : nat -> xR) t l i : rle_x t (fold_right (fun i a => xmin (f i) a) PInf l) -> In i l -> f i = Fin t ->
  fold_right (fun i a => xmin (f i) a) PInf l = Fin t.
Proof.
  intros H Hi E. destruct (fold_right _ _ _) as [a| |] eqn:F; cbn in H; [| |destruct H].
  - f_equal. apply Rle_antisym; [|exact H]. assert (X : rle_x a (fold_right (fun i a => xmin (f i) a) PInf l)) by (rewrite F; cbn; lra).
    pose proof (proj1 (fold_min f a l) X i Hi) as Y. rewrite E in Y. exact Y.
  - exfalso. assert (X : rle_x (t + 1) (fold_right (fun i a => xmin (f i) a) PInf l)) by (rewrite F; exact I).
    pose proof (proj1 (fold_min f (t + 1) l) X i Hi) as Y. rewrite E in Y. cbn in Y. lra.
Qed.

Lemma lower_hit xu (x p : vec) i t : p i <> 0 -> (to_lower xu x p i = Fin t <-> xu i = Fin (x i + t * p i)).
Proof.
  intros P. unfold to_lower. destruct (xu i) as [u| |]; cbn; [|destruct (Rltb _ _); split; discriminate|destruct (Rltb _ _); split; discriminate].
  split; intros E; injection E as E; f_equal; [rewrite <- E|rewrite E]; field; exact P.
Qed.
Lemma upper_hit xo (x p : vec) i t : p i <> 0 -> (to_upper xo x p i = Fin t <-> xo i = Fin (x i + t * p i)).
Proof. exact (lower_hit xo x p i t). Qed.
Lemma xis_fin t e : xis t e = true <-> e = Fin t.
Proof. destruct e; cbn; [rewrite Reqb_true; split; [intros ->; reflexivity|intros E; injection E as ->; reflexivity]|split; discriminate|split; discriminate]. Qed.

Lemma range_hit n xu xo x p t : in_itv (range_low n xu xo x p) (range_high n xu xo x p) t ->
  (range_low n xu xo x p = Fin t \/ range_high n xu xo x p = Fin t <->
   exists i, (i < n)%nat /\ p i <> 0 /\ at_bound xu xo i (x i + t * p i)).
Proof.
  intros [A B]. unfold range_low, range_high, at_bound in *. split.
  - intros [E|E]; [apply fold_max_attained in E|apply fold_min_attained in E]; destruct E as (i & Hi & E); apply moving_in in Hi; exists i;
      (split; [apply Hi|]); (split; [apply Hi|]); destruct (Rltb _ _); first [apply (upper_hit xo x p i t) in E; tauto|apply (lower_hit xu x p i t) in E; tauto].
  - intros (i & Hi & P & [E|E]); [apply (lower_hit xu x p i t P) in E|apply (upper_hit xo x p i t P) in E].
    + destruct (Rltb (p i) 0) eqn:S.
      * right. apply (fold_min_hit (fun i => if Rltb (p i) 0 then to_lower xu x p i else to_upper xo x p i) t _ i B); [apply moving_in; split; assumption|rewrite S; exact E].
      * left. apply (fold_max_hit (fun i => if Rltb (p i) 0 then to_upper xo x p i else to_lower xu x p i) t _ i A); [apply moving_in; split; assumption|rewrite S; exact E].
    + destruct (Rltb (p i) 0) eqn:S.
      * left. apply (fold_max_hit (fun i => if Rltb (p i) 0 then to_upper xo x p i else to_lower xu x p i) t _ i A); [apply moving_in; split; assumption|rewrite S; exact E].
      * right. apply (fold_min_hit (fun i => if Rltb (p i) 0 then to_lower xu x p i else to_upper xo x p i) t _ i B); [apply moving_in; split; assumption|rewrite S; exact E].
Qed.

Lemma still_free_ok xu xo x p free t i :
  still_free xu xo x p free t i = true <-> free i = true /\ (p i = 0 \/ ~ at_bound xu xo i (x i + t * p i)).
Proof.
  unfold still_free, at_bound. destruct (Reqb_spec (p i) 0) as [Z|Z]; [tauto|].
  rewrite <- (lower_hit xu x p i t Z), <- (upper_hit xo x p i t Z), <- !xis_fin.
  destruct (xis _ _), (xis _ _); cbn [orb]; intuition discriminate.
Qed.

Lemma count_marks n free : marks n free (count_free n free).
Proof.
  exists (filter free (seq 0 n)). split; [apply NoDup_filter, seq_NoDup|]. split; [|reflexivity].
  intros i. rewrite filter_In, in_seq. intuition lia.
Qed.

(** ** the factors keep their shape *)
Section Shape.
Variables (neps : R) (slv : solver).
Hypothesis NP : 0 <= neps.

Lemma loop_shape ks : forall n L0 d0 L d u alpha L' d', unit_lower n L -> positive n d -> alpha <> 0 -> (forall k, In k ks -> (k < n)%nat) ->
  rk1_loop neps slv ks L0 d0 L d u alpha = LdlOk L' d' -> unit_lower n L'.
Proof.
  induction ks as [|k ks IH]; intros n L0 d0 L d u alpha L' d' U P A Hk E; cbn [rk1_loop] in E.
  { injection E as <- _. exact U. }
  cbv zeta in E. set (delta := d k + alpha * (u k * u k)) in *.
  destruct (Rltb alpha 0 && Rleb delta neps) eqn:C; [destruct (slv _ _ _); discriminate|].
  assert (Dk : 0 < d k) by (apply P, Hk; left; reflexivity).
  assert (De : 0 < delta).
  { apply andb_false_iff in C. destruct C as [C|C]; rb; [|lra]. unfold delta. pose proof (Rle_0_sqr (u k)) as Q. unfold Rsqr in Q.
    pose proof (Rmult_le_pos alpha (u k * u k) C Q). lra. }
  assert (P' : positive n (d_upd k d delta)).
  { intros i Hi. unfold d_upd. destruct (Nat.eqb i k); [exact De|apply P, Hi]. }
  assert (U' : unit_lower n (col_upd k L u (d k / delta) (alpha * u k / delta))).
  { destruct U as [U1 U2]. split.
    - intros i Hi. unfold col_upd. destruct (Nat.eqb_spec i k) as [->|N]; cbn [andb]; [|apply U1, Hi].
      rewrite Nat.leb_refl, U1 by exact Hi. unfold delta. field. unfold delta in De. lra.
    - intros i j Hij. unfold col_upd. destruct (Nat.eqb_spec j k) as [->|N]; cbn [andb]; [|apply U2, Hij].
      destruct (Nat.leb_spec k i); [lia|]. apply U2, Hij. }
  destruct (Reqb_spec (alpha * (d k / delta)) 0) as [Z|Z].
  - injection E as <- _. exact U'.
  - refine (IH n _ _ _ _ _ _ _ _ U' P' Z _ E). intros j Hj. apply Hk. right. exact Hj.
Qed.

Lemma rk1_shape n L d alpha u L' d' : unit_lower n L -> positive n d -> ldlrk1 neps slv n L d alpha u = LdlOk L' d' -> unit_lower n L'.
Proof.
  intros U P. unfold ldlrk1. destruct (Reqb_spec alpha 0); [discriminate|]. intros E.
  refine (loop_shape _ n _ _ _ _ _ _ _ _ U P n0 _ E). intros k Hk. apply nonzero_in in Hk. apply Hk.
Qed.
Lemma tail_shape n j L : unit_lower n L -> unit_lower (n - S j) (tailm j L).
Proof. intros [A B]. split; intros; unfold tailm; [apply A|apply B]; lia. Qed.
Lemma up_block_shape n j L v w LKK : (j < n)%nat -> unit_lower n L -> unit_lower (n - S j) LKK -> unit_lower n (block_up j L v w LKK).
Proof.
  intros Hj [A B] [C D]. split.
  - intros i Hi. unfold block_up. destruct (Nat.ltb_spec i j); [apply A, Hi|]. destruct (Nat.eqb_spec i j); [reflexivity|].
    apply C. lia.
  - intros i k Hik. unfold block_up. destruct (Nat.ltb_spec i j); [apply B; lia|].
    destruct (Nat.ltb_spec k j); [lia|]. destruct (Nat.eqb_spec k j); [lia|]. destruct (Nat.eqb_spec i j); [apply B; lia|]. apply D. lia.
Qed.
Lemma back_block_shape n j L LKK : (j < n)%nat -> unit_lower n L -> unit_lower (n - S j) LKK -> unit_lower n (block_back j L LKK).
Proof.
  intros Hj [A B] [C D]. split.
  - intros i Hi. unfold block_back. destruct (Nat.leb_spec i j); [apply A, Hi|]. apply C. lia.
  - intros i k Hik. unfold block_back. destruct (Nat.leb_spec i j); [apply B; lia|]. destruct (Nat.leb_spec k j); [lia|]. apply D. lia.
Qed.
Lemma down_block_shape n j L LKK : (j < n)%nat -> unit_lower n L -> unit_lower (n - S j) LKK -> unit_lower n (block_down j L LKK).
Proof.
  intros Hj [A B] [C D]. split.
  - intros i Hi. unfold block_down. destruct (Nat.ltb_spec i j); [apply A, Hi|]. destruct (Nat.eqb_spec i j); [reflexivity|]. apply C. lia.
  - intros i k Hik. unfold block_down. destruct (Nat.ltb_spec i j); [apply B; lia|].
    destruct (Nat.ltb_spec k j); [lia|]. destruct (Nat.eqb_spec k j); [lia|]. destruct (Nat.eqb_spec i j); [reflexivity|]. apply D. lia.
Qed.

Lemma up_shape n L d j g : (j < n)%nat -> unit_lower n L -> positive n d ->
  match ldlup neps slv n L d j g with LdlOk L' _ | LdlBad L' _ _ => unit_lower n L' | _ => True end.
Proof.
  intros Hj U P. unfold ldlup. destruct (Nat.eqb_spec j 0) as [->|J].
  - destruct (Rleb_spec (g 0%nat) neps); exact U.
  - destruct (slv j L g) as [u|]; [|exact I]. cbv zeta.
    destruct (Rleb_spec (g j - dot j u (fun i => u i / d i)) neps) as [C|C].
    + destruct (slv _ _ _); [exact U|exact I].
    + destruct (ldlrk1 _ _ _ _ _ _ _) as [| |LKK dk|LKK dk q] eqn:E; try exact I.
      * apply up_block_shape; [exact Hj|exact U|]. exact (rk1_shape _ _ _ _ _ _ _ (tail_shape n j L U) (tail_diag n j d P) E).
      * destruct (slv _ _ _); [|exact I]. apply rk1_back in E. destruct E as [-> _]. apply back_block_shape; [exact Hj|exact U|apply tail_shape, U].
Qed.
Lemma down_shape n L d j L' d' : (j < n)%nat -> unit_lower n L -> positive n d -> ldldown neps slv n L d j = Some (L', d') -> unit_lower n L'.
Proof.
  intros Hj U P. unfold ldldown. destruct (ldlrk1 _ _ _ _ _ _ _) as [| |LKK dk|LKK dk q] eqn:E; try discriminate; intros H; injection H as <- _;
    apply down_block_shape; try assumption.
  - exact (rk1_shape _ _ _ _ _ _ _ (tail_shape n j L U) (tail_diag n j d P) E).
  - apply rk1_back in E. destruct E as [-> _]. apply tail_shape, U.
Qed.

Lemma downdate_shape n js : forall L d K L' d' K', (forall j, In j js -> (j < n)%nat) -> unit_lower n L -> positive n d ->
  downdate neps slv n js L d K = Some (L', d', K') -> unit_lower n L' /\ positive n d' /\ (forall i, K' i = true <-> K i = true /\ ~ In i js).
Proof.
  induction js as [|j js IH]; intros L d K L' d' K' Hj U P E; cbn in E.
  { injection E as <- <- <-. split; [exact U|]. split; [exact P|]. cbn. tauto. }
  destruct (ldldown _ _ _ _ _ _) as [[L1 d1]|] eqn:D; [|discriminate].
  assert (J : (j < n)%nat) by (apply Hj; left; reflexivity).
  destruct (IH _ _ _ _ _ _ (fun i Hi => Hj i (or_intror Hi)) (down_shape n L d j L1 d1 J U P D) (down_diag neps slv NP n L d j L1 d1 J P D) E) as (A & B & C).
  split; [exact A|]. split; [exact B|]. intros i. rewrite C. unfold upd. cbn [In].
  destruct (Nat.eqb_spec i j) as [->|N]; [split; [intros [X _]; discriminate|intros [_ X]; exfalso; apply X; left; reflexivity]|].
  assert (j <> i) by congruence. tauto.
Qed.
Lemma update_shape n G js : forall L d K L' d' K', (forall j, In j js -> (j < n)%nat) -> unit_lower n L -> positive n d ->
  update neps slv n G js L d K = Some (L', d', K') -> unit_lower n L' /\ positive n d' /\ (forall i, K' i = true <-> K i = true \/ In i js).
Proof.
  induction js as [|j js IH]; intros L d K L' d' K' Hj U P E; cbn in E.
  { injection E as <- <- <-. split; [exact U|]. split; [exact P|]. cbn. tauto. }
  assert (J : (j < n)%nat) by (apply Hj; left; reflexivity).
  pose proof (up_diag neps slv NP n L d j (new_col G K j) J P) as Pd. pose proof (up_shape n L d j (new_col G K j) J U P) as Us.
  assert (Z : forall L1 d1, unit_lower n L1 -> positive n d1 -> update neps slv n G js L1 d1 (upd K j true) = Some (L', d', K') ->
    unit_lower n L' /\ positive n d' /\ (forall i, K' i = true <-> K i = true \/ In i (j :: js))).
  { intros L1 d1 U1 P1 E1. destruct (IH _ _ _ _ _ _ (fun i Hi => Hj i (or_intror Hi)) U1 P1 E1) as (A & B & C).
    split; [exact A|]. split; [exact B|]. intros i. rewrite C. unfold upd. cbn [In].
    destruct (Nat.eqb_spec i j) as [->|N]; [tauto|]. assert (j <> i) by congruence. tauto. }
  destruct (ldlup _ _ _ _ _ _ _) as [| |L1 d1|L1 d1 p]; try discriminate; [exact (Z _ _ Us Pd E)|].
  destruct (any_nonzero n p); [discriminate|]. exact (Z _ _ Us Pd E).
Qed.
End Shape.
