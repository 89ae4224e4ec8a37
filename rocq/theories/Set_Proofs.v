(** Proofs about the exchanges in the interpolation set. *)
From Coq Require Import List Arith ZArith QArith Qabs Bool Lia Lqa.
Import ListNotations.
From Verif Require Import QB Book_Model Book_Spec Book_Proofs Main_Model Main_Spec Main_Proofs Main_Proofs2
  Main_Proofs3 Main_More Set_Spec.
Local Open Scope Q_scope.

Section SetProofs.
Context {P : Type}.
Variable E : env P.
Hypothesis SN : sane E.

Lemma room_iff Y : can_augment E (length Y) = true <-> room E Y.
Proof.
  unfold can_augment, room. rewrite orb_true_iff, andb_true_iff, Nat.eqb_eq, !Nat.ltb_lt.
  replace (e_pfinal E + e_pfinal E)%nat with (2 * e_pfinal E)%nat by lia. tauto.
Qed.
Lemma room_false Y : can_augment E (length Y) = false -> ~ room E Y.
Proof. intros H K. apply room_iff in K. congruence. Qed.

(** a choice set given by a list *)
Lemma eligible_iff cset ok thr L (Y : list P) k : (forall j, (j < length Y)%nat -> (In j cset <-> ok j)) ->
  candidate cset thr L (length Y) k <-> eligible ok thr L Y k.
Proof. intros H. unfold candidate, eligible. split; intros (A & B & C); repeat split; auto; apply H; auto. Qed.

Lemma include_best xp Y cset ok thr c xb won L Y' j x' : 0 <= thr ->
  (forall j, (j < length Y)%nat -> (In j cset <-> ok j)) ->
  include_in_Y (e_zero E) (e_dist E) xp Y cset thr c xb won L = (Y', Some j, x') ->
  best E ok thr c won L xp Y j /\ only_changed j Y Y' /\ nth_error Y' j = Some xp.
Proof.
  intros T EQ H. destruct (include_chosen _ _ _ _ _ _ _ _ _ _ _ _ _ T H) as (A & B & D & _ & v & V1 & V2 & V3).
  split; auto. split; [apply (eligible_iff cset ok thr L Y j EQ); exact A|]. exists v. split; auto. split; auto.
  intros k w K. apply V3. apply (eligible_iff cset ok thr L Y k EQ). exact K.
Qed.
Lemma include_no_best xp Y cset ok thr c xb won L Y' x' : 0 <= thr ->
  (forall j, (j < length Y)%nat -> (In j cset <-> ok j)) ->
  include_in_Y (e_zero E) (e_dist E) xp Y cset thr c xb won L = (Y', None, x') ->
  no_best E ok thr c won L xp Y.
Proof.
  intros T EQ H. destruct (include_nothing _ _ _ _ _ _ _ _ _ _ _ _ T H) as (_ & _ & A).
  intros k w K. apply A. apply (eligible_iff cset ok thr L Y k EQ). exact K.
Qed.

Lemma positions_in p d j : In j (positions p d) <-> (j < length d)%nat /\ p (nth j d 0) = true.
Proof. unfold positions. rewrite filter_In, in_seq. intuition lia. Qed.

Lemma far_len won Y x xp : length (far_dists E won Y x xp) = length Y.
Proof. unfold far_dists. destruct won; [apply map_length|]. destruct Y; cbn; [reflexivity|]. rewrite map_length. reflexivity. Qed.

Lemma far_nth (won : bool) Y x xp j y : nth_error Y j = Some y -> (won = false -> j <> 0%nat) ->
  nth j (far_dists E won Y x xp) 0 = e_dist E y (if won then xp else x).
Proof.
  intros H K. unfold far_dists. destruct won.
  - apply nth_error_nth. rewrite nth_error_map, H. reflexivity.
  - destruct j; [now elim K|]. destruct Y; [discriminate|]. cbn in *. apply nth_error_nth. rewrite nth_error_map, H. reflexivity.
Qed.

Lemma far_set (won : bool) Y x xp r : 0 < r -> forall j, (j < length Y)%nat ->
  (In j (positions (qltb (1 * (1 + eps_TR) * r)) (far_dists E won Y x xp)) <-> is_far E won x xp r Y j).
Proof.
  intros R j J. rewrite positions_in, far_len. unfold is_far, eps_TR. destruct (nth_error_ex Y j J) as (y & H).
  assert (Z : won = false -> j = 0%nat -> nth j (far_dists E won Y x xp) 0 = 0).
  { intros -> ->. destruct Y; reflexivity. }
  split.
  - intros (_ & K). apply qltb_iff in K.
    assert (N : won = false -> j <> 0%nat) by (intros A B; rewrite (Z A B) in K; lra).
    split; auto. exists y. split; auto. rewrite (far_nth won Y x xp j y H N) in K. lra.
  - intros (N & y' & H' & K). split; auto. apply qltb_iff. rewrite (far_nth won Y x xp j y' H' N). lra.
Qed.

Lemma close_set (won : bool) Y x xp r : 0 < r -> forall j, (j < length Y)%nat ->
  (In j (positions (fun v => qleb v (1 * (1 + eps_TR) * r))
     (if won then far_dists E won Y x xp else upd (far_dists E won Y x xp) 0 (2 * (1 * (1 + eps_TR) * r)))) <->
   is_close E won x xp r Y j).
Proof.
  intros R j J. rewrite positions_in. unfold is_close, eps_TR. destruct (nth_error_ex Y j J) as (y & H).
  set (d := if won then _ else _).
  assert (LD : length d = length Y) by (subst d; destruct won; rewrite ?upd_length; apply far_len).
  assert (ND : (won = false -> j <> 0%nat) -> nth j d 0 = nth j (far_dists E won Y x xp) 0).
  { intros N. subst d. destruct won; auto. specialize (N eq_refl). destruct (far_dists E false Y x xp), j; auto; now elim N. }
  assert (Z : won = false -> j = 0%nat -> nth j d 0 == 2 * (1 * (1 + eps_TR) * r)).
  { intros -> ->. subst d. destruct Y; [cbn in J; lia|]. reflexivity. }
  rewrite LD. split.
  - intros (_ & K). apply qleb_iff in K.
    assert (N : won = false -> j <> 0%nat) by (intros A B; rewrite (Z A B) in K; unfold eps_TR in K; lra).
    split; auto. exists y. split; auto. rewrite (ND N), (far_nth won Y x xp j y H N) in K. lra.
  - intros (N & y' & H' & K). split; auto. apply qleb_iff. rewrite (ND N), (far_nth won Y x xp j y' H' N). lra.
Qed.

(** exchanges of positions *)
Lemma swapl_perm {T} i j (l l' : list T) : (i < j)%nat -> swapl i j l = Some l' -> permuted i j l l'.
Proof.
  intros IJ. unfold swapl. destruct (nth_error l i) as [u|] eqn:U; [|discriminate].
  destruct (nth_error l j) as [v|] eqn:V; [|discriminate]. intros H; injection H as <-.
  split; [rewrite !upd_length; reflexivity|]. intros k. unfold transp.
  pose proof (nth_error_len _ _ _ U). pose proof (nth_error_len _ _ _ V).
  destruct (Nat.eq_dec k i) as [->|N1].
  - rewrite nth_error_upd_neq by lia. rewrite nth_error_upd_eq by auto. congruence.
  - destruct (Nat.eq_dec k j) as [->|N2].
    + rewrite nth_error_upd_eq by (rewrite upd_length; auto). congruence.
    + rewrite !nth_error_upd_neq by auto. reflexivity.
Qed.

Lemma perm_same {T} i (l : list T) : permuted i i l l.
Proof. split; auto. intros k. unfold transp. destruct (Nat.eq_dec k i); subst; auto. Qed.

Lemma swap_perm (S S2 : iset P) j x x2 : swap_in_Y (e_zero E) 0 j S x = Some (S2, x2) ->
  permuted 0 j (s_Y S) (s_Y S2).
Proof.
  unfold swap_in_Y. destruct (0 =? j)%nat eqn:J; [intros H; injection H as <- _; apply Nat.eqb_eq in J; subst; apply perm_same|].
  apply Nat.eqb_neq in J. rewrite Nat.min_l, Nat.max_r by lia.
  destruct (swapl _ _ (s_Y S)) as [Y1|] eqn:Y; [|discriminate]. apply swapl_perm in Y; [|lia].
  destruct (swapl _ _ _) as [|]; [|discriminate]. destruct (swapl _ _ _) as [|]; [|discriminate].
  destruct (swapc _ _ _); [|discriminate]. destruct (swapc _ _ _); [|discriminate].
  intros H; injection H as <- _. exact Y.
Qed.

(** ** The step *)

Definition Yof (s : st P) := s_Y (iS (sI s)).

(** how [pm] changes *)
Definition pm_rule (s s' : st P) (n : nat) (b : bool) : Prop :=
  pm (sG s') = (b && (length (Yof s') =? n)%nat && negb (ib (sI s') =? mlast (sA s'))%nat)%bool.

Lemma replaced3 a A I N G (won : bool) Y' pos x' fxp I' N' G' s' : (ib I < mlast A)%nat ->
  length Y' = length (s_Y (iS I)) ->
  replaced_by_trial E a A I N G won Y' pos x' fxp = Some (I', N', G') ->
  finish_rej a A I' N' G' = Continue s' ->
  (if won then permuted 0 pos Y' (Yof s') else Yof s' = Y') /\
  pm (sG s') = (pm G && (length (Yof s') =? length (s_Y (iS I)))%nat && negb (ib (sI s') =? mlast (sA s'))%nat)%bool.
Proof.
  intros LT LY. unfold replaced_by_trial. destruct (store _ _ _ _ _ _ _) as [S1|] eqn:ST; [|discriminate].
  apply store_Y in ST. destruct won.
  - destruct (swap_in_Y _ _ _ _ _) as [(S2, x2)|] eqn:SS; [|discriminate]. apply swap_perm in SS. rewrite ST in SS.
    intros H; injection H as <- <- <-. unfold finish_rej. destruct (a_exc4 a); [discriminate|]. intros H; injection H as <-.
    unfold Yof. cbn [sI iS sG pm ib sA]. split; auto. rewrite Nat.eqb_refl. cbn [negb]. rewrite andb_false_r. reflexivity.
  - intros H; injection H as <- <- <-. unfold finish_rej. destruct (a_exc4 a); [discriminate|]. intros H; injection H as <-.
    unfold Yof. cbn [sI iS sG pm ib sA]. rewrite ST. split; auto. rewrite LY, Nat.eqb_refl.
    replace (ib I =? mlast A)%nat with false by (symmetry; apply Nat.eqb_neq; lia). cbn [negb]. rewrite !andb_true_r. reflexivity.
Qed.

Lemma reduce3 a A I N G fxp s' : (ib I < mlast A)%nat -> reduce E a A I N G fxp = Continue s' ->
  Yof s' = s_Y (iS I) /\
  pm (sG s') = (pm G && (length (Yof s') =? length (s_Y (iS I)))%nat && negb (ib (sI s') =? mlast (sA s'))%nat)%bool.
Proof.
  intros LT. unfold reduce, finish_rej. destruct (_ || _)%bool; [discriminate|]. destruct (a_exc4 a); [discriminate|].
  intros H; injection H as <-. unfold Yof. cbn [sI iS sG pm ib sA]. split; auto. rewrite Nat.eqb_refl.
  replace (ib I =? mlast A)%nat with false by (symmetry; apply Nat.eqb_neq; lia). cbn [negb]. rewrite !andb_true_r. reflexivity.
Qed.

Lemma reject3 a A I N G (won : bool) fxp s' : (ib I < mlast A)%nat -> 0 < delta G ->
  (won = true -> ~ room E (s_Y (iS I)) /\
     no_best E (fun _ => True) (1 # 10000000000) Distance true (a_L1 a) (a_xnew a) (s_Y (iS I))) ->
  reject E a A I N G won fxp = Continue s' ->
  exchange E a won (pm G) (delta G) (epsc G) (ix I) (s_Y (iS I)) (Yof s') /\
  pm (sG s') = (pm G && (length (Yof s') =? length (s_Y (iS I)))%nat && negb (ib (sI s') =? mlast (sA s'))%nat)%bool.
Proof.
  intros LT D W. unfold reject. cbv zeta. cbn [pm delta epsc].
  destruct (can_augment E (length (s_Y (iS I))) && negb won)%bool eqn:CA.
  - apply andb_prop in CA. destruct CA as (CA & NW). apply negb_true_iff in NW. subst won.
    destruct (augment_Y _ _ _ _) as (p', Y') eqn:AU.
    destruct (augment_put _ _ _ _ _ _ AU (can_augment_le E _ (proj2 SN) CA)) as (EY & _ & _).
    destruct (store _ _ _ _ _ _ _) as [S1|] eqn:ST; [|discriminate]. apply store_Y in ST.
    unfold finish_rej. destruct (a_exc4 a); [discriminate|]. intros H; injection H as <-.
    unfold Yof. cbn [sI iS sG pm ib sA]. rewrite ST, EY. split.
    + apply x_added; [apply room_iff; auto|reflexivity].
    + rewrite app_length. cbn [length]. replace (length (s_Y (iS I)) + 1 =? length (s_Y (iS I)))%nat with false.
      * rewrite andb_false_r. reflexivity.
      * symmetry. apply Nat.eqb_neq. lia.
  - assert (NR : ~ room E (s_Y (iS I))).
    { destruct won; [apply W; auto|]. rewrite andb_true_r in CA. apply room_false; auto. }
    assert (NB : won = true -> no_best E (fun _ => True) (1 # 10000000000) Distance true (a_L1 a) (a_xnew a) (s_Y (iS I)))
      by (intros K; apply W; auto).
    destruct (negb (pm G) || qleb (delta G) (epsc G))%bool eqn:GO.
    2:{ intros H. apply reduce3 in H; auto. cbn [pm] in H. destruct H as (H1 & H2). split; auto.
        apply orb_false_iff in GO. destruct GO as (GO1 & GO2). apply negb_false_iff in GO1. qb.
        apply x_none; auto. }
    assert (BR : pm G = false \/ delta G <= epsc G).
    { apply orb_prop in GO. destruct GO as [GO|GO]; [left; apply negb_true_iff; auto|right; qb; auto]. }
    destruct (include_in_Y _ _ _ _ _ _ _ _ _ (a_L2 a)) as ((Y1, [pos|]), x1) eqn:I1.
    + pose proof I1 as I1'. apply include_len in I1'; [|discriminate].
      apply (include_best _ _ _ (is_far E won (ix I) (a_xnew a) (delta G) (s_Y (iS I)))) in I1; [|discriminate|apply far_set; auto].
      destruct I1 as (B1 & OC & PX).
      destruct (replaced_by_trial _ _ _ _ _ _ _ _ _ _ _) as [((I', N'), G')|] eqn:RB; [|discriminate].
      intros H. eapply replaced3 in RB; eauto. cbn [pm] in RB. destruct RB as (R1 & R2). split; auto.
      apply x_far with pos; auto. exists Y1. auto.
    + apply (include_no_best _ _ _ (is_far E won (ix I) (a_xnew a) (delta G) (s_Y (iS I)))) in I1; [|discriminate|apply far_set; auto].
      destruct (include_in_Y _ _ _ _ _ _ _ _ _ (a_L3 a)) as ((Y2, [pos|]), x2) eqn:I2.
      * pose proof I2 as I2'. apply include_len in I2'; [|destruct won; discriminate].
        apply (include_best _ _ _ (is_close E won (ix I) (a_xnew a) (delta G) (s_Y (iS I)))) in I2; [|destruct won; discriminate|apply close_set; auto].
        destruct I2 as (B1 & OC & PX).
        destruct (replaced_by_trial _ _ _ _ _ _ _ _ _ _ _) as [((I', N'), G')|] eqn:RB; [|discriminate].
        intros H. eapply replaced3 in RB; eauto. cbn [pm] in RB. destruct RB as (R1 & R2). split; auto.
        apply x_close with pos; auto. exists Y2. auto.
      * apply (include_no_best _ _ _ (is_close E won (ix I) (a_xnew a) (delta G) (s_Y (iS I)))) in I2; [|destruct won; discriminate|apply close_set; auto].
        intros H. apply reduce3 in H; auto. cbn [pm] in H. destruct H as (H1 & H2). split; auto.
        apply x_none; auto.
Qed.

Lemma all_positions (Y : list P) : forall j, (j < length Y)%nat -> (In j (seq 0 (length Y)) <-> True).
Proof. intros j J. split; auto. intros _. apply in_seq. lia. Qed.

Lemma accept3 a A I N G rho fxp s' : (ib I < mlast A)%nat -> 0 < delta G ->
  accept E a A I N G rho fxp = Continue s' ->
  exchange E a true (pm G) (delta G) (epsc G) (ix I) (s_Y (iS I)) (Yof s') /\
  pm (sG s') = (pm G && (length (Yof s') =? length (s_Y (iS I)))%nat && negb (ib (sI s') =? mlast (sA s'))%nat)%bool.
Proof.
  intros LT D. unfold accept. destruct (can_augment E (length (s_Y (iS I)))) eqn:CA.
  - destruct (augment_Y _ _ _ _) as (p', Y1) eqn:AU.
    destruct (augment_put _ _ _ _ _ _ AU (can_augment_le E _ (proj2 SN) CA)) as (EY & EP & _).
    destruct (store _ _ _ _ _ _ _) as [S1|] eqn:ST; [|discriminate]. apply store_Y in ST.
    destruct (swap_in_Y _ _ _ _ _) as [(S2, x2)|] eqn:SS; [|discriminate]. apply swap_perm in SS.
    destruct (a_exc4 a); [discriminate|]. intros H; injection H as <-.
    unfold Yof. cbn [sI iS sG pm ib sA]. rewrite ST, EY, EP in SS. replace (S (length (s_Y (iS I))) - 1)%nat with (length (s_Y (iS I))) in SS by lia.
    split; [apply x_added; [apply room_iff; auto|exact SS]|]. rewrite Nat.eqb_refl, andb_false_r. reflexivity.
  - destruct (include_in_Y _ _ _ _ _ _ _ _ _ (a_L1 a)) as ((Y1, [pos|]), x1) eqn:I1.
    + apply (include_best _ _ _ (fun _ => True)) in I1; [|discriminate|apply all_positions]. destruct I1 as (B1 & OC & PX).
      destruct (store _ _ _ _ _ _ _) as [S1|] eqn:ST; [|discriminate]. apply store_Y in ST.
      destruct (swap_in_Y _ _ _ _ _) as [(S2, x2)|] eqn:SS; [|discriminate]. apply swap_perm in SS. rewrite ST in SS.
      destruct (a_exc4 a); [discriminate|]. intros H; injection H as <-.
      unfold Yof. cbn [sI iS sG pm ib sA]. split.
      * apply x_best with pos; auto; [apply room_false; auto|]. exists Y1. auto.
      * rewrite Nat.eqb_refl, andb_false_r. reflexivity.
    + apply (include_no_best _ _ _ (fun _ => True)) in I1; [|discriminate|apply all_positions].
      apply reject3; auto. intros _. split; auto. apply room_false; auto.
Qed.

Lemma G2_pm s a : pm (st_G2 E s a) = pm (sG s).
Proof.
  pose proof (memo_same E (sN s) (sG s)) as (_ & _ & _ & _ & _ & _ & _ & M8).
  unfold st_G2, with_sigma, st_G1. cbn. auto.
Qed.

(** the set after a step *)
Definition step_set (s : st P) (a : answers P) (s' : st P) (Y : list P) (b : bool) (r ec : Q) : Prop :=
  (pred (sG s') == -1 /\ Yof s' = Y /\ pm (sG s') = b) \/
  (0 < pred (sG s') /\ (exists won, (won = true <-> decreases (1 # 10000) s') /\ exchange E a won b r ec (ix (sI s)) Y (Yof s')) /\
   pm (sG s') = (b && (length (Yof s') =? length Y)%nat && negb (ib (sI s') =? mlast (sA s'))%nat)%bool).

Lemma step3 s a s' : Inv E s -> step E s a = Continue s' ->
  step_set s a s' (Yof s) (pm (sG s)) (delta (sG s)) (epsc (sG s)).
Proof.
  intros IV ST. pose proof IV as (SO & D & S1 & Z & _).
  assert (SP : 0 < sigma (sG s)) by lra.
  pose proof (step_cases E s a SP) as SC. rewrite ST in SC.
  pose proof (G2_same E s a) as (G21 & _ & _ & _ & G25 & _). pose proof (G2_pm s a) as G2P.
  assert (ML : forall A f c cX, eval_at E (sA s) (a_xnew a) = EDone A f c -> (ib (sI s) < mlast (with_ce A cX))%nat).
  { intros A f c cX EA. destruct SO as (O & (_ & _ & _ & _ & _ & _ & _ & S8 & _) & (_ & I2 & _)).
    apply nth_error_In in I2. apply S8 in I2.
    destruct (eval_at_done _ _ _ _ _ _ O EA) as (_ & _ & _ & ML & _). cbn [with_ce mlast]. lia. }
  inversion SC as [ | | | | A f c cX cp EA CE PE H0 | A f c cX cp pr rho EA CE PR PP RH ER LT H0
                  | A f c cX cp pr EA CE PR PP RH H0 ].
  - left. unfold Yof. cbn [sG sA sI st_G3 pred pm]. split; [reflexivity|]. split; auto.
  - right. assert (SH := accept_shape E a (with_ce A cX) (sI s) (st_N3 s f) (st_G3 E s a pr f cp) rho (qmin c1e25 f)).
    rewrite H0 in SH. cbn [st_G3 delta] in SH. rewrite G21 in SH.
    destruct (SH D) as (_ & (_ & CP & _ & _ & CM0 & CM & _) & _ & _). cbn [st_G3 pred merit0 merit] in CP, CM0, CM. clear SH.
    apply accept3 in H0; [|eauto|cbn [st_G3 delta]; rewrite G21; auto].
    cbn [st_G3 delta pm epsc] in H0. rewrite G21, G25, G2P in H0. destruct H0 as (H1 & H2).
    rewrite CP. split; [auto|]. split; [|exact H2]. exists true. split; [|exact H1]. split; auto. intros _.
    unfold decreases. rewrite CP, CM0, CM. apply qdiv_iff; auto. rewrite <- RH. exact ER.
  - right. assert (SH := reject_shape E a (with_ce A cX) (sI s) (st_N3 s f) (st_G3 E s a pr f cp) false (qmin c1e25 f)).
    rewrite H0 in SH. cbn [st_G3 delta] in SH. rewrite G21 in SH.
    destruct (SH D) as (_ & (_ & CP & _ & _ & CM0 & CM & _) & _ & _). cbn [st_G3 pred merit0 merit] in CP, CM0, CM. clear SH.
    apply reject3 in H0; [|eauto|cbn [st_G3 delta]; rewrite G21; auto|discriminate].
    cbn [st_G3 delta pm epsc] in H0. rewrite G21, G25, G2P in H0. destruct H0 as (H1 & H2).
    rewrite CP. split; [auto|]. split; [|exact H2]. exists false. split; [|exact H1]. split; [discriminate|].
    unfold decreases. rewrite CP, CM0, CM. intros K. apply (proj2 (qdiv_iff _ _ _ PP)) in K.
    exfalso. apply (Qle_not_lt _ _ K). exact RH.
Qed.

(** ** The improvement *)

Lemma eval_replaced_calls js : forall Y A ind fY ceY A' ind' fY' ceY',
  eval_replaced E js Y A ind fY ceY = Some (A', ind', fY', ceY') ->
  exists new, calls A' = calls A ++ new /\ Forall2 (fun j y => nth_error Y j = Some y) js new.
Proof.
  induction js as [|j t IH]; intros Y A ind fY ceY A' ind' fY' ceY' H; cbn in H.
  - injection H as <- _ _ _. exists []. rewrite app_nil_r. auto.
  - destruct (nth_error Y j) as [y|] eqn:YJ; [|discriminate].
    destruct (eval_at E A y) as [A1 f c| |] eqn:EA; try discriminate.
    apply IH in H. destruct H as (new & C & F). exists (y :: new). split; [|constructor; auto].
    rewrite C. unfold eval_at in EA. destruct (eval_user _); [|discriminate]. destruct (_ =? _)%nat; [|discriminate].
    injection EA as <- _ _. cbn [calls]. rewrite <- app_assoc. reflexivity.
Qed.

Lemma smallf_perm inside cnorm sg (S : iset P) x fx ib r :
  find_smallf (e_zero E) inside cnorm sg S x fx ib = Some r ->
  s_Y (r_set r) = s_Y S \/ exists k, (1 < k)%nat /\ permuted 0 k (s_Y S) (s_Y (r_set r)).
Proof.
  unfold find_smallf. destruct (argmin _) as [(fm, im)|]; [|discriminate].
  destruct (negb (im =? 1)%nat && _)%bool eqn:B.
  - destruct (swap_in_Y _ _ _ _ _) as [(S', x')|] eqn:SS; [|discriminate].
    assert (PM := swap_perm _ _ _ _ _ SS).
    destruct (s_f S') eqn:FS; [discriminate|]. destruct (s_ind S'); [discriminate|]. cbn. rewrite FS.
    intros H; injection H as <-. cbn [r_set]. apply andb_prop in B. destruct B as (B & _). apply negb_true_iff, Nat.eqb_neq in B.
    destruct im as [|[|im]]; [|congruence|].
    + left. cbn in SS. injection SS as <- _. reflexivity.
    + right. exists (Datatypes.S (Datatypes.S im)). split; [lia|auto].
  - destruct (s_f S); [discriminate|]. intros H; injection H as <-. auto.
Qed.

Lemma improve3 s a s2 : Inv E s -> improve E s a = Continue s2 -> exists f new,
  distance_factor s a f /\ repaired E f (delta (sG s2)) (Yof s) (Yof s2) new (pm (sG s2)) /\
  calls (sA s2) = calls (sA s) ++ new.
Proof.
  intros IV. pose proof IV as (SO & _). destruct SO as (_ & SO & _). unfold improve.
  set (ec := new_epsc E (sG s) (sN s)). set (radius := new_radius (sG s) (sN s) ec).
  destruct (qltb radius (stallfact * e_norm E (ix (sI s))) || qltb radius tiny)%bool eqn:ST; [discriminate|].
  apply orb_false_iff in ST. destruct ST as (_ & ST). qb.
  assert (NE : s_Y (iS (sI s)) <> []).
  { destruct SO as (H1 & _). intros K. rewrite K in H1. cbn in H1. lia. }
  assert (PF : 0 <= eff_FPR (sG s) a * (1 + eps_L) * radius).
  { unfold eff_FPR, factor_FPR, eps_L. unfold tiny in ST. destruct (_ || _)%bool; lra. }
  destruct (repair_frame (e_zero E) (e_dist E) (e_rowdist E) (a_newpt a) (e_argsort E)
          (eff_FPR (sG s) a) eps_L radius Lambda_CP (s_Y (iS (sI s))) (ix (sI s)))
    as (Y' & repl & imp & rad & x' & RE & LY & Y0 & ND & RB & UN & XB); auto.
  { apply SN. } { reflexivity. }
  pose proof (repair_near (e_zero E) (e_dist E) (e_rowdist E) (a_newpt a) (e_argsort E)
          (eff_FPR (sG s) a) eps_L radius Lambda_CP (s_Y (iS (sI s))) (ix (sI s)) (proj1 SN) eq_refl PF NE _ _ _ _ _ RE) as NR.
  rewrite RE. clear RE.
  destruct (match a_repoised a with Some pr => pr | None => (imp, rad) end) as (po, yr).
  destruct (eval_replaced E repl Y' (sA s) (s_ind (iS (sI s))) (s_f (iS (sI s))) (s_ce (iS (sI s))))
    as [[[[A' ind'] fY'] ceY']|] eqn:ER; [|discriminate].
  apply eval_replaced_calls in ER. destruct ER as (new & CL & F2).
  destruct (find_smallf _ _ _ _ _ _ _ _) as [r|] eqn:FS; [|discriminate]. apply smallf_perm in FS. cbn [s_Y] in FS.
  destruct (a_exc2 a); [discriminate|]. destruct (_ && _)%bool; [discriminate|].
  intros H; injection H as <-. unfold Yof. cbn [sI iS sG pm delta sA].
  exists (eff_FPR (sG s) a), new. split; [|split; [|exact CL]].
  - unfold distance_factor, eff_FPR, factor_FPR, epsilon.
    destruct (qleb (a_normgx a) (1 # 100000)) eqn:B1; cbn [orb]; qb; [left; split; [auto|reflexivity]|].
    destruct (qeqb (pred (sG s)) (-1)) eqn:B2; qb; [left; split; [auto|reflexivity]|].
    right. split; [lra|]. split; [auto|reflexivity].
  - exists Y', repl. repeat split; auto; try (intros; apply RB; auto); try (destruct repl; congruence).
Qed.

Lemma exchanges k0 d0 s0 s a s' : 0 <= e_tolf E -> begins E k0 d0 s0 -> reach E s0 s -> pass E s a = Continue s' ->
  exists r Y2 b, working_radius E s a s' r /\ prepared E s a s' r Y2 b /\
    ((pred (sG s') == -1 /\ s_Y (iS (sI s')) = Y2 /\ pm (sG s') = b) \/
     (0 < pred (sG s') /\
      (exists won x, nth_error Y2 0 = Some x /\ (won = true <-> decreases (1 # 10000) s') /\
         exchange E a won b r (epsc (sG s')) x Y2 (s_Y (iS (sI s')))) /\
      (pm (sG s') = true <-> b = true /\ length (s_Y (iS (sI s'))) = length Y2 /\ ib (sI s') <> mlast (sA s')))).
Proof.
  intros TF B R PS. pose proof (reach_inv E SN _ _ _ _ B R) as IV.
  destruct (pass_pre E SN s a s' IV PS) as (s2 & IV2 & ST & H).
  destruct (step_decided E SN s2 a s' IV2 ST) as (_ & EC & NI).
  pose proof (step3 s2 a s' IV2 ST) as S3. pose proof (step_ok E s2 a IV2 (proj2 SN)) as PO. rewrite ST in PO.
  pose proof (sp_calls _ _ _ _ PO) as CL.
  exists (delta (sG s2)), (Yof s2), (pm (sG s2)). split; [|split].
  - destruct H as [(_ & _ & H1 & H2 & _)|(s1 & _ & IM & _ & _ & H1 & _ & H2 & H3 & H4)].
    + left. rewrite EC, H1, NI, H2. auto.
    + (* as in pass_decided *)
      right. pose proof (improve_scal E s1 a) as L. rewrite IM in L.
      destruct L as (L1 & L2 & _ & L4 & _). rewrite EC, NI, L1, H2. split; [lia|].
      rewrite L2, L4, H1. unfold new_radius. rewrite H3. unfold factor_CV, epsilon. split.
      * unfold threshold, new_epsc. rewrite H4. unfold mu, epsilon. destruct (qeqb (pred (sG s)) (-1)) eqn:PQ; qb.
        -- destruct (qltb (e_tolf E) (linf (resid (sl (sG s)) (ince (sN s))))) eqn:FB; qb.
           ++ left. split; [auto|]. split; [|reflexivity]. intros K. apply feasible_iff in K; auto. lra.
           ++ right. left. split; [auto|]. split; [apply feasible_iff; auto|apply smaller_ok].
        -- right. right. split; [auto|reflexivity].
      * destruct (qeqb (pred (sG s)) (-1)) eqn:PQ; qb; [left; split; [auto|apply smaller_ok]|right].
        destruct (qleb (a_glagn1 a) (100 * (1 # 100000))) eqn:GB; qb; [left|right]; (split; [auto|]).
        -- split; [lra|apply smaller_ok].
        -- split; [lra|apply larger_ok].
  - destruct H as [(_ & H0 & H1 & H2 & _)|(s1 & IV1 & IM & HA & HI & H1 & _ & H2 & _)].
    + left. unfold Yof. rewrite H0, H1, NI, H2. split; [lia|auto].
    + right. pose proof (improve_scal E s1 a) as L. rewrite IM in L. destruct L as (L1 & _).
      apply improve3 in IM; auto. destruct IM as (f & new & DF & RP & CC).
      split; [rewrite NI, L1, H2; lia|]. exists f, new. unfold distance_factor, Yof in *. rewrite H1 in DF. rewrite HI in RP.
      split; [exact DF|]. split; [exact RP|]. rewrite CL, CC, HA, <- app_assoc. reflexivity.
  - unfold Yof in *.
    destruct S3 as [S3|(S31 & (won & S32 & S33) & S34)]; [left; auto|right]. split; [auto|]. split.
    + exists won, (ix (sI s2)). destruct IV2 as ((_ & _ & (I1 & _)) & _). split; auto. split; auto. rewrite EC. exact S33.
    + unfold Yof in S34. rewrite S34, !andb_true_iff, negb_true_iff, Nat.eqb_eq, Nat.eqb_neq. tauto.
Qed.
(** ** The slacks after a trial point has become the incumbent *)

Definition slack_rule (a : answers P) (S0 : list Q) (s' : st P) : Prop :=
  ib (sI s') = mlast (sA s') -> e_me E <> 0%nat -> S0 <> [] -> sl (sG s') = e_adj E (a_slplus a) (ince (sN s')).

Lemma new_sl_adj G slp cc : e_me E <> 0%nat -> sl G <> [] -> new_sl E G slp cc = e_adj E slp cc.
Proof. unfold new_sl. destruct (e_me E), (sl G); congruence. Qed.

Lemma replaced4 a A I N G (won : bool) Y' pos x' fxp I' N' G' s' : (ib I < mlast A)%nat ->
  replaced_by_trial E a A I N G won Y' pos x' fxp = Some (I', N', G') ->
  finish_rej a A I' N' G' = Continue s' -> slack_rule a (sl G) s'.
Proof.
  intros LT. unfold replaced_by_trial. destruct (store _ _ _ _ _ _ _) as [S1|] eqn:ST; [|discriminate]. destruct won.
  - destruct (swap_in_Y _ _ _ _ _) as [(S2, x2)|] eqn:SS; [|discriminate].
    intros H; injection H as <- <- <-. unfold finish_rej. destruct (a_exc4 a); [discriminate|]. intros H; injection H as <-.
    intros _ H1 H2. cbn [sG sl sN ince]. apply new_sl_adj; auto.
  - intros H; injection H as <- <- <-. unfold finish_rej. destruct (a_exc4 a); [discriminate|]. intros H; injection H as <-.
    intros H. cbn [sI ib sA] in H. lia.
Qed.

Lemma reject4 a A I N G (won : bool) fxp s' : (ib I < mlast A)%nat ->
  reject E a A I N G won fxp = Continue s' -> slack_rule a (sl G) s'.
Proof.
  intros LT. unfold reject. cbv zeta. destruct (_ && negb won)%bool.
  - destruct (augment_Y _ _ _ _) as (p', Y'). destruct (store _ _ _ _ _ _ _) as [S1|]; [|discriminate].
    unfold finish_rej. destruct (a_exc4 a); [discriminate|]. intros H; injection H as <-.
    intros H. cbn [sI ib sA] in H. lia.
  - assert (RD : forall G', reduce E a A I N G' fxp = Continue s' -> slack_rule a (sl G) s').
    { intros G'. unfold reduce, finish_rej. destruct (_ || _)%bool; [discriminate|]. destruct (a_exc4 a); [discriminate|].
      intros H; injection H as <-. intros H. cbn [sI ib sA] in H. lia. }
    destruct (_ || _)%bool; [|apply RD].
    destruct (include_in_Y _ _ _ _ _ _ _ _ _ (a_L2 a)) as ((Y1, [pos|]), x1).
    + destruct (replaced_by_trial _ _ _ _ _ _ _ _ _ _ _) as [((I', N'), G')|] eqn:RB; [|discriminate].
      intros H. eapply replaced4 in RB; eauto.
    + destruct (include_in_Y _ _ _ _ _ _ _ _ _ (a_L3 a)) as ((Y2, [pos|]), x2); [|apply RD].
      destruct (replaced_by_trial _ _ _ _ _ _ _ _ _ _ _) as [((I', N'), G')|] eqn:RB; [|discriminate].
      intros H. eapply replaced4 in RB; eauto.
Qed.

Lemma accept4 a A I N G rho fxp s' : (ib I < mlast A)%nat ->
  accept E a A I N G rho fxp = Continue s' -> slack_rule a (sl G) s'.
Proof.
  intros LT. unfold accept. cbv zeta.
  assert (NE : forall c1 c2 : list Q, e_me E <> 0%nat -> match e_me E with O => c1 | _ => c2 end = c2)
    by (intros c1 c2 H; destruct (e_me E); congruence).
  destruct (can_augment E (length (s_Y (iS I)))).
  - destruct (augment_Y _ _ _ _) as (p', Y1). destruct (store _ _ _ _ _ _ _) as [S1|]; [|discriminate].
    destruct (swap_in_Y _ _ _ _ _) as [(S2, x2)|]; [|discriminate].
    destruct (a_exc4 a); [discriminate|]. intros H; injection H as <-. intros _ H1 H2. cbn [sG sl sN ince].
    rewrite NE by auto. apply new_sl_adj; auto.
  - destruct (include_in_Y _ _ _ _ _ _ _ _ _ (a_L1 a)) as ((Y1, [pos|]), x1); [|apply reject4; auto].
    destruct (store _ _ _ _ _ _ _) as [S1|]; [|discriminate].
    destruct (swap_in_Y _ _ _ _ _) as [(S2, x2)|]; [|discriminate].
    destruct (a_exc4 a); [discriminate|]. intros H; injection H as <-. intros _ H1 H2. cbn [sG sl sN ince].
    rewrite NE by auto. apply new_sl_adj; auto.
Qed.

Lemma step4 s a s' : Inv E s -> step E s a = Continue s' -> slack_rule a (sl (sG s)) s'.
Proof.
  intros IV ST. pose proof IV as (SO & D & S1 & Z & _).
  assert (SP : 0 < sigma (sG s)) by lra.
  pose proof (step_cases E s a SP) as SC. rewrite ST in SC.
  assert (ML : forall A f c cX, eval_at E (sA s) (a_xnew a) = EDone A f c -> (ib (sI s) < mlast (with_ce A cX))%nat).
  { intros A f c cX EA. destruct SO as (O & (_ & _ & _ & _ & _ & _ & _ & S8 & _) & (_ & I2 & _)).
    apply nth_error_In in I2. apply S8 in I2.
    destruct (eval_at_done _ _ _ _ _ _ O EA) as (_ & _ & _ & ML & _). cbn [with_ce mlast]. lia. }
  pose proof (G2_same E s a) as (_ & _ & _ & G26 & _).
  inversion SC as [ | | | | A f c cX cp EA CE PE H0 | A f c cX cp pr rho EA CE PR PP RH ER LT H0
                  | A f c cX cp pr EA CE PR PP RH H0 ].
  - intros H. cbn [sI ib sA] in H. specialize (ML _ _ _ cX EA). lia.
  - apply accept4 in H0; [|eauto]. cbn [st_G3 sl] in H0. rewrite G26 in H0. exact H0.
  - apply reject4 in H0; [|eauto]. cbn [st_G3 sl] in H0. rewrite G26 in H0. exact H0.
Qed.

Lemma new_slacks k0 d0 s0 s a s' : begins E k0 d0 s0 -> reach E s0 s -> pass E s a = Continue s' ->
  ib (sI s') = mlast (sA s') -> e_me E <> 0%nat -> sl (sG s) <> [] ->
  sl (sG s') = e_adj E (a_slplus a) (ince (sN s')).
Proof.
  intros B R PS. destruct (pass_pre E SN s a s' (reach_inv E SN _ _ _ _ B R) PS) as (s2 & IV2 & ST & H).
  assert (EQ : sl (sG s2) = sl (sG s)).
  { destruct H as [(_ & _ & -> & _)|(s1 & _ & IM & _ & _ & H1 & _)]; auto.
    pose proof (improve_scal E s1 a) as L. rewrite IM in L.
    destruct L as (_ & _ & _ & _ & _ & _ & _ & _ & _ & _ & L11 & _). congruence. }
  rewrite <- EQ. exact (step4 s2 a s' IV2 ST).
Qed.

(** ** When a sufficient decrease is enough *)

Lemma accept5 a A I N G rho fxp s' j y : (2 <= length (s_Y (iS I)))%nat -> nth_error (s_Y (iS I)) j = Some y ->
  1 # 10000000000 < Qabs (a_L1 a j) -> 0 < e_dist E y (a_xnew a) ->
  accept E a A I N G rho fxp = Continue s' -> ib (sI s') = mlast (sA s').
Proof.
  intros LY YJ LJ DJ. unfold accept. cbv zeta.
  destruct (can_augment E (length (s_Y (iS I)))).
  - destruct (augment_Y _ _ _ _) as (p', Y1). destruct (store _ _ _ _ _ _ _) as [S1|]; [|discriminate].
    destruct (swap_in_Y _ _ _ _ _) as [(S2, x2)|]; [|discriminate].
    destruct (a_exc4 a); [discriminate|]. intros H; injection H as <-. reflexivity.
  - destruct (include_in_Y _ _ _ _ _ _ _ _ _ (a_L1 a)) as ((Y1, [pos|]), x1) eqn:I1.
    + destruct (store _ _ _ _ _ _ _) as [S1|]; [|discriminate].
      destruct (swap_in_Y _ _ _ _ _) as [(S2, x2)|]; [|discriminate].
      destruct (a_exc4 a); [discriminate|]. intros H; injection H as <-. reflexivity.
    + exfalso. apply (include_no_best _ _ _ (fun _ => True)) in I1; [|discriminate|apply all_positions].
      pose proof (nth_error_len _ _ _ YJ) as JL. destruct (nth_error_ex (s_Y (iS I)) 0) as (y0 & Y0); [lia|].
      apply (Qlt_not_le _ _ DJ). apply (I1 j); [split; auto|]. exists y, y0. split; auto. split; auto. reflexivity.
Qed.

Lemma kept k0 d0 s0 s a s' j : begins E k0 d0 s0 -> reach E s0 s -> pass E s a = Continue s' ->
  0 < pred (sG s') -> decreases (1 # 10000) s' ->
  (j < length (s_Y (iS (sI s))))%nat -> 1 # 10000000000 < Qabs (a_L1 a j) ->
  (forall k y, nth_error (calls (sA s')) k = Some y -> (S k < length (calls (sA s')))%nat -> 0 < e_dist E y (a_xnew a)) ->
  ib (sI s') = mlast (sA s') /\ ix (sI s') = a_xnew a.
Proof.
  intros B R PS PP DE J LJ NEW. pose proof (reach_inv E SN _ _ _ _ B R) as IV.
  destruct (pass_pre E SN s a s' IV PS) as (s2 & IV2 & ST & H).
  pose proof (step_ok E s2 a IV2 (proj2 SN)) as PO. rewrite ST in PO.
  assert (J2 : (j < length (s_Y (iS (sI s2))))%nat).
  { destruct H as [(_ & -> & _)|(s1 & IV1 & IM & _ & HI & _)]; auto.
    apply improve3 in IM; auto. destruct IM as (f & new & _ & (Y1 & repl & L & _ & _ & _ & _ & _ & _ & _ & PM) & _).
    unfold Yof in *. rewrite HI in L. destruct PM as [->|(k & _ & (L2 & _))]; [|rewrite L2]; lia. }
  destruct (nth_error_ex _ _ J2) as (y & YJ).
  assert (DJ : 0 < e_dist E y (a_xnew a)).
  { destruct IV2 as (((O1 & O2 & O3 & _ & _ & _ & O7 & _) & (_ & _ & _ & _ & _ & _ & _ & _ & S9 & _) & _) & _).
    destruct (S9 j y YJ) as (i & f & _ & XI & _ & FI). destruct (O7 i y f XI FI) as (k & v & cc & CK & _).
    pose proof (nth_error_len _ _ _ CK) as KL. apply (NEW k).
    - rewrite (sp_calls _ _ _ _ PO), nth_error_app1; auto.
    - rewrite (sp_calls _ _ _ _ PO), app_length. cbn. lia. }
  assert (IB : ib (sI s') = mlast (sA s')).
  { pose proof IV2 as (SO & D & S1 & _). assert (SP : 0 < sigma (sG s2)) by lra.
    pose proof (step_cases E s2 a SP) as SC. rewrite ST in SC. pose proof (G2_same E s2 a) as (G21 & _).
    inversion SC as [ | | | | A f c cX cp EA CE PE H0 | A f c cX cp pr rho EA CE PR PQ RH ER LT H0
                    | A f c cX cp pr EA CE PR PQ RH H0 ].
    - exfalso. subst s'. cbn [sG st_G3 pred] in PP. lra.
    - eapply accept5 in H0; eauto. destruct SO as (_ & (SL & _) & _). exact SL.
    - exfalso. assert (SH := reject_shape E a (with_ce A cX) (sI s2) (st_N3 s2 f) (st_G3 E s2 a pr f cp) false (qmin c1e25 f)).
      rewrite H0 in SH. cbn [st_G3 delta] in SH. rewrite G21 in SH.
      destruct (SH D) as (_ & (_ & CP & _ & _ & CM0 & CM & _) & _ & _). cbn [st_G3 pred merit0 merit] in CP, CM0, CM.
      unfold decreases in DE. rewrite CP, CM0, CM in DE. apply (proj2 (qdiv_iff _ _ _ PQ)) in DE.
      apply (Qle_not_lt _ _ DE). exact RH. }
  split; auto.
  destruct (sp_inv _ _ _ _ PO) as ((_ & (_ & _ & _ & _ & _ & _ & _ & _ & S9 & _) & (X0 & I0 & _)) & _).
  destruct (S9 0%nat _ X0) as (i & f & I1 & XI & _). rewrite I0 in I1. injection I1 as <-. rewrite IB in XI.
  destruct (archive_kept E SN _ _ _ _ _ _ B R PS) as (_ & _ & _ & L). congruence.
Qed.
End SetProofs.
