(** Witnesses for the properties of the factorisation updates. *)
From Coq Require Import Reals List Arith Bool Lra Lia.
From Verif Require Import RVec RBool LDL_Model LDL_Spec LDL_Proofs LDL_Blocks.
Import ListNotations.
Open Scope R_scope.

Definition lv (l : list R) : vec := fun i => nth i l 0.
Definition lm (l : list (list R)) : mat := fun i j => nth j (nth i l []) 0.

Ltac small i := repeat (destruct i as [|i]; [|try lia]).
Ltac ev := cbn [nonzero lv lm nth seq filter rk1_loop col_upd d_upd u_upd Nat.eqb Nat.leb andb negb Nat.sub tailm tailv put_tail Nat.add Nat.ltb unitv].
Ltac num := first [lra | field_simplify; lra | intros ?X; field_simplify in X; lra | unfold Rdiv; rewrite ?Rinv_mult; lra].
Ltac pick := match goal with
  | |- context [Reqb ?x ?y] => first [rewrite (proj2 (Reqb_true x y)) by num | rewrite (proj2 (Reqb_false x y)) by num]
  | |- context [Rltb ?x ?y] => first [rewrite (proj2 (Rltb_true x y)) by num | rewrite (proj2 (Rltb_false x y)) by num]
  | |- context [Rleb ?x ?y] => first [rewrite (proj2 (Rleb_true x y)) by num | rewrite (proj2 (Rleb_false x y)) by num]
  end.
Ltac run := ev; repeat (pick; ev).

(** a factor with fill-in: column 0 is coupled to row 1 *)
Definition LA : mat := lm [[1; 0]; [1; 1]].
Definition one2 : vec := lv [1; 1].
Lemma LA_low : unit_lower 2 LA.
Proof. split; [intros i Hi; small i; reflexivity|]. intros i j H. small j; small i; cbn; lra || lia. Qed.
Lemma one2_pos : positive 2 one2.
Proof. intros i Hi. small i; cbn; lra. Qed.

Lemma wit_fill neps slv : exists L' d', ldlrk1 neps slv 2 LA one2 1 (lv [1; 0]) = LdlOk L' d' /\
  ldlt 2 L' d' 1%nat 1%nat = 3 / 2 /\ plus_rank_one (ldlt 2 LA one2) 1 (lv [1; 0]) 1%nat 1%nat = 2.
Proof.
  unfold ldlrk1, nonzero, LA, one2. run. cbv zeta. run.
  do 2 eexists. split; [reflexivity|]. unfold ldlt, plus_rank_one, LA, one2. cbn [rsum]. ev. split; field.
Qed.

Lemma wit_update neps slv : exists L' d', ldlrk1 neps slv 2 LA one2 1 (lv [1; 1]) = LdlOk L' d' /\ no_fill 2 LA (lv [1; 1]).
Proof.
  destruct (rk1_positive neps slv 2 LA one2 1 (lv [1; 1]) ltac:(lra) one2_pos) as (L' & d' & E).
  exists L', d'. split; [exact E|]. intros i k H _ _. small i; cbn; lra.
Qed.

(** a solver that knows one answer for each size *)
Definition knows (cand : nat -> vec) : solver := fun n A b =>
  if forallb (fun i => Reqb (mv n A (cand n) i) (b i)) (seq 0 n) then Some (cand n) else None.
Lemma knows_solves cand : solves_systems (knows cand).
Proof.
  intros n A b x E i Hi. unfold knows in E. destruct (forallb _ _) eqn:F; [|discriminate]. injection E as <-.
  rewrite forallb_forall in F. specialize (F i ltac:(apply in_seq; lia)). apply Reqb_true in F. exact F.
Qed.
Lemma knows_some cand n A b : (forall i, (i < n)%nat -> mv n A (cand n) i = b i) -> knows cand n A b = Some (cand n).
Proof.
  intros H. unfold knows. rewrite (proj2 (forallb_forall _ _)); [reflexivity|].
  intros i Hi. apply in_seq in Hi. apply Reqb_true. apply H. lia.
Qed.

(** false alarm *)
Definition LB : mat := lm [[1; 0; 0]; [1; 1; 0]; [0; -2; 1]].
Definition one3 : vec := lv [1; 1; 1].
Definition uB : vec := lv [1; 0; 2].
Definition slvB : solver := knows (fun _ => lv [-2; 2; 1]).
Lemma LB_low : unit_lower 3 LB.
Proof. split; [intros i Hi; small i; reflexivity|]. intros i j H. small j; small i; cbn; lra || lia. Qed.
Lemma one3_pos : positive 3 one3.
Proof. intros i Hi. small i; cbn; lra. Qed.

Lemma wit_alarm_def p : (exists i, (i < 3)%nat /\ p i <> 0) -> 0 < quad 3 (plus_rank_one (ldlt 3 LB one3) (- (1 / 4)) uB) p.
Proof.
  intros H. set (LT := lm [[1; 0; 0]; [4 / 3; 1; 0]; [- (2 / 3); -2; 1]]). set (dT := lv [3 / 4; 2 / 3; 1]).
  rewrite (quad_ext_mat 3 _ (ldlt 3 LT dT) p).
  - apply ldlt_posdef; [| |exact H].
    + split; [intros i Hi; small i; reflexivity|]. intros i j Hij. small j; small i; cbn; lra || lia.
    + intros i Hi. small i; cbn; lra.
  - intros i j Hi Hj. unfold plus_rank_one, ldlt, LB, one3, uB, LT, dT. cbn [rsum]. small i; small j; ev; field.
Qed.

Lemma wit_alarm neps : 0 <= neps <= 1 / 2 -> exists p, ldlrk1 neps slvB 3 LB one3 (- (1 / 4)) uB = LdlBad LB one3 p /\
  quad 3 (plus_rank_one (ldlt 3 LB one3) (- (1 / 4)) uB) p = 1.
Proof.
  intros H. unfold ldlrk1, nonzero, uB, LB, one3. run. cbv zeta. run.
  unfold slvB. rewrite knows_some.
  - eexists. split; [reflexivity|]. unfold quad, dot, mv, plus_rank_one, ldlt, LB, one3, uB. cbn [rsum]. ev. field.
  - intros i Hi. unfold mv, LB, one3, unitv. cbn [rsum]. small i; ev; field.
Qed.

(** a true alarm: 1 - 2 on the diagonal *)
Lemma wit_direction : exists slv p, solves_systems slv /\ no_fill 2 LA (lv [0; 1]) /\
  ldlrk1 0 slv 2 LA one2 (-2) (lv [0; 1]) = LdlBad LA one2 p.
Proof.
  exists (knows (fun _ => lv [-1; 1])). eexists. split; [apply knows_solves|]. split.
  - intros i k Hik Hu _. small i; small k; cbn in *; lra || lia.
  - unfold ldlrk1, nonzero, LA, one2. run. cbv zeta. run. rewrite knows_some; [reflexivity|].
    intros i Hi. unfold mv, LA, unitv. cbn [rsum]. small i; ev; ring.
Qed.

(** replacing the first unit row *)
Definition LI : mat := lm [[1; 0]; [0; 1]].
Definition dI : vec := lv [1; 2].
Lemma LI_low : unit_lower 2 LI.
Proof. split; [intros i Hi; small i; reflexivity|]. intros i j H. small j; small i; cbn; lra || lia. Qed.
Lemma dI_pos : positive 2 dI.
Proof. intros i Hi. small i; cbn; lra. Qed.
Lemma LI_unit : unit_at 2 0 (ldlt 2 LI dI).
Proof. intros i Hi. unfold ldlt, LI, dI. cbn [rsum]. small i; ev; split; ring. Qed.
Lemma wit_first neps slv : neps < 2 -> exists L' d', ldlup neps slv 2 LI dI 0 (lv [2; 1]) = LdlOk L' d' /\
  ldlt 2 L' d' 0%nat 1%nat = 0 /\ with_row (ldlt 2 LI dI) 0 (lv [2; 1]) 0%nat 1%nat = 1.
Proof.
  intros H. unfold ldlup. cbn [Nat.eqb]. ev. pick. do 2 eexists. split; [reflexivity|].
  unfold ldlt, LI, dI, with_row. cbn [rsum]. ev. split; ring.
Qed.

(** replacing the second *)
Definition dJ : vec := lv [2; 1].
Lemma dJ_pos : positive 2 dJ.
Proof. intros i Hi. small i; cbn; lra. Qed.
Lemma LJ_unit : unit_at 2 1 (ldlt 2 LI dJ).
Proof. intros i Hi. unfold ldlt, LI, dJ. cbn [rsum]. small i; ev; split; ring. Qed.
Lemma wit_insert : exists slv L' d', solves_systems slv /\ ldlup 0 slv 2 LI dJ 1 (lv [1; 1]) = LdlOk L' d' /\
  (forall s, remainder 2 1 LI (lv [1; 1]) s -> no_fill 0 (below 1 LI) s).
Proof.
  exists (knows (fun _ => lv [1])). do 2 eexists. split; [apply knows_solves|]. split.
  - unfold ldlup. cbn [Nat.eqb]. rewrite knows_some.
    + unfold dJ, dot. cbn [rsum]. cbv zeta. ev. pick. unfold ldlrk1, nonzero. cbn [Nat.sub]. ev. pick. reflexivity.
    + intros i Hi. unfold mv, LI. cbn [rsum]. small i; ev; ring.
  - intros s _ i k H. lia.
Qed.
Lemma wit_insert_bad : exists slv p, solves_systems slv /\ ldlup 0 slv 2 LI dJ 1 (lv [2; 1]) = LdlBad LI dJ p /\
  (forall s, remainder 2 1 LI (lv [2; 1]) s -> no_fill 0 (below 1 LI) s).
Proof.
  exists (fun n A b => if Reqb (A 0%nat 0%nat) 1 then if (n =? 1)%nat then Some b else None else None). eexists. split.
  - intros n A b x E i Hi. destruct (Reqb_spec (A 0%nat 0%nat) 1) as [X|X]; [|discriminate].
    destruct (Nat.eqb_spec n 1); [|discriminate]. injection E as <-. subst n. unfold mv. cbn [rsum].
    destruct i as [|i]; [|lia]. rewrite X. ring.
  - split.
    + unfold ldlup, LI. ev. pick. ev. unfold dJ, dot. cbn [rsum]. cbv zeta. ev. repeat pick. reflexivity.
    + intros s _ i k H. lia.
Qed.

(** removing the first row of a tridiagonal matrix *)
Definition LC : mat := lm [[1; 0; 0]; [1; 1; 0]; [0; 1; 1]].
Lemma LC_low : unit_lower 3 LC.
Proof. split; [intros i Hi; small i; reflexivity|]. intros i j H. small j; small i; cbn; lra || lia. Qed.
Lemma wit_remove neps slv : exists L' d', ldldown neps slv 3 LC one3 0 = Some (L', d') /\
  ldlt 3 L' d' 2%nat 2%nat = 3 / 2 /\ with_row (ldlt 3 LC one3) 0 (unitv 0) 2%nat 2%nat = 2.
Proof.
  unfold ldldown, ldlrk1, nonzero, LC, one3. run. cbv zeta. run. do 2 eexists. split; [reflexivity|].
  unfold ldlt, with_row, block_down. cbn [rsum]. ev. split; field.
Qed.

Lemma w_fill_refuted : forall neps slv, exists n L d u L' d', unit_lower n L /\ positive n d /\
  ldlrk1 neps slv n L d 1 u = LdlOk L' d' /\ ~ same_mat n (ldlt n L' d') (plus_rank_one (ldlt n L d) 1 u).
Proof.
  intros neps slv. exists 2%nat, LA, one2, (lv [1; 0]). destruct (wit_fill neps slv) as (L' & d' & E & A & B).
  exists L', d'. split; [exact LA_low|]. split; [exact one2_pos|]. split; [exact E|].
  intros H. specialize (H 1%nat 1%nat ltac:(lia) ltac:(lia)). rewrite A, B in H. lra.
Qed.

Lemma w_alarm_refuted : forall neps, 0 <= neps <= 1 / 2 -> exists slv n L d alpha u p,
  solves_systems slv /\ unit_lower n L /\ positive n d /\
  (forall x, (exists i, (i < n)%nat /\ x i <> 0) -> 0 < quad n (plus_rank_one (ldlt n L d) alpha u) x) /\
  ldlrk1 neps slv n L d alpha u = LdlBad L d p /\ quad n (plus_rank_one (ldlt n L d) alpha u) p = 1.
Proof.
  intros neps H. exists slvB, 3%nat, LB, one3, (- (1 / 4)), uB. destruct (wit_alarm neps H) as (p & A & B). exists p.
  split; [apply knows_solves|]. split; [exact LB_low|]. split; [exact one3_pos|]. split; [exact wit_alarm_def|]. split; assumption.
Qed.

Lemma w_first_refuted : forall neps slv, neps < 2 -> exists n L d g L' d', unit_lower n L /\ positive n d /\ unit_at n 0 (ldlt n L d) /\
  ldlup neps slv n L d 0 g = LdlOk L' d' /\ ~ same_mat n (ldlt n L' d') (with_row (ldlt n L d) 0 g).
Proof.
  intros neps slv H. exists 2%nat, LI, dI, (lv [2; 1]). destruct (wit_first neps slv H) as (L' & d' & E & A & B).
  exists L', d'. split; [exact LI_low|]. split; [exact dI_pos|]. split; [exact LI_unit|]. split; [exact E|].
  intros Q. specialize (Q 0%nat 1%nat ltac:(lia) ltac:(lia)). rewrite A, B in Q. lra.
Qed.

Lemma w_remove_refuted : forall neps slv, exists n j L d L' d', (j < n)%nat /\ unit_lower n L /\ positive n d /\
  ldldown neps slv n L d j = Some (L', d') /\ ~ same_mat n (ldlt n L' d') (with_row (ldlt n L d) j (unitv j)).
Proof.
  intros neps slv. exists 3%nat, 0%nat, LC, one3. destruct (wit_remove neps slv) as (L' & d' & E & A & B).
  exists L', d'. split; [lia|]. split; [exact LC_low|]. split; [exact one3_pos|]. split; [exact E|].
  intros Q. specialize (Q 2%nat 2%nat ltac:(lia) ltac:(lia)). rewrite A, B in Q. lra.
Qed.
