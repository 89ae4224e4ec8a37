(** Proofs about the test problems. *)
From Coq Require Import Reals List Arith Lra Lia Psatz.
From Verif Require Import RVec RBool Tst_Model Tst_Spec.
Import ListNotations.
Open Scope R_scope.

Lemma t20_big : 1000 <= t20.
Proof. unfold t20. replace (10 ^ 20) with (10 ^ 3 * 10 ^ 17) by (rewrite <- pow_add; reflexivity).
  assert (1 <= 10 ^ 17) by (apply pow_R1_Rle; lra). lra. Qed.
Local Opaque t20.

Lemma all_cons {A} (P : A -> Prop) a l : (forall q, In q (a :: l) -> P q) <-> P a /\ (forall q, In q l -> P q).
Proof. split; [intros H; split; [apply H; left; reflexivity|intros q I; apply H; right; exact I]|intros [H1 H2] q [<-|I]; [exact H1|apply H2, I]]. Qed.
Lemma all_nil {A} (P : A -> Prop) : (forall q, In q (@nil A) -> P q) <-> True.
Proof. split; [trivial|intros _ q []]. Qed.
Lemma f2_cons {A B} (P : A -> B -> Prop) a l b m : Forall2 P (a :: l) (b :: m) <-> P a b /\ Forall2 P l m.
Proof. split; [intros H; inversion H; subst; auto|intros [H1 H2]; constructor; assumption]. Qed.

Ltac adm H :=
  destruct H as (d & c & ED & L & [B1 B2] & EC & CE & CI); cbn in ED; injection ED as <-; cbn in EC; injection EC as <-;
  cbn [d_n d_me d_lx d_ux firstn skipn repeat] in *;
  repeat match goal with x : list R |- _ => destruct x as [|? x]; try discriminate L end;
  repeat rewrite all_cons in CE; repeat rewrite all_cons in CI; repeat rewrite f2_cons in B1; repeat rewrite f2_cons in B2;
  cbn [at_least at_most pt nth] in *; unfold pt in *; cbn [nth] in *.

Ltac feas := eexists _, _; split; [reflexivity|]; cbn [d_n d_me d_lx d_ux repeat c_problem];
  split; [reflexivity|]; split; [split; repeat (apply Forall2_cons; [cbn [at_least at_most]; pose proof t20_big; first [exact I|lra]|]); apply Forall2_nil|]; split; [reflexivity|];
  unfold pt; cbn [nth firstn skipn]; rewrite ?all_cons, ?all_nil; repeat split; try lra; try nra.

Ltac start := split; [feas|]; split; [unfold pt; cbn [f_problem nth]; f_equal; try lra|];
  intros x H; adm H; eexists; split; [reflexivity|]; unfold pt; cbn [nth].

Ltac same := repeat (apply (f_equal2 (@cons R)); [try lra|]); try reflexivity.

Lemma min1 : optimal 1 [1.95; 0.2625] (-3.9096875).
Proof.
  start. destruct CE as [C1 _], B1 as (L1 & _). assert (r0 = (3 - r) / 4) by lra. subst r0.
  set (t := r - 1.95) in *. assert (T : 0 <= t) by (unfold t; lra). replace r with (t + 1.95) in * by (unfold t; lra). split; [nra|].
  intros E. assert (t = 0) by nra. same.
Qed.

Lemma min2 : optimal 2 [1 / 3; 2 / 3] (2 / 3).
Proof.
  start. destruct CE as [C1 _]. assert (r0 = 1 - r) by lra. subst r0.
  assert (I : 2 * r ^ 2 + (1 - r) ^ 2 = 2 / 3 + 3 * (r - 1 / 3) ^ 2) by field. rewrite I. pose proof (pow2_ge_0 (r - 1 / 3)). split; [lra|].
  intros E. assert (Z : r - 1 / 3 = 0) by (apply Rsqr_0_uniq; unfold Rsqr; lra). same.
Qed.

Lemma min3 : optimal 3 [-0.5; 0; 0.5] 0.5.
Proof.
  start. destruct CE as (C1 & C2 & _), B1 as (L1 & L2 & _). assert (r0 = 0) by lra. subst r0.
  assert (r1 = 1 / 2) by lra. assert (r = - 1 / 2) by lra. subst. split; [lra|]. intros _. same.
Qed.

Lemma min4 : optimal 4 [-0.5; 0; 0.5; 1] 1.5.
Proof.
  start. destruct CE as (C1 & C2 & C3 & _). assert (r2 = 1). { assert (F : (r2 - 1) * (r2 * r2 + r2 + 1) = 0) by lra.
    apply Rmult_integral in F. destruct F; [lra|nra]. } subst r2.
  assert (r1 = (1 - r0) / 2) by lra. assert (r = - (1 + r0) / 2) by lra. subst r r1.
  assert (I : (- (1 + r0) / 2) ^ 2 + r0 ^ 2 + ((1 - r0) / 2) ^ 2 + 1 = 1.5 + 1.5 * r0 ^ 2) by lra. rewrite I.
  pose proof (pow2_ge_0 r0). split; [lra|]. intros E. assert (Z : r0 = 0) by (apply Rsqr_0_uniq; unfold Rsqr; lra). subst. same.
Qed.

Lemma root_sq : sqrt 17.280975 * sqrt 17.280975 = 17.280975.
Proof. apply sqrt_sqrt. lra. Qed.
Lemma root_lo : 4 <= sqrt 17.280975 <= 5.
Proof. pose proof root_sq. pose proof (sqrt_pos 17.280975). split; nra. Qed.

Lemma min10 : optimal 10 [14.095; 5 - sqrt 17.280975] (4.095 ^ 3 - (15 + sqrt 17.280975) ^ 3).
Proof.
  pose proof root_sq as Q. pose proof root_lo as P. set (w := sqrt 17.280975) in *. clearbody w.
  start; try nra. destruct CI as (C1 & C2 & _).
  assert (X : 14.095 <= r) by lra.
  assert (Y : 5 - w <= r0). { assert ((r0 - 5) ^ 2 <= w * w) by nra. nra. }
  assert (A1 : (r - 10) ^ 3 = 4.095 ^ 3 + (r - 14.095) * ((r - 10) ^ 2 + (r - 10) * 4.095 + 4.095 ^ 2)) by lra.
  assert (A2 : (r0 - 20) ^ 3 = - (15 + w) ^ 3 + (r0 - (5 - w)) * ((r0 - 20) ^ 2 - (r0 - 20) * (15 + w) + (15 + w) ^ 2)) by ring.
  assert (G1 : 0 < (r - 10) ^ 2 + (r - 10) * 4.095 + 4.095 ^ 2) by nra.
  assert (G2 : 0 < (r0 - 20) ^ 2 - (r0 - 20) * (15 + w) + (15 + w) ^ 2) by nra.
  rewrite A1, A2. set (u := _ + _ + 4.095 ^ 2) in *. set (z := (r0 - 20) ^ 2 - _ + _) in *. clearbody u z.
  assert (H1 : 0 <= (r - 14.095) * u) by (apply Rmult_le_pos; lra).
  assert (H2 : 0 <= (r0 - (5 - w)) * z) by (apply Rmult_le_pos; lra). split; [lra|].
  intros E. assert (E1 : (r - 14.095) * u = 0) by lra. assert (E2 : (r0 - (5 - w)) * z = 0) by lra.
  apply Rmult_integral in E1. apply Rmult_integral in E2. destruct E1, E2; try lra. same.
Qed.

Lemma min11 : optimal 11 [2; 0] (-99.96).
Proof.
  start. destruct B1 as (L1 & _). pose proof (pow2_ge_0 r0). split; [nra|]. intros E. assert (r = 2) by nra. subst r.
  assert (Z : r0 = 0) by (apply Rsqr_0_uniq; unfold Rsqr; lra). subst. same.
Qed.

Lemma min12 : optimal 12 [4 / 3; 7 / 9; 4 / 9] (1 / 9).
Proof.
  start. destruct CI as (C1 & _).
  assert (I : 9 - 8 * r - 6 * r0 - 4 * r1 + 2 * r ^ 2 + 2 * r0 ^ 2 + r1 ^ 2 + 2 * r * r0 + 2 * r * r1 =
    1 / 9 + 2 / 9 * (3 - r - r0 - 2 * r1) + (r - 4 / 3 + (r0 - 7 / 9)) ^ 2 + (r - 4 / 3 + (r1 - 4 / 9)) ^ 2 + (r0 - 7 / 9) ^ 2) by field.
  rewrite I. pose proof (pow2_ge_0 (r - 4 / 3 + (r0 - 7 / 9))). pose proof (pow2_ge_0 (r - 4 / 3 + (r1 - 4 / 9))). pose proof (pow2_ge_0 (r0 - 7 / 9)).
  split; [lra|]. intros E.
  assert (Z1 : r0 - 7 / 9 = 0) by (apply Rsqr_0_uniq; unfold Rsqr; lra).
  assert (Z2 : r - 4 / 3 + (r0 - 7 / 9) = 0) by (apply Rsqr_0_uniq; unfold Rsqr; lra).
  assert (Z3 : r - 4 / 3 + (r1 - 4 / 9) = 0) by (apply Rsqr_0_uniq; unfold Rsqr; lra). same.
Qed.

Lemma min13 : optimal 13 [3 / 11; 23 / 11; 0; 6 / 11] (- (103 / 22)).
Proof.
  start. destruct CI as (C1 & _), B1 as (_ & _ & L3 & _).
  assert (I : r ^ 2 + 0.5 * r0 ^ 2 + r1 ^ 2 + 0.5 * r2 ^ 2 - r * r1 + r1 * r2 - r - 3 * r0 + r1 - r2 =
    - (103 / 22) + 5 / 11 * (5 - r - 2 * r0 - r1 - r2) + 19 / 11 * r1 +
    ((r - 3 / 11 - r1 / 2) ^ 2 + 1 / 2 * (r0 - 23 / 11) ^ 2 + 1 / 2 * (r2 - 6 / 11 + r1) ^ 2 + 1 / 4 * r1 ^ 2)) by lra.
  rewrite I. pose proof (pow2_ge_0 (r - 3 / 11 - r1 / 2)). pose proof (pow2_ge_0 (r0 - 23 / 11)). pose proof (pow2_ge_0 (r2 - 6 / 11 + r1)). pose proof (pow2_ge_0 r1).
  split; [lra|]. intros E.
  assert (Z1 : r1 = 0) by (apply Rsqr_0_uniq; unfold Rsqr; lra).
  assert (Z2 : r0 - 23 / 11 = 0) by (apply Rsqr_0_uniq; unfold Rsqr; lra).
  assert (Z3 : r2 - 6 / 11 + r1 = 0) by (apply Rsqr_0_uniq; unfold Rsqr; lra).
  assert (Z4 : r - 3 / 11 - r1 / 2 = 0) by (apply Rsqr_0_uniq; unfold Rsqr; lra). same.
Qed.

Lemma min14 : optimal 14 [0; 3; 0; 4] (-15).
Proof.
  start. destruct CI as (C1 & C2 & C3 & C4 & C5 & C6 & _), B1 as (L1 & L2 & L3 & L4 & _).
  assert (I : r - r0 - r1 - r * r1 + r * r2 + r0 * r1 - r0 * r2 = - ((r0 - r) * (1 - r1 + r2)) - r1) by ring. rewrite I.
  assert (A : -3 <= r0 - r <= 3) by lra. set (B := 1 - r1 + r2). assert (HB : B <= 5 - 3 / 2 * r1) by (unfold B; lra).
  destruct (Rle_or_lt 0 B) as [Bp|Bn].
  - assert ((r0 - r) * B <= 3 * B) by (apply Rmult_le_compat_r; lra). split; [lra|]. intros E.
    assert (r1 = 0) by lra. assert (B = 5) by lra. rewrite H1 in *. assert (r0 - r = 3) by lra. unfold B in *. same.
  - assert ((r0 - r) * B <= -3 * B) by nra. unfold B in *. split; [lra|intros E; lra].
Qed.

Lemma rosen a b : 0 <= (1 - a) ^ 2 + 100 * (b - a ^ 2) ^ 2 /\ ((1 - a) ^ 2 + 100 * (b - a ^ 2) ^ 2 = 0 -> a = 1 /\ b = 1).
Proof.
  pose proof (pow2_ge_0 (1 - a)). pose proof (pow2_ge_0 (b - a ^ 2)). split; [lra|]. intros E.
  assert (Z1 : 1 - a = 0) by (apply Rsqr_0_uniq; unfold Rsqr; lra). assert (Z2 : b - a ^ 2 = 0) by (apply Rsqr_0_uniq; unfold Rsqr; lra).
  assert (a = 1) by lra. subst a. lra.
Qed.

Lemma min15 : optimal 15 [1; 1] 0.
Proof. start. destruct (rosen r r0) as [R1 R2]. split; [exact R1|]. intros E. destruct (R2 E). subst. reflexivity. Qed.
Lemma min16 : optimal 16 [1; 1] 0.
Proof. start. destruct (rosen r r0) as [R1 R2]. split; [exact R1|]. intros E. destruct (R2 E). subst. reflexivity. Qed.

Lemma minima p s v : solution p s v -> optimal p s v.
Proof.
  intros []; [apply min1|apply min2|apply min3|apply min4|apply min10|apply min11|apply min12|apply min13|apply min14|apply min15|apply min16].
Qed.

(** ** Dimensions, bounds, starting points *)
Ltac problems H := do 17 (try (match goal with q : nat |- _ => destruct q; [try discriminate H|] end)); try discriminate H.

Lemma known p : problem_data p <> None <-> In p [1; 2; 3; 4; 5; 6; 7; 10; 11; 12; 13; 14; 15; 16]%nat.
Proof.
  split.
  - intros H. destruct (problem_data p) as [d|] eqn:E; [clear H|congruence]. problems E; cbn; tauto.
  - intros H. cbn in H. repeat (destruct H as [<-|H]; [discriminate|]). destruct H.
Qed.

Lemma kinds p d : problem_data p = Some d ->
  In (p, d_me d, d_mi d) [(1, 1, 0); (2, 1, 0); (3, 2, 0); (4, 3, 0); (5, 3, 0); (6, 0, 0); (7, 8, 0); (10, 0, 2); (11, 0, 1);
    (12, 0, 1); (13, 0, 3); (14, 0, 6); (15, 2, 1); (16, 1, 2)]%nat.
Proof. intros E. problems E; injection E as <-; cbn [d_me d_mi In]; repeat (first [left; reflexivity | right]). Qed.

Lemma dimensions p d : problem_data p = Some d ->
  (1 <= d_n d)%nat /\ length (d_x0 d) = d_n d /\ length (d_lx d) = d_n d /\ length (d_ux d) = d_n d /\
  Forall2 bounds_ordered (d_lx d) (d_ux d) /\
  forall x, (exists y, f_problem p x = Some y) /\ exists c, c_problem p x = Some c /\ length c = (d_me d + d_mi d)%nat.
Proof.
  intros H. pose proof t20_big. problems H; injection H as <-; cbn [d_n d_x0 d_lx d_ux d_me d_mi];
  (split; [lia|]; split; [reflexivity|]; split; [reflexivity|]; split; [reflexivity|]; split;
   [cbn [repeat]; repeat (apply Forall2_cons; [cbn [bounds_ordered]; first [exact I|lra]|]); apply Forall2_nil
   |intros x; split; [eexists; reflexivity|eexists; split; reflexivity]]).
Qed.

Lemma unknown p x : problem_data p = None <-> f_problem p x = None /\ c_problem p x = None.
Proof.
  split.
  - intros H. problems H; split; reflexivity.
  - intros [H _]. problems H; reflexivity.
Qed.

Lemma starts11 d : problem_data 11 = Some d -> ~ in_box (d_lx d) (d_ux d) (d_x0 d).
Proof. intros H [B _]. injection H as <-. cbn in B. rewrite f2_cons in B. cbn in B. lra. Qed.

Lemma starts p d : problem_data p = Some d -> (in_box (d_lx d) (d_ux d) (d_x0 d) <-> p <> 11%nat).
Proof.
  intros H. destruct (Nat.eq_dec p 11) as [->|N].
  - split; [intros B; exfalso; exact (starts11 d H B)|intros N; exfalso; apply N; reflexivity].
  - split; [intros _; exact N|intros _]. pose proof t20_big. problems H; try (exfalso; apply N; reflexivity); injection H as <-; cbn [d_x0 d_lx d_ux];
    (split; cbn [repeat]; repeat (apply Forall2_cons; [cbn [at_least at_most]; first [exact I|lra]|]); apply Forall2_nil).
Qed.

Lemma bounded_unique ls us k k' : bounded_count ls us k -> bounded_count ls us k' -> k = k'.
Proof.
  intros H. revert k'. induction H as [|l u ls us k Y H IH|l u ls us k N1 N2 H IH]; intros k' G; inversion G; subst; try tauto; auto.
Qed.

Lemma real_t20 : ~ real_bound (Fin t20) /\ ~ real_bound (Fin (- t20)).
Proof. unfold real_bound. change (10 ^ 20) with t20. lra. Qed.
Lemma real_small a : -1000 < a < 1000 -> real_bound (Fin a).
Proof. unfold real_bound. change (10 ^ 20) with t20. pose proof t20_big. lra. Qed.
Ltac cnt := repeat first [apply bc_nil | apply bc_yes; [first [left; apply real_small; lra|right; apply real_small; lra]|]
  | apply bc_no; [first [exact (fun H => H)|apply real_t20]|first [exact (fun H => H)|apply real_t20]|]].

Lemma counts p d : problem_data p = Some d ->
  bounded_count (d_lx d) (d_ux d) (if existsb (Nat.eqb p) [10; 11; 15; 16]%nat then 2 else d_nb d).
Proof.
  intros H. problems H; injection H as <-; cbn [existsb Nat.eqb orb d_lx d_ux d_nb repeat]; cnt.
Qed.

Lemma nb_iff p d : problem_data p = Some d -> (bounded_count (d_lx d) (d_ux d) (d_nb d) <-> ~ In p [10; 11; 15; 16]%nat).
Proof.
  intros H. pose proof (counts p d H) as C. destruct (existsb (Nat.eqb p) [10; 11; 15; 16]%nat) eqn:E.
  - apply existsb_exists in E. destruct E as (q & I & E). apply Nat.eqb_eq in E. subst q. split; [|tauto].
    intros G. pose proof (bounded_unique _ _ _ _ C G) as N. exfalso. cbn in I. destruct I as [<-|[<-|[<-|[<-|[]]]]]; injection H as <-; discriminate N.
  - split; [|intros _; exact C]. intros _ I. assert (T : existsb (Nat.eqb p) [10; 11; 15; 16]%nat = true).
    { apply existsb_exists. exists p. split; [exact I|apply Nat.eqb_refl]. } rewrite T in E. discriminate E.
Qed.

(** ** Multipliers expected by the tests *)
Lemma mult1 a b : exists y c, f_problem 1 (pt [a; b]) = Some y /\ c_problem 1 (pt [a; b]) = Some [c] /\
  -3.9096875 <= y + 0.7375 * c + -0.6375 * (a - 1.95).
Proof.
  eexists _, _. split; [reflexivity|]. split; [reflexivity|]. unfold pt. cbn [nth].
  pose proof (pow2_ge_0 (a - 1.95)). pose proof (pow2_ge_0 (b - 0.2625)). lra.
Qed.
Lemma mult2 a b : exists y c, f_problem 2 (pt [a; b]) = Some y /\ c_problem 2 (pt [a; b]) = Some [c] /\
  2 / 3 <= y + - (4 / 3) * c.
Proof.
  eexists _, _. split; [reflexivity|]. split; [reflexivity|]. unfold pt. cbn [nth].
  pose proof (pow2_ge_0 (a - 1 / 3)). pose proof (pow2_ge_0 (b - 2 / 3)). lra.
Qed.
Lemma mult3 a b e : exists y c1 c2, f_problem 3 (pt [a; b; e]) = Some y /\ c_problem 3 (pt [a; b; e]) = Some [c1; c2] /\
  0.5 <= y + 2 * c1 + -1 * c2.
Proof.
  eexists _, _, _. split; [reflexivity|]. split; [reflexivity|]. unfold pt. cbn [nth].
  pose proof (pow2_ge_0 (a + 1 / 2)). pose proof (pow2_ge_0 b). pose proof (pow2_ge_0 (e - 1 / 2)). lra.
Qed.
Lemma multipliers a b e :
  (exists y c, f_problem 1 (pt [a; b]) = Some y /\ c_problem 1 (pt [a; b]) = Some [c] /\
    -3.9096875 <= y + 0.7375 * c + -0.6375 * (a - 1.95)) /\
  (exists y c, f_problem 2 (pt [a; b]) = Some y /\ c_problem 2 (pt [a; b]) = Some [c] /\ 2 / 3 <= y + - (4 / 3) * c) /\
  (exists y c1 c2, f_problem 3 (pt [a; b; e]) = Some y /\ c_problem 3 (pt [a; b; e]) = Some [c1; c2] /\ 0.5 <= y + 2 * c1 + -1 * c2).
Proof. split; [apply mult1|split; [apply mult2|apply mult3]]. Qed.
