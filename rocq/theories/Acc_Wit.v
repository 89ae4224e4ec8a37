(** Instances for the theorems about the accuracy of the models. *)
From Coq Require Import Reals Lra Psatz Lia List Arith Bool ZArith QArith Qreals.
From Coq Require Lqa.
From Verif Require Import QB Book_Model Book_Spec Book_Wit Main_Model Main_Spec Main_Wit Ver_Spec Ver_Wit.
From Verif Require Import RVec RBool Tri Poly_Model Poly_Spec Poly_Proofs Int_Model Int_Spec Int_Proofs Int_Wit
  MS_Model MS_Spec MS_Proofs MS_Wit New_Model New_Spec New_Proofs New_Wit Acc_Model Acc_Spec Acc_Proofs.
Import ListNotations.
Open Scope R_scope.

(** ** minimum norm models of a linear function: points 0 and h *)
Definition Yh (h : R) : nat -> vec := fun j _ => INR j * h.
Definition bh (h : R) : built := mkbuilt Q5 R5 (Yh h 0) (scale_vec 1 (/ scaleY 1 2 (Yh h))).

Lemma scaleYh h : 0 < h -> scaleY 1 2 (Yh h) = h.
Proof.
  intros H. unfold scaleY. cbn [seq fold_left]. rewrite !norm1. unfold vsub, Yh. cbn [INR].
  rewrite Rmult_0_l, Rminus_0_r, Rabs_R0, (Rmax_left 0 0) by lra. rewrite Rmult_1_l, Rminus_0_r, Rabs_pos_eq by lra. apply Rmax_right. lra.
Qed.

Lemma h_case h : 0 < h -> regular_case slv0 pinv0 qr5 ill0 cure0 2 true 1 2 (Yh h) (bh h).
Proof.
  intros HH.
  assert (S5 : sqrt 5 * sqrt 5 = 5) by (apply sqrt_def; lra).
  assert (P5 : sqrt 5 <> 0) by (intros E; rewrite E in S5; lra).
  assert (I5 : / sqrt 5 * / sqrt 5 = / 5) by (rewrite <- Rinv_mult, S5; reflexivity).
  assert (M5 : / sqrt 5 * sqrt 5 = 1) by (apply Rinv_l; assumption).
  assert (HI : h * / h = 1) by (apply Rinv_r; lra).
  split; [|split; [exact slv0_exact|split; [exact pinv0_exact|split; [|split]]]].
  - split; [lia|]. split; [lia|]. split; [left; right; left; reflexivity|]. intros _. vm_compute. lia.
  - unfold build. change (shifts true 2) with true. cbn [andb]. unfold Reqb.
    destruct (Req_EM_T (scaleY 1 2 (Yh h)) 0) as [E|E]; [rewrite scaleYh in E; lra|]. reflexivity.
  - unfold exactly_built. change (eff_mode 2 1 2) with 2%nat. cbn [to_factor]. split; [reflexivity|].
    change (full 1) with 3%nat. unfold qr5, pts. change (shifts true 2) with true. cbn match. rewrite scaleYh by exact HH. split; [|split].
    + intros i j Hi Hj. destruct i as [|[|[|i]]], j as [|[|j]]; try lia; cbn; unfold zmat, Q5, R5, Yh; cbn; unfold Rdiv; nra.
    + intros i j Hi Hj. destruct i as [|[|i]], j as [|[|j]]; try lia; cbn; unfold Q5, idm; cbn; unfold Rdiv; nra.
    + intros i j Hi Hj L. destruct i as [|[|i]], j as [|[|j]]; try lia; reflexivity.
  - unfold poised. change (2 <? unknowns 2 1 2)%nat with true. cbn match. intros c H.
    change (unknowns 2 1 2) with 3%nat in H.
    pose proof (H (unitv 0) (fun _ => 1)) as A. pose proof (H (unitv 1) INR) as B. clear H.
    assert (E1 : rsum 2 (fun j => c j * 1) = 0) by (apply A; intros j Hj; apply const_value; vm_compute; lia).
    assert (E2 : rsum 2 (fun j => c j * INR j) = 0).
    { apply B. intros j Hj. unfold value, evalP_shift, evalP. cbn [bh b_base b_scale evalZ]. rewrite scaleYh by exact HH. cbn. f_equal.
      unfold Yh, unitv, scale_vec. cbn. destruct j as [|[|j]]; cbn; [lra|lra|lia]. }
    cbn in E1, E2. intros j Hj. destruct j as [|[|j]]; [lra|lra|lia].
Qed.

(** value of a polynomial on this set *)
Lemma h_value h P x : 0 < h -> value true 1 3 P (bh h) x =
  Some (P 0%nat + P 1%nat * (x 0%nat / h) + P 2%nat * (/ 2 * (x 0%nat / h * (x 0%nat / h)))).
Proof.
  intros HH. unfold value, evalP_shift, evalP, bh. cbn [b_base b_scale]. rewrite scaleYh by exact HH. unfold scale_vec, Yh. cbn. f_equal. unfold Rdiv. ring.
Qed.

Definition h_L : vec := match computeLj slv0 pinv0 2 1 2 Q5 R5 1 with Some (_, L) => L | None => vzero end.
Definition h_Lam : R := Rabs (h_L 0%nat) + Rabs (h_L 1%nat) + Rabs (h_L 2%nat).

Lemma h_bounded h : 0 < h -> lagrange_bounded slv0 pinv0 2 true 1 2 (bh h) (Yh h) h_Lam h.
Proof.
  intros HH. pose proof (Rinv_0_lt_compat h HH) as IH. split.
  - intros j Hj. rewrite norm1. unfold vsub, Yh. destruct j as [|[|j]]; [| |lia]; cbn [INR];
      rewrite ?Rmult_0_l, ?Rmult_1_l, ?Rminus_0_r; [rewrite Rabs_R0|rewrite Rabs_pos_eq]; lra.
  - intros j Hj. assert (j = 1%nat) as -> by lia. exists 3%nat, h_L. split; [reflexivity|].
    intros x Hx. rewrite h_value by exact HH. eexists. split; [reflexivity|].
    rewrite norm1 in Hx. unfold vsub, Yh in Hx. cbn [INR] in Hx. rewrite Rmult_0_l, Rminus_0_r in Hx.
    assert (Z : Rabs (x 0%nat / h) <= 1).
    { unfold Rdiv. rewrite Rabs_mult, (Rabs_pos_eq (/ h)) by lra. apply Rmult_le_reg_r with h; [exact HH|].
      rewrite Rmult_assoc, Rinv_l by lra. lra. }
    set (z := x 0%nat / h) in *. unfold h_Lam.
    pose proof (Rabs_pos (h_L 1%nat)) as P1. pose proof (Rabs_pos (h_L 2%nat)) as P2. pose proof (Rabs_pos z) as P3.
    eapply Rle_trans; [apply Rabs_triang|]. rewrite Rabs_mult.
    assert (T1 : Rabs (h_L 0%nat + h_L 1%nat * z) <= Rabs (h_L 0%nat) + Rabs (h_L 1%nat) * Rabs z).
    { rewrite <- Rabs_mult. apply Rabs_triang. }
    assert (T2 : Rabs (/ 2 * (z * z)) <= 1).
    { rewrite !Rabs_mult, (Rabs_pos_eq (/ 2)) by lra. nra. }
    nra.
Qed.

Lemma h_grad h : 0 < h -> exists P, computeP slv0 pinv0 2 1 2 Q5 R5 (fun j => Yh h j 0%nat) = Some (3%nat, P) /\
  grad_at_first true 1 3 P (bh h) (Yh h) 0%nat = 4 / 5.
Proof.
  intros HH.
  assert (S5 : sqrt 5 * sqrt 5 = 5) by (apply sqrt_def; lra).
  assert (P5 : 0 < sqrt 5) by (apply sqrt_lt_R0; lra).
  assert (TR : triangle 2 (tr R5)).
  { split.
    - left. intros i j Hi Hj L. destruct i as [|[|i]], j as [|[|j]]; try lia; reflexivity.
    - intros i Hi. unfold tr, R5. destruct i as [|[|i]]; [lra|lra|lia]. }
  destruct (slv0_exact 2%nat (tr R5) (fun i _ => Yh h i 0%nat) TR) as (X & EX & SX).
  unfold computeP. change (eff_mode 2 1 2) with 2%nat. cbn match. change (full 1) with 3%nat. rewrite EX. eexists. split; [reflexivity|].
  pose proof (SX 0%nat 0%nat ltac:(lia)) as S0. pose proof (SX 1%nat 0%nat ltac:(lia)) as S1.
  cbn [rsum] in S0, S1. unfold tr, R5, Yh in S0, S1. cbn [INR] in S0, S1.
  unfold grad_at_first, gradP_shift, gradP. cbn [bh b_scale]. rewrite scaleYh by exact HH.
  change (3 - 1 - 1)%nat with 1%nat. cbn [Nat.ltb Nat.leb Nat.min Nat.sub Nat.add]. unfold mv. cbn [rsum]. unfold scale_vec, vsub. cbn [Nat.eqb Nat.leb].
  unfold Q5. assert (X0 : X 0%nat 0%nat = 0) by lra. rewrite X0 in *.
  assert (X1 : X 1%nat 0%nat = 2 * h / sqrt 5).
  { apply Rmult_eq_reg_r with (sqrt 5 / 2); [|lra]. transitivity h; [lra|]. field. lra. }
  rewrite X1. transitivity (4 / (sqrt 5 * sqrt 5)); [field; lra|]. rewrite S5. reflexivity.
Qed.

Lemma h_curved h : curved 1 2 (Yh h) (fun j => Yh h j 0%nat) (fun _ => 1) 0.
Proof.
  intros j Hj. unfold dot, vsub, Yh. cbn [rsum]. match goal with |- Rabs ?e <= _ => replace e with 0 by (cbn [INR]; ring) end. rewrite Rabs_R0. lra.
Qed.

(** no bound proportional to the radius *)
Lemma r_minimum_norm : exists Lam, ~ exists c, forall slv pinv qr ill cure mode shift n p1 Y b F len P g K r,
  regular_case slv pinv qr ill cure mode shift n p1 Y b -> (n + 1 <= p1)%nat -> (p1 <= full n)%nat ->
  0 <= K -> curved n p1 Y F g K -> lagrange_bounded slv pinv mode shift n p1 b Y Lam r ->
  computeP slv pinv mode n p1 (b_Q b) (b_R b) F = Some (len, P) ->
  norm n (vsub (grad_at_first shift n len P b Y) g) <= c * (1 + K) * r.
Proof.
  exists h_Lam. intros (c & H). set (h := / (10 * (1 + Rabs c))). pose proof (Rabs_pos c) as AC.
  assert (HH : 0 < h) by (apply Rinv_0_lt_compat; lra).
  destruct (h_grad h HH) as (P & EP & G).
  pose proof (H slv0 pinv0 qr5 ill0 cure0 2%nat true 1%nat 2%nat (Yh h) (bh h) _ 3%nat P (fun _ => 1) 0 h
    (h_case h HH) ltac:(lia) ltac:(vm_compute; lia) ltac:(lra) (h_curved h) (h_bounded h HH) EP) as B.
  rewrite norm1 in B. unfold vsub in B. rewrite G in B. rewrite Rabs_left in B by lra.
  assert (CH : c * h <= / 10).
  { apply Rle_trans with (Rabs c * h); [apply Rmult_le_compat_r; [lra|apply RRle_abs]|].
    apply Rmult_le_reg_r with (10 * (1 + Rabs c)); [lra|]. unfold h. rewrite Rmult_assoc, Rinv_l by lra. lra. }
  lra.
Qed.

Lemma h_example : exists Lam, forall h, 0 < h -> exists P,
  regular_case slv0 pinv0 qr5 ill0 cure0 2 true 1 2 (Yh h) (bh h) /\ curved 1 2 (Yh h) (fun j => Yh h j 0%nat) (fun _ => 1) 0 /\
  lagrange_bounded slv0 pinv0 2 true 1 2 (bh h) (Yh h) Lam h /\
  computeP slv0 pinv0 2 1 2 (b_Q (bh h)) (b_R (bh h)) (fun j => Yh h j 0%nat) = Some (3%nat, P) /\
  grad_at_first true 1 3 P (bh h) (Yh h) 0%nat = 4 / 5.
Proof.
  exists h_Lam. intros h HH. destruct (h_grad h HH) as (P & EP & G). exists P.
  split; [exact (h_case h HH)|]. split; [exact (h_curved h)|]. split; [exact (h_bounded h HH)|]. split; [exact EP|exact G].
Qed.

(** ** return after an improvement that replaced nothing: f(x) = x^2 - (499/500) x,
    points 0 and 1, tolerances 1/500 *)
Definition bow (x : Q) : Q := (x * x - (499 # 500) * x)%Q.
Definition bowE : env Q :=
  mkenv (unc bow) 0 100 100 (1 # 500) (1 # 500) (1 # 500) 0 3 3 0%Q
    (fun a b => qabs (a - b)%Q) qabs qabs w_sort linf (fun x => true) (fun s _ => s).
Definition bow_s : st Q := su (unc bow) bow 100 100.
Definition bow_a : answers Q :=
  mkans false false false false (1 # 500)%Q 1%Q 1%Q (1 # 500)%Q (wnew 1) None (1 # 500)%Q (-1)%Q 0%Q true [] 1%Q
    (- 1 # 500)%Q (- 1 # 500)%Q false (fun _ => 1%Q) (fun _ => 1%Q) (fun _ => 1%Q).

Lemma bow_begins : begins bowE 2 1 bow_s.
Proof.
  exists [0%Q; 1%Q], [0%Q; 1%Q], [bow 0; bow 1], [], []. split; [|split; [reflexivity|split; [reflexivity|reflexivity]]].
  split; [auto|]. split; [auto|]. split; [auto|]. split; [intros H; exfalso; apply H; reflexivity|].
  split; [intros x []|]. split; [|intros _ x v []].
  intros i y f H1 H2. exists i, (bow y), []. assert (CL : nth_error [0%Q; 1%Q] i = Some y) by exact H1.
  assert (f = bow y) as -> by (destruct i as [|[|i]]; cbn in H1, H2; [congruence|congruence|destruct i; discriminate]).
  split; [exact CL|]. split; [split; [reflexivity|split; [reflexivity|intros []]]|].
  split; [reflexivity|]. intros K. exfalso.
  destruct i as [|[|i]]; cbn in H1; [injection H1 as <-; discriminate K|injection H1 as <-; discriminate K|destruct i; discriminate].
Qed.

Lemma bow_quiet : exists s' f, pass bowE bow_s bow_a = Return 0 s' f /\ improved bow_s s' /\ s_Y (iS (sI s')) = s_Y (iS (sI bow_s)).
Proof. do 2 eexists. split; [vm_compute; reflexivity|]. split; reflexivity. Qed.

(** the model through two values *)
Lemma pair_slope Y (NE : Y 0%nat 0%nat <> Y 1%nat 0%nat) F : exists P, computeP slv0 pinv0 0 1 2 (b_Q (b_pair Y)) (b_R (b_pair Y)) F = Some (2%nat, P) /\
  grad_at_first true 1 2 P (b_pair Y) Y 0%nat = (F 1%nat - F 0%nat) / (Y 1%nat 0%nat - Y 0%nat 0%nat).
Proof.
  pose proof (w_pos Y NE) as WP. pose proof (pair_case Y NE) as RC.
  destruct (t_interpolates _ _ _ _ _ _ _ _ _ _ _ RC F ltac:(vm_compute; lia)) as (len & P & E & V).
  assert (len = 2%nat) as ->.
  { unfold computeP in E. change (eff_mode 0 1 2) with 0%nat in E. cbn match in E.
    destruct (slv0 _ _ _); [injection E as <- _; reflexivity|discriminate]. }
  exists P. split; [exact E|].
  pose proof (V 0%nat ltac:(lia)) as V0. pose proof (V 1%nat ltac:(lia)) as V1. rewrite (pair_value Y NE) in V0, V1.
  injection V0 as V0. injection V1 as V1. unfold Rdiv in V0. rewrite Rminus_diag_eq, Rmult_0_l in V0 by reflexivity.
  unfold grad_at_first, gradP_shift, gradP, b_pair. cbn [b_scale b_base]. rewrite (pair_scale Y NE). cbn. unfold scale_vec. cbn [Nat.eqb Nat.leb].
  set (w := Rabs _) in *. rewrite <- V1, <- V0. field. split; lra.
Qed.

Lemma bow_slope : model_slope slv0 pinv0 qr2 ill0 cure0 0 true (s_Y (iS (sI bow_s))) (s_f (iS (sI bow_s))) (1 # 500).
Proof.
  set (L := line_set [0%Q; 1%Q]).
  assert (LA : L 0%nat 0%nat = 0) by apply RMicromega.Q2R_0. assert (LB : L 1%nat 0%nat = 1) by apply RMicromega.Q2R_1.
  assert (NE : L 0%nat 0%nat <> L 1%nat 0%nat) by lra.
  destruct (pair_slope L NE (fun j => Q2R (nth j [bow 0; bow 1] 0%Q))) as (P & E & G).
  exists (b_pair L), 2%nat, P. split; [exact (pair_build L NE)|]. split; [exact E|].
  change (s_Y (iS (sI bow_s))) with [0%Q; 1%Q]. fold L. rewrite G, LA, LB. cbn [nth].
  replace (Q2R (bow 1)) with (/ 500) by (unfold Q2R; cbn; lra). replace (Q2R (bow 0)) with 0 by (unfold Q2R; cbn; lra).
  rewrite Rabs_pos_eq by lra. unfold Q2R. cbn. lra.
Qed.

Lemma bow_curved : curved 1 2 (line_set (s_Y (iS (sI bow_s)))) (fun j => Q2R (nth j (s_f (iS (sI bow_s))) 0%Q)) (fun _ => - 499 / 500) 1.
Proof.
  change (s_Y (iS (sI bow_s))) with [0%Q; 1%Q]. change (s_f (iS (sI bow_s))) with [bow 0; bow 1].
  assert (B0 : Q2R (bow 0) = 0) by (unfold Q2R; cbn; lra). assert (B1 : Q2R (bow 1) = / 500) by (unfold Q2R; cbn; lra).
  intros j Hj. rewrite !norm1. unfold dot, vsub, line_set. cbn [rsum]. destruct j as [|[|j]]; [| |lia]; cbn [nth];
    rewrite ?RMicromega.Q2R_0, ?RMicromega.Q2R_1, ?B0, ?B1; unfold Rabs; repeat destruct (Rcase_abs _); lra.
Qed.

Lemma r_quiet_exit : ~ forall slv pinv qr ill cure chol slvv eig mode shift (E : env Q) k0 d0 s a s' f g K,
  tri_exact slv -> pinv_exact pinv -> chol_exact 1 chol -> slv_exact 1 slvv ->
  sane E -> begins E k0 d0 s -> (1 # 1000 < a_glagn1 a)%Q ->
  proposed slv pinv qr ill cure (ms_solver chol slvv eig 1 (/ 1000)) 1 mode shift (qmax (delta (sG s)) (1 # 100000)) (a_newpt a) ->
  measured slv pinv qr ill cure (ms_solver chol slvv eig 1 (/ 1000)) 1 mode shift (s_Y (iS (sI s))) (a_poised a, a_yrad a) ->
  model_slope slv pinv qr ill cure mode shift (s_Y (iS (sI s))) (s_f (iS (sI s))) (a_glagn1 a) ->
  model_slope slv pinv qr ill cure mode shift (s_Y (iS (sI s))) (s_f (iS (sI s))) (a_glagn2 a) ->
  0 <= K -> curved 1 (length (s_Y (iS (sI s)))) (line_set (s_Y (iS (sI s)))) (fun j => Q2R (nth j (s_f (iS (sI s))) 0%Q)) (fun _ => g) K ->
  pass E s a = Return 0 s' f -> improved s s' -> s_Y (iS (sI s')) = s_Y (iS (sI s)) ->
  Rabs g <= 100 * (Q2R (e_tolg E) + (INR (length (s_Y (iS (sI s)))) - 1) * / 1000 * K).
Proof.
  intros F. destruct bow_quiet as (s' & f & PQ & IM & YY).
  assert (X : Rabs (- 499 / 500) <= 100 * (Q2R (1 # 500) + (INR 2 - 1) * / 1000 * 1)).
  { refine (F slv0 pinv0 qr2 ill0 cure0 chol1 slv1 eig0 0%nat true bowE 2%nat 1%Q bow_s bow_a s' f _ 1
      slv0_exact pinv0_exact chol1_exact slv1_exact _ bow_begins _ _ ver_measured bow_slope bow_slope _ bow_curved PQ IM YY).
    - split; [apply w_sort_ok|]. cbn. lia.
    - reflexivity.
    - change (qmax (delta (sG bow_s)) (1 # 100000)) with 1%Q. apply wnew_proposed. reflexivity.
    - lra. }
  rewrite Rabs_left in X by lra. replace (Q2R (1 # 500)) with (/ 500) in X by (unfold Q2R; cbn; lra). cbn [INR] in X. lra.
Qed.

Lemma bow_example : exists s' f,
  proposed slv0 pinv0 qr2 ill0 cure0 (ms_solver chol1 slv1 eig0 1 (/ 1000)) 1 0 true (qmax (delta (sG bow_s)) (1 # 100000)) (a_newpt bow_a) /\
  measured slv0 pinv0 qr2 ill0 cure0 (ms_solver chol1 slv1 eig0 1 (/ 1000)) 1 0 true (s_Y (iS (sI bow_s))) (a_poised bow_a, a_yrad bow_a) /\
  model_slope slv0 pinv0 qr2 ill0 cure0 0 true (s_Y (iS (sI bow_s))) (s_f (iS (sI bow_s))) (a_glagn1 bow_a) /\
  curved 1 2 (line_set (s_Y (iS (sI bow_s)))) (fun j => Q2R (nth j (s_f (iS (sI bow_s))) 0%Q)) (fun _ => - 499 / 500) 1 /\
  pass bowE bow_s bow_a = Return 0 s' f /\ improved bow_s s' /\ s_Y (iS (sI s')) = s_Y (iS (sI bow_s)).
Proof.
  destruct bow_quiet as (s' & f & PQ & IM & YY). exists s', f.
  split; [change (qmax (delta (sG bow_s)) (1 # 100000)) with 1%Q; apply wnew_proposed; reflexivity|].
  split; [exact ver_measured|]. split; [exact bow_slope|]. split; [exact bow_curved|]. split; [exact PQ|]. split; [exact IM|exact YY].
Qed.

(** ** instances of the bounds: f(x) = x^2 on the points 0 and 1 *)
Lemma sq_curved : curved 1 2 Y01 (fun j => Y01 j 0%nat * Y01 j 0%nat) (fun _ => 0) 1.
Proof.
  intros j Hj. rewrite !norm1. unfold dot, vsub. cbn [rsum].
  destruct j as [|[|j]]; [| |lia]; unfold Y01; cbn; unfold Rabs; repeat destruct (Rcase_abs _); lra.
Qed.
Lemma sq_case : exists lam r len P, regular_case slv0 pinv0 qr01 ill0 cure0 0 false 1 2 Y01 b01 /\ (1 + 1 <= 2)%nat /\ (unknowns 0 1 2 <= 2)%nat /\ (2 <= full 1)%nat /\
  honest 1 0 lin_solver /\ optimal 1 0 lin_solver /\ poisedness slv0 pinv0 lin_solver false 1 0 false 1 2 b01 Y01 = Some (lam, r) /\
  0 <= 1 /\ curved 1 2 Y01 (fun j => Y01 j 0%nat * Y01 j 0%nat) (fun _ => 0) 1 /\
  computeP slv0 pinv0 0 1 2 (b_Q b01) (b_R b01) (fun j => Y01 j 0%nat * Y01 j 0%nat) = Some (len, P).
Proof.
  destruct lin_poised as (lam & r & PO).
  destruct (t_interpolates _ _ _ _ _ _ _ _ _ _ _ square_case (fun j => Y01 j 0%nat * Y01 j 0%nat) ltac:(vm_compute; lia)) as (len & P & E & _).
  exists lam, r, len, P. split; [exact square_case|]. split; [lia|]. split; [vm_compute; lia|]. split; [vm_compute; lia|].
  split; [exact lin_honest|]. split; [exact lin_optimal|]. split; [exact PO|]. split; [lra|]. split; [exact sq_curved|exact E].
Qed.
Lemma sq_bounded : exists Lam r, lagrange_bounded slv0 pinv0 0 false 1 2 b01 Y01 Lam r.
Proof.
  destruct sq_case as (lam & r & len & P & RC & _ & _ & HF & HO & OP & PO & _). do 2 eexists.
  exact (poised_bounded _ _ _ _ _ _ _ _ _ _ _ _ _ _ _ _ _ RC HF HO OP PO).
Qed.

(** ** return at the first test: f(x) = x^2, points 0 and 1/1000, tolerances 1/100 *)
Definition near : nat -> vec := line_set [0%Q; (1 # 1000)%Q].
Lemma near_ne : near 0%nat 0%nat <> near 1%nat 0%nat.
Proof. unfold near, line_set, Q2R. cbn. lra. Qed.
Definition parabola (x : Q) : Q := (x * x)%Q.
Definition nearE : env Q :=
  mkenv (unc parabola) 0 100 100 (1 # 100) (1 # 100) (1 # 100) 0 3 3 0%Q
    (fun a b => qabs (a - b)%Q) qabs qabs w_sort linf (fun x => true) (fun s _ => s).
Definition near_s : st Q :=
  let s := su (unc parabola) parabola 100 100 in
  mkst (sA s) (mkI (mkset [0%Q; (1 # 1000)%Q] [0; 1]%nat [0%Q; (1 # 1000000)%Q] [[]; []] [[]; []]) 0%Q 0%Q 0) (sN s) (sG s).
Definition near_a : answers Q :=
  mkans false false false false (1 # 1000)%Q 1%Q (1 # 1000)%Q (1 # 1000)%Q (wnew 1) None (1 # 1000)%Q (-1)%Q 0%Q true [] 1%Q
    (- 1 # 1000)%Q (- 1 # 1000)%Q false (fun _ => 1%Q) (fun _ => 1%Q) (fun _ => 1%Q).

Lemma lin_pair Y (NE : Y 0%nat 0%nat <> Y 1%nat 0%nat) D : 0 < D -> exists y,
  New_Model.find_new slv0 pinv0 lin_solver 1 0 true 1 2 (b_pair Y) Y 1 D = Some (y, D / Rabs (Y 1%nat 0%nat - Y 0%nat 0%nat)).
Proof.
  intros HD. pose proof (w_pos Y NE) as P. pose proof (Rinv_0_lt_compat _ P) as IP. pose proof (pair_case Y NE) as RC.
  assert (FF : (2 <= full 1)%nat) by (vm_compute; lia).
  destruct (t_lagrange_delta _ _ _ _ _ _ _ _ _ _ _ RC 1 0 FF ltac:(lia) ltac:(lia)) as (len & L & E & V0).
  destruct (t_lagrange_delta _ _ _ _ _ _ _ _ _ _ _ RC 1 1 FF ltac:(lia) ltac:(lia)) as (len' & L' & E' & V1).
  rewrite E in E'. injection E' as <- <-.
  assert (len = 2%nat) as ->.
  { unfold computeLj in E. change (eff_mode 0 1 2) with 0%nat in E. cbn match in E.
    destruct (slv0 _ _ _); [injection E as <- _; reflexivity|discriminate]. }
  rewrite (pair_value Y NE) in V0, V1. cbn [Nat.eqb] in V0, V1. injection V0 as V0. injection V1 as V1. fold (dir Y) in V1.
  unfold Rdiv in V0. rewrite Rminus_diag_eq, Rmult_0_l in V0 by reflexivity.
  assert (L1 : L 1%nat = dir Y) by (destruct (dir_one Y NE) as [Q|Q]; rewrite Q in *; lra).
  assert (AD : Rabs (L 1%nat) = 1) by (rewrite L1; destruct (dir_one Y NE) as [Q|Q]; rewrite Q; unfold Rabs; destruct (Rcase_abs _); lra).
  unfold New_Model.find_new. cbn [Nat.ltb Nat.leb]. rewrite E. cbv zeta. unfold used_radius. cbn [Nat.eqb].
  assert (SC : b_scale (b_pair Y) 1%nat = / Rabs (Y 1%nat 0%nat - Y 0%nat 0%nat)) by
    (unfold b_pair; cbn [b_scale]; unfold scale_vec; cbn [Nat.eqb Nat.leb]; rewrite (pair_scale Y NE); reflexivity).
  rewrite SC. set (w := Rabs (Y 1%nat 0%nat - Y 0%nat 0%nat)) in *. assert (DW : 0 < D * / w) by (apply Rmult_lt_0_compat; assumption).
  unfold lin_solver. change (hessP 1 2 L 0%nat 0%nat) with 0. change (gradP 1 2 L vzero 0%nat) with (L 1%nat).
  destruct (Reqb_spec 0 0) as [_|X]; [|lra]. destruct (Reqb_spec (- 0) 0) as [_|X]; [|lra]. rewrite Rabs_Ropp, AD.
  unfold pick. cbn [fst snd]. destruct (Rltb _ _); eexists; f_equal; f_equal; rewrite Rmult_1_l, Rabs_Ropp, Rabs_pos_eq by lra; reflexivity.
Qed.

Lemma lin_pair_poised Y (NE : Y 0%nat 0%nat <> Y 1%nat 0%nat) :
  poisedness slv0 pinv0 lin_solver false 1 0 true 1 2 (b_pair Y) Y = Some (1, Rabs (Y 1%nat 0%nat - Y 0%nat 0%nat)).
Proof.
  pose proof (w_pos Y NE) as WP.
  assert (RY : Y_radius 1 2 Y = Rabs (Y 1%nat 0%nat - Y 0%nat 0%nat)).
  { unfold Y_radius. cbn [seq fold_left Nat.sub]. rewrite norm1. unfold vsub. apply Rmax_right. lra. }
  unfold poisedness. cbv zeta. rewrite RY. cbn [Nat.sub seq poised_loop].
  destruct (lin_pair Y NE _ WP) as (y & ->).
  do 2 f_equal. unfold Rdiv. rewrite Rinv_r by lra. apply Rmax_left. lra.
Qed.

Lemma near_exit : exists P s' f,
  regular_case slv0 pinv0 qr2 ill0 cure0 0 true 1 2 near (b_pair near) /\ (1 + 1 <= 2)%nat /\ (unknowns 0 1 2 <= 2)%nat /\ (2 <= full 1)%nat /\
  honest 1 0 lin_solver /\ optimal 1 0 lin_solver /\
  poisedness slv0 pinv0 lin_solver false 1 0 true 1 2 (b_pair near) near = Some (Q2R (a_poised near_a), Q2R (a_yrad near_a)) /\
  curved 1 2 near (fun j => Q2R (nth j (s_f (iS (sI near_s))) 0%Q)) (fun _ => 0) 1 /\
  computeP slv0 pinv0 0 1 2 (b_Q (b_pair near)) (b_R (b_pair near)) (fun j => Q2R (nth j (s_f (iS (sI near_s))) 0%Q)) = Some (2%nat, P) /\
  Rabs (combo 1 (fun _ => 1) (fun _ => grad_at_first true 1 2 P (b_pair near) near) 0%nat) <= Q2R (a_glagn1 near_a) /\
  pass nearE near_s near_a = Return 0 s' f /\ niter (sN s') = (niter (sN near_s) + 1)%nat.
Proof.
  assert (N0 : near 0%nat 0%nat = 0) by apply RMicromega.Q2R_0. assert (N1 : near 1%nat 0%nat = / 1000) by (unfold near, line_set, Q2R; cbn; lra).
  assert (F0 : Q2R 0 = 0) by apply RMicromega.Q2R_0. assert (F1 : Q2R (1 # 1000000) = / 1000000) by (unfold Q2R; cbn; lra).
  change (s_f (iS (sI near_s))) with [0%Q; (1 # 1000000)%Q].
  destruct (pair_slope near near_ne (fun j => Q2R (nth j [0%Q; (1 # 1000000)%Q] 0%Q))) as (P & E & G). exists P. do 2 eexists.
  split; [exact (pair_case near near_ne)|]. split; [lia|]. split; [vm_compute; lia|]. split; [vm_compute; lia|].
  split; [exact lin_honest|]. split; [exact lin_optimal|]. split.
  { rewrite (lin_pair_poised near near_ne), N0, N1, Rminus_0_r, Rabs_pos_eq by lra. cbn [near_a a_poised a_yrad]. do 2 f_equal; unfold Q2R; cbn; lra. }
  split.
  { intros j Hj. rewrite !norm1. unfold dot, vsub. cbn [rsum]. destruct j as [|[|j]]; [| |lia]; cbn [nth]; rewrite ?N0, ?N1, ?F0, ?F1;
      unfold Rabs; repeat destruct (Rcase_abs _); lra. }
  split; [exact E|]. split.
  { unfold combo. cbn [rsum]. rewrite G, N0, N1. cbn [nth near_a a_glagn1]. rewrite F0, F1.
    replace (Q2R (1 # 1000)) with (/ 1000) by (unfold Q2R; cbn; lra). unfold Rabs; repeat destruct (Rcase_abs _); lra. }
  split; [vm_compute; reflexivity|reflexivity].
Qed.
