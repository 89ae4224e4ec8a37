(** Instances for the theorems about new interpolation points. *)
From Coq Require Import Reals Lra Psatz Lia List Arith Bool ZArith QArith Qreals.
From Coq Require Lqa.
From Verif Require Import RVec RBool Tri Poly_Model Poly_Spec Poly_Proofs Int_Model Int_Spec Int_Proofs Int_Wit
  MS_Model MS_Spec MS_Proofs MS_Wit QB Book_Model Book_Spec Book_Wit Main_Model Main_Spec Main_Wit New_Model New_Spec New_Proofs.
Import ListNotations.
Open Scope R_scope.

(** ** the solver on a linear function of one variable *)
Definition eig0 (A : mat) : mat * vec := (idm, vzero).
Lemma eig0_pos A k : (k < 1)%nat -> 0 < norm 1 (fun i => fst (eig0 A) i k).
Proof. intros Hk. assert (k = 0%nat) as -> by lia. rewrite norm_c. cbn. unfold idm. cbn. rewrite Rabs_R1. lra. Qed.

Lemma line_ms eigv eigd (g : vec) (H : mat) D eps : Rabs (g 0%nat) = 1 -> H 0%nat 0%nat = 0 -> 0 < D -> 0 <= eps ->
  exists o, solve_MS chol1 slv1 eigv eigd 1 g H D eps = Some o /\ ms_s o 0%nat = - (g 0%nat * D) /\ ms_value o = - D.
Proof.
  intros G H0 HD HE. unfold solve_MS. destruct (Reqb_spec D 0) as [X|_]; [lra|].
  rewrite norm_c, G. destruct (Rltb_spec (1 ^ 2) ms_epsilon) as [X|_].
  { exfalso. pose proof (tiny_le 12). unfold ms_epsilon in X. rewrite pow1 in X. lra. }
  assert (HN : ms_hn 1 H = 0).
  { unfold ms_hn, norminf, normfro. cbn [seq fold_left rsum]. rewrite H0, Rabs_R0, !Rplus_0_l, Rmult_0_l, sqrt_0, Rmax_left by lra. apply Rmin_left. lra. }
  pose proof (Rinv_0_lt_compat D HD) as ID.
  assert (L : ms_lower 1 g H D = / D) by (unfold ms_lower; rewrite HN, norm_c, G, Rmax_right; unfold Rdiv; lra).
  assert (U : ms_upper 1 g H D = / D) by (unfold ms_upper; rewrite HN, norm_c, G, Rmax_right; unfold Rdiv; lra).
  rewrite L, U. unfold ms_first. destruct (Reqb_spec (/ D) 0) as [X|_]; [lra|].
  assert (I : ms_inner (/ D) (/ D) = / D).
  { unfold ms_inner. rewrite sqrt_square by lra. apply Rmax_left. lra. }
  rewrite I.
  assert (E : exists s, ms_step chol1 slv1 1 g H D eps (/ D) (/ D) (/ D) = PExit s /\ s 0%nat = - (g 0%nat * D)).
  { unfold ms_step.
    assert (CE : chol1 (shifted H (/ D)) = Some (fun _ _ => sqrt (/ D))).
    { unfold chol1, shifted. rewrite H0. unfold idm. cbn [Nat.eqb]. rewrite Rplus_0_l, Rmult_1_r.
      destruct (Rltb_spec 0 (/ D)) as [_|X]; [reflexivity|lra]. }
    rewrite CE. unfold slv1. match goal with |- context [norm 1 ?x] => set (s := x) end.
    assert (S : s 0%nat = - (g 0%nat * D)).
    { unfold s, tr. pose proof (sqrt_lt_R0 (/ D) ID) as Q. pose proof (sqrt_sqrt (/ D) ltac:(lra)) as QQ.
      replace (g 0%nat / sqrt (/ D) / - sqrt (/ D)) with (- (g 0%nat * / (sqrt (/ D) * sqrt (/ D)))) by (field; lra).
      rewrite QQ, Rinv_inv. reflexivity. }
    assert (N : norm 1 s = D) by (rewrite norm_c, S, Rabs_Ropp, Rabs_mult, G, Rmult_1_l; apply Rabs_pos_eq; lra).
    rewrite N. assert (E1 : Rleb ((1 - eps) * D) D = true) by (apply Rleb_true; nra).
    assert (E2 : Rleb D ((1 + eps) * D) = true) by (apply Rleb_true; nra).
    rewrite E1, E2. cbn [andb]. rewrite orb_true_r. exists s. split; [reflexivity|exact S]. }
  destruct E as (s & E & S). unfold ms_nitmax. cbn [ms_loop]. rewrite E. eexists. split; [reflexivity|]. cbn [ms_s ms_value].
  split; [exact S|]. unfold ms_model, dot, mv. cbn [rsum]. rewrite S, H0.
  assert (GG : g 0%nat * g 0%nat = 1) by (revert G; unfold Rabs; destruct (Rcase_abs _); intros; nra). nra.
Qed.

(** ** two points on a line, shifted, subbasis *)
Definition qr2 (r c : nat) (A : mat) : mat * mat := (idm, A).
Definition b_pair (Y : nat -> vec) : built :=
  mkbuilt idm (zmat 1 2 (pts true 1 2 Y)) (Y 0%nat) (scale_vec 1 (/ scaleY 1 2 Y)).

Section Pair.
Variable Y : nat -> vec.
Hypothesis NE : Y 0%nat 0%nat <> Y 1%nat 0%nat.
Let w := Rabs (Y 1%nat 0%nat - Y 0%nat 0%nat).
Lemma w_pos : 0 < w.
Proof. apply Rabs_pos_lt. lra. Qed.
Lemma pair_scale : scaleY 1 2 Y = w.
Proof.
  pose proof w_pos. unfold scaleY. cbn [seq fold_left]. rewrite !norm1. unfold vsub. rewrite Rminus_diag_eq, Rabs_R0 by reflexivity.
  rewrite (Rmax_left 0 0) by lra. apply Rmax_right. fold w. lra.
Qed.
Lemma pair_build : build qr2 ill0 cure0 0 true 1 2 Y = Some (b_pair Y).
Proof.
  unfold build. change (shifts true 2) with true. cbn [andb]. unfold Reqb.
  destruct (Req_EM_T (scaleY 1 2 Y) 0) as [E|E]; [rewrite pair_scale in E; pose proof w_pos; lra|]. reflexivity.
Qed.
Lemma pair_value L x : value true 1 2 L (b_pair Y) x = Some (L 0%nat + L 1%nat * ((x 0%nat - Y 0%nat 0%nat) / w)).
Proof.
  unfold value, evalP_shift, evalP, b_pair. cbn [b_base b_scale]. unfold scale_vec. cbn [Nat.eqb Nat.leb]. rewrite pair_scale. cbn. f_equal. unfold Rdiv. ring.
Qed.
Definition dir : R := (Y 1%nat 0%nat - Y 0%nat 0%nat) / w.
Lemma dir_one : dir = 1 \/ dir = -1.
Proof.
  pose proof w_pos as P. unfold dir, w in *. unfold Rabs in *. destruct (Rcase_abs _); [right|left]; field; lra.
Qed.
Lemma pair_case : regular_case slv0 pinv0 qr2 ill0 cure0 0 true 1 2 Y (b_pair Y).
Proof.
  pose proof w_pos as P.
  split; [|split; [exact slv0_exact|split; [exact pinv0_exact|split; [exact pair_build|split]]]].
  - split; [lia|]. split; [lia|]. split; [left; left; reflexivity|]. intros _. vm_compute. lia.
  - unfold exactly_built. change (eff_mode 0 1 2) with 0%nat. cbn [to_factor qr2]. split; [reflexivity|]. split; [|split].
    + intros i j Hi Hj. apply (mv_idm_l 2 (fun k => zmat 1 2 (pts true 1 2 Y) k j) i Hi).
    + intros i j Hi Hj. destruct i as [|[|i]], j as [|[|j]]; try lia; cbn; unfold idm; cbn; lra.
    + intros i j Hi Hj L. destruct i as [|[|i]], j as [|[|j]]; try lia. cbn. unfold zmat, pts. cbn. unfold Rdiv. ring.
  - unfold poised. change (2 <? unknowns 0 1 2)%nat with false. cbn match. change (unknowns 0 1 2) with 2%nat. intros L H.
    pose proof (H 0%nat ltac:(lia)) as H0. pose proof (H 1%nat ltac:(lia)) as H1. rewrite pair_value in H0, H1.
    fold dir in H1. injection H0 as H0. injection H1 as H1. unfold Rdiv in H0. rewrite Rminus_diag_eq, Rmult_0_l in H0 by reflexivity.
    intros i Hi. change (i < 2)%nat in Hi. destruct dir_one as [D|D]; rewrite D in H1; destruct i as [|[|i]]; try lia; lra.
Qed.

Lemma pair_new D eps : 0 < D -> 0 <= eps -> exists y imp,
  New_Model.find_new slv0 pinv0 (ms_solver chol1 slv1 eig0 1 eps) 1 0 true 1 2 (b_pair Y) Y 1 D = Some (y, imp) /\
  y 0%nat = Y 0%nat 0%nat - dir * D /\ imp = D / w.
Proof.
  intros HD HE. pose proof w_pos as P. pose proof (Rinv_0_lt_compat w P) as IP. pose proof pair_case as RC.
  assert (FF : (2 <= full 1)%nat) by (vm_compute; lia).
  destruct (t_lagrange_delta _ _ _ _ _ _ _ _ _ _ _ RC 1 0 FF ltac:(lia) ltac:(lia)) as (len & L & E & V0).
  destruct (t_lagrange_delta _ _ _ _ _ _ _ _ _ _ _ RC 1 1 FF ltac:(lia) ltac:(lia)) as (len' & L' & E' & V1).
  rewrite E in E'. injection E' as <- <-.
  assert (len = 2%nat) as ->.
  { unfold computeLj in E. change (eff_mode 0 1 2) with 0%nat in E. cbn match in E.
    destruct (slv0 _ _ _); [injection E as <- _; reflexivity|discriminate]. }
  rewrite pair_value in V0, V1. cbn [Nat.eqb] in V0, V1. injection V0 as V0. injection V1 as V1. fold dir in V1.
  unfold Rdiv in V0. rewrite Rminus_diag_eq, Rmult_0_l in V0 by reflexivity.
  assert (L1 : L 1%nat = dir) by (destruct dir_one as [Q|Q]; rewrite Q in *; lra).
  assert (AD : Rabs dir = 1) by (destruct dir_one as [Q|Q]; rewrite Q; unfold Rabs; destruct (Rcase_abs _); lra).
  unfold New_Model.find_new. cbn [Nat.ltb Nat.leb]. rewrite E. cbv zeta. unfold used_radius. cbn [Nat.eqb].
  set (g := gradP 1 2 L vzero). set (H := hessP 1 2 L).
  assert (G : g 0%nat = dir) by (unfold g; cbn; exact L1).
  assert (H0 : H 0%nat 0%nat = 0) by reflexivity.
  assert (SC : b_scale (b_pair Y) 1%nat = / w) by (unfold b_pair; cbn [b_scale]; unfold scale_vec; cbn [Nat.eqb Nat.leb]; rewrite pair_scale; reflexivity).
  rewrite SC. assert (DW : 0 < D * / w) by (apply Rmult_lt_0_compat; assumption).
  destruct (line_ms idm vzero g H (D * / w) eps) as (o1 & O1 & S1 & W1); [rewrite G; exact AD|exact H0|exact DW|exact HE|].
  destruct (line_ms idm vzero (fun i => - g i) (fun a c => - H a c) (D * / w) eps) as (o2 & O2 & S2 & W2);
    [rewrite Rabs_Ropp, G; exact AD|rewrite H0; ring|exact DW|exact HE|].
  unfold ms_solver. cbn [eig0 fst snd]. unfold eig0. cbn [fst snd]. rewrite O1, O2.
  unfold pick. cbn [fst snd]. rewrite W1, W2. destruct (Rltb_spec (- (D * / w)) (- (D * / w))) as [X|_]; [lra|].
  do 2 eexists. split; [reflexivity|]. split.
  - unfold vadd, vscal. rewrite S1, G. field. lra.
  - rewrite Rabs_Ropp, Rabs_pos_eq by lra. reflexivity.
Qed.
End Pair.

(** ** an exact solver for linear functions of one variable *)
Definition lin_solver : solver_t := fun g H D =>
  if Reqb (H 0%nat 0%nat) 0 then Some ((fun _ => if Rltb (g 0%nat) 0 then D else - D), - (Rabs (g 0%nat) * D)) else None.
Lemma lin_honest : honest 1 0 lin_solver.
Proof.
  intros g H D s v _ _ E. unfold lin_solver in E. destruct (Reqb_spec (H 0%nat 0%nat) 0) as [Z|]; [|discriminate].
  injection E as <- <-. unfold qmodel, quad, dot, mv. cbn [rsum]. rewrite Z.
  match goal with |- Rabs ?x <= 0 => replace x with 0; [rewrite Rabs_R0; lra|] end.
  destruct (Rltb_spec (g 0%nat) 0); [rewrite Rabs_left by lra|rewrite Rabs_pos_eq by lra]; ring.
Qed.
Lemma lin_optimal : optimal 1 0 lin_solver.
Proof.
  intros g H D s v _ HD E. unfold lin_solver in E. destruct (Reqb_spec (H 0%nat 0%nat) 0) as [Z|]; [|discriminate].
  injection E as <- _. intros d Hd. rewrite norm_c in Hd. unfold qmodel, quad, dot, mv. cbn [rsum]. rewrite Z.
  revert Hd. unfold Rabs. destruct (Rcase_abs _); destruct (Rltb_spec (g 0%nat) 0); intros; nra.
Qed.
Lemma lin_nonpos g H D s v : 0 <= D -> lin_solver g H D = Some (s, v) -> v <= 0.
Proof.
  intros HD E. unfold lin_solver in E. destruct (Reqb (H 0%nat 0%nat) 0); [|discriminate]. injection E as _ <-.
  pose proof (Rabs_pos (g 0%nat)). nra.
Qed.
Lemma lin_found D : exists y imp,
  New_Model.find_new slv0 pinv0 lin_solver 1 0 false 1 2 b01 Y01 1 D = Some (y, imp).
Proof.
  assert (FF : (2 <= full 1)%nat) by (vm_compute; lia).
  destruct (t_lagrange_delta _ _ _ _ _ _ _ _ _ _ _ square_case 1 0 FF ltac:(lia) ltac:(lia)) as (len & L & E & _).
  unfold New_Model.find_new. cbn [Nat.ltb Nat.leb]. rewrite E. cbv zeta.
  assert (len = 2%nat) as ->.
  { unfold computeLj in E. change (eff_mode 0 1 2) with 0%nat in E. cbn match in E.
    destruct (slv0 _ _ _); [injection E as <- _; reflexivity|discriminate]. }
  unfold lin_solver. change (hessP 1 2 L 0%nat 0%nat) with 0.
  destruct (Reqb_spec 0 0) as [_|X]; [|lra]. destruct (Reqb_spec (- 0) 0) as [_|X]; [|lra]. unfold pick. destruct (Rltb _ _); eauto.
Qed.
Lemma lin_poised : exists lam r, poisedness slv0 pinv0 lin_solver false 1 0 false 1 2 b01 Y01 = Some (lam, r).
Proof.
  unfold poisedness. cbv zeta. cbn [Nat.sub seq poised_loop].
  destruct (lin_found (Y_radius 1 2 Y01)) as (y & imp & ->). eauto.
Qed.

(** ** a run that leaves the bounds: f(x) = x on [0, 1], solution 0 *)
Definition sgn (a b : Q) : Q := if qltb a b then 1 else (-1).
Definition wnew (D : Q) (k : nat) (Y : list Q) (j : nat) : nyj Q :=
  match Y, j with
  | [a; b], 1%nat => if qeqb a b then NoPt else NewPt (a - sgn a b * D)%Q (D / qabs (b - a))%Q
  | _, _ => NoPt
  end.

Lemma Q2R_abs x : Q2R (qabs x) = Rabs (Q2R x).
Proof.
  unfold qabs. destruct (qleb 0 x) eqn:E; qb.
  - apply Qle_Rle in E. rewrite RMicromega.Q2R_0 in E. rewrite Rabs_pos_eq; auto.
  - apply Qlt_Rlt in E. rewrite RMicromega.Q2R_0 in E. rewrite Rabs_left by exact E. apply Q2R_opp.
Qed.

Lemma wnew_proposed D : (0 < D)%Q -> proposed slv0 pinv0 qr2 ill0 cure0 (ms_solver chol1 slv1 eig0 1 (/ 1000)) 1 0 true D (wnew D).
Proof.
  intros HD k Y j y imp H. unfold wnew in H. destruct Y as [|a [|b [|]]]; try discriminate.
  destruct j as [|[|]]; try discriminate. destruct (qeqb a b) eqn:E; [discriminate|]. apply qeqb_false in E.
  set (L := line_set [a; b]).
  assert (LA : L 0%nat 0%nat = Q2R a) by reflexivity. assert (LB : L 1%nat 0%nat = Q2R b) by reflexivity.
  assert (NE : L 0%nat 0%nat <> L 1%nat 0%nat) by (rewrite LA, LB; intros X; apply E; apply eqR_Qeq; exact X).
  assert (RD : 0 < Q2R D) by (apply Qlt_Rlt in HD; rewrite RMicromega.Q2R_0 in HD; exact HD).
  destruct (pair_new L NE (Q2R D) (/ 1000) RD ltac:(lra)) as (v & r & F & V & Rr).
  exists (b_pair L), v, r. split; [apply (pair_build L NE)|]. split; [exact F|].
  assert (DQ : dir L = Q2R (sgn a b)).
  { unfold dir, sgn. rewrite LA, LB in *. destruct (qltb a b) eqn:O; qb.
    - apply Qlt_Rlt in O. rewrite Rabs_pos_eq by lra. rewrite RMicromega.Q2R_1. field. lra.
    - apply Qle_Rle in O. rewrite Rabs_left by lra. replace (Q2R (-1)) with (-1) by (unfold Q2R; cbn; field). field. lra. }
  injection H as <- <-. rewrite V, Rr, LA, LB, DQ. split.
  - rewrite Q2R_minus, Q2R_mult. reflexivity.
  - rewrite Q2R_div, Q2R_abs, Q2R_minus; [reflexivity|].
    intros Z. unfold qabs in Z. destruct (qleb 0 (b - a)); apply E; Lqa.lra.
Qed.

(** bounds 0 and 1, tolerances 1/1000 *)
Definition boxE : env Q :=
  mkenv (unc (fun x => x)) 0 100 100 (1 # 1000) (1 # 1000) (1 # 1000) 0 3 3 0%Q
    (fun a b => qabs (a - b)%Q) qabs qabs w_sort linf (fun x => (qleb 0 x && qleb x 1)%bool) (fun s _ => s).
Definition box_s : st Q := su (unc (fun x => x)) (fun x => x) 100 100.
(** zero gradient of the Lagrangian, poisedness and radius 1, trial points 0 *)
Definition box_a : answers Q :=
  mkans false false false false 0%Q 1%Q 1%Q 0%Q (wnew (1 # 100000)) None 0%Q 0%Q 0%Q false [] 0%Q 0%Q 0%Q false
    (fun _ => 1%Q) (fun _ => 1%Q) (fun _ => 1%Q).

Lemma box_begins : begins boxE 2 1 box_s.
Proof.
  exists [0%Q; 1%Q], [0%Q; 1%Q], [0%Q; 1%Q], [], []. split; [|split; [reflexivity|split; [reflexivity|reflexivity]]].
  split; [auto|]. split; [auto|]. split; [auto|]. split; [intros H; exfalso; apply H; reflexivity|].
  split; [intros x []|]. split; [|intros _ x v []].
  intros i y f H1 H2. exists i, y, []. assert (CL : nth_error [0%Q; 1%Q] i = Some y) by exact H1.
  assert (f = y) as -> by congruence. split; [exact CL|]. split; [split; [reflexivity|split; [reflexivity|intros []]]|].
  split; [reflexivity|]. intros K. exfalso.
  destruct i as [|[|i]]; cbn in H1; [injection H1 as <-; discriminate K|injection H1 as <-; discriminate K|destruct i; discriminate].
Qed.

Lemma box_pass : exists s', pass boxE box_s box_a = Return 0 s' (Fin 0%Q) /\ calls (sA s') = [0%Q; 1%Q; (-1 # 100000)%Q].
Proof. eexists. split; [vm_compute; reflexivity|]. reflexivity. Qed.

Lemma r_inside : ~ forall slv pinv qr ill cure chol slvv eig mode shift (E : env Q) lb ub k0 d0 s a s' f flag,
  tri_exact slv -> pinv_exact pinv -> chol_exact 1 chol -> slv_exact 1 slvv ->
  sane E -> begins E k0 d0 s -> calls_inside lb ub s -> (forall x, e_inside E x = true <-> (lb <= x <= ub)%Q) ->
  (a_glagn1 a <= 1 # 1000)%Q ->
  proposed slv pinv qr ill cure (ms_solver chol slvv eig 1 (/ 1000)) 1 mode shift (qmin (delta (sG s)) (1 # 100000)) (a_newpt a) ->
  (lb <= a_xnew a <= ub)%Q -> pass E s a = Return flag s' f -> calls_inside lb ub s'.
Proof.
  intros F. destruct box_pass as (s' & P & C).
  assert (X : calls_inside 0 1 s').
  { refine (F slv0 pinv0 qr2 ill0 cure0 chol1 slv1 eig0 0%nat true boxE 0%Q 1%Q 2%nat 1%Q box_s box_a s' _ _
      slv0_exact pinv0_exact chol1_exact slv1_exact _ box_begins _ _ _ _ _ P).
    - split; [apply w_sort_ok|]. cbn. lia.
    - intros y [<-|[<-|[]]]; split; vm_compute; discriminate.
    - intros x. cbn [boxE e_inside]. rewrite andb_true_iff, !qleb_iff. reflexivity.
    - vm_compute. discriminate.
    - change (qmin (delta (sG box_s)) (1 # 100000)) with (1 # 100000)%Q. apply wnew_proposed. reflexivity.
    - split; vm_compute; discriminate. }
  destruct (X (-1 # 100000)%Q) as [A _]; [rewrite C; right; right; left; reflexivity|]. apply A. reflexivity.
Qed.
