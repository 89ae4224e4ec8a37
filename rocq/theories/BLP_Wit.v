(** Witnesses for the description of the runs of the bounded least-squares
    solver: a problem with three variables on which it goes round in circles. *)
From Coq Require Import Reals Lra Lia Arith List Bool ZArith.
From Verif Require Import RVec RBool ProjGrad_Spec ProjGrad_Proofs BL_Model BL_Spec BL_Proofs BL_Wit BLP_Spec BLP_Proofs.
Import ListNotations.
Open Scope R_scope.

(** minimise (2 s2 - s1 + 2)^2 + (s0 - 2 s1 + 2 s2 - 2)^2 + (-3 s0 + 3 s1 - 2 s2 + 2)^2
    over s0 <= 1, 0 <= s1 <= 3, 0 <= s2 <= 1 *)
Definition cA : mat := fun i j => match i, j with
  | O, 1%nat => -1 | O, 2%nat => 2
  | 1%nat, O => 1 | 1%nat, 1%nat => -2 | 1%nat, 2%nat => 2
  | 2%nat, O => -3 | 2%nat, 1%nat => 3 | 2%nat, 2%nat => -2 | _, _ => 0 end.
Definition cb : vec := v3 (-2) 2 (-2).
Definition cl : nat -> xR := x3 NInf (Fin 0) (Fin 0).
Definition cu : nat -> xR := x3 (Fin 1) (Fin 3) (Fin 1).
Definition cpin (free : list nat) (r : vec) : option vec :=
  let h0 := r 1%nat - 3 * r 2%nat in
  let h1 := - r 0%nat - 2 * r 1%nat + 3 * r 2%nat in
  let h2 := 2 * r 0%nat + 2 * r 1%nat - 2 * r 2%nat in
  Some (match free with
  | [0; 1; 2]%nat => v3 (r 0%nat - 2 * r 1%nat - r 2%nat) (2 * r 0%nat - 3 * r 1%nat - r 2%nat)
                        ((3 * r 0%nat - 3 * r 1%nat - r 2%nat) / 2)
  | [0; 1]%nat => v3 ((14 * h0 + 11 * h1) / 19) ((10 * h1 + 11 * h0) / 19) 0
  | [0; 2]%nat => v3 ((12 * h0 - 8 * h2) / 56) 0 ((10 * h2 - 8 * h0) / 56)
  | [1; 2]%nat => v3 0 ((12 * h1 + 12 * h2) / 24) ((14 * h2 + 12 * h1) / 24)
  | [0]%nat => v3 (h0 / 10) 0 0
  | [1]%nat => v3 0 (h1 / 14) 0
  | [2]%nat => v3 0 0 (h2 / 12)
  | _ => vzero
  end).

Lemma cpin_exact : pinv_exact 3 3 cA cpin.
Proof.
  intros f rhs free. eexists. split; [reflexivity|]. apply (orth_min 3 cA free).
  unfold free. cbn [seq filter]. destruct (f 0%nat), (f 1%nat), (f 2%nat); cbn [cpin];
    intros j Hj; cbn in Hj; repeat destruct Hj as [<-|Hj]; try contradiction; cbn; field.
Qed.

Lemma c_proper : proper_bounds 3 cl cu.
Proof. intros i Hi. exists 0. destruct i as [|[|[|i]]]; [| | |lia]; cbn; lra. Qed.

(** the columns are independent *)
Lemma c_rank s : (forall i, (i < 3)%nat -> mv 3 cA s i = 0) -> forall i, (i < 3)%nat -> s i = 0.
Proof.
  intros H. pose proof (H 0%nat ltac:(lia)) as H0. pose proof (H 1%nat ltac:(lia)) as H1. pose proof (H 2%nat ltac:(lia)) as H2.
  unfold mv in H0, H1, H2. cbn [rsum cA] in H0, H1, H2.
  intros i Hi. destruct i as [|[|[|i]]]; [| | |lia]; lra.
Qed.

Definition at3 (s : vec) (a b c : R) : Prop := s 0%nat = a /\ s 1%nat = b /\ s 2%nat = c.

Ltac c3 := cbn [rsum cA cl cu cb x3 v3 csum fold_right].

Lemma grad3 s a b c : at3 s a b c ->
  at3 (misfit_grad 3 3 cA cb s) (10 * a - 11 * b + 8 * c - 8) (-11 * a + 14 * b - 12 * c + 8) (8 * a - 12 * b + 12 * c - 4).
Proof.
  intros [E0 [E1 E2]]. unfold at3, misfit_grad, mv. c3. rewrite E0, E1, E2. repeat split; ring.
Qed.

Lemma misfit3 s a b c : at3 s a b c -> misfit 3 3 cA cb s =
  sqrt ((2 * c - b + 2) * (2 * c - b + 2) + (a - 2 * b + 2 * c - 2) * (a - 2 * b + 2 * c - 2)
        + (-3 * a + 3 * b - 2 * c + 2) * (-3 * a + 3 * b - 2 * c + 2)).
Proof.
  intros [E0 [E1 E2]]. unfold misfit, norm. f_equal. unfold dot, vsub, mv. c3. rewrite E0, E1, E2. ring.
Qed.

Lemma cauchy3 s a b c x0 x1 x2 al : at3 s a b c ->
  (let g0 := 10 * a - 11 * b + 8 * c - 8 in let g1 := -11 * a + 14 * b - 12 * c + 8 in let g2 := 8 * a - 12 * b + 12 * c - 4 in
   al * ((2 * g2 - g1) * (2 * g2 - g1) + (g0 - 2 * g1 + 2 * g2) * (g0 - 2 * g1 + 2 * g2)
        + (-3 * g0 + 3 * g1 - 2 * g2) * (-3 * g0 + 3 * g1 - 2 * g2)) = g0 * g0 + g1 * g1 + g2 * g2 /\
   0 < (2 * g2 - g1) * (2 * g2 - g1) + (g0 - 2 * g1 + 2 * g2) * (g0 - 2 * g1 + 2 * g2)
        + (-3 * g0 + 3 * g1 - 2 * g2) * (-3 * g0 + 3 * g1 - 2 * g2) /\
   Rmin (a - al * g0) 1 = x0 /\ Rmax (Rmin (b - al * g1) 3) 0 = x1 /\ Rmax (Rmin (c - al * g2) 1) 0 = x2) ->
  at3 (cauchy_point 3 3 cA cb cl cu s 0) x0 x1 x2.
Proof.
  intros E H. pose proof (grad3 s a b c E) as [G0 [G1 G2]]. destruct E as [E0 [E1 E2]]. cbv zeta in H.
  destruct H as [H1 [H2 [H3 [H4 H5]]]].
  unfold at3, cauchy_point. set (g := misfit_grad 3 3 cA cb s) in *.
  assert (Eal : dot 3 g g / dot 3 (mv 3 cA g) (mv 3 cA g) * / 2 ^ 0 = al).
  { set (g0 := 10 * a - 11 * b + 8 * c - 8) in *. set (g1 := -11 * a + 14 * b - 12 * c + 8) in *.
    set (g2 := 8 * a - 12 * b + 12 * c - 4) in *. clearbody g g0 g1 g2.
    replace (dot 3 g g) with (g0 * g0 + g1 * g1 + g2 * g2) by (unfold dot; c3; rewrite G0, G1, G2; ring).
    rewrite <- H1. set (N := _ + _ + _) in *.
    replace (dot 3 (mv 3 cA g) (mv 3 cA g)) with N by (unfold N, dot, mv; c3; rewrite G0, G1, G2; ring).
    clearbody N. cbn [pow]. field. lra. }
  rewrite Eal. unfold proj. c3. rewrite E0, E1, E2, G0, G1, G2. repeat split; assumption.
Qed.

Lemma reached3 e x l (f : nat -> bool) : bounds_reached 3 e x l ->
  (forall i, (i < 3)%nat -> (near_bound e x i <-> f i = true)) -> l = filter f (seq 0 3).
Proof.
  intros [H1 [f' ->]] H. apply filter_ext_in. intros i Hi. apply in_seq in Hi.
  specialize (H i ltac:(lia)). specialize (H1 i). rewrite filter_In, in_seq in H1.
  destruct (f' i) eqn:E.
  - symmetry. apply H. apply H1. split; [lia|reflexivity].
  - destruct (f i); [|reflexivity]. assert (K : near_bound e x i) by (apply H; reflexivity).
    destruct H1 as [_ H1]. destruct H1 as [_ H1]; [split; [lia|exact K]|]. discriminate.
Qed.

(** the start of an iteration, when the first step is accepted *)
Lemma start3 s y lo up x0 x1 x2 (fl fu : nat -> bool) :
  at3 (cauchy_point 3 3 cA cb cl cu s 0) x0 x1 x2 -> cauchy_good 3 3 cA cb cl cu s 0 ->
  (forall x, at3 x x0 x1 x2 -> (forall i, (i < 3)%nat -> (near_bound cl x i <-> fl i = true)) /\
     (forall i, (i < 3)%nat -> (near_bound cu x i <-> fu i = true))) ->
  start_point 3 3 cA cb cl cu s y lo up ->
  lo = filter fl (seq 0 3) /\ up = filter fu (seq 0 3) /\
  forall i, (i < 3)%nat -> y i = if listed up i then xval (cu i) else if listed lo i then xval (cl i)
    else cauchy_point 3 3 cA cb cl cu s 0 i.
Proof.
  intros E G HF [k [H1 [H2 [H3 [H4 [H5 H6]]]]]].
  assert (k = 0)%nat as ->. { destruct k as [|k]; [reflexivity|]. exfalso. apply (H3 0%nat); [lia|exact G]. }
  destruct (HF _ E) as [F1 F2].
  split; [apply (reached3 cl _ _ fl H4 F1)|]. split; [apply (reached3 cu _ _ fu H5 F2)|exact H6].
Qed.

Lemma good3 s a b c x0 x1 x2 : at3 s a b c -> at3 (cauchy_point 3 3 cA cb cl cu s 0) x0 x1 x2 ->
  (let g0 := 10 * a - 11 * b + 8 * c - 8 in let g1 := -11 * a + 14 * b - 12 * c + 8 in let g2 := 8 * a - 12 * b + 12 * c - 4 in
   let d0 := x0 - a in let d1 := x1 - b in let d2 := x2 - c in
   g0 * d0 + g1 * d1 + g2 * d2 + 1 / 2 * ((2 * d2 - d1) * (2 * d2 - d1) + (d0 - 2 * d1 + 2 * d2) * (d0 - 2 * d1 + 2 * d2)
     + (-3 * d0 + 3 * d1 - 2 * d2) * (-3 * d0 + 3 * d1 - 2 * d2)) <= 1 / 100 * (g0 * d0 + g1 * d1 + g2 * d2)) ->
  cauchy_good 3 3 cA cb cl cu s 0.
Proof.
  intros E [C0 [C1 C2]] H. pose proof (grad3 s a b c E) as [G0 [G1 G2]]. destruct E as [E0 [E1 E2]]. cbv zeta in H.
  unfold cauchy_good. set (cp := cauchy_point 3 3 cA cb cl cu s 0) in *. set (g := misfit_grad 3 3 cA cb s) in *.
  clearbody cp g. unfold dot, mv, vsub. c3. rewrite C0, C1, C2, E0, E1, E2, G0, G1, G2.
  eapply Rle_trans; [right|eapply Rle_trans; [exact H|right]]; ring.
Qed.

Lemma near_fin e x i a t : e i = Fin a -> x i = t -> (near_bound e x i <-> Rabs (t - a) <= 1 / 10 ^ 12).
Proof.
  intros E <-. unfold near_bound. rewrite E. split.
  - intros [a' [Ea H]]. injection Ea as <-. exact H.
  - intros H. exists a. split; [reflexivity|exact H].
Qed.
Lemma near_inf e x i : (forall a, e i <> Fin a) -> ~ near_bound e x i.
Proof. intros H [a [E _]]. exact (H a E). Qed.

Ltac nb := unfold Rabs; match goal with |- context [Rcase_abs ?a] => destruct (Rcase_abs a) end;
  split; intros; first [lra | discriminate | reflexivity].

(** targets *)
Lemma target3 lo up t : target 3 cA cb cl cu cpin lo up t -> forall p,
  cpin (loose 3 lo up) (fun i => cb i - fold_right (fun j acc => cA i j * xval (cl j) + acc) 0 lo
                                  - fold_right (fun j acc => cA i j * xval (cu j) + acc) 0 up) = Some p ->
  forall i, (i < 3)%nat -> t i = if listed up i then xval (cu i) else if listed lo i then xval (cl i) else p i.
Proof. intros [p' [E H]] p Ep i Hi. rewrite E in Ep. injection Ep as <-. apply H. exact Hi. Qed.

Ltac tg H := let p := fresh in
  repeat split; (erewrite (target3 _ _ _ H) by (try reflexivity; lia)); cbn; field.

Lemma target_1_2 t : target 3 cA cb cl cu cpin [1%nat] [2%nat] t -> at3 t 0 0 1.
Proof. intros H. tg H. Qed.
Lemma target_none t : target 3 cA cb cl cu cpin [] [] t -> at3 t (-4) (-8) (-5).
Proof. intros H. tg H. Qed.
Lemma target_12 t : target 3 cA cb cl cu cpin [1; 2]%nat [] t -> at3 t (4 / 5) 0 0.
Proof. intros H. tg H. Qed.
Lemma target_2 t : target 3 cA cb cl cu cpin [2%nat] [] t -> at3 t (24 / 19) (8 / 19) 0.
Proof. intros H. tg H. Qed.
Lemma target_212 t : target 3 cA cb cl cu cpin [2; 1; 2]%nat [] t -> at3 t (4 / 5) 0 0.
Proof. intros H. tg H. Qed.

(** inside or outside the bounds *)
Lemma outside_iff lb ub l t : outside lb ub l t <-> exists i, In i l /\ (~ xle_r (lb i) (t i) \/ ~ rle_x (t i) (ub i)).
Proof.
  rewrite <- exists_outside, existsb_exists. split; intros [i [Hi H]]; exists i; (split; [exact Hi|]).
  - apply orb_true_iff in H. destruct H as [H|H]; apply negb_true_iff in H; [left|right]; intros K.
    + apply xler_true in K. congruence.
    + apply rlex_true in K. congruence.
  - apply orb_true_iff. destruct H as [H|H]; [left|right]; apply negb_true_iff.
    + destruct (xler (lb i) (t i)) eqn:E; [|reflexivity]. exfalso. apply H. apply xler_true. exact E.
    + destruct (rlex (t i) (ub i)) eqn:E; [|reflexivity]. exfalso. apply H. apply rlex_true. exact E.
Qed.

Lemma in3 s a b c l : at3 s a b c -> a <= 1 -> 0 <= b <= 3 -> 0 <= c <= 1 -> (forall i, In i l -> (i < 3)%nat) ->
  ~ outside cl cu l s.
Proof.
  intros [E0 [E1 E2]] Ha Hb Hc Hl. rewrite outside_iff. intros [i [Hi H]]. specialize (Hl i Hi).
  destruct i as [|[|[|i]]]; [| | |lia]; cbn in H; rewrite ?E0, ?E1, ?E2 in H; lra.
Qed.

Lemma loose_lt n lo up i : In i (loose n lo up) -> (i < n)%nat.
Proof. unfold loose. rewrite filter_In, in_seq. lia. Qed.

(** a pass whose target is inside the bounds *)
Lemma passes_in k x z a b c : passes 3 3 cA cb cl cu cpin (S k) x z ->
  (forall t, target 3 cA cb cl cu cpin (held_lo x) (held_up x) t -> at3 t a b c) ->
  a <= 1 -> 0 <= b <= 3 -> 0 <= c <= 1 ->
  at3 (where_ z) a b c /\ failed z = failed x /\ crossed_lo z = crossed_lo x /\ crossed_up z = crossed_up x.
Proof.
  intros H Ht Ha Hb Hc.
  assert (K : forall y o, pass 3 3 cA cb cl cu cpin x y o ->
    o = true /\ at3 (where_ y) a b c /\ failed y = failed x /\ crossed_lo y = crossed_lo x /\ crossed_up y = crossed_up x).
  { intros y o Hp. destruct Hp as [t T N E1 E2 E3 E4 E5 E6|t k0 T l O|t a0 T l O].
    - split; [reflexivity|]. destruct (Ht t T) as [T0 [T1 T2]].
      split; [|repeat split; assumption]. split; [|split]; rewrite E1 by lia; assumption.
    - exfalso. revert O. eapply in3; eauto. intros i Hi. eapply loose_lt; exact Hi.
    - exfalso. revert O. eapply in3; eauto. intros i Hi. eapply loose_lt; exact Hi. }
  inversion H as [|k0 x0 y Hp|k0 x0 y z0 Hp Hq]; subst.
  - apply K in Hp. tauto.
  - apply K in Hp. destruct Hp as [Hp _]. discriminate.
Qed.

(** a pass whose target is outside *)
Lemma passes_out k x z i : passes 3 3 cA cb cl cu cpin (S k) x z ->
  (forall t, target 3 cA cb cl cu cpin (held_lo x) (held_up x) t ->
     In i (loose 3 (held_lo x) (held_up x)) /\ (~ xle_r (cl i) (t i) \/ ~ rle_x (t i) (cu i)) /\
     (failed x = false -> forall j, (j < 4)%nat -> rejected 3 3 cA cb cl cu (loose 3 (held_lo x) (held_up x)) (where_ x) t j)) ->
  exists y t, passes 3 3 cA cb cl cu cpin k y z /\ target 3 cA cb cl cu cpin (held_lo x) (held_up x) t /\
    (exists a, longest cl cu (loose 3 (held_lo x) (held_up x)) (where_ x) (fun i => t i - where_ x i) a /\
       forall i, (i < 3)%nat -> where_ y i = where_ x i + a * (t i - where_ x i)) /\
    failed y = true /\ held_lo y = held_lo x ++ crossed_lo y /\ held_up y = held_up x ++ crossed_up y /\
    (if failed x then crossed_lo y = crossed_lo x /\ crossed_up y = crossed_up x
     else crossed_lo y = under cl (loose 3 (held_lo x) (held_up x)) (trial (where_ x) t 3) /\
          crossed_up y = over cu (loose 3 (held_lo x) (held_up x)) (trial (where_ x) t 3)).
Proof.
  intros H Ht.
  assert (K : forall y o, pass 3 3 cA cb cl cu cpin x y o -> o = false /\ exists t,
     target 3 cA cb cl cu cpin (held_lo x) (held_up x) t /\
    (exists a, longest cl cu (loose 3 (held_lo x) (held_up x)) (where_ x) (fun i => t i - where_ x i) a /\
       forall i, (i < 3)%nat -> where_ y i = where_ x i + a * (t i - where_ x i)) /\
    failed y = true /\ held_lo y = held_lo x ++ crossed_lo y /\ held_up y = held_up x ++ crossed_up y /\
    (if failed x then crossed_lo y = crossed_lo x /\ crossed_up y = crossed_up x
     else crossed_lo y = under cl (loose 3 (held_lo x) (held_up x)) (trial (where_ x) t 3) /\
          crossed_up y = over cu (loose 3 (held_lo x) (held_up x)) (trial (where_ x) t 3))).
  { intros y o Hp. destruct Hp as [t T N|t k0 T l O Hf Hk Hr Ho Ha|t a0 T l O Hc HL Hw E1 E2].
    - exfalso. apply N. apply outside_iff. exists i. destruct (Ht t T) as [J1 [J2 _]]. split; assumption.
    - exfalso. destruct (Ht t T) as [_ [_ J3]]. destruct (J3 Hf k0 Hk) as [_ J4]. exact (J4 Ha).
    - split; [reflexivity|]. exists t. split; [exact T|].
      split; [exists a0; split; [exact HL|exact Hw]|]. destruct (failed x) eqn:Ef.
      + destruct Hc as [C1 [C2 C3]]. repeat split; assumption.
      + destruct (Ht t T) as [_ [_ J3]]. specialize (J3 eq_refl).
        destruct Hc as [[k0 [K1 [K2 [K3 K4]]]]|[K1 [K2 [K3 K4]]]].
        * exfalso. destruct (J3 k0 K1) as [J4 _]. exact (K3 J4).
        * repeat split; assumption. }
  inversion H as [|k0 x0 y Hp|k0 x0 y z0 Hp Hq]; subst.
  - apply K in Hp. destruct Hp as [Hp _]. discriminate.
  - apply K in Hp. destruct Hp as [_ [t Hp]]. exists y, t. split; [exact Hq|exact Hp].
Qed.

Lemma sqrt_gt u v : 0 <= u -> u * u < v -> u < sqrt v.
Proof.
  intros Hu H. pose proof (sqrt_lt_1_alt (u * u) v) as K. rewrite sqrt_square in K by exact Hu. apply K.
  split; [apply Rle_0_sqr|exact H].
Qed.
Lemma sqrt_lt_le u v : 0 <= v -> 0 <= u -> v < u * u -> sqrt v < u.
Proof.
  intros Hv Hu H. pose proof (sqrt_lt_1_alt v (u * u)) as K. rewrite sqrt_square in K by exact Hu. apply K. split; assumption.
Qed.

Lemma misfit_pos s a b c : at3 s a b c ->
  1 / 100 < (2 * c - b + 2) * (2 * c - b + 2) + (a - 2 * b + 2 * c - 2) * (a - 2 * b + 2 * c - 2)
        + (-3 * a + 3 * b - 2 * c + 2) * (-3 * a + 3 * b - 2 * c + 2) -> 1 / 10 ^ 11 < misfit 3 3 cA cb s.
Proof.
  intros E H. rewrite (misfit3 s a b c E). apply sqrt_gt; [lra|]. eapply Rlt_trans; [|exact H]. lra.
Qed.

Lemma not_good3 s a b c x0 x1 x2 : at3 s a b c ->
  (let g0 := 10 * a - 11 * b + 8 * c - 8 in let g1 := -11 * a + 14 * b - 12 * c + 8 in let g2 := 8 * a - 12 * b + 12 * c - 4 in
   Rmin (a - g0) 1 = x0 /\ Rmax (Rmin (b - g1) 3) 0 = x1 /\ Rmax (Rmin (c - g2) 1) 0 = x2) ->
  1 / 100 < (x0 - a) * (x0 - a) + (x1 - b) * (x1 - b) + (x2 - c) * (x2 - c) ->
  1 / 100 < (2 * c - b + 2) * (2 * c - b + 2) + (a - 2 * b + 2 * c - 2) * (a - 2 * b + 2 * c - 2)
        + (-3 * a + 3 * b - 2 * c + 2) * (-3 * a + 3 * b - 2 * c + 2) -> ~ good 3 3 cA cb cl cu s.
Proof.
  intros E H H1 H2 [G|G].
  - cbv zeta in H. destruct H as [X0 [X1 X2]]. pose proof (grad3 s a b c E) as [G0 [G1 G2]].
    destruct E as [E0 [E1 E2]]. apply Rle_not_lt in G. apply G. unfold stationarity, norm. apply sqrt_gt; [lra|].
    eapply Rlt_trans; [|eapply Rlt_le_trans; [exact H1|right]]; [lra|].
    set (g := misfit_grad 3 3 cA cb s) in *. clearbody g.
    unfold dot, vsub, proj. c3. rewrite G0, G1, G2, E0, E1, E2, X0, X1, X2. ring.
  - pose proof (misfit_pos s a b c E H2). lra.
Qed.

Ltac eq_of y := match goal with HY : forall i, (i < 3)%nat -> y i = _ |- _ => rewrite HY by lia end.
Ltac fs := let i := fresh in let Hi := fresh in intros i Hi; destruct i as [|[|[|i]]]; [| | |lia].

(** first iteration *)
Lemma it1_start s y lo up : at3 s (-4) 0 0 -> start_point 3 3 cA cb cl cu s y lo up ->
  lo = [1%nat] /\ up = [2%nat] /\ at3 y (-16036 / 6373) 0 1.
Proof.
  intros E H.
  assert (C : at3 (cauchy_point 3 3 cA cb cl cu s 0) (-16036 / 6373) 0 1).
  { apply (cauchy3 s (-4) 0 0 _ _ _ (197 / 6373) E). cbv zeta. repeat split; try lra; mm. }
  assert (G : cauchy_good 3 3 cA cb cl cu s 0).
  { apply (good3 s (-4) 0 0 _ _ _ E C). cbv zeta. lra. }
  destruct (start3 s y lo up (-16036 / 6373) 0 1 (fun i => Nat.eqb i 1) (fun i => Nat.eqb i 2) C G) as [-> [-> HY]]; [|exact H|].
  - intros x [X0 [X1 X2]]. split; fs.
    + split; [intros K; exfalso; revert K; apply near_inf; discriminate|discriminate].
    + rewrite (near_fin cl x 1 0 0 eq_refl X1). nb.
    + rewrite (near_fin cl x 2 0 1 eq_refl X2). nb.
    + rewrite (near_fin cu x 0 1 _ eq_refl X0). nb.
    + rewrite (near_fin cu x 1 3 _ eq_refl X1). nb.
    + rewrite (near_fin cu x 2 1 _ eq_refl X2). nb.
  - split; [reflexivity|]. split; [reflexivity|]. destruct C as [C0 [C1 C2]].
    split; [|split]; rewrite HY by lia; cbn -[cauchy_point]; [exact C0|reflexivity|reflexivity].
Qed.

(** second iteration *)
Lemma it2_start s y lo up : at3 s 0 0 1 -> start_point 3 3 cA cb cl cu s y lo up ->
  lo = [] /\ up = [] /\ at3 y 0 (2 / 11) (7 / 11).
Proof.
  intros E H.
  assert (C : at3 (cauchy_point 3 3 cA cb cl cu s 0) 0 (2 / 11) (7 / 11)).
  { apply (cauchy3 s 0 0 1 _ _ _ (1 / 22) E). cbv zeta. repeat split; try lra; mm. }
  assert (G : cauchy_good 3 3 cA cb cl cu s 0).
  { apply (good3 s 0 0 1 _ _ _ E C). cbv zeta. lra. }
  destruct (start3 s y lo up 0 (2 / 11) (7 / 11) (fun i => false) (fun i => false) C G) as [-> [-> HY]]; [|exact H|].
  - intros x [X0 [X1 X2]]. split; fs.
    + split; [intros K; exfalso; revert K; apply near_inf; discriminate|discriminate].
    + rewrite (near_fin cl x 1 0 _ eq_refl X1). nb.
    + rewrite (near_fin cl x 2 0 _ eq_refl X2). nb.
    + rewrite (near_fin cu x 0 1 _ eq_refl X0). nb.
    + rewrite (near_fin cu x 1 3 _ eq_refl X1). nb.
    + rewrite (near_fin cu x 2 1 _ eq_refl X2). nb.
  - split; [reflexivity|]. split; [reflexivity|]. destruct C as [C0 [C1 C2]].
    split; [|split]; rewrite HY by lia; cbn -[cauchy_point]; assumption.
Qed.

(** the later ones *)
Lemma it3_start s y lo up : at3 s (4 / 5) 0 0 -> start_point 3 3 cA cb cl cu s y lo up ->
  lo = [2%nat] /\ up = [] /\ at3 y (4 / 5) (4 / 97) 0.
Proof.
  intros E H.
  assert (C : at3 (cauchy_point 3 3 cA cb cl cu s 0) (4 / 5) (4 / 97) 0).
  { apply (cauchy3 s (4 / 5) 0 0 _ _ _ (5 / 97) E). cbv zeta. repeat split; try lra; mm. }
  assert (G : cauchy_good 3 3 cA cb cl cu s 0).
  { apply (good3 s (4 / 5) 0 0 _ _ _ E C). cbv zeta. lra. }
  destruct (start3 s y lo up (4 / 5) (4 / 97) 0 (fun i => Nat.eqb i 2) (fun i => false) C G) as [-> [-> HY]]; [|exact H|].
  - intros x [X0 [X1 X2]]. split; fs.
    + split; [intros K; exfalso; revert K; apply near_inf; discriminate|discriminate].
    + rewrite (near_fin cl x 1 0 _ eq_refl X1). nb.
    + rewrite (near_fin cl x 2 0 _ eq_refl X2). nb.
    + rewrite (near_fin cu x 0 1 _ eq_refl X0). nb.
    + rewrite (near_fin cu x 1 3 _ eq_refl X1). nb.
    + rewrite (near_fin cu x 2 1 _ eq_refl X2). nb.
  - split; [reflexivity|]. split; [reflexivity|]. destruct C as [C0 [C1 C2]].
    split; [|split]; rewrite HY by lia; cbn -[cauchy_point]; [assumption|assumption|reflexivity].
Qed.

Lemma good_it1 s : at3 s (-4) 0 0 -> cauchy_good 3 3 cA cb cl cu s 0.
Proof.
  intros E. apply (good3 s (-4) 0 0 (-16036 / 6373) 0 1 E); [|cbv zeta; lra].
  apply (cauchy3 s (-4) 0 0 _ _ _ (197 / 6373) E). cbv zeta. repeat split; try lra; mm.
Qed.
Lemma good_it2 s : at3 s 0 0 1 -> cauchy_good 3 3 cA cb cl cu s 0.
Proof.
  intros E. apply (good3 s 0 0 1 0 (2 / 11) (7 / 11) E); [|cbv zeta; lra].
  apply (cauchy3 s 0 0 1 _ _ _ (1 / 22) E). cbv zeta. repeat split; try lra; mm.
Qed.
Lemma good_it3 s : at3 s (4 / 5) 0 0 -> cauchy_good 3 3 cA cb cl cu s 0.
Proof.
  intros E. apply (good3 s (4 / 5) 0 0 (4 / 5) (4 / 97) 0 E); [|cbv zeta; lra].
  apply (cauchy3 s (4 / 5) 0 0 _ _ _ (5 / 97) E). cbv zeta. repeat split; try lra; mm.
Qed.

(** the searches *)
Lemma it1_passes y z : at3 y (-16036 / 6373) 0 1 ->
  passes 3 3 cA cb cl cu cpin 3 (Place y [1%nat] [2%nat] false [] []) z ->
  at3 (where_ z) 0 0 1 /\ failed z = false /\ crossed_lo z = [] /\ crossed_up z = [].
Proof. intros E H. apply (passes_in 2 _ _ 0 0 1 H); try lra. exact target_1_2. Qed.

Lemma it2_rejected y t : at3 y 0 (2 / 11) (7 / 11) -> at3 t (-4) (-8) (-5) ->
  forall j, (j < 4)%nat -> rejected 3 3 cA cb cl cu (loose 3 [] []) y t j.
Proof.
  intros E T j Hj.
  assert (B : exists a, at3 (inside cl cu (trial y t j)) a 0 0 /\ a <= - (1 / 2) /\ trial y t j 1%nat < 0).
  { destruct E as [E0 [E1 E2]]. destruct T as [T0 [T1 T2]].
    unfold at3, inside, trial, proj. c3. rewrite E0, E1, E2, T0, T1, T2. exists (- 4 * / 2 ^ j).
    assert (P : 1 / 8 <= / 2 ^ j <= 1) by (destruct j as [|[|[|[|j]]]]; [| | | |lia]; cbn; lra).
    set (q := / 2 ^ j) in *. clearbody q. repeat split; try lra; mm. }
  destruct B as [a [B [Ba Bb]]]. split.
  - apply outside_iff. exists 1%nat. split; [right; left; reflexivity|]. left. cbn. lra.
  - unfold accepted. rewrite (misfit3 _ _ _ _ B), (misfit3 _ _ _ _ E), (misfit3 _ _ _ _ T).
    match goal with |- ~ sqrt ?u <= sqrt ?v + _ * (_ - sqrt ?w) =>
      assert (U : 4 < sqrt u) by (apply sqrt_gt; nra);
      assert (V : sqrt v < 36 / 10) by (apply sqrt_lt_le; lra);
      pose proof (sqrt_pos w) as W; pose proof (sqrt_pos v) as V0;
      set (su := sqrt u) in *; set (sv := sqrt v) in *; set (sw := sqrt w) in *; clearbody su sv sw end.
    assert (P : 1 / 8 <= / 2 ^ j <= 1) by (destruct j as [|[|[|[|j]]]]; [| | | |lia]; cbn; lra).
    set (q := / 2 ^ j) in *. clearbody q. intros K. nra.
Qed.

Lemma it2_passes y z : at3 y 0 (2 / 11) (7 / 11) ->
  passes 3 3 cA cb cl cu cpin 3 (Place y [] [] false [] []) z ->
  at3 (where_ z) (4 / 5) 0 0 /\ failed z = true /\ crossed_lo z = [1; 2]%nat /\ crossed_up z = [].
Proof.
  intros E H. destruct (passes_out 2 _ _ 1 H) as [y' [t [HP [T [_ [F [L [U C]]]]]]]].
  { cbn [held_lo held_up failed where_]. intros t T. apply target_none in T.
    split; [right; left; reflexivity|]. split; [left; destruct T as [_ [T1 _]]; cbn; rewrite T1; lra|].
    intros _. apply it2_rejected; assumption. }
  cbn [held_lo held_up failed where_ app] in *. apply target_none in T.
  assert (Q : at3 (trial y t 3) (- (1 / 2)) (- (37 / 44)) (- (3 / 44))).
  { destruct E as [E0 [E1 E2]]. destruct T as [T0 [T1 T2]]. unfold at3, trial. rewrite E0, E1, E2, T0, T1, T2.
    cbn. repeat split; lra. }
  destruct Q as [Q0 [Q1 Q2]].
  assert (CL : crossed_lo y' = [1; 2]%nat).
  { destruct C as [-> _]. unfold under. change (loose 3 [] []) with [0; 1; 2]%nat.
    cbn [filter cl x3 xler]. rewrite Q1, Q2.
    rewrite (proj2 (Rleb_false 0 (- (37 / 44)))) by lra. rewrite (proj2 (Rleb_false 0 (- (3 / 44)))) by lra. reflexivity. }
  assert (CU : crossed_up y' = []).
  { destruct C as [_ ->]. unfold over. change (loose 3 [] []) with [0; 1; 2]%nat.
    cbn [filter cu x3 rlex]. rewrite Q0, Q1, Q2.
    rewrite (proj2 (Rleb_true (- (1 / 2)) 1)) by lra. rewrite (proj2 (Rleb_true (- (37 / 44)) 3)) by lra.
    rewrite (proj2 (Rleb_true (- (3 / 44)) 1)) by lra. reflexivity. }
  destruct (passes_in 1 _ _ (4 / 5) 0 0 HP) as [P1 [P2 [P3 P4]]]; try lra.
  - rewrite L, U, CL, CU. exact target_12.
  - split; [exact P1|]. rewrite P2, P3, P4. repeat split; assumption.
Qed.

Lemma it3_passes y z : at3 y (4 / 5) (4 / 97) 0 ->
  passes 3 3 cA cb cl cu cpin 3 (Place y [2%nat] [] true [1; 2]%nat []) z ->
  at3 (where_ z) (4 / 5) 0 0 /\ failed z = true /\ crossed_lo z = [1; 2]%nat /\ crossed_up z = [].
Proof.
  intros E H. destruct (passes_out 2 _ _ 0 H) as [y' [t [HP [T [_ [F [L [U C]]]]]]]].
  { cbn [held_lo held_up failed where_]. intros t T. apply target_2 in T.
    split; [left; reflexivity|]. split; [right; destruct T as [T0 _]; cbn; rewrite T0; lra|].
    intros K. discriminate. }
  cbn [held_lo held_up failed where_ app crossed_lo crossed_up] in *. destruct C as [CL CU].
  destruct (passes_in 1 _ _ (4 / 5) 0 0 HP) as [P1 [P2 [P3 P4]]]; try lra.
  - rewrite L, U, CL, CU. exact target_212.
  - split; [exact P1|]. rewrite P2, P3, P4. repeat split; assumption.
Qed.

(** the points reached are not solutions *)
Lemma not_good_1 s : at3 s 0 0 1 -> ~ good 3 3 cA cb cl cu s.
Proof. intros E. apply (not_good3 s 0 0 1 0 3 0 E); cbv zeta; [repeat split; mm|lra|lra]. Qed.
Lemma not_good_2 s : at3 s (4 / 5) 0 0 -> ~ good 3 3 cA cb cl cu s.
Proof. intros E. apply (not_good3 s (4 / 5) 0 0 (4 / 5) (4 / 5) 0 E); cbv zeta; [repeat split; mm|lra|lra]. Qed.
Lemma not_good_0 s : at3 s (-4) 0 0 -> ~ good 3 3 cA cb cl cu s.
Proof. intros E. apply (not_good3 s (-4) 0 0 1 0 1 E); cbv zeta; [repeat split; mm|lra|lra]. Qed.

(** going round *)
Lemma circle left : forall nit s x c k, at3 s (4 / 5) 0 0 ->
  rounds 3 3 cA cb cl cu cpin left nit s true [1; 2]%nat [] x c k ->
  at3 x (4 / 5) 0 0 /\ k = (nit + left)%nat /\ c = (if Nat.leb 6 (nit + left) then 1 else 0)%Z.
Proof.
  induction left as [|left IH]; intros nit s x c k E H.
  - inversion H; subst. rewrite Nat.add_0_r. split; [exact E|]. split; reflexivity.
  - inversion H as [|? ? ? ? ? ? HK|? ? ? ? ? ? y lo up HS HV|? ? ? ? ? ? y lo up z HS HL HM HP HG
      |? ? ? ? ? ? y lo up z x' c' k' HS HL HM HP HG HR]; subst.
    + exfalso. apply (HK 0%nat); [lia|]. apply good_it3. exact E.
    + exfalso. destruct (it3_start s x lo up E HS) as [-> [-> Y]]. destruct HV as [HV|HV]; [discriminate|].
      apply Rle_not_lt in HV. apply HV. apply (misfit_pos _ _ _ _ Y). lra.
    + exfalso. destruct (it3_start s y lo up E HS) as [-> [-> Y]]. apply it3_passes in HP; [|exact Y].
      destruct HP as [Z _]. exact (not_good_2 _ Z HG).
    + destruct (it3_start s y lo up E HS) as [-> [-> Y]]. apply it3_passes in HP; [|exact Y].
      destruct HP as [Z [F [CL CU]]]. rewrite F, CL, CU in HR. apply IH in HR; [|exact Z].
      replace (nit + S left)%nat with (S nit + left)%nat by lia. exact HR.
Qed.

Lemma circle2 left nit s x c k : at3 s 0 0 1 ->
  rounds 3 3 cA cb cl cu cpin (S left) nit s false [] [] x c k ->
  at3 x (4 / 5) 0 0 /\ k = (nit + S left)%nat /\ c = (if Nat.leb 6 (nit + S left) then 1 else 0)%Z.
Proof.
  intros E H.
  inversion H as [|? ? ? ? ? ? HK|? ? ? ? ? ? y lo up HS HV|? ? ? ? ? ? y lo up z HS HL HM HP HG
      |? ? ? ? ? ? y lo up z x' c' k' HS HL HM HP HG HR]; subst.
  - exfalso. apply (HK 0%nat); [lia|]. apply good_it2. exact E.
  - exfalso. destruct (it2_start s x lo up E HS) as [-> [-> Y]]. destruct HV as [HV|HV]; [discriminate|].
    apply Rle_not_lt in HV. apply HV. apply (misfit_pos _ _ _ _ Y). lra.
  - exfalso. destruct (it2_start s y lo up E HS) as [-> [-> Y]]. apply it2_passes in HP; [|exact Y].
    destruct HP as [Z _]. exact (not_good_2 _ Z HG).
  - destruct (it2_start s y lo up E HS) as [-> [-> Y]]. apply it2_passes in HP; [|exact Y].
    destruct HP as [Z [F [CL CU]]]. rewrite F, CL, CU in HR. apply circle in HR; [|exact Z].
    replace (nit + S left)%nat with (S nit + left)%nat by lia. exact HR.
Qed.

Lemma circle1 left nit s x c k : at3 s (-4) 0 0 ->
  rounds 3 3 cA cb cl cu cpin (S (S left)) nit s false [] [] x c k ->
  at3 x (4 / 5) 0 0 /\ k = (nit + S (S left))%nat /\ c = (if Nat.leb 6 (nit + S (S left)) then 1 else 0)%Z.
Proof.
  intros E H.
  inversion H as [|? ? ? ? ? ? HK|? ? ? ? ? ? y lo up HS HV|? ? ? ? ? ? y lo up z HS HL HM HP HG
      |? ? ? ? ? ? y lo up z x' c' k' HS HL HM HP HG HR]; subst.
  - exfalso. apply (HK 0%nat); [lia|]. apply good_it1. exact E.
  - exfalso. destruct (it1_start s x lo up E HS) as [-> [-> Y]]. destruct HV as [HV|HV]; [discriminate|].
    apply Rle_not_lt in HV. apply HV. apply (misfit_pos _ _ _ _ Y). lra.
  - exfalso. destruct (it1_start s y lo up E HS) as [-> [-> Y]]. apply it1_passes in HP; [|exact Y].
    destruct HP as [Z _]. exact (not_good_1 _ Z HG).
  - destruct (it1_start s y lo up E HS) as [-> [-> Y]]. apply it1_passes in HP; [|exact Y].
    destruct HP as [Z [F [CL CU]]]. rewrite F, CL, CU in HR. apply circle2 in HR; [|exact Z].
    replace (nit + S (S left))%nat with (S nit + S left)%nat by lia. exact HR.
Qed.

Lemma c_start s : (forall p, cpin (seq 0 3) cb = Some p -> forall i, (i < 3)%nat -> s i = proj (cl i) (cu i) (p i)) ->
  at3 s (-4) 0 0.
Proof.
  intros H. specialize (H _ eq_refl). split; [|split]; rewrite H by lia; unfold proj; cbn; mm.
Qed.

Lemma c_not_solution x : at3 x (4 / 5) 0 0 -> ~ solves 3 3 cA cb cl cu x.
Proof.
  intros E [_ H]. specialize (H (v3 (4 / 5) (4 / 97) 0)).
  assert (B : in_bounds 3 cl cu (v3 (4 / 5) (4 / 97) 0)).
  { intros i Hi. destruct i as [|[|[|i]]]; [| | |lia]; cbn; lra. }
  specialize (H B). rewrite (misfit3 _ _ _ _ E), (misfit3 _ (4 / 5) (4 / 97) 0) in H by (repeat split).
  apply Rle_not_lt in H. apply H. apply sqrt_lt_1_alt. lra.
Qed.

Lemma c_run : exists r, blls 3 3 cA cb cl cu cpin = Some r /\ r_exitc r = 1%Z /\ r_nit r = 6%nat /\ at3 (r_s r) (4 / 5) 0 0.
Proof.
  destruct (blls_total 3 3 cA cb cl cu cpin) as [r E]; [discriminate|]. exists r. split; [exact E|].
  apply (blls_whole_run _ _ _ _ _ _ _ c_proper) in E. destruct E as [p [s [Ep [Es H]]]].
  assert (S0 : at3 s (-4) 0 0).
  { apply c_start. intros p' E'. rewrite Ep in E'. injection E' as <-. exact Es. }
  destruct H as [[G _]|[_ H]]; [exfalso; exact (not_good_0 s S0 G)|].
  change (2 * 3)%nat with (S (S 4)) in H. apply circle1 in H; [|exact S0].
  destruct H as [H1 [H2 H3]]. split; [exact H3|]. split; [exact H2|exact H1].
Qed.

Lemma limit_refuted : ~ (forall m n A b lb ub pin r, proper_bounds n lb ub -> pinv_exact m n A pin ->
  (forall s, (forall i, (i < m)%nat -> mv n A s i = 0) -> forall i, (i < n)%nat -> s i = 0) ->
  blls m n A b lb ub pin = Some r -> r_exitc r = 1%Z -> solves m n A b lb ub (r_s r)).
Proof.
  intros H. destruct c_run as [r [E [E1 [_ E2]]]].
  exact (c_not_solution _ E2 (H _ _ _ _ _ _ _ _ c_proper cpin_exact c_rank E E1)).
Qed.

Lemma rounds_exist left s : exists x c k, rounds 3 3 cA cb cl cu cpin left 0 s false [] [] x c k.
Proof.
  destruct (iterate 3 3 cA cb cl cu cpin left 0 0 [] [] s (resid 3 cA cb s) 0 0 [] []) as [r|] eqn:E.
  - apply (iterate_rounds 3 3 cA cb cl cu cpin c_proper) in E; [|intros i Hi; reflexivity]. cbn [Nat.eqb negb] in E. eauto.
  - exfalso. revert E. apply iterate_total. discriminate.
Qed.

Lemma more_refuted : ~ (forall m n A b lb ub pin p s, proper_bounds n lb ub -> pinv_exact m n A pin ->
  (forall s, (forall i, (i < m)%nat -> mv n A s i = 0) -> forall i, (i < n)%nat -> s i = 0) ->
  pin (seq 0 n) b = Some p -> (forall i, (i < n)%nat -> s i = proj (lb i) (ub i) (p i)) ->
  exists left0, forall left x c k, (left0 <= left)%nat ->
    rounds m n A b lb ub pin left 0 s false [] [] x c k -> solves m n A b lb ub x).
Proof.
  intros H. destruct (cpin (seq 0 3) cb) as [p|] eqn:Ep; [|discriminate].
  destruct (H 3%nat 3%nat cA cb cl cu cpin p (fun i => proj (cl i) (cu i) (p i)) c_proper cpin_exact c_rank Ep
    (fun i _ => eq_refl)) as [left0 K].
  destruct (rounds_exist (S (S left0)) (fun i => proj (cl i) (cu i) (p i))) as [x [c [k R]]].
  specialize (K _ x c k (ltac:(lia) : (left0 <= S (S left0))%nat) R).
  apply circle1 in R; [|apply c_start; intros p' E'; rewrite Ep in E'; injection E' as <-; reflexivity].
  destruct R as [R _]. exact (c_not_solution _ R K).
Qed.

Lemma held_refuted : ~ (forall m n A b lb ub pin k x y, proper_bounds n lb ub -> pinv_exact m n A pin ->
  in_bounds n lb ub (where_ x) -> (forall i, In i (held_lo x) -> lb i = Fin (where_ x i)) ->
  (forall i, In i (held_up x) -> ub i = Fin (where_ x i)) ->
  passes m n A b lb ub pin k x y -> forall i, In i (held_lo y) -> lb i = Fin (where_ y i)).
Proof.
  intros H. set (s := v3 0 (2 / 11) (7 / 11)).
  assert (E : at3 s 0 (2 / 11) (7 / 11)) by (repeat split).
  set (t0 := NSt s (resid 3 cA cb s) (misfit 3 3 cA cb s) [0; 1; 2]%nat [] [] 0 [] [] [] []).
  destruct (nested 3 3 cA cb cl cu cpin 1 t0) as [t1|] eqn:En; [|revert En; apply nested_total; discriminate].
  apply (nested_passes 3 3 cA cb cl cu cpin c_proper) in En; [|split; [reflexivity|split; [intros i Hi; reflexivity|reflexivity]]].
  destruct En as [HP _]. change (spot t0) with (Place s [] [] false [] []) in HP.
  assert (K : forall i, In i (held_lo (spot t1)) -> cl i = Fin (where_ (spot t1) i)).
  { apply (H 3%nat 3%nat cA cb cl cu cpin 1%nat (Place s [] [] false [] []) (spot t1) c_proper cpin_exact);
      [| | |exact HP]; cbn [held_lo held_up where_].
    - intros i Hi. destruct i as [|[|[|i]]]; [| | |lia]; cbn; lra.
    - intros i [].
    - intros i []. }
  destruct (passes_out 0 _ _ 1 HP) as [y [t [HQ [T [[a [HL HW]] [F [L [U C]]]]]]]].
  { cbn [held_lo held_up failed where_]. intros t T. apply target_none in T.
    split; [right; left; reflexivity|]. split; [left; destruct T as [_ [T1 _]]; cbn; rewrite T1; lra|].
    intros _. apply it2_rejected; assumption. }
  inversion HQ; subst. cbn [held_lo held_up failed where_ app] in *. apply target_none in T.
  destruct E as [E0 [E1 E2]]. destruct T as [T0 [T1 T2]].
  assert (C2 : In 2%nat (held_lo (spot t1))).
  { rewrite L. destruct C as [-> _]. unfold under. apply filter_In. split; [right; right; left; reflexivity|].
    apply negb_true_iff. cbn [cl x3 xler]. apply Rleb_false. unfold trial. rewrite E2, T2. cbn. lra. }
  specialize (K 2%nat C2). cbn [cl x3] in K. injection K as K.
  assert (W : where_ (spot t1) 2%nat = s 2%nat + a * (t 2%nat - s 2%nat)) by (apply HW; lia).
  unfold spot, where_ in W. rewrite W, E2, T2 in K.
  destruct HL as [_ [HL _]]. specialize (HL 1%nat (1 / 45)).
  assert (A1 : a <= 1 / 45).
  { apply HL; [right; left; reflexivity|]. right. rewrite E1, T1. split; [lra|]. exists 0. split; [reflexivity|]. field. }
  lra.
Qed.
