(** Proofs about the array passed as start point. *)
From Coq Require Import List Arith ZArith QArith Qround Bool Lia Lqa.
Import ListNotations.
From Verif Require Import QB Book_Model Main_Model Pre_Model Pre_Spec Sta_Model.
Local Open Scope Q_scope.

(** ** Moving a component twice *)

Lemma trunc_neg : forall q, q < 0 -> trunc q = inject_Z (Qceiling q).
Proof.
  intros q H. unfold trunc. destruct (qleb 0 q) eqn:E; [|reflexivity].
  apply qleb_iff in E. exfalso. apply (Qlt_not_le _ _ H E).
Qed.

Lemma trunc_pos : forall q, 0 <= q -> trunc q = inject_Z (Qfloor q).
Proof. intros q H. unfold trunc. rewrite (proj2 (qleb_iff 0 q) H). reflexivity. Qed.

Lemma trunc_eq : forall p q, p == q -> trunc p == trunc q.
Proof.
  intros p q E. destruct (Qlt_le_dec p 0) as [H|H].
  - rewrite (trunc_neg p H), trunc_neg by (rewrite <- E; exact H). rewrite (Qceiling_comp p q E). reflexivity.
  - rewrite (trunc_pos p H), trunc_pos by (rewrite <- E; exact H). rewrite (Qfloor_comp p q E). reflexivity.
Qed.

(** truncating upwards beyond a larger number means that both truncate to the same *)
Lemma trunc_over : forall p q, p <= q -> q <= trunc p -> trunc p == trunc q.
Proof.
  intros p q A B. destruct (Qlt_le_dec p 0) as [H|H].
  - rewrite (trunc_neg p H) in *. destruct (Qlt_le_dec q 0) as [K|K].
    + rewrite (trunc_neg q K).
      assert (E : Qceiling p = Qceiling q); [|rewrite E; reflexivity].
      apply Z.le_antisymm; [apply Qceiling_resp_le, A|].
      rewrite <- (Qceiling_Z (Qceiling p)). apply Qceiling_resp_le, B.
    + assert (C : (Qceiling p <= 0)%Z).
      { change 0%Z with (Qceiling 0). apply Qceiling_resp_le, Qlt_le_weak, H. }
      assert (D : inject_Z (Qceiling p) <= 0) by (change 0 with (inject_Z 0); rewrite <- Zle_Qle; exact C).
      assert (E : q == 0) by lra. assert (F : inject_Z (Qceiling p) == 0) by lra.
      rewrite F, (trunc_eq q 0 E). reflexivity.
  - pose proof (Qfloor_le p) as L. rewrite (trunc_pos p H) in *. apply (Qle_trans _ _ _ A) in B as B'.
    assert (E : inject_Z (Qfloor p) == p) by lra. assert (F : q == p) by lra.
    rewrite <- (trunc_pos p H). apply trunc_eq. symmetry. exact F.
Qed.

Lemma trunc_under : forall p q, p <= q -> trunc q <= p -> trunc q == trunc p.
Proof.
  intros p q A B. destruct (Qlt_le_dec q 0) as [H|H].
  - pose proof (Qle_ceiling q) as L. rewrite (trunc_neg q H) in *.
    assert (E : inject_Z (Qceiling q) == q) by lra. assert (F : p == q) by lra.
    rewrite <- (trunc_neg q H). apply trunc_eq. symmetry. exact F.
  - rewrite (trunc_pos q H) in *. destruct (Qlt_le_dec p 0) as [K|K].
    + assert (C : (0 <= Qfloor q)%Z).
      { change 0%Z with (Qfloor 0). apply Qfloor_resp_le, H. }
      assert (D : 0 <= inject_Z (Qfloor q)) by (change 0 with (inject_Z 0); rewrite <- Zle_Qle; exact C).
      exfalso. lra.
    + rewrite (trunc_pos p K). assert (E : Qfloor q = Qfloor p); [|rewrite E; reflexivity].
      apply Z.le_antisymm; [|apply Qfloor_resp_le, A].
      rewrite <- (Qfloor_Z (Qfloor q)). apply Qfloor_resp_le, B.
Qed.

Lemma assigned_eq : forall int p q, p == q -> assigned int p == assigned int q.
Proof. intros int p q E. destruct int; cbn [assigned]; [apply trunc_eq, E|exact E]. Qed.

Lemma assigned_over : forall int p q, p <= q -> q <= assigned int p -> assigned int p == assigned int q.
Proof.
  intros int p q A B. destruct int; cbn [assigned] in *; [apply trunc_over; assumption|lra].
Qed.

Lemma assigned_under : forall int p q, p <= q -> assigned int q <= p -> assigned int q == assigned int p.
Proof.
  intros int p q A B. destruct int; cbn [assigned] in *; [apply trunc_under; assumption|lra].
Qed.

Lemma move_again : forall int l u x d,
  (forall a b, l = Some a -> u = Some b -> d + d <= b - a) ->
  move int l u (move int l u x d) d == move int l u x d.
Proof.
  intros int l u x d W.
  assert (Up : forall (b : Q) y, (if qleb (b - y) d then assigned int (b - d) else y) ==
    (if qleb (b - (if qleb (b - y) d then assigned int (b - d) else y)) d then assigned int (b - d)
     else (if qleb (b - y) d then assigned int (b - d) else y))).
  { intros b y. destruct (qleb (b - y) d) eqn:E.
    - destruct (qleb (b - assigned int (b - d)) d); reflexivity.
    - rewrite E. reflexivity. }
  destruct l as [a|]; destruct u as [b|]; unfold move.
  - specialize (W a b eq_refl eq_refl). destruct (qleb (- d) (a - x)) eqn:E.
    + destruct (qleb (- d) (a - assigned int (a + d))) eqn:F; [reflexivity|].
      destruct (qleb (b - assigned int (a + d)) d) eqn:G; [|reflexivity].
      apply qleb_false in F. apply qleb_iff in G. symmetry. apply assigned_over; lra.
    + destruct (qleb (b - x) d) eqn:G.
      * destruct (qleb (- d) (a - assigned int (b - d))) eqn:F.
        -- apply qleb_iff in F. symmetry. apply assigned_under; lra.
        -- destruct (qleb (b - assigned int (b - d)) d); reflexivity.
      * rewrite E, G. reflexivity.
  - destruct (qleb (- d) (a - x)) eqn:E.
    + destruct (qleb (- d) (a - assigned int (a + d))); reflexivity.
    + rewrite E. reflexivity.
  - symmetry. apply Up.
  - reflexivity.
Qed.

(** ** The array and the start point of the run *)

Lemma written_some : forall int x lb ub j d x' d' fx, (length x <= length lb)%nat -> (length x <= length ub)%nat ->
  adjust int lb ub x j d = Some (x', d', fx) -> written int lb ub x d = (x', true).
Proof.
  intros int x. induction x as [|xj xr IH]; intros lb ub j d x' d' fx A B H.
  - destruct lb, ub; cbn in H; injection H as <- <- <-; reflexivity.
  - destruct lb as [|l lr]; [cbn in A; lia|]. destruct ub as [|u ur]; [cbn in B; lia|].
    cbn [length] in A, B. apply le_S_n in A, B. cbn [adjust] in H. cbn [written]. unfold over.
    destruct (match l with Some lv => match u with Some uv => qltb uv lv | None => false end | None => false end); [discriminate|].
    assert (Plain : forall e y, match adjust int lr ur xr (S j) e with
        | Some (x1, d1, f1) => Some (y :: x1, d1, f1) | None => None end = Some (x', d', fx) ->
      (let '(r, ok) := written int lr ur xr e in (y :: r, ok)) = (x', true)).
    { intros e y H1. destruct (adjust int lr ur xr (S j) e) as [[[x1 d1] f1]|] eqn:E; [|discriminate].
      rewrite (IH lr ur (S j) e x1 d1 f1 A B E). injection H1 as <- _ _. reflexivity. }
    assert (Pin : forall e y, match adjust int lr ur xr (S j) e with
        | Some (x1, d1, f1) => Some (y :: x1, d1, j :: f1) | None => None end = Some (x', d', fx) ->
      (let '(r, ok) := written int lr ur xr e in (y :: r, ok)) = (x', true)).
    { intros e y H1. destruct (adjust int lr ur xr (S j) e) as [[[x1 d1] f1]|] eqn:E; [|discriminate].
      rewrite (IH lr ur (S j) e x1 d1 f1 A B E). injection H1 as <- _ _. reflexivity. }
    destruct l as [a|]; destruct u as [b|]; try (apply Plain, H).
    destruct (qltb (b - a) (d + d)); [|apply Plain, H].
    destruct (qeqb (b - a) 0); [apply Pin, H|apply Plain, H].
Qed.

(** the radius does not depend on the start point: repeating *)
Lemma adjust_again : forall int x lb ub j d x' d' fx, (length x <= length lb)%nat -> (length x <= length ub)%nat ->
  adjust int lb ub x j d = Some (x', d', fx) ->
  exists x'', adjust int lb ub x' j d = Some (x'', d', fx) /\ Forall2 Qeq x'' x'.
Proof.
  intros int x. induction x as [|xj xr IH]; intros lb ub j d x' d' fx A B H.
  - exists []. destruct lb, ub; cbn in H; injection H as <- <- <-; split; try constructor; reflexivity.
  - destruct lb as [|l lr]; [cbn in A; lia|]. destruct ub as [|u ur]; [cbn in B; lia|].
    cbn [length] in A, B. apply le_S_n in A, B. cbn [adjust] in H.
    destruct (match l with Some lv => match u with Some uv => qltb uv lv | None => false end | None => false end) eqn:X;
      [discriminate|].
    assert (Plain : forall e, (forall a b, l = Some a -> u = Some b -> e + e <= b - a) ->
      match adjust int lr ur xr (S j) e with
        | Some (x1, d1, f1) => Some (move int l u xj e :: x1, d1, f1) | None => None end = Some (x', d', fx) ->
      exists y r x'', x' = y :: r /\ match adjust int lr ur r (S j) e with
        | Some (x1, d1, f1) => Some (move int l u y e :: x1, d1, f1) | None => None end = Some (x'', d', fx)
        /\ Forall2 Qeq x'' x').
    { intros e W H1. destruct (adjust int lr ur xr (S j) e) as [[[x1 d1] f1]|] eqn:E; [|discriminate].
      destruct (IH lr ur (S j) e x1 d1 f1 A B E) as (x2 & E2 & Q2). injection H1 as <- <- <-.
      exists (move int l u xj e), x1, (move int l u (move int l u xj e) e :: x2).
      split; [reflexivity|]. split; [rewrite E2; reflexivity|].
      constructor; [apply move_again, W|exact Q2]. }
    destruct l as [a|]; destruct u as [b|].
    2-4: destruct (Plain d ltac:(discriminate) H) as (y & r & x2 & -> & E2 & Q2); exists x2; split; [exact E2|exact Q2].
    destruct (qltb (b - a) (d + d)) eqn:L.
    + destruct (qeqb (b - a) 0) eqn:Z.
      * destruct (adjust int lr ur xr (S j) d) as [[[x1 d1] f1]|] eqn:E; [|discriminate].
        destruct (IH lr ur (S j) d x1 d1 f1 A B E) as (x2 & E2 & Q2). injection H as <- <- <-.
        exists (xj :: x2). cbn [adjust]. rewrite X, L, Z, E2. split; [reflexivity|].
        constructor; [reflexivity|exact Q2].
      * destruct (Plain ((1 # 2) * (b - a))) as (y & r & x2 & -> & E2 & Q2); [|exact H|].
        { intros a0 b0 [= <-] [= <-]. lra. }
        exists x2. cbn [adjust]. rewrite X, L, Z, E2. split; [reflexivity|exact Q2].
    + destruct (Plain d) as (y & r & x2 & -> & E2 & Q2); [|exact H|].
      { intros a0 b0 [= <-] [= <-]. apply qltb_false in L. exact L. }
      exists x2. cbn [adjust]. rewrite X, L, E2. split; [reflexivity|exact Q2].
Qed.

(** ** Refused calls *)

Lemma over_crossed : forall l u lr ur, over l u = true -> crossed (l :: lr) (u :: ur) 0.
Proof.
  intros l u lr ur H. destruct l as [a|]; destruct u as [b|]; try discriminate.
  exists a, b. split; [reflexivity|]. split; [reflexivity|]. apply qltb_iff, H.
Qed.

Lemma crossed_over : forall l u lr ur, crossed (l :: lr) (u :: ur) 0 -> over l u = true.
Proof.
  intros l u lr ur (a & b & [= ->] & [= ->] & H). apply qltb_iff, H.
Qed.

Lemma crossed_S : forall l u lr ur j, crossed (l :: lr) (u :: ur) (S j) <-> crossed lr ur j.
Proof. intros. unfold crossed. cbn [nth_error]. tauto. Qed.

Lemma written_none : forall int x lb ub j d, adjust int lb ub x j d = None ->
  snd (written int lb ub x d) = false /\
  exists k, (k < length x)%nat /\ crossed lb ub k /\ (forall i, (i < k)%nat -> ~ crossed lb ub i) /\
    forall i, (k <= i)%nat -> nth_error (fst (written int lb ub x d)) i = nth_error x i.
Proof.
  intros int x. induction x as [|xj xr IH]; intros lb ub j d H.
  - destruct lb, ub; discriminate.
  - destruct lb as [|l lr]; [discriminate|]. destruct ub as [|u ur]; [discriminate|].
    cbn [adjust] in H. cbn [written]. destruct (over l u) eqn:X.
    + split; [reflexivity|]. exists 0%nat. split; [cbn; lia|]. split; [apply over_crossed, X|].
      split; [intros i K; lia|]. intros i _. reflexivity.
    + unfold over in X. rewrite X in H.
      assert (C0 : ~ crossed (l :: lr) (u :: ur) 0).
      { intro K. apply crossed_over in K. unfold over in K. rewrite X in K. discriminate. }
      assert (Gen : forall e y, adjust int lr ur xr (S j) e = None ->
        snd (let '(r, ok) := written int lr ur xr e in (y :: r, ok)) = false /\
        exists k, (k < length (xj :: xr))%nat /\ crossed (l :: lr) (u :: ur) k /\
          (forall i, (i < k)%nat -> ~ crossed (l :: lr) (u :: ur) i) /\
          forall i, (k <= i)%nat -> nth_error (fst (let '(r, ok) := written int lr ur xr e in (y :: r, ok))) i
            = nth_error (xj :: xr) i).
      { intros e y E. destruct (IH lr ur (S j) e E) as (S1 & k & L1 & K1 & M1 & N1).
        destruct (written int lr ur xr e) as [r ok]. cbn [fst snd] in *. split; [exact S1|].
        exists (S k). split; [cbn [length]; lia|]. split; [apply crossed_S, K1|]. split.
        - intros i I. destruct i as [|i]; [exact C0|]. rewrite crossed_S. apply M1. lia.
        - intros i I. destruct i as [|i]; [lia|]. cbn [nth_error]. apply N1. lia. }
      assert (DP : forall e y, match adjust int lr ur xr (S j) e with
        | Some (x1, d1, f1) => Some (y :: x1, d1, f1) | None => None end = None ->
        adjust int lr ur xr (S j) e = None).
      { intros e y. destruct (adjust int lr ur xr (S j) e) as [[[? ?] ?]|]; [discriminate|reflexivity]. }
      assert (DQ : forall e y, match adjust int lr ur xr (S j) e with
        | Some (x1, d1, f1) => Some (y :: x1, d1, j :: f1) | None => None end = None ->
        adjust int lr ur xr (S j) e = None).
      { intros e y. destruct (adjust int lr ur xr (S j) e) as [[[? ?] ?]|]; [discriminate|reflexivity]. }
      destruct l as [a|]; destruct u as [b|]; try (apply Gen; eapply DP; exact H).
      destruct (qltb (b - a) (d + d)).
      * destruct (qeqb (b - a) 0); apply Gen; [eapply DQ|eapply DP]; exact H.
      * apply Gen; eapply DP; exact H.
Qed.

(** ** What is not touched *)

Lemma written_length : forall int x lb ub d, length (fst (written int lb ub x d)) = length x.
Proof.
  intros int x. induction x as [|xj xr IH]; intros lb ub d.
  - destruct lb, ub; reflexivity.
  - destruct lb as [|l lr]; [reflexivity|]. destruct ub as [|u ur]; [reflexivity|]. cbn [written].
    destruct (over l u); [reflexivity|].
    assert (Gen : forall e y, length (fst (let '(r, ok) := written int lr ur xr e in (y :: r, ok))) = length (xj :: xr)).
    { intros e y. pose proof (IH lr ur e) as K. destruct (written int lr ur xr e) as [r ok]. cbn [fst length] in *. lia. }
    destruct l as [a|]; destruct u as [b|]; try apply Gen.
    destruct (qltb (b - a) (d + d)); [destruct (qeqb (b - a) 0)|]; apply Gen.
Qed.

Lemma move_stay : forall int l u x d, (forall a, l = Some a -> a + d < x) -> (forall b, u = Some b -> x < b - d) ->
  move int l u x d = x.
Proof.
  intros int l u x d A B. unfold move.
  assert (U : forall b, u = Some b -> qleb (b - x) d = false).
  { intros b E. specialize (B b E). apply qleb_false. lra. }
  destruct l as [a|].
  - specialize (A a eq_refl). assert (E : qleb (- d) (a - x) = false) by (apply qleb_false; lra).
    rewrite E. destruct u as [b|]; [rewrite (U b eq_refl)|]; reflexivity.
  - destruct u as [b|]; [rewrite (U b eq_refl)|]; reflexivity.
Qed.

(** a component farther than [d] from both bounds *)
Lemma written_stay : forall int x lb ub d i v, nth_error x i = Some v ->
  (forall a, nth_error lb i = Some (Some a) -> a + d < v) ->
  (forall b, nth_error ub i = Some (Some b) -> v < b - d) ->
  nth_error (fst (written int lb ub x d)) i = Some v.
Proof.
  intros int x. induction x as [|xj xr IH]; intros lb ub d i v H A B; [destruct i; discriminate|].
  destruct lb as [|l lr]; [exact H|]. destruct ub as [|u ur]; [exact H|]. cbn [written].
  destruct (over l u); [exact H|].
  assert (Gen : forall e y, e <= d -> (i = 0%nat -> y = xj) ->
    nth_error (fst (let '(r, ok) := written int lr ur xr e in (y :: r, ok))) i = Some v).
  { intros e y E Y. destruct i as [|i].
    - destruct (written int lr ur xr e) as [r ok]. cbn [fst nth_error] in *. rewrite (Y eq_refl). exact H.
    - cbn [nth_error] in H, A, B. pose proof (IH lr ur e i v H) as K.
      destruct (written int lr ur xr e) as [r ok]. cbn [fst nth_error] in *. apply K.
      + intros a K1. specialize (A a K1). lra.
      + intros b K1. specialize (B b K1). lra. }
  assert (St : forall e, e <= d -> i = 0%nat -> move int l u xj e = xj).
  { intros e E ->. cbn [nth_error] in H, A, B. injection H as <-. apply move_stay.
    - intros a ->. specialize (A a eq_refl). lra.
    - intros b ->. specialize (B b eq_refl). lra. }
  destruct l as [a|]; destruct u as [b|]; try (apply Gen; [lra|apply St; lra]).
  destruct (qltb (b - a) (d + d)) eqn:L.
  - apply qltb_iff in L. destruct (qeqb (b - a) 0).
    + apply Gen; [lra|reflexivity].
    + apply Gen; [lra|apply St; lra].
  - apply Gen; [lra|apply St; lra].
Qed.

(** a component whose bounds coincide *)
Lemma written_pinned : forall int x lb ub d i, 0 < d ->
  pinned lb ub i -> nth_error (fst (written int lb ub x d)) i = nth_error x i.
Proof.
  intros int x. induction x as [|xj xr IH]; intros lb ub d i D P; [destruct lb, ub; reflexivity|].
  destruct lb as [|l lr]; [reflexivity|]. destruct ub as [|u ur]; [reflexivity|]. cbn [written].
  destruct (over l u) eqn:X; [reflexivity|].
  destruct i as [|i].
  - destruct P as (a & b & A & B & E). cbn [nth_error] in A, B. injection A as ->. injection B as ->.
    assert (L : qltb (b - a) (d + d) = true) by (apply qltb_iff; lra).
    assert (Z : qeqb (b - a) 0 = true) by (apply qeqb_iff; lra).
    rewrite L, Z. destruct (written int lr ur xr d). reflexivity.
  - assert (Gen : forall e y, 0 < e ->
      nth_error (fst (let '(r, ok) := written int lr ur xr e in (y :: r, ok))) (S i) = nth_error (xj :: xr) (S i)).
    { intros e y K0. assert (P' : pinned lr ur i) by exact P. pose proof (IH lr ur e i K0 P') as K.
      destruct (written int lr ur xr e). cbn [fst nth_error] in *. exact K. }
    destruct l as [a0|]; destruct u as [b0|]; try (apply Gen, D).
    destruct (qltb (b0 - a0) (d + d)); [|apply Gen, D].
    destruct (qeqb (b0 - a0) 0) eqn:Z; [apply Gen, D|]. apply Gen.
    unfold over in X. apply qltb_false in X. apply qeqb_false in Z. 
    destruct (Qlt_le_dec 0 (b0 - a0)) as [K|K]; [lra|]. exfalso. apply Z. lra.
Qed.

(** the array after a refusal: the components before the crossed one are moved *)
Lemma written_prefix : forall int x lb ub j d, adjust int lb ub x j d = None ->
  exists k x1 d1 f1, (k < length x)%nat /\ crossed lb ub k /\ (forall i, (i < k)%nat -> ~ crossed lb ub i) /\
    adjust int lb ub (firstn k x) j d = Some (x1, d1, f1) /\ fst (written int lb ub x d) = x1 ++ skipn k x.
Proof.
  intros int x. induction x as [|xj xr IH]; intros lb ub j d H.
  - destruct lb, ub; discriminate.
  - destruct lb as [|l lr]; [discriminate|]. destruct ub as [|u ur]; [discriminate|].
    cbn [adjust] in H. cbn [written]. destruct (over l u) eqn:X.
    + exists 0%nat, [], d, []. split; [cbn; lia|]. split; [apply over_crossed, X|].
      split; [intros i K; lia|]. split; reflexivity.
    + unfold over in X. rewrite X in H.
      assert (C0 : ~ crossed (l :: lr) (u :: ur) 0).
      { intro K. apply crossed_over in K. unfold over in K. rewrite X in K. discriminate. }
      assert (Gen : forall e y (b : bool), match adjust int lr ur xr (S j) e with
        | Some (x1, d1, f1) => Some (y :: x1, d1, if b then j :: f1 else f1) | None => None end = None ->
        exists k x1 d1 f1, (k < length xr)%nat /\ crossed (l :: lr) (u :: ur) (S k) /\
          (forall i, (i < S k)%nat -> ~ crossed (l :: lr) (u :: ur) i) /\
          match adjust int lr ur (firstn k xr) (S j) e with
          | Some (x1, d1, f1) => Some (y :: x1, d1, if b then j :: f1 else f1) | None => None end = Some (x1, d1, f1) /\
          fst (let '(r, ok) := written int lr ur xr e in (y :: r, ok)) = x1 ++ skipn k xr).
      { intros e y b E. assert (E' : adjust int lr ur xr (S j) e = None).
        { destruct (adjust int lr ur xr (S j) e) as [[[? ?] ?]|]; [discriminate|reflexivity]. }
        destruct (IH lr ur (S j) e E') as (k & x1 & d1 & f1 & L1 & K1 & M1 & A1 & W1).
        exists k, (y :: x1), d1, (if b then j :: f1 else f1). split; [exact L1|]. split; [apply crossed_S, K1|]. split.
        - intros i I. destruct i as [|i]; [exact C0|]. rewrite crossed_S. apply M1. lia.
        - rewrite A1. split; [reflexivity|]. destruct (written int lr ur xr e) as [r ok]. cbn [fst] in *.
          rewrite W1. reflexivity. }
      assert (Fin : forall e y (b : bool), match adjust int lr ur xr (S j) e with
        | Some (x1, d1, f1) => Some (y :: x1, d1, if b then j :: f1 else f1) | None => None end = None ->
        (forall z, adjust int (l :: lr) (u :: ur) (xj :: z) j d = match adjust int lr ur z (S j) e with
          | Some (x1, d1, f1) => Some (y :: x1, d1, if b then j :: f1 else f1) | None => None end) ->
        exists k x1 d1 f1, (k < length (xj :: xr))%nat /\ crossed (l :: lr) (u :: ur) k /\
          (forall i, (i < k)%nat -> ~ crossed (l :: lr) (u :: ur) i) /\
          adjust int (l :: lr) (u :: ur) (firstn k (xj :: xr)) j d = Some (x1, d1, f1) /\
          fst (let '(r, ok) := written int lr ur xr e in (y :: r, ok)) = x1 ++ skipn k (xj :: xr)).
      { intros e y b E Z. destruct (Gen e y b E) as (k & x1 & d1 & f1 & L1 & K1 & M1 & A1 & W1).
        exists (S k), x1, d1, f1. split; [cbn [length]; lia|]. split; [exact K1|]. split; [exact M1|].
        cbn [firstn skipn]. rewrite Z. split; [exact A1|exact W1]. }
      destruct l as [a|]; destruct u as [b|]; try (apply (Fin _ _ false H); intro z; reflexivity).
      destruct (qltb (b - a) (d + d)) eqn:L.
      * destruct (qeqb (b - a) 0) eqn:Z.
        -- apply (Fin _ _ true H). intro z. cbn [adjust]. rewrite X, L, Z. reflexivity.
        -- apply (Fin _ _ false H). intro z. cbn [adjust]. rewrite X, L, Z. reflexivity.
      * apply (Fin _ _ false H). intro z. cbn [adjust]. rewrite X, L. reflexivity.
Qed.

(** ** For every holder *)

Lemma left_some : forall h int lb ub x d x' d' fx,
  (length x <= length lb)%nat -> (length x <= length ub)%nat -> adjust int lb ub x 0 d = Some (x', d', fx) ->
  left_behind h int lb ub x d = match h with Copied => x | _ => x' end.
Proof.
  intros h int lb ub x d x' d' fx A B H. unfold left_behind.
  rewrite (written_some int x lb ub 0 d x' d' fx A B H). destruct h; reflexivity.
Qed.

Lemma left_none : forall h int lb ub x d, adjust int lb ub x 0 d = None ->
  exists k x1 d1 f1, (k < length x)%nat /\ crossed lb ub k /\ (forall i, (i < k)%nat -> ~ crossed lb ub i) /\
    adjust int lb ub (firstn k x) 0 d = Some (x1, d1, f1) /\
    left_behind h int lb ub x d = match h with Copied => x | _ => x1 ++ skipn k x end.
Proof.
  intros h int lb ub x d H. destruct (written_prefix int x lb ub 0 d H) as (k & x1 & d1 & f1 & L & K & M & A & W).
  exists k, x1, d1, f1. split; [exact L|]. split; [exact K|]. split; [exact M|]. split; [exact A|].
  unfold left_behind. destruct h; cbn [aliased]; try exact W. reflexivity.
Qed.

Lemma refused_touched : ~ (forall int lb ub x d, 0 < d ->
  adjust int lb ub x 0 d = None -> left_behind Column int lb ub x d = x).
Proof.
  intro H. specialize (H false [Some 0; Some 1] [Some 5; Some 0] [0; 9] 1 ltac:(reflexivity) eq_refl).
  vm_compute in H. discriminate.
Qed.

Lemma left_kept : forall h int lb ub x d i v, 0 < d -> nth_error x i = Some v ->
  ((forall a, nth_error lb i = Some (Some a) -> a + d < v) /\ (forall b, nth_error ub i = Some (Some b) -> v < b - d)
   \/ pinned lb ub i) ->
  nth_error (left_behind h int lb ub x d) i = Some v.
Proof.
  intros h int lb ub x d i v D V K. unfold left_behind. destruct (aliased h); [|exact V].
  destruct K as [[A B]|P]; [apply written_stay; assumption|].
  rewrite written_pinned by assumption. exact V.
Qed.

Lemma left_again : forall int lb ub x d x' d' fx,
  (length x <= length lb)%nat -> (length x <= length ub)%nat -> adjust int lb ub x 0 d = Some (x', d', fx) ->
  exists x'', adjust int lb ub (left_behind Column int lb ub x d) 0 d = Some (x'', d', fx) /\ Forall2 Qeq x'' x'.
Proof.
  intros int lb ub x d x' d' fx A B H. rewrite (left_some Column int lb ub x d x' d' fx A B H).
  apply (adjust_again int x lb ub 0 d x' d' fx A B H).
Qed.
