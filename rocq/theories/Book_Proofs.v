(** Proofs about the bookkeeping model. *)
From Coq Require Import List Arith ZArith QArith Qabs Bool Lia Permutation Lqa.
Import ListNotations.
From Verif Require Import QB Book_Model Book_Spec.
Local Open Scope Q_scope.

(** ** Swapping *)

Lemma transp_sym i j k : transp i j k = transp j i k.
Proof. unfold transp. destruct (Nat.eq_dec k i), (Nat.eq_dec k j); congruence. Qed.

Lemma transp_invol i j k : transp i j (transp i j k) = k.
Proof.
  unfold transp.
  repeat (destruct (Nat.eq_dec _ _); try congruence).
Qed.

Lemma transp_same i k : transp i i k = k.
Proof. unfold transp. repeat (destruct (Nat.eq_dec _ _); try congruence). Qed.

Lemma transp_lt i j k p : (i < p)%nat -> (j < p)%nat -> (k < p)%nat -> (transp i j k < p)%nat.
Proof. unfold transp. intros. repeat (destruct (Nat.eq_dec _ _); try lia). Qed.

Lemma swapl_spec {A} i j (l : list A) : (i < length l)%nat -> (j < length l)%nat ->
  exists l', swapl i j l = Some l' /\ permuted i j l l'.
Proof.
  intros Hi Hj. unfold swapl.
  destruct (nth_error l i) as [a|] eqn:Ea; [|apply nth_error_None in Ea; lia].
  destruct (nth_error l j) as [b|] eqn:Eb; [|apply nth_error_None in Eb; lia].
  eexists. split; [reflexivity|]. split.
  - rewrite !upd_length. reflexivity.
  - intros k. unfold transp.
    destruct (Nat.eq_dec k i) as [->|Ni]; [|destruct (Nat.eq_dec k j) as [->|Nj]].
    + destruct (Nat.eq_dec j i) as [->|Nij].
      * rewrite nth_error_upd_eq by (rewrite upd_length; lia). congruence.
      * rewrite nth_error_upd_neq by lia. rewrite nth_error_upd_eq by lia. congruence.
    + rewrite nth_error_upd_eq by (rewrite upd_length; lia). congruence.
    + rewrite !nth_error_upd_neq by lia. reflexivity.
Qed.

Lemma swapl_none {A} i j (l : list A) :
  (length l <= i)%nat \/ (length l <= j)%nat -> swapl i j l = None.
Proof.
  intros H. unfold swapl.
  destruct H as [H|H]; apply nth_error_None in H; rewrite H; auto.
  destruct (nth_error l i); auto.
Qed.

Lemma permuted_sym {A} i j (l l' : list A) : permuted i j l l' -> permuted j i l l'.
Proof. intros (H1 & H2). split; auto. intros k. rewrite transp_sym. auto. Qed.

Lemma permuted_unique {A} i j (l a b : list A) : permuted i j l a -> permuted i j l b -> a = b.
Proof. intros (_ & H1) (_ & H2). apply list_ext. intros k. rewrite H1, H2. reflexivity. Qed.

Lemma permuted_minmax {A} i j (l l' : list A) :
  permuted (Nat.min i j) (Nat.max i j) l l' <-> permuted i j l l'.
Proof.
  destruct (Nat.le_ge_cases i j) as [H|H].
  - rewrite Nat.min_l, Nat.max_r by lia. tauto.
  - rewrite Nat.min_r, Nat.max_l by lia. split; apply permuted_sym.
Qed.

Lemma swapc_spec i j l p : (i < p)%nat -> (j < p)%nat -> l = [] \/ length l = p ->
  exists l', swapc i j l = Some l' /\ (l = [] /\ l' = [] \/ permuted i j l l').
Proof.
  intros Hi Hj [->|H].
  - exists []. cbn. auto.
  - destruct l as [|c t]; [cbn in H; exists []; cbn; auto|].
    destruct (swapl_spec i j (c :: t)) as (l' & E & Pm); try lia.
    exists l'. split; auto.
Qed.

Section Swap.
Context {P : Type}.
Variable zero : P.

Lemma swap_correct (S : iset P) p i j x : wf_set S p -> (i < p)%nat -> (j < p)%nat ->
  exists S' x', swap_in_Y zero i j S x = Some (S', x') /\ set_permuted i j S S' /\
    wf_set S' p /\
    (i = j -> S' = S /\ x' = x) /\ (i <> j -> nth_error (s_Y S') 0 = Some x').
Proof.
  intros (HY & Hind & Hf & Hci & Hce) Hi Hj. unfold swap_in_Y.
  destruct (i =? j)%nat eqn:E.
  - apply Nat.eqb_eq in E. subst j. exists S, x. split; auto.
    assert (Pm : forall A (l : list A), permuted i i l l).
    { intros A l. split; auto. intros k. rewrite transp_same. reflexivity. }
    split; [|split; [repeat split; auto|split; [auto|congruence]]].
    repeat split; try apply Pm; try (right; apply Pm);
      intros; rewrite transp_same; reflexivity.
  - apply Nat.eqb_neq in E.
    set (ii := Nat.min i j). set (jj := Nat.max i j).
    assert (Hii : (ii < p)%nat) by (subst ii; lia).
    assert (Hjj : (jj < p)%nat) by (subst jj; lia).
    destruct (swapl_spec ii jj (s_Y S)) as (Y' & -> & PY); try lia.
    destruct (swapl_spec ii jj (s_ind S)) as (I' & -> & PI); try lia.
    destruct (swapl_spec ii jj (s_f S)) as (F' & -> & PF); try lia.
    destruct (swapc_spec ii jj (s_ci S) p) as (C' & -> & PC); try lia; auto.
    destruct (swapc_spec ii jj (s_ce S) p) as (D' & -> & PD); try lia; auto.
    eexists _, _. split; [reflexivity|].
    assert (LY : length Y' = p) by (destruct PY; congruence).
    repeat split; cbn.
    + destruct PY; auto.
    + apply permuted_minmax; exact PY.
    + destruct PI; auto.
    + apply permuted_minmax; exact PI.
    + destruct PF; auto.
    + apply permuted_minmax; exact PF.
    + destruct PC as [PC|PC]; [left; auto|right; apply permuted_minmax; exact PC].
    + destruct PD as [PD|PD]; [left; auto|right; apply permuted_minmax; exact PD].
    + auto.
    + destruct PI; congruence.
    + destruct PF; congruence.
    + destruct PC as [(_ & ->)|[LC _]]; auto.
      destruct Hci as [H0|H0]; [left|right; congruence].
      rewrite H0 in LC. destruct C'; [reflexivity|discriminate].
    + destruct PD as [(_ & ->)|[LC _]]; auto.
      destruct Hce as [H0|H0]; [left|right; congruence].
      rewrite H0 in LC. destruct D'; [reflexivity|discriminate].
    + exfalso; auto.
    + exfalso; auto.
    + intros _. destruct Y' as [|a [|b t]]; cbn in *; try lia. reflexivity.
Qed.

Lemma swap_sym (S : iset P) i j x : swap_in_Y zero i j S x = swap_in_Y zero j i S x.
Proof.
  unfold swap_in_Y. rewrite (Nat.eqb_sym j i), (Nat.min_comm j i), (Nat.max_comm j i).
  reflexivity.
Qed.

Lemma set_permuted_twice i j (S S' S'' : iset P) :
  set_permuted i j S S' -> set_permuted i j S' S'' -> S'' = S.
Proof.
  intros (A1 & A2 & A3 & A4 & A5) (B1 & B2 & B3 & B4 & B5).
  assert (T : forall A (l l' l'' : list A), permuted i j l l' -> permuted i j l' l'' -> l'' = l).
  { intros A l l' l'' (_ & H) (_ & H'). apply list_ext. intros k.
    rewrite H', H, transp_invol. reflexivity. }
  assert (N : forall A (l l' : list A), permuted i j l l' -> l' = [] -> l = []).
  { intros A l l' (H & _) ->. destruct l; auto. discriminate. }
  assert (N' : forall A (l l' : list A), permuted i j l l' -> l = [] -> l' = []).
  { intros A l l' (H & _) ->. destruct l'; auto. discriminate. }
  destruct S, S', S''; cbn in *. f_equal; eauto.
  - destruct A4 as [(-> & ->)|A4], B4 as [(H & ->)|B4]; auto.
    + eapply N'; [exact B4|reflexivity].
    + subst. symmetry. eapply N; [exact A4|reflexivity].
    + eapply T; eassumption.
  - destruct A5 as [(-> & ->)|A5], B5 as [(H & ->)|B5]; auto.
    + eapply N'; [exact B5|reflexivity].
    + subst. symmetry. eapply N; [exact A5|reflexivity].
    + eapply T; eassumption.
Qed.

Lemma swap_twice (S : iset P) p i j x : wf_set S p -> (i < p)%nat -> (j < p)%nat ->
  exists S' x' x'', swap_in_Y zero i j S x = Some (S', x') /\
    swap_in_Y zero i j S' x' = Some (S, x'').
Proof.
  intros W Hi Hj.
  destruct (swap_correct S p i j x W Hi Hj) as (S' & x' & E & Pm & W' & _).
  destruct (swap_correct S' p i j x' W' Hi Hj) as (S'' & x'' & E' & Pm' & _).
  exists S', x', x''. split; auto. rewrite E'.
  rewrite (set_permuted_twice i j S S' S'' Pm Pm'). reflexivity.
Qed.

Lemma swap_out_of_range (S : iset P) p i j x : wf_set S p -> i <> j ->
  (p <= i)%nat \/ (p <= j)%nat -> swap_in_Y zero i j S x = None.
Proof.
  intros (HY & _) N H. unfold swap_in_Y.
  destruct (i =? j)%nat eqn:E; [apply Nat.eqb_eq in E; congruence|].
  rewrite swapl_none; auto. rewrite HY. lia.
Qed.
End Swap.

(** ** Best point of the set *)

Lemma any_ce_false ce : any_ce ce = false <-> all_zero ce.
Proof.
  unfold any_ce, all_zero. split.
  - intros H c Hc v Hv. destruct (qeqb v 0) eqn:Ev; qb; auto.
    exfalso.
    assert (T : existsb (existsb (fun v => negb (qeqb v 0))) ce = true).
    { apply existsb_exists. exists c. split; auto. apply existsb_exists.
      exists v. split; auto. apply qeqb_false in Ev. rewrite Ev. reflexivity. }
    congruence.
  - intros Z. destruct (existsb _ ce) eqn:H; auto.
    apply existsb_exists in H. destruct H as (c & Hc & H).
    apply existsb_exists in H. destruct H as (v & Hv & H).
    rewrite negb_true_iff in H. qb. exfalso. apply H. eapply Z; eauto.
Qed.

Lemma any_ce_true ce : any_ce ce = true <-> ~ all_zero ce.
Proof.
  split.
  - intros H Z. apply any_ce_false in Z. congruence.
  - intros N. destruct (any_ce ce) eqn:E; auto. apply any_ce_false in E. contradiction.
Qed.

Section Small.
Context {P : Type}.
Variables (zero : P) (inside : P -> bool) (cnorm : list Q -> Q) (sigma : Q).

Lemma meritY_spec (S : iset P) k : (k < length (s_f S))%nat ->
  merit_at cnorm (inject_Z (qtrunc sigma)) S k (meritY cnorm sigma S k).
Proof.
  intros H. destruct (nth_error (s_f S) k) as [f|] eqn:E;
    [|apply nth_error_None in E; lia].
  exists f. split; auto. unfold meritY, is_merit.
  rewrite (nth_error_nth _ _ 0 E).
  destruct (any_ce (s_ce S)) eqn:A.
  - right. apply any_ce_true in A. split; auto. reflexivity.
  - left. apply any_ce_false in A. split; auto. lra.
Qed.

Lemma inside_list_length Y : length (inside_list inside Y) = length Y.
Proof. unfold inside_list. rewrite map_length, combine_length, seq_length. lia. Qed.

Lemma inside_list_nth Y k y : nth_error Y k = Some y ->
  nth_error (inside_list inside Y) k = Some (if inside y then k else 0%nat).
Proof.
  unfold inside_list. intros H.
  assert (L : (k < length Y)%nat) by (apply nth_error_Some; congruence).
  assert (C : nth_error (combine (seq 0 (length Y)) Y) k = Some (k, y)).
  { clear -H L.
    assert (G : forall s, nth_error (combine (seq s (length Y)) Y) k = Some ((s + k)%nat, y)).
    { revert k y H L. induction Y as [|h t IH]; cbn; intros [|k] y H L s; try lia; try discriminate.
      - cbn in H. injection H as ->. cbn. f_equal. f_equal. lia.
      - cbn in *. rewrite (IH k y H ltac:(lia) (S s)). f_equal. f_equal. lia. }
    rewrite G. reflexivity. }
  apply map_nth_error with (f := fun p : nat * P => if inside (snd p) then fst p else 0%nat) in C.
  exact C.
Qed.

(** everything that can be said about the result *)
Lemma find_smallf_spec (S : iset P) p x fx ib : wf_set S p -> (1 <= p)%nat ->
  exists r, find_smallf zero inside cnorm sigma S x fx ib = Some r /\
    nth_error (s_f (r_set r)) 0 = Some (r_f r) /\
    (s_ce S = [] -> r_ce r = None) /\
    (s_ce S <> [] -> exists c, r_ce r = Some c /\ nth_error (s_ce (r_set r)) 0 = Some c) /\
    ((r_set r = S /\ r_x r = x /\ r_fx r = fx /\ r_ibest r = ib /\
      ((forall k y, nth_error (s_Y S) k = Some y -> inside y = true ->
         meritY cnorm sigma S 0 <= meritY cnorm sigma S k) \/
       (exists y, nth_error (s_Y S) 1 = Some y /\ inside y = true /\
          meritY cnorm sigma S 1 < meritY cnorm sigma S 0 /\
          forall k z, nth_error (s_Y S) k = Some z -> inside z = true ->
            meritY cnorm sigma S 1 <= meritY cnorm sigma S k)))
     \/
     (exists k y, nth_error (s_Y S) k = Some y /\ k <> 1%nat /\ k <> 0%nat /\ inside y = true /\
        meritY cnorm sigma S k < meritY cnorm sigma S 0 /\
        (forall k' z, nth_error (s_Y S) k' = Some z -> inside z = true ->
            meritY cnorm sigma S k <= meritY cnorm sigma S k') /\
        set_permuted 0 k S (r_set r) /\ wf_set (r_set r) p /\ r_x r = y /\
        nth_error (s_f S) k = Some (r_fx r) /\ nth_error (s_ind S) k = Some (r_ibest r))).
Proof.
  intros W Hp. pose proof W as (HY & Hind & Hf & Hci & Hce).
  unfold find_smallf.
  set (L := map (meritY cnorm sigma S) (inside_list inside (s_Y S))).
  assert (LL : length L = p) by (subst L; rewrite map_length, inside_list_length; auto).
  destruct (argmin_some L) as (fmin & imin & E).
  { intros H0. rewrite H0 in LL. cbn in LL. lia. }
  rewrite E. apply argmin_spec in E. destruct E as (E1 & E2 & E3).
  (* every entry of L *)
  assert (NL : forall k y, nth_error (s_Y S) k = Some y ->
     nth_error L k = Some (meritY cnorm sigma S (if inside y then k else 0%nat))).
  { intros k y Hk. subst L. apply map_nth_error. apply inside_list_nth. exact Hk. }
  assert (Mn : forall k y, nth_error (s_Y S) k = Some y -> inside y = true ->
     fmin <= meritY cnorm sigma S k).
  { intros k y Hk Iy. apply E2. specialize (NL k y Hk). rewrite Iy in NL.
    eapply nth_error_In; eauto. }
  assert (Li : (imin < p)%nat).
  { rewrite <- LL. apply nth_error_Some. congruence. }
  destruct (nth_error (s_Y S) imin) as [yi|] eqn:Yi; [|apply nth_error_None in Yi; lia].
  pose proof (NL imin yi Yi) as Ni. rewrite E1 in Ni. injection Ni as Ni.
  destruct (negb (imin =? 1)%nat && qltb fmin (meritY cnorm sigma S 0))%bool eqn:C.
  - apply andb_true_iff in C. destruct C as (C1 & C2). rewrite negb_true_iff in C1.
    apply Nat.eqb_neq in C1. qb.
    destruct (inside yi) eqn:Iy; [|rewrite Ni in C2; exfalso; apply (Qlt_irrefl _ C2)].
    assert (I0 : imin <> 0%nat).
    { intros ->. rewrite Ni in C2. apply (Qlt_irrefl _ C2). }
    destruct (swap_correct zero S p 0 imin x W ltac:(lia) Li) as (S' & x' & Es & Pm & W' & _ & B).
    rewrite Es.
    pose proof W' as (HY' & Hind' & Hf' & Hci' & Hce').
    destruct (s_f S') as [|f0 ft] eqn:F0; [cbn in Hf'; lia|].
    destruct (s_ind S') as [|i0 it] eqn:I0'; [cbn in Hind'; lia|].
    rewrite F0. eexists. split; [reflexivity|]. cbn.
    rewrite F0. split; [reflexivity|].
    pose proof Pm as (PY & PI & PF & PC & PD).
    assert (T0 : transp 0 imin 0 = imin) by reflexivity.
    split.
    { intros H0. destruct PD as [(_ & ->)|[LD _]]; [reflexivity|].
      rewrite H0 in LD. destruct (s_ce S'); [reflexivity|discriminate]. }
    split.
    { intros H0. destruct (s_ce S') as [|c ct] eqn:Ec.
      - exfalso. destruct PD as [(PD & _)|[LD _]]; [congruence|].
        destruct (s_ce S); [congruence|discriminate].
      - exists c. split; reflexivity. }
    right. exists imin, yi.
    split; [exact Yi|]. split; [exact C1|]. split; [exact I0|]. split; [exact Iy|].
    split; [rewrite Ni in C2; exact C2|].
    split; [intros k' z Hk' Iz; rewrite <- Ni; eapply Mn; eauto|].
    split; [exact Pm|]. split; [exact W'|].
    split.
    { specialize (B ltac:(auto)). destruct PY as (_ & PY). rewrite PY, T0, Yi in B. congruence. }
    split.
    { destruct PF as (_ & PF). specialize (PF 0%nat). rewrite F0, T0 in PF. cbn in PF. auto. }
    { destruct PI as (_ & PI). specialize (PI 0%nat). rewrite I0', T0 in PI. cbn in PI. auto. }
  - destruct (s_f S) as [|f0 ft] eqn:F0; [cbn in Hf; lia|].
    eexists. split; [reflexivity|]. cbn. rewrite F0. split; [reflexivity|].
    split; [intros ->; reflexivity|].
    split; [intros H0; destruct (s_ce S) as [|c ct]; [congruence|exists c; auto]|].
    left. repeat split.
    apply andb_false_iff in C. destruct C as [C|C].
    + rewrite negb_false_iff in C. apply Nat.eqb_eq in C. subst imin.
      destruct (inside yi) eqn:Iy.
      * destruct (qltb (meritY cnorm sigma S 1) (meritY cnorm sigma S 0)) eqn:C2; qb.
        -- right. exists yi. repeat split; auto.
           intros k z Hk Iz. rewrite <- Ni. eapply Mn; eauto.
        -- left. intros k z Hk Iz. eapply Qle_trans; [exact C2|].
           rewrite <- Ni. eapply Mn; eauto.
      * left. intros k z Hk Iz. rewrite <- Ni. eapply Mn; eauto.
    + qb. left. intros k z Hk Iz. eapply Qle_trans; [exact C|]. eapply Mn; eauto.
Qed.
End Small.

(** ** The bound test *)

Lemma inside_bcast_sound xl xu y : length xl = length y -> length xu = length y ->
  inside_bcast xl xu y = true -> in_bounds xl xu y.
Proof.
  intros L1 L2 H. apply andb_true_iff in H. destruct H as (Hl & Hu).
  rewrite forallb_forall in Hl, Hu. split; auto. split; auto.
  intros k v Hk.
  assert (Lk : (k < length y)%nat) by (apply nth_error_Some; congruence).
  pose proof (nth_error_In _ _ Hk) as Iv.
  split.
  - specialize (Hl (nth k xl 0) ltac:(apply nth_In; lia)).
    rewrite forallb_forall in Hl. specialize (Hl v Iv).
    rewrite negb_true_iff in Hl. qb. exact Hl.
  - specialize (Hu (nth k xu 0) ltac:(apply nth_In; lia)).
    rewrite forallb_forall in Hu. specialize (Hu v Iv).
    rewrite negb_true_iff in Hu. qb. exact Hu.
Qed.

(** ** Inclusion *)

Lemma best_pos_spec cv l : forall best pos,
  (pos = None \/ exists j, pos = Some j) ->
  match best_pos cv l best pos with
  | None => pos = None /\ forall j, In j l -> cv j <= best
  | Some j => (pos = Some j /\ (forall k, In k l -> cv k <= best)) \/
      (In j l /\ best < cv j /\ (forall k, In k l -> cv k <= cv j))
  end.
Proof.
  induction l as [|h t IH]; cbn; intros best pos Hp.
  - destruct pos; [left|]; split; auto; tauto.
  - destruct (qltb best (cv h)) eqn:E; qb.
    + specialize (IH (cv h) (Some h) ltac:(eauto)).
      destruct (best_pos cv t (cv h) (Some h)) as [j|].
      * right. destruct IH as [(Q1 & Q2)|(Q1 & Q2 & Q3)].
        -- injection Q1 as <-. split; auto. split; auto.
           intros k [<-|Hk]; auto. apply Qle_refl.
        -- split; auto. split; [apply Qlt_trans with (cv h); auto|].
           intros k [<-|Hk]; auto. apply Qlt_le_weak; auto.
      * destruct IH; discriminate.
    + specialize (IH best pos Hp).
      destruct (best_pos cv t best pos) as [j|].
      * destruct IH as [(Q1 & Q2)|(Q1 & Q2 & Q3)]; [left|right].
        -- split; auto. intros k [<-|Hk]; auto.
        -- split; auto. split; auto. intros k [<-|Hk]; auto.
           apply Qle_trans with best; auto. apply Qlt_le_weak; auto.
      * destruct IH as (Q1 & Q2). split; auto. intros k [<-|Hk]; auto.
Qed.

Lemma existsb_eqb_in j l : existsb (Nat.eqb j) l = true <-> In j l.
Proof.
  rewrite existsb_exists. split.
  - intros (x & Hx & E). apply Nat.eqb_eq in E. congruence.
  - intros H. exists j. split; auto. apply Nat.eqb_refl.
Qed.

Section Incl.
Variables (dx d0 L : nat -> Q).

Definition qual (cset : list nat) (thr : Q) (p1 k : nat) : Prop :=
  In k cset /\ (k < p1)%nat /\ thr < qabs (L k).

Lemma include_pos_spec cset thr c succ p1 : 0 <= thr ->
  match include_pos cset thr c succ dx d0 L p1 with
  | Some j => qual cset thr p1 j /\ 0 < crit_value c succ dx d0 L j /\
      forall k, qual cset thr p1 k ->
        crit_value c succ dx d0 L k <= crit_value c succ dx d0 L j
  | None => forall k, qual cset thr p1 k -> crit_value c succ dx d0 L k <= 0
  end.
Proof.
  intros Ht. unfold include_pos.
  destruct cset as [|c0 ct]; [intros k (H & _); destruct H|].
  set (cs := c0 :: ct). set (Lv := fun j => if existsb (Nat.eqb j) cs then L j else 0).
  set (ch := filter (fun j => qltb thr (qabs (Lv j))) (seq 0 p1)).
  assert (Hch : forall k, In k ch <-> qual cs thr p1 k).
  { intros k. subst ch. rewrite filter_In, in_seq. unfold qual, Lv.
    destruct (existsb (Nat.eqb k) cs) eqn:E.
    - apply existsb_eqb_in in E. split.
      + intros (A & B). qb. repeat split; auto; lia.
      + intros (A & B & C). split; [lia|]. qb. auto.
    - split.
      + intros (_ & B). qb. exfalso.
        assert (Z : qabs 0 == 0) by (vm_compute; reflexivity). rewrite Z in B.
        apply (Qlt_not_le _ _ B Ht).
      + intros (A & _). apply existsb_eqb_in in A. congruence. }
  assert (Hcv : forall k, In k cs -> crit_value c succ dx d0 Lv k = crit_value c succ dx d0 L k).
  { intros k Hk. unfold crit_value, Lv. apply existsb_eqb_in in Hk. rewrite Hk. reflexivity. }
  pose proof (best_pos_spec (crit_value c succ dx d0 Lv) ch 0 None ltac:(auto)) as B.
  cbv zeta. fold Lv. change (filter _ (seq 0 p1)) with ch.
  destruct (best_pos _ ch 0 None) as [j|].
  - destruct B as [(B & _)|(B1 & B2 & B3)]; [discriminate|].
    apply Hch in B1. pose proof B1 as (I1 & _). rewrite (Hcv j I1) in B2.
    split; auto. split; auto. intros k Hk. pose proof Hk as (I2 & _).
    rewrite <- (Hcv k I2), <- (Hcv j I1). apply B3. apply Hch. auto.
  - destruct B as (_ & B). intros k Hk. pose proof Hk as (I2 & _).
    rewrite <- (Hcv k I2). apply B. apply Hch. auto.
Qed.
End Incl.

Lemma include_pos_lt dx d0 L cset thr c succ p1 j : 0 <= thr ->
  include_pos cset thr c succ dx d0 L p1 = Some j -> (j < p1)%nat /\ In j cset.
Proof.
  intros Ht E. pose proof (include_pos_spec dx d0 L cset thr c succ p1 Ht) as H.
  rewrite E in H. destruct H as ((A & B & _) & _). auto.
Qed.

Section Incl2.
Context {P : Type}.
Variables (zero : P) (dist : P -> P -> Q).

Definition dx_of (Y : list P) (x : P) (j : nat) : Q :=
  match nth_error Y j with Some y => dist y x | None => 0 end.
Definition d0_of (Y : list P) (j : nat) : Q :=
  match nth_error Y j, nth_error Y 0 with Some y, Some y0 => dist y y0 | _, _ => 0 end.

Lemma include_some (x : P) Y cset thr c xb succ L Y' j xb' : 0 <= thr ->
  include_in_Y zero dist x Y cset thr c xb succ L = (Y', Some j, xb') ->
  qual L cset thr (length Y) j /\
  0 < crit_value c succ (dx_of Y x) (d0_of Y) L j /\
  (forall k, qual L cset thr (length Y) k ->
     crit_value c succ (dx_of Y x) (d0_of Y) L k <= crit_value c succ (dx_of Y x) (d0_of Y) L j) /\
  only_changed j Y Y' /\ nth_error Y' j = Some x /\ xb' = base_of zero Y'.
Proof.
  intros Ht. unfold include_in_Y. fold (dx_of Y x). fold (d0_of Y).
  pose proof (include_pos_spec (dx_of Y x) (d0_of Y) L cset thr c succ (length Y) Ht) as H.
  change (include_pos cset thr c succ
    (fun j0 : nat => match nth_error Y j0 with Some y => dist y x | None => 0 end)
    (fun j0 : nat => match nth_error Y j0 with
       | Some y => match nth_error Y 0 with Some y0 => dist y y0 | None => 0 end
       | None => 0 end) L (length Y))
    with (include_pos cset thr c succ (dx_of Y x) (d0_of Y) L (length Y)).
  destruct (include_pos cset thr c succ (dx_of Y x) (d0_of Y) L (length Y)) as [i|];
    intros E; [|discriminate].
  injection E as <- <- <-. destruct H as (H1 & H2 & H3).
  split; auto. split; auto. split; auto.
  split; [split; [apply upd_length|intros; apply nth_error_upd_neq; auto]|].
  split; auto. apply nth_error_upd_eq. destruct H1 as (_ & H1 & _). auto.
Qed.

Lemma include_none (x : P) Y cset thr c xb succ L Y' xb' : 0 <= thr ->
  include_in_Y zero dist x Y cset thr c xb succ L = (Y', None, xb') ->
  Y' = Y /\ xb' = xb /\
  forall k, qual L cset thr (length Y) k ->
     crit_value c succ (dx_of Y x) (d0_of Y) L k <= 0.
Proof.
  intros Ht. unfold include_in_Y.
  pose proof (include_pos_spec (dx_of Y x) (d0_of Y) L cset thr c succ (length Y) Ht) as H.
  change (include_pos cset thr c succ
    (fun j0 : nat => match nth_error Y j0 with Some y => dist y x | None => 0 end)
    (fun j0 : nat => match nth_error Y j0 with
       | Some y => match nth_error Y 0 with Some y0 => dist y y0 | None => 0 end
       | None => 0 end) L (length Y))
    with (include_pos cset thr c succ (dx_of Y x) (d0_of Y) L (length Y)).
  destruct (include_pos cset thr c succ (dx_of Y x) (d0_of Y) L (length Y)) as [i|];
    intros E; [discriminate|].
  injection E as <- <-. auto.
Qed.
End Incl2.

(** ** Repair *)

Section Rep.
Context {P : Type}.
Variables (zero : P) (dist : P -> P -> Q) (rowdist : P -> Q).
Variable newpt : nat -> list P -> nat -> nyj P.
Variable argsort : list Q -> list nat.
Variables (farfact epsL Delta closethr : Q).

Definition never_nopt : Prop := forall k Y j, newpt k Y j <> NoPt.

Definition rinv (Y0 Y : list P) (d : list Q) (repl : list nat) : Prop :=
  length Y = length Y0 /\ length d = length Y0 /\ nth_error Y 0 = nth_error Y0 0 /\
  NoDup repl /\ (forall j, In j repl -> (0 < j < length Y0)%nat) /\
  (forall j, ~ In j repl -> nth_error Y j = nth_error Y0 j) /\
  (forall j, In j repl -> exists y, nth_error Y j = Some y /\ origin zero newpt Y0 j y) /\
  (never_nopt -> d = dists dist Y).

Lemma dists_length Y : length (dists dist Y) = length Y.
Proof. destruct Y; cbn; auto. rewrite map_length. auto. Qed.

Lemma dists_upd y0 (t : list P) j y : (0 < j)%nat ->
  dists dist (upd (y0 :: t) j y) = upd (dists dist (y0 :: t)) j (dist y y0).
Proof.
  intros H. destruct j; [lia|]. cbn. f_equal. rewrite upd_map. reflexivity.
Qed.

Lemma rinv_start Y0 : rinv Y0 Y0 (dists dist Y0) [].
Proof.
  unfold rinv. split; auto. split; [apply dists_length|]. split; auto.
  split; [constructor|]. split; [intros j []|]. split; auto. split; [intros j []|]. auto.
Qed.

Lemma rinv_step Y0 Y d repl j y dj y0 :
  rinv Y0 Y d repl -> nth_error Y0 0 = Some y0 -> (0 < j < length Y0)%nat ->
  origin zero newpt Y0 j y -> (never_nopt -> dj = dist y y0) ->
  rinv Y0 (upd Y j y) (upd d j dj) (if existsb (Nat.eqb j) repl then repl else repl ++ [j]).
Proof.
  intros (I1 & I2 & I3 & I4 & I5 & I6 & I7 & I8) H0 Hj Ho Hd.
  assert (In' : forall i, In i (if existsb (Nat.eqb j) repl then repl else repl ++ [j]) <->
     In i repl \/ i = j).
  { intros i. destruct (existsb (Nat.eqb j) repl) eqn:E.
    - apply existsb_eqb_in in E. split; auto. intros [H|H]; auto. congruence.
    - rewrite in_app_iff. cbn. intuition congruence. }
  unfold rinv. split; [rewrite upd_length; auto|]. split; [rewrite upd_length; auto|].
  split; [rewrite nth_error_upd_neq by lia; auto|].
  split.
  { destruct (existsb (Nat.eqb j) repl) eqn:E; auto.
    apply NoDup_rev in I4. rewrite <- (rev_involutive (repl ++ [j])). apply NoDup_rev.
    rewrite rev_app_distr. cbn. constructor; auto. rewrite <- in_rev. intros H.
    apply existsb_eqb_in in H. congruence. }
  split.
  { intros i Hi. apply In' in Hi. destruct Hi as [Hi|Hi]; auto. subst i; auto. }
  split.
  { intros i Hi. rewrite In' in Hi. rewrite nth_error_upd_neq by (intro; apply Hi; auto).
    apply I6. tauto. }
  split.
  { intros i Hi. apply In' in Hi. destruct (Nat.eq_dec i j) as [->|N].
    - exists y. split; auto. apply nth_error_upd_eq. lia.
    - destruct Hi as [Hi|Hi]; [|contradiction]. destruct (I7 i Hi) as (z & A & B).
      exists z. split; auto. rewrite nth_error_upd_neq; auto. }
  intros N. specialize (I8 N). subst d. destruct Y as [|y0' t].
  - cbn in I1. lia.
  - rewrite H0 in I3. cbn in I3. injection I3 as ->.
    rewrite dists_upd by lia. rewrite (Hd N). reflexivity.
Qed.

Lemma far_loop_spec Y0 y0 d0 : nth_error Y0 0 = Some y0 -> nth 0 d0 0 == 0 ->
  0 <= farfact * (1 + epsL) * Delta ->
  forall js k Y d repl k' Y' d' repl',
  rinv Y0 Y d repl -> NoDup js -> (forall j, In j js -> ~ In j repl /\ (j < length Y0)%nat) ->
  (forall a b, (a < b)%nat -> (b < length js)%nat ->
      nth (nth b js 0%nat) d0 0 <= nth (nth a js 0%nat) d0 0) ->
  far_loop zero dist rowdist newpt farfact epsL Delta k d0 js Y d repl = (k', Y', d', repl') ->
  rinv Y0 Y' d' repl' /\
  (forall j, In j repl -> In j repl') /\
  (forall j, In j js -> ~ In j repl' -> nth j d0 0 <= farfact * (1 + epsL) * Delta).
Proof.
  intros H0 Hd0 Hthr. induction js as [|j t IH]; cbn [far_loop]; intros k Y d repl k' Y' d' repl' I ND Hj Hs E.
  - injection E as <- <- <- <-. split; auto. split; auto. intros j [].
  - destruct (qltb (farfact * (1 + epsL) * Delta) (nth j d0 0)) eqn:C; qb.
    + assert (J0 : j <> 0%nat).
      { intros ->. rewrite Hd0 in C. apply (Qlt_not_le _ _ C Hthr). }
      destruct (Hj j ltac:(left; auto)) as (Nj & Lj).
      pose proof I as (I1 & _ & I3 & _).
      destruct Y as [|y0' tY] eqn:EY; [cbn in I1; lia|].
      assert (y0' = y0) by (rewrite H0 in I3; cbn in I3; congruence). subst y0'.
      unfold find_new in E.
      replace (j <? 1)%nat with false in E by (symmetry; apply Nat.ltb_ge; lia).
      assert (EX : existsb (Nat.eqb j) repl = false).
      { destruct (existsb (Nat.eqb j) repl) eqn:X; auto. apply existsb_eqb_in in X. contradiction. }
      assert (G : exists y dj, origin zero newpt Y0 j y /\ (never_nopt -> dj = dist y y0) /\
         far_loop zero dist rowdist newpt farfact epsL Delta (S k) d0 t
           (upd (y0 :: tY) j y) (upd d j dj) (repl ++ [j]) = (k', Y', d', repl')).
      { destruct (newpt k (y0 :: tY) j) as [y imp|] eqn:EN.
        - exists y, (dist y y0). split; [|auto].
          exists k, (y0 :: tY). split; [auto|left; eauto].
        - exists zero, (rowdist y0). split; [|split; [|exact E]].
          + exists k, (y0 :: tY). split; auto.
          + intros N. exfalso. eapply N; eauto. }
      destruct G as (y & dj & G1 & G2 & G3).
      pose proof (rinv_step Y0 (y0 :: tY) d repl j y dj y0 I H0 ltac:(lia) G1 G2) as I'.
      rewrite EX in I'. inversion ND as [|? ? ND1 ND2]. subst.
      destruct (fun A B => IH _ _ _ _ _ _ _ _ I' ND2 A B G3) as (R1 & R2 & R3).
      * intros i Hi. split; [|apply Hj; right; auto].
        rewrite in_app_iff. cbn. destruct (Hj i ltac:(right; auto)). intuition congruence.
      * intros a b Hab Hb. apply (Hs (S a) (S b)); cbn; lia.
      * split; auto. split.
        -- intros i Hi. apply R2. apply in_app_iff; auto.
        -- intros i [<-|Hi] N; auto. exfalso. apply N. apply R2. apply in_app_iff. cbn. auto.
    + injection E as <- <- <- <-. split; auto. split; auto.
      intros i Hi _. destruct Hi as [<-|Hi]; auto.
      destruct (In_nth _ _ 0%nat Hi) as (b & Lb & Eb).
      eapply Qle_trans; [|exact C].
      specialize (Hs 0%nat (S b) ltac:(lia)). cbn [length nth] in Hs.
      rewrite Eb in Hs. apply Hs. lia.
Qed.

(** the best proposal of a scan *)
Lemma scan_spec Y js : forall k best k' r,
  (forall j, In j js -> (1 <= j)%nat) ->
  scan newpt k Y js best = (k', r) ->
  k' = (k + length js)%nat /\
  (match best, r with
   | None, None => True
   | Some (v, _, _), Some (v', _, _) => v <= v'
   | Some _, None => False
   | None, Some (v', _, _) => 0 < v'
   end) /\
  (r = best \/ exists v j y i, r = Some (v, j, y) /\ In j js /\ newpt i Y j = NewPt y v) /\
  (forall i j y v, nth_error js i = Some j -> newpt (k + i)%nat Y j = NewPt y v ->
     match r with Some (v', _, _) => v <= v' | None => v <= 0 end).
Proof.
  induction js as [|j t IH]; cbn [scan]; intros k best k' r Hj E.
  - injection E as <- <-. split; [cbn; lia|]. split.
    { destruct best as [[[v ?] ?]|]; auto. apply Qle_refl. }
    split; auto. intros [|i] j0 y v H; discriminate.
  - specialize (Hj j) as Hj1. specialize (Hj1 ltac:(left; auto)).
    unfold find_new in E.
    replace (j <? 1)%nat with false in E by (symmetry; apply Nat.ltb_ge; lia).
    assert (Hj' : forall i, In i t -> (1 <= i)%nat) by (intros; apply Hj; right; auto).
    destruct (newpt k Y j) as [y imp|] eqn:EN.
    + destruct (qltb (match best with Some (v, _, _) => v | None => 0 end) imp) eqn:C; qb.
      * apply IH in E; auto. destruct E as (E1 & E2 & E3 & E4).
        split; [cbn; lia|]. destruct r as [[[v' j'] y']|]; [|destruct E2].
        split; [destruct best as [[[? ?] ?]|]|].
        { apply Qle_trans with imp; auto. apply Qlt_le_weak; auto. }
        { apply Qlt_le_trans with imp; auto. }
        split.
        { right. destruct E3 as [E3|(v & j0 & y0 & i & A & B & D)].
          - injection E3 as -> -> ->. exists imp, j, y, k. split; auto. split; [left|]; auto.
          - exists v, j0, y0, i. split; auto. split; [right|]; auto. }
        intros [|i] j0 y0 v H N; cbn in H.
        { injection H as <-. rewrite Nat.add_0_r in N. rewrite EN in N. injection N as <- <-. exact E2. }
        { apply (E4 i j0 y0 v H). replace (S k + i)%nat with (k + S i)%nat by lia. exact N. }
      * apply IH in E; auto. destruct E as (E1 & E2 & E3 & E4).
        split; [cbn; lia|]. split; [exact E2|]. split.
        { destruct E3 as [E3|(v & j0 & y0 & i & A & B & D)]; auto.
          right. exists v, j0, y0, i. split; auto. split; [right|]; auto. }
        intros [|i] j0 y0 v H N; cbn in H.
        { injection H as <-. rewrite Nat.add_0_r in N. rewrite EN in N. injection N as <- <-.
          destruct best as [[[v1 j1] y1]|], r as [[[v' j'] y']|]; try contradiction; auto.
          - eapply Qle_trans; eauto.
          - eapply Qle_trans; [exact C|]. apply Qlt_le_weak; auto. }
        { apply (E4 i j0 y0 v H). replace (S k + i)%nat with (k + S i)%nat by lia. exact N. }
    + apply IH in E; auto. destruct E as (E1 & E2 & E3 & E4).
      split; [cbn; lia|]. split; [exact E2|]. split.
      { destruct E3 as [E3|(v & j0 & y0 & i & A & B & D)]; auto.
        right. exists v, j0, y0, i. split; auto. split; [right|]; auto. }
      intros [|i] j0 y0 v H N; cbn in H.
      { injection H as <-. rewrite Nat.add_0_r in N. congruence. }
      { apply (E4 i j0 y0 v H). replace (S k + i)%nat with (k + S i)%nat by lia. exact N. }
Qed.

Lemma qmaxl_nonempty l : l <> [] -> exists r, qmaxl l = Some r.
Proof. destruct l; [congruence|cbn; eauto]. Qed.

Lemma improve_spec Y0 y0 : nth_error Y0 0 = Some y0 -> 0 < closethr ->
  forall rounds k Y d repl li,
  rinv Y0 Y d repl ->
  exists Y' d' repl' imp r,
    improve dist newpt closethr rounds k Y d repl li = Some (Y', repl', imp, r) /\
    rinv Y0 Y' d' repl' /\ (forall j, In j repl -> In j repl') /\ qmaxl d' = Some r /\
    ((rounds = O -> li < closethr -> False) -> imp < closethr -> settled newpt closethr Y').
Proof.
  intros H0 Hc. induction rounds as [|rest IH]; cbn [improve]; intros k Y d repl li I.
  - assert (Dn : d <> []).
    { destruct I as (I1 & I2 & I3 & _). intros ->. cbn in I2.
      destruct Y0; [discriminate|cbn in I2; lia]. }
    destruct (qmaxl_nonempty d Dn) as (r & Hr). rewrite Hr.
    exists Y, d, repl, li, r. split; auto. split; auto. split; auto. split; auto.
    intros A B. exfalso. apply A; auto.
  - assert (Dn : d <> []).
    { destruct I as (I1 & I2 & I3 & _). intros ->. cbn in I2.
      destruct Y0; [discriminate|cbn in I2; lia]. }
    destruct (qmaxl_nonempty d Dn) as (r & Hr).
    destruct (scan newpt k Y (seq 1 (length Y - 1)) None) as (k', best) eqn:E.
    apply scan_spec in E; [|intros j Hj; apply in_seq in Hj; lia].
    destruct E as (E1 & E2 & E3 & E4).
    assert (NS : forall i, (1 <= i < length Y)%nat -> nth_error (seq 1 (length Y - 1)) (i - 1) = Some i).
    { intros i Hi. rewrite (nth_error_nth' _ 0%nat) by (rewrite seq_length; lia).
      rewrite seq_nth by lia. f_equal. lia. }
    destruct best as [[[imp j] y]|].
    + destruct (qltb imp closethr) eqn:C; qb.
      * rewrite Hr. eexists Y, d, repl, _, r. split; [reflexivity|].
        split; auto. split; auto. split; auto. intros _ _.
        exists k. intros i y' v Hi N.
        specialize (E4 (i - 1)%nat i y' v (NS i Hi) N).
        eapply Qle_lt_trans; eauto.
      * destruct E3 as [E3|(v & j0 & y1 & i & A & B & D)]; [discriminate|].
        injection A as <- <- <-. apply in_seq in B.
        pose proof I as (I1 & _ & I3 & _).
        destruct Y as [|y0' tY] eqn:EY; [cbn in I1, B; lia|].
        assert (y0' = y0) by (rewrite H0 in I3; cbn in I3; congruence). subst y0'.
        assert (I' := rinv_step Y0 (y0 :: tY) d repl j y (dist y y0) y0 I H0
           ltac:(rewrite <- I1; cbn [length] in *; lia)
           ltac:(exists i, (y0 :: tY); split; [auto|left; eauto]) ltac:(auto)).
        destruct (IH k' _ _ _ imp I') as (Y' & d' & repl' & imp' & r' & R1 & R2 & R3 & R4 & R5).
        exists Y', d', repl', imp', r'. split; auto. split; auto. split.
        { intros i0 Hi. apply R3. destruct (existsb (Nat.eqb j) repl); auto.
          apply in_app_iff. auto. }
        split; auto. intros _. apply R5. intros _ Hx. apply (Qlt_not_le _ _ Hx C).
    + replace (qltb 0 closethr) with true by (symmetry; qb; auto). rewrite Hr.
      exists Y, d, repl, 0, r. split; auto. split; auto. split; auto. split; auto.
      intros _ _. exists k. intros i y' v Hi N.
      specialize (E4 (i - 1)%nat i y' v (NS i Hi) N). cbn in E4.
      eapply Qle_lt_trans; eauto.
Qed.

Lemma qmaxl_dists Y r : qmaxl (dists dist Y) = Some r -> is_radius dist Y r.
Proof.
  intros H. destruct Y as [|y0 t]; [discriminate|].
  apply qmaxl_spec in H. cbn [dists] in H. destruct H as (H1 & H2). cbn.
  split; [apply H2; left; auto|]. split.
  - intros y Hy. apply H2. right. apply in_map_iff. eauto.
  - destruct H1 as [<-|H1]; [left; reflexivity|]. right.
    apply in_map_iff in H1. destruct H1 as (y & <- & Hy). exists y. split; auto. reflexivity.
Qed.

Lemma repair_spec Y0 xb : sorts_desc argsort -> 0 < closethr ->
  0 <= farfact * (1 + epsL) * Delta -> Y0 <> [] ->
  exists Y repl imp r xb',
    repair_Y zero dist rowdist newpt argsort farfact epsL Delta closethr Y0 xb
      = Some ((Y, repl, imp, r), xb') /\
    length Y = length Y0 /\ nth_error Y 0 = nth_error Y0 0 /\
    NoDup repl /\ (forall j, In j repl -> (0 < j < length Y0)%nat) /\
    (forall j, ~ In j repl -> nth_error Y j = nth_error Y0 j) /\
    (forall j, In j repl -> exists y, nth_error Y j = Some y /\ origin zero newpt Y0 j y) /\
    (forall j y y0, ~ In j repl -> nth_error Y j = Some y -> nth_error Y 0 = Some y0 ->
       j <> 0%nat -> dist y y0 <= farfact * (1 + epsL) * Delta) /\
    (imp < closethr -> settled newpt closethr Y) /\
    (never_nopt -> is_radius dist Y r) /\
    xb' = (match repl with [] => xb | _ => base_of zero Y end).
Proof.
  intros Hs Hc Ht Hne. destruct Y0 as [|y0 t0] eqn:EY; [congruence|]. rewrite <- EY in *.
  assert (H0 : nth_error Y0 0 = Some y0) by (rewrite EY; reflexivity).
  unfold repair_Y. cbv zeta.
  destruct (far_loop zero dist rowdist newpt farfact epsL Delta 0 (dists dist Y0)
      (argsort (dists dist Y0)) Y0 (dists dist Y0) []) as [[[k1 Y1] d1] repl1] eqn:E.
  destruct (Hs (dists dist Y0)) as (Pm & So).
  rewrite dists_length in So.
  assert (Lp : length (argsort (dists dist Y0)) = length Y0).
  { rewrite (Permutation.Permutation_length Pm), seq_length, dists_length. reflexivity. }
  eapply far_loop_spec with (Y0 := Y0) (y0 := y0) in E; auto.
  2: { rewrite EY. reflexivity. }
  2: { apply rinv_start. }
  2: { eapply Permutation.Permutation_NoDup; [symmetry; exact Pm|apply seq_NoDup]. }
  2: { intros j Hj. split; [intros []|].
       apply (Permutation.Permutation_in _ Pm) in Hj. apply in_seq in Hj.
       rewrite dists_length in Hj. lia. }
  2: { intros a b Hab Hb. apply So; auto. lia. }
  destruct E as (I1 & _ & F1).
  destruct (improve_spec Y0 y0 H0 Hc 20 k1 Y1 d1 repl1 0 I1)
    as (Y' & d' & repl' & imp & r & R1 & R2 & R3 & R4 & R5).
  rewrite R1. exists Y', repl', imp, r. eexists. split; [reflexivity|].
  destruct R2 as (J1 & J2 & J3 & J4 & J5 & J6 & J7 & J8).
  split; auto. split; auto. split; auto. split; auto. split; auto. split; auto.
  split.
  { intros j y y0' Nj Hy Hy0 Hj. rewrite J3, H0 in Hy0. injection Hy0 as <-.
    assert (Lj : (j < length Y0)%nat) by (rewrite <- J1; apply nth_error_Some; congruence).
    assert (G : nth j (dists dist Y0) 0 <= farfact * (1 + epsL) * Delta).
    { apply F1; [|intros X; apply Nj; auto].
      apply (Permutation.Permutation_in _ (Permutation.Permutation_sym Pm)).
      apply in_seq. rewrite dists_length. lia. }
    rewrite (J6 j Nj) in Hy. rewrite EY in Hy, G. destruct j; [lia|]. cbn in Hy, G.
    erewrite nth_error_nth in G; [exact G|]. apply map_nth_error with (f := fun y => dist y y0). exact Hy. }
  split.
  { apply R5. intros; discriminate. }
  split; auto.
  intros N. apply qmaxl_dists. rewrite <- (J8 N). exact R4.
Qed.

End Rep.

(** ** Augmenting *)

Lemma augment_spec {P} q w (ynew Y : list P) :
  fst (augment_Y q w ynew Y) = length (snd (augment_Y q w ynew Y)) /\
  (exists tl, snd (augment_Y q w ynew Y) = Y ++ tl /\ (tl = [] \/ tl = ynew)) /\
  (w <> 3%nat -> (length ynew <= 1)%nat -> (length Y <= q)%nat ->
     (length (snd (augment_Y q w ynew Y)) <= q)%nat) /\
  ((length Y < q)%nat \/ w = 3%nat -> snd (augment_Y q w ynew Y) = Y ++ ynew) /\
  ((q <= length Y)%nat -> w <> 3%nat -> snd (augment_Y q w ynew Y) = Y).
Proof.
  unfold augment_Y.
  destruct (q <=? length Y)%nat eqn:A; destruct (w =? 3)%nat eqn:B; cbn [andb negb fst snd];
    rewrite ?Nat.leb_le, ?Nat.leb_gt, ?Nat.eqb_eq, ?Nat.eqb_neq in *.
  2: { split; [reflexivity|]. split; [exists []; rewrite app_nil_r; auto|].
       split; [auto|]. split; [intros [H|H]; [lia|contradiction]|auto]. }
  all: rewrite app_length; split; [reflexivity|]; split; [eauto|]; split; [lia|];
    split; [auto|intros; try lia].
Qed.

(** ** Huge constraint values *)

Lemma in_concat_map (g : Q -> Q) c v : In v (concat (map (map g) c)) <->
  exists w, In w (concat c) /\ v = g w.
Proof.
  rewrite <- concat_map. rewrite in_map_iff. split; intros (w & A & B); exists w; auto.
Qed.

Definition upf (m v : Q) : Q := if qleb c1e25 v then 10 * m else v.
Definition dnf (m v : Q) : Q := if qleb v (- c1e25) then 10 * m else v.

Lemma pos25 : 0 < c1e25. Proof. reflexivity. Qed.
Lemma neg25 : - c1e25 < 0. Proof. reflexivity. Qed.

(* each of the two passes applies one function to every entry *)
Lemma over_up_some c c' : over_up c = Some c' ->
  exists m, c' = map (map (upf m)) c /\
    ((forall v, In v (concat c) -> v < c1e25) \/
     (In m (concat c) /\ m < c1e25 /\ forall v, In v (concat c) -> v < c1e25 -> v <= m)).
Proof.
  unfold over_up. destruct (qmaxl _) as [m|] eqn:E.
  - intros H. injection H as <-. exists m. split; [reflexivity|]. right.
    apply qmaxl_spec in E. destruct E as (E1 & E2). apply filter_In in E1.
    destruct E1 as (E1 & E3). qb. split; auto. split; auto.
    intros v Hv L. apply E2. apply filter_In. split; auto. qb. auto.
  - destruct (existsb _ _) eqn:X; [discriminate|]. intros H. injection H as <-.
    assert (A : forall v, In v (concat c) -> v < c1e25).
    { intros v Hv. destruct (qleb c1e25 v) eqn:Ev.
      - assert (T : existsb (fun v => qleb c1e25 v) (concat c) = true)
          by (apply existsb_exists; eauto). congruence.
      - qb. auto. }
    exists 0. split; [|left; auto].
    rewrite <- (map_id c) at 1. apply map_ext_in. intros l Hl.
    rewrite <- (map_id l) at 1. apply map_ext_in. intros v Hv. unfold upf.
    replace (qleb c1e25 v) with false; auto. symmetry. qb. apply A.
    apply in_concat. eauto.
Qed.

Lemma over_dn_some c c' : over_dn c = Some c' ->
  exists m, c' = map (map (dnf m)) c /\
    ((forall v, In v (concat c) -> - c1e25 < v) \/
     (In m (concat c) /\ - c1e25 < m /\ forall v, In v (concat c) -> - c1e25 < v -> m <= v)).
Proof.
  unfold over_dn. destruct (qminl _) as [m|] eqn:E.
  - intros H. injection H as <-. exists m. split; [reflexivity|]. right.
    apply qminl_spec in E. destruct E as (E1 & E2). apply filter_In in E1.
    destruct E1 as (E1 & E3). qb. split; auto. split; auto.
    intros v Hv L. apply E2. apply filter_In. split; auto. qb. auto.
  - destruct (existsb _ _) eqn:X; [discriminate|]. intros H. injection H as <-.
    assert (A : forall v, In v (concat c) -> - c1e25 < v).
    { intros v Hv. destruct (qleb v (- c1e25)) eqn:Ev.
      - assert (T : existsb (fun v => qleb v (- c1e25)) (concat c) = true)
          by (apply existsb_exists; eauto). congruence.
      - qb. auto. }
    exists 0. split; [|left; auto].
    rewrite <- (map_id c) at 1. apply map_ext_in. intros l Hl.
    rewrite <- (map_id l) at 1. apply map_ext_in. intros v Hv. unfold dnf.
    replace (qleb v (- c1e25)) with false; auto. symmetry. qb. apply A.
    apply in_concat. eauto.
Qed.

Lemma over_up_none c : over_up c = None <->
  (exists v, In v (concat c)) /\ forall v, In v (concat c) -> c1e25 <= v.
Proof.
  unfold over_up. destruct (qmaxl _) as [m|] eqn:E.
  - split; [discriminate|]. intros (_ & H). exfalso. apply qmaxl_spec in E.
    destruct E as (E & _). apply filter_In in E. destruct E as (E1 & E2). qb.
    apply (Qlt_not_le _ _ E2). auto.
  - assert (A : forall v, In v (concat c) -> c1e25 <= v).
    { intros v Hv. destruct (qltb v c1e25) eqn:Ev; qb; auto.
      assert (F : In v (filter (fun v => qltb v c1e25) (concat c)))
        by (apply filter_In; split; auto; qb; auto).
      destruct (filter _ _); [destruct F|discriminate]. }
    destruct (existsb _ _) eqn:X.
    + split; auto. intros _. split; auto. apply existsb_exists in X.
      destruct X as (v & X & _). eauto.
    + split; [discriminate|]. intros ((v & Hv) & _). exfalso.
      assert (T : existsb (fun v => qleb c1e25 v) (concat c) = true).
      { apply existsb_exists. exists v. split; auto. qb. auto. } congruence.
Qed.

Lemma over_dn_none c : over_dn c = None <->
  (exists v, In v (concat c)) /\ forall v, In v (concat c) -> v <= - c1e25.
Proof.
  unfold over_dn. destruct (qminl _) as [m|] eqn:E.
  - split; [discriminate|]. intros (_ & H). exfalso. apply qminl_spec in E.
    destruct E as (E & _). apply filter_In in E. destruct E as (E1 & E2). qb.
    apply (Qlt_not_le _ _ E2). auto.
  - assert (A : forall v, In v (concat c) -> v <= - c1e25).
    { intros v Hv. destruct (qltb (- c1e25) v) eqn:Ev; qb; auto.
      assert (F : In v (filter (fun v => qltb (- c1e25) v) (concat c)))
        by (apply filter_In; split; auto; qb; auto).
      destruct (filter _ _); [destruct F|discriminate]. }
    destruct (existsb _ _) eqn:X.
    + split; auto. intros _. split; auto. apply existsb_exists in X.
      destruct X as (v & X & _). eauto.
    + split; [discriminate|]. intros ((v & Hv) & _). exfalso.
      assert (T : existsb (fun v => qleb v (- c1e25)) (concat c) = true).
      { apply existsb_exists. exists v. split; auto. qb. auto. } congruence.
Qed.

Lemma not_huge v : ~ huge v <-> - c1e25 < v /\ v < c1e25.
Proof.
  unfold huge. fold c1e25. split.
  - intros N. split; apply Qnot_le_lt; tauto.
  - intros (A & B) [H|H]; [apply (Qlt_not_le _ _ B H)|apply (Qlt_not_le _ _ A H)].
Qed.

Lemma huge_dec v : {huge v} + {~ huge v}.
Proof.
  destruct (qleb c1e25 v) eqn:A; [left; left; qb; auto|].
  destruct (qleb v (- c1e25)) eqn:B; [left; right; qb; auto|].
  right. apply not_huge. qb. auto.
Qed.

Lemma upf_fin m v : ~ huge v -> upf m v = v.
Proof.
  intros H. apply not_huge in H. unfold upf.
  replace (qleb c1e25 v) with false; auto. symmetry. qb. tauto.
Qed.
Lemma dnf_fin m v : ~ huge v -> dnf m v = v.
Proof.
  intros H. apply not_huge in H. unfold dnf.
  replace (qleb v (- c1e25)) with false; auto. symmetry. qb. tauto.
Qed.

Lemma overwrite_none c : overwrite_ce c = None <->
  (exists v, In v (concat c)) /\ forall v, In v (concat c) -> huge v.
Proof.
  unfold overwrite_ce. destruct (over_up c) as [c1|] eqn:U.
  - apply over_up_some in U. destruct U as (m & -> & Hm). rewrite over_dn_none. split.
    + intros ((v & Hv) & H). apply in_concat_map in Hv. destruct Hv as (w & Hw & ->).
      split; [eauto|]. intros z Hz. destruct (huge_dec z) as [|N]; auto. exfalso.
      specialize (H (upf m z) ltac:(apply in_concat_map; eauto)).
      rewrite (upf_fin m z N) in H. apply N. right. exact H.
    + intros ((v & Hv) & H). split.
      { exists (upf m v). apply in_concat_map. eauto. }
      intros z Hz. apply in_concat_map in Hz. destruct Hz as (w & Hw & ->).
      unfold upf. destruct (qleb c1e25 w) eqn:Ew; qb.
      * destruct Hm as [Hm|(Im & Lm & _)].
        -- exfalso. apply (Qlt_not_le _ _ (Hm w Hw) Ew).
        -- destruct (H m Im) as [X|X]; fold c1e25 in X.
           { exfalso. apply (Qlt_not_le _ _ Lm X). }
           { pose proof pos25. lra. }
      * destruct (H w Hw) as [X|X]; fold c1e25 in X; auto.
        exfalso. apply (Qlt_not_le _ _ Ew X).
  - split; auto. intros _. apply over_up_none in U. destruct U as (U1 & U2).
    split; auto. intros v Hv. left. apply U2; auto.
Qed.

Lemma overwrite_finite c c' : overwrite_ce c = Some c' ->
  same_shape c c' /\ forall i j v v', entry c i j v -> entry c' i j v' -> ~ huge v -> v' = v.
Proof.
  unfold overwrite_ce. destruct (over_up c) as [c1|] eqn:U; [|discriminate].
  intros D. apply over_up_some in U. destruct U as (m & -> & _).
  apply over_dn_some in D. destruct D as (m2 & -> & _).
  split.
  - split; [rewrite !map_length; auto|]. intros i a b A B.
    rewrite !nth_error_map in B. rewrite A in B. cbn in B. injection B as <-.
    rewrite !map_length. auto.
  - intros i j v v' (a & A1 & A2) (b & B1 & B2) N.
    rewrite !nth_error_map, A1 in B1. cbn in B1. injection B1 as <-.
    rewrite !nth_error_map, A2 in B2. cbn in B2. injection B2 as <-.
    rewrite (upf_fin m v N). apply dnf_fin. auto.
Qed.

(* the two possible origins of an entry afterwards *)
Lemma overwrite_bounded c c' : overwrite_ce c = Some c' ->
  (forall v, In v (concat c) -> ~ huge v -> - inject_Z (10 ^ 23) < v < inject_Z (10 ^ 23)) ->
  forall v, In v (concat c') -> ~ huge v.
Proof.
  intros O F. pose proof O as O0. unfold overwrite_ce in O.
  destruct (over_up c) as [c1|] eqn:U; [|discriminate].
  apply over_up_some in U. destruct U as (m & -> & Hm).
  apply over_dn_some in O. destruct O as (m2 & -> & Hm2).
  set (B := inject_Z (10 ^ 23)) in *.
  assert (C25 : c1e25 == 100 * B) by reflexivity.
  assert (PB : 0 < B) by reflexivity.
  (* bounds after the first pass *)
  assert (S1 : forall z, In z (concat (map (map (upf m)) c)) -> - c1e25 < z ->
     - (10 * B) < z /\ z < 10 * B).
  { intros z Hz Lz. apply in_concat_map in Hz. destruct Hz as (w & Hw & ->).
    unfold upf in *. destruct (qleb c1e25 w) eqn:Ew; qb.
    - destruct Hm as [Hm|(Im & Lm & Mx)]; [exfalso; apply (Qlt_not_le _ _ (Hm w Hw) Ew)|].
      (* m itself is finite, otherwise 10 m would be huge *)
      assert (Fm : ~ huge m) by (apply not_huge; split; [lra|auto]).
      destruct (F m Im Fm). lra.
    - destruct (F w Hw) as (F1 & F2); [apply not_huge; auto|]. lra. }
  intros v Hv. apply in_concat_map in Hv. destruct Hv as (z & Hz & ->).
  apply not_huge. unfold dnf. destruct (qleb z (- c1e25)) eqn:Ez; qb.
  - destruct Hm2 as [H2|(I2 & L2 & _)].
    + exfalso. apply (Qlt_not_le _ _ (H2 z Hz) Ez).
    + destruct (S1 m2 I2 L2). lra.
  - destruct (S1 z Hz Ez). lra.
Qed.

(** ** In the words of the specification *)

Lemma qabs_Qabs a : qabs a == Qabs a.
Proof.
  unfold qabs. destruct (qleb 0 a) eqn:E; qb.
  - rewrite Qabs_pos by auto. reflexivity.
  - rewrite Qabs_neg by (apply Qlt_le_weak; auto). reflexivity.
Qed.

Lemma candidate_qual cset thr L p k : candidate cset thr L p k <-> qual L cset thr p k.
Proof.
  unfold candidate, qual. rewrite qabs_Qabs. tauto.
Qed.

Lemma has_crit_value {P} (dist : P -> P -> Q) x Y c succ L k v :
  has_crit dist x Y c succ L k v ->
  v == crit_value c succ (dx_of dist Y x) (d0_of dist Y) L k.
Proof.
  intros (y & y0 & Hy & H0 & H). unfold crit_value, dx_of, d0_of. rewrite Hy, H0.
  destruct c, succ; rewrite ?qabs_Qabs; exact H.
Qed.

Lemma has_crit_ex {P} (dist : P -> P -> Q) x Y c succ L k : (k < length Y)%nat ->
  has_crit dist x Y c succ L k (crit_value c succ (dx_of dist Y x) (d0_of dist Y) L k).
Proof.
  intros H. destruct (nth_error Y k) as [y|] eqn:E; [|apply nth_error_None in E; lia].
  destruct (nth_error Y 0) as [y0|] eqn:E0; [|apply nth_error_None in E0; lia].
  exists y, y0. split; auto. split; auto.
  unfold crit_value, dx_of, d0_of. rewrite E, E0.
  destruct c, succ; cbn; rewrite ?qabs_Qabs; reflexivity.
Qed.

Lemma include_chosen {P} (zero : P) dist x Y cset thr c xb succ L Y' j xb' : 0 <= thr ->
  include_in_Y zero dist x Y cset thr c xb succ L = (Y', Some j, xb') ->
  candidate cset thr L (length Y) j /\ only_changed j Y Y' /\ nth_error Y' j = Some x /\
  xb' = base_of zero Y' /\
  exists v, has_crit dist x Y c succ L j v /\ 0 < v /\
    forall k w, candidate cset thr L (length Y) k -> has_crit dist x Y c succ L k w -> w <= v.
Proof.
  intros Ht E. apply include_some in E; auto. destruct E as (E1 & E2 & E3 & E4 & E5 & E6).
  split; [apply candidate_qual; auto|]. split; auto. split; auto. split; auto.
  eexists. split; [apply has_crit_ex; apply E1|]. split; [exact E2|].
  intros k w Ck Hw. apply has_crit_value in Hw. rewrite Hw. apply E3.
  apply candidate_qual. auto.
Qed.

Lemma include_nothing {P} (zero : P) dist x Y cset thr c xb succ L Y' xb' : 0 <= thr ->
  include_in_Y zero dist x Y cset thr c xb succ L = (Y', None, xb') ->
  Y' = Y /\ xb' = xb /\
  forall k w, candidate cset thr L (length Y) k -> has_crit dist x Y c succ L k w -> w <= 0.
Proof.
  intros Ht E. apply include_none in E; auto. destruct E as (E1 & E2 & E3).
  split; auto. split; auto. intros k w Ck Hw. apply has_crit_value in Hw. rewrite Hw.
  apply E3. apply candidate_qual. auto.
Qed.

Lemma merit_at_eq {P} cnorm sigma (S : iset P) k v :
  merit_at cnorm (inject_Z (qtrunc sigma)) S k v -> v == meritY cnorm sigma S k.
Proof.
  intros (f & Hf & Hm). unfold meritY. rewrite (nth_error_nth _ _ 0 Hf).
  destruct Hm as [(Z & E)|(Z & E)].
  - apply any_ce_false in Z. rewrite Z, E. lra.
  - apply any_ce_true in Z. rewrite Z, E. reflexivity.
Qed.

Lemma find_smallf_moves {P} (zero : P) inside cnorm sigma (S : iset P) p x fx ib :
  wf_set S p -> (1 <= p)%nat ->
  exists r, find_smallf zero inside cnorm sigma S x fx ib = Some r /\
    nth_error (s_f (r_set r)) 0 = Some (r_f r) /\
    (s_ce S <> [] -> exists c, r_ce r = Some c /\ nth_error (s_ce (r_set r)) 0 = Some c) /\
    ((r_set r = S /\ r_x r = x /\ r_fx r = fx /\ r_ibest r = ib) \/
     (exists k y, nth_error (s_Y S) k = Some y /\ k <> 1%nat /\ k <> 0%nat /\ inside y = true /\
        set_permuted 0 k S (r_set r) /\ wf_set (r_set r) p /\ r_x r = y /\
        nth_error (s_f S) k = Some (r_fx r) /\ nth_error (s_ind S) k = Some (r_ibest r) /\
        (forall m0 mk, merit_at cnorm (inject_Z (qtrunc sigma)) S 0 m0 ->
           merit_at cnorm (inject_Z (qtrunc sigma)) S k mk -> mk < m0) /\
        (forall k' z m' mk, nth_error (s_Y S) k' = Some z -> inside z = true ->
           merit_at cnorm (inject_Z (qtrunc sigma)) S k' m' ->
           merit_at cnorm (inject_Z (qtrunc sigma)) S k mk -> mk <= m'))).
Proof.
  intros W Hp. destruct (find_smallf_spec zero inside cnorm sigma S p x fx ib W Hp)
    as (r & E & F & _ & C & H).
  exists r. split; auto. split; auto. split; auto.
  destruct H as [(A & B & D & G & _)|(k & y & A & B & D & G & H & I & J & K & L & M & N)]; [left; auto|].
  right. exists k, y. repeat (split; [assumption|]). split.
  - intros m0 mk M0 Mk. apply merit_at_eq in M0, Mk. rewrite M0, Mk. exact H.
  - intros k' z m' mk Hk' Iz M' Mk. apply merit_at_eq in M', Mk. rewrite M', Mk. eapply I; eauto.
Qed.

Lemma find_smallf_stays {P} (zero : P) inside cnorm sigma (S : iset P) p x fx ib r :
  wf_set S p -> (1 <= p)%nat -> NoDup (s_Y S) ->
  find_smallf zero inside cnorm sigma S x fx ib = Some r -> r_set r = S ->
  (forall k z m0 mk, nth_error (s_Y S) k = Some z -> inside z = true ->
     merit_at cnorm (inject_Z (qtrunc sigma)) S 0 m0 ->
     merit_at cnorm (inject_Z (qtrunc sigma)) S k mk -> m0 <= mk) \/
  (exists y, nth_error (s_Y S) 1 = Some y /\ inside y = true /\
     forall k z m1 mk, nth_error (s_Y S) k = Some z -> inside z = true ->
       merit_at cnorm (inject_Z (qtrunc sigma)) S 1 m1 ->
       merit_at cnorm (inject_Z (qtrunc sigma)) S k mk -> m1 <= mk).
Proof.
  intros W Hp ND E0 ES. destruct (find_smallf_spec zero inside cnorm sigma S p x fx ib W Hp)
    as (r' & E & _ & _ & _ & H).
  rewrite E0 in E. injection E as <-.
  destruct H as [(_ & _ & _ & _ & H)|(k & y & A & B & D & G & H & I & J & K & L & M & N)].
  - destruct H as [H|(y & H1 & H2 & H3 & H4)].
    + left. intros k z m0 mk Hk Iz M0 Mk. apply merit_at_eq in M0, Mk. rewrite M0, Mk. eauto.
    + right. exists y. split; auto. split; auto. intros k z m1 mk Hk Iz M1 Mk.
      apply merit_at_eq in M1, Mk. rewrite M1, Mk. eauto.
  - exfalso. rewrite ES in J. destruct J as ((_ & J) & _). specialize (J k).
    unfold transp in J. destruct (Nat.eq_dec k 0); [contradiction|].
    destruct (Nat.eq_dec k k); [|contradiction].
    rewrite NoDup_nth_error in ND. apply D. apply ND; auto.
    apply nth_error_Some. congruence.
Qed.

Lemma augment_sequence {P} q w (news Y : list P) : w <> 3%nat -> (length Y <= q)%nat ->
  (length (fold_left (fun Y y => snd (augment_Y q w [y] Y)) news Y) <= q)%nat.
Proof.
  intros Hw. revert Y. induction news as [|y t IH]; cbn [fold_left]; intros Y H; auto.
  apply IH. apply (proj1 (proj2 (proj2 (augment_spec q w [y] Y)))); auto.
Qed.

Lemma repair_frame {P} (zero : P) dist rowdist newpt argsort farfact epsL Delta closethr Y0 xb :
  sorts_desc argsort -> 0 < closethr -> 0 <= farfact * (1 + epsL) * Delta -> Y0 <> [] ->
  exists Y repl imp r xb',
    repair_Y zero dist rowdist newpt argsort farfact epsL Delta closethr Y0 xb
      = Some ((Y, repl, imp, r), xb') /\
    length Y = length Y0 /\ nth_error Y 0 = nth_error Y0 0 /\
    NoDup repl /\ (forall j, In j repl -> (0 < j < length Y0)%nat) /\
    (forall j, ~ In j repl -> nth_error Y j = nth_error Y0 j) /\
    xb' = (match repl with [] => xb | _ => base_of zero Y end).
Proof.
  intros A B C D.
  destruct (repair_spec zero dist rowdist newpt argsort farfact epsL Delta closethr Y0 xb A B C D)
    as (Y & repl & imp & r & xb' & H1 & H2 & H3 & H4 & H5 & H6 & H7 & H8 & H9 & H10 & H11).
  exists Y, repl, imp, r, xb'. repeat (split; [assumption|]). exact H11.
Qed.

Section RepairOut.
Context {P : Type}.
Variables (zero : P) (dist : P -> P -> Q) (rowdist : P -> Q)
  (newpt : nat -> list P -> nat -> nyj P) (argsort : list Q -> list nat)
  (farfact epsL Delta closethr : Q) (Y0 : list P) (xb : P).
Hypotheses (Hs : sorts_desc argsort) (Hc : 0 < closethr)
  (Ht : 0 <= farfact * (1 + epsL) * Delta) (Hne : Y0 <> []).
Variables (Y : list P) (repl : list nat) (imp r : Q) (xb' : P).
Hypothesis (E : repair_Y zero dist rowdist newpt argsort farfact epsL Delta closethr Y0 xb
      = Some ((Y, repl, imp, r), xb')).

Lemma repair_new j : In j repl ->
  exists y, nth_error Y j = Some y /\ origin zero newpt Y0 j y.
Proof.
  destruct (repair_spec zero dist rowdist newpt argsort farfact epsL Delta closethr Y0 xb Hs Hc Ht Hne)
    as (Y1 & repl1 & imp1 & r1 & xb1 & H1 & H2 & H3 & H4 & H5 & H6 & H7 & H8 & H9 & H10 & H11).
  rewrite E in H1. injection H1 as <- <- <- <- <-. auto.
Qed.

Lemma repair_near j y y0 : ~ In j repl -> j <> 0%nat ->
  nth_error Y j = Some y -> nth_error Y 0 = Some y0 ->
  dist y y0 <= farfact * (1 + epsL) * Delta.
Proof.
  destruct (repair_spec zero dist rowdist newpt argsort farfact epsL Delta closethr Y0 xb Hs Hc Ht Hne)
    as (Y1 & repl1 & imp1 & r1 & xb1 & H1 & H2 & H3 & H4 & H5 & H6 & H7 & H8 & H9 & H10 & H11).
  rewrite E in H1. injection H1 as <- <- <- <- <-. eauto.
Qed.

Lemma repair_settled : imp < closethr -> settled newpt closethr Y.
Proof.
  destruct (repair_spec zero dist rowdist newpt argsort farfact epsL Delta closethr Y0 xb Hs Hc Ht Hne)
    as (Y1 & repl1 & imp1 & r1 & xb1 & H1 & H2 & H3 & H4 & H5 & H6 & H7 & H8 & H9 & H10 & H11).
  rewrite E in H1. injection H1 as <- <- <- <- <-. auto.
Qed.

Lemma repair_radius : (forall k Y j, newpt k Y j <> NoPt) -> is_radius dist Y r.
Proof.
  destruct (repair_spec zero dist rowdist newpt argsort farfact epsL Delta closethr Y0 xb Hs Hc Ht Hne)
    as (Y1 & repl1 & imp1 & r1 & xb1 & H1 & H2 & H3 & H4 & H5 & H6 & H7 & H8 & H9 & H10 & H11).
  rewrite E in H1. injection H1 as <- <- <- <- <-. auto.
Qed.

Lemma repair_bound y0 : (forall k Y j, newpt k Y j <> NoPt) ->
  nth_error Y0 0 = Some y0 ->
  (forall k Yk j y v, nth_error Yk 0 = Some y0 -> newpt k Yk j = NewPt y v ->
     dist y y0 <= (1 + epsL) * Delta) ->
  1 <= farfact ->
  forall j y, nth_error Y j = Some y -> j <> 0%nat -> dist y y0 <= farfact * (1 + epsL) * Delta.
Proof.
  intros N H0 Hb Hf j y Hy Hj.
  destruct (repair_spec zero dist rowdist newpt argsort farfact epsL Delta closethr Y0 xb Hs Hc Ht Hne)
    as (Y1 & repl1 & imp1 & r1 & xb1 & H1 & H2 & H3 & H4 & H5 & H6 & H7 & H8 & H9 & H10 & H11).
  rewrite E in H1. injection H1 as <- <- <- <- <-.
  destruct (in_dec Nat.eq_dec j repl) as [I|I].
  - destruct (H7 j I) as (y' & Hy' & k & Yk & Hk & [(v & O)|(O & _)]).
    + rewrite Hy in Hy'. injection Hy' as <-. rewrite H0 in Hk.
      pose proof (Hb k Yk j y v Hk O) as B. eapply Qle_trans; [exact B|].
      destruct (Qlt_le_dec ((1 + epsL) * Delta) 0) as [Neg|Pos].
      * assert (farfact * ((1 + epsL) * Delta) < 0).
        { setoid_replace 0 with (farfact * 0) by ring.
          rewrite Qmult_comm, (Qmult_comm farfact 0).
          apply Qmult_lt_compat_r; auto. lra. }
        rewrite Qmult_assoc in H. exfalso. apply (Qlt_not_le _ _ H Ht).
      * rewrite <- Qmult_assoc. setoid_replace ((1 + epsL) * Delta) with (1 * ((1 + epsL) * Delta)) at 1 by ring.
        apply Qmult_le_compat_r; auto.
    + exfalso. eapply N; eauto.
  - eapply H8; eauto. rewrite H3. auto.
Qed.
End RepairOut.

Lemma clamp_spec v :
  - inject_Z (10 ^ 25) <= clamp25 v <= inject_Z (10 ^ 25) /\
  (- inject_Z (10 ^ 25) <= v <= inject_Z (10 ^ 25) -> clamp25 v = v).
Proof.
  unfold clamp25. fold c1e25. pose proof pos25.
  destruct (qltb c1e25 v) eqn:A; qb.
  - split; [split; lra|]. intros (_ & B). exfalso. apply (Qlt_not_le _ _ A B).
  - destruct (qltb v (- c1e25)) eqn:B; qb.
    + split; [split; lra|]. intros (C & _). exfalso. apply (Qlt_not_le _ _ B C).
    + auto.
Qed.
