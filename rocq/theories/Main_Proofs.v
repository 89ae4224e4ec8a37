(** Invariants of the main loop. *)
From Coq Require Import List Arith ZArith QArith Qabs Bool Lia Lqa Psatz.
Import ListNotations.
From Verif Require Import QB Book_Model Book_Spec Book_Proofs Main_Model Main_Spec.
Local Open Scope Q_scope.

Lemma in_nth_error_iff {A} (l : list A) x : In x l <-> exists i, nth_error l i = Some x.
Proof. split; [apply In_nth_error|intros (i & H); eapply nth_error_In; eauto]. Qed.

Lemma nth_error_len {A} (l : list A) i x : nth_error l i = Some x -> (i < length l)%nat.
Proof. intros H. apply nth_error_Some. congruence. Qed.

Lemma nth_error_ex {A} (l : list A) i : (i < length l)%nat -> exists x, nth_error l i = Some x.
Proof. intros H. destruct (nth_error l i) eqn:E; eauto. apply nth_error_None in E. lia. Qed.

(** ** Evaluation *)

Section Proofs.
Context {P : Type}.
Variable E : env P.

Lemma capped_qmin v : capped v (qmin c1e25 v).
Proof.
  unfold capped, qmin, c1e25. destruct (qleb (inject_Z (10 ^ 25)) v) eqn:H; qb; split; intros; lra.
Qed.

Lemma existsb_nan c : existsb is_nan c = false <-> ~ In NaN c.
Proof.
  split; intros H.
  - intros I. assert (existsb is_nan c = true) by (apply existsb_exists; exists NaN; auto). congruence.
  - destruct (existsb is_nan c) eqn:E1; auto. apply existsb_exists in E1.
    destruct E1 as (v & I & N). destruct v; cbn in N; try discriminate. contradiction.
Qed.

Lemma eval_user_ok k y f c' : eval_user (e_user E k y) = EvOk f c' <->
  exists c, answered E k y f c /\ c' = map clampx c.
Proof.
  unfold eval_user, answered. split.
  - destruct (o_f (e_user E k y)) as [v|]; [|discriminate].
    destruct v; try discriminate. destruct (o_c (e_user E k y)) as [c|]; [|discriminate].
    destruct (existsb is_nan c) eqn:N; [discriminate|]. intros H; injection H as <- <-.
    exists c. apply existsb_nan in N. auto.
  - intros (c & (-> & -> & N) & ->). apply existsb_nan in N. rewrite N. reflexivity.
Qed.

Lemma eval_user_fail k y v : eval_user (e_user E k y) = EvFail v -> ~ good_call E k y.
Proof.
  intros H (w & c & G). assert (eval_user (e_user E k y) = EvOk w (map clampx c)) as K.
  { apply eval_user_ok. eauto. }
  congruence.
Qed.

(** ** Archive *)

Definition archOK (A : arch P) : Prop :=
  nsim A = length (calls A) /\ length (Xs A) = S (mlast A) /\ length (fXs A) = S (mlast A) /\
  (e_me E = 0%nat -> ceXs A = []) /\ (e_me E <> 0%nat -> length (ceXs A) = S (mlast A)) /\
  (forall c, In c (ceXs A) -> length c = e_me E) /\
  (forall i y f, nth_error (Xs A) i = Some y -> nth_error (fXs A) i = Some f ->
     evaluated E (calls A) y f) /\
  (tame E -> forall c v, In c (ceXs A) -> In v c -> ~ huge v).

(** weaker form after a failed evaluation *)
Definition archW (A : arch P) : Prop :=
  nsim A = length (calls A) /\
  (forall i y f, nth_error (Xs A) i = Some y -> nth_error (fXs A) i = Some f ->
     evaluated E (calls A) y f).

Lemma archOK_W A : archOK A -> archW A.
Proof. intros (H1 & _ & _ & _ & _ & _ & H2 & _). split; auto. Qed.

Definition ext (A A' : arch P) : Prop :=
  (forall i, (i <= mlast A)%nat -> nth_error (Xs A') i = nth_error (Xs A) i) /\
  (forall i, (i <= mlast A)%nat -> nth_error (fXs A') i = nth_error (fXs A) i) /\
  (mlast A <= mlast A')%nat /\
  (exists tl, calls A' = calls A ++ tl).

Definition extc (A A' : arch P) : Prop :=
  forall i, (i <= mlast A)%nat -> nth_error (ceXs A') i = nth_error (ceXs A) i.

Lemma ext_refl A : ext A A.
Proof. repeat split; auto. exists []. rewrite app_nil_r. auto. Qed.

Lemma ext_trans A B C : ext A B -> ext B C -> ext A C.
Proof.
  intros (H1 & H2 & H3 & t1 & H4) (K1 & K2 & K3 & t2 & K4). split; [|split; [|split]].
  - intros i Hi. rewrite K1, H1; auto. lia.
  - intros i Hi. rewrite K2, H2; auto. lia.
  - lia.
  - exists (t1 ++ t2). rewrite K4, H4, app_assoc. auto.
Qed.

Lemma extc_trans A B C : ext A B -> extc A B -> extc B C -> extc A C.
Proof. intros (_ & _ & L & _) H K i Hi. rewrite K, H; auto. lia. Qed.

Lemma evaluated_app cl tl y f : evaluated E cl y f -> evaluated E (cl ++ tl) y f.
Proof.
  intros (k & v & c & H & G). exists k, v, c. split; [|exact G].
  rewrite nth_error_app1; auto. eapply nth_error_len; eauto.
Qed.

Lemma nth_error_last {A} (l : list A) x : nth_error (l ++ [x]) (length l) = Some x.
Proof. rewrite nth_error_app2 by lia. rewrite Nat.sub_diag. reflexivity. Qed.

Lemma in_soa {A} (l : list A) m v x : m = length l -> In x (set_or_append l m v) -> x = v \/ In x l.
Proof.
  intros -> H. unfold set_or_append in H. rewrite Nat.ltb_irrefl in H.
  apply in_app_or in H. destruct H as [H|[H|[]]]; auto.
Qed.

Lemma clampx_tame k y c : tame E -> o_c (e_user E k y) = Some c ->
  forall v, In v (map clampx c) -> ~ huge v.
Proof.
  intros T H v I. apply in_map_iff in I. destruct I as (w & <- & I).
  destruct (T _ _ _ _ H I) as (q & -> & N). cbn. apply not_huge in N.
  unfold clamp25. destruct (qltb c1e25 q) eqn:A1; [qb; lra|].
  destruct (qltb q (- c1e25)) eqn:A2; [qb; lra|]. apply not_huge. exact N.
Qed.

Lemma eval_at_done A y A' f c : archOK A -> eval_at E A y = EDone A' f c ->
  archOK A' /\ ext A A' /\ extc A A' /\ mlast A' = S (mlast A) /\ calls A' = calls A ++ [y] /\
  nth_error (Xs A') (mlast A') = Some y /\ nth_error (fXs A') (mlast A') = Some (qmin c1e25 f) /\
  (e_me E <> 0%nat -> nth_error (ceXs A') (mlast A') = Some c) /\ length c = e_me E /\
  good_call E (length (calls A)) y.
Proof.
  intros (O1 & O2 & O3 & O4 & O5 & O6 & O7 & O8) H. unfold eval_at in H.
  destruct (eval_user (e_user E (length (calls A)) y)) as [f' c'|] eqn:EU; [|discriminate].
  destruct (length c' =? e_me E)%nat eqn:LC; [|discriminate]. apply Nat.eqb_eq in LC.
  injection H as <- <- <-. apply eval_user_ok in EU. destruct EU as (c0 & AN & ->).
  cbn [nsim calls mlast Xs fXs ceXs].
  assert (EV : evaluated E (calls A ++ [y]) y (qmin c1e25 f')).
  { exists (length (calls A)), f', c0. split; [apply nth_error_last|]. split; [exact AN|apply capped_qmin]. }
  split; [|split; [|split; [|split; [|split; [|split; [|split; [|split; [|split]]]]]]]]; auto.
  - unfold archOK. cbn [nsim calls mlast Xs fXs ceXs].
    split; [rewrite app_length; cbn; lia|].
    split; [apply soa_length; auto|]. split; [apply soa_length; auto|].
    split; [intros M; rewrite M; auto|].
    split; [intros M; destruct (e_me E) eqn:ME; [congruence|]; apply soa_length; rewrite O5; auto|].
    split.
    { intros c I. destruct (e_me E) eqn:ME; [rewrite (O4 eq_refl) in I; contradiction|].
      apply in_soa in I; [|rewrite O5; auto]. destruct I as [->|I]; auto. }
    split.
    { intros i z g HX HF.
      destruct (Nat.eq_dec i (S (mlast A))) as [->|NE].
      - rewrite nth_error_soa_eq in HX by auto. rewrite nth_error_soa_eq in HF by auto.
        injection HX as <-. injection HF as <-. exact EV.
      - assert (i < S (mlast A))%nat.
        { pose proof (nth_error_len _ _ _ HX) as L. rewrite (soa_length _ (S (mlast A))) in L by auto. lia. }
        rewrite nth_error_soa_old in HX by (auto; lia). rewrite nth_error_soa_old in HF by (auto; lia).
        apply evaluated_app. eapply O7; eauto. }
    { intros T c v I J. destruct (e_me E) eqn:ME; [rewrite (O4 eq_refl) in I; contradiction|].
      apply in_soa in I; [|rewrite O5; auto]. destruct I as [->|I]; [|eapply O8; eauto].
      destruct AN as (_ & AN & _). eapply clampx_tame; eauto. }
  - split; [|split; [|split]]; cbn [nsim calls mlast Xs fXs ceXs]; try lia; eauto;
      intros i Hi; apply nth_error_soa_old; auto; lia.
  - intros i Hi. cbn [ceXs]. destruct (e_me E) eqn:ME; auto.
    apply nth_error_soa_old; [rewrite O5; auto|lia].
  - apply nth_error_soa_eq; auto.
  - apply nth_error_soa_eq; auto.
  - intros M. destruct (e_me E) eqn:ME; [congruence|]. apply nth_error_soa_eq. rewrite O5; auto.
  - exists f', c0; auto.
Qed.

Lemma eval_at_fail A y A' v : archOK A -> eval_at E A y = EFail A' v ->
  archW A' /\ ext A A' /\ mlast A' = S (mlast A) /\ calls A' = calls A ++ [y] /\
  ~ good_call E (length (calls A)) y /\ ceXs A' = ceXs A.
Proof.
  intros (O1 & O2 & O3 & O4 & O5 & O6 & O7 & O8) H. unfold eval_at in H.
  destruct (eval_user (e_user E (length (calls A)) y)) as [f' c'|] eqn:EU;
    [destruct (length c' =? e_me E)%nat; discriminate|].
  injection H as <- <-. cbn [nsim calls mlast Xs fXs ceXs].
  split; [|split; [|split; [|split; [|split]]]]; auto.
  - split; cbn [nsim calls mlast Xs fXs ceXs]; [rewrite app_length; cbn; lia|].
    intros i z g HX HF. pose proof (nth_error_len _ _ _ HF).
    rewrite nth_error_soa_old in HX by (auto; lia). apply evaluated_app. eapply O7; eauto.
  - split; [|split; [|split]]; cbn [nsim calls mlast Xs fXs ceXs]; try lia; eauto.
    intros i Hi; apply nth_error_soa_old; auto; lia.
  - eapply eval_user_fail; eauto.
Qed.

(** ** Set *)

(** the set refers to archived points; indices are at most [b] *)
Definition setOK (A : arch P) (b : nat) (S : iset P) : Prop :=
  (2 <= length (s_Y S))%nat /\ length (s_ind S) = length (s_Y S) /\
  length (s_f S) = length (s_Y S) /\ s_ci S = [] /\
  (e_me E = 0%nat -> s_ce S = []) /\ (e_me E <> 0%nat -> length (s_ce S) = length (s_Y S)) /\
  NoDup (s_ind S) /\ (forall i, In i (s_ind S) -> (i <= b)%nat) /\
  (forall j y, nth_error (s_Y S) j = Some y ->
    exists i f, nth_error (s_ind S) j = Some i /\ nth_error (Xs A) i = Some y /\
      nth_error (s_f S) j = Some f /\ nth_error (fXs A) i = Some f) /\
  (tame E -> e_me E <> 0%nat -> forall j i, nth_error (s_ind S) j = Some i ->
    nth_error (s_ce S) j = nth_error (ceXs A) i).

Lemma setOK_wf A b S : setOK A b S -> wf_set S (length (s_Y S)).
Proof.
  intros (H1 & H2 & H3 & H4 & H5 & H6 & _). split; [auto|split; [auto|split; [auto|split; auto]]].
  destruct (Nat.eq_dec (e_me E) 0); auto.
Qed.

Lemma setOK_ext A A' b b' S : setOK A b S -> ext A A' -> (tame E -> extc A A') ->
  (b <= mlast A)%nat -> (b <= b')%nat -> setOK A' b' S.
Proof.
  intros (H1 & H2 & H3 & H4 & H5 & H6 & H7 & H8 & H9 & H10) (X1 & X2 & _) XC B1 B2.
  split; [|split; [|split; [|split; [|split; [|split; [|split; [|split; [|split]]]]]]]]; auto.
  - intros i I. specialize (H8 _ I). lia.
  - intros j y J. destruct (H9 _ _ J) as (i & f & I1 & I2 & I3 & I4). exists i, f.
    assert (i <= mlast A)%nat by (apply nth_error_In, H8 in I1; lia).
    rewrite X1, X2 by auto. auto.
  - intros T M j i I. rewrite (H10 T M _ _ I). symmetry. apply XC; auto.
    apply nth_error_In, H8 in I. lia.
Qed.

Definition incOK (S : iset P) (x : P) (fx : Q) (i : nat) : Prop :=
  nth_error (s_Y S) 0 = Some x /\ nth_error (s_ind S) 0 = Some i /\ nth_error (s_f S) 0 = Some fx.

(** putting the newest archived point at one position *)
Lemma NoDup_upd (l : list nat) j v : NoDup l -> ~ In v l -> NoDup (upd l j v).
Proof.
  revert j. induction l as [|h t IH]; intros [|j] N I; cbn; auto; inversion N; subst.
  - constructor; auto. intros K. apply I. right. auto.
  - constructor.
    + intros K. apply in_upd in K. destruct K as [->|K]; [apply I; left; auto|contradiction].
    + apply IH; auto. intros K. apply I. right. auto.
Qed.

Lemma NoDup_snoc (l : list nat) v : NoDup l -> ~ In v l -> NoDup (l ++ [v]).
Proof.
  intros N I. apply NoDup_rev in N. rewrite <- (rev_involutive (l ++ [v])). apply NoDup_rev.
  rewrite rev_app_distr. cbn. constructor; auto. rewrite <- in_rev. exact I.
Qed.

Lemma soa_upd {A} (l : list A) j v : (j < length l)%nat -> set_or_append l j v = upd l j v.
Proof. intros H. unfold set_or_append. apply Nat.ltb_lt in H. rewrite H. auto. Qed.

Lemma soa_app {A} (l : list A) v : set_or_append l (length l) v = l ++ [v].
Proof. unfold set_or_append. rewrite Nat.ltb_irrefl. auto. Qed.

(** positions: either one inside the set, or the first one behind it *)
Definition put_at {A} (pos : nat) (x : A) (l l' : list A) : Prop :=
  nth_error l' pos = Some x /\ (forall k, k <> pos -> nth_error l' k = nth_error l k) /\
  ((pos < length l)%nat /\ length l' = length l \/ pos = length l /\ length l' = S (length l)).

Lemma put_at_soa {A} pos (x : A) l : (pos <= length l)%nat -> put_at pos x l (set_or_append l pos x).
Proof.
  intros H. destruct (Nat.eq_dec pos (length l)) as [->|N].
  - split; [apply nth_error_soa_eq; auto|]. split.
    + intros k K. destruct (Nat.lt_ge_cases k (length l)).
      * apply nth_error_soa_old; auto.
      * rewrite !(proj2 (nth_error_None _ _)); auto. rewrite (soa_length _ (length l)); auto. lia.
    + right. split; auto. apply soa_length; auto.
  - rewrite soa_upd by lia. split; [apply nth_error_upd_eq; lia|]. split.
    + intros k K. apply nth_error_upd_neq. auto.
    + left. rewrite upd_length. split; auto. lia.
Qed.

Lemma put_at_ind pos m (l l' : list nat) : put_at pos m l l' -> NoDup l -> ~ In m l ->
  l' = set_or_append l pos m /\ NoDup l'.
Proof.
  intros (H1 & H2 & H3) N I.
  assert (l' = set_or_append l pos m).
  { apply list_ext. intros i. destruct (Nat.eq_dec i pos) as [->|NE].
    - rewrite H1. symmetry. apply put_at_soa. lia.
    - rewrite H2 by auto. symmetry. apply put_at_soa; lia. }
  split; auto. subst l'. destruct H3 as [(H3 & _)|(-> & _)].
  - rewrite soa_upd by auto. apply NoDup_upd; auto.
  - rewrite soa_app. apply NoDup_snoc; auto.
Qed.

Lemma setOK_put A b S S' pos xp fxp c : setOK A b S -> (b < mlast A)%nat ->
  nth_error (Xs A) (mlast A) = Some xp -> nth_error (fXs A) (mlast A) = Some fxp ->
  put_at pos xp (s_Y S) (s_Y S') -> s_ci S' = s_ci S ->
  put_at pos (mlast A) (s_ind S) (s_ind S') -> put_at pos fxp (s_f S) (s_f S') ->
  (e_me E = 0%nat -> s_ce S' = s_ce S) ->
  (e_me E <> 0%nat -> put_at pos c (s_ce S) (s_ce S')) ->
  (tame E -> e_me E <> 0%nat -> nth_error (ceXs A) (mlast A) = Some c) ->
  setOK A (mlast A) S'.
Proof.
  intros (H1 & H2 & H3 & H4 & H5 & H6 & H7 & H8 & H9 & H10) B X F PY CI PI PF C0 C1 C2.
  assert (NI : ~ In (mlast A) (s_ind S)) by (intros I; apply H8 in I; lia).
  destruct (put_at_ind _ _ _ _ PI H7 NI) as (EI & ND).
  destruct PY as (Y1 & Y2 & Y3). destruct PI as (I1 & I2 & I3). destruct PF as (F1 & F2 & F3).
  split; [|split; [|split; [|split; [|split; [|split; [|split; [|split; [|split]]]]]]]].
  - lia.
  - lia.
  - lia.
  - congruence.
  - intros M. rewrite C0; auto.
  - intros M. destruct (C1 M) as (_ & _ & L). rewrite H6 in L by auto. lia.
  - exact ND.
  - intros i I. apply In_nth_error in I. destruct I as (k & K).
    destruct (Nat.eq_dec k pos) as [->|NE]; [rewrite I1 in K; injection K as <-; lia|].
    rewrite I2 in K by auto. apply nth_error_In, H8 in K. lia.
  - intros j y J. destruct (Nat.eq_dec j pos) as [->|NE].
    + rewrite Y1 in J. injection J as <-. exists (mlast A), fxp. auto.
    + rewrite Y2 in J by auto. destruct (H9 _ _ J) as (i & f & K1 & K2 & K3 & K4).
      exists i, f. rewrite I2, F2 by auto. auto.
  - intros T M j i J. destruct (C1 M) as (D1 & D2 & _). destruct (Nat.eq_dec j pos) as [->|NE].
    + rewrite I1 in J. injection J as <-. rewrite D1, C2; auto.
    + rewrite I2 in J by auto. rewrite D2 by auto. apply H10; auto.
Qed.

(** exchanging two positions *)
Lemma permuted_NoDup i j (l l' : list nat) : permuted i j l l' -> NoDup l -> NoDup l'.
Proof.
  intros (L & H) N. rewrite NoDup_nth_error in *. intros a b Ha Hab.
  rewrite !H in Hab. assert (transp i j a = transp i j b).
  { apply N; auto. apply nth_error_Some. rewrite <- H. apply nth_error_Some. auto. }
  rewrite <- (transp_invol i j a), <- (transp_invol i j b). congruence.
Qed.

Lemma setOK_permuted A b i j S S' : setOK A b S -> set_permuted i j S S' -> setOK A b S'.
Proof.
  intros (H1 & H2 & H3 & H4 & H5 & H6 & H7 & H8 & H9 & H10) ((LY & PY) & (LI & PI) & (LF & PF) & PC & PE).
  assert (CE : e_me E <> 0%nat -> length (s_ce S') = length (s_ce S) /\
     forall k, nth_error (s_ce S') k = nth_error (s_ce S) (transp i j k)).
  { intros M. destruct PE as [(E1 & E2)|(E1 & E2)]; auto. rewrite E1 in H6. specialize (H6 M). cbn in H6. lia. }
  split; [|split; [|split; [|split; [|split; [|split; [|split; [|split; [|split]]]]]]]]; try lia.
  - rewrite H4 in PC. destruct PC as [(_ & C)|(C & _)]; auto. destruct (s_ci S'); auto. discriminate.
  - intros M. rewrite (H5 M) in PE. destruct PE as [(_ & C)|(C & _)]; auto. destruct (s_ce S'); auto. discriminate.
  - eapply permuted_NoDup; [split; eauto|auto].
  - intros k I. apply In_nth_error in I. destruct I as (n & I). rewrite PI in I. apply nth_error_In in I. auto.
  - intros k y K. rewrite PY in K. destruct (H9 _ _ K) as (n & f & K1 & K2 & K3 & K4).
    exists n, f. rewrite PI, PF. auto.
  - intros T M k n K. rewrite PI in K. rewrite (proj2 (CE M)). apply H10; auto.
Qed.

Lemma swap_front A b S x pos xp fxp m : setOK A b S ->
  nth_error (s_Y S) pos = Some xp -> nth_error (s_ind S) pos = Some m ->
  nth_error (s_f S) pos = Some fxp -> (pos = 0%nat -> x = xp) ->
  exists S2 x2, swap_in_Y (e_zero E) 0 pos S x = Some (S2, x2) /\ setOK A b S2 /\
    incOK S2 x2 fxp m /\ x2 = xp /\ length (s_Y S2) = length (s_Y S).
Proof.
  intros O Y I F X. pose proof (setOK_wf _ _ _ O) as W.
  assert (pos < length (s_Y S))%nat by (eapply nth_error_len; eauto).
  destruct (swap_correct (e_zero E) S (length (s_Y S)) 0 pos x W) as (S2 & x2 & -> & SP & W2 & EQ & NE);
    [destruct O; lia|auto|].
  exists S2, x2. split; auto. split; [eapply setOK_permuted; eauto|].
  destruct SP as ((LY & PY) & (LI & PI) & (LF & PF) & _).
  assert (TR : transp 0 pos 0 = pos) by (unfold transp; destruct (Nat.eq_dec 0 0); [auto|lia]).
  assert (X2 : x2 = xp).
  { destruct (Nat.eq_dec pos 0) as [->|N].
    - destruct (EQ eq_refl) as (-> & ->). auto.
    - assert (K : (0 <> pos)%nat) by lia. specialize (NE K). rewrite PY, TR, Y in NE. congruence. }
  split; [|auto]. unfold incOK. rewrite PY, PI, PF, !TR. subst x2. auto.
Qed.

Lemma base_of_hd (Y : list P) y : (2 <= length Y)%nat -> nth_error Y 0 = Some y ->
  base_of (e_zero E) Y = y.
Proof. destruct Y as [|a [|b t]]; cbn; try lia. intros _ H. congruence. Qed.

(** ** Improvement step *)

Lemma upd_put {A} pos (x : A) l : (pos < length l)%nat -> put_at pos x l (upd l pos x).
Proof. intros H. rewrite <- soa_upd by auto. apply put_at_soa. lia. Qed.

(** invariant during the evaluation of replaced points: everything is right except
    at the positions still to be done *)
Definition partOK (A : arch P) (js : list nat) (Y : list P) (ind : list nat) (fY : list Q)
  (ceY : list (list Q)) : Prop :=
  (2 <= length Y)%nat /\ length ind = length Y /\ length fY = length Y /\
  (e_me E = 0%nat -> ceY = []) /\ (e_me E <> 0%nat -> length ceY = length Y) /\
  NoDup ind /\ (forall i, In i ind -> (i <= mlast A)%nat) /\
  (forall j y, nth_error Y j = Some y -> ~ In j js ->
    exists i f, nth_error ind j = Some i /\ nth_error (Xs A) i = Some y /\
      nth_error fY j = Some f /\ nth_error (fXs A) i = Some f) /\
  (tame E -> e_me E <> 0%nat -> forall j i, nth_error ind j = Some i -> ~ In j js ->
    nth_error ceY j = nth_error (ceXs A) i).

Lemma eval_replaced_spec js : forall Y A ind fY ceY A' ind' fY' ceY',
  archOK A -> partOK A js Y ind fY ceY -> ~ In 0%nat js ->
  eval_replaced E js Y A ind fY ceY = Some (A', ind', fY', ceY') ->
  archOK A' /\ ext A A' /\ extc A A' /\ partOK A' [] Y ind' fY' ceY' /\
  nth_error ind' 0 = nth_error ind 0 /\ nth_error fY' 0 = nth_error fY 0 /\
  nsim A' = (nsim A + length js)%nat /\
  (forall k y, nth_error (calls A') k = Some y -> (length (calls A) <= k)%nat ->
     good_call E k y /\ exists j, In j js /\ nth_error Y j = Some y).
Proof.
  induction js as [|j t IH]; intros Y A ind fY ceY A' ind' fY' ceY' O PO N0 H; cbn in H.
  - injection H as <- <- <- <-. split; [auto|]. split; [apply ext_refl|]. split; [intros ? ?; auto|]. split; [auto|].
    split; [auto|]. split; [auto|]. split; [cbn; lia|].
    intros k y K L. apply nth_error_len in K. lia.
  - destruct (nth_error Y j) as [y|] eqn:YJ; [|discriminate].
    destruct (eval_at E A y) as [A1 f c| |] eqn:EA; try discriminate.
    destruct (eval_at_done _ _ _ _ _ O EA) as (O1 & X1 & XC & M1 & CL & HX & HF & HC & LC & G).
    assert (J : (j < length Y)%nat) by (eapply nth_error_len; eauto).
    destruct PO as (P1 & P2 & P3 & P4 & P5 & P6 & P7 & P8 & P9).
    assert (NI : ~ In (mlast A1) ind) by (intros I; apply P7 in I; lia).
    destruct (upd_put j (mlast A1) ind) as (I1 & I2 & _); [lia|].
    destruct (upd_put j (qmin c1e25 f) fY) as (F1 & F2 & _); [lia|].
    eapply IH in H; [| exact O1 | | intros K; apply N0; right; exact K].
    + destruct H as (K1 & K2 & K2c & K3 & K4 & K5 & K6 & K7).
      split; auto. split; [eapply ext_trans; eauto|]. split; [eapply extc_trans; eauto|]. split; auto.
      assert (NZ : j <> 0%nat) by (intros ->; apply N0; left; auto).
      split; [rewrite K4; apply I2; auto|]. split; [rewrite K5; apply F2; auto|].
      split.
      * destruct O as (S0 & _), O1 as (S1 & _). rewrite CL, app_length in S1. cbn in *. lia.
      * intros k z KZ L. destruct (Nat.eq_dec k (length (calls A))) as [->|NE].
        -- assert (z = y).
           { destruct K2 as (_ & _ & _ & tl & TL). rewrite TL, CL, <- app_assoc in KZ.
             rewrite nth_error_app2 in KZ by lia. rewrite Nat.sub_diag in KZ. cbn in KZ. congruence. }
           subst z. split; auto. exists j. split; [left; auto|auto].
        -- destruct (K7 _ _ KZ) as (G1 & j' & J1 & J2).
           { rewrite CL, app_length. cbn. lia. }
           split; auto. exists j'. split; [right; auto|auto].
    + split; [|split; [|split; [|split; [|split; [|split; [|split; [|split]]]]]]]; auto.
      * rewrite upd_length; auto.
      * rewrite upd_length; auto.
      * intros M. rewrite M. auto.
      * intros M. destruct (e_me E) eqn:ME; [congruence|]. rewrite upd_length. auto.
      * apply NoDup_upd; auto.
      * intros i I. apply in_upd in I. destruct I as [->|I]; [lia|]. apply P7 in I. lia.
      * intros k z KZ NK. destruct (Nat.eq_dec k j) as [->|NE].
        -- exists (mlast A1), (qmin c1e25 f). rewrite I1, F1. split; auto. split; [congruence|auto].
        -- destruct (P8 _ _ KZ) as (i & g & Q1 & Q2 & Q3 & Q4).
           { intros [K|K]; congruence. }
           assert (i <= mlast A)%nat by (apply nth_error_In, P7 in Q1; auto).
           exists i, g. rewrite I2, F2 by auto. destruct X1 as (X1 & X2 & _). rewrite X1, X2 by auto. auto.
      * intros T M k i KI NK. destruct (e_me E) eqn:ME; [congruence|].
        destruct (upd_put j c ceY) as (C1 & C2 & _); [rewrite P5; auto|].
        destruct (Nat.eq_dec k j) as [->|NE].
        -- rewrite I1 in KI. injection KI as <-. rewrite C1, HC; auto.
        -- rewrite I2 in KI by auto. rewrite C2 by auto. rewrite (P9 T M _ _ KI).
           ++ symmetry. apply XC. apply nth_error_In, P7 in KI. auto.
           ++ intros [K|K]; congruence.
Qed.

Definition stOK (s : st P) : Prop :=
  archOK (sA s) /\ setOK (sA s) (mlast (sA s)) (iS (sI s)) /\
  incOK (iS (sI s)) (ix (sI s)) (ifx (sI s)) (ib (sI s)).

Lemma repl_bound (l : list nat) p : NoDup l -> (forall j, In j l -> (0 < j < p)%nat) ->
  (length l <= p - 1)%nat.
Proof.
  intros N H. rewrite <- (seq_length (p - 1) 1). apply NoDup_incl_length; auto.
  intros j J. apply in_seq. apply H in J. lia.
Qed.

(** what one improvement step may change *)
Definition improved (s s2 : st P) : Prop :=
  stOK s2 /\ ext (sA s) (sA s2) /\ extc (sA s) (sA s2) /\ length (s_Y (iS (sI s2))) = length (s_Y (iS (sI s))) /\
  (nsim (sA s2) <= nsim (sA s) + (length (s_Y (iS (sI s))) - 1))%nat /\
  (forall k y, nth_error (calls (sA s2)) k = Some y -> (length (calls (sA s)) <= k)%nat ->
     good_call E k y) /\
  (e_me E = 0%nat -> ifx (sI s2) <= ifx (sI s)).

Lemma improve_inv s a : stOK s -> sorts_desc (e_argsort E) ->
  match improve E s a with
  | Crash => True
  | Continue s2 => improved s s2
  | Return _ s2 _ => improved s s2
  end.
Proof.
  intros (O & SO & IO) SD. unfold improve.
  set (ec := new_epsc E (sG s) (sN s)). set (radius := new_radius (sG s) (sN s) ec).
  destruct (qltb radius (stallfact * e_norm E (ix (sI s))) || qltb radius tiny)%bool eqn:ST.
  { split; [|split; [|split; [|split; [|split]]]]; cbn; auto using ext_refl; try lia.
    - split; auto.
    - intros ? ?; auto.
    - split; [|intros _; apply Qle_refl]. intros k y K L. apply nth_error_len in K. lia. }
  apply orb_false_iff in ST. destruct ST as (_ & ST). qb.
  pose proof (setOK_wf _ _ _ SO) as W. pose proof SO as SO'.
  destruct SO as (H1 & H2 & H3 & H4 & H5 & H6 & H7 & H8 & H9 & H10).
  destruct (repair_frame (e_zero E) (e_dist E) (e_rowdist E) (a_newpt a) (e_argsort E)
          (eff_FPR (sG s) a) eps_L radius Lambda_CP (s_Y (iS (sI s))) (ix (sI s)))
    as (Y' & repl & imp & rad & x' & RE & LY & Y0 & ND & RB & UN & XB); auto.
  { reflexivity. }
  { unfold eff_FPR, factor_FPR, eps_L. unfold tiny in ST.
    destruct (_ || _)%bool; lra. }
  { intros K. rewrite K in H1. cbn in H1. lia. }
  rewrite RE. clear RE.
  destruct (match a_repoised a with Some pr => pr | None => (imp, rad) end) as (po, yr).
  destruct (eval_replaced E repl Y' (sA s) (s_ind (iS (sI s))) (s_f (iS (sI s))) (s_ce (iS (sI s))))
    as [[[[A' ind'] fY'] ceY']|] eqn:ER; [|exact I].
  eapply eval_replaced_spec in ER; eauto.
  2:{ split; [|split; [|split; [|split; [|split; [|split; [|split; [|split]]]]]]]; try lia; auto.
      intros j y J NJ. rewrite UN in J by auto. apply H9. auto. }
  2:{ intros K. apply RB in K. lia. }
  destruct ER as (O' & X' & XC & PO & I0 & F0 & NS & GC).
  assert (SN : setOK A' (mlast A') (mkset Y' ind' fY' [] ceY')).
  { destruct PO as (P1 & P2 & P3 & P4 & P5 & P6 & P7 & P8 & P9).
    split; [|split; [|split; [|split; [|split; [|split; [|split; [|split; [|split]]]]]]]]; cbn; auto. }
  assert (X0 : x' = ix (sI s)).
  { subst x'. destruct repl; auto. apply base_of_hd; [rewrite LY; auto|]. rewrite Y0. apply IO. }
  destruct (find_smallf_moves (e_zero E) (e_inside E) (fun c => cn E (resid (sl (sG s)) c)) (sigma (sG s))
     _ _ x' (ifx (sI s)) (ib (sI s)) (setOK_wf _ _ _ SN)) as (r & FS & _ & _ & CS).
  { cbn. lia. }
  rewrite FS.
  assert (RO : setOK A' (mlast A') (r_set r) /\ incOK (r_set r) (r_x r) (r_fx r) (r_ibest r) /\
     length (s_Y (r_set r)) = length Y' /\ (e_me E = 0%nat -> r_fx r <= ifx (sI s))).
  { destruct CS as [(-> & -> & -> & ->)|(k & y & K1 & _ & _ & _ & SP & W2 & RX & RF & RI & MM & _)].
    - split; auto. split; [|split; [auto|intros _; apply Qle_refl]]. destruct IO as (Q1 & Q2 & Q3). split; [|split]; cbn [s_Y s_ind s_f]; congruence.
    - split; [eapply setOK_permuted; eauto|]. destruct SP as ((L1 & PY) & (_ & PI) & (_ & PF) & _).
      split; [|split; [exact L1|]].
      2:{ intros M. apply Qlt_le_weak. destruct IO as (_ & _ & Q3). destruct PO as (_ & _ & _ & P4 & _).
          specialize (P4 M). subst ceY'. apply MM.
          - exists (ifx (sI s)). cbn [s_f s_ce]. split; [congruence|]. left. split; [|reflexivity].
            intros ? [].
          - exists (r_fx r). cbn [s_f s_ce]. split; [exact RF|]. left. split; [|reflexivity].
            intros ? []. }
      unfold incOK. rewrite PY, PI, PF.
      assert (TR : transp 0 k 0 = k) by (unfold transp; destruct (Nat.eq_dec 0 0); [auto|lia]).
      rewrite TR, RX. auto. }
  destruct RO as (RO1 & RO2 & RO3 & RO4).
  pose proof (repl_bound _ _ ND RB) as RBL.
  destruct (a_exc2 a); [exact I|].
  assert (G : forall N G, improved s (mkst A' (mkI (r_set r) (r_x r) (r_fx r) (r_ibest r)) N G)).
  { intros N G. split; [split; auto|]. cbn. split; [auto|]. split; [auto|]. split; [congruence|]. split; [lia|].
    split; [|exact RO4]. intros k y K L. apply (GC _ _ K L). }
  destruct (_ && _)%bool; apply G.
Qed.

(** ** Step *)

(** storing the trial point *)
Lemma store_inv A b S Y' pos fxp c xp S1 : setOK A b S -> (b < mlast A)%nat ->
  nth_error (Xs A) (mlast A) = Some xp -> nth_error (fXs A) (mlast A) = Some fxp ->
  (tame E -> e_me E <> 0%nat -> c <> [] -> nth_error (ceXs A) (mlast A) = Some c) ->
  put_at pos xp (s_Y S) Y' -> store E S Y' pos (mlast A) fxp c = Some S1 ->
  setOK A (mlast A) S1 /\ s_Y S1 = Y' /\ nth_error (s_ind S1) pos = Some (mlast A) /\
  nth_error (s_f S1) pos = Some fxp /\
  (pos <> 0%nat -> nth_error (s_ind S1) 0 = nth_error (s_ind S) 0 /\
     nth_error (s_f S1) 0 = nth_error (s_f S) 0) /\
  (e_me E <> 0%nat -> c <> []).
Proof.
  intros SO B X F C PY ST. unfold store in ST.
  assert (LE : (pos <= length (s_Y S))%nat) by (destruct PY as (_ & _ & [H|H]); lia).
  pose proof SO as (H1 & H2 & H3 & H4 & H5 & H6 & _).
  assert (PI : put_at pos (mlast A) (s_ind S) (set_or_append (s_ind S) pos (mlast A)))
    by (apply put_at_soa; lia).
  assert (PF : put_at pos fxp (s_f S) (set_or_append (s_f S) pos fxp)) by (apply put_at_soa; lia).
  destruct (e_me E) as [|me] eqn:ME.
  - injection ST as <-. split; [|split; [auto|split; [apply PI|split; [apply PF|split]]]]; cbn [s_Y s_ind s_f]; try congruence.
    + eapply setOK_put with (S := S) (c := c); cbn; eauto; try congruence; rewrite ME; congruence.
    + intros N0. split; [apply PI|apply PF]; auto.
  - destruct (length c =? Datatypes.S me)%nat eqn:LC; [|discriminate]. injection ST as <-.
    apply Nat.eqb_eq in LC. assert (c <> []) by (intros ->; discriminate).
    split; [|split; [auto|split; [apply PI|split; [apply PF|split]]]]; cbn [s_Y s_ind s_f]; auto.
    + eapply setOK_put with (S := S) (c := c); cbn; eauto; try (rewrite ME; congruence).
      * intros _. apply put_at_soa. rewrite H6; auto.
    + intros N0. split; [apply PI|apply PF]; auto.
Qed.

Lemma include_put xp Y cset thr c xb succ L Y' j x' : 0 <= thr ->
  include_in_Y (e_zero E) (e_dist E) xp Y cset thr c xb succ L = (Y', Some j, x') ->
  put_at j xp Y Y' /\ x' = base_of (e_zero E) Y' /\ In j cset /\ (j < length Y)%nat.
Proof.
  intros T H. destruct (include_chosen _ _ _ _ _ _ _ _ _ _ _ _ _ T H) as ((I & J & _) & (L1 & OC) & N & B & _).
  split; [|auto]. split; [auto|split; [auto|left; auto]].
Qed.

Lemma augment_put (xp : P) Y q w p' Y' : augment_Y q w [xp] Y = (p', Y') -> (length Y < q)%nat \/ w = 3%nat ->
  Y' = Y ++ [xp] /\ p' = S (length Y) /\ put_at (p' - 1) xp Y Y'.
Proof.
  intros H C. destruct (augment_spec q w [xp] Y) as (A1 & _ & _ & A2 & _). specialize (A2 C).
  rewrite H in *. cbn [fst snd] in *. subst Y'. rewrite app_length in A1. cbn in A1.
  split; auto. split; [lia|]. replace (p' - 1)%nat with (length Y) by lia.
  rewrite <- soa_app. apply put_at_soa. lia.
Qed.

(** data of a step after the evaluation of the trial point: the set refers to older
    points, the trial point is the newest one *)
Definition trialOK (A : arch P) (I : incu P) (G : glo) (xp : P) (fxp : Q) (b : nat) : Prop :=
  setOK A b (iS I) /\ (b < mlast A)%nat /\ incOK (iS I) (ix I) (ifx I) (ib I) /\
  nth_error (Xs A) (mlast A) = Some xp /\ nth_error (fXs A) (mlast A) = Some fxp /\
  (tame E -> e_me E <> 0%nat -> ceplus G <> [] -> nth_error (ceXs A) (mlast A) = Some (ceplus G)).

(** result of a step: same archive, correct set and incumbent *)
Definition stepped (A : arch P) (I : incu P) (s' : st P) : Prop :=
  sA s' = A /\ setOK A (mlast A) (iS (sI s')) /\
  incOK (iS (sI s')) (ix (sI s')) (ifx (sI s')) (ib (sI s')) /\
  (length (s_Y (iS I)) <= length (s_Y (iS (sI s'))))%nat.

Definition good_end (A : arch P) (I : incu P) (o : outc P) : Prop :=
  match o with Crash => True | Continue s' => stepped A I s' | Return _ s' _ => stepped A I s' end.

Lemma put_len {T} pos (x : T) l l' : put_at pos x l l' -> (length l <= length l')%nat.
Proof. intros (_ & _ & [H|H]); lia. Qed.

Lemma replaced_inv a A I N G succ Y' pos x' fxp xp b I' N' G' :
  trialOK A I G xp fxp b -> put_at pos xp (s_Y (iS I)) Y' -> x' = base_of (e_zero E) Y' ->
  (succ = false -> pos <> 0%nat) ->
  replaced_by_trial E a A I N G succ Y' pos x' fxp = Some (I', N', G') ->
  setOK A (mlast A) (iS I') /\ incOK (iS I') (ix I') (ifx I') (ib I') /\
  (length (s_Y (iS I)) <= length (s_Y (iS I')))%nat.
Proof.
  intros (SO & B & IO & X & F & C) PY XB NZ H. unfold replaced_by_trial in H.
  destruct (store E (iS I) Y' pos (mlast A) fxp (ceplus G)) as [S1|] eqn:ST; [|discriminate].
  destruct (store_inv _ _ _ _ _ _ _ _ _ SO B X F C PY ST) as (SO1 & Y1 & I1 & F1 & Z & _).
  assert (L : (2 <= length Y')%nat) by (destruct SO as (L & _); pose proof (put_len _ _ _ _ PY); lia).
  destruct succ.
  - destruct (swap_front _ _ _ x' pos xp fxp (mlast A) SO1) as (S2 & x2 & SW & SO2 & IO2 & E2 & L2); auto.
    { rewrite Y1. apply PY. }
    { intros ->. rewrite XB. apply base_of_hd; auto. apply PY. }
    rewrite SW in H. injection H as <- _ _. cbn [iS ix ifx ib].
    split; auto. split; auto. rewrite L2, Y1. eapply put_len; eauto.
  - specialize (NZ eq_refl). injection H as <- _ _. cbn [iS ix ifx ib]. split; auto.
    destruct (Z NZ) as (Z1 & Z2). destruct IO as (Q1 & Q2 & Q3).
    split; [|rewrite Y1; eapply put_len; eauto].
    assert (Y0 : nth_error Y' 0 = Some (ix I)).
    { destruct PY as (_ & PY & _). rewrite PY; auto. }
    split; [|split; congruence]. rewrite Y1, XB, Y0. f_equal. symmetry. apply base_of_hd; auto.
Qed.

Lemma stepped_same A I G xp fxp b N' G' : trialOK A I G xp fxp b -> stepped A I (mkst A I N' G').
Proof.
  intros (SO & B & IO & _). split; [auto|]. split; [|split; [auto|cbn; lia]]. cbn.
  destruct SO as (H1 & H2 & H3 & H4 & H5 & H6 & H7 & H8 & H9 & H10).
  split; [|split; [|split; [|split; [|split; [|split; [|split; [|split; [|split]]]]]]]]; auto.
  intros i J. apply H8 in J. lia.
Qed.

Lemma positions_in p d j : In j (positions p d) -> p (nth j d 0) = true /\ (j < length d)%nat.
Proof. intros H. apply filter_In in H. rewrite in_seq in H. split; [tauto|lia]. Qed.

Lemma trialOK_glo A I G G' xp fxp b : trialOK A I G xp fxp b -> ceplus G' = ceplus G ->
  trialOK A I G' xp fxp b.
Proof. intros (H1 & H2 & H3 & H4 & H5 & H6) Eq. unfold trialOK. rewrite Eq. auto 10. Qed.

Lemma can_augment_le Y : (e_pfinal E <= e_pquad E)%nat -> can_augment E (length Y) = true ->
  (@length P Y < e_pquad E)%nat \/ e_whichmodel E = 3%nat.
Proof.
  unfold can_augment. intros H C. apply orb_prop in C. destruct C as [C|C].
  - apply Nat.ltb_lt in C. lia.
  - apply andb_prop in C. destruct C as (C & _). apply Nat.eqb_eq in C. auto.
Qed.

Lemma finish_good a A I N G I0 : setOK A (mlast A) (iS I) -> incOK (iS I) (ix I) (ifx I) (ib I) ->
  (length (s_Y (iS I0)) <= length (s_Y (iS I)))%nat -> good_end A I0 (finish_rej a A I N G).
Proof.
  intros H1 H2 H3. unfold finish_rej. destruct (a_exc4 a); [exact Logic.I|].
  unfold good_end, stepped. cbn [sA sI]. auto.
Qed.

Lemma reduce_good a A I N G fxp xp b : trialOK A I G xp fxp b -> good_end A I (reduce E a A I N G fxp).
Proof.
  intros T. unfold reduce. destruct (_ || _)%bool.
  - eapply stepped_same; eauto.
  - pose proof (stepped_same _ _ _ _ _ _ N G T) as (_ & S1 & S2 & S3). cbn in *. apply finish_good; auto.
Qed.

Lemma reject_inv a A I N G succ fxp b : trialOK A I G (a_xnew a) fxp b -> 0 < delta G ->
  (e_pfinal E <= e_pquad E)%nat ->
  good_end A I (reject E a A I N G succ fxp).
Proof.
  intros T D HQ. unfold reject.
  set (G1 := mkG (delta G) (sigma G) (epsc G) (pred G) true (f0 G) (ce0n G) (merit0 G)
               (merit G) (pm G) (sl G) (ceplus G)).
  assert (T1 : trialOK A I G1 (a_xnew a) fxp b) by (eapply trialOK_glo; eauto).
  destruct (can_augment E (length (s_Y (iS I))) && negb succ)%bool eqn:CA.
  - apply andb_prop in CA. destruct CA as (CA & SU).
    destruct (augment_Y (e_pquad E) (e_whichmodel E) [a_xnew a] (s_Y (iS I))) as (p', Y') eqn:AU.
    destruct (augment_put _ _ _ _ _ _ AU (can_augment_le _ HQ CA)) as (EY & EP & PY).
    destruct (store E (iS I) Y' (p' - 1) (mlast A) fxp (ceplus G1)) as [S1|] eqn:ST; [|exact Logic.I].
    destruct T1 as (SO & B & IO & X & F & C).
    destruct (store_inv _ _ _ _ _ _ _ _ _ SO B X F C PY ST) as (SO1 & Y1 & I1 & F1 & Z & _).
    destruct IO as (Q1 & Q2 & Q3).
    assert (NZ : (p' - 1 <> 0)%nat) by (destruct SO as (L & _); lia).
    destruct (Z NZ) as (Z1 & Z2).
    apply finish_good; cbn [iS ix ifx ib]; auto.
    + split; [|split; congruence]. rewrite Y1. destruct PY as (_ & PY & _). rewrite PY; auto.
    + rewrite Y1. eapply put_len; eauto.
  - destruct (negb (pm G1) || qleb (delta G1) (epsc G1))%bool; [|eapply reduce_good; eauto].
    set (d := far_dists E succ (s_Y (iS I)) (ix I) (a_xnew a)).
    set (fpl := 1 * (1 + eps_TR) * delta G1).
    assert (FP : 0 < fpl) by (unfold fpl, eps_TR; cbn [delta G1]; nra).
    destruct (include_in_Y (e_zero E) (e_dist E) (a_xnew a) (s_Y (iS I)) (positions (qltb fpl) d)
      Lambda_FP (if succ then Weighted else Distance) (ix I) succ (a_L2 a)) as ((Y1, [pos|]), x1) eqn:IN1.
    + apply include_put in IN1; [|discriminate]. destruct IN1 as (PY & XB & IC & _).
      destruct (replaced_by_trial E a A I N G1 succ Y1 pos x1 fxp) as [((I', N'), G')|] eqn:RB; [|exact Logic.I].
      eapply replaced_inv in RB; eauto.
      * destruct RB as (R1 & R2 & R3). apply finish_good; auto.
      * intros -> ->. apply positions_in in IC. destruct IC as (IC & _). qb.
        unfold d, far_dists in IC. destruct (s_Y (iS I)); cbn [nth] in IC; lra.
    + destruct (include_in_Y (e_zero E) (e_dist E) (a_xnew a) (s_Y (iS I))
        (positions (fun v => qleb v fpl) (if succ then d else upd d 0 (2 * fpl)))
        (if succ then Lambda_CPs else Lambda_CP) Standard (ix I) succ (a_L3 a)) as ((Y2, [pos|]), x2) eqn:IN2.
      * apply include_put in IN2; [|destruct succ; discriminate]. destruct IN2 as (PY & XB & IC & LT).
        destruct (replaced_by_trial E a A I N G1 succ Y2 pos x2 fxp) as [((I', N'), G')|] eqn:RB; [|exact Logic.I].
        eapply replaced_inv in RB; eauto.
        -- destruct RB as (R1 & R2 & R3). apply finish_good; auto.
        -- intros -> ->. apply positions_in in IC. destruct IC as (IC & DL). qb.
           unfold d, far_dists in IC. destruct (s_Y (iS I)); cbn [upd nth] in IC, DL; [cbn in LT; lia|lra].
      * eapply reduce_good; eauto.
Qed.

Lemma accept_inv a A I N G rho fxp b : trialOK A I G (a_xnew a) fxp b -> 0 < delta G ->
  (e_pfinal E <= e_pquad E)%nat ->
  good_end A I (accept E a A I N G rho fxp).
Proof.
  intros T D HQ. unfold accept.
  destruct (if can_augment E (length (s_Y (iS I)))
     then let '(p', Y1) := augment_Y (e_pquad E) (e_whichmodel E) [a_xnew a] (s_Y (iS I)) in
          (Y1, Some (p' - 1)%nat, ix I)
     else include_in_Y (e_zero E) (e_dist E) (a_xnew a) (s_Y (iS I)) (seq 0 (length (s_Y (iS I)))) Lambda_XN
        Distance (ix I) true (a_L1 a)) as ((Y', [pos|]), x') eqn:CH; [|eapply reject_inv; eauto].
  assert (K : put_at pos (a_xnew a) (s_Y (iS I)) Y' /\ (pos = 0%nat -> x' = base_of (e_zero E) Y')).
  { destruct (can_augment E (length (s_Y (iS I)))) eqn:CA.
    - destruct (augment_Y (e_pquad E) (e_whichmodel E) [a_xnew a] (s_Y (iS I))) as (p', Y1) eqn:AU.
      injection CH as <- <- <-.
      destruct (augment_put _ _ _ _ _ _ AU (can_augment_le _ HQ CA)) as (EY & EP & PY). split; auto.
      intros Z. destruct T as ((L & _) & _). lia.
    - apply include_put in CH; [|discriminate]. destruct CH as (PY & XB & _). auto. }
  destruct K as (PY & XB).
  destruct (store E (iS I) Y' pos (mlast A) fxp (ceplus G)) as [S1|] eqn:ST; [|exact Logic.I].
  destruct T as (SO & B & IO & X & F & C).
  destruct (store_inv _ _ _ _ _ _ _ _ _ SO B X F C PY ST) as (SO1 & Y1 & I1 & F1 & Z & _).
  destruct (swap_front _ _ _ x' pos (a_xnew a) fxp (mlast A) SO1) as (S2 & x2 & SW & SO2 & IO2 & E2 & L2); auto.
  { rewrite Y1. apply PY. }
  { intros ->. rewrite (XB eq_refl). apply base_of_hd; [|apply PY].
    destruct SO as (L & _); pose proof (put_len _ _ _ _ PY); lia. }
  rewrite SW. destruct (a_exc4 a); [exact Logic.I|].
  unfold good_end, stepped. cbn [sA sI iS ix ifx ib].
  split; auto. split; auto. split; auto. rewrite L2, Y1. eapply put_len; eauto.
Qed.

(** ** Scalars *)

Definition glo_rel (a : answers P) (G G' : glo) : Prop :=
  sigma G' = sigma G /\ pred G' = pred G /\ f0 G' = f0 G /\ ce0n G' = ce0n G /\
  merit0 G' = merit0 G /\ merit G' = merit G /\ ceplus G' = ceplus G /\ epsc G' = epsc G /\
  (delta G <= delta G' \/ tiny <= delta G') /\
  (delta G' <= delta G \/ delta G' <= Deltamax \/
   (a_active a = true /\ delta G' == 2 * delta G)).

Ltac rel0 := unfold glo_rel; cbn [sigma pred f0 ce0n merit0 merit ceplus epsc delta rej pm sl];
  repeat (split; [reflexivity|]).

Lemma finish_rel a A (I : incu P) N G G0 : glo_rel a G0 G ->
  match finish_rej a A I N G with
  | Crash => True
  | Return _ _ _ => False
  | Continue s' => niter (sN s') = niter N /\ glo_rel a G0 (sG s') /\ sI s' = I /\ sA s' = A /\
      rej (sG s') = rej G /\ ince (sN s') = ince N
  end.
Proof. intros R. unfold finish_rej. destruct (a_exc4 a); cbn; auto 10. Qed.

Lemma halve_lo d : 0 < d -> let d' := (if qltb epsilon d then gamma2 * d else d) in
  (d <= d' \/ tiny <= d') /\ d' <= d.
Proof.
  intros D. cbv zeta. destruct (qltb epsilon d) eqn:H; qb; unfold epsilon, gamma2, tiny in *.
  - split; [right|]; lra.
  - split; [left|]; lra.
Qed.

Lemma red_delta_le d norms pr gTs df : 0 < d -> 0 <= red_delta d norms pr gTs df ->
  red_delta d norms pr gTs df <= d.
Proof.
  unfold red_delta. intros D.
  set (g := if qeqb _ 0 then _ else _).
  assert (Gb : (1 # 100) <= g /\ g <= (1 # 2)).
  { unfold g, gamma1, gamma2. destruct (qeqb _ 0).
    - destruct (qltb _ 0); lra.
    - split; [apply qmax_ge_l|]. unfold qmax. destruct (qleb _ _) eqn:K; [apply qmin_le_r|lra]. }
  pose proof (qmin_le_l d norms) as M. intros H. nra.
Qed.

Lemma reduce_rel a A (I : incu P) N G fxp : 0 < delta G ->
  match reduce E a A I N G fxp with
  | Crash => True
  | Return fl s' f => fl = 15%nat /\ niter (sN s') = niter N /\ f = Fin (inff N) /\
      (delta (sG s') < stallfact * e_norm E (ix I) \/ delta (sG s') < tiny) /\ sI s' = I
  | Continue s' => niter (sN s') = niter N /\ glo_rel a G (sG s') /\ sI s' = I /\ sA s' = A /\
      rej (sG s') = rej G /\ ince (sN s') = ince N
  end.
Proof.
  intros D. unfold reduce. destruct (_ || _)%bool eqn:ST.
  - cbn. apply orb_prop in ST. repeat split; auto. destruct ST as [ST|ST]; qb; auto.
  - apply orb_false_iff in ST. destruct ST as (_ & ST). qb.
    match goal with |- context [finish_rej a A I N ?G'] =>
      pose proof (finish_rel a A I N G' G) as K end.
    destruct (finish_rej _ _ _ _ _); [apply K|contradiction K|auto]; rel0; 
    (split; [right; exact ST|left; apply red_delta_le; auto; unfold tiny in ST; lra]).
Qed.

Lemma clamp_delta (d n : Q) : let d' := qmin (qmax (2 * n) d) Deltamax in
  (d <= d' \/ tiny <= d') /\ (d' <= d \/ d' <= Deltamax).
Proof.
  cbv zeta. pose proof (qmax_ge_r (2 * n) d). pose proof (qmin_le_r (qmax (2*n) d) Deltamax).
  split; [|right; auto].
  destruct (qmin_cases (qmax (2 * n) d) Deltamax) as [->| ->]; auto.
  right. unfold tiny, Deltamax. lra.
Qed.

Lemma replaced_rel a A I N G succ Y' pos x' fxp I' N' G' : 0 < delta G ->
  replaced_by_trial E a A I N G succ Y' pos x' fxp = Some (I', N', G') ->
  niter N' = niter N /\ glo_rel a G G' /\ rej G' = rej G /\ (e_me E = 0%nat -> ince N' = ince N) /\
  (succ = false -> ifx I' = ifx I /\ ib I' = ib I) /\
  (succ = true -> ib I' = mlast A /\ ifx I' = fxp).
Proof.
  intros D. unfold replaced_by_trial. destruct (store _ _ _ _ _ _ _) as [S1|]; [|discriminate].
  destruct succ.
  - destruct (swap_in_Y _ _ _ _ _) as [(S2, x2)|]; [|discriminate]. intros H; injection H as <- <- <-.
    cbn [niter]. split; auto. split; [|cbn; repeat split; auto; try discriminate; intros M; rewrite M; auto].
    rel0. destruct (clamp_delta (delta G) (a_norms a)) as (K1 & K2). unfold gamma3. tauto.
  - intros H; injection H as <- <- <-. split; auto. split; [|cbn; repeat split; auto; discriminate].
    rel0. destruct (halve_lo (delta G) D) as (K1 & K2). tauto.
Qed.

(** shape of the end of an accepted or rejected step *)
Definition shape (a : answers P) (A : arch P) (I : incu P) (N : inf) (G : glo) (succ : bool)
  (fxp : Q) (o : outc P) : Prop :=
  match o with
  | Crash => True
  | Return fl s' f => fl = 15%nat /\ niter (sN s') = niter N /\ f = Fin (inff N) /\
      (delta (sG s') < stallfact * e_norm E (ix I) \/ delta (sG s') < tiny) /\ sI s' = I
  | Continue s' => niter (sN s') = niter N /\ glo_rel a G (sG s') /\ sA s' = A /\
      (ifx (sI s') = ifx I /\ ib (sI s') = ib I \/
       succ = true /\ ib (sI s') = mlast A /\ ifx (sI s') = fxp) /\
      (rej (sG s') = true \/ inff (sN s') = inff N /\ ifx (sI s') = fxp) /\
      (e_me E = 0%nat -> ince (sN s') = ince N)
  end.

Lemma glo_rel_rej a G G' b : glo_rel a (mkG (delta G) (sigma G) (epsc G) (pred G) b (f0 G) (ce0n G)
   (merit0 G) (merit G) (pm G) (sl G) (ceplus G)) G' -> glo_rel a G G'.
Proof. intros H. exact H. Qed.

Lemma reject_shape a A I N G succ fxp : 0 < delta G ->
  shape a A I N G succ fxp (reject E a A I N G succ fxp).
Proof.
  intros D. unfold reject.
  set (G1 := mkG (delta G) (sigma G) (epsc G) (pred G) true (f0 G) (ce0n G) (merit0 G)
               (merit G) (pm G) (sl G) (ceplus G)).
  assert (D1 : 0 < delta G1) by exact D.
  assert (RD : shape a A I N G succ fxp (reduce E a A I N G1 fxp)).
  { pose proof (reduce_rel a A I N G1 fxp D1) as K. unfold shape.
    destruct (reduce E a A I N G1 fxp); auto.
    destruct K as (K1 & K2 & K3 & K4 & K5 & K6). rewrite K3. auto 12. }
  assert (RR : forall Y1 pos x1 I' N' G',
     replaced_by_trial E a A I N G1 succ Y1 pos x1 fxp = Some (I', N', G') ->
     shape a A I N G succ fxp (finish_rej a A I' N' G')).
  { intros Y1 pos x1 I' N' G' RB. apply replaced_rel in RB; auto. destruct RB as (R1 & R2 & R3 & R6 & R4 & R5).
    pose proof (finish_rel a A I' N' G' G R2) as K. unfold shape.
    destruct (finish_rej a A I' N' G'); auto; [|contradiction].
    destruct K as (K1 & K2 & K3 & K4 & K5 & K6). rewrite K3, K1, K5, R3, K6.
    split; [auto|]. split; [exact K2|]. split; [auto|]. split; [|split; [left; reflexivity|auto]].
    destruct succ; [right; split; auto; apply R5; auto|left; apply R4; auto]. }
  destruct (can_augment E (length (s_Y (iS I))) && negb succ)%bool.
  - destruct (augment_Y _ _ _ _) as (p', Y'). destruct (store _ _ _ _ _ _ _) as [S1|]; [|exact Logic.I].
    match goal with |- context [finish_rej a A ?I' N ?G'] =>
      pose proof (finish_rel a A I' N G' G) as K end.
    unfold shape. destruct (finish_rej _ _ _ _ _); [|exfalso; apply K|auto].
    + destruct K as (K1 & K2 & K3 & K4 & K5 & K6).
      * rel0. destruct (halve_lo (delta G) D) as (H1 & H2). cbn [delta G1]. tauto.
      * rewrite K3. cbn. auto 12.
    + rel0. destruct (halve_lo (delta G) D) as (H1 & H2). cbn [delta G1]. tauto.
  - destruct (negb (pm G1) || qleb (delta G1) (epsc G1))%bool; [|exact RD].
    destruct (include_in_Y _ _ _ _ _ _ _ _ _ (a_L2 a)) as ((Y1, [pos|]), x1).
    + destruct (replaced_by_trial E a A I N G1 succ Y1 pos x1 fxp) as [((I', N'), G')|] eqn:RB; [|exact Logic.I].
      eapply RR; eauto.
    + destruct (include_in_Y _ _ _ _ _ _ _ _ _ (a_L3 a)) as ((Y2, [pos|]), x2); [|exact RD].
      destruct (replaced_by_trial E a A I N G1 succ Y2 pos x2 fxp) as [((I', N'), G')|] eqn:RB; [|exact Logic.I].
      eapply RR; eauto.
Qed.

Lemma accept_shape a A I N G rho fxp : 0 < delta G ->
  shape a A I N G true fxp (accept E a A I N G rho fxp).
Proof.
  intros D. unfold accept.
  destruct (if can_augment E (length (s_Y (iS I))) then _ else _) as ((Y', [pos|]), x');
    [|apply reject_shape; auto].
  destruct (store _ _ _ _ _ _ _) as [S1|]; [|exact Logic.I].
  destruct (swap_in_Y _ _ _ _ _) as [(S2, x2)|]; [|exact Logic.I].
  destruct (a_exc4 a); [exact Logic.I|]. unfold shape. cbn [sN niter sG sA sI].
  split; auto. split; [|split; [auto|split; [right; cbn; auto|split; [right; cbn; auto|cbn; intros M; rewrite M; auto]]]]. rel0.
  destruct (clamp_delta (delta G) (a_norms a)) as (K1 & K2).
  unfold succ_delta, tau2, tau3, gamma3. destruct (qleb eta2 rho).
  - destruct (a_active a && qltb (delta G) 5)%bool eqn:AC; [|tauto].
    apply andb_prop in AC. destruct AC as (_ & AC). qb. split; [left; lra|]. right. left. unfold Deltamax. lra.
  - destruct (a_active a) eqn:AC; [|tauto]. split; [left; lra|]. right. right. split; auto. ring.
Qed.

(** ** Case analysis of a step *)

Definition st_N (s : st P) : inf :=
  mkInfo (S (niter (sN s))) (inff (sN s)) (ince (sN s)) (glagn (sN s)) (feasn (sN s))
         (compl (sN s)) (errg (sN s)) (poised (sN s)) (yrad (sN s)).
Definition st_N3 (s : st P) (f : Q) : inf :=
  mkInfo (S (niter (sN s))) f (ince (sN s)) (glagn (sN s)) (feasn (sN s))
         (compl (sN s)) (errg (sN s)) (poised (sN s)) (yrad (sN s)).
Definition st_G1 (s : st P) : glo := memo E (sN s) (sG s).
Definition st_sg (s : st P) (a : answers P) : Q := new_sigma (st_G1 s) a.
Definition st_G2 (s : st P) (a : answers P) : glo :=
  with_sigma (st_G1 s) (st_sg s a) (negb (qeqb (st_sg s a) (sigma (st_G1 s)))).
Definition st_mer (s : st P) (a : answers P) (f : Q) (cp : list Q) : Q :=
  qmin c1e25 f + st_sg s a * cn E (resid (a_slplus a) cp).
Definition st_G3 (s : st P) (a : answers P) (pr f : Q) (cp : list Q) : glo :=
  let G2 := st_G2 s a in
  mkG (delta G2) (st_sg s a) (epsc G2) pr (rej G2) (f0 G2) (ce0n G2) (merit0 G2)
      (st_mer s a f cp) (pm G2) (sl G2) cp.

Definition new_ce (A : arch P) (old : list Q) (cX : list (list Q)) (cp : list Q) : Prop :=
  (any_ce (ceXs A) = true /\ overwrite_ce (ceXs A) = Some cX /\ nth_error cX (mlast A) = Some cp) \/
  (any_ce (ceXs A) = false /\ cX = ceXs A /\ cp = old).

Definition with_ce (A : arch P) (cX : list (list Q)) : arch P :=
  mkA (nsim A) (calls A) (mlast A) (Xs A) (fXs A) cX.

Lemma new_pred_cases q sg r : let p := new_pred q sg r in
  (p = -1 /\ (r < 0 \/ - q + sg * r <= 0)) \/ (0 < p /\ p = - q + sg * r /\ 0 <= r).
Proof.
  cbv zeta. unfold new_pred. destruct (qltb r 0) eqn:H; qb; auto.
  destruct (qleb (- q + sg * r) 0) eqn:K; qb; auto.
Qed.

Lemma qdiv_pos a p : 0 < p -> eta1 <= a / p -> 0 < a.
Proof.
  intros H1 H2. assert (K : eta1 * p <= a).
  { apply (Qmult_le_compat_r _ _ p) in H2; [|lra]. rewrite Qmult_comm in H2 |- *.
    setoid_replace (a / p * p) with a in H2; [exact H2|]. field. intros Z. rewrite Z in H1. inversion H1. }
  unfold eta1 in K. lra.
Qed.

Inductive step_res (s : st P) (a : answers P) : outc P -> Prop :=
| sr_crash : step_res s a Crash
| sr_sigma : sigma (sG s) < st_sg s a -> inject_Z (10 ^ 299) < st_sg s a ->
    step_res s a (Return 30 (mkst (sA s) (sI s) (st_N s) (with_sigma (st_G1 s) (st_sg s a) false))
      (Fin (inff (sN s))))
| sr_fail A v : eval_at E (sA s) (a_xnew a) = EFail A v ->
    step_res s a (Return 3 (mkst A (sI s) (st_N s) (st_G2 s a)) v)
| sr_minf A f c cX cp : eval_at E (sA s) (a_xnew a) = EDone A f c ->
    new_ce A (ceplus (sG s)) cX cp -> a_minf a = true ->
    step_res s a (Return 30 (mkst (with_ce A cX) (sI s) (st_N3 s f)
      (st_G3 s a (pred (sG s)) f cp)) (Fin f))
| sr_pred A f c cX cp : eval_at E (sA s) (a_xnew a) = EDone A f c ->
    new_ce A (ceplus (sG s)) cX cp ->
    new_pred (a_qcost a) (st_sg s a) (a_rpred a) = -1 ->
    step_res s a (Continue (mkst (with_ce A cX) (sI s) (st_N3 s f) (st_G3 s a (-1) f cp)))
| sr_acc A f c cX cp pr rho : eval_at E (sA s) (a_xnew a) = EDone A f c ->
    new_ce A (ceplus (sG s)) cX cp ->
    pr = new_pred (a_qcost a) (st_sg s a) (a_rpred a) -> 0 < pr ->
    rho = (merit0 (st_G2 s a) - st_mer s a f cp) / pr -> eta1 <= rho ->
    st_mer s a f cp < merit0 (st_G2 s a) ->
    step_res s a (accept E a (with_ce A cX) (sI s) (st_N3 s f) (st_G3 s a pr f cp) rho (qmin c1e25 f))
| sr_rej A f c cX cp pr : eval_at E (sA s) (a_xnew a) = EDone A f c ->
    new_ce A (ceplus (sG s)) cX cp ->
    pr = new_pred (a_qcost a) (st_sg s a) (a_rpred a) -> 0 < pr ->
    (merit0 (st_G2 s a) - st_mer s a f cp) / pr < eta1 ->
    step_res s a (reject E a (with_ce A cX) (sI s) (st_N3 s f) (st_G3 s a pr f cp) false (qmin c1e25 f)).

Lemma memo_same N G : sigma (memo E N G) = sigma G /\ delta (memo E N G) = delta G /\
  ceplus (memo E N G) = ceplus G /\ sl (memo E N G) = sl G /\ epsc (memo E N G) = epsc G /\
  pred (memo E N G) = pred G /\ rej (memo E N G) = rej G /\ pm (memo E N G) = pm G.
Proof. unfold memo. destruct (rej G) eqn:R; cbn; auto 12. Qed.

Lemma new_sigma_cases G a : 0 < sigma G ->
  let sb := if qeqb (a_rpred a) 0 then 0 else a_qcost a / ((1 - rho_factor) * a_rpred a) in
  (sb <= sigma G /\ @new_sigma P G a = sigma G) \/
  (sigma G < sb /\ sb <= new_sigma G a /\ (3 # 2) * sigma G <= new_sigma G a).
Proof.
  intros S. cbv zeta. unfold new_sigma.
  set (sb := if qeqb (a_rpred a) 0 then 0 else _). cbv zeta.
  destruct (qltb (sigma G) sb) eqn:H; qb; auto.
  right. split; auto. split; [apply qmax_ge_l|apply qmax_ge_r].
Qed.

Lemma step_cases s a : 0 < sigma (sG s) -> step_res s a (step E s a).
Proof.
  intros SP. unfold step. fold (st_G1 s). fold (st_N s).
  destruct (a_exc3 a); [constructor|]. fold (st_sg s a).
  pose proof (memo_same (sN s) (sG s)) as (M1 & M2 & M3 & M4 & M5 & M6 & M7 & M8).
  fold (st_G1 s) in M1, M2, M3, M4, M5, M6, M7, M8.
  destruct (negb (qeqb (st_sg s a) (sigma (st_G1 s))) && qltb (inject_Z (10 ^ 299)) (st_sg s a))%bool eqn:SG.
  { apply andb_prop in SG. destruct SG as (SG1 & SG2). apply negb_true_iff in SG1.
    apply qeqb_false in SG1. apply qltb_iff in SG2. apply sr_sigma; auto.
    destruct (new_sigma_cases (st_G1 s) a) as [(_ & K)|(_ & _ & K)]; [rewrite M1; auto| |].
    - exfalso. apply SG1. unfold st_sg. rewrite K. reflexivity.
    - fold (st_sg s a) in K. rewrite M1 in K. lra. }
  clear SG. fold (st_G2 s a).
  destruct (eval_at E (sA s) (a_xnew a)) as [A f c|A v|] eqn:EA; [|apply sr_fail; auto|constructor].
  assert (CE : match (if any_ce (ceXs A) then
               match overwrite_ce (ceXs A) with
               | None => None
               | Some cX => match nth_error cX (mlast A) with
                            | Some cp => Some (cX, cp) | None => None end
               end
             else Some (ceXs A, ceplus (st_G2 s a))) with
     | None => True | Some (cX, cp) => new_ce A (ceplus (sG s)) cX cp end).
  { destruct (any_ce (ceXs A)) eqn:AC.
    - destruct (overwrite_ce (ceXs A)) as [cX|] eqn:OV; auto.
      destruct (nth_error cX (mlast A)) as [cp|] eqn:NE; auto. left. auto.
    - right. split; auto. }
  destruct (if any_ce (ceXs A) then _ else _) as [(cX, cp)|]; [|constructor].
  destruct (length cp <? length (sl (st_G2 s a)))%nat; [constructor|].
  fold (st_mer s a f cp). fold (with_ce A cX). fold (st_N3 s f).
  destruct (a_minf a) eqn:MI.
  { replace (pred (st_G2 s a)) with (pred (sG s)) by (unfold st_G2, with_sigma; cbn [pred]; auto).
    eapply sr_minf; eauto. }
  set (pr := new_pred (a_qcost a) (st_sg s a) (a_rpred a)).
  destruct (qeqb pr (-1)) eqn:PQ; qb.
  - destruct (new_pred_cases (a_qcost a) (st_sg s a) (a_rpred a)) as [(K & _)|(K & _)]; fold pr in K.
    + rewrite K. eapply sr_pred; eauto.
    + lra.
  - destruct (new_pred_cases (a_qcost a) (st_sg s a) (a_rpred a)) as [(K & _)|(K & _)]; fold pr in K.
    + exfalso. apply PQ. rewrite K. reflexivity.
    + destruct (qleb eta1 ((merit0 (st_G2 s a) - st_mer s a f cp) / pr)) eqn:RH; qb.
      * assert (LT : st_mer s a f cp < merit0 (st_G2 s a)) by (pose proof (qdiv_pos _ _ K RH); lra).
        replace (qleb (merit0 (st_G2 s a)) (st_mer s a f cp)) with false
          by (symmetry; apply qleb_false; auto).
        eapply sr_acc; eauto.
      * eapply sr_rej; eauto.
Qed.

End Proofs.
