(** Proofs about complete calls. *)
From Coq Require Import List Arith ZArith QArith Qround Qabs Bool Lia Lqa.
Import ListNotations.
From Verif Require Import QB Book_Model Book_Spec Main_Model Main_Spec Main_Proofs3 Main_More Opt_Model Opt_Spec Drv_Model
  Pre_Model Pre_Spec Pre_Proofs Sol_Model Sol_Spec.
Local Open Scope Q_scope.

Lemma adj_pos : forall int x lb ub j d x' d' fx, 0 < d ->
  adjust int lb ub x j d = Some (x', d', fx) -> 0 < d'.
Proof.
  intros int. induction x as [|a r IH]; intros lb ub j d x' d' fx P H.
  { cbn [adjust] in H. injection H as <- <- <-. exact P. }
  destruct lb as [|l lb]; [cbn [adjust] in H; injection H as <- <- <-; exact P|].
  destruct ub as [|u ub]; [cbn [adjust] in H; injection H as <- <- <-; exact P|].
  cbn [adjust] in H.
  assert (G : forall dd f, 0 < dd -> match adjust int lb ub r (S j) dd with
      | Some (x', d', fx) => Some (f x', d', fx) | None => None end = Some (x', d', fx) -> 0 < d').
  { intros dd f Q K. destruct (adjust int lb ub r (S j) dd) as [[[x1 d1] f1]|] eqn:A; [|discriminate].
    injection K as _ <- _. exact (IH _ _ _ _ _ _ _ Q A). }
  destruct l as [l|], u as [u|].
  - destruct (qltb u l) eqn:B; [discriminate|]. apply qltb_false in B.
    destruct (qltb (u - l) (d + d)) eqn:B1.
    + destruct (qeqb (u - l) 0) eqn:B2.
      * destruct (adjust int lb ub r (S j) d) as [[[x1 d1] f1]|] eqn:A; [|discriminate].
        injection H as _ <- _. exact (IH _ _ _ _ _ _ _ P A).
      * apply qeqb_false in B2. apply (G _ _) in H; [exact H|].
        assert (~ u - l == 0) by exact B2. assert (l <= u) by lra.
        destruct (Qlt_le_dec 0 (u - l)) as [Q|Q]; [lra|]. exfalso. apply H0. lra.
    + apply (G _ _) in H; auto.
  - apply (G _ _) in H; auto.
  - apply (G _ _) in H; auto.
  - apply (G _ _) in H; auto.
Qed.

Section Sol.
Variable w : world.
Notation user := (w_user w).
Notation rounds' := (rounds (w_user w) (w_nrm w) (w_geom w) (w_fit w)).
Notation prelim' := (prelim (w_user w) (w_nrm w) (w_geom w) (w_fit w)).

Lemma prelim_cases fuel int lb ub x0 r : prelim' fuel int lb ub x0 = Some r ->
  (r = PFlag 1 [] /\ x0 = []) \/
  (r = PFlag 2 [] /\ x0 <> []) \/
  (r = PCrash) \/
  (exists x d, x0 <> [] /\ adjust int lb ub x0 0 delta0 = Some (x, d, []) /\ rounds' fuel x d [] = Some r) \/
  (exists x d f fx, adjust int lb ub x0 0 delta0 = Some (x, d, f :: fx) /\ x0 <> [] /\ rounds' fuel x d [] = Some r).
Proof.
  intros H. unfold prelim in H. destruct x0 as [|a t] eqn:E0; [injection H as <-; auto|]. rewrite <- E0 in *.
  assert (N : x0 <> []) by congruence.
  destruct (adjust int lb ub x0 0 delta0) as [[[x d] fx]|] eqn:A; [|injection H as <-; auto].
  destruct fx as [|f fx].
  - right; right; right; left. eauto.
  - destruct (length (f :: fx) =? length x0)%nat; [injection H as <-; auto|].
    destruct (fixed_eval _ _ _ _); [|injection H as <-; auto].
    right; right; right; right. exists x, d, f, fx. auto.
Qed.

(** the calls of the initial phase *)
Lemma simplex_len x d pts : simplex_of x d pts -> length pts = S (length x).
Proof. intros (H & _). exact H. Qed.

Lemma fine_good c pts k : fine_until user c pts k ->
  forall i y, (i < k)%nat -> nth_error pts i = Some y -> succeeds user (c + i) y.
Proof. intros F i y L N. destruct (F i y L N) as (v & G & _). exists v. exact G. Qed.

Lemma nth_firstn {A} (l : list A) n i y : nth_error (firstn n l) i = Some y -> (i < n)%nat /\ nth_error l i = Some y.
Proof.
  revert n i. induction l as [|a l IH]; intros [|n] [|i]; cbn; try discriminate.
  - intros H; split; [lia|exact H].
  - intros H. destruct (IH _ _ H). split; [lia|auto].
Qed.

Lemma firstn_snoc {A} (l : list A) k y : nth_error l k = Some y -> firstn (S k) l = firstn k l ++ [y].
Proof.
  revert k. induction l as [|a l IH]; intros [|k]; cbn; try discriminate.
  - intros H; injection H as ->; reflexivity.
  - intros H. rewrite <- (IH k H). reflexivity.
Qed.

Lemma probing_good t x c d cl d' e : probing user t x c d cl d' e ->
  match e with
  | Failed => exists l y, cl = l ++ [y] /\
      (forall k z, nth_error l k = Some z -> succeeds user (c + k) z) /\ ~ succeeds user (c + length l) y
  | _ => forall k z, nth_error cl k = Some z -> succeeds user (c + k) z
  end.
Proof.
  intros H. induction H as [c d pts S F|c d pts k y S F E Fl|c d pts k y v cl d' e S F E G L T Pr IH|c d pts k y v S F E G L T].
  - intros k z N. apply (fine_good _ _ _ F); auto. apply nth_error_Some. congruence.
  - exists (firstn k pts), y. split; [apply firstn_snoc; exact E|].
    assert (LE : length (firstn k pts) = k).
    { rewrite firstn_length. assert (k < length pts)%nat by (apply nth_error_Some; congruence). lia. }
    rewrite LE. split.
    + intros i z N. destruct (nth_firstn _ _ _ _ N). apply (fine_good _ _ _ F); auto.
    + intros (v & Gv). exact (Fl v Gv).
  - assert (LE : length (firstn (Datatypes.S k) pts) = Datatypes.S k).
    { rewrite firstn_length. assert (k < length pts)%nat by (apply nth_error_Some; congruence). lia. }
    assert (PRE : forall i z, nth_error (firstn (Datatypes.S k) pts) i = Some z -> succeeds user (c + i) z).
    { intros i z N. destruct (nth_firstn _ _ _ _ N) as (N1 & N2).
      destruct (Nat.eq_dec i k) as [->|NE].
      - rewrite E in N2. injection N2 as <-. exists v. exact G.
      - apply (fine_good _ _ _ F); auto. lia. }
    assert (APP : forall l, (forall i z, nth_error l i = Some z -> succeeds user (c + Datatypes.S k + i) z) ->
       forall i z, nth_error (firstn (Datatypes.S k) pts ++ l) i = Some z -> succeeds user (c + i) z).
    { intros l Hl i z N. destruct (Nat.lt_ge_cases i (Datatypes.S k)) as [Q|Q].
      - rewrite nth_error_app1 in N by lia. apply PRE; auto.
      - rewrite nth_error_app2 in N by lia. rewrite LE in N. apply Hl in N.
        replace (c + Datatypes.S k + (i - Datatypes.S k))%nat with (c + i)%nat in N by lia. exact N. }
    destruct e.
    + apply APP. exact IH.
    + destruct IH as (l & z & -> & I1 & I2). exists (firstn (Datatypes.S k) pts ++ l), z.
      split; [apply app_assoc|]. split; [apply APP; exact I1|].
      rewrite app_length, LE. rewrite Nat.add_assoc. exact I2.
    + apply APP. exact IH.
  - intros i z N. destruct (nth_firstn _ _ _ _ N) as (N1 & N2).
    destruct (Nat.eq_dec i k) as [->|NE].
    + rewrite E in N2. injection N2 as <-. exists v. exact G.
    + apply (fine_good _ _ _ F); auto. lia.
Qed.

Lemma probing_once t x c d cl d' : bounded_below user -> probing user t x c d cl d' Complete ->
  length cl = S (length x).
Proof.
  intros BB H. inversion H; subst.
  - eapply simplex_len; eauto.
  - exfalso. match goal with G : gives _ _ _ _ |- _ => apply BB in G end. lra.
Qed.

Lemma eval_pts_len : forall todo cl X fX ceX cl' X' fX' ceX',
  eval_pts user todo cl X fX ceX = IDone cl' X' fX' ceX' -> length X' = (length X + length todo)%nat.
Proof.
  induction todo as [|y r IH]; intros cl X fX ceX cl' X' fX' ceX' H; cbn [eval_pts] in H.
  - injection H as <- <- <- <-. cbn. lia.
  - destruct (eval_user (user (length cl) y)) as [f c|v]; [|discriminate].
    destruct (add_col ceX c) as [ce1|]; [|discriminate].
    destruct (qltb c1e25 (qabs (qmin c1e25 f))); [discriminate|].
    apply IH in H. rewrite H, app_length. cbn. lia.
Qed.

Lemma rounds_len : forall fuel x d cl cl' X fX ceX d',
  rounds' fuel x d cl = Some (PReady cl' X fX ceX d') -> length X = S (length x).
Proof.
  induction fuel as [|fuel IH]; intros x d cl cl' X fX ceX d' H; [discriminate|].
  cbn [rounds] in H. destruct (negb (w_geom w (simplex x d))); [discriminate|].
  destruct (eval_pts user (simplex x d) cl [] [] []) as [c1 X1 f1 ce1|c1 ce1|c1|] eqn:Ev; [| |discriminate|discriminate].
  - assert (LX : length X1 = S (length x)).
    { apply eval_pts_len in Ev. rewrite Ev. unfold simplex. cbn [length]. rewrite map_length, seq_length. lia. }
    destruct (overwrite_ce ce1) as [ce2|]; [|discriminate].
    destruct ce2.
    + destruct (w_fit w X1); [|discriminate]. injection H as <- <- <- <- <-. exact LX.
    + destruct (length (_ :: _) =? length X1)%nat; [|discriminate].
      destruct (w_fit w X1); [|discriminate]. injection H as <- <- <- <- <-. exact LX.
  - destruct (overwrite_ce ce1) as [ce2|]; [|discriminate].
    destruct (qltb (shrink * d) (stall * w_nrm w x)); [discriminate|]. eauto.
Qed.

(** what the main loop starts from *)
Lemma ready fuel int lb ub x0 cl X fX ceX d :
  prelim' fuel int lb ub x0 = Some (PReady cl X fX ceX d) ->
  (length x0 <= length lb)%nat -> (length x0 <= length ub)%nat ->
  length X = S (length x0) /\ all_succeed user cl /\
  (bounded_below user -> length cl = S (length x0)) /\ (1 <= length x0)%nat /\
  forall (E : env (list Q)) slk s0, e_user E = user -> e_me E = width ceX -> (ceX = [] -> slk = []) ->
    start E cl X fX ceX slk d = Some s0 -> begins E (length cl) d s0.
Proof.
  intros H L U.
  assert (K : exists x d1 fx, x0 <> [] /\ adjust int lb ub x0 0 delta0 = Some (x, d1, fx) /\
     rounds' fuel x d1 [] = Some (PReady cl X fX ceX d)).
  { destruct (prelim_cases _ _ _ _ _ _ H) as [(K & _)|[(K & _)|[K|[(x & d1 & K1 & K2 & K3)|(x & d1 & f & fx & K1 & K2 & K3)]]]];
      try discriminate; [exists x, d1, []; auto|exists x, d1, (f :: fx); auto]. }
  destruct K as (x & d1 & fx & N & A & R).
  assert (LX : length x = length x0) by exact (adjust_length _ _ _ _ _ _ _ _ _ L U A).
  assert (P1 : 0 < d1) by (apply (adj_pos _ _ _ _ _ _ _ _ _ (eq_refl : 0 < delta0) A)).
  pose proof (rounds_probing user (w_nrm w) (w_geom w) (w_fit w) fuel x d1 [] _ R) as (new & NW & Pr).
  cbn [app] in NW. subst new.
  assert (N0 : (1 <= length x0)%nat) by (destruct x0; [congruence|cbn; lia]).
  split; [rewrite <- LX; eapply rounds_len; eauto|].
  split; [intros k y Hk; exact (probing_good _ _ _ _ _ _ _ Pr k y Hk)|].
  split; [intros BB; rewrite <- LX; eapply probing_once; eauto|].
  split; [exact N0|].
  intros E slk s0 EU Me Sl St.
  exists cl, X, fX, ceX, slk.
  assert (Nx : x <> []) by (intros ->; cbn in LX; lia).
  split; [apply (handed_over user (w_nrm w) (w_geom w) (w_fit w) E (fun k y => f_equal (fun g => g k y) EU)
                   fuel x d1 [] cl X fX ceX d slk Nx R Me Sl)|].
  split; [reflexivity|]. split; [|exact St].
  apply (probing_points _ _ _ _ _ _ _ _ Pr P1).
Qed.

(** ** Main loop *)

Section Loop.
Variable E : env (list Q).
Hypothesis SN : sane E.
Hypothesis EU : e_user E = user.

Lemma good_iff k y : good_call E k y <-> succeeds user k y.
Proof.
  unfold good_call, answered, succeeds, gives. rewrite EU. split.
  - intros (v & c & H1 & H2 & H3). eauto.
  - intros (v & H1 & c & H2 & H3). eauto.
Qed.

Lemma reach_good k0 d0 s0 s : begins E k0 d0 s0 -> all_succeed user (calls (sA s0)) -> reach E s0 s ->
  all_succeed user (calls (sA s)).
Proof.
  intros B G R. induction R as [|s a s' R IH PS]; [exact G|].
  pose proof (@failures_continue _ E SN _ _ _ _ _ _ B R PS) as NG.
  destruct (@archive_kept _ E SN _ _ _ _ _ _ B R PS) as ((tl & T) & _).
  intros k y N. destruct (Nat.lt_ge_cases k (length (calls (sA s)))) as [L|L].
  - apply IH. rewrite T, nth_error_app1 in N by auto. exact N.
  - apply good_iff. eapply NG; eauto.
Qed.

Lemma reach_size k0 d0 s0 s M : begins E k0 d0 s0 -> reach E s0 s ->
  (length (s_Y (iS (sI s0))) <= M)%nat -> (e_pfinal E <= M)%nat -> (e_whichmodel E = 3 -> 2 * e_pfinal E <= M)%nat ->
  (length (s_Y (iS (sI s))) <= M)%nat.
Proof.
  intros B R M0 M1 M2. induction R as [|s a s' R IH PS]; [exact M0|].
  destruct (@set_size _ E SN _ _ _ _ _ _ B R PS) as [K|(K & [K1|(K1 & K2)])]; [lia|lia|].
  specialize (M2 K1). lia.
Qed.

Lemma returned k0 d0 s0 n ans M fl s f :
  begins E k0 d0 s0 -> all_succeed user (calls (sA s0)) ->
  (length (s_Y (iS (sI s0))) <= M)%nat -> (e_pfinal E <= M)%nat -> (e_whichmodel E = 3 -> 2 * e_pfinal E <= M)%nat ->
  run E n ans 0 s0 = Some (Return fl s f) ->
  In fl [0; 3; 5; 6; 15; 30]%nat /\
  (exists x j v, nth_error (Xs (sA s)) (ib (sI s)) = Some x /\ nth_error (calls (sA s)) j = Some x /\ gives user j x v) /\
  (length (calls (sA s)) <= Nat.max k0 (e_msimul E - 1 + M))%nat /\
  (fl <> 3%nat -> all_succeed user (calls (sA s))) /\
  (fl = 3%nat -> last_fails user (calls (sA s))).
Proof.
  intros B G M0 M1 M2 RN.
  destruct (@run_reach _ E s0 s0 n ans 0%nat fl s f (reach_start E s0) RN) as (s1 & a & R & PS).
  split; [apply (@codes _ E SN _ _ _ _ _ _ _ _ B R PS)|].
  split.
  { destruct (@returned_evaluated _ E SN _ _ _ _ _ _ _ _ B R PS) as ((k & v & c & H1 & (H2 & H3 & H4) & _) & H5).
    exists (ix (sI s)), k, v. split; [exact H5|]. split; [exact H1|]. rewrite EU in *. split; [exact H2|eauto]. }
  split.
  { destruct (@evaluations_ret _ E SN _ _ _ _ _ _ _ _ B R PS) as (_ & H).
    pose proof (reach_size _ _ _ _ _ B R M0 M1 M2) as Z.
    destruct (@pass_return _ E SN _ _ _ _ _ _ _ _ B R PS) as (_ & K).
    pose proof (Main_Proofs2.pr_len _ _ _ _ _ _ K) as PL. lia. }
  destruct (@failures_return _ E SN _ _ _ _ _ _ _ _ B R PS) as (F1 & F2).
  destruct (@pass_return _ E SN _ _ _ _ _ _ _ _ B R PS) as (_ & K).
  destruct (Main_Proofs2.pr_ext _ _ _ _ _ _ K) as (tl & T).
  pose proof (reach_good _ _ _ _ B G R) as G1.
  split.
  - intros NF k y N. destruct (Nat.lt_ge_cases k (length (calls (sA s1)))) as [L|L].
    + apply G1. rewrite T, nth_error_app1 in N by auto. exact N.
    + apply good_iff. eapply (F1 NF); eauto.
  - intros FF. destruct (F2 FF) as (cl & C1 & C2 & C3).
    exists cl, (a_xnew a). split; [exact C1|]. split.
    + intros k y N. destruct (Nat.lt_ge_cases k (length (calls (sA s1)))) as [L|L].
      * apply G1. assert (N' : nth_error (calls (sA s)) k = Some y).
        { rewrite C1. rewrite nth_error_app1; auto. apply nth_error_Some. congruence. }
        rewrite T, nth_error_app1 in N' by auto. exact N'.
      * apply good_iff. eapply C3; eauto.
    + intros S. apply C2. apply good_iff. exact S.
Qed.
End Loop.

(** ** The call *)

Hypothesis Sorts : sorts_desc (w_argsort w).

Lemma quad_ge n : (1 <= n -> n + 1 <= (n + 1) * (n + 2) / 2 /\ 2 * n + 1 <= (n + 1) * (n + 2) / 2)%nat.
Proof.
  intros H. split; apply Nat.div_le_lower_bound; try lia; nia.
Qed.

Lemma final_le d n : (1 <= n)%nat -> (p_final d n <= p_quad n)%nat.
Proof.
  intros H. destruct (quad_ge n H) as (Q1 & Q2). unfold p_final, p_quad.
  destruct d as [[s|z]|]; try lia.
  destruct (Z.eq_dec z 140) as [->|]; [lia|]. destruct (Z.eq_dec z 141) as [->|]; [lia|].
  assert (X : forall A (a b c : A), match z with 140%Z => a | 141%Z => b | _ => c end = c).
  { intros. destruct z as [|p|p]; auto. do 8 (destruct p; auto); congruence. }
  rewrite (X nat). lia.
Qed.

Lemma settings_facts o n me E : (1 <= n)%nat -> settings w o n me = Some E ->
  sane E /\ e_user E = user /\ e_me E = me /\ Some (e_miter E) = limit (miter o) /\
  Some (e_msimul E) = limit (msimul o) /\ e_pfinal E = p_final (degree o) n /\ e_whichmodel E = model_of (wmodel o).
Proof.
  intros N H. unfold settings in H.
  destruct (limit (miter o)) as [mt|]; [|discriminate]. destruct (limit (msimul o)) as [ms|]; [|discriminate].
  destruct (finite (tol_grad o)); [|discriminate]. destruct (finite (tol_feas o)); [|discriminate].
  destruct (finite (tol_bnds o)); [|discriminate]. injection H as <-. cbn.
  split; [split; [exact Sorts|cbn; apply final_le; exact N]|]. repeat split.
Qed.

Lemma width_hd ceX : width ceX = length (match ceX with c :: _ => c | [] => [] end).
Proof. destruct ceX; reflexivity. Qed.

(** sizes *)
Lemma largest_facts o n : (1 <= n)%nat ->
  (n + 1 <= Nat.max (n + 1) (largest o n) /\ p_final (degree o) n <= Nat.max (n + 1) (largest o n) /\
   (model_of (wmodel o) = 3 -> 2 * p_final (degree o) n <= Nat.max (n + 1) (largest o n)))%nat.
Proof.
  intros H.
  assert (PF : p_final (degree o) n = (match degree o with
           | Some (VInt 140%Z) => n + 1 | Some (VInt 141%Z) => 2 * n + 1 | _ => (n + 1) * (n + 2) / 2 end)%nat) by reflexivity.
  unfold largest. rewrite <- PF. set (p := p_final (degree o) n).
  assert (X : forall A (a b : A), (wmodel o = Some (VInt 3) -> a = b) ->
     (match wmodel o with Some (VInt 3%Z) => a | _ => b end = b)).
  { intros A a b K. destruct (wmodel o) as [[s|z]|]; auto. destruct (Z.eq_dec z 3) as [->|NE]; auto.
    destruct z as [|q|q]; auto. do 3 (destruct q; auto); congruence. }
  split; [lia|]. split.
  - destruct (wmodel o) as [[s|z]|]; try lia. destruct z as [|q|q]; try lia.
    do 3 (destruct q; try lia).
  - intros M. assert (W : wmodel o = Some (VInt 3)).
    { unfold model_of in M. destruct (wmodel o) as [[s|z]|]; try discriminate. f_equal. f_equal. lia. }
    rewrite W. lia.
Qed.

(** a whole call that reaches the main loop *)
Lemma main_case fuel o n k cl X fX ceX d fl x cl' x0 lb ub int :
  prelim' fuel int lb ub x0 = Some (PReady cl X fX ceX d) ->
  (length x0 <= length lb)%nat -> (length x0 <= length ub)%nat -> n = length x0 ->
  continue_ fuel w o n k cl X fX ceX d = Some (Gives fl x cl') ->
  In fl [0; 3; 5; 6; 15; 30]%nat /\
  (exists y j v, x = Some y /\ nth_error cl' j = Some y /\ gives user j y v) /\
  (forall ms, limit (msimul o) = Some ms ->
     (length cl' <= Nat.max (length cl) (ms - 1 + Nat.max (n + 1) (largest o n)))%nat) /\
  (fl <> 3%nat -> all_succeed user cl') /\ (fl = 3%nat -> last_fails user cl').
Proof.
  intros H L U -> C. destruct (ready _ _ _ _ _ _ _ _ _ _ H L U) as (LX & G & _ & N & BG).
  unfold continue_ in C. set (c0 := match ceX with c :: _ => c | [] => [] end) in *.
  destruct (length c0 <? k)%nat eqn:K0; [discriminate|]. apply Nat.ltb_ge in K0.
  destruct (w_late w); [discriminate|]. destruct (settings w o (length x0) (length c0)) as [E|] eqn:SE; [|discriminate].
  destruct (settings_facts _ _ _ _ N SE) as (S1 & S2 & S3 & S4 & S5 & S6 & S7).
  destruct (start E cl X fX ceX _ d) as [s0|] eqn:ST; [|discriminate].
  assert (B : begins E (length cl) d s0).
  { refine (BG E _ s0 S2 _ _ ST).
    - rewrite S3. symmetry. apply width_hd.
    - intros ->. cbn in c0. subst c0. cbn in K0. assert (k = 0%nat) by lia. subst k. reflexivity. }
  assert (SS : calls (sA s0) = cl /\ length (s_Y (iS (sI s0))) = length X).
  { unfold start in ST. destruct X as [|x1 X]; [discriminate|]. destruct fX as [|f1 fX]; [discriminate|].
    injection ST as <-. split; reflexivity. }
  destruct SS as (SS1 & SS2).
  destruct (run E fuel (w_ans w) 0 s0) as [[s|fl1 s f1|]|] eqn:RN; try discriminate.
  injection C as <- <- <-.
  destruct (largest_facts o (length x0) N) as (B1 & B2 & B3).
  assert (G0 : all_succeed user (calls (sA s0))) by (rewrite SS1; exact G).
  assert (M0 : (length (s_Y (iS (sI s0))) <= Nat.max (length x0 + 1) (largest o (length x0)))%nat) by (rewrite SS2, LX; lia).
  assert (M1 : (e_pfinal E <= Nat.max (length x0 + 1) (largest o (length x0)))%nat) by (rewrite S6; exact B2).
  assert (M2 : (e_whichmodel E = 3 -> 2 * e_pfinal E <= Nat.max (length x0 + 1) (largest o (length x0)))%nat)
    by (rewrite S6, S7; exact B3).
  destruct (returned E S1 S2 _ _ _ _ _ _ _ _ _ B G0 M0 M1 M2 RN) as (R1 & (y & j & v & R2a & R2b & R2c) & R3 & R4 & R5).
  split; [exact R1|]. split; [exists y, j, v; auto|]. split; [|auto].
  intros ms Hm. rewrite Hm in S5. injection S5 as S5. rewrite <- S5. exact R3.
Qed.

(** how a call ends with a code *)
Lemma solve_cases fuel i fl x cl : solve fuel i w = Some (Gives fl x cl) ->
  ((fl = 1 \/ fl = 2)%nat /\ x = None /\ cl = []) \/
  (fl = 3%nat /\ x = None /\ last_fails user cl /\
     exists o, validate (i_opts i) = VDone o) \/
  (exists k o cl0 X fX ceX d, slacks_of i = Some k /\ validate (i_opts i) = VDone o /\
     (length (i_x0 i) <= length (full_lb i k))%nat /\ (length (i_x0 i) <= length (full_ub i k))%nat /\
     prelim' fuel (i_int i) (full_lb i k) (full_ub i k) (i_x0 i) = Some (PReady cl0 X fX ceX d) /\
     continue_ fuel w o (length (i_x0 i)) k cl0 X fX ceX d = Some (Gives fl x cl)).
Proof.
  intros H. unfold solve in H. destruct (check_args (i_args i)) as [| |f c].
  - injection H as <- <- <-. auto.
  - discriminate.
  - destruct (slacks_of i) as [k|]; [|discriminate].
    destruct (validate (i_opts i)) as [o|o|] eqn:V; [|injection H as <- <- <-; auto|discriminate].
    destruct ((length (full_lb i k) <? length (i_x0 i)) || (length (full_ub i k) <? length (i_x0 i)))%nat%bool eqn:LB.
    + destruct (adjust _ _ _ _ _ _); [discriminate|]. injection H as <- <- <-. auto.
    + apply orb_false_elim in LB. destruct LB as (L & U). apply Nat.ltb_ge in L, U.
      destruct (prelim' fuel (i_int i) (full_lb i k) (full_ub i k) (i_x0 i)) as [r|] eqn:PR; [|discriminate].
      destruct r as [cl0 X fX ceX d|fl0 cl0|cl0|]; try discriminate.
      * right. right. exists k, o, cl0, X, fX, ceX, d. repeat split; auto.
      * injection H as <- <- <-.
        destruct (prelim_cases _ _ _ _ _ _ PR) as [(K & _)|[(K & _)|[K|[(x1 & d1 & K1 & K2 & K3)|(x1 & d1 & f1 & fx & K1 & K2 & K3)]]]];
          try discriminate; try (injection K as -> ->; auto);
          (right; left; pose proof (rounds_probing user (w_nrm w) (w_geom w) (w_fit w) fuel x1 d1 [] _ K3) as (-> & new & d' & NW & Pr);
           cbn [app] in NW; subst new; split; [reflexivity|]; split; [reflexivity|]; split; [|eauto];
           destruct (probing_good _ _ _ _ _ _ _ Pr) as (l & y & P1 & P2 & P3); exists l, y; auto).
Qed.

Lemma call_codes fuel i fl x cl : solve fuel i w = Some (Gives fl x cl) ->
  In fl [0; 1; 2; 3; 5; 6; 15; 30]%nat /\
  (In fl [1; 2]%nat -> cl = [] /\ x = None) /\
  (x = None -> In fl [1; 2; 3]%nat).
Proof.
  intros H. destruct (solve_cases _ _ _ _ _ H) as [([-> | ->] & -> & ->)|[(-> & -> & _)|(k & o & cl0 & X & fX & ceX & d & _ & _ & L & U & PR & C)]].
  - split; [cbn; auto 9|]. split; [auto|cbn; auto].
  - split; [cbn; auto 9|]. split; [auto|cbn; auto].
  - split; [cbn; auto 9|]. split; [|cbn; auto]. intros [K|[K|[]]]; discriminate.
  - destruct (main_case _ _ _ _ _ _ _ _ _ _ _ _ _ _ _ _ PR L U eq_refl C) as (K & (y & j & v & -> & _) & _).
    split; [cbn in *; tauto|]. split; [|discriminate].
    intros [Q|[Q|[]]]; subst fl; cbn in K; destruct K as [K|[K|[K|[K|[K|[K|[]]]]]]]; discriminate.
Qed.

Lemma call_point fuel i fl y cl : solve fuel i w = Some (Gives fl (Some y) cl) ->
  exists j v, nth_error cl j = Some y /\ gives user j y v.
Proof.
  intros H. destruct (solve_cases _ _ _ _ _ H) as [(_ & K & _)|[(_ & K & _)|(k & o & cl0 & X & fX & ceX & d & _ & _ & L & U & PR & C)]]; try discriminate.
  destruct (main_case _ _ _ _ _ _ _ _ _ _ _ _ _ _ _ _ PR L U eq_refl C) as (_ & (z & j & v & E & K) & _).
  injection E as ->. eauto.
Qed.

Lemma call_failures fuel i fl x cl : solve fuel i w = Some (Gives fl x cl) ->
  (fl <> 3%nat -> all_succeed user cl) /\ (fl = 3%nat -> last_fails user cl).
Proof.
  intros H. destruct (solve_cases _ _ _ _ _ H) as [(F & _ & ->)|[(-> & _ & K & _)|(k & o & cl0 & X & fX & ceX & d & _ & _ & L & U & PR & C)]].
  - split; [intros _ k y N; destruct k; discriminate|intros ->; destruct F; discriminate].
  - split; [congruence|auto].
  - apply (main_case _ _ _ _ _ _ _ _ _ _ _ _ _ _ _ _ PR L U eq_refl C).
Qed.

Lemma limit_counts q n m : has_value n q -> 0 <= q -> limit n = Some m -> counts_below q m.
Proof.
  intros (x & -> & V) P H k. destruct x as [z|[f| | |]]; cbn [val limit] in *; try discriminate.
  - injection V as <-. injection H as <-. unfold Qle in P; cbn in P. unfold Qlt; cbn. lia.
  - injection V as ->. injection H as <-.
    pose proof (Qle_ceiling q) as C1. pose proof (Qceiling_lt q) as C2.
    assert (P2 : (0 <= Qceiling q)%Z).
    { rewrite Zle_Qle. apply Qle_trans with q; auto. }
    split.
    + intros K. eapply Qle_lt_trans; [|exact C2]. rewrite <- Zle_Qle. lia.
    + intros K. assert (inject_Z (Z.of_nat k) < inject_Z (Qceiling q)) by (eapply Qlt_le_trans; eauto).
      rewrite <- Zlt_Qlt in H. lia.
Qed.

Lemma call_budget fuel i fl x cl o q m : solve fuel i w = Some (Gives fl x cl) -> bounded_below user ->
  validate (i_opts i) = VDone o -> has_value (msimul o) q -> 0 <= q -> counts_below q m ->
  let n := length (i_x0 i) in
  (length cl <= Nat.max (n + 1) (m - 1 + Nat.max (n + 1) (largest o n)))%nat.
Proof.
  intros H BB V HV Q CB n.
  assert (LM : limit (msimul o) = Some m).
  { destruct (limit (msimul o)) as [m'|] eqn:LM.
    - f_equal. pose proof (limit_counts _ _ _ HV Q LM) as C2. 
      pose proof (CB m) as X1. pose proof (CB m') as X2. pose proof (C2 m) as X3. pose proof (C2 m') as X4. 
      assert (~ m < m')%nat by (intros K; apply X3 in K; apply X1 in K; lia).
      assert (~ m' < m)%nat by (intros K; apply X2 in K; apply X4 in K; lia). lia.
    - destruct HV as (y & E & VV). rewrite E in LM. destruct y as [z|[f| | |]]; cbn in *; discriminate. }
  destruct (solve_cases _ _ _ _ _ H) as [(F & _ & ->)|[(-> & _ & K & o' & Vo)|(k & o' & cl0 & X & fX & ceX & d & _ & Vo & L & U & PR & C)]].
  - cbn. lia.
  - clear K. unfold solve in H. destruct (check_args (i_args i)) as [| |f c]; try discriminate.
    destruct (slacks_of i) as [k|]; [|discriminate]. rewrite V in H.
    destruct ((length (full_lb i k) <? length (i_x0 i)) || (length (full_ub i k) <? length (i_x0 i)))%nat%bool eqn:LB.
    + destruct (adjust _ _ _ _ _ _); discriminate.
    + apply orb_false_elim in LB. destruct LB as (L & U). apply Nat.ltb_ge in L, U.
      destruct (prelim' fuel (i_int i) (full_lb i k) (full_ub i k) (i_x0 i)) as [r|] eqn:PR; [|discriminate].
      destruct r as [cl0 X fX ceX d|fl0 cl0|cl0|]; try discriminate.
      * destruct (main_case _ _ _ _ _ _ _ _ _ _ _ _ _ _ _ _ PR L U eq_refl H) as (_ & _ & B & _).
        destruct (ready _ _ _ _ _ _ _ _ _ _ PR L U) as (_ & _ & B0 & _). specialize (B m LM). specialize (B0 BB).
        fold n in B, B0. lia.
      * injection H as -> <- <-.
        assert (RR : exists x1 d1 fx, adjust (i_int i) (full_lb i k) (full_ub i k) (i_x0 i) 0 delta0 = Some (x1, d1, fx) /\
           rounds' fuel x1 d1 [] = Some (PFlag 3 cl0)).
        { destruct (prelim_cases _ _ _ _ _ _ PR) as [(K & _)|[(K & _)|[K|[(x1 & d1 & K1 & K2 & K3)|(x1 & d1 & f1 & fx & K1 & K2 & K3)]]]];
          try discriminate; eauto 6. }
        destruct RR as (x1 & d1 & fx & K2 & K3).
        pose proof (rounds_probing user (w_nrm w) (w_geom w) (w_fit w) fuel x1 d1 [] _ K3) as (_ & new & d' & NW & Pr).
        cbn [app] in NW. subst new. pose proof (adjust_length _ _ _ _ _ _ _ _ _ L U K2) as LX. fold n in LX.
        inversion Pr; subst.
        -- match goal with S : simplex_of _ _ _ |- _ => apply simplex_len in S end. rewrite firstn_length. lia.
        -- exfalso. match goal with G : gives _ _ _ _ |- _ => apply BB in G end. lra.
  - rewrite V in Vo. injection Vo as <-.
    destruct (main_case _ _ _ _ _ _ _ _ _ _ _ _ _ _ _ _ PR L U eq_refl C) as (_ & _ & B & _).
    destruct (ready _ _ _ _ _ _ _ _ _ _ PR L U) as (_ & _ & B0 & _). specialize (B m LM). specialize (B0 BB).
    fold n in B, B0. lia.
Qed.

(** ** Termination *)

Lemma rounds_one fuel x d cl : bounded_below user -> rounds' (S fuel) x d cl <> None.
Proof.
  intros BB. cbn [rounds]. destruct (negb (w_geom w (simplex x d))); [discriminate|].
  destruct (eval_pts user (simplex x d) cl [] [] []) as [c1 X1 f1 ce1|c1 ce1|c1|] eqn:Ev; try discriminate.
  - destruct (overwrite_ce ce1) as [[|]|]; try discriminate.
    destruct (length _ =? length _)%nat; discriminate.
  - exfalso. pose proof (eval_pts_spec user (simplex x d) cl [] [] []) as SP. rewrite Ev in SP.
    destruct SP as (k & y & v & _ & _ & _ & Gv & Lv). apply BB in Gv. unfold c1e25 in Lv. lra.
Qed.

Lemma rounds_more : forall fuel x d cl r j, rounds' fuel x d cl = Some r -> rounds' (fuel + j) x d cl = Some r.
Proof.
  induction fuel as [|fuel IH]; intros x d cl r j H; [discriminate|].
  cbn [rounds Nat.add] in *. destruct (negb (w_geom w (simplex x d))); [exact H|].
  destruct (eval_pts user (simplex x d) cl [] [] []) as [c1 X1 f1 ce1|c1 ce1|c1|]; try exact H.
  destruct (overwrite_ce ce1); [|exact H].
  destruct (qltb (shrink * d) (stall * w_nrm w x)); [exact H|]. apply IH. exact H.
Qed.

Lemma prelim_more fuel int lb ub x0 j r : prelim' fuel int lb ub x0 = Some r -> prelim' (fuel + j) int lb ub x0 = Some r.
Proof.
  unfold prelim. destruct x0 as [|a t]; auto. destruct (adjust int lb ub (a :: t) 0 delta0) as [[[x d] fx]|]; auto.
  destruct fx; [apply rounds_more|].
  destruct (length (_ :: fx) =? length (a :: t))%nat; auto. destruct (fixed_eval _ _ _ _); auto. apply rounds_more.
Qed.

Lemma run_more (E : env (list Q)) ans : forall fuel k s r j, run E fuel ans k s = Some r -> run E (fuel + j) ans k s = Some r.
Proof.
  induction fuel as [|fuel IH]; intros k s r j H; [discriminate|]. cbn [run Nat.add] in *.
  destruct (pass E s (ans k)); auto.
Qed.

Lemma prelim_one fuel int lb ub x0 : bounded_below user -> prelim' (S fuel) int lb ub x0 <> None.
Proof.
  intros BB. unfold prelim. destruct x0 as [|a t]; [discriminate|].
  destruct (adjust int lb ub (a :: t) 0 delta0) as [[[x d] fx]|]; [|discriminate].
  destruct fx; [apply rounds_one; auto|].
  destruct (length (_ :: fx) =? length (a :: t))%nat; [discriminate|].
  destruct (fixed_eval _ _ _ _); [apply rounds_one; auto|discriminate].
Qed.

Lemma continue_ends fuel o k cl X fX ceX d x0 lb ub int f0 m :
  prelim' f0 int lb ub x0 = Some (PReady cl X fX ceX d) ->
  (length x0 <= length lb)%nat -> (length x0 <= length ub)%nat ->
  limit (miter o) = Some m -> (S m <= fuel)%nat ->
  continue_ fuel w o (length x0) k cl X fX ceX d <> None.
Proof.
  intros H L U LM LE. destruct (ready _ _ _ _ _ _ _ _ _ _ H L U) as (LX & G & _ & N & BG).
  unfold continue_. set (c0 := match ceX with c :: _ => c | [] => [] end) in *.
  destruct (length c0 <? k)%nat eqn:K0; [discriminate|]. apply Nat.ltb_ge in K0.
  destruct (w_late w); [discriminate|]. destruct (settings w o (length x0) (length c0)) as [E|] eqn:SE; [|discriminate].
  destruct (settings_facts _ _ _ _ N SE) as (S1 & S2 & S3 & S4 & _).
  destruct (start E cl X fX ceX _ d) as [s0|] eqn:ST; [|discriminate].
  assert (B : begins E (length cl) d s0).
  { refine (BG E _ s0 S2 _ _ ST).
    - rewrite S3. symmetry. apply width_hd.
    - intros ->. cbn in c0. subst c0. cbn in K0. assert (k = 0%nat) by lia. subst k. reflexivity. }
  rewrite LM in S4. injection S4 as S4.
  pose proof (@terminates _ E S1 _ _ _ B (w_ans w) 0%nat) as T. rewrite S4 in T.
  destruct (run E (S m) (w_ans w) 0 s0) as [r|] eqn:RN; [|congruence].
  apply (run_more E (w_ans w) _ _ _ _ (fuel - S m)%nat) in RN.
  replace (S m + (fuel - S m))%nat with fuel in RN by lia. rewrite RN. destruct r; discriminate.
Qed.

Lemma value_limit n q : has_value n q -> exists m, limit n = Some m.
Proof. intros (x & -> & V). destruct x as [z|[f| | |]]; cbn in *; try discriminate; eauto. Qed.

(** a call ends: either no value is too low, or the start point does not vanish *)
Lemma call_ends i o q m : validate (i_opts i) = VDone o -> has_value (miter o) q -> 0 <= q -> counts_below q m ->
  (bounded_below user -> solve (S m) i w <> None) /\
  ((forall k x d fx, slacks_of i = Some k ->
      adjust (i_int i) (full_lb i k) (full_ub i k) (i_x0 i) 0 delta0 = Some (x, d, fx) -> 0 < w_nrm w x) ->
   exists fuel, solve fuel i w <> None).
Proof.
  intros V HV Q CB.
  assert (LM : limit (miter o) = Some m).
  { destruct (value_limit _ _ HV) as (m' & LM). rewrite LM.
    f_equal. pose proof (limit_counts _ _ _ HV Q LM) as C2. 
    pose proof (CB m) as X1. pose proof (CB m') as X2. pose proof (C2 m) as X3. pose proof (C2 m') as X4. 
    assert (~ m < m')%nat by (intros K; apply X3 in K; apply X1 in K; lia).
    assert (~ m' < m)%nat by (intros K; apply X2 in K; apply X4 in K; lia). lia. }
  split.
  - intros BB. unfold solve. destruct (check_args (i_args i)); try discriminate.
    destruct (slacks_of i) as [k|]; [|discriminate]. rewrite V.
    destruct ((length (full_lb i k) <? length (i_x0 i)) || (length (full_ub i k) <? length (i_x0 i)))%nat%bool eqn:LB.
    + destruct (adjust _ _ _ _ _ _); discriminate.
    + apply orb_false_elim in LB. destruct LB as (L & U). apply Nat.ltb_ge in L, U.
      pose proof (prelim_one m (i_int i) (full_lb i k) (full_ub i k) (i_x0 i) BB) as P1.
      destruct (prelim' (S m) (i_int i) (full_lb i k) (full_ub i k) (i_x0 i)) as [r|] eqn:PR; [|congruence].
      destruct r; try discriminate. eapply continue_ends; eauto.
  - intros NZ. unfold solve. destruct (check_args (i_args i)); [exists 0%nat; discriminate|exists 0%nat; discriminate|].
    destruct (slacks_of i) as [k|]; [|exists 0%nat; discriminate]. rewrite V.
    destruct ((length (full_lb i k) <? length (i_x0 i)) || (length (full_ub i k) <? length (i_x0 i)))%nat%bool eqn:LB.
    + exists 0%nat. destruct (adjust _ _ _ _ _ _); discriminate.
    + apply orb_false_elim in LB. destruct LB as (L & U). apply Nat.ltb_ge in L, U.
      assert (P : exists f1 r, prelim' f1 (i_int i) (full_lb i k) (full_ub i k) (i_x0 i) = Some r).
      { unfold prelim. destruct (i_x0 i) as [|a t] eqn:E0; [exists 0%nat; eauto|]. rewrite <- E0 in *.
        destruct (adjust (i_int i) (full_lb i k) (full_ub i k) (i_x0 i) 0 delta0) as [[[x d] fx]|] eqn:A; [|exists 0%nat; eauto].
        assert (PD : 0 < d) by (apply (adj_pos _ _ _ _ _ _ _ _ _ (eq_refl : 0 < delta0) A)).
        specialize (NZ k x d fx eq_refl A).
        destruct (rounds_end user (w_nrm w) (w_geom w) (w_fit w) x d [] PD NZ) as (f1 & r & R). exists f1.
        destruct fx; [eauto|]. destruct (length (_ :: fx) =? length (i_x0 i))%nat; [eauto|].
        destruct (fixed_eval _ _ _ _); eauto. }
      destruct P as (f1 & r & P). exists (f1 + S m)%nat.
      rewrite (prelim_more _ _ _ _ _ (S m) _ P). destruct r; try discriminate.
      eapply continue_ends; eauto. lia.
Qed.
End Sol.
