(** The statements about the search with stratLam = 0 in the form of the property file. *)
From Coq Require Import Reals Lra Psatz Lia List Arith Bool.
From Verif Require Import RVec RBool Tri ProjGrad_Spec MS_Model MS_Spec MS_Proofs MS_More BC_Model BC_Spec BC_Proofs BC_More Hom_Model Hom_Spec Hom_Proofs Hom_More Hom_Len Hom_Fin
  Bis_Model Bis_Spec Bis_Proofs Bis_Len Bis_Num Bis_Conv.
Import ListNotations.
Open Scope R_scope.

Section Words.
Variables (lb ub : nat -> xR) (free : list nat) (s d : vec).
Hypothesis ND : NoDup free.
Notation after := (after lb ub free s d).

Lemma after_point : trial_point lb ub free s d after.
Proof.
  intros k Hk. cbv zeta. assert (II : In (nth k free 0%nat) free) by (apply nth_In; exact Hk).
  pose proof (held_crit lb ub (vadd s (expand free d)) (nth k free 0%nat)) as HC.
  assert (E : vadd s (expand free d) (nth k free 0%nat) = s (nth k free 0%nat) + d k) by (unfold vadd; rewrite expand_at by assumption; reflexivity).
  rewrite E in HC. unfold Hom_Proofs.after. rewrite (proj2 (memb_spec _ free) II), E. cbn [andb].
  destruct (crit_zero lb ub (vadd s (expand free d)) (nth k free 0%nat)).
  - left. split; [apply HC; reflexivity|reflexivity].
  - right. split; [intros X; apply HC in X; discriminate|reflexivity].
Qed.
Lemma near_within : near_in lb ub free s d = true <-> within (1 / 10 ^ 5) lb ub free after.
Proof.
  replace (1 / 10 ^ 5) with bc_eps by (unfold bc_eps, Rdiv; ring). unfold near_in, within. rewrite negb_true_iff. split.
  - intros E i II. apply outr. exact (existsb_none _ _ E i II).
  - intros A. destruct (existsb _ _) eqn:E; [exfalso|reflexivity]. apply existsb_exists in E. destruct E as (i & II & F).
    specialize (A i II). apply outr in A. congruence.
Qed.
Lemma inside_within : inside_of lb ub free after = true <-> within 0 lb ub free after.
Proof.
  rewrite <- (negb_involutive (inside_of lb ub free after)), <- inside_spec, negb_true_iff. unfold within. split.
  - intros E i II. apply outr. exact (existsb_none _ _ E i II).
  - intros A. destruct (existsb _ _) eqn:E; [exfalso|reflexivity]. apply existsb_exists in E. destruct E as (i & II & F).
    specialize (A i II). apply outr in A. congruence.
Qed.
Lemma touching_touches : touching lb ub free s d = true <-> touches lb ub free after.
Proof.
  unfold touching, touches. replace (1 / 10 ^ 5) with bc_eps by (unfold bc_eps, Rdiv; ring). rewrite existsb_exists. unfold u_act, l_act, near. split.
  - intros (i & II & A). exists i. apply orb_true_iff in A. destruct A as [A|A].
    + destruct (ub i) as [b| |]; cbn in A; try discriminate. exists b. rb. auto.
    + destruct (lb i) as [b| |]; cbn in A; try discriminate. exists b. rb. auto.
  - intros (i & b & II & [E|E] & A); exists i; (split; [exact II|]); apply orb_true_iff; [right|left]; rewrite E; cbn; apply Rleb_true; exact A.
Qed.
End Words.

Section Fin.
Variable ms : nat -> nat -> vec -> mat -> R -> option ms_out.
Variable chol : nat -> mat -> option mat.
Variable slv : nat -> mat -> vec -> option vec.
Variables (n : nat) (H : mat) (lb ub : nat -> xR) (free : list nat) (s g : vec) (Delta eps : R) (o : ms_out).
Hypothesis CE : forall k, chol_exact k (chol k).
Hypothesis SE : forall k, slv_exact k (slv k).
Hypothesis SH : symmetric n H.
Hypothesis ST : starts n H lb ub free s g Delta eps o.
Notation m := (length free).
Notation sa := (vadd s (expand free (ms_s o))).
Notation Hf := (sub_mat free H).
Notation gf := (sub_vec free g).
Notation lam0 := (ms_lambda o).
Notation start := (bis_start lb ub free s n g H lam0 (ms_hard o) sa).
Notation states := (bis_states (chol m) (slv m) lb ub free Hf gf s).
Notation first := (Rmax 2 (2 * lam0)).
Notation eps5 := (1 / 10 ^ 5).

Lemma b_start : 0 <= lam0 /\ stationary m gf Hf lam0 (ms_s o) /\ shift_psd m Hf lam0 /\ (ms_hard o = false -> shift_pd m Hf lam0) /\ binv lam0 start.
Proof.
  destruct ST as (ND & FB & W0 & WS & AS & OUT & RM & CLR).
  exact (bis_sound_start n H lb ub SH free s g Delta eps o sa ND FB WS AS eq_refl (beyond_out _ _ _ _ OUT) RM).
Qed.
Lemma b_sym : symmetric m Hf.
Proof. destruct ST as (ND & FB & _). exact (sub_sym n H free SH FB). Qed.

Lemma bf_found c s' j : ms c m gf Hf Delta = Some o -> bis_of ms n H lb ub chol slv c free s g sa Delta = HomBreak s' j ->
  in_bounds n lb ub s' /\
  exists lam d, lam0 < lam /\ shift_pd m Hf lam /\ stationary m gf Hf lam d /\ norm m d <= norm m (ms_s o) /\
    qmodel m gf Hf d <= - (lam / 2 * dot m d d) /\
    placed lb ub free s d s' /\ exists i, In i free /\ (lb i = Fin (s' i) \/ ub i = Fin (s' i)).
Proof.
  destruct ST as (ND & FB & W0 & WS & AS & OUT & RM & CLR). intros MSO E.
  exact (b_found ms chol slv n H lb ub CE SE SH W0 free s g Delta eps c o sa s' j ND FB WS AS eq_refl (beyond_out _ _ _ _ OUT) RM MSO E).
Qed.

(** the first trial in the hard case *)
Lemma bf_hard act : ms_hard o = true -> exists st', states 1 start true act = Some (st', true, act) /\
  h_lower st' = first /\ h_upper st' = h_upper start /\ h_lam st' = (first + h_upper start) / 2 /\ h_hard st' = false /\ h_back st' = false.
Proof.
  intros HH. cbn [bis_states]. destruct (bis_cases (chol m) (slv m) lb ub free Hf gf s (CE m) (SE m) b_sym start true act) as [(_ & T)|(X & _)].
  - rewrite T. eexists. split; [reflexivity|]. cbn [h_lower h_upper h_lam h_hard h_back bis_start]. repeat split. field.
  - cbn [h_hard bis_start] in X. congruence.
Qed.

Hypothesis HH : ms_hard o = false.
Notation closed := (closed lb ub free Hf gf s lam0).
Notation opened := (opened lam0).

Lemma b_out : exists k, (k < m)%nat /\ past 0 (s (nth k free 0%nat) + ms_s o k) (lb (nth k free 0%nat)) (ub (nth k free 0%nat)).
Proof.
  destruct ST as (ND & FB & W0 & WS & AS & (i & II & B) & RM & CLR). destruct (In_nth free i 0%nat II) as (k & Hk & EK). exists k. split; [exact Hk|].
  rewrite EK. unfold beyond, vadd in B. assert (EX : expand free (ms_s o) i = ms_s o k) by (rewrite <- EK; apply expand_at; assumption). rewrite EX in B. unfold past. rewrite Rplus_0_r, Rminus_0_r. exact B.
Qed.
Lemma first_la : first = 2 * Rmax 1 lam0.
Proof. unfold Rmax. destruct (Rle_dec 2 (2 * lam0)), (Rle_dec 1 lam0); lra. Qed.

Lemma start_opened act : opened 1 start true act.
Proof.
  unfold Bis_Conv.opened. cbn [h_hard h_back h_lower h_lam bis_start pow]. rewrite first_la. repeat split; [exact HH|ring].
Qed.

Lemma states_phase k : forall act st out' act', states k start true act = Some (st, out', act') ->
  (opened (S k) st out' act' /\ forall j, (j < k)%nat -> exists d, stationary m gf Hf (2 ^ j * first) d /\ near_in lb ub free s d = false) \/ closed st out' act'.
Proof.
  destruct b_start as (L0 & S0 & _ & P0 & _). specialize (P0 HH). pose proof b_out as OUT.
  destruct ST as (ND & FB & W0 & WS & _).
  assert (SN : forall a st ot act, states (S a) st ot act = match states a st ot act with Some (x, b, c) => states 1 x b c | None => None end).
  { induction a as [|a IHa]; intros st ot act; [reflexivity|]. cbn [bis_states]. destruct (bis_trial _ _ _ _ _ _ _ _ st ot act); try reflexivity. exact (IHa _ _ _). }
  induction k as [|k IH]; intros act st out' act' E.
  - injection E as <- <- <-. left. split; [apply start_opened|lia].
  - rewrite SN in E. destruct (states k start true act) as [((x & b) & c)|] eqn:EK; [|discriminate]. cbn [bis_states] in E.
    destruct (IH act x b c EK) as [(O & F)|C].
    + destruct (opened_trial (chol m) (slv m) n lb ub free Hf gf s (CE m) (SE m) b_sym ND FB W0 lam0 P0 k x b c O) as [(s' & T)|(st' & o1 & a1 & T & X)]; rewrite T in E; [discriminate|].
      injection E as <- <- <-. destruct X as [(O' & d & SD & NI)|(C & _)]; [left|right; exact C]. split; [exact O'|]. intros j Hj.
      destruct (Nat.eq_dec j k) as [->|NE]; [|apply F; lia]. exists d. split; [|exact NI]. destruct O as (_ & _ & _ & _ & EL). rewrite EL in SD. rewrite first_la. cbn [pow] in SD.
      replace (2 ^ k * (2 * Rmax 1 lam0)) with (2 * 2 ^ k * Rmax 1 lam0) by ring. exact SD.
    + right. destruct (closed_trial (chol m) (slv m) n lb ub free Hf gf s (CE m) (SE m) b_sym ND FB W0 lam0 (ms_s o) L0 S0 P0 OUT x b c C) as [(s' & T)|(st' & o1 & a1 & T & C' & _)]; rewrite T in E; [discriminate|].
      injection E as <- <- <-. exact C'.
Qed.

Lemma bf_interval k act st out' act' : states k start true act = Some (st, out', act') ->
  (h_back st = false /\ h_lower st = lam0 /\ h_lam st = 2 ^ k * first /\
    forall j, (j < k)%nat -> exists d y, stationary m gf Hf (2 ^ j * first) d /\ trial_point lb ub free s d y /\ ~ within eps5 lb ub free y) \/
  (h_back st = true /\ lam0 <= h_lower st /\ h_lower st < h_lam st < (h_lower st + h_upper st) / 2 /\
    h_lam st = Rmax (sqrt (h_lower st * h_upper st)) (h_lower st + 1 / 10 ^ 13 * (h_upper st - h_lower st)) /\
    (exists d y, stationary m gf Hf (h_upper st) d /\ trial_point lb ub free s d y /\ within 0 lb ub free y /\ ~ touches lb ub free y) /\
    (h_lower st = lam0 \/ exists d y, stationary m gf Hf (h_lower st) d /\ trial_point lb ub free s d y /\ ~ within eps5 lb ub free y)).
Proof.
  clear ms. intros E. destruct b_start as (L0 & S0 & _ & P0 & _). specialize (P0 HH). pose proof b_out as OUT. pose proof (states_phase _ _ _ _ _ E) as PH.
  destruct ST as (ND & FB & W0 & WS & _). destruct PH as [((A1 & A2 & A3 & A4 & A5) & F)|C].
  - left. split; [exact A2|]. split; [exact A4|]. split; [rewrite A5, first_la; cbn [pow]; ring|]. intros j Hj. destruct (F j Hj) as (d & SD & NI).
    exists d, (after lb ub free s d). split; [exact SD|]. split; [apply after_point; exact ND|]. rewrite <- near_within. congruence.
  - right. pose proof (closed_order n lb ub free Hf gf s b_sym ND FB W0 lam0 (ms_s o) L0 S0 P0 OUT st out' act' C) as ((O1 & O2) & O3).
    destruct C as (_ & HB & _ & B & BU & EL & (du & SU & DU) & LO). split; [exact HB|]. split; [lra|]. split; [lra|].
    split; [rewrite EL, inner_eq by lra; unfold ms_theta; replace (1 / 10 ^ 13) with (/ 10 ^ 13) by (unfold Rdiv; ring); reflexivity|]. split.
    + exists du, (after lb ub free s du). split; [exact SU|]. split; [apply after_point; exact ND|]. pose proof eps_pos as EP.
      assert (AF : forall k0, (k0 < m)%nat -> after lb ub free s du (nth k0 free 0%nat) = s (nth k0 free 0%nat) + du k0).
      { intros k0 H0. destruct (after_point lb ub free s du ND k0 H0) as [(HE & _)|(_ & HE)]; [exfalso|exact HE].
        specialize (DU k0 H0). destruct DU as (D1 & D2). unfold held in HE. replace (1 / 10 ^ 5) with bc_eps in HE by (unfold bc_eps, Rdiv; ring).
        destruct HE as [(_ & X)|(_ & X)]; [destruct (lb (nth k0 free 0%nat))|destruct (ub (nth k0 free 0%nat))]; cbn in *; try tauto; lra. }
      split.
      * intros i II. destruct (In_nth free i 0%nat II) as (k0 & H0 & <-). rewrite (AF k0 H0). destruct (DU k0 H0) as (D1 & D2).
        destruct (lb (nth k0 free 0%nat)), (ub (nth k0 free 0%nat)); cbn in *; try tauto; lra.
      * intros (i & b & II & BD & AB). destruct (In_nth free i 0%nat II) as (k0 & H0 & <-). rewrite (AF k0 H0) in AB. destruct (DU k0 H0) as (D1 & D2).
        replace (1 / 10 ^ 5) with bc_eps in AB by (unfold bc_eps, Rdiv; ring). unfold Rabs in AB.
        destruct BD as [BD|BD]; rewrite BD in *; destruct (Rcase_abs _); lra.
    + destruct LO as [LO|(d & SD & NI)]; [left; exact LO|right]. exists d, (after lb ub free s d). split; [exact SD|]. split; [apply after_point; exact ND|].
      rewrite <- near_within. congruence.
Qed.

Lemma bf_next k act st out1 act1 st' out' act' : states k start true act = Some (st, out1, act1) -> states 1 st out1 act1 = Some (st', out', act') ->
  exists d y, stationary m gf Hf (h_lam st) d /\ trial_point lb ub free s d y /\ ~ (within eps5 lb ub free y /\ touches lb ub free y) /\
  ((h_back st = false /\ ~ within eps5 lb ub free y /\ h_back st' = false /\ h_lower st' = h_lower st /\ h_lam st' = 2 * h_lam st /\
      ((h_upper st < 2 * h_lam st /\ h_upper st' = 2 * h_lam st') \/ (2 * h_lam st <= h_upper st /\ h_upper st' = h_upper st))) \/
   ((h_back st = true \/ within eps5 lb ub free y) /\ h_back st' = true /\
      ((within 0 lb ub free y /\ h_lower st' = h_lower st /\ h_upper st' = h_lam st) \/
       (~ within eps5 lb ub free y /\ h_lower st' = h_lam st /\ h_upper st' = h_upper st)) /\
      h_lam st' = Rmax (sqrt (h_lower st' * h_upper st')) (h_lower st' + 1 / 10 ^ 13 * (h_upper st' - h_lower st')))).
Proof.
  intros E E1. assert (HF : h_hard st = false /\ lam0 < h_lam st).
  { destruct (states_phase _ _ _ _ _ E) as [((A & _) & _)|(A & _)]; (split; [exact A|]).
    all: destruct b_start as (L0 & _ & P0 & _ & I0); destruct (binv_states (chol m) (slv m) lb ub free Hf gf s (CE m) (SE m) b_sym lam0 L0 _ _ _ _ _ _ _ I0 E) as (_ & _ & X); exact X. }
  destruct HF as (HF & LL). destruct b_start as (L0 & S0 & P0 & _).
  assert (E2 : states (S k) start true act = Some (st', out', act')).
  { assert (SN : forall a st ot act, states (S a) st ot act = match states a st ot act with Some (x, b, c) => states 1 x b c | None => None end).
    { induction a as [|a IHa]; intros st0 ot act0; [reflexivity|]. cbn [bis_states]. destruct (bis_trial _ _ _ _ _ _ _ _ st0 ot act0); try reflexivity. exact (IHa _ _ _). }
    rewrite SN, E. exact E1. }
  destruct (bf_interval _ _ _ _ _ E2) as [(NB & _)|(NB & _ & _ & EL & _)].
  all: cbn [bis_states] in E1; destruct (bis_cases (chol m) (slv m) lb ub free Hf gf s (CE m) (SE m) b_sym st out1 act1) as [([X|X] & _)|(_ & _ & d & SD & F)];
    [congruence|exfalso; apply X; exact (pd_above m Hf lam0 _ P0 LL)|].
  all: destruct ST as (ND & _); exists d, (after lb ub free s d); (split; [exact SD|]); (split; [apply after_point; exact ND|]).
  all: unfold bfollows in F; cbv zeta in F; destruct F as [(_ & _ & F)|(NT & F)]; [rewrite F in E1; discriminate|].
  all: split; [rewrite <- near_within, <- touching_touches; intros (Z1 & Z2); rewrite Z1, Z2 in NT; discriminate|].
  all: destruct F as [(HB & NI & F)|(HB & F)]; rewrite F in E1; injection E1 as <- <- <-; cbn [h_back] in NB; try discriminate.
  - left. cbn [h_back h_lower h_lam h_upper]. rewrite <- near_within. split; [exact HB|]. split; [congruence|]. repeat split.
    destruct (Rltb_spec (h_upper st) (2 * h_lam st)); [left; split; [assumption|reflexivity]|right; split; [lra|reflexivity]].
  - right. cbn [h_back h_lower h_lam h_upper] in EL |- *. rewrite <- near_within. split; [exact HB|]. split; [reflexivity|]. split; [|exact EL].
    rewrite <- inside_within. destruct (inside_of lb ub free (after lb ub free s d)) eqn:IN; [left; repeat split|right].
    split; [|split; reflexivity]. intros NI. rewrite NI in NT. cbn in NT. pose proof (near_inside lb ub free s d NI NT). congruence.
Qed.

(** the number of trials *)
Lemma bf_succeeds c sg K J L : ms c m gf Hf Delta = Some o ->
  0 < sg -> (forall x, sg * dot m x x <= quad m Hf x + lam0 * dot m x x) ->
  norm m gf <= 2 ^ K / 10 ^ 5 -> 2 ^ S K * Rmax 1 lam0 * norm m (ms_s o) <= 10 ^ (13 * J) * sg / 10 ^ 5 ->
  norm m (ms_s o) <= 2 ^ L / 10 ^ 5 -> lam0 * norm m (ms_s o) <= 2 ^ L * sg / 10 ^ 5 -> (K + J + L + 7 <= 100)%nat ->
  exists s' t, bis_of ms n H lb ub chol slv c free s g sa Delta = HomBreak s' t /\ (t <= K + J + L + 7)%nat.
Proof.
  intros MSO SG0 SG HK HJ HL HL0 N. destruct b_start as (L0 & S0 & _ & P0 & _). specialize (P0 HH). pose proof b_out as OUT.
  unfold bis_of. rewrite MSO. pose proof (start_opened (existsb (fun i => u_act ub sa i || l_act lb sa i)%bool free)) as O.
  destruct ST as (ND & FB & W0 & WS & _).
  assert (EV : forall x, x / 10 ^ 5 = x * bc_eps) by (intros x; unfold bc_eps, Rdiv; ring).
  rewrite EV in HK, HJ, HL, HL0.
  destruct (opened_search (chol m) (slv m) n lb ub free Hf gf s (CE m) (SE m) b_sym ND FB W0 WS lam0 (ms_s o) L0 S0 P0 OUT sg SG0 SG K J L HK
    ltac:(lra) HL ltac:(lra) K 0 99 0 start true _ O ltac:(lia) ltac:(lia) ltac:(lia)) as (s' & t & S1 & S2).
  exists s', t. split; [exact S1|lia].
Qed.
End Fin.

Lemma bf_length ms chol slv n H lb ub g0 Delta0 eps o : (forall k, chol_exact k (chol k)) -> (forall k, slv_exact k (slv k)) -> symmetric n H ->
  ms_sound ms eps -> 0 <= eps -> 0 <= Delta0 -> in_bounds n lb ub vzero ->
  solve_bc0 ms n H lb ub g0 Delta0 chol slv = Some (Some o) -> norm n (bc_s o) <= (1 + eps) * Delta0 + sqrt (INR n) / 10 ^ 5.
Proof. intros CE SE SH MS E0 D0 W E. exact (b_length ms chol slv n H lb ub CE SE SH W g0 Delta0 eps MS E0 D0 o E). Qed.
