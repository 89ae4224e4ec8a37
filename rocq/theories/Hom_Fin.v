(** The statements about the search for the multiplier in the form of the property file. *)
From Coq Require Import Reals Lra Psatz Lia List Arith Bool.
From Verif Require Import RVec RBool Tri ProjGrad_Spec MS_Model MS_Spec MS_Proofs MS_More BC_Model BC_Spec BC_Proofs BC_More Hom_Model Hom_Spec Hom_Proofs Hom_More Hom_Len Hom_Next Hom_Gap Hom_One.
Import ListNotations.
Open Scope R_scope.

Lemma beyond_out lb ub free x : (exists i, In i free /\ beyond (lb i) (ub i) (x i)) -> existsb (out_by lb ub 0 x) free = true.
Proof.
  intros (i & I & B). apply existsb_exists. exists i. split; [exact I|]. destruct (out_by lb ub 0 x i) eqn:Z; [reflexivity|].
  exfalso. apply B. apply out0. exact Z.
Qed.

Section Fin.
Variable ms : nat -> nat -> vec -> mat -> R -> option ms_out.
Variable chol : nat -> mat -> option mat.
Variable slv : nat -> mat -> vec -> option vec.
Variables (n : nat) (H : mat) (lb ub : nat -> xR) (free : list nat) (s g : vec) (Delta eps : R) (o : ms_out).
Hypothesis CE : forall k, chol_exact k (chol k).
Hypothesis SE : forall k, slv_exact k (slv k).
Hypothesis SH : symmetric n H.
Hypothesis ST : starts n H lb ub free s g Delta eps o.
Notation m := (length free).
Notation sa := (vadd s (expand free (ms_s o))).
Notation Hf := (sub_mat free H).
Notation gf := (sub_vec free g).
Notation start := (hom_start lb ub free s n g H (ms_lambda o) (ms_hard o) sa).
Notation states := (hom_states (chol m) (slv m) lb ub free Hf gf s).

Lemma f_found c s' j : ms c m gf Hf Delta = Some o -> search_of ms chol slv n H lb ub c free s g sa Delta = HomBreak s' j ->
  in_bounds n lb ub s' /\
  exists lam d, ms_lambda o <= lam /\ shift_pd m Hf lam /\ stationary m gf Hf lam d /\ norm m d <= norm m (ms_s o) /\
    qmodel m gf Hf d <= - (lam / 2 * dot m d d) /\
    placed lb ub free s d s' /\ exists i, In i free /\ (lb i = Fin (s' i) \/ ub i = Fin (s' i)).
Proof.
  destruct ST as (ND & FB & W0 & WS & AS & OUT & RM & CLR). intros MSO E.
  exact (t_found ms chol slv n H lb ub CE SE SH W0 free s g Delta eps c o sa s' j ND FB WS AS eq_refl (beyond_out _ _ _ _ OUT) RM MSO E).
Qed.

Lemma f_bracket k act st out' act' : states k start true act = Some (st, out', act') ->
  ms_lambda o <= h_lower st <= h_lam st /\ h_lam st <= h_upper st /\ (h_hard st = false -> shift_pd m Hf (h_lam st)).
Proof.
  destruct ST as (ND & FB & W0 & WS & AS & OUT & RM & CLR). intros E.
  exact (t_bracket_states (fun _ _ _ _ _ => Some o) chol slv n H lb ub CE SE SH free s g Delta eps 0 o sa k act st out' act' ND FB WS AS eq_refl (beyond_out _ _ _ _ OUT) RM eq_refl E).
Qed.

Lemma f_first : 0 <= ms_lambda o.
Proof.
  destruct ST as (ND & FB & W0 & WS & AS & OUT & RM & CLR).
  exact (proj1 (sound_start (fun _ _ _ _ _ => Some o) n H lb ub SH free s g Delta eps 0 o sa ND FB WS AS eq_refl (beyond_out _ _ _ _ OUT) RM eq_refl)).
Qed.
Lemma f_sym : symmetric m Hf.
Proof. destruct ST as (ND & FB & _). exact (sub_sym n H free SH FB). Qed.
Lemma f_listed k act st out' act' : states k start true act = Some (st, out', act') -> listed free st.
Proof.
  intros E. destruct ST as (ND & FB & W0 & WS & AS & OUT & RM & CLR). eapply listed_states; [|exact E]. apply listed_start. apply beyond_out. exact OUT.
Qed.

(** the next state *)
Lemma f_next k act st out1 act1 st' out' act' : states k start true act = Some (st, out1, act1) -> states 1 st out1 act1 = Some (st', out', act') ->
  ((h_hard st = true \/ ~ shift_pd m Hf (h_lam st)) /\
     h_lower st' = h_lam st /\ h_upper st' = h_upper st /\ h_lam st' = (h_lam st + h_upper st) / 2 /\ h_hard st' = false /\ out' = out1) \/
  (h_hard st = false /\ shift_pd m Hf (h_lam st) /\ h_hard st' = false /\
   exists d dp y q b isu,
     stationary m gf Hf (h_lam st) d /\
     (forall k, (k < m)%nat -> let i := nth k free 0%nat in
        (held (lb i) (ub i) (vadd s (expand free d) i) /\ dp k = 0 /\ y i = 0) \/
        (~ held (lb i) (ub i) (vadd s (expand free d) i) /\ dp k = d k /\ y i = vadd s (expand free d) i)) /\
     (forall i, (i < m)%nat -> mv m Hf q i + h_lam st * q i = dp i) /\ (b < m)%nat /\
     (((exists k isu', (k < m)%nat /\ over isu' (lb (nth k free 0%nat)) (ub (nth k free 0%nat)) (y (nth k free 0%nat))) /\ out' = true /\
        h_lower st' = h_lam st /\ over isu (lb (nth b free 0%nat)) (ub (nth b free 0%nat)) (y (nth b free 0%nat)) /\
        (forall k isu', (k < m)%nat -> over isu' (lb (nth k free 0%nat)) (ub (nth k free 0%nat)) (y (nth k free 0%nat)) ->
           away isu' (lb (nth k free 0%nat)) (ub (nth k free 0%nat)) (y (nth k free 0%nat)) <= away isu (lb (nth b free 0%nat)) (ub (nth b free 0%nat)) (y (nth b free 0%nat)))) \/
      ((forall k isu', (k < m)%nat -> ~ over isu' (lb (nth k free 0%nat)) (ub (nth k free 0%nat)) (y (nth k free 0%nat))) /\ out' = false /\
        h_lower st' = h_lower st /\ In b (if isu then h_uinit st else h_linit st) /\
        (forall k (isu' : bool), In k (if isu' then h_uinit st else h_linit st) ->
           away isu (lb (nth b free 0%nat)) (ub (nth b free 0%nat)) (y (nth b free 0%nat)) <= away isu' (lb (nth k free 0%nat)) (ub (nth k free 0%nat)) (y (nth k free 0%nat))))) /\
     let u := if out' then h_upper st else h_lam st in
     let gap := xval (side isu (lb (nth b free 0%nat)) (ub (nth b free 0%nat))) - s (nth b free 0%nat) in
     let new := h_lam st + (Rabs (dp b) - Rabs gap) / Rabs gap * (Rabs (dp b) ^ 2 / (dp b * q b)) in
     gap <> 0 /\
     ((opposed (dp b) gap /\ h_upper st' = u /\ safeguarded (h_lower st') u ((h_lower st' + u) / 2) (h_lam st')) \/
     (~ opposed (dp b) gap /\ dp b * q b <> 0 /\
       (((h_back st' = true \/ new < u) /\ h_upper st' = u) \/ (h_back st' = false /\ u <= new /\ h_upper st' = 2 * new)) /\
       safeguarded (h_lower st') (h_upper st') new (h_lam st')) \/
     (~ opposed (dp b) gap /\ dp b * q b = 0 /\ h_upper st' = u /\
       h_lam st' = Rmax (sqrt (h_lower st' * u)) (h_lower st' + 1 / 10 ^ 13 * (u - h_lower st'))))).
Proof.
  intros E E1. pose proof f_first as L0. destruct (f_bracket _ _ _ _ _ E) as (B1 & B2 & _). destruct (f_listed _ _ _ _ _ E) as (I1 & I2).
  cbn [hom_states] in E1. destruct (hom_trial _ _ _ _ _ _ _ _ st out1 act1) as [| | |st1 o1 a1] eqn:T; try discriminate. injection E1 as -> -> ->.
  destruct (trial_value (chol m) (slv m) lb ub free Hf gf s (CE m) (SE m) f_sym st out1 act1 st' out' act' ltac:(lra) B2 I1 I2 T)
    as [X|(X1 & X2 & X3 & d & dp & y & q & b & isu & Y1 & Y2 & Y3 & Y4 & Y5 & Y6)]; [left; exact X|right].
  split; [exact X1|]. split; [exact X2|]. split; [exact X3|]. exists d, dp, y, q, b, isu.
  split; [exact Y1|]. split; [exact Y2|]. split; [exact Y3|]. split; [exact Y4|]. split; [exact Y5|].
  assert (AP : apart lb ub free s isu b).
  { destruct ST as (ND & FB & W0 & WS & AS & OUT & RM & CLR).
    destruct Y5 as [(_ & _ & _ & OV & _)|(_ & _ & _ & IB & _)].
    - apply (over_apart (chol m) (slv m) n lb ub free Hf gf s FB W0 CLR d isu b Y4). destruct (Y2 b Y4) as [(HD & _ & YE)|(HD & _ & YE)]; rewrite YE in OV; unfold after.
      + apply held_crit in HD. rewrite HD, (proj2 (memb_spec _ free) (nth_In free 0%nat Y4)). exact OV.
      + assert (CZ : crit_zero lb ub (vadd s (expand free d)) (nth b free 0%nat) = false) by (destruct (crit_zero _ _ _ _) eqn:CZ; [exfalso; apply HD, held_crit, CZ|reflexivity]).
        rewrite CZ, andb_false_r. exact OV.
    - refine (aparts_states (chol m) (slv m) n lb ub free Hf gf s FB W0 CLR k _ _ _ _ _ _ _ E b isu IB). exact (aparts_start (chol m) (slv m) n lb ub free Hf gf s FB W0 _ _ _ _ _ RM). }
  destruct AP as (v & SV & NV). clear Y5. cbv zeta in Y6 |- *. split; [rewrite SV; cbn [xval]; lra|].
  destruct Y6 as [Y|[(Z1 & Z2 & Z3 & Z4)|Y]]; [left; exact Y|right; left|right; right; exact Y].
  split; [exact Z1|]. split; [exact Z2|]. split; [|exact Z4]. destruct (h_back st'); cbn [negb andb] in Z3; [left; split; [left; reflexivity|exact Z3]|].
  match type of Z3 with context [Rleb ?a ?b] => destruct (Rleb_spec a b) as [W|W] end; [right; split; [reflexivity|]; split; [exact W|exact Z3]|left; split; [right; lra|exact Z3]].
Qed.

(** the search breaks down only if the derivative of Newton's equation vanishes *)
Lemma f_never k act st out1 act1 : states k start true act = Some (st, out1, act1) ->
  hom_trial (chol m) (slv m) lb ub free Hf gf s st out1 act1 = TNever ->
  h_hard st = false /\ exists d dp q b isu, stationary m gf Hf (h_lam st) d /\ (forall k, (k < m)%nat -> dp k = d k \/ dp k = 0) /\
    (forall i, (i < m)%nat -> mv m Hf q i + h_lam st * q i = dp i) /\ (b < m)%nat /\
    Rabs (xval (side isu (lb (nth b free 0%nat)) (ub (nth b free 0%nat))) - s (nth b free 0%nat)) < Rabs (dp b) /\ q b = 0.
Proof.
  intros E T. destruct (f_listed _ _ _ _ _ E) as (I1 & I2).
  destruct (trial_never (chol m) (slv m) lb ub free Hf gf s (CE m) (SE m) f_sym st out1 act1 I1 I2 T) as (A & _ & d & q & b & isu & B1 & B2 & B3 & B4 & B5).
  split; [exact A|]. exists d, (cleared lb ub free s d), q, b, isu. split; [exact B1|]. split; [|repeat split; assumption].
  intros j Hj. unfold cleared. destruct (crit_zero _ _ _ _); [right; reflexivity|left; reflexivity].
Qed.

(** no exception *)
Lemma f_total c : ms c m gf Hf Delta = Some o -> search_of ms chol slv n H lb ub c free s g sa Delta <> HomRaise.
Proof. intros E. unfold search_of. rewrite E. apply search_total; [apply CE|apply SE|apply f_sym]. Qed.
End Fin.

Lemma f_length ms chol slv n H lb ub g0 Delta0 eps o : (forall k, chol_exact k (chol k)) -> (forall k, slv_exact k (slv k)) -> symmetric n H ->
  ms_sound ms eps -> 0 <= eps -> 0 <= Delta0 -> in_bounds n lb ub vzero ->
  solve_bcx ms chol slv n H lb ub g0 Delta0 = Some (Some o) -> norm n (bc_s o) <= (1 + eps) * Delta0 + sqrt (INR n) / 10 ^ 5.
Proof. intros CE SE SH MS E0 D0 W E. exact (t_length ms chol slv n H lb ub CE SE SH W g0 Delta0 eps MS E0 D0 o E). Qed.
