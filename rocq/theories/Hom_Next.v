(** The value of the multiplier after a trial, and the case of one free variable. *)
From Coq Require Import Reals Lra Psatz Lia List Arith Bool.
From Verif Require Import RVec RBool Tri ProjGrad_Spec MS_Model MS_Spec MS_Proofs MS_More BC_Model BC_Spec BC_Proofs BC_More Hom_Model Hom_Spec Hom_Proofs Hom_More Hom_Len.
Import ListNotations.
Open Scope R_scope.

Lemma keep_safeguarded l u new : 0 <= l <= u -> safeguarded l u new (hom_keep l u new).
Proof.
  intros L. unfold safeguarded, hom_keep, hom_inner, ms_theta. cbv zeta. replace (1 / 10 ^ 13) with (/ 10 ^ 13) by (unfold Rdiv; ring).
  destruct (Rltb_spec (l * u) 0); [nra|].
  destruct (Rltb_spec (l + / 10 ^ 13 * (u - l)) new); [|right; split; [lra|reflexivity]].
  destruct (Rleb_spec new (u - / 10 ^ 13 * (u - l))); [left; split; [lra|reflexivity]|right; split; [lra|reflexivity]].
Qed.

Lemma sign_opposed x y : negb (Reqb (rsign x) (rsign y)) = true <-> opposed x y.
Proof.
  rewrite negb_true_iff, Reqb_false. unfold opposed, rsign.
  destruct (Rltb_spec 0 x), (Rltb_spec 0 y), (Rltb_spec x 0), (Rltb_spec y 0); split; intros A; try lra; try (intros [|[|]]; lra);
    try (exfalso; apply A; first [left; lra|right; left; lra|right; right; split; lra]).
Qed.

(** the largest *)
Lemma arg_max_max f l : forall b x, In x (b :: l) -> f x <= f (arg_max f l b).
Proof.
  induction l as [|k l IH]; intros b x I; cbn [arg_max]; [destruct I as [->|[]]; lra|].
  pose proof (IH (if Rltb (f b) (f k) then k else b)) as Q.
  destruct (Rltb_spec (f b) (f k)) as [A|A]; destruct I as [<-|[<-|I]].
  - pose proof (Q k (or_introl eq_refl)). lra.
  - exact (Q k (or_introl eq_refl)).
  - exact (Q x (or_intror I)).
  - exact (Q b (or_introl eq_refl)).
  - pose proof (Q b (or_introl eq_refl)). lra.
  - exact (Q x (or_intror I)).
Qed.
Lemma argmax_spec f l : l <> [] -> In (argmax f l) l /\ forall x, In x l -> f x <= f (argmax f l).
Proof. destruct l as [|a l]; [contradiction|]. intros _. split; [exact (arg_max_in f l a)|exact (arg_max_max f l a)]. Qed.
Lemma argmin_spec f l : l <> [] -> In (argmin_in f l) l /\ forall x, In x l -> f (argmin_in f l) <= f x.
Proof.
  destruct l as [|a l]; [contradiction|]. intros _. split; [exact (arg_max_in _ l a)|]. intros x I.
  pose proof (arg_max_max (fun k => - f k) l a x I) as Q. cbv beta in Q. change (argmin_in f (a :: l)) with (arg_max (fun k => - f k) l a). lra.
Qed.

Section Next.
Variable chol : mat -> option mat.
Variable slv : mat -> vec -> option vec.
Variables (lb ub : nat -> xR) (free : list nat) (Hf : mat) (gf s : vec).
Notation m := (length free).
Notation trial := (hom_trial chol slv lb ub free Hf gf s).
Notation after := (after lb ub free s).
Notation cleared := (cleared lb ub free s).
Notation bl k := (lb (nth k free 0%nat)).
Notation bu k := (ub (nth k free 0%nat)).

Lemma out_u_spec y k : In k (out_u ub free y) <-> (k < m)%nat /\ over true (bl k) (bu k) (y (nth k free 0%nat)).
Proof.
  unfold out_u. rewrite filter_In, in_seq, negb_true_iff. fold (comp free k). unfold over, comp.
  rewrite <- (rlex_true (y (nth k free 0%nat)) (bu k)). destruct (rlex _ _); split; intros (A & B); (split; [lia|]); congruence || (intros X; discriminate) || (exfalso; apply B; reflexivity).
Qed.
Lemma out_l_spec y k : In k (out_l lb free y) <-> (k < m)%nat /\ over false (bl k) (bu k) (y (nth k free 0%nat)).
Proof.
  unfold out_l. rewrite filter_In, in_seq, negb_true_iff. fold (comp free k). unfold over, comp.
  rewrite <- (xler_true (y (nth k free 0%nat)) (bl k)). destruct (xler _ _); split; intros (A & B); (split; [lia|]); congruence || (intros X; discriminate) || (exfalso; apply B; reflexivity).
Qed.

Lemma gap_away y (isu : bool) k : (if isu then gap_u ub free y k else gap_l lb free y k) = away isu (bl k) (bu k) (y (nth k free 0%nat)).
Proof. unfold away, side. destruct isu; [reflexivity|]. unfold gap_l, comp. apply Rabs_minus_sym. Qed.

(** the component aimed at *)
Lemma target_out y iu il k isu : inside_of lb ub free y = false ->
  target lb ub free y (out_u ub free y) (out_l lb free y) iu il = (k, isu) ->
  (k < m)%nat /\ over isu (bl k) (bu k) (y (nth k free 0%nat)) /\
  forall k' isu', (k' < m)%nat -> over isu' (bl k') (bu k') (y (nth k' free 0%nat)) ->
    away isu' (bl k') (bu k') (y (nth k' free 0%nat)) <= away isu (bl k) (bu k) (y (nth k free 0%nat)).
Proof.
  intros IN T.
  assert (U : out_u ub free y <> [] -> let ku := argmax (gap_u ub free y) (out_u ub free y) in
    (ku < m)%nat /\ over true (bl ku) (bu ku) (y (nth ku free 0%nat)) /\
    forall k', (k' < m)%nat -> over true (bl k') (bu k') (y (nth k' free 0%nat)) -> gap_u ub free y k' <= gap_u ub free y ku).
  { intros NE ku. destruct (argmax_spec (gap_u ub free y) _ NE) as (A & B). fold ku in A, B. apply out_u_spec in A. destruct A as (A1 & A2).
    split; [exact A1|]. split; [exact A2|]. intros k' L O. apply B, out_u_spec. split; assumption. }
  assert (L : out_l lb free y <> [] -> let kl := argmax (gap_l lb free y) (out_l lb free y) in
    (kl < m)%nat /\ over false (bl kl) (bu kl) (y (nth kl free 0%nat)) /\
    forall k', (k' < m)%nat -> over false (bl k') (bu k') (y (nth k' free 0%nat)) -> gap_l lb free y k' <= gap_l lb free y kl).
  { intros NE kl. destruct (argmax_spec (gap_l lb free y) _ NE) as (A & B). fold kl in A, B. apply out_l_spec in A. destruct A as (A1 & A2).
    split; [exact A1|]. split; [exact A2|]. intros k' L O. apply B, out_l_spec. split; assumption. }
  assert (NU : out_u ub free y = [] -> forall k', (k' < m)%nat -> ~ over true (bl k') (bu k') (y (nth k' free 0%nat))).
  { intros E k' L' O. assert (X : In k' (out_u ub free y)) by (apply out_u_spec; split; assumption). rewrite E in X. exact X. }
  assert (NL : out_l lb free y = [] -> forall k', (k' < m)%nat -> ~ over false (bl k') (bu k') (y (nth k' free 0%nat))).
  { intros E k' L' O. assert (X : In k' (out_l lb free y)) by (apply out_l_spec; split; assumption). rewrite E in X. exact X. }
  unfold inside_of in IN. unfold target in T. cbv zeta in U, L.
  pose proof (gap_away y true) as GU. pose proof (gap_away y false) as GL. cbv beta iota in GU, GL.
  remember (argmax (gap_u ub free y) (out_u ub free y)) as ku eqn:KU. remember (argmax (gap_l lb free y) (out_l lb free y)) as kl eqn:KL.
  destruct (out_u ub free y) as [|a ou] eqn:EU; destruct (out_l lb free y) as [|b ol] eqn:EL; [discriminate| | |]; cbv zeta in T; try rewrite <- KU in T; try rewrite <- KL in T.
  - injection T as <- <-. destruct (L ltac:(discriminate)) as (A & B & Z). split; [exact A|]. split; [exact B|]. intros k' [|] L' O; [exfalso; exact (NU eq_refl k' L' O)|].
    rewrite <- !GL. apply Z; assumption.
  - injection T as <- <-. destruct (U ltac:(discriminate)) as (A & B & Z). split; [exact A|]. split; [exact B|]. intros k' [|] L' O; [|exfalso; exact (NL eq_refl k' L' O)].
    rewrite <- !GU. apply Z; assumption.
  - destruct (U ltac:(discriminate)) as (A & B & Z). destruct (L ltac:(discriminate)) as (A' & B' & Z').
    destruct (Rltb_spec (gap_l lb free y kl) (gap_u ub free y ku)) as [LT|GE]; injection T as <- <-.
    + split; [exact A|]. split; [exact B|]. intros k' [|] L' O; [rewrite <- !GU; apply Z; assumption|].
      rewrite <- GU, <- GL. pose proof (Z' k' L' O). lra.
    + split; [exact A'|]. split; [exact B'|]. intros k' [|] L' O; [|rewrite <- !GL; apply Z'; assumption].
      rewrite <- GU, <- GL. pose proof (Z k' L' O). lra.
Qed.

Lemma target_in y iu il k (isu : bool) : inside_of lb ub free y = true -> iu <> [] \/ il <> [] ->
  target lb ub free y (out_u ub free y) (out_l lb free y) iu il = (k, isu) ->
  In k (if isu then iu else il) /\
  forall k' (isu' : bool), In k' (if isu' then iu else il) ->
    away isu (bl k) (bu k) (y (nth k free 0%nat)) <= away isu' (bl k') (bu k') (y (nth k' free 0%nat)).
Proof.
  intros IN NE T. unfold inside_of in IN. destruct (out_u ub free y) as [|a ou]; [|discriminate]. destruct (out_l lb free y) as [|b ol]; [|discriminate].
  pose proof (gap_away y true) as GU. pose proof (gap_away y false) as GL. cbv beta iota in GU, GL.
  pose proof (argmin_spec (gap_u ub free y) iu) as U. pose proof (argmin_spec (gap_l lb free y) il) as L.
  unfold target in T. cbv zeta in T. remember (argmin_in (gap_u ub free y) iu) as ku eqn:KU. remember (argmin_in (gap_l lb free y) il) as kl eqn:KL. clear KU KL.
  destruct il as [|b ol].
  - destruct iu as [|a ou]; [destruct NE; contradiction|]. injection T as <- <-. destruct (U ltac:(discriminate)) as (A & B). split; [exact A|].
    intros k' [|] I; [rewrite <- !GU; apply B; exact I|destruct I].
  - destruct iu as [|a ou].
    + injection T as <- <-. destruct (L ltac:(discriminate)) as (A & B). split; [exact A|]. intros k' [|] I; [destruct I|rewrite <- !GL; apply B; exact I].
    + destruct (U ltac:(discriminate)) as (A & B). destruct (L ltac:(discriminate)) as (A' & B').
      destruct (Rltb_spec (gap_u ub free y ku) (gap_l lb free y kl)) as [LT|GE]; injection T as <- <-.
      * split; [exact A|]. intros k' [|] I; [rewrite <- !GU; apply B; exact I|]. rewrite <- GU, <- GL. pose proof (B' k' I). lra.
      * split; [exact A'|]. intros k' [|] I; [|rewrite <- !GL; apply B'; exact I]. rewrite <- GU, <- GL. pose proof (B k' I). lra.
Qed.

(** the lists of components that were outside once, after a trial *)
Definition uinit' (st : hst) (y : vec) : list nat :=
  match out_u ub free y, out_l lb free y with nil, nil => h_uinit st | _, _ => h_uinit st ++ out_u ub free y end.
Definition linit' (st : hst) (y : vec) : list nat :=
  match out_u ub free y, out_l lb free y with nil, nil => h_linit st | _, _ => h_linit st ++ out_l lb free y end.

Lemma target_cases st d b (isu : bool) : (h_uinit st <> [] \/ h_linit st <> []) -> (forall k, In k (h_uinit st) \/ In k (h_linit st) -> (k < m)%nat) ->
  target lb ub free (after d) (out_u ub free (after d)) (out_l lb free (after d)) (uinit' st (after d)) (linit' st (after d)) = (b, isu) ->
  (b < m)%nat /\
     (((exists k isu', (k < m)%nat /\ over isu' (bl k) (bu k) (after d (nth k free 0%nat))) /\ inside_of lb ub free (after d) = false /\
        over isu (bl b) (bu b) (after d (nth b free 0%nat)) /\
        (forall k isu', (k < m)%nat -> over isu' (bl k) (bu k) (after d (nth k free 0%nat)) ->
           away isu' (bl k) (bu k) (after d (nth k free 0%nat)) <= away isu (bl b) (bu b) (after d (nth b free 0%nat)))) \/
      ((forall k isu', (k < m)%nat -> ~ over isu' (bl k) (bu k) (after d (nth k free 0%nat))) /\ inside_of lb ub free (after d) = true /\
        In b (if isu then h_uinit st else h_linit st) /\
        (forall k (isu' : bool), In k (if isu' then h_uinit st else h_linit st) ->
           away isu (bl b) (bu b) (after d (nth b free 0%nat)) <= away isu' (bl k) (bu k) (after d (nth k free 0%nat))))).
Proof.
  intros NE IB TG.
  destruct (inside_of lb ub free (after d)) eqn:IN.
    - assert (EE : out_u ub free (after d) = [] /\ out_l lb free (after d) = []).
      { unfold inside_of in IN. destruct (out_u ub free (after d)), (out_l lb free (after d)); try discriminate. split; reflexivity. }
      destruct EE as (EU & EL).
      assert (IU : uinit' st (after d) = h_uinit st) by (unfold uinit'; rewrite EU, EL; reflexivity). assert (IL : linit' st (after d) = h_linit st) by (unfold linit'; rewrite EU, EL; reflexivity).
      rewrite IU, IL in TG. destruct (target_in (after d) _ _ b isu IN NE TG) as (A & B). split.
      + apply IB. destruct isu; [left|right]; exact A.
      + right. split; [|split; [reflexivity|split; [exact A|exact B]]]. intros k [|] Hk O.
        * assert (X : In k (out_u ub free (after d))) by (apply out_u_spec; split; assumption). rewrite EU in X. exact X.
        * assert (X : In k (out_l lb free (after d))) by (apply out_l_spec; split; assumption). rewrite EL in X. exact X.
    - destruct (target_out (after d) _ _ b isu IN TG) as (A & B & Z). split; [exact A|]. left.
      split; [exists b, isu; split; assumption|]. split; [reflexivity|]. split; [exact B|exact Z].
Qed.

Hypothesis CE : chol_exact m chol.
Hypothesis SE : slv_exact m slv.
Hypothesis SH : symmetric m Hf.

(** the vectors of Newton's iteration *)
Lemma newton_den lam U b dp w1 w2 : chol (shifted Hf lam) = Some U -> (b < m)%nat ->
  slv (tr U) (unitv b) = Some w1 -> slv (tr U) dp = Some w2 ->
  exists q, (forall i, (i < m)%nat -> mv m Hf q i + lam * q i = dp i) /\ dot m w1 w2 = q b.
Proof.
  intros CU Hb E1 E2. destruct (solve_system chol slv m Hf lam U (unitv b) CE SE SH CU) as (y1 & F1 & H1 & _).
  destruct (solve_system chol slv m Hf lam U dp CE SE SH CU) as (y2 & F2 & H2 & q & Q1 & Q2).
  rewrite E1 in F1. injection F1 as <-. rewrite E2 in F2. injection F2 as <-. exists q. split; [exact Q2|].
  rewrite <- (dot_unitv m b q Hb). rewrite dot_sym. transitivity (dot m (mv m U q) w1).
  - apply dot_ext; intros i Hi; [symmetry; apply Q1, Hi|reflexivity].
  - rewrite dot_mv_tr, dot_sym. apply dot_ext; intros i Hi; [apply H1, Hi|reflexivity].
Qed.

(** *** The value after a trial *)
Lemma trial_value st out act st' out' act' : 0 <= h_lower st <= h_lam st -> h_lam st <= h_upper st ->
  (h_uinit st <> [] \/ h_linit st <> []) -> (forall k, In k (h_uinit st) \/ In k (h_linit st) -> (k < m)%nat) ->
  trial st out act = TNext st' out' act' ->
  ((h_hard st = true \/ ~ shift_pd m Hf (h_lam st)) /\
     h_lower st' = h_lam st /\ h_upper st' = h_upper st /\ h_lam st' = (h_lam st + h_upper st) / 2 /\ h_hard st' = false /\ out' = out) \/
  (h_hard st = false /\ shift_pd m Hf (h_lam st) /\ h_hard st' = false /\
   exists d dp y q b isu,
     stationary m gf Hf (h_lam st) d /\
     (forall k, (k < m)%nat -> let i := nth k free 0%nat in
        (held (lb i) (ub i) (vadd s (expand free d) i) /\ dp k = 0 /\ y i = 0) \/
        (~ held (lb i) (ub i) (vadd s (expand free d) i) /\ dp k = d k /\ y i = vadd s (expand free d) i)) /\
     (forall i, (i < m)%nat -> mv m Hf q i + h_lam st * q i = dp i) /\ (b < m)%nat /\
     (((exists k isu', (k < m)%nat /\ over isu' (bl k) (bu k) (y (nth k free 0%nat))) /\ out' = true /\
        h_lower st' = h_lam st /\ over isu (bl b) (bu b) (y (nth b free 0%nat)) /\
        (forall k isu', (k < m)%nat -> over isu' (bl k) (bu k) (y (nth k free 0%nat)) ->
           away isu' (bl k) (bu k) (y (nth k free 0%nat)) <= away isu (bl b) (bu b) (y (nth b free 0%nat)))) \/
      ((forall k isu', (k < m)%nat -> ~ over isu' (bl k) (bu k) (y (nth k free 0%nat))) /\ out' = false /\
        h_lower st' = h_lower st /\ In b (if isu then h_uinit st else h_linit st) /\
        (forall k (isu' : bool), In k (if isu' then h_uinit st else h_linit st) ->
           away isu (bl b) (bu b) (y (nth b free 0%nat)) <= away isu' (bl k) (bu k) (y (nth k free 0%nat))))) /\
     let u := if out' then h_upper st else h_lam st in
     let gap := xval (side isu (bl b) (bu b)) - s (nth b free 0%nat) in
     let new := h_lam st + (Rabs (dp b) - Rabs gap) / Rabs gap * (Rabs (dp b) ^ 2 / (dp b * q b)) in
     (opposed (dp b) gap /\ h_upper st' = u /\ safeguarded (h_lower st') u ((h_lower st' + u) / 2) (h_lam st')) \/
     (~ opposed (dp b) gap /\ dp b * q b <> 0 /\
       h_upper st' = (if (negb (h_back st') && Rleb u new)%bool then 2 * new else u) /\
       safeguarded (h_lower st') (h_upper st') new (h_lam st')) \/
     (~ opposed (dp b) gap /\ dp b * q b = 0 /\ h_upper st' = u /\
       h_lam st' = Rmax (sqrt (h_lower st' * u)) (h_lower st' + 1 / 10 ^ 13 * (u - h_lower st')))).
Proof.
  intros L U NE IB. unfold hom_trial. destruct (chol (shifted Hf (h_lam st))) as [W|] eqn:CU.
  2:{ intros E. injection E as <- <- <-. left. split; [right; apply (chol_none m chol); assumption|]. cbn. repeat split; lra. }
  destruct (h_hard st) eqn:HH; [intros E; injection E as <- <- <-; left; split; [left; reflexivity|]; cbn; repeat split; lra|].
  pose proof (proj1 (CE _ (symmetric_shifted m Hf (h_lam st) SH)) W CU) as (UP & DN & SQ).
  assert (TT : triangle m (tr W)) by (apply triangle_tr; split; [right; exact UP|exact DN]).
  destruct (SE (tr W) gf TT) as (y0 & Ey & _). destruct (SE (fun i j => - W i j) y0 (neg_triangle m W UP DN)) as (d & Ed & _).
  rewrite Ey, Ed. fold (cleared d). fold (after d). cbv zeta.
  fold (near_in lb ub free s d). fold (touching lb ub free s d). fold (inside_of lb ub free (after d)).
  fold (uinit' st (after d)). fold (linit' st (after d)).
  destruct (target lb ub free (after d) (out_u ub free (after d)) (out_l lb free (after d)) (uinit' st (after d)) (linit' st (after d))) as [b isu] eqn:TG.
  destruct (near_in lb ub free s d && touching lb ub free s d)%bool; [discriminate|].
  intros E. right. split; [reflexivity|]. split; [eapply chol_pd; eassumption|].
  pose proof (target_cases st d b isu NE IB TG) as CASES.
  clear TG. destruct CASES as (Hb & CASES).
  destruct (SE (tr W) (unitv b) TT) as (w1 & E1 & _). destruct (SE (tr W) (cleared d) TT) as (w2 & E2 & _).
  destruct (newton_den (h_lam st) W b (cleared d) w1 w2 CU Hb E1 E2) as (q & Q1 & Q2).
  set (ins := inside_of lb ub free (after d)) in *. set (bk := (h_back st || near_in lb ub free s d)%bool) in *.
  set (l := if ins then h_lower st else h_lam st) in *. set (u := if ins then h_lam st else h_upper st) in *.
  assert (LU : 0 <= l <= u) by (unfold l, u; destruct ins; lra).
  rewrite E1, E2, Q2 in E. change (comp free b) with (nth b free 0%nat) in E.
  change (if isu then bu b else bl b) with (side isu (bl b) (bu b)) in E.
  change (if crit_zero lb ub (vadd s (expand free d)) (nth b free 0%nat) then 0 else d b) with (cleared d b) in E.
  set (gap := xval (side isu (bl b) (bu b)) - s (nth b free 0%nat)) in *.
  set (new := h_lam st + (Rabs (cleared d b) - Rabs gap) / Rabs gap * (Rabs (cleared d b) ^ 2 / (cleared d b * q b))) in *.
  assert (FIN : out' = negb ins /\ h_hard st' = false /\ h_lower st' = l /\
    ((opposed (cleared d b) gap /\ h_upper st' = u /\ safeguarded l u ((l + u) / 2) (h_lam st')) \/
     (~ opposed (cleared d b) gap /\ cleared d b * q b <> 0 /\
       h_upper st' = (if (negb (h_back st') && Rleb u new)%bool then 2 * new else u) /\ safeguarded l (h_upper st') new (h_lam st')) \/
     (~ opposed (cleared d b) gap /\ cleared d b * q b = 0 /\ h_upper st' = u /\
       h_lam st' = Rmax (sqrt (l * u)) (l + 1 / 10 ^ 13 * (u - l))))).
  { pose proof (sign_opposed (cleared d b) gap) as SO.
    destruct (negb (Reqb (rsign (cleared d b)) (rsign gap))).
    - injection E as <- <- <-. cbn. repeat split. left. split; [apply SO; reflexivity|]. split; [reflexivity|]. apply keep_safeguarded. exact LU.
    - assert (NO : ~ opposed (cleared d b) gap) by (intros X; apply SO in X; discriminate).
      destruct (Reqb_spec (cleared d b * q b) 0) as [Z|Z].
      + destruct (Rltb (Rabs gap) (Rabs (cleared d b)) && negb bk)%bool; [discriminate|].
        injection E as <- <- <-. cbn [h_hard h_lower h_upper h_lam]. repeat split. right. right. split; [exact NO|]. split; [exact Z|]. split; [reflexivity|].
        unfold hom_inner, ms_theta. replace (1 / 10 ^ 13) with (/ 10 ^ 13) by (unfold Rdiv; ring). destruct (Rltb_spec (l * u) 0); [nra|reflexivity].
      + injection E as <- <- <-. cbn [h_hard h_lower h_upper h_lam h_back]. repeat split. right. left. split; [exact NO|]. split; [exact Z|]. split; [reflexivity|].
        apply keep_safeguarded. destruct (negb bk && Rleb u new)%bool eqn:B; [|exact LU]. apply andb_true_iff in B. destruct B as (_ & B). rb. lra. }
  destruct FIN as (F1 & F2 & F3 & F4). split; [exact F2|].
  exists d, (cleared d), (after d), q, b, isu. split; [exact (chol_solution m chol slv Hf gf (h_lam st) W y0 d CE SE SH CU Ey Ed)|].
  split.
  { intros k Hk. set (i := nth k free 0%nat). pose proof (held_crit lb ub (vadd s (expand free d)) i) as HC.
    assert (MI : memb i free = true) by (apply memb_spec, nth_In, Hk). unfold cleared, after. fold i. rewrite MI. cbn [andb].
    destruct (crit_zero lb ub (vadd s (expand free d)) i) eqn:CZ; [left|right].
    - split; [apply HC; reflexivity|]. split; reflexivity.
    - split; [intros X; apply HC in X; discriminate|]. split; reflexivity. }
  split; [exact Q1|]. split; [exact Hb|]. rewrite F1, F3.
  assert (UE : (if negb ins then h_upper st else h_lam st) = u) by (unfold u; destruct ins; reflexivity). rewrite UE. fold gap. fold new. split; [|exact F4].
  unfold l in *. destruct CASES as [(C1 & C2 & C3 & C4)|(C1 & C2 & C3 & C4)]; rewrite C2; [left|right]; cbn [negb]; repeat split; assumption.
Qed.

(** the iteration breaks down only where the trial step does not depend on the multiplier *)
Lemma trial_never st out act : (h_uinit st <> [] \/ h_linit st <> []) -> (forall k, In k (h_uinit st) \/ In k (h_linit st) -> (k < m)%nat) ->
  trial st out act = TNever ->
  h_hard st = false /\ shift_pd m Hf (h_lam st) /\
  exists d q b isu, stationary m gf Hf (h_lam st) d /\ (forall i, (i < m)%nat -> mv m Hf q i + h_lam st * q i = cleared d i) /\ (b < m)%nat /\
    Rabs (xval (side isu (bl b) (bu b)) - s (nth b free 0%nat)) < Rabs (cleared d b) /\ q b = 0.
Proof.
  intros NE IB. unfold hom_trial. destruct (chol (shifted Hf (h_lam st))) as [W|] eqn:CU; [|discriminate].
  destruct (h_hard st) eqn:HH; [discriminate|].
  pose proof (proj1 (CE _ (symmetric_shifted m Hf (h_lam st) SH)) W CU) as (UP & DN & SQ).
  assert (TT : triangle m (tr W)) by (apply triangle_tr; split; [right; exact UP|exact DN]).
  destruct (SE (tr W) gf TT) as (y0 & Ey & _). destruct (SE (fun i j => - W i j) y0 (neg_triangle m W UP DN)) as (d & Ed & _).
  rewrite Ey, Ed. fold (cleared d). fold (after d). cbv zeta.
  fold (near_in lb ub free s d). fold (touching lb ub free s d).
  fold (uinit' st (after d)). fold (linit' st (after d)).
  destruct (target lb ub free (after d) (out_u ub free (after d)) (out_l lb free (after d)) (uinit' st (after d)) (linit' st (after d))) as [b isu] eqn:TG.
  destruct (near_in lb ub free s d && touching lb ub free s d)%bool; [discriminate|].
  intros E. split; [reflexivity|]. split; [eapply chol_pd; eassumption|].
  destruct (target_cases st d b isu NE IB TG) as (Hb & _). clear TG.
  destruct (SE (tr W) (unitv b) TT) as (w1 & E1 & _). destruct (SE (tr W) (cleared d) TT) as (w2 & E2 & _).
  destruct (newton_den (h_lam st) W b (cleared d) w1 w2 CU Hb E1 E2) as (q & Q1 & Q2).
  rewrite E1, E2, Q2 in E. change (comp free b) with (nth b free 0%nat) in E.
  change (if isu then bu b else bl b) with (side isu (bl b) (bu b)) in E.
  change (if crit_zero lb ub (vadd s (expand free d)) (nth b free 0%nat) then 0 else d b) with (cleared d b) in E.
  destruct (negb (Reqb _ _)); [discriminate|]. destruct (Reqb_spec (cleared d b * q b) 0) as [Z|Z]; [|discriminate].
  destruct (Rltb_spec (Rabs (xval (side isu (bl b) (bu b)) - s (nth b free 0%nat))) (Rabs (cleared d b))) as [LT|GE]; [|discriminate].
  exists d, q, b, isu. split; [exact (chol_solution m chol slv Hf gf (h_lam st) W y0 d CE SE SH CU Ey Ed)|].
  split; [exact Q1|]. split; [exact Hb|]. split; [exact LT|]. apply Rmult_integral in Z. destruct Z as [Z|Z]; [|exact Z].
  exfalso. rewrite Z, Rabs_R0 in LT. pose proof (Rabs_pos (xval (side isu (bl b) (bu b)) - s (nth b free 0%nat))). lra.
Qed.

Definition listed (st : hst) : Prop := (h_uinit st <> [] \/ h_linit st <> []) /\ forall k, In k (h_uinit st) \/ In k (h_linit st) -> (k < m)%nat.

Lemma listed_next st out act st' out' act' : listed st -> trial st out act = TNext st' out' act' -> listed st'.
Proof.
  intros (NE & IB) E.
  assert (X : (h_uinit st' = h_uinit st /\ h_linit st' = h_linit st) \/ exists y, h_uinit st' = uinit' st y /\ h_linit st' = linit' st y).
  { revert E. unfold hom_trial. destruct (chol _) as [U|]; [|intros E; injection E as <- <- <-; left; split; reflexivity].
    destruct (h_hard st); [intros E; injection E as <- <- <-; left; split; reflexivity|].
    destruct (slv (tr U) gf) as [y|]; [|discriminate]. destruct (slv _ y) as [d|]; [|discriminate].
    fold (cleared d). fold (after d). cbv zeta. fold (uinit' st (after d)). fold (linit' st (after d)).
    destruct (target _ _ _ _ _ _ _ _) as [k isu]. destruct (_ && _)%bool; [discriminate|].
    destruct (negb (Reqb _ _)); [intros E; injection E as <- <- <-; right; exists (after d); split; reflexivity|].
    destruct (slv (tr U) (unitv k)) as [w1|]; [|discriminate]. destruct (slv (tr U) (cleared d)) as [w2|]; [|discriminate].
    destruct (Reqb _ 0); [destruct (_ && _)%bool; [discriminate|]|]; intros E; injection E as <- <- <-; right; exists (after d); split; reflexivity. }
  unfold listed. destruct X as [(-> & ->)|(y & -> & ->)]; [split; assumption|].
  assert (IN1 : forall k, In k (uinit' st y) -> In k (h_uinit st) \/ In k (out_u ub free y)).
  { intros k. unfold uinit'. destruct (out_u ub free y), (out_l lb free y); rewrite ?in_app_iff; tauto. }
  assert (IN2 : forall k, In k (linit' st y) -> In k (h_linit st) \/ In k (out_l lb free y)).
  { intros k. unfold linit'. destruct (out_u ub free y), (out_l lb free y); rewrite ?in_app_iff; tauto. }
  split.
  - assert (A : forall l l' : list nat, l <> [] -> l ++ l' <> []) by (intros [|x l] l' N; [contradiction|discriminate]).
    unfold uinit', linit'. destruct (out_u ub free y), (out_l lb free y); [exact NE| | |]; destruct NE as [NE|NE]; [left|right|left|right|left|right]; apply A; exact NE.
  - intros k [I|I]; [apply IN1 in I|apply IN2 in I]; destruct I as [I|I]; try (apply IB; tauto).
    + apply out_u_spec in I. tauto.
    + apply out_l_spec in I. tauto.
Qed.
Lemma listed_states k : forall st out act st' out' act', listed st ->
  hom_states chol slv lb ub free Hf gf s k st out act = Some (st', out', act') -> listed st'.
Proof.
  induction k as [|k IH]; intros st out act st' out' act' I0 E; cbn [hom_states] in E; [injection E as <- <- <-; exact I0|].
  destruct (trial st out act) as [| | |st1 o1 a1] eqn:T; try discriminate. exact (IH _ _ _ _ _ _ (listed_next _ _ _ _ _ _ I0 T) E).
Qed.
Lemma listed_start n g H lam hard sa : existsb (out_by lb ub 0 sa) free = true -> listed (hom_start lb ub free s n g H lam hard sa).
Proof.
  intros O. rewrite inside_spec in O. apply negb_true_iff in O. unfold inside_of in O. unfold listed, hom_start. cbn [h_uinit h_linit]. split.
  - destruct (out_u ub free sa); [|left; discriminate]. destruct (out_l lb free sa); [discriminate|right; discriminate].
  - intros k [I|I]; [apply out_u_spec in I|apply out_l_spec in I]; tauto.
Qed.
End Next.

(** ** The answers of the solver of MS_Model *)
Lemma t_applies chol slv (eig : nat -> mat -> mat * vec) eps ms : 0 <= eps -> (forall k, chol_exact k (chol k)) -> (forall k, slv_exact k (slv k)) ->
  (forall j k g A D o, ms j k g A D = Some o ->
     solve_MS (chol k) (slv k) (fst (eig k A)) (snd (eig k A)) k g A D eps = Some o /\
     (ms_hard o = false \/ ((0 < k)%nat /\ eigen_exact k A (snd (eig k A)) (fst (eig k A)) /\ exists mu, hard_instance k g A (snd (eig k A)) mu D))) ->
  ms_sound ms eps.
Proof.
  intros E0 CE SE MS j k g A D o SA D0 E. destruct (MS j k g A D o E) as (SO & HC). clear E MS.
  assert (ZERO : ms_s o = vzero -> answer_sound k g A D eps o).
  { intros Z. split; [rewrite Z, (proj2 (norm_zero k vzero)) by (intros i Hi; reflexivity); nra|]. intros NZ. exfalso. apply NZ. rewrite Z. intros i Hi. reflexivity. }
  destruct (Req_EM_T D 0) as [DZ|DZ]; [apply ZERO; exact (proj1 (t_zero _ _ _ _ k g A D eps o (or_introl DZ) SO))|].
  destruct (Rlt_dec (norm k g ^ 2) (/ 10 ^ 12)) as [GZ|GZ]; [apply ZERO; exact (proj1 (t_zero _ _ _ _ k g A D eps o (or_intror GZ) SO))|].
  assert (DP : 0 < D) by lra. assert (GP : / 10 ^ 12 <= norm k g ^ 2) by lra.
  assert (NG : 0 < norm k g).
  { pose proof (norm_nonneg k g). destruct (Req_EM_T (norm k g) 0) as [Z|Z]; [|lra]. exfalso. rewrite Z in GP.
    assert (0 < / 10 ^ 12) by (apply Rinv_0_lt_compat, pow_lt; lra). replace (0 ^ 2) with 0 in GP by ring. lra. }
  destruct (ms_hard o) eqn:HH.
  - destruct HC as [HC|(K0 & EX & mu & HI)]; [discriminate|].
    assert (EV : forall q, (q < k)%nat -> 0 < norm k (fun i => fst (eig k A) i q)).
    { intros q Hq. apply Rlt_le_trans with 1; [lra|]. right. symmetry. unfold norm. transitivity (sqrt 1); [|apply sqrt_1].
      f_equal. pose proof (proj1 EX q q Hq Hq) as X. unfold idm in X. rewrite Nat.eqb_refl in X. exact X. }
    destruct (t_hard_norm _ _ _ _ k g A D eps o DP EV K0 SO HH) as (_ & [(V & NS & _)|(_ & Z)]); [|apply ZERO; exact Z].
    destruct (t_hard_true _ _ _ _ k g A D eps o mu DP K0 EX HI SO HH) as (L & P & _ & ST).
    split; [rewrite NS; nra|]. intros _. split; [rewrite L; pose proof (proj1 HI); lra|]. split; [exact (proj2 (ST V))|]. split; [exact P|]. split; [congruence|exact NG].
  - destruct (t_regular _ _ _ _ k g A D eps o (CE k) (SE k) SA DP GP SO HH) as (A0 & A1 & A2 & A3 & A4 & _).
    split; [lra|]. intros _. split; [exact A0|]. split; [exact A1|]. split; [apply shift_pd_psd; exact A2|]. split; [intros _; exact A2|exact NG].
Qed.
