(** Proofs about the constrained trust-region step. *)
From Coq Require Import Reals List Arith Lia Lra Bool.
From Verif Require Import RVec RBool Tri ProjGrad_Spec TR_Model TR_Spec.
Import ListNotations.
Open Scope R_scope.

Lemma xsub_l l z r : xle_r (xsub l z) r <-> xle_r l (z + r).
Proof. destruct l; cbn; intuition lra. Qed.
Lemma xsub_u u z r : rle_x r (xsub u z) <-> rle_x (z + r) u.
Proof. destruct u; cbn; intuition lra. Qed.


Definition xleq (a b : xR) : Prop := match a, b with NInf, _ => True | _, PInf => True | Fin p, Fin q => p <= q | _, _ => False end.
Lemma xleq_trans a b e : xleq a b -> xleq b e -> xleq a e.
Proof. destruct a, b, e; cbn; try tauto. lra. Qed.
Lemma xmin_l a b : xleq (xmin a b) a.
Proof. destruct a, b; cbn; try tauto; try lra. apply Rmin_l. Qed.
Lemma xmin_r a b : xleq (xmin a b) b.
Proof. destruct a, b; cbn; try tauto; try lra. apply Rmin_r. Qed.
Lemma fold_min l e : In e l -> xleq (fold_right xmin PInf l) e.
Proof.
  induction l as [|b l IH]; [contradiction|]. cbn [fold_right]. intros [->|I]; [apply xmin_l|].
  eapply xleq_trans; [apply xmin_r|auto].
Qed.
Lemma fold_ge l a : (forall e, In e l -> rle_x a e) -> rle_x a (fold_right xmin PInf l).
Proof.
  induction l as [|b l IH]; intros A; [exact Logic.I|]. cbn [fold_right].
  specialize (IH (fun e I => A e (or_intror I))). specialize (A b (or_introl eq_refl)).
  destruct b, (fold_right xmin PInf l); cbn in *; try tauto. apply Rmin_glb; assumption.
Qed.

Lemma e15 : 0 < / 10 ^ 15. Proof. apply Rinv_0_lt_compat, pow_lt. lra. Qed.

Lemma div_cases d : (d <= divisor d) /\ (divisor d <= 0 -> d <= 0) /\ (/ 10 ^ 15 <= d -> divisor d = d).
Proof.
  pose proof e15. unfold divisor, small. destruct (Rltb_spec d (/ 10 ^ 15)), (Rltb_spec (- / 10 ^ 15) d); cbn [andb]; repeat split; try lra.
Qed.

Lemma div_le a b d : 0 < d -> a <= b / d -> a * d <= b.
Proof. intros D A. apply (Rmult_le_compat_r d) in A; [|lra]. unfold Rdiv in A. rewrite Rmult_assoc, Rinv_l in A; lra. Qed.

Section B.
Variables (n nsl : nat) (lb ub : nat -> xR).
Notation dim := (dim n nsl).
Notation minratio := (minratio n nsl lb ub).
Lemma in_ratios y t i e : (i < dim)%nat ->
  (0 < divisor (t i) /\ e = xdiv (xsub (ub i) (y i)) (divisor (t i))) \/
  (0 < divisor (- t i) /\ e = xdiv (xsub (xopp (lb i)) (- y i)) (divisor (- t i))) -> In e (ratios n nsl lb ub y t).
Proof.
  intros Hi E. unfold ratios. apply in_flat_map. exists i. split; [apply in_seq; lia|]. apply in_or_app.
  destruct E as [[P ->]|[P ->]]; [left|right]; rewrite (proj2 (Rltb_true _ _) P); now left.
Qed.

Lemma ratio_nonneg y t : in_bounds dim lb ub y -> rle_x 0 (minratio y t).
Proof.
  intros Y. unfold TR_Model.minratio. apply fold_ge. intros e I. unfold ratios in I. apply in_flat_map in I. destruct I as (i & Hi & I).
  apply in_seq in Hi. destruct (Y i ltac:(lia)) as [YL YU]. apply in_app_or in I. destruct I as [I|I].
  - destruct (Rltb_spec 0 (divisor (t i))); [|contradiction]. destruct I as [<-|[]].
    destruct (ub i); cbn in *; try tauto. apply Rmult_le_pos; [lra|apply Rlt_le, Rinv_0_lt_compat; lra].
  - destruct (Rltb_spec 0 (divisor (- t i))); [|contradiction]. destruct I as [<-|[]].
    destruct (lb i); cbn in *; try tauto. apply Rmult_le_pos; [lra|apply Rlt_le, Rinv_0_lt_compat; lra].
Qed.

Lemma ratio_in y t a : in_bounds dim lb ub y -> minratio y t = Fin a -> 0 <= a /\ in_bounds dim lb ub (vadd y (vscal a t)).
Proof.
  intros Y E. pose proof (ratio_nonneg y t Y) as A. rewrite E in A. cbn in A. split; [exact A|].
  intros i Hi. destruct (Y i Hi) as [YL YU]. unfold vadd, vscal.
  pose proof (fun e I => fold_min _ e (in_ratios y t i e Hi I)) as MIN. unfold TR_Model.minratio in E. rewrite E in MIN.
  split.
  - destruct (lb i) as [l| |] eqn:EL; cbn in *; [|tauto|exact Logic.I].
    destruct (div_cases (- t i)) as (D1 & D2 & D3). destruct (Rle_lt_dec (divisor (- t i)) 0) as [P|P]; [specialize (D2 P); nra|].
    specialize (MIN _ (or_intror (conj P eq_refl))). cbn in MIN. apply div_le in MIN; [|exact P]. nra.
  - destruct (ub i) as [u| |] eqn:EU; cbn in *; [|exact Logic.I|tauto].
    destruct (div_cases (t i)) as (D1 & D2 & D3). destruct (Rle_lt_dec (divisor (t i)) 0) as [P|P]; [specialize (D2 P); nra|].
    specialize (MIN _ (or_introl (conj P eq_refl))). cbn in MIN. apply div_le in MIN; [|exact P]. nra.
Qed.

End B.

Section P.
Variable restore : nat -> vec -> mat -> (nat -> xR) -> (nat -> xR) -> R -> option (vec * rmsg).
Variable cvx : mat -> mat.
Variable null : list vec -> option (nat * mat).
Variable cg : nat -> mat -> vec -> R -> option (vec * bool).
Variable mult : nat -> vec -> option vec.
Variables (n nsl : nat) (lb ub : nat -> xR) (thr : R).
Variables (M0 : mat) (ce : list R) (sl : vec).
Notation me := (me ce).
Notation dim := (dim n nsl).
Notation restoration := (restoration restore cvx n nsl lb ub sl).
Notation tangent := (tangent null cg n nsl M0).
Notation scan := (scan lb ub thr).
Notation choose := (choose mult n ce).
Notation shorten := (shorten n nsl lb ub M0 ce sl).
Notation tr_loop := (tr_loop restore cvx null cg mult n nsl lb ub thr M0 ce sl).
Notation minratio := (minratio n nsl lb ub).
Notation slpart := (slpart n).
Notation join := (join n).

Definition restored (s : st) (r : vec) : vec := join (vadd (s_x s) r) (vadd sl (slpart r)).

(** what [shorten] does *)
Lemma shorten_spec k s r t sln : match shorten k s r t sln with
  | None => minratio (restored s r) t = PInf
  | Some s' => exists rho, 0 <= rho /\ (match minratio (restored s r) t with Fin a => rho = Rmax a 0 | NInf => rho = 0 | PInf => False end) /\
      s_x s' = vadd (vadd (s_x s) r) (vscal rho t) /\ s_con s' = s_con s /\
      s_del s' = s_del s - / 2 * norm n (vadd r (vscal rho t)) /\ s_moves s' = s_moves s ++ [vadd r (vscal rho t)] /\
      length (s_gcon s') = length (s_gcon s) /\ s_lm s' = s_lm s /\
      s_slnew s' = (if (k =? 1)%nat then vadd (vadd sl (slpart r)) (slpart (vscal rho t)) else vadd sln (slpart (vscal rho t)))
  end.
Proof.
  unfold TR_Model.shorten. fold (restored s r). destruct (minratio (restored s r) t) as [a| |]; [|reflexivity|].
  - exists (if Rltb a 0 then 0 else a). destruct (Rltb_spec a 0); (split; [lra|]); cbn [s_x s_con s_del s_moves s_gcon s_lm s_slnew].
    all: split; [rewrite ?Rmax_right, ?Rmax_left by lra; reflexivity|].
    all: repeat (split; [reflexivity|]). all: split; [|split; reflexivity].
    all: rewrite map_length, combine_length, seq_length, Nat.min_id; reflexivity.
  - exists 0. split; [lra|]. cbn [s_x s_con s_del s_moves s_gcon s_lm s_slnew]. repeat (split; [reflexivity|]). split; [|split; reflexivity].
    rewrite map_length, combine_length, seq_length, Nat.min_id; reflexivity.
Qed.

(** facts common to a pass that ends and a pass that goes on *)
Definition begun (k : nat) (s : st) (r t : vec) (rp : R) (actr actt : bool) (v : option nat) (xa : list nat) : Prop :=
  restoration k s = Some (r, rp, actr) /\ tangent s r = Some (t, actt) /\ scan n 0 (vadd (vadd (s_x s) r) t) = (v, xa).

Definition shortened (s : st) (r t : vec) (x' : vec) (d' : R) (mv' : list vec) : Prop :=
  exists rho, 0 <= rho /\ (match minratio (restored s r) t with Fin a => rho = Rmax a 0 | NInf => rho = 0 | PInf => False end) /\
    x' = vadd (vadd (s_x s) r) (vscal rho t) /\ d' = s_del s - / 2 * norm n (vadd r (vscal rho t)) /\
    mv' = s_moves s ++ [vadd r (vscal rho t)].

Definition goes (k : nat) (s s' : st) : Prop := exists r t rp actr actt v xa,
  begun k s r t rp actr actt v xa /\
  ((me <= length (s_con s))%nat -> (me <= length (s_con s'))%nat) /\
  (norm n (vadd r t) <= / 10 ^ 16 -> (k < 10 * n)%nat) /\
  (/ 10 ^ 16 < norm n (vadd r t) -> length (s_con s') = S (length (s_con s))) /\
  match v with
  | None => norm n (vadd r t) <= / 10 ^ 16 /\ s_x s' = s_x s /\ s_del s' = s_del s /\ s_moves s' = s_moves s
  | Some _ => shortened s r t (s_x s') (s_del s') (s_moves s')
  end.

Definition ends (k : nat) (s : st) (res : tr_res) : Prop := match res with
  | TrFuel => False
  | TrRaise => (exists g A l u D, restore dim g A l u D = None) \/ (exists rows, null rows = None) \/
               (exists j A b D, cg j A b D = None) \/ (exists x, mult k x = None)
  | TrInfinite => exists r t rp actr actt i xa, begun k s r t rp actr actt (Some i) xa /\ minratio (restored s r) t = PInf
  | TrOut o => exists r t rp actr actt v xa, begun k s r t rp actr actt v xa /\
      tr_x o = vadd (vadd (s_x s) r) t /\ tr_passes o = k /\ tr_moves o = s_moves s ++ [vadd r t] /\
      match tr_end o with
      | TrFeasible => v = None /\ / 10 ^ 16 < norm n (vadd r t)
      | TrLimit => norm n (vadd r t) <= / 10 ^ 16 /\ ((10 * n <= k)%nat \/ s_del s < / 10 ^ 8)
      | _ => norm n (vadd r t) <= / 10 ^ 16
      end /\
      (tr_delta o = s_del s \/ (exists i x' mv', v = Some i /\ shortened s r t x' (tr_delta o) mv'))
  end.

Lemma choose_spec k s xnew step viol xa : match choose k s xnew step viol xa with
  | ChRaise => mult k xnew = None
  | ChLimit => norm n step <= / 10 ^ 16 /\ ((10 * n <= k)%nat \/ s_del s < / 10 ^ 8)
  | ChDone how lm f c gc => match how with
      | TrFeasible => viol = false /\ / 10 ^ 16 < norm n step
      | TrLimit => False
      | _ => norm n step <= / 10 ^ 16 end
  | ChGo lm f c gc => (norm n step <= / 10 ^ 16 /\ (k < 10 * n)%nat /\ (length c = Nat.min me (length (s_con s)) + length xa)%nat) \/
      (/ 10 ^ 16 < norm n step /\ viol = true /\ c = s_con s /\ gc = s_gcon s /\ lm = s_lm s /\ f = s_fix s)
  end.
Proof.
  unfold TR_Model.choose. destruct (Rleb_spec (norm n step) (/ 10 ^ 16)) as [Z|Z].
  - destruct (Nat.leb_spec (10 * n) k) as [K|K]; cbn [orb]; [auto|].
    destruct (Rltb_spec (s_del s) (/ 10 ^ 8)) as [D|D]; [auto|].
    destruct (s_fix s) as [|a b] eqn:F; [exact Z|]. rewrite <- F. clear F.
    destruct (mult k xnew) as [lm|]; [|reflexivity].
    destruct (argmin _) as [m j]. destruct (Rltb m 0); [|exact Z].
    destruct (same_set xa (s_fix s)); [exact Z|]. left. cbn [fst snd]. rewrite app_length, firstn_length, map_length. auto.
  - destruct viol; [right|]; repeat split; try lra. 
Qed.

Lemma pass k s : (exists res, (forall f, tr_loop (S f) k s = res) /\ ends k s res) \/
  (exists s', (forall f, tr_loop (S f) k s = tr_loop f (S k) s') /\ goes k s s').
Proof.
  cbn [TR_Model.tr_loop].
  destruct (restoration k s) as [[[r rp] actr]|] eqn:ER.
  2:{ left. exists TrRaise. split; [reflexivity|]. left. unfold TR_Model.restoration in ER.
      destruct (_ && _); [|discriminate]. destruct (restore _ _ _ _ _ _) as [[? ?]|] eqn:E; [discriminate|]. eauto 10. }
  destruct (tangent s r) as [[t actt]|] eqn:ET.
  2:{ left. exists TrRaise. split; [reflexivity|]. right. unfold TR_Model.tangent in ET.
      destruct (_ <? _)%nat; [|discriminate]. destruct (null _) as [[kk Z]|] eqn:E; [|eauto].
      destruct (cg _ _ _ _) as [[u a]|] eqn:E2; [discriminate|]. right. left. eauto. }
  destruct (scan n 0 (vadd (vadd (s_x s) r) t)) as [v xa] eqn:ES.
  set (sln := clip n lb ub _ _).
  assert (B : begun k s r t rp actr actt v xa) by (repeat split; assumption).
  destruct v as [i|].
  - set (s1 := mkst _ _ _ _ _ _ _ _ _ _).
    pose proof (choose_spec k s1 (vadd (vadd (s_x s) r) t) (vadd r t) true xa) as C.
    destruct (choose k s1 _ (vadd r t) true xa) as [| |how lm f c gc|lm f c gc].
    + left. eexists. split; [reflexivity|]. right. right. right. eauto.
    + left. eexists. split; [reflexivity|]. exists r, t, rp, actr, actt, (Some i), xa. cbn. repeat split; try apply B; try apply C. now left.
    + pose proof (shorten_spec k (mkst (s_x s1) c gc f (s_g s1) (s_del s1) (s_slnew s1) lm rp (s_moves s1)) r t sln) as SH.
      destruct (shorten k _ r t sln) as [s3|].
      * left. eexists. split; [reflexivity|]. destruct SH as (rho & R0 & R1 & R2 & R3 & R4 & R5 & R6 & R7 & R8).
        exists r, t, rp, actr, actt, (Some i), xa. cbn. repeat split; try apply B.
        -- destruct how; try exact C; [contradiction|destruct C; discriminate].
        -- right. exists i, (s_x s3), (s_moves s3). split; [reflexivity|]. exists rho. cbn in *. repeat split; assumption.
      * left. eexists. split; [reflexivity|]. exists r, t, rp, actr, actt, i, xa. split; [exact B|exact SH].
    + pose proof (shorten_spec k (mkst (s_x s1) c gc f (s_g s1) (s_del s1) (s_slnew s1) lm rp (s_moves s1)) r t sln) as SH.
      destruct (shorten k _ r t sln) as [s3|].
      * right. exists s3. split; [reflexivity|]. destruct SH as (rho & R0 & R1 & R2 & R3 & R4 & R5 & R6 & R7 & R8).
        exists r, t, rp, actr, actt, (Some i), xa. cbn in R3. rewrite R3. 
        split; [exact B|]. split; [|split; [|split]].
        -- intros L. destruct C as [(_ & _ & C)|(_ & _ & -> & _)]; [rewrite C; unfold s1; cbn; rewrite app_length; cbn; lia|unfold s1; cbn; rewrite app_length; cbn; lia].
        -- intros Z. destruct C as [(_ & C & _)|(C & _)]; [exact C|lra].
        -- intros Z. destruct C as [(C & _)|(_ & _ & -> & _)]; [lra|]. unfold s1; cbn; rewrite app_length; cbn; lia.
        -- exists rho. cbn in *. repeat split; assumption.
      * left. eexists. split; [reflexivity|]. exists r, t, rp, actr, actt, i, xa. split; [exact B|exact SH].
  - set (s1 := mkst _ _ _ _ _ _ _ _ _ _).
    pose proof (choose_spec k s1 (vadd (vadd (s_x s) r) t) (vadd r t) false xa) as C.
    destruct (choose k s1 _ (vadd r t) false xa) as [| |how lm f c gc|lm f c gc].
    + left. eexists. split; [reflexivity|]. right. right. right. eauto.
    + left. eexists. split; [reflexivity|]. exists r, t, rp, actr, actt, None, xa. cbn. repeat split; try apply B; try apply C. now left.
    + left. eexists. split; [reflexivity|]. exists r, t, rp, actr, actt, None, xa. cbn. repeat split; try apply B; try apply C; [|now left].
      destruct how; try exact C; [contradiction|split; [reflexivity|apply C]].
    + right. eexists. split; [reflexivity|]. exists r, t, rp, actr, actt, None, xa. cbn.
      destruct C as [(C1 & C2 & C3)|(_ & C & _)]; [|discriminate].
      split; [exact B|]. split; [|split; [|split]]; auto.
      * intros L. unfold s1 in C3; cbn in C3; lia.
      * lra.
Qed.

Lemma small16 : 0 < / 10 ^ 16. Proof. apply Rinv_0_lt_compat, pow_lt. lra. Qed.

(** *** end after a bounded number of passes *)
Lemma rest_later k s : (1 < k)%nat -> restoration k s = Some (vzero, s_rpred s, false).
Proof. intros K. unfold TR_Model.restoration. destruct (Nat.eqb_spec k 1); [lia|reflexivity]. Qed.
Lemma tan_full s r : (dim <= length (s_con s))%nat -> tangent s r = Some (vzero, false).
Proof. intros L. unfold TR_Model.tangent. destruct (Nat.ltb_spec (length (s_con s)) dim); [lia|reflexivity]. Qed.
Lemma norm_vzero m : norm m vzero = 0.
Proof. apply norm_zero. intros i _. reflexivity. Qed.
Lemma norm_zz m : norm m (vadd vzero vzero) = 0.
Proof. apply norm_zero. intros i _. unfold vadd, vzero. ring. Qed.

Lemma terminates fuel k s : (0 < n)%nat -> (1 <= k)%nat -> (me <= length (s_con s))%nat ->
  ((10 * n - k) + (if (k <? 10 * n)%nat then dim - me else dim - length (s_con s)) + 1 <= fuel)%nat ->
  tr_loop fuel k s <> TrFuel.
Proof.
  revert k s. induction fuel as [|fuel IH]; intros k s N K L F; [lia|].
  destruct (pass k s) as [(res & E & EN)|(s' & E & G)]; rewrite E.
  - intros ->. exact EN.
  - destruct G as (r & t & rp & actr & actt & v & xa & (B1 & B2 & B3) & G1 & G2 & G3 & G4).
    apply IH; [exact N|lia|auto|].
    destruct (Rle_lt_dec (norm n (vadd r t)) (/ 10 ^ 16)) as [Z|Z].
    + specialize (G2 Z). specialize (G1 L). destruct (Nat.ltb_spec k (10 * n)); [|lia].
      destruct (Nat.ltb_spec (S k) (10 * n)); lia.
    + specialize (G3 Z). rewrite G3.
      destruct (Nat.ltb_spec k (10 * n)) as [K10|K10]; [destruct (Nat.ltb_spec (S k) (10 * n)); lia|].
      destruct (Nat.ltb_spec (S k) (10 * n)); [lia|].
      assert (length (s_con s) < dim)%nat; [|lia].
      destruct (le_lt_dec dim (length (s_con s))) as [D|D]; [|exact D]. exfalso.
      rewrite rest_later in B1 by lia. injection B1 as <- _ _. rewrite (tan_full _ _ D) in B2. injection B2 as <- _.
      pose proof small16. rewrite norm_zz in Z. lra.
Qed.

Lemma more_fuel f1 f2 k s : (f1 <= f2)%nat -> tr_loop f1 k s <> TrFuel -> tr_loop f1 k s = tr_loop f2 k s.
Proof.
  revert f2 k s. induction f1 as [|f1 IH]; intros f2 k s L NF; [exfalso; apply NF; reflexivity|].
  destruct f2 as [|f2]; [lia|]. destruct (pass k s) as [(res & E & EN)|(s' & E & G)]; [rewrite !E; reflexivity|].
  rewrite !E in *. apply IH; [lia|exact NF].
Qed.

Lemma passes_le fuel k s o : tr_loop fuel k s = TrOut o -> (k <= tr_passes o < k + fuel)%nat.
Proof.
  revert k s. induction fuel as [|fuel IH]; intros k s E; [discriminate|].
  destruct (pass k s) as [(res & E' & EN)|(s' & E' & G)]; rewrite E' in E.
  - subst res. destruct EN as (? & ? & ? & ? & ? & ? & ? & _ & _ & P & _). lia.
  - apply IH in E. lia.
Qed.

(** *** bounds *)
Definition slack_in : Prop := forall i, (i < nsl)%nat -> xle_r (lb (n + i)%nat) (sl i) /\ rle_x (sl i) (ub (n + i)%nat).

Lemma join_in x s : in_bounds n lb ub x -> (forall i, (i < nsl)%nat -> xle_r (lb (n + i)%nat) (s i) /\ rle_x (s i) (ub (n + i)%nat)) ->
  in_bounds dim lb ub (join x s).
Proof.
  intros X SS i Hi. unfold TR_Model.join, TR_Model.dim in *. destruct (Nat.ltb_spec i n); [apply X; lia|].
  specialize (SS (i - n)%nat ltac:(lia)). replace (n + (i - n))%nat with i in SS by lia. exact SS.
Qed.

Lemma restored_in k s r rp actr : keeps_bounds restore -> slack_in -> in_bounds n lb ub (s_x s) ->
  restoration k s = Some (r, rp, actr) -> in_bounds dim lb ub (restored s r).
Proof.
  intros KB SI X E. unfold TR_Model.restoration in E.
  destruct (_ && _).
  - destruct (restore _ _ _ _ _ _) as [[r' msg]|] eqn:RE; [|discriminate]. injection E as <- _ _.
    pose proof (join_in _ _ X SI) as J.
    apply KB in RE.
    + intros i Hi. specialize (RE i Hi). rewrite xsub_l, xsub_u in RE.
      unfold restored. unfold TR_Model.join in *. unfold vadd, TR_Model.slpart, TR_Model.dim in *.
      destruct (Nat.ltb_spec i n); [exact RE|]. replace (n + (i - n))%nat with i by lia. exact RE.
    + intros i Hi. rewrite xsub_l, xsub_u. unfold vzero. rewrite Rplus_0_r. apply J, Hi.
  - injection E as <- _ _. unfold restored. intros i Hi. specialize (join_in _ _ X SI i Hi) as J.
    unfold TR_Model.join, vadd, vzero, TR_Model.slpart in *. destruct (i <? n)%nat; rewrite Rplus_0_r; exact J.
Qed.

Lemma scan_none k i x xa : scan k i x = (None, xa) -> forall j, (i <= j < i + k)%nat ->
  under thr (x j) (lb j) = false /\ (close (/ 10 ^ 7) (x j) (lb j) = true \/ over thr (x j) (ub j) = false).
Proof.
  revert i xa. induction k as [|k IH]; intros i xa E j J; [lia|]. cbn [TR_Model.scan] in E.
  destruct (under thr (x i) (lb i)) eqn:U; [discriminate|].
  assert (T : forall xa', scan k (S i) x = (None, xa') -> j <> i -> under thr (x j) (lb j) = false /\ (close (/ 10 ^ 7) (x j) (lb j) = true \/ over thr (x j) (ub j) = false))
    by (intros xa' E' NE; apply (IH (S i) xa' E'); lia).
  destruct (close (/ 10 ^ 7) (x i) (lb i)) eqn:C1.
  { destruct (scan k (S i) x) as [v a]. injection E as -> _. destruct (Nat.eq_dec j i) as [->|NE]; eauto. }
  destruct (over thr (x i) (ub i)) eqn:O; [discriminate|].
  destruct (close (/ 10 ^ 7) (x i) (ub i)).
  { destruct (scan k (S i) x) as [v a]. injection E as -> _. destruct (Nat.eq_dec j i) as [->|NE]; eauto. }
  destruct (Nat.eq_dec j i) as [->|NE]; eauto.
Qed.

Lemma scan_some k i x j xa : scan k i x = (Some j, xa) -> (i <= j < i + k)%nat /\
  (under thr (x j) (lb j) = true \/ over thr (x j) (ub j) = true).
Proof.
  revert i xa. induction k as [|k IH]; intros i xa E; [discriminate|]. cbn [TR_Model.scan] in E.
  assert (T : forall xa', scan k (S i) x = (Some j, xa') -> (i <= j < i + S k)%nat /\ (under thr (x j) (lb j) = true \/ over thr (x j) (ub j) = true))
    by (intros xa' E'; destruct (IH _ _ E'); split; [lia|auto]).
  destruct (under thr (x i) (lb i)) eqn:U; [injection E as -> _; split; [lia|auto]|].
  destruct (close (/ 10 ^ 7) (x i) (lb i)); [destruct (scan k (S i) x) as [v a]; injection E as -> _; eauto|].
  destruct (over thr (x i) (ub i)) eqn:O; [injection E as -> _; split; [lia|auto]|].
  destruct (close (/ 10 ^ 7) (x i) (ub i)); [destruct (scan k (S i) x) as [v a]; injection E as -> _; eauto|eauto].
Qed.

Lemma ratio_violated s r t i xa : / 10 ^ 15 <= thr -> in_bounds dim lb ub (restored s r) ->
  scan n 0 (vadd (vadd (s_x s) r) t) = (Some i, xa) -> exists a, minratio (restored s r) t = Fin a /\ 0 <= a <= 1.
Proof.
  intros T Y SC. apply scan_some in SC. destruct SC as [I V].
  assert (Hi : (i < dim)%nat) by (unfold TR_Model.dim; lia).
  pose proof (ratio_nonneg n nsl lb ub (restored s r) t Y) as NN.
  pose proof (fun e I => fold_min _ e (in_ratios n nsl lb ub (restored s r) t i e Hi I)) as MIN. fold (minratio (restored s r) t) in MIN.
  destruct (Y i Hi) as [YL YU].
  assert (RI : restored s r i = s_x s i + r i) by (unfold restored, TR_Model.join, vadd; destruct (Nat.ltb_spec i n); [reflexivity|lia]).
  rewrite RI in *. unfold vadd in V. pose proof e15.
  assert (exists e : R, xleq (minratio (restored s r) t) (Fin e) /\ e <= 1) as (e & LE & E1).
  { destruct V as [V|V].
    - destruct (lb i) as [l| |] eqn:EL; cbn in V, YL; [|contradiction|discriminate]. apply Rltb_true in V.
      destruct (div_cases (- t i)) as (_ & _ & D3). rewrite D3 in MIN by lra.
      assert (TP : 0 < - t i) by lra. specialize (MIN _ (or_intror (conj TP eq_refl))). cbn in MIN. eexists. split; [exact MIN|].
      apply Rmult_le_reg_r with (- t i); [lra|]. unfold Rdiv. rewrite Rmult_assoc, Rinv_l by lra. lra.
    - destruct (ub i) as [u| |] eqn:EU; cbn in V, YU; [|discriminate|contradiction]. apply Rltb_true in V.
      destruct (div_cases (t i)) as (_ & _ & D3). rewrite D3 in MIN by lra.
      assert (TP : 0 < t i) by lra. specialize (MIN _ (or_introl (conj TP eq_refl))). cbn in MIN. eexists. split; [exact MIN|].
      apply Rmult_le_reg_r with (t i); [lra|]. unfold Rdiv. rewrite Rmult_assoc, Rinv_l by lra. lra. }
  destruct (minratio (restored s r) t) as [a| |]; cbn in *; [|contradiction|contradiction]. exists a. split; [reflexivity|lra].
Qed.

(** a shortened step stays inside *)
Lemma shortened_in s r t x' d' m' : in_bounds dim lb ub (restored s r) -> shortened s r t x' d' m' -> in_bounds n lb ub x'.
Proof.
  intros Y (rho & R0 & R1 & -> & _) i Hi.
  pose proof (ratio_nonneg n nsl lb ub _ t Y) as NN. destruct (minratio (restored s r) t) as [a| |] eqn:E; [|contradiction|contradiction].
  cbn in NN. rewrite Rmax_left in R1 by lra. subst rho. destruct (ratio_in n nsl lb ub _ _ _ Y E) as [_ B].
  specialize (B i ltac:(unfold TR_Model.dim; lia)). unfold vadd, vscal, restored, TR_Model.join in *.
  destruct (Nat.ltb_spec i n); [exact B|lia].
Qed.

Lemma norm_entry m (v : vec) i : (i < m)%nat -> Rabs (v i) <= norm m v.
Proof.
  intros Hi. apply Rsqr_incr_0_var; [|apply norm_nonneg]. rewrite <- Rsqr_abs. unfold Rsqr. rewrite norm_sq.
  apply (rsum_ge_term m (fun i => v i * v i)); [exact Hi|intros; nra].
Qed.

Lemma small_le : / 10 ^ 16 <= / 10 ^ 7.
Proof. apply Rinv_le_contravar; [apply pow_lt; lra|]. apply Rle_pow; [lra|lia]. Qed.

Lemma loop_bounds fuel k s : / 10 ^ 15 <= thr -> ordered n lb ub -> keeps_bounds restore -> slack_in -> in_bounds n lb ub (s_x s) ->
  match tr_loop fuel k s with
  | TrInfinite => False
  | TrOut o => violates_at_most n lb ub (Rmax thr (/ 10 ^ 7)) (tr_x o)
  | _ => True
  end.
Proof.
  intros T OR KB SI. revert k s. induction fuel as [|fuel IH]; intros k s X; [exact Logic.I|].
  destruct (pass k s) as [(res & E & EN)|(s' & E & G)]; rewrite E.
  - destruct res as [| | |o]; try exact Logic.I.
    + destruct EN as (r & t & rp & actr & actt & i & xa & (B1 & B2 & B3) & INF).
      pose proof (restored_in _ _ _ _ _ KB SI X B1) as Y.
      destruct (ratio_violated s r t i xa T Y B3) as (a & EA & _). congruence.
    + destruct EN as (r & t & rp & actr & actt & v & xa & (B1 & B2 & B3) & X1 & _ & _ & TAG & _).
      pose proof (Rmax_l thr (/ 10 ^ 7)). pose proof (Rmax_r thr (/ 10 ^ 7)). pose proof small_le. pose proof e15.
      assert (Z : norm n (vadd r t) <= / 10 ^ 16 -> violates_at_most n lb ub (Rmax thr (/ 10 ^ 7)) (tr_x o)).
      { intros Z i Hi. destruct (X i Hi) as [XL XU]. pose proof (norm_entry n (vadd r t) i Hi) as NE. unfold vadd in NE.
        assert (Rabs (r i + t i) <= / 10 ^ 7) as AB by (unfold vadd in Z; lra). pose proof (Rle_abs (r i + t i)). pose proof (Rle_abs (- (r i + t i))) as AB2. rewrite Rabs_Ropp in AB2.
        rewrite X1. unfold vadd. destruct (lb i), (ub i); cbn in *; intuition lra. }
      destruct (tr_end o); try (apply Z; tauto).
      destruct TAG as [-> _]. intros i Hi. rewrite X1.
      destruct (scan_none _ _ _ _ B3 i ltac:(lia)) as [U V]. specialize (OR i Hi).
      destruct (lb i) as [l| |] eqn:EL; destruct (ub i) as [u| |] eqn:EU; cbn in *; try discriminate; try contradiction; rb.
      * split; [lra|]. destruct V as [V|V]; rb; [|lra]. apply Rabs_def2 in V. lra.
      * split; [lra|exact Logic.I].
      * split; [exact Logic.I|]. destruct V as [V|V]; [discriminate|]. rb. lra.
      * tauto.
  - destruct G as (r & t & rp & actr & actt & v & xa & (B1 & B2 & B3) & _ & _ & _ & G4).
    apply IH. destruct v as [i|]; [|destruct G4 as (_ & -> & _); exact X].
    exact (shortened_in _ _ _ _ _ _ (restored_in _ _ _ _ _ KB SI X B1) G4).
Qed.

(** *** length *)
Lemma norm_sub m p v : (m <= p)%nat -> norm m v <= norm p v.
Proof.
  intros L. unfold norm. apply sqrt_le_1_alt. unfold dot. replace p with (m + (p - m))%nat by lia. rewrite rsum_split.
  pose proof (rsum_nonneg (p - m) (fun i => v (m + i)%nat * v (m + i)%nat)) as Q.
  specialize (Q ltac:(intros; nra)). lra.
Qed.

Lemma rest_short k s r rp actr : restore_short restore -> 0 <= s_del s -> restoration k s = Some (r, rp, actr) ->
  norm n r <= s_del s /\ ((1 < k)%nat -> r = vzero).
Proof.
  intros RS D E. destruct (le_lt_dec k 1) as [K|K]; [split; [|lia]|rewrite rest_later in E by exact K; injection E as <- _ _; rewrite norm_vzero; auto].
  unfold TR_Model.restoration in E. destruct (_ && _); [|injection E as <- _ _; rewrite norm_vzero; exact D].
  destruct (restore _ _ _ _ _ _) as [[r' msg]|] eqn:RE; [|discriminate]. injection E as <- _ _.
  apply RS in RE; [|exact D]. eapply Rle_trans; [apply norm_sub|exact RE]. unfold TR_Model.dim. lia.
Qed.

Lemma tan_short s r t actt : cg_short cg -> null_orth dim null -> 0 <= s_del s -> tangent s r = Some (t, actt) -> norm n t <= s_del s.
Proof.
  intros CS NO D E. unfold TR_Model.tangent in E. destruct (_ <? _)%nat; [|injection E as <- _; rewrite norm_vzero; exact D].
  destruct (null _) as [[k Z]|] eqn:EN; [|discriminate]. destruct (cg _ _ _ _) as [[u a]|] eqn:EC; [|discriminate].
  injection E as <- _. apply CS in EC; [|exact D]. apply NO in EN.
  eapply Rle_trans; [apply (norm_sub n dim); unfold TR_Model.dim; lia|]. unfold norm. rewrite (orth_norm _ _ _ _ EN). exact EC.
Qed.

Definition far (x0 : vec) (d0 : R) (k : nat) (s : st) : Prop :=
  0 <= s_del s <= d0 /\ norm n (vsub (s_x s) x0) <= 2 * (d0 - s_del s).

Lemma loop_length fuel k s x0 d0 : (1 <= k)%nat -> / 10 ^ 15 <= thr -> keeps_bounds restore -> slack_in -> in_bounds n lb ub (s_x s) ->
  restore_short restore -> cg_short cg -> null_orth dim null ->
  far x0 d0 k s -> (k = 1%nat -> s_x s = x0 /\ s_del s = d0) ->
  match tr_loop fuel k s with
  | TrOut o => norm n (vsub (tr_x o) x0) <= 2 * d0 /\ 0 <= tr_delta o <= d0
  | _ => True
  end.
Proof.
  intros K1 T KB SI X RS CS NO. revert k s K1 X. induction fuel as [|fuel IH]; intros k s K1 X (F1 & F2) F3; [exact Logic.I|].
  assert (SPLIT : forall r t rp actr actt v xa, begun k s r t rp actr actt v xa ->
    norm n (vsub (vadd (vadd (s_x s) r) t) x0) <= 2 * d0 /\
    (forall i x' d' m', v = Some i -> shortened s r t x' d' m' -> 0 <= d' <= s_del s /\ norm n (vsub x' x0) <= 2 * (d0 - d'))).
  { intros r t rp actr actt v xa (B1 & B2 & B3).
    destruct (rest_short _ _ _ _ _ RS (proj1 F1) B1) as [NR R0]. pose proof (tan_short _ _ _ _ CS NO (proj1 F1) B2) as NT.
    split.
    - assert (EQ : veq n (vsub (vadd (vadd (s_x s) r) t) x0) (vadd (vsub (s_x s) x0) (vadd r t))) by (intros i _; unfold vsub, vadd; ring).
      rewrite (norm_ext _ _ _ EQ). pose proof (norm_triangle n (vsub (s_x s) x0) (vadd r t)). pose proof (norm_triangle n r t).
      destruct (Nat.eq_dec k 1) as [->|NE].
      + destruct (F3 eq_refl) as [<- <-]. assert (N0 : norm n (vsub (s_x s) (s_x s)) = 0) by (apply norm_zero; intros i _; unfold vsub, vzero; ring). lra.
      + rewrite (R0 ltac:(lia)) in *. rewrite norm_vzero in *. lra.
    - intros i x' d' m' -> (rho & P0 & P1 & -> & -> & _).
      destruct (ratio_violated s r t i xa T (restored_in _ _ _ _ _ KB SI X B1) B3) as (a & EA & A01). rewrite EA in P1. rewrite Rmax_left in P1 by lra. subst rho.
      assert (NS : norm n (vadd r (vscal a t)) <= norm n r + norm n t).
      { eapply Rle_trans; [apply norm_triangle|]. rewrite norm_scal, Rabs_pos_eq by lra. pose proof (norm_nonneg n t). nra. }
      pose proof (norm_nonneg n (vadd r (vscal a t))) as NN.
      assert (EQ : veq n (vsub (vadd (vadd (s_x s) r) (vscal a t)) x0) (vadd (vsub (s_x s) x0) (vadd r (vscal a t)))) by (intros j _; unfold vsub, vadd; ring).
      rewrite (norm_ext _ _ _ EQ). pose proof (norm_triangle n (vsub (s_x s) x0) (vadd r (vscal a t))).
      split; [split; lra|lra]. }
  destruct (pass k s) as [(res & E & EN)|(s' & E & G)]; rewrite E.
  - destruct res as [| | |o]; try exact Logic.I.
    destruct EN as (r & t & rp & actr & actt & v & xa & B & X1 & _ & _ & TAG & DEL). rewrite X1.
    destruct (SPLIT _ _ _ _ _ _ _ B) as [S1 S2]. split; [exact S1|]. destruct DEL as [->|(i & x' & m' & V & SH)]; [exact F1|].
    destruct (S2 _ _ _ _ V SH). lra.
  - destruct G as (r & t & rp & actr & actt & v & xa & B & _ & _ & _ & G4). destruct (SPLIT _ _ _ _ _ _ _ B) as [S1 S2].
    apply IH; [lia| | |lia].
    + destruct v as [i|]; [|destruct G4 as (_ & -> & _); exact X].
      exact (shortened_in _ _ _ _ _ _ (restored_in _ _ _ _ _ KB SI X (proj1 B)) G4).
    + destruct v as [i|]; [|destruct G4 as (_ & E1 & E2 & _); unfold far; rewrite E1, E2; split; assumption].
      destruct (S2 _ _ _ _ eq_refl G4). unfold far. lra.
Qed.

(** *** exceptions *)
Lemma loop_raise fuel k s : no_raise restore null cg mult -> tr_loop fuel k s <> TrRaise.
Proof.
  intros (N1 & N2 & N3 & N4). revert k s. induction fuel as [|fuel IH]; intros k s; [discriminate|].
  destruct (pass k s) as [(res & E & EN)|(s' & E & G)]; rewrite E; [|apply IH].
  intros ->. destruct EN as [(g & A & l & u & D & H)|[(rows & H)|[(j & A & b & D & H)|(x & H)]]].
  - exact (N1 _ _ _ _ _ _ H).
  - exact (N2 _ H).
  - exact (N3 _ _ _ _ H).
  - exact (N4 _ _ H).
Qed.

(** *** the point is the start plus the moves *)
Lemma sumv_app l m : forall i, sumv (l ++ m) i = sumv l i + sumv m i.
Proof. intros i. unfold sumv. induction l as [|a l IH]; cbn; [ring|rewrite IH; ring]. Qed.

Lemma loop_moves fuel k s x0 : (forall i, s_x s i = x0 i + sumv (s_moves s) i) ->
  match tr_loop fuel k s with TrOut o => forall i, tr_x o i = x0 i + sumv (tr_moves o) i | _ => True end.
Proof.
  revert k s. induction fuel as [|fuel IH]; intros k s X; [exact Logic.I|].
  destruct (pass k s) as [(res & E & EN)|(s' & E & G)]; rewrite E.
  - destruct res as [| | |o]; try exact Logic.I.
    destruct EN as (r & t & rp & actr & actt & v & xa & B & X1 & _ & MV & _). intros i.
    rewrite X1, MV, sumv_app. unfold vadd. rewrite X. cbn. ring.
  - destruct G as (r & t & rp & actr & actt & v & xa & B & _ & _ & _ & G4). apply IH. intros i.
    destruct v as [j|]; [|destruct G4 as (_ & -> & _ & ->); apply X].
    destruct G4 as (rho & _ & _ & -> & _ & ->). rewrite sumv_app. unfold vadd. rewrite X. cbn. ring.
Qed.
End P.
