(** Proofs about the entry of the solver. *)
From Coq Require Import List Arith ZArith QArith Reals Bool Lia Lra.
Import ListNotations.
From Verif Require Import QB RBool Main_Model Opt_Model Drv_Model Drv_Spec.

(** ** Argument checks *)

Lemma refuse_iff {D} (a : args D) : check_args a = Wrong <-> to_refuse a.
Proof.
  unfold check_args, to_refuse.
  destruct (a_f a) as [|f| |] eqn:F.
  - split; auto.
  - split.
    + intros H. right. split; [eauto|].
      destruct (a_c a) as [|c| |].
      * destruct (Nat.ltb_spec 0 (num_of (a_me a) + num_of (a_mi a))); [left; auto|].
        destruct (a_x0 a); [discriminate|]. right; split; [discriminate|reflexivity].
      * destruct (a_x0 a); [discriminate|]. right; split; [discriminate|reflexivity].
      * destruct (a_x0 a); [discriminate|]. right; split; [discriminate|reflexivity].
      * discriminate.
    + intros [H|(_ & [(-> & L)|(N & ->)])]; [discriminate| |].
      * destruct (Nat.ltb_spec 0 (num_of (a_me a) + num_of (a_mi a))); [reflexivity|lia].
      * destruct (a_c a); try reflexivity; [|contradiction].
        destruct (0 <? num_of (a_me a) + num_of (a_mi a)); reflexivity.
  - split; [discriminate|]. intros [H|((g & H) & _)]; discriminate.
  - split; [discriminate|]. intros [H|((g & H) & _)]; discriminate.
Qed.

Lemma quit_iff {D} (a : args D) : check_args a = Quit <-> to_quit a.
Proof.
  unfold check_args, to_quit.
  destruct (a_f a) as [|f| |] eqn:F.
  - split; [discriminate|]. intros [[H|H]|((g & H) & _)]; discriminate.
  - split.
    + intros H. right. split; [eauto|].
      destruct (a_c a) as [|c| |]; [|destruct (a_x0 a); discriminate|destruct (a_x0 a); discriminate|reflexivity].
      destruct (0 <? num_of (a_me a) + num_of (a_mi a)); [discriminate|].
      destruct (a_x0 a); discriminate.
    + intros [[H|H]|(_ & ->)]; try discriminate. reflexivity.
  - split; auto.
  - split; auto.
Qed.

Lemma enter_iff {D} (a : args D) :
  (exists f c, check_args a = Enter f c) <-> ~ to_refuse a /\ ~ to_quit a.
Proof.
  rewrite <- refuse_iff, <- quit_iff.
  split.
  - intros (f & c & ->). split; discriminate.
  - intros [A B]. destruct (check_args a) as [| |f c]; [contradiction|contradiction|eauto].
Qed.

Lemma enter_handles {D} (a : args D) f c : check_args a = Enter f c ->
  a_f a = FnFun f /\ (forall k, c = Some k <-> a_c a = FnFun k) /\ a_x0 a = true.
Proof.
  unfold check_args. destruct (a_f a) as [|f'| |]; try discriminate.
  destruct (a_c a) as [|c'| |]; try discriminate.
  - destruct (0 <? num_of (a_me a) + num_of (a_mi a)); [discriminate|].
    destruct (a_x0 a); [|discriminate]. intros H; injection H as <- <-.
    split; [reflexivity|]. split; [|reflexivity]. intros k; split; discriminate.
  - destruct (a_x0 a); [|discriminate]. intros H; injection H as <- <-.
    split; [reflexivity|]. split; [|reflexivity]. intros k; split; congruence.
  - destruct (a_x0 a); [|discriminate]. intros H; injection H as <- <-.
    split; [reflexivity|]. split; [|reflexivity]. intros k; split; discriminate.
Qed.

(** a refused call does not run anything and leaves the slack variables alone *)
Lemma refused_call {D Res} (rest : D -> option nat -> option nat -> option (nat * list R) -> Res * list R)
  (a : args D) g : to_refuse a ->
  fst (call rest a g) = OWrong /\
  g_nbr (snd (call rest a g)) = g_nbr g /\ g_sl (snd (call rest a g)) = g_sl g.
Proof.
  intros H. apply refuse_iff in H. unfold call. rewrite H. cbn [fst snd].
  split; [reflexivity|]. unfold set_handles. destruct (a_f a), (a_c a); split; reflexivity.
Qed.

(** ** Slack count *)

Lemma xlt_below a b : xlt a b = true <-> below a b.
Proof.
  destruct a as [p| | |], b as [q| | |]; simpl; try (split; intros; (discriminate || contradiction || exact Logic.I || reflexivity)).
  apply qltb_iff.
Qed.

Definition two_sidedb (li ui : list xQ) (i : nat) : bool :=
  match nth_error li i, nth_error ui i with
  | Some l, Some u => andb (xlt l u) (andb (xlt me7 l) (xlt u e7))
  | _, _ => false
  end.

Lemma two_sidedb_iff li ui i : two_sidedb li ui i = true <-> two_sided li ui i.
Proof.
  unfold two_sidedb, two_sided.
  destruct (nth_error li i) as [l|], (nth_error ui i) as [u|].
  - rewrite !andb_true_iff, !xlt_below. split.
    + intros (A & B & C). exists l, u. split; [reflexivity|]. split; [reflexivity|].
      split; [exact A|]. split; [exact B|exact C].
    + intros (l' & u' & E1 & E2 & A & B & C). injection E1 as <-. injection E2 as <-.
      split; [exact A|]. split; [exact B|exact C].
  - split; [discriminate|]. intros (l' & u' & _ & E & _). discriminate.
  - split; [discriminate|]. intros (l' & u' & E & _). discriminate.
  - split; [discriminate|]. intros (l' & u' & E & _). discriminate.
Qed.

Lemma count_loop_eq li ui k : forall i mi,
  (i + k <= length li)%nat -> (i + k <= length ui)%nat ->
  count_loop li ui k i mi = Some (mi + length (filter (two_sidedb li ui) (seq i k)))%nat.
Proof.
  induction k as [|k IH]; intros i mi L U; [simpl; f_equal; lia|].
  cbn [count_loop seq filter].
  assert (T : forall b : bool, two_sidedb li ui i = b -> count_loop li ui (S k) i mi =
    count_loop li ui k (S i) (if b then S mi else mi)).
  { intros b E. cbn [count_loop]. unfold two_sidedb in E.
    destruct (nth_error li i) as [l|] eqn:E1; [|apply nth_error_None in E1; lia].
    destruct (nth_error ui i) as [u|] eqn:E2; [|apply nth_error_None in E2; lia].
    destruct (xlt l u); cbn [andb] in E; rewrite E || (subst b); reflexivity. }
  specialize (T _ eq_refl). cbn [count_loop] in T. rewrite T. rewrite IH by lia.
  destruct (two_sidedb li ui i); cbn [length]; f_equal; lia.
Qed.

Lemma count_loop_short li ui k : forall i mi,
  (length li < i + k)%nat \/ (length ui < i + k)%nat -> (0 < k)%nat -> count_loop li ui k i mi = None.
Proof.
  induction k as [|k IH]; intros i mi S P; [lia|].
  cbn [count_loop].
  destruct (nth_error li i) as [l|] eqn:E1; [|reflexivity].
  destruct (nth_error ui i) as [u|] eqn:E2; [|reflexivity].
  assert (i < length li)%nat by (apply nth_error_Some; congruence).
  assert (i < length ui)%nat by (apply nth_error_Some; congruence).
  apply IH; lia.
Qed.

Lemma number_filter li ui n :
  number_of n (two_sided li ui) (length (filter (two_sidedb li ui) (seq 0 n))).
Proof.
  exists (filter (two_sidedb li ui) (seq 0 n)). split; [apply NoDup_filter, seq_NoDup|].
  split; [reflexivity|]. intros i. rewrite filter_In, in_seq, two_sidedb_iff. split; intros [A B]; split; auto; lia.
Qed.

Lemma number_unique n P k k' : number_of n P k -> number_of n P k' -> k = k'.
Proof.
  intros (L & N & <- & E) (L' & N' & <- & E').
  apply Nat.le_antisymm; apply NoDup_incl_length; auto; intros i I.
  - apply E', E, I.
  - apply E, E', I.
Qed.

Definition given_li (n : nat) (li : option (list xQ)) := match li with Some l => l | None => dflt_li n end.
Definition given_ui (n : nat) (ui : option (list xQ)) := match ui with Some l => l | None => dflt_ui n end.

Lemma slack_count_number me mi li ui :
  (forall l, li = Some l -> (mi + me <= length l)%nat) ->
  (forall u, ui = Some u -> (mi + me <= length u)%nat) ->
  exists t, slack_count me mi li ui = Some (mi + t)%nat /\
  number_of (mi + me) (two_sided (given_li (mi + me) li) (given_ui (mi + me) ui)) t.
Proof.
  intros L U. unfold slack_count. fold (given_li (mi + me) li). fold (given_ui (mi + me) ui).
  assert (L' : (0 + (mi + me) <= length (given_li (mi + me) li))%nat).
  { unfold given_li, dflt_li. destruct li as [l|]; [apply L; reflexivity|]. rewrite repeat_length. lia. }
  assert (U' : (0 + (mi + me) <= length (given_ui (mi + me) ui))%nat).
  { unfold given_ui, dflt_ui. destruct ui as [l|]; [apply U; reflexivity|]. rewrite repeat_length. lia. }
  rewrite (count_loop_eq _ _ _ _ _ L' U'). eexists. split; [reflexivity|]. apply number_filter.
Qed.

Lemma nth_error_repeat {A} (x y : A) n i : nth_error (repeat x n) i = Some y -> y = x.
Proof. intros H. apply nth_error_In in H. apply repeat_spec in H. exact H. Qed.

Lemma slack_count_onesided me mi li ui :
  (forall l, li = Some l -> (mi + me <= length l)%nat) ->
  (forall u, ui = Some u -> (mi + me <= length u)%nat) ->
  li = None \/ ui = None -> slack_count me mi li ui = Some mi.
Proof.
  intros L U H. destruct (slack_count_number me mi li ui L U) as (t & -> & (Lt & _ & <- & E)).
  destruct Lt as [|i Lt]; [f_equal; simpl; lia|]. exfalso.
  destruct (proj1 (E i) (or_introl eq_refl)) as (_ & l & u & E1 & E2 & _ & B & C).
  destruct H as [-> | ->].
  - cbn [given_li] in E1. apply nth_error_repeat in E1. subst l. simpl in B. unfold Qlt in B. simpl in B. lia.
  - cbn [given_ui] in E2. apply nth_error_repeat in E2. subst u. simpl in C. unfold Qlt in C. simpl in C. lia.
Qed.

Lemma slack_count_raises me mi li ui :
  (0 < mi)%nat ->
  (exists l, li = Some l /\ (length l < mi + me)%nat) \/ (exists u, ui = Some u /\ (length u < mi + me)%nat) ->
  slack_count me mi li ui = None.
Proof.
  intros P H. unfold slack_count. apply count_loop_short; [|lia].
  destruct H as [(l & -> & H)|(u & -> & H)]; [left|right]; lia.
Qed.

(** ** Successive calls *)

Section Calls.
Context {D Res : Type}.
Variable rest : D -> option nat -> option nat -> option (nat * list R) -> Res * list R.

Lemma call_ineq (a : args D) g g' : has_ineq a -> fst (call rest a g) = fst (call rest a g').
Proof.
  intros H. unfold call, has_ineq in *.
  destruct (check_args a) as [| |f c] eqn:C; [reflexivity|reflexivity|].
  destruct (num_of (a_mi a)) as [|mi]; [contradiction|].
  destruct (slack_count _ _ _ _) as [k|]; [|reflexivity].
  destruct (enter_handles _ _ _ C) as (F & G & _).
  assert (HH : g_f (set_handles a g) = g_f (set_handles a g') /\ g_c (set_handles a g) = g_c (set_handles a g')).
  { unfold set_handles. rewrite F. destruct (a_c a) eqn:E; auto.
    exfalso. unfold check_args in C. rewrite F, E in C. discriminate. }
  destruct HH as [-> ->].
  destruct (run_rest rest (a_data a) _) as [r g2]. reflexivity.
Qed.

Lemma call_nbr0 (a : args D) g : g_nbr g = 0%nat -> ~ has_ineq a -> g_nbr (snd (call rest a g)) = 0%nat.
Proof.
  intros Z H. unfold call, has_ineq in *.
  assert (Z1 : g_nbr (set_handles a g) = 0%nat).
  { unfold set_handles. destruct (a_f a), (a_c a); exact Z. }
  destruct (check_args a); [exact Z1|exact Z1|].
  destruct (num_of (a_mi a)) as [|mi]; [|exfalso; apply H; discriminate].
  unfold run_rest. rewrite Z1. cbn [snd]. exact Z1.
Qed.

Lemma call_nbr0_result (a : args D) g g' : g_nbr g = 0%nat -> g_nbr g' = 0%nat ->
  fst (call rest a g) = fst (call rest a g').
Proof.
  intros Z Z'. destruct (Nat.eq_dec (num_of (a_mi a)) 0) as [M|M].
  2: { apply call_ineq. exact M. }
  unfold call.
  destruct (check_args a) as [| |f c] eqn:C; [reflexivity|reflexivity|].
  rewrite M.
  assert (Z1 : g_nbr (set_handles a g) = 0%nat) by (unfold set_handles; destruct (a_f a), (a_c a); exact Z).
  assert (Z2 : g_nbr (set_handles a g') = 0%nat) by (unfold set_handles; destruct (a_f a), (a_c a); exact Z').
  destruct (enter_handles _ _ _ C) as (F & G & _).
  assert (HH : g_f (set_handles a g) = g_f (set_handles a g') /\ g_c (set_handles a g) = g_c (set_handles a g')).
  { unfold set_handles. rewrite F. destruct (a_c a) eqn:E; auto.
    exfalso. unfold check_args in C. rewrite F, E in C. discriminate. }
  unfold run_rest. rewrite Z1, Z2. destruct HH as [-> ->]. reflexivity.
Qed.

Lemma after_nbr0 hist : forall g, g_nbr g = 0%nat -> Forall (fun b => ~ has_ineq b) hist ->
  g_nbr (after rest hist g) = 0%nat.
Proof.
  induction hist as [|a r IH]; intros g Z F; [exact Z|].
  inversion F; subst. cbn [after]. apply IH; [|assumption]. apply call_nbr0; assumption.
Qed.

Lemma independent hist (a : args D) :
  has_ineq a \/ Forall (fun b => ~ has_ineq b) hist ->
  result_after rest hist a = result_after rest [] a.
Proof.
  intros [H|H]; unfold result_after.
  - apply call_ineq. exact H.
  - apply call_nbr0_result; [|reflexivity]. apply after_nbr0; [reflexivity|exact H].
Qed.

(** the slack count of the last call with inequalities stays in force *)
Lemma leak (b : args D) g k : has_ineq b -> (exists f c, check_args b = Enter f c) ->
  slack_count (num_of (a_me b)) (num_of (a_mi b)) (a_li b) (a_ui b) = Some k ->
  forall hist, Forall (fun b => ~ has_ineq b) hist ->
  g_nbr (after rest (b :: hist) g) = k.
Proof.
  intros H (f & c & C) S hist.
  assert (G : g_nbr (snd (call rest b g)) = k).
  { unfold call, has_ineq in *. rewrite C. destruct (num_of (a_mi b)) as [|mi]; [contradiction|].
    rewrite S. unfold run_rest. cbn [g_nbr g_sl g_f g_c]. destruct k as [|k]; [reflexivity|].
    destruct (rest _ _ _ _) as [r sl]. reflexivity. }
  cbn [after]. revert G. generalize (snd (call rest b g)). clear b g H f c C S.
  induction hist as [|a r IH]; intros g G F; [exact G|].
  inversion F as [|x y N F']; subst. cbn [after]. apply IH; [|exact F'].
  unfold call, has_ineq in *.
  assert (Z1 : g_nbr (set_handles a g) = g_nbr g) by (unfold set_handles; destruct (a_f a), (a_c a); reflexivity).
  destruct (check_args a); [exact Z1|exact Z1|].
  destruct (num_of (a_mi a)) as [|mi]; [|exfalso; apply N; discriminate].
  unfold run_rest. rewrite Z1. destruct (g_nbr g) as [|k] eqn:K; [exact Z1|].
  destruct (rest _ _ _ _) as [x sl]. cbn [snd g_nbr]. reflexivity.
Qed.
End Calls.

(** ** Initial slacks *)

Definition slack_of (c u : R) : R := if Rltb 0 c then Rmin (sqrt c) (sqrt u) else 0%R.

Lemma init_loop_eq ce ub nbr : (nbr <= length ce)%nat -> (nbr <= length ub)%nat ->
  forall k i, (i + k = nbr)%nat ->
  exists sl, init_loop ce ub k i nbr = Some sl /\ length sl = k /\
  forall j, (j < k)%nat -> nth j sl 0%R =
    slack_of (nth (length ce - nbr + i + j) ce 0%R) (nth (length ub - nbr + i + j) ub 0%R).
Proof.
  intros L U. induction k as [|k IH]; intros i E.
  - exists []. split; [reflexivity|]. split; [reflexivity|]. intros j J; lia.
  - destruct (IH (S i)) as (sl & IL & LS & N); [lia|].
    cbn [init_loop]. rewrite IL.
    destruct (Nat.ltb_spec (length ce) (nbr - i)) as [B|B]; [lia|].
    destruct (Nat.ltb_spec (length ub) (nbr - i)) as [B'|B']; [lia|].
    replace (length ce - (nbr - i))%nat with (length ce - nbr + i + 0)%nat by lia.
    replace (length ub - (nbr - i))%nat with (length ub - nbr + i + 0)%nat by lia.
    exists (slack_of (nth (length ce - nbr + i + 0) ce 0%R) (nth (length ub - nbr + i + 0) ub 0%R) :: sl).
    split.
    { unfold slack_of. destruct (Rltb 0 (nth (length ce - nbr + i + 0) ce 0%R)); reflexivity. }
    split; [cbn [length]; lia|].
    intros [|j] J; [reflexivity|]. cbn [nth]. rewrite N by lia. f_equal; f_equal; lia.
Qed.

Lemma init_loop_raise ce ub nbr k : (length ce < nbr)%nat -> k = nbr -> (0 < k)%nat ->
  init_loop ce ub k 0 nbr = None.
Proof.
  intros L -> P. destruct nbr as [|n]; [lia|]. cbn [init_loop].
  destruct (Nat.ltb_spec (length ce) (S n - 0)) as [B|B]; [reflexivity|lia].
Qed.

Lemma slack_of_sq c u : (0 <= u)%R -> (c - slack_of c u * slack_of c u = c - Rmax 0 (Rmin c u))%R.
Proof.
  intros U. unfold slack_of. destruct (Rltb_spec 0 c) as [P|P].
  - destruct (Rle_dec c u) as [L|L].
    + rewrite (Rmin_left (sqrt c)) by (apply sqrt_le_1_alt; exact L).
      rewrite sqrt_sqrt by lra. rewrite (Rmin_left c u) by exact L. rewrite Rmax_right by lra. reflexivity.
    + assert (u <= c)%R by lra. rewrite (Rmin_right (sqrt c)) by (apply sqrt_le_1_alt; assumption).
      rewrite sqrt_sqrt by lra. rewrite (Rmin_right c u) by assumption. rewrite Rmax_right by lra. reflexivity.
  - rewrite Rmax_left; [lra|]. apply Rle_trans with c; [apply Rmin_l|lra].
Qed.

Lemma initial_feas_values nbr ce ub : (0 < nbr)%nat -> (nbr <= length ce)%nat -> (nbr <= length ub)%nat ->
  (forall j, (length ub - nbr <= j < length ub)%nat -> (0 <= nth j ub 0)%R) ->
  exists r, initial_feas nbr ce ub = Some r /\ length r = length ce /\
  (forall i, (i < length ce - nbr)%nat -> nth i r 0%R = nth i ce 0%R) /\
  (forall i, (i < nbr)%nat ->
     nth (length ce - nbr + i) r 0%R =
     (nth (length ce - nbr + i) ce 0 - Rmax 0 (Rmin (nth (length ce - nbr + i) ce 0) (nth (length ub - nbr + i) ub 0)))%R).
Proof.
  intros P L U B. unfold initial_feas, init_slacks. destruct nbr as [|m] eqn:E; [lia|]. rewrite <- E in *.
  destruct (init_loop_eq ce ub nbr L U nbr 0 (Nat.add_0_l _)) as (sl & -> & LS & N).
  cbn [option_map]. eexists. split; [reflexivity|].
  unfold feas_vector. rewrite E. rewrite <- E.
  set (pad := repeat 0%R (length ce - nbr) ++ map (fun s => (s * s)%R) sl).
  assert (LP : length pad = length ce).
  { unfold pad. rewrite app_length, repeat_length, map_length. lia. }
  assert (V : forall i, (i < length ce)%nat ->
    nth i (map (fun p => (fst p - snd p)%R) (combine ce pad)) 0%R = (nth i ce 0 - nth i pad 0)%R).
  { intros i I. rewrite (nth_indep _ 0%R ((fun p => (fst p - snd p)%R) (0, 0)%R)) by
      (rewrite map_length, combine_length; lia).
    rewrite (map_nth (fun p => (fst p - snd p)%R)). rewrite combine_nth by lia. reflexivity. }
  split; [rewrite map_length, combine_length; lia|]. split.
  - intros i I. rewrite V by lia. unfold pad. rewrite app_nth1 by (rewrite repeat_length; lia).
    rewrite nth_repeat. lra.
  - intros i I. rewrite V by lia. unfold pad. rewrite app_nth2 by (rewrite repeat_length; lia).
    rewrite repeat_length. replace (length ce - nbr + i - (length ce - nbr))%nat with i by lia.
    rewrite (nth_indep (map (fun s => (s * s)%R) sl) 0%R ((fun s => (s * s)%R) 0%R)) by (rewrite map_length; lia).
    rewrite (map_nth (fun s => (s * s)%R)). rewrite N by lia. rewrite !Nat.add_0_r.
    apply slack_of_sq. apply B. lia.
Qed.

Lemma initial_feas_raises nbr ce ub : (length ce < nbr)%nat -> initial_feas nbr ce ub = None.
Proof.
  intros L. unfold initial_feas, init_slacks. destruct nbr as [|m]; [lia|].
  rewrite (init_loop_raise ce ub (S m)); [reflexivity|exact L|reflexivity|lia].
Qed.

Lemma hidden c u : (0 < c <= u)%R -> (c - Rmax 0 (Rmin c u) = 0)%R.
Proof. intros H. rewrite Rmin_left by lra. rewrite Rmax_right by lra. lra. Qed.

(** positive violations among the last [nbr] constraints are not seen *)
Lemma initial_feas_hides nbr ce ub : (0 < nbr)%nat -> (nbr <= length ce)%nat -> (nbr <= length ub)%nat ->
  (forall j, (length ub - nbr <= j < length ub)%nat -> (0 <= nth j ub 0)%R) ->
  exists r, initial_feas nbr ce ub = Some r /\
  forall i, (i < nbr)%nat ->
    (0 < nth (length ce - nbr + i) ce 0 <= nth (length ub - nbr + i) ub 0)%R ->
    nth (length ce - nbr + i) r 0%R = 0%R.
Proof.
  intros P L U B. destruct (initial_feas_values nbr ce ub P L U B) as (r & E & _ & _ & V).
  exists r. split; [exact E|]. intros i I H. rewrite V by exact I. apply hidden. exact H.
Qed.

Lemma equality_violation :
  slack_count 1 1 (Some [Fin 0; Fin 0]) (Some [Fin 0; Fin 1]) = Some 2%nat /\
  exists r, initial_feas 2 [4%R; (1 / 2)%R] [5%R; 5%R; 5%R] = Some r /\ nth 0 r 1%R = 0%R.
Proof.
  split; [vm_compute; reflexivity|].
  destruct (initial_feas_values 2 [4%R; (1 / 2)%R] [5%R; 5%R; 5%R]) as (r & E & L & _ & V).
  - lia.
  - simpl; lia.
  - simpl; lia.
  - intros [|[|[|j]]] H; simpl in *; try lra; lia.
  - exists r. split; [exact E|].
    specialize (V 0%nat Nat.lt_0_2). cbn [length Nat.sub Nat.add nth] in V.
    destruct r as [|r0 r]; [discriminate L|]. cbn [nth] in *.
    rewrite V. apply hidden. lra.
Qed.
