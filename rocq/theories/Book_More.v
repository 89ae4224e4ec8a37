(** The rule by which huge constraint values are replaced. *)
From Coq Require Import List Arith ZArith QArith Qabs Bool Lia Lqa.
Import ListNotations.
From Verif Require Import QB Book_Model Book_Spec Book_Proofs.
Local Open Scope Q_scope.

Lemma entry_in c i j v : entry c i j v -> In v (concat c).
Proof.
  intros (a & A & B). apply in_concat. exists a. split; [exact (nth_error_In _ _ A)|exact (nth_error_In _ _ B)].
Qed.

Lemma overwrite_rule c c' : overwrite_ce c = Some c' ->
  (forall v, In v (concat c) -> ~ huge v -> - inject_Z (10 ^ 24) < v < inject_Z (10 ^ 24)) ->
  forall i j v v', entry c i j v -> entry c' i j v' ->
  (inject_Z (10 ^ 25) <= v -> exists hi, largest_moderate c hi /\ v' = 10 * hi) /\
  (v <= - inject_Z (10 ^ 25) -> exists lo, smallest_moderate c lo /\
    ((forall w, In w (concat c) -> ~ inject_Z (10 ^ 25) <= w) -> v' == 10 * lo) /\
    (forall w hi, In w (concat c) -> inject_Z (10 ^ 25) <= w -> largest_moderate c hi ->
      (lo <= 10 * hi -> v' == 10 * lo) /\ (10 * hi <= lo -> v' == 100 * hi))).
Proof.
  intros O F i j v v' E E'. pose proof (entry_in _ _ _ _ E) as Iv. fold c1e25.
  assert (NN : overwrite_ce c <> None) by (rewrite O; discriminate).
  unfold overwrite_ce in O. destruct (over_up c) as [c1|] eqn:U; [|discriminate].
  apply over_up_some in U. destruct U as (m & -> & Hm). apply over_dn_some in O. destruct O as (m2 & -> & Hm2).
  destruct E as (a & A1 & A2). destruct E' as (b & B1 & B2).
  rewrite !nth_error_map, A1 in B1. cbn in B1. injection B1 as <-. rewrite !nth_error_map, A2 in B2. cbn in B2. injection B2 as <-.
  set (B := inject_Z (10 ^ 24)) in *. assert (C25 : c1e25 == 10 * B) by reflexivity. assert (PB : 0 < B) by reflexivity.
  (* a moderate value exists *)
  assert (MX : exists w, In w (concat c) /\ ~ huge w).
  { destruct (Forall_Exists_dec huge (fun v => huge_dec v) (concat c)) as [G|G].
    - exfalso. apply NN. apply overwrite_none. split; [eauto|]. intros w Hw. rewrite Forall_forall in G. exact (G w Hw).
    - apply Exists_exists in G. exact G. }
  destruct MX as (w0 & I0 & N0). destruct (F w0 I0 N0) as (F0 & F0').
  assert (HI : forall w, In w (concat c) -> c1e25 <= w -> largest_moderate c m /\ - B < m < B).
  { intros w Hw Lw. destruct Hm as [Hm|(Im & Lm & Mx)]; [exfalso; apply (Qlt_not_le _ _ (Hm w Hw) Lw)|].
    apply not_huge in N0. assert (w0 <= m) by (apply Mx; [exact I0|tauto]).
    assert (Nm : ~ huge m) by (apply not_huge; split; [lra|exact Lm]).
    split; [|exact (F m Im Nm)]. split; [exact Im|]. split; [exact Nm|]. intros z Hz Nz. apply not_huge in Nz. apply Mx; tauto. }
  split.
  - intros Lv. destruct (HI v Iv Lv) as (LM & M1 & M2). exists m. split; [exact LM|].
    unfold upf. replace (qleb c1e25 v) with true by (symmetry; qb; exact Lv).
    unfold dnf. replace (qleb (10 * m) (- c1e25)) with false; [reflexivity|]. symmetry. qb. lra.
  - intros Lv.
    assert (UV : upf m v = v). { unfold upf. replace (qleb c1e25 v) with false; [reflexivity|]. symmetry. qb. lra. }
    rewrite UV. unfold dnf. replace (qleb v (- c1e25)) with true by (symmetry; qb; exact Lv).
    destruct Hm2 as [H2|(I2 & L2 & Mn)].
    { exfalso. specialize (H2 (upf m v) ltac:(apply in_concat_map; eauto)). rewrite UV in H2. apply (Qlt_not_le _ _ H2 Lv). }
    (* the smallest moderate value *)
    assert (SM : exists lo, smallest_moderate c lo).
    { destruct (qminl (filter (fun v => if huge_dec v then false else true) (concat c))) as [lo|] eqn:Q.
      - apply qminl_spec in Q. destruct Q as (Q1 & Q2). apply filter_In in Q1. destruct Q1 as (Q1 & Q3).
        destruct (huge_dec lo) as [|N]; [discriminate|]. exists lo. split; [exact Q1|]. split; [exact N|].
        intros w Hw Nw. apply Q2. apply filter_In. split; [exact Hw|]. destruct (huge_dec w); [contradiction|reflexivity].
      - exfalso. assert (In w0 (filter (fun v => if huge_dec v then false else true) (concat c))).
        { apply filter_In. split; [exact I0|]. destruct (huge_dec w0); [contradiction|reflexivity]. }
        destruct (filter _ _); [contradiction|discriminate]. }
    destruct SM as (lo & SL). exists lo. split; [exact SL|]. destruct SL as (SL1 & SL2 & SL3).
    assert (M2lo : m2 <= lo).
    { apply Mn; [|apply not_huge in SL2; tauto]. apply in_concat_map. exists lo. split; [exact SL1|]. symmetry. apply upf_fin. exact SL2. }
    apply in_concat_map in I2. destruct I2 as (z & Iz & Ez).
    split.
    + intros NW. assert (~ c1e25 <= z) by (apply NW; exact Iz).
      assert (m2 = z). { rewrite Ez. unfold upf. replace (qleb c1e25 z) with false; [reflexivity|]. symmetry. qb. apply Qnot_le_lt. assumption. }
      assert (lo <= z). { apply SL3; [exact Iz|]. apply not_huge. split; [subst z; exact L2|apply Qnot_le_lt; assumption]. }
      subst z. lra.
    + intros w hi Iw Lw (H1 & H2 & H3). destruct (HI w Iw Lw) as ((G1 & G2 & G3) & M1 & M3).
      assert (EH : hi == m) by (apply Qle_antisym; [apply G3|apply H3]; assumption).
      assert (MT : m2 <= 10 * m).
      { apply Mn; [|lra]. apply in_concat_map. exists w. split; [exact Iw|]. unfold upf.
        replace (qleb c1e25 w) with true by (symmetry; qb; exact Lw). reflexivity. }
      assert (ALT : m2 == 10 * m \/ lo <= m2).
      { unfold upf in Ez. destruct (qleb c1e25 z) eqn:Q; qb.
        - left. rewrite Ez. reflexivity.
        - right. rewrite Ez. apply SL3; [exact Iz|]. apply not_huge. split; [subst z; exact L2|exact Q]. }
      split; intros Hc; destruct ALT; lra.
Qed.

(** smallest value -1: recorded as -100, not -10 *)
Lemma overwrite_hundred :
  overwrite_ce [[-1]; [inject_Z (10 ^ 25); - inject_Z (10 ^ 25)]] = Some [[-1]; [10 * -1; 10 * (10 * -1)]].
Proof. vm_compute. reflexivity. Qed.

(** ** The whole part of the penalty parameter and the base point *)

Lemma trunc_whole s z : whole_part s z -> z = qtrunc s.
Proof.
  intros [H1 H2]. unfold qtrunc. destruct s as [a b]. unfold Qle, Qlt, Qplus, Qminus, Qopp, inject_Z in *. cbn [Qnum Qden] in *.
  rewrite ?Pos.mul_1_l, ?Pos.mul_1_r, ?Z.mul_1_r, ?Z.mul_1_l in *.
  destruct (Z.le_gt_cases 0 a) as [A|A].
  - specialize (H1 ltac:(lia)). apply Z.quot_unique with (r := (a - Z.pos b * z)%Z); lia.
  - specialize (H2 ltac:(lia)). change (Qnum ((z # 1) + (- (1) # 1))) with (z * 1 + -1 * 1)%Z in H2. rewrite <- (Z.opp_involutive a), Z.quot_opp_l, Z.quot_div_nonneg by lia.
    rewrite <- (Z.div_unique (- a) (Z.pos b) (- z) (- a - Z.pos b * - z)); lia.
Qed.

Section Base.
Context {P : Type}.
Variable zero : P.

Lemma base_is Y : base_point zero Y (base_of zero Y).
Proof. destruct Y as [|a [|b t]]; split; cbn; intros; auto; lia. Qed.

Lemma smallf_moves' inside cnorm sigma t (S : iset P) p x fx ib : whole_part sigma t ->
  wf_set S p -> (1 <= p)%nat ->
  exists r, find_smallf zero inside cnorm sigma S x fx ib = Some r /\
    nth_error (s_f (r_set r)) 0 = Some (r_f r) /\
    (s_ce S <> [] -> exists c, r_ce r = Some c /\ nth_error (s_ce (r_set r)) 0 = Some c) /\
    ((r_set r = S /\ r_x r = x /\ r_fx r = fx /\ r_ibest r = ib) \/
     (exists k y, nth_error (s_Y S) k = Some y /\ k <> 1%nat /\ k <> 0%nat /\ inside y = true /\
        set_permuted 0 k S (r_set r) /\ wf_set (r_set r) p /\ r_x r = y /\
        nth_error (s_f S) k = Some (r_fx r) /\ nth_error (s_ind S) k = Some (r_ibest r) /\
        (forall m0 mk, merit_at cnorm (inject_Z t) S 0 m0 -> merit_at cnorm (inject_Z t) S k mk -> mk < m0) /\
        (forall k' z m' mk, nth_error (s_Y S) k' = Some z -> inside z = true ->
           merit_at cnorm (inject_Z t) S k' m' -> merit_at cnorm (inject_Z t) S k mk -> mk <= m'))).
Proof. intros T. rewrite (trunc_whole _ _ T). apply find_smallf_moves. Qed.

Lemma smallf_stays' inside cnorm sigma t (S : iset P) p x fx ib r : whole_part sigma t ->
  wf_set S p -> (1 <= p)%nat -> NoDup (s_Y S) ->
  find_smallf zero inside cnorm sigma S x fx ib = Some r -> r_set r = S ->
  (forall k z m0 mk, nth_error (s_Y S) k = Some z -> inside z = true ->
     merit_at cnorm (inject_Z t) S 0 m0 -> merit_at cnorm (inject_Z t) S k mk -> m0 <= mk) \/
  (exists y, nth_error (s_Y S) 1 = Some y /\ inside y = true /\
     forall k z m1 mk, nth_error (s_Y S) k = Some z -> inside z = true ->
       merit_at cnorm (inject_Z t) S 1 m1 -> merit_at cnorm (inject_Z t) S k mk -> m1 <= mk).
Proof. intros T. rewrite (trunc_whole _ _ T). apply find_smallf_stays. Qed.

Lemma include_chosen' dist x Y cset thr c xb succ L Y' j xb' :
  0 <= thr ->
  include_in_Y zero dist x Y cset thr c xb succ L = (Y', Some j, xb') ->
  candidate cset thr L (length Y) j /\ only_changed j Y Y' /\ nth_error Y' j = Some x /\
  base_point zero Y' xb' /\
  exists v, has_crit dist x Y c succ L j v /\ 0 < v /\
    forall k w, candidate cset thr L (length Y) k -> has_crit dist x Y c succ L k w -> w <= v.
Proof.
  intros T H. destruct (include_chosen _ _ _ _ _ _ _ _ _ _ _ _ _ T H) as (A & B & C & -> & D). repeat (split; [assumption|]). split; [apply base_is|exact D].
Qed.

Lemma repair_frame' dist rowdist newpt argsort farfact epsL Delta closethr Y0 xb :
  sorts_desc argsort -> 0 < closethr -> 0 <= farfact * (1 + epsL) * Delta -> Y0 <> [] ->
  exists Y repl imp r xb',
    repair_Y zero dist rowdist newpt argsort farfact epsL Delta closethr Y0 xb
      = Some ((Y, repl, imp, r), xb') /\
    length Y = length Y0 /\ nth_error Y 0 = nth_error Y0 0 /\
    NoDup repl /\ (forall j, In j repl -> (0 < j < length Y0)%nat) /\
    (forall j, ~ In j repl -> nth_error Y j = nth_error Y0 j) /\
    (repl = [] -> xb' = xb) /\ (repl <> [] -> base_point zero Y xb').
Proof.
  intros A B C D. destruct (repair_frame zero dist rowdist newpt argsort farfact epsL Delta closethr Y0 xb A B C D)
    as (Y & repl & imp & r & xb' & H & H1 & H2 & H3 & H4 & H5 & H6).
  exists Y, repl, imp, r, xb'. repeat (split; [assumption|]). split; [intros ->; exact H6|].
  intros N. destruct repl; [congruence|]. rewrite H6. apply base_is.
Qed.
End Base.
