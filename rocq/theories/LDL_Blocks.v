(** Proofs about inserting and removing a row of the factorisation. *)
From Coq Require Import Reals List Arith Bool Lra Lia.
From Verif Require Import RVec RBool LDL_Model LDL_Spec LDL_Proofs.
Open Scope R_scope.

Lemma rsum_three n j f : (j < n)%nat -> rsum n f = rsum j f + f j + rsum (n - S j) (fun a => f (S j + a)%nat).
Proof. intros H. replace n with (S j + (n - S j))%nat at 1 by lia. rewrite rsum_split. cbn [rsum]. lra. Qed.

Lemma ldlt_sym n L d a b : ldlt n L d a b = ldlt n L d b a.
Proof. unfold ldlt. apply rsum_ext. intros. ring. Qed.

Lemma ldlt_top n L d a b : unit_lower n L -> (a < b)%nat -> (b <= n)%nat -> forall i, ldlt n L d a i = rsum b (fun k => L a k * d k * L i k).
Proof. intros [_ Lo] H Hn i. unfold ldlt. apply rsum_head; [exact Hn|]. intros k Hk. rewrite Lo by lia. ring. Qed.

(** a unit row of L D L' is a unit row of L and D *)
Lemma unit_rows n j L d : unit_lower n L -> positive n d -> (j < n)%nat -> unit_at n j (ldlt n L d) ->
  (forall i, (i < j)%nat -> L j i = 0) /\ d j = 1 /\ (forall i, (j < i < n)%nat -> L i j = 0).
Proof.
  intros U P Hj E. pose proof U as [L1 Lo].
  assert (A : forall i, (i < j)%nat -> L j i = 0).
  { intros i. induction i as [i IH] using lt_wf_ind. intros Hi.
    destruct (E i ltac:(lia)) as [Ei _]. destruct (Nat.eqb_spec i j) as [X|X]; [lia|].
    rewrite (ldlt_top n L d i (S i) U ltac:(lia) ltac:(lia)) in Ei. cbn [rsum] in Ei.
    rewrite rsum_zero in Ei by (intros k Hk; rewrite (IH k Hk) by lia; ring).
    rewrite L1 in Ei by lia. specialize (P i ltac:(lia)).
    destruct (Rmult_integral (d i) (L j i) ltac:(lra)) as [W|W]; lra. }
  assert (B : d j = 1).
  { destruct (E j Hj) as [Ej _]. rewrite Nat.eqb_refl in Ej. rewrite (ldlt_top n L d j (S j) U ltac:(lia) ltac:(lia)) in Ej. cbn [rsum] in Ej.
    rewrite rsum_zero in Ej by (intros k Hk; rewrite A by assumption; ring). rewrite L1 in Ej by lia. lra. }
  split; [exact A|]. split; [exact B|]. intros i Hi. destruct (E i ltac:(lia)) as [_ Ei].
  destruct (Nat.eqb_spec i j); [lia|]. rewrite (ldlt_top n L d j (S j) U ltac:(lia) ltac:(lia)) in Ei. cbn [rsum] in Ei.
  rewrite rsum_zero in Ei by (intros k Hk; rewrite A by assumption; ring). rewrite L1, B in Ei by lia. lra.
Qed.

Lemma unit_lower_tail n j L : unit_lower n L -> unit_lower (n - S j) (tailm j L).
Proof. intros [A B]. split; intros; unfold tailm; [apply A|apply B]; lia. Qed.
Lemma positive_tail n j d : positive n d -> positive (n - S j) (tailv j d).
Proof. intros A i Hi. unfold tailv. apply A. lia. Qed.

Ltac dd := repeat match goal with
  | |- context [Nat.ltb ?a ?b] => destruct (Nat.ltb_spec a b); try lia
  | |- context [Nat.eqb ?a ?b] => destruct (Nat.eqb_spec a b); try lia
  | |- context [Nat.leb ?a ?b] => destruct (Nat.leb_spec a b); try lia
  end.

(** the entries of the product of the assembled blocks *)
Section Up.
Variables (n j : nat) (L : mat) (d v w : vec) (LKK : mat) (dk : vec) (delta : R).
Hypothesis Hj : (j < n)%nat.
Hypothesis U : unit_lower n L.
Hypothesis UK : unit_lower (n - S j) LKK.
Let L' := block_up j L v w LKK.
Let d' := d_upd j (put_tail j d dk) delta.

Lemma up_lower : unit_lower n L'.
Proof.
  destruct U as [L1 Lo]. destruct UK as [K1 Ko]. split.
  - intros i Hi. unfold L', block_up. dd; try reflexivity; [apply L1; lia|]. apply K1. lia.
  - intros a b Hab. unfold L', block_up. dd; try (apply Lo; lia). apply Ko. lia.
Qed.
Lemma up_positive : positive n d -> positive (n - S j) dk -> 0 < delta -> positive n d'.
Proof. intros P Q D i Hi. unfold d', d_upd, put_tail. dd; auto. apply Q. lia. Qed.

Lemma up_top a b : (a < j)%nat -> (b < n)%nat ->
  ldlt n L' d' a b = rsum j (fun k => L a k * d k * (if (b =? j)%nat then v k else L b k)).
Proof.
  intros Ha Hb. rewrite (ldlt_top n L' d' a j up_lower Ha ltac:(lia)). apply rsum_ext. intros k Hk.
  unfold L', d', block_up, d_upd, put_tail. dd; reflexivity.
Qed.
Lemma up_mid : ldlt n L' d' j j = rsum j (fun k => v k * d k * v k) + delta.
Proof.
  rewrite (ldlt_top n L' d' j (S j) up_lower ltac:(lia) ltac:(lia)). cbn [rsum].
  rewrite (rsum_ext j _ (fun k => v k * d k * v k)).
  2:{ intros k Hk. unfold L', d', block_up, d_upd, put_tail. dd; reflexivity. }
  unfold L', d', block_up, d_upd, put_tail. dd. ring.
Qed.
Lemma up_left a : (S j + a < n)%nat -> ldlt n L' d' j (S j + a)%nat = rsum j (fun k => v k * d k * L (S j + a)%nat k) + delta * w a.
Proof.
  intros Ha. rewrite (ldlt_top n L' d' j (S j) up_lower ltac:(lia) ltac:(lia)). cbn [rsum].
  rewrite (rsum_ext j _ (fun k => v k * d k * L (S j + a)%nat k)).
  2:{ intros k Hk. unfold L', d', block_up, d_upd, put_tail. dd; reflexivity. }
  unfold L', d', block_up, d_upd, put_tail. dd. replace (S j + a - S j)%nat with a by lia. ring.
Qed.
Lemma up_low a b : (S j + a < n)%nat -> (S j + b < n)%nat -> ldlt n L' d' (S j + a)%nat (S j + b)%nat =
  rsum j (fun k => L (S j + a)%nat k * d k * L (S j + b)%nat k) + w a * delta * w b + ldlt (n - S j) LKK dk a b.
Proof.
  intros Ha Hb. unfold ldlt at 1. rewrite (rsum_three n j _ Hj). f_equal; [f_equal|].
  - apply rsum_ext. intros k Hk. unfold L', d', block_up, d_upd, put_tail. dd; reflexivity.
  - unfold L', d', block_up, d_upd, put_tail. dd.
    replace (S j + a - S j)%nat with a by lia. replace (S j + b - S j)%nat with b by lia. reflexivity.
  - unfold ldlt. apply rsum_ext. intros k Hk. unfold L', d', block_up, d_upd, put_tail. dd.
    replace (S j + a - S j)%nat with a by lia. replace (S j + b - S j)%nat with b by lia.
    replace (S j + k - S j)%nat with k by lia. reflexivity.
Qed.
End Up.

(** the row that is inserted *)
Section Ins.
Variables (n j : nat) (L : mat) (d g u : vec).
Hypothesis Hj : (j < n)%nat.
Hypothesis U : unit_lower n L.
Hypothesis P : positive n d.
Hypothesis Un : unit_at n j (ldlt n L d).
Hypothesis Eu : forall i, (i < j)%nat -> rsum j (fun k => L i k * u k) = g i.
Let v := fun i => u i / d i.
Let delta := g j - dot j u v.
Let w := fun a => (g (S j + a)%nat - rsum j (fun b => L (S j + a)%nat b * u b)) / delta.

Lemma dv k : (k < j)%nat -> d k * v k = u k.
Proof. intros Hk. unfold v. field. specialize (P k ltac:(lia)). lra. Qed.

Lemma ins_entries LKK dk beta : delta <> 0 -> unit_lower (n - S j) LKK ->
  same_mat (n - S j) (ldlt (n - S j) LKK dk) (plus_rank_one (ldlt (n - S j) (tailm j L) (tailv j d)) beta w) ->
  forall a b, (a < n)%nat -> (b < n)%nat ->
  ldlt n (block_up j L v w LKK) (d_upd j (put_tail j d dk) delta) a b =
  with_row (ldlt n L d) j g a b +
   (if (Nat.ltb j a && Nat.ltb j b)%bool then (delta + beta) * w (a - S j)%nat * w (b - S j)%nat else 0).
Proof.
  intros Dz UK SK. destruct (unit_rows n j L d U P Hj Un) as (Z1 & Dj & Z2).
  assert (Top : forall a b, (a < j)%nat -> (b < n)%nat -> ldlt n (block_up j L v w LKK) (d_upd j (put_tail j d dk) delta) a b = with_row (ldlt n L d) j g a b).
  { intros a b Ha Hb. rewrite (up_top n j L d v w LKK dk delta Hj U UK a b Ha Hb). unfold with_row. dd.
    - rewrite <- (Eu a Ha). apply rsum_ext. intros k Hk. rewrite Rmult_assoc, (dv k Hk). reflexivity.
    - symmetry. apply (ldlt_top n L d a j U Ha). lia. }
  assert (Mid : forall b, (j < b < n)%nat -> ldlt n (block_up j L v w LKK) (d_upd j (put_tail j d dk) delta) j b = g b).
  { intros b Hb. replace b with (S j + (b - S j))%nat by lia. rewrite (up_left n j L d v w LKK dk delta Hj U UK) by lia.
    unfold w. rewrite (rsum_ext j (fun k => v k * d k * _) (fun k => L (S j + (b - S j))%nat k * u k)).
    2:{ intros k Hk. rewrite (Rmult_comm (v k)), (dv k Hk). ring. }
    field. exact Dz. }
  intros a b Ha Hb. destruct (Nat.lt_trichotomy a j) as [Ca|[Ca|Ca]].
  - rewrite (Top a b Ca Hb). dd; cbn [andb]; ring.
  - subst a. rewrite Nat.ltb_irrefl. cbn [andb]. unfold with_row. rewrite Nat.eqb_refl.
    destruct (Nat.lt_trichotomy b j) as [Cb|[Cb|Cb]].
    + rewrite ldlt_sym, (Top b j Cb Hj). unfold with_row. dd. ring.
    + subst b. rewrite (up_mid n j L d v w LKK dk delta Hj U UK). unfold delta, dot.
      rewrite (rsum_ext j (fun k => v k * d k * v k) (fun k => u k * v k)); [ring|].
      intros k Hk. rewrite (Rmult_comm (v k)), (dv k Hk). reflexivity.
    + rewrite (Mid b ltac:(lia)). ring.
  - destruct (Nat.lt_trichotomy b j) as [Cb|[Cb|Cb]].
    + rewrite ldlt_sym, (Top b a Cb Ha). unfold with_row. dd; cbn [andb]. rewrite (ldlt_sym n L d b a). ring.
    + subst b. rewrite ldlt_sym, (Mid a ltac:(lia)). unfold with_row. dd; cbn [andb]; ring.
    + replace a with (S j + (a - S j))%nat at 1 by lia. replace b with (S j + (b - S j))%nat at 1 by lia.
      rewrite (up_low n j L d v w LKK dk delta Hj) by lia. rewrite (SK (a - S j)%nat (b - S j)%nat) by lia.
      unfold plus_rank_one, with_row. dd. cbn [andb].
      enough (E : ldlt n L d a b = rsum j (fun k => L (S j + (a - S j))%nat k * d k * L (S j + (b - S j))%nat k)
        + ldlt (n - S j) (tailm j L) (tailv j d) (a - S j)%nat (b - S j)%nat) by (rewrite E; ring).
      unfold ldlt at 1. rewrite (rsum_three n j _ Hj). rewrite (Z2 a ltac:(lia)).
      replace (S j + (a - S j))%nat with a by lia. replace (S j + (b - S j))%nat with b by lia.
      rewrite Rmult_0_l, Rmult_0_l, Rplus_0_r. f_equal. unfold ldlt, tailm, tailv.
      replace (S j + (a - S j))%nat with a by lia. replace (S j + (b - S j))%nat with b by lia. reflexivity.
Qed.

(** the first kind of failure *)
Lemma ins_first p : (forall i, (i < j)%nat -> mv j (fun a b => L b a) p i = v i) ->
  quad n (with_row (ldlt n L d) j g) (fun i => if (i <? j)%nat then p i else if (i =? j)%nat then -1 else 0) = delta.
Proof.
  intros Ep. set (x := fun i => _).
  assert (Xt : forall i, (j < i)%nat -> x i = 0) by (intros i Hi; unfold x; dd; reflexivity).
  assert (Xj : x j = -1) by (unfold x; dd; reflexivity).
  assert (Xh : forall i, (i < j)%nat -> x i = p i) by (intros i Hi; unfold x; dd; reflexivity).
  unfold quad, dot. rewrite (rsum_head n (S j)); [|lia|intros i Hi; rewrite Xt by lia; ring].
  cbn [rsum]. rewrite Xj.
  assert (M : forall i, mv n (with_row (ldlt n L d) j g) x i = rsum j (fun b => with_row (ldlt n L d) j g i b * p b) - with_row (ldlt n L d) j g i j).
  { intros i. unfold mv. rewrite (rsum_head n (S j)); [|lia|intros b Hb; rewrite Xt by lia; ring].
    cbn [rsum]. rewrite Xj. rewrite (rsum_ext j _ (fun b => with_row (ldlt n L d) j g i b * p b)); [ring|].
    intros b Hb. rewrite Xh by assumption. reflexivity. }
  rewrite M. rewrite (rsum_ext j (fun i => x i * _) (fun i => p i * mv j (ldlt j L d) p i - p i * g i)).
  2:{ intros i Hi. rewrite Xh, M by assumption. unfold mv.
      rewrite (rsum_ext j (fun b => with_row (ldlt n L d) j g i b * p b) (fun b => ldlt j L d i b * p b)).
      - unfold with_row. dd. ring.
      - intros b Hb. unfold with_row. dd. rewrite (ldlt_top n L d i j U Hi ltac:(lia)). reflexivity. }
  rewrite rsum_minus. change (rsum j (fun i => p i * mv j (ldlt j L d) p i)) with (quad j (ldlt j L d) p).
  rewrite quad_ldlt.
  assert (Q : forall k, (k < j)%nat -> dot j p (fun i => L i k) = v k).
  { intros k Hk. rewrite <- (Ep k Hk). unfold dot, mv. apply rsum_ext. intros; ring. }
  rewrite (rsum_ext j _ (fun k => u k * v k)).
  2:{ intros k Hk. rewrite (Q k Hk), <- Rmult_assoc, (dv k Hk). reflexivity. }
  assert (G : rsum j (fun i => p i * g i) = rsum j (fun k => u k * v k)).
  { rewrite (rsum_ext j _ (fun i => rsum j (fun k => p i * L i k * u k))).
    - rewrite rsum_swap. apply rsum_ext. intros k Hk. rewrite <- (Q k Hk). unfold dot. rewrite <- rsum_scal. apply rsum_ext. intros; ring.
    - intros i Hi. rewrite <- (Eu i Hi), <- rsum_scal. apply rsum_ext. intros; ring. }
  rewrite G. rewrite (rsum_ext j (fun b => with_row (ldlt n L d) j g j b * p b) (fun i => p i * g i)).
  2:{ intros b Hb. unfold with_row. rewrite Nat.eqb_refl. ring. }
  rewrite G. unfold with_row. rewrite Nat.eqb_refl. unfold delta, dot. ring.
Qed.

(** the second kind of failure *)
Lemma ins_second p1 q : delta <> 0 ->
  (forall i, (i < j)%nat -> mv j (fun a b => L b a) p1 i = rsum (n - S j) (fun a => w a * q a) * v i - rsum (n - S j) (fun a => L (S j + a)%nat i * q a)) ->
  quad n (with_row (ldlt n L d) j g)
    (fun i => if (i <? j)%nat then p1 i else if (i =? j)%nat then - rsum (n - S j) (fun a => w a * q a) else q (i - S j)%nat) =
  quad (n - S j) (plus_rank_one (ldlt (n - S j) (tailm j L) (tailv j d)) (- delta) w) q.
Proof.
  intros Dz Ep. set (pi := rsum (n - S j) (fun a => w a * q a)) in *. set (x := fun i => _).
  set (wt := fun i => if (i <=? j)%nat then 0 else w (i - S j)%nat).
  pose proof (unit_lower_tail n j L U) as UK.
  set (Lx := block_up j L v w (tailm j L)). set (dx := d_upd j (put_tail j d (tailv j d)) delta).
  assert (Sm : same_mat n (with_row (ldlt n L d) j g) (plus_rank_one (ldlt n Lx dx) (- delta) wt)).
  { intros a b Ha Hb. unfold plus_rank_one, Lx, dx.
    rewrite (ins_entries (tailm j L) (tailv j d) 0 Dz UK) by (try assumption; intros ? ? _ _; unfold plus_rank_one; ring).
    unfold wt. dd; cbn [andb]; ring. }
  rewrite (quad_ext_mat n _ _ x Sm), quad_rank, quad_rank.
  assert (Dw : dot n x wt = dot (n - S j) q w).
  { unfold dot. rewrite (rsum_three n j _ Hj). rewrite rsum_zero.
    - unfold wt at 1. rewrite Nat.leb_refl. rewrite Rmult_0_r, !Rplus_0_l. apply rsum_ext.
      intros a Ha. unfold x, wt. dd. replace (S j + a - S j)%nat with a by lia. reflexivity.
    - intros a Ha. unfold wt. dd. ring. }
  rewrite Dw. f_equal. rewrite !quad_ldlt, (rsum_three n j _ Hj).
  assert (C : forall k, (k <= j)%nat -> dot n x (fun i => Lx i k) = 0).
  { intros k Hk. unfold dot. rewrite (rsum_three n j _ Hj).
    rewrite (rsum_ext j _ (fun i => p1 i * L i k)).
    2:{ intros i Hi. unfold x, Lx, block_up. dd. reflexivity. }
    destruct (Nat.eq_dec k j) as [E|E].
    - subst k. rewrite rsum_zero.
      + rewrite (rsum_ext (n - S j) _ (fun a => w a * q a)).
        2:{ intros a Ha. unfold x, Lx, block_up. dd. replace (S j + a - S j)%nat with a by lia. ring. }
        fold pi. unfold x, Lx, block_up. dd. ring.
      + intros i Hi. destruct U as [_ Lo]. rewrite Lo by lia. ring.
    - specialize (Ep k ltac:(lia)). unfold mv in Ep. rewrite (rsum_ext j (fun i => p1 i * L i k) (fun i => L i k * p1 i)) by (intros; ring).
      rewrite Ep. rewrite (rsum_ext (n - S j) (fun a => x (S j + a)%nat * Lx (S j + a)%nat k) (fun a => L (S j + a)%nat k * q a)).
      2:{ intros a Ha. unfold x, Lx, block_up. dd. replace (S j + a - S j)%nat with a by lia. ring. }
      unfold x, Lx, block_up. dd. ring. }
  rewrite rsum_zero by (intros k Hk; rewrite C by lia; ring). rewrite C by lia.
  rewrite !Rmult_0_r, !Rplus_0_l. apply rsum_ext. intros k Hk.
  assert (Ck : dot n x (fun i => Lx i (S j + k)%nat) = dot (n - S j) q (fun i => tailm j L i k)).
  { unfold dot. rewrite (rsum_three n j _ Hj). rewrite rsum_zero.
    - unfold Lx at 1, block_up at 1. destruct U as [_ Lo]. dd. rewrite Lo by lia. rewrite Rmult_0_r, !Rplus_0_l. apply rsum_ext.
      intros a Ha. unfold x, Lx, block_up. dd. replace (S j + a - S j)%nat with a by lia. replace (S j + k - S j)%nat with k by lia. reflexivity.
    - intros a Ha. unfold Lx, block_up. destruct U as [_ Lo]. dd. rewrite Lo by lia. ring. }
  rewrite Ck. f_equal. unfold dx, d_upd, put_tail. dd. replace (S j + k - S j)%nat with k by lia. reflexivity.
Qed.
End Ins.

Ltac ds slv E := match type of E with context [slv ?a ?b ?c0] => destruct (slv a b c0) end.

Section Main.
Variables (neps : R) (slv : solver).
Hypothesis SV : solves_systems slv.
Hypothesis Hn : 0 <= neps.

Lemma fill_scale n L s w delta : delta <> 0 -> (forall a, (a < n)%nat -> w a = s a / delta) -> no_fill n L s -> no_fill n L w.
Proof.
  intros Dz E F i k Hik Wk Lk. rewrite E in * by lia.
  assert (Sk : s k <> 0) by (intros Z; apply Wk; rewrite Z; field; exact Dz).
  intros Z. apply (F i k Hik Sk Lk). apply (Rmult_eq_reg_r (/ delta)); [|apply Rinv_neq_0_compat; exact Dz]. unfold Rdiv in Z. lra.
Qed.

Lemma up_ok n j L d g L' d' : (0 < j < n)%nat -> unit_lower n L -> positive n d -> unit_at n j (ldlt n L d) ->
  (forall s, remainder n j L g s -> no_fill (n - S j) (below j L) s) ->
  ldlup neps slv n L d j g = LdlOk L' d' ->
  unit_lower n L' /\ positive n d' /\ same_mat n (ldlt n L' d') (with_row (ldlt n L d) j g).
Proof.
  intros Hj U P Un NF E. unfold ldlup in E. destruct (Nat.eqb_spec j 0); [lia|].
  destruct (slv j L g) as [u|] eqn:Es; [|discriminate]. cbv zeta in E.
  pose proof (SV _ _ _ _ Es) as Eu. unfold mv in Eu.
  set (delta := g j - dot j u (fun i => u i / d i)) in *.
  set (w := fun a => (g (S j + a)%nat - rsum j (fun b => L (S j + a)%nat b * u b)) / delta) in *.
  destruct (Rleb delta neps) eqn:Ed; [ds slv E; discriminate|]. apply Rleb_false in Ed.
  destruct (ldlrk1 neps slv (n - S j) (tailm j L) (tailv j d) (- delta) w) as [| |LKK dk|LKK dk q] eqn:E1; try discriminate.
  2:{ ds slv E; discriminate. }
  injection E as <- <-.
  assert (F : no_fill (n - S j) (tailm j L) w).
  { apply (fill_scale _ _ (fun a => g (S j + a)%nat - rsum j (fun b => L (S j + a)%nat b * u b)) _ delta); [lra|reflexivity|].
    apply NF. exists u. split; [exact Eu|]. reflexivity. }
  destruct (rk1_ok neps slv _ _ _ _ _ _ _ (unit_lower_tail n j L U) (positive_tail n j d P) ltac:(auto) F E1) as (A & B & Q).
  split; [apply up_lower; solve [lia|assumption]|]. split; [apply up_positive with (n := n); solve [lia|assumption|lra]|].
  intros a b Ha Hb. pose proof (ins_entries n j L d g u ltac:(lia) U P Un Eu LKK dk (- delta) ltac:(fold delta; lra) A Q a b Ha Hb) as X.
  cbv zeta in X. fold delta in X. fold w in X. rewrite X. destruct (_ && _); lra.
Qed.

Lemma up_bad n j L d g L' d' p : (0 < j < n)%nat -> unit_lower n L -> positive n d -> unit_at n j (ldlt n L d) ->
  (forall s, remainder n j L g s -> no_fill (n - S j) (below j L) s) ->
  ldlup neps slv n L d j g = LdlBad L' d' p ->
  (forall a b, L' a b = L a b) /\ (forall a, d' a = d a) /\ (exists i, (i < n)%nat /\ p i <> 0) /\
  quad n (with_row (ldlt n L d) j g) p <= neps.
Proof.
  intros Hj U P Un NF E. unfold ldlup in E. destruct (Nat.eqb_spec j 0); [lia|].
  destruct (slv j L g) as [u|] eqn:Es; [|discriminate]. cbv zeta in E.
  pose proof (SV _ _ _ _ Es) as Eu. unfold mv in Eu.
  set (delta := g j - dot j u (fun i => u i / d i)) in *.
  set (w := fun a => (g (S j + a)%nat - rsum j (fun b => L (S j + a)%nat b * u b)) / delta) in *.
  destruct (Rleb delta neps) eqn:Ed.
  - match type of E with context [slv ?a ?b ?c0] => destruct (slv a b c0) as [p0|] eqn:E0 end; [|discriminate]. injection E as <- <- <-. apply Rleb_true in Ed.
    split; [reflexivity|]. split; [reflexivity|]. split.
    + exists j. split; [lia|]. dd. lra.
    + rewrite (ins_first n j L d g u ltac:(lia) U P Eu p0 (SV _ _ _ _ E0)). exact Ed.
  - apply Rleb_false in Ed.
    destruct (ldlrk1 neps slv (n - S j) (tailm j L) (tailv j d) (- delta) w) as [| |LKK dk|LKK dk q] eqn:E1; try discriminate.
    match type of E with context [slv ?a ?b ?c0] => destruct (slv a b c0) as [p1|] eqn:E2 end; [|discriminate]. injection E as <- <- <-.
    assert (F : no_fill (n - S j) (tailm j L) w).
    { apply (fill_scale _ _ (fun a => g (S j + a)%nat - rsum j (fun b => L (S j + a)%nat b * u b)) _ delta); [lra|reflexivity|].
      apply NF. exists u. split; [exact Eu|]. reflexivity. }
    destruct (rk1_bad neps slv _ _ _ _ _ _ _ _ SV (unit_lower_tail n j L U) (positive_tail n j d P) Hn F E1) as (A & B & _ & Q & k & Hk & Pk & _).
    subst LKK dk. split; [|split; [|split]].
    + intros a b. unfold block_back, tailm. dd; try reflexivity. f_equal; lia.
    + intros a. unfold put_tail, tailv. dd; try reflexivity. f_equal; lia.
    + exists (S j + k)%nat. split; [lia|]. dd. replace (S j + k - S j)%nat with k by lia. rewrite Pk. lra.
    + refine (Rle_trans _ _ _ (Req_le _ _ _) Q).
      exact (ins_second n j L d g u ltac:(lia) U P Un Eu p1 q ltac:(fold delta; lra) (SV _ _ _ _ E2)).
Qed.

Lemma up_first n L d g : (0 < n)%nat -> unit_lower n L -> positive n d -> unit_at n 0 (ldlt n L d) ->
  (g 0%nat <= neps -> ldlup neps slv n L d 0 g = LdlBad L d (unitv 0) /\ quad n (with_row (ldlt n L d) 0 g) (unitv 0) = g 0%nat) /\
  (neps < g 0%nat -> exists d', ldlup neps slv n L d 0 g = LdlOk L d' /\ positive n d' /\
     same_mat n (ldlt n L d') (with_row (ldlt n L d) 0 (fun i => if (i =? 0)%nat then g 0%nat else 0))).
Proof.
  intros H0 U P Un. destruct (unit_rows n 0 L d U P H0 Un) as (_ & Dj & Z). pose proof U as [L1 Lo]. unfold ldlup. cbn [Nat.eqb]. split.
  - intros G. rewrite (proj2 (Rleb_true _ _) G). split; [reflexivity|].
    unfold quad, dot, mv. rewrite (rsum_single n 0 _ H0).
    + unfold unitv at 1. cbn [Nat.eqb]. rewrite (rsum_single n 0 _ H0).
      * unfold unitv, with_row. cbn [Nat.eqb]. ring.
      * intros i Hi Ni. unfold unitv. dd. ring.
    + intros i Hi Ni. unfold unitv at 1. dd. ring.
  - intros G. rewrite (proj2 (Rleb_false _ _) G). eexists. split; [reflexivity|]. split.
    + intros i Hi. unfold d_upd. dd; [lra|apply P; assumption].
    + assert (T : forall a b, (a < n)%nat -> (b < n)%nat -> (a = 0)%nat -> ldlt n L (d_upd 0 d (g 0%nat)) a b = if (b =? 0)%nat then g 0%nat else 0).
      { intros a b Ha Hb ->. rewrite (ldlt_top n L _ 0 1 U ltac:(lia) ltac:(lia)). cbn [rsum]. rewrite (L1 0%nat) by lia. unfold d_upd. cbn [Nat.eqb].
        dd; [subst; rewrite L1 by lia; ring|rewrite Z by lia; ring]. }
      intros a b Ha Hb. unfold with_row. destruct (Nat.eqb_spec a 0) as [Xa|Xa].
      * apply T; assumption.
      * destruct (Nat.eqb_spec b 0) as [Xb|Xb]; [rewrite ldlt_sym, T by assumption; dd; reflexivity|].
        unfold ldlt. apply rsum_ext. intros k Hk. unfold d_upd. dd; [|reflexivity]. subst k. rewrite Z by lia. ring.
Qed.
End Main.

Lemma down_ok neps slv n j L d : (j < n)%nat -> unit_lower n L -> positive n d ->
  no_fill (n - S j) (below j L) (fun a => L (S j + a)%nat j) ->
  exists L' d', ldldown neps slv n L d j = Some (L', d') /\
  unit_lower n L' /\ positive n d' /\ same_mat n (ldlt n L' d') (with_row (ldlt n L d) j (unitv j)).
Proof.
  intros Hj U P F. unfold ldldown. pose proof (P j Hj) as Dj.
  destruct (rk1_positive neps slv (n - S j) (tailm j L) (tailv j d) (d j) (fun a => L (S j + a)%nat j) Dj (positive_tail n j d P)) as (LKK & dk & E).
  rewrite E. do 2 eexists. split; [reflexivity|].
  destruct (rk1_ok neps slv _ _ _ _ _ _ _ (unit_lower_tail n j L U) (positive_tail n j d P) (fun X => False_ind _ (Rlt_irrefl 0 (Rlt_trans _ _ _ Dj X))) F E) as (UK & Pk & Q).
  pose proof U as [L1 Lo]. pose proof UK as [K1 Ko].
  assert (U' : unit_lower n (block_down j L LKK)).
  { split.
    - intros i Hi. unfold block_down. dd; try reflexivity; [apply L1; lia|apply K1; lia].
    - intros a b Hab. unfold block_down. dd; try reflexivity; try (apply Lo; lia). apply Ko. lia. }
  split; [exact U'|]. split.
  { intros i Hi. unfold d_upd, put_tail. dd; try lra; [apply P; lia|apply Pk; lia]. }
  set (L' := block_down j L LKK) in *. set (d' := d_upd j (put_tail j d dk) 1).
  assert (Top : forall a b, (a < j)%nat -> (b < n)%nat -> b <> j -> ldlt n L' d' a b = ldlt n L d a b).
  { intros a b Ha Hb Nb. rewrite (ldlt_top n L' d' a j U' Ha), (ldlt_top n L d a j U Ha) by lia. apply rsum_ext. intros k Hk.
    unfold L', d', block_down, d_upd, put_tail. dd; reflexivity. }
  assert (Mid : forall b, (b < n)%nat -> ldlt n L' d' j b = unitv j b).
  { intros b Hb. rewrite (ldlt_top n L' d' j (S j) U') by lia. cbn [rsum]. rewrite rsum_zero.
    - unfold L', d', block_down, d_upd, put_tail, unitv. dd; try ring. rewrite Lo by lia. ring.
    - intros k Hk. unfold L', block_down. dd; ring. }
  intros a b Ha Hb. unfold with_row. destruct (Nat.eqb_spec a j) as [Ca|Ca]; [subst a; apply Mid; assumption|].
  destruct (Nat.eqb_spec b j) as [Cb|Cb]; [subst b; rewrite ldlt_sym; apply Mid; assumption|].
  destruct (Nat.ltb_spec a j) as [Ha'|Ha']; [apply Top; assumption|].
  destruct (Nat.ltb_spec b j) as [Hb'|Hb']; [rewrite ldlt_sym, (ldlt_sym n L d a b); apply Top; assumption|].
  unfold ldlt. rewrite !(rsum_three n j _ Hj). specialize (Q (a - S j)%nat (b - S j)%nat ltac:(lia) ltac:(lia)).
  unfold plus_rank_one, ldlt, tailm, tailv in Q.
  replace (S j + (a - S j))%nat with a in Q by lia. replace (S j + (b - S j))%nat with b in Q by lia.
  rewrite (rsum_ext j (fun k => L' a k * d' k * L' b k) (fun k => L a k * d k * L b k)).
  2:{ intros k Hk. unfold L', d', block_down, d_upd, put_tail. dd; reflexivity. }
  rewrite (rsum_ext (n - S j) (fun k => L' a (S j + k)%nat * d' (S j + k)%nat * L' b (S j + k)%nat)
     (fun k => LKK (a - S j)%nat k * dk k * LKK (b - S j)%nat k)).
  2:{ intros k Hk. unfold L', d', block_down, d_upd, put_tail. dd. replace (S j + k - S j)%nat with k by lia. reflexivity. }
  rewrite Q. unfold L' at 1 2, block_down. dd. ring.
Qed.
