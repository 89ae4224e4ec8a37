(** Witnesses for the properties of the complete search of minq. *)
From Coq Require Import Reals List Arith ZArith Lra Lia Bool FunctionalExtensionality.
From Verif Require Import RVec RBool MinQ_Model MinQ_Spec MinQ_Proofs LDL_Model LDL_Spec LDL_Wit MinS_Model MinS_Spec MinS_Proofs.
Import ListNotations.
Open Scope R_scope.

(** a solver for systems in which only variables 1 and 2 are coupled; the answer is checked *)
Definition cand (A : mat) (b : vec) : vec := fun i =>
  if (i =? 1)%nat then b 1%nat - A 1%nat 2%nat * b 2%nat
  else if (i =? 2)%nat then b 2%nat - A 2%nat 1%nat * b 1%nat else b i.
Definition slvW : solver := fun n A b =>
  if forallb (fun i => Reqb (mv n A (cand A b) i) (b i)) (seq 0 n) then Some (cand A b) else None.
Lemma slvW_solves : solves_systems slvW.
Proof.
  intros n A b x E i Hi. unfold slvW in E. destruct (forallb _ _) eqn:F; [|discriminate]. injection E as <-.
  rewrite forallb_forall in F. specialize (F i ltac:(apply in_seq; lia)). apply Reqb_true in F. exact F.
Qed.
Lemma slvW_some n A b : (forall i, (i < n)%nat -> mv n A (cand A b) i = b i) -> slvW n A b = Some (cand A b).
Proof.
  intros H. unfold slvW. rewrite (proj2 (forallb_forall _ _)); [reflexivity|].
  intros i Hi. apply in_seq in Hi. apply Reqb_true. apply H. lia.
Qed.

(** lists as vectors of booleans and bounds *)
Definition lb_ (l : list bool) : nat -> bool := fun i => nth i l false.
Definition lx (l : list R) : nat -> xR := fun i => Fin (nth i l 0).

(** ** coordinate steps *)
Section Steps.
Variables (G : mat) (xu xo : nat -> xR) (x g : vec) (fr : nat -> bool) (k : nat) (u o : R).
Hypothesis U : xu k = Fin u.
Hypothesis O : xo k = Fin o.
Let s := {| cs_x := x; cs_g := g; cs_free := fr |}.

Lemma step_free t : 0 < G k k -> g k + G k k * t = 0 -> u < x k + t < o -> t <> 0 ->
  coord_step G xu xo s k = inl ({| cs_x := upd x k (x k + t); cs_g := vadd g (vscal t (fun i => G i k)); cs_free := upd fr k true |}, false).
Proof.
  intros A E B T. unfold coord_step, s. cbn [cs_x cs_g cs_free]. rewrite U, O. cbn [xsub].
  assert (Q : - g k / G k k = t) by (apply (Rmult_eq_reg_r (G k k)); [unfold Rdiv; rewrite Rmult_assoc, Rinv_l by lra; lra|lra]).
  unfold quadMin. cbn [is_ninf is_pinf andb orb]. rewrite (proj2 (Reqb_false (G k k) 0)) by lra. cbn [andb].
  rewrite (proj2 (Rleb_false (G k k) 0)) by lra. cbn [rlex xler]. rewrite Q.
  rewrite (proj2 (Rleb_false t (u - x k))) by lra. rewrite (proj2 (Rleb_false (o - x k) t)) by lra. cbn [qm_x qm_lba qm_uba xval orb].
  rewrite (proj2 (Rleb_false (x k + t) u)) by lra. rewrite (proj2 (Rleb_false o (x k + t))) by lra.
  rewrite (proj2 (Reqb_false t 0)) by exact T. reflexivity.
Qed.
Lemma step_stay : 0 < G k k -> g k = 0 -> u < x k < o -> coord_step G xu xo s k = inl (s, false).
Proof.
  intros A E B. unfold coord_step, s. cbn [cs_x cs_g cs_free]. rewrite U, O. cbn [xsub].
  assert (Q : - g k / G k k = 0) by (rewrite E; field; lra).
  unfold quadMin. cbn [is_ninf is_pinf andb orb]. rewrite (proj2 (Reqb_false (G k k) 0)) by lra. cbn [andb].
  rewrite (proj2 (Rleb_false (G k k) 0)) by lra. cbn [rlex xler]. rewrite Q.
  rewrite (proj2 (Rleb_false 0 (u - x k))) by lra. rewrite (proj2 (Rleb_false (o - x k) 0)) by lra. cbn [qm_x qm_lba qm_uba xval orb].
  rewrite (proj2 (Rleb_false (x k + 0) u)) by lra. rewrite (proj2 (Rleb_false o (x k + 0))) by lra.
  rewrite (proj2 (Reqb_true 0 0)) by reflexivity. reflexivity.
Qed.
Lemma step_low : 0 < G k k -> 0 <= g k -> x k = u -> u < o ->
  coord_step G xu xo s k = inl ({| cs_x := x; cs_g := g; cs_free := upd fr k false |}, false).
Proof.
  intros A E B C. unfold coord_step, s. cbn [cs_x cs_g cs_free]. rewrite U, O. cbn [xsub].
  assert (Q : - g k / G k k <= 0).
  { apply (Rmult_le_reg_r (G k k)); [exact A|]. unfold Rdiv. rewrite Rmult_assoc, Rinv_l by lra. lra. }
  unfold quadMin. cbn [is_ninf is_pinf andb orb]. rewrite (proj2 (Reqb_false (G k k) 0)) by lra. cbn [andb].
  rewrite (proj2 (Rleb_false (G k k) 0)) by lra. cbn [rlex xler].
  rewrite (proj2 (Rleb_true (- g k / G k k) (u - x k))) by lra. rewrite (proj2 (Rleb_false (o - x k) (- g k / G k k))) by lra.
  cbn [qm_x qm_lba qm_uba xval orb xnz]. rewrite (proj2 (Reqb_true (u - x k) 0)) by lra. reflexivity.
Qed.
End Steps.

(** ** sweeps in which every variable may be tried and no bound is reached *)
Lemma loop_next f n G xu xo s count tr : (2 <= n)%nat -> (count < n)%nat ->
  coord_loop (S f) n G xu xo true s count (Z.of_nat count - 1) tr =
  match coord_step G xu xo s count with
  | inr lower => CSUnbounded count lower s (count :: tr)
  | inl (s', reset) => coord_loop f n G xu xo true s' (if reset then 0%nat else S count) (Z.of_nat (S count) - 1) (count :: tr)
  end.
Proof.
  intros Hn Hc. cbn [coord_loop]. replace (n + 1 - count)%nat with (S (n - count)) by lia. cbn [scan].
  rewrite orb_true_r. unfold next_k. destruct (Z.eqb_spec (Z.of_nat count - 1) (Z.of_nat n - 1)); [lia|].
  destruct (Z.leb_spec (Z.of_nat n) (Z.of_nat count - 1 + 1)); [lia|].
  rewrite (proj2 (Nat.ltb_ge n (S count))) by lia. replace (Z.to_nat (Z.of_nat count - 1 + 1)) with count by lia.
  replace (Z.of_nat (S count) - 1)%Z with (Z.of_nat count) by lia. reflexivity.
Qed.
Lemma loop_end f n G xu xo s tr : (2 <= n)%nat -> coord_loop (S f) n G xu xo true s n (Z.of_nat n - 1) tr = CSDone s tr.
Proof.
  intros Hn. cbn [coord_loop]. replace (n + 1 - n)%nat with 1%nat by lia. cbn [scan]. rewrite orb_true_r. unfold next_k.
  rewrite Z.eqb_refl. destruct (Z.leb_spec (Z.of_nat n) (0 + 1)); [lia|].
  rewrite (proj2 (Nat.ltb_lt n (S n))) by lia. reflexivity.
Qed.

Lemma search_start f n G xu xo s : coordinateSearch f n G xu xo true s = coord_loop f n G xu xo true s 0 (Z.of_nat 0 - 1) [].
Proof. reflexivity. Qed.

Ltac ext3 := let i := fresh "i" in apply functional_extensionality; intros i; destruct i as [|[|[|i]]]; cbn; try reflexivity; try lra;
  try (destruct i; cbn; try reflexivity; try lra).

(** the data before the diagonal is multiplied *)
Definition undiag (neps : R) (G : mat) : mat := fun i j => if (i =? j)%nat then G i j / (1 + neps) else G i j.
Lemma regular_undiag neps G : 0 <= neps -> regular neps (undiag neps G) = G.
Proof.
  intros H. apply functional_extensionality; intros i. apply functional_extensionality; intros j. unfold regular, undiag.
  destruct (i =? j)%nat; [field; lra|reflexivity].
Qed.

Ltac vals := cbn [lv lm lb_ lx nth m_x m_g m_free m_unfix m_nitref m_improved m_fval m_nfree m_nfree_old m_nsub m_L m_d m_K cs_x cs_g cs_free].

(** ** a run that ends with -1 *)
Definition G3 : mat := lm [[2; 1; -1]; [1; 2; -1]; [-1; -1; 1]].
Definition c3 : vec := lv [2; 1; -3].
Definition lo3 : nat -> xR := lx [-1; -3; -1].
Definition hi3 : nat -> xR := lx [5; 2; 5].
Definition st3 : vec := lv [0; -2; 0].

Lemma box3 : into_box lo3 hi3 st3 = lv [0; -2; 0].
Proof.
  apply functional_extensionality; intros i. unfold into_box, lo3, hi3, st3, lx, lv.
  destruct i as [|[|[|i]]]; cbn; try (destruct i; cbn); unfold Rmin, Rmax;
    repeat match goal with |- context [Rle_dec ?a ?b] => lazymatch b with context [Rle_dec _ _] => fail | _ => destruct (Rle_dec a b) end end; lra.
Qed.

Lemma cs3 : coordinateSearch 4 3 G3 lo3 hi3 true {| cs_x := lv [0; -2; 0]; cs_g := calc_g 3 G3 c3 (lv [0; -2; 0]); cs_free := fun _ => false |} =
  CSDone {| cs_x := lv [0; -1/2; 5/2]; cs_g := lv [-1; -5/2; 0]; cs_free := lb_ [false; true; true] |} [2; 1; 0]%nat.
Proof.
  replace (calc_g 3 G3 c3 (lv [0; -2; 0])) with (lv [0; -3; -1]).
  2:{ unfold calc_g, mv, G3, c3. apply functional_extensionality; intros i. destruct i as [|[|[|i]]]; cbn; try lra. destruct i; cbn; lra. }
  rewrite search_start.
  rewrite loop_next by lia. rewrite (step_stay G3 lo3 hi3 _ _ _ 0 (-1) 5) by (cbn; try reflexivity; lra). cbn [andb].
  rewrite loop_next by lia. rewrite (step_free G3 lo3 hi3 _ _ _ 1 (-3) 2 eq_refl eq_refl (3/2)) by (cbn; lra).
  replace (upd (lv [0; -2; 0]) 1 (lv [0; -2; 0] 1%nat + 3 / 2)) with (lv [0; -1/2; 0]) by (ext3).
  replace (vadd (lv [0; -3; -1]) (vscal (3 / 2) (fun i => G3 i 1%nat))) with (lv [3/2; 0; -5/2]) by (unfold vadd, vscal; ext3).
  rewrite loop_next by lia. rewrite (step_free G3 lo3 hi3 _ _ _ 2 (-1) 5 eq_refl eq_refl (5/2)) by (cbn; lra).
  replace (upd (lv [0; -1/2; 0]) 2 (lv [0; -1/2; 0] 2%nat + 5 / 2)) with (lv [0; -1/2; 5/2]) by (ext3).
  replace (vadd (lv [3/2; 0; -5/2]) (vscal (5 / 2) (fun i => G3 i 2%nat))) with (lv [-1; -5/2; 0]) by (unfold vadd, vscal; ext3).
  rewrite loop_end by lia. replace (upd (upd (fun _ : nat => false) 1 true) 2 true) with (lb_ [false; true; true]) by ext3. reflexivity.
Qed.

(** ** the subspace step *)
Section Sub.
Variables (neps : R) (n : nat) (G : mat) (xu xo : nat -> xR) (s : mqstate).
Lemma sub_ok L1 d1 (K1 : nat -> bool) L2 d2 K2 p r al :
  downdate neps slvW n (filter (fun i => negb (m_free s i) && m_K s i) (seq 0 n)) (m_L s) (m_d s) (m_K s) = Some (L1, d1, K1) ->
  update neps slvW n G (filter (fun i => m_free s i && negb (K1 i)) (seq 0 n)) L1 d1 K1 = Some (L2, d2, K2) ->
  newton slvW n L2 d2 K2 (m_g s) = Some (Some p) ->
  quadMin (range_low n xu xo (m_x s) p) (range_high n xu xo (m_x s) p) (slope neps n (m_g s) p) (quad n G p) = r ->
  qm_x r = Some (Fin al) ->
  subspace neps slvW n G xu xo s =
  SubDone {| m_x := moved xu xo (m_x s) p al; m_g := m_g s; m_free := still_free xu xo (m_x s) p (m_free s) al;
             m_unfix := negb (qm_lba r || qm_uba r); m_nitref := m_nitref s; m_improved := m_improved s; m_fval := m_fval s;
             m_nfree := count_free n (still_free xu xo (m_x s) p (m_free s) al); m_nfree_old := m_nfree_old s; m_nsub := S (m_nsub s);
             m_L := L2; m_d := d2; m_K := K2 |}.
Proof. intros A B C D E. unfold subspace. rewrite A, B, C, D, E. reflexivity. Qed.

Lemma newton_ok (L : mat) (d : vec) (K : nat -> bool) (g y z p : vec) :
  slvW n L (fun i => if K i then g i else 0) = Some y -> existsb (fun i => Reqb (d i) 0) (seq 0 n) = false ->
  slvW n (fun i j => L j i) (fun i => y i / d i) = Some z -> vneg z = p -> newton slvW n L d K g = Some (Some p).
Proof. intros A B C <-. unfold newton. rewrite A, B, C. reflexivity. Qed.

(** the two ways the step size is chosen below *)
Lemma qm_in a b s0 q : 0 < q -> a < - s0 / q < b ->
  quadMin (Fin a) (Fin b) s0 q = {| qm_x := Some (Fin (- s0 / q)); qm_lba := false; qm_uba := false; qm_ier := false |}.
Proof.
  intros Q H. unfold quadMin. cbn [is_ninf is_pinf andb orb]. rewrite (proj2 (Reqb_false q 0)) by lra. cbn [andb].
  rewrite (proj2 (Rleb_false q 0)) by lra. cbn [rlex xler]. rewrite (proj2 (Rleb_false (- s0 / q) a)) by lra.
  rewrite (proj2 (Rleb_false b (- s0 / q))) by lra. reflexivity.
Qed.
Lemma qm_high a b s0 q : 0 < q -> a < - s0 / q -> b <= - s0 / q ->
  quadMin (Fin a) (Fin b) s0 q = {| qm_x := Some (Fin b); qm_lba := false; qm_uba := true; qm_ier := false |}.
Proof.
  intros Q H H2. unfold quadMin. cbn [is_ninf is_pinf andb orb]. rewrite (proj2 (Reqb_false q 0)) by lra. cbn [andb].
  rewrite (proj2 (Rleb_false q 0)) by lra. cbn [rlex xler]. rewrite (proj2 (Rleb_false (- s0 / q) a)) by lra.
  rewrite (proj2 (Rleb_true b (- s0 / q))) by lra. reflexivity.
Qed.
End Sub.

Definition state3 : mqstate := after_coord 3 G3 c3 0 (mq_init lo3 hi3 st3)
  {| cs_x := lv [0; -1/2; 5/2]; cs_g := lv [-1; -5/2; 0]; cs_free := lb_ [false; true; true] |} 2.
Lemma state3_eq : state3 = {| m_x := lv [0; -1/2; 5/2]; m_g := lv [-1; -5/2; 0]; m_free := lb_ [false; true; true]; m_unfix := true;
  m_nitref := 0; m_improved := true; m_fval := Some 2; m_nfree := 2; m_nfree_old := Some 2%nat; m_nsub := 0; m_L := idm; m_d := fun _ => 1; m_K := fun _ => false |}.
Proof.
  unfold state3, after_coord, mq_init, count_free. cbn [m_x m_g m_free m_unfix m_nitref m_improved m_fval m_nfree m_nfree_old m_nsub m_L m_d m_K cs_x cs_g cs_free same_count andb lb_ nth seq filter List.length negb orb].
  rewrite (proj2 (Rltb_true _ _)); [reflexivity|]. unfold dot, c3. cbn. lra.
Qed.

Lemma filter_none {A} (f : A -> bool) l : (forall x, In x l -> f x = false) -> filter f l = [].
Proof. induction l as [|a l IH]; intros H; cbn; [reflexivity|]. rewrite (H a) by (left; reflexivity). apply IH. intros x Hx. apply H. right. exact Hx. Qed.
Definition w_of (j : nat) (L : mat) (g u : vec) (delta : R) : vec := fun a => (g (S j + a)%nat - rsum j (fun b => L (S j + a)%nat b * u b)) / delta.
Lemma ldlup_plain neps n L d j g u delta : (j =? 0)%nat = false -> slvW j L g = Some u -> g j - dot j u (fun i => u i / d i) = delta ->
  neps < delta -> 0 < delta -> (forall a, (a < n - S j)%nat -> w_of j L g u delta a = 0) ->
  ldlup neps slvW n L d j g = LdlOk (block_up j L (fun i => u i / d i) (w_of j L g u delta) (tailm j L)) (d_upd j (put_tail j d (tailv j d)) delta).
Proof.
  intros J E D N P W. unfold ldlup. rewrite J, E, D. rewrite (proj2 (Rleb_false delta neps)) by lra. fold (w_of j L g u delta).
  unfold ldlrk1. rewrite (proj2 (Reqb_false (- delta) 0)) by lra.
  replace (nonzero (n - S j) (w_of j L g u delta)) with (@nil nat); [reflexivity|].
  symmetry. unfold nonzero. apply (filter_none (fun k => negb (Reqb (w_of j L g u delta k) 0))). intros a Ha. apply in_seq in Ha.
  rewrite (proj2 (Reqb_true _ _)) by (apply W; lia). reflexivity.
Qed.

Lemma upd3 neps : 0 <= neps <= 1/1000 -> exists L2 d2, update neps slvW 3 G3 [1; 2]%nat idm (fun _ => 1) (fun _ => false) = Some (L2, d2, upd (upd (fun _ => false) 1 true) 2 true) /\
  newton slvW 3 L2 d2 (upd (upd (fun _ : nat => false) 1 true) 2 true) (lv [-1; -5/2; 0]) = Some (Some (lv [0; 5/2; 5/2])).
Proof.
  intros N. cbn [update].
  erewrite ldlup_plain with (delta := 2); [|reflexivity|apply slvW_some; intros i Hi; small i; unfold mv, cand, new_col; cbn; lra
    |unfold dot, cand, new_col; cbn; lra|lra|lra|intros a Ha; small a; unfold w_of, cand, new_col; cbn; field].
  erewrite ldlup_plain with (delta := 1/2); [|reflexivity|apply slvW_some; intros i Hi; small i; unfold mv, cand, new_col; cbn; try field
    |unfold dot, cand, new_col; cbn; try field|lra|lra|intros a Ha; lia].
  do 2 eexists. split; [reflexivity|].
  eapply newton_ok.
  - apply slvW_some. intros i Hi. small i; unfold mv, cand, new_col; cbn; try field.
  - cbn. repeat (rewrite (proj2 (Reqb_false _ _)) by lra). reflexivity.
  - apply slvW_some. intros i Hi. small i; unfold mv, cand, new_col; cbn; try field.
  - unfold vneg, cand, new_col. apply functional_extensionality; intros i. destruct i as [|[|[|i]]]; cbn; try field. destruct i; cbn; field; unfold tailv; lra.
Qed.

Definition p3 : vec := lv [0; 5/2; 5/2].
Ltac cmp := repeat match goal with
  | |- context [Reqb ?x ?y] => first [rewrite (proj2 (Reqb_true x y)) by lra | rewrite (proj2 (Reqb_false x y)) by lra]
  | |- context [Rltb ?x ?y] => first [rewrite (proj2 (Rltb_true x y)) by lra | rewrite (proj2 (Rltb_false x y)) by lra]
  | |- context [Rleb ?x ?y] => first [rewrite (proj2 (Rleb_true x y)) by lra | rewrite (proj2 (Rleb_false x y)) by lra]
  end.
Lemma moving3 : moving 3 p3 = [1; 2]%nat.
Proof. unfold moving, p3. cbn [seq filter]. cbn [lv nth]. cmp. reflexivity. Qed.
Lemma low3 : range_low 3 lo3 hi3 (lv [0; -1/2; 5/2]) p3 = Fin (-1).
Proof.
  unfold range_low. rewrite moving3. cbn [fold_right]. unfold to_upper, to_lower, p3, lo3, hi3, lx. cbn [lv nth xsub xdiv]. cmp. cbn [xmax].
  f_equal. unfold Rmax. destruct (Rle_dec _ _); lra.
Qed.
Lemma high3 : range_high 3 lo3 hi3 (lv [0; -1/2; 5/2]) p3 = Fin 1.
Proof.
  unfold range_high. rewrite moving3. cbn [fold_right]. unfold to_upper, to_lower, p3, lo3, hi3, lx. cbn [lv nth xsub xdiv]. cmp. cbn [xmin].
  f_equal. unfold Rmin. destruct (Rle_dec _ _); lra.
Qed.
Lemma slope3 neps : 0 <= neps <= 1/1000 -> slope neps 3 (lv [-1; -5/2; 0]) p3 = -25/4.
Proof.
  intros N. unfold slope, dot, p3. cbn [rsum lv nth].
  replace (Rabs (-5 / 2)) with (5/2) by (rewrite Rabs_left; lra). replace (Rabs (5 / 2)) with (5/2) by (rewrite Rabs_right; lra).
  rewrite Rabs_R0. replace (Rabs (-1)) with 1 by (rewrite Rabs_left; lra).
  match goal with |- context [Rltb (Rabs ?a)] => replace a with (-25/4) by field end. rewrite Rabs_left by lra.
  rewrite (proj2 (Rltb_false _ _)) by lra. reflexivity.
Qed.
Lemma quad3 : quad 3 G3 p3 = 25/4.
Proof. unfold quad, dot, mv, G3, p3. cbn. field. Qed.

Lemma sub3 neps : 0 <= neps <= 1/1000 -> exists L d, subspaceSearch neps slvW 3 G3 lo3 hi3 state3 =
  SubDone {| m_x := lv [0; 2; 5]; m_g := lv [-1; -5/2; 0]; m_free := fun _ => false; m_unfix := false; m_nitref := 0; m_improved := true;
    m_fval := Some 2; m_nfree := 0; m_nfree_old := Some 2%nat; m_nsub := 1; m_L := L; m_d := d; m_K := upd (upd (fun _ => false) 1 true) 2 true |}.
Proof.
  intros N. destruct (upd3 neps N) as (L & d & EU & EN). exists L, d.
  unfold subspaceSearch. rewrite state3_eq. cbn [m_improved m_nitref m_nfree negb orb Nat.ltb Nat.leb Nat.eqb].
  erewrite sub_ok; [|vals; reflexivity|vals; exact EU|vals; exact EN
    |vals; fold p3; rewrite low3, high3, slope3, quad3 by exact N; apply qm_high; lra|reflexivity].
  vals. cbn [qm_lba qm_uba orb negb]. fold p3.
  replace (moved lo3 hi3 (lv [0; -1/2; 5/2]) p3 1) with (lv [0; 2; 5]).
  2:{ apply functional_extensionality; intros i. unfold moved, to_lower, to_upper, p3, lo3, hi3, lx.
      destruct i as [|[|[|i]]]; cbn [lv nth xsub xdiv xis xval]; cmp; try reflexivity. destruct i; cbn; cmp; reflexivity. }
  replace (still_free lo3 hi3 (lv [0; -1/2; 5/2]) p3 (lb_ [false; true; true]) 1) with (fun _ : nat => false).
  2:{ apply functional_extensionality; intros i. unfold still_free, to_lower, to_upper, p3, lo3, hi3, lx.
      destruct i as [|[|[|i]]]; cbn [lv lb_ nth xsub xdiv xis xval]; cmp; cbn; try reflexivity. destruct i; cbn; cmp; reflexivity. }
  reflexivity.
Qed.

(** one pass of the main loop *)
Lemma pass neps n G c gamma xu xo k cf s f cs a tr s' : stop_reason n G c gamma s = None -> best_value n G c gamma s = f ->
  coordinateSearch cf n G xu xo (m_unfix s) {| cs_x := m_x s; cs_g := calc_g n G c (m_x s); cs_free := m_free s |} = CSDone cs (a :: tr) ->
  subspaceSearch neps slvW n G xu xo (after_coord n G c gamma s cs f) = SubDone s' ->
  mq_loop neps slvW n G c gamma xu xo (S k) cf s = mq_loop neps slvW n G c gamma xu xo k cf s'.
Proof. intros A <- C D. cbn [mq_loop]. rewrite A, C, D. reflexivity. Qed.

Lemma run3 neps : 0 <= neps <= 1/1000 ->
  exists f, mq_loop neps slvW 3 G3 c3 0 lo3 hi3 2 4 (mq_init lo3 hi3 st3) = MqReturn NothingTried (lv [0; 2; 5]) (Some f) (-1) 1.
Proof.
  intros N. destruct (sub3 neps N) as (L & d & ES). eexists.
  erewrite pass; [|reflexivity| |cbn [mq_init m_x m_unfix m_free]; rewrite box3; exact cs3|exact ES].
  - cbn [mq_loop]. unfold stop_reason. vals. cbn [Nat.eqb Nat.mul Nat.add andb negb Nat.ltb Nat.leb]. reflexivity.
  - unfold best_value. cbn [mq_init m_x m_nitref m_fval Nat.eqb]. rewrite box3. unfold calc_fval, calc_g, mv, dot, G3, c3. cbn. field.
Qed.

(** ** a run that ends with 0 away from the minimiser *)
Definition G2 : mat := lm [[2; -1]; [-1; 1]].
Definition c2 : vec := lv [2; -3].
Definition lo2 : nat -> xR := lx [0; 0].
Definition hi2 : nat -> xR := lx [1; 4].
Definition st2 : vec := lv [0; 0].
Lemma box2 : into_box lo2 hi2 st2 = lv [0; 0].
Proof.
  apply functional_extensionality; intros i. unfold into_box, lo2, hi2, st2, lx, lv.
  destruct i as [|[|i]]; cbn; try (destruct i; cbn); unfold Rmin, Rmax;
    repeat match goal with |- context [Rle_dec ?a ?b] => lazymatch b with context [Rle_dec _ _] => fail | _ => destruct (Rle_dec a b) end end; lra.
Qed.

Ltac ext2 := let i := fresh "i" in apply functional_extensionality; intros i; destruct i as [|[|i]]; cbn; try reflexivity; try lra;
  try (destruct i; cbn; try reflexivity; try lra).
Definition id2 (L : mat) : Prop := L 0%nat 0%nat = 1 /\ L 0%nat 1%nat = 0 /\ L 1%nat 0%nat = 0 /\ L 1%nat 1%nat = 1.

Lemma cs2a : coordinateSearch 3 2 G2 lo2 hi2 true {| cs_x := lv [0; 0]; cs_g := calc_g 2 G2 c2 (lv [0; 0]); cs_free := fun _ => false |} =
  CSDone {| cs_x := lv [0; 3]; cs_g := lv [-1; 0]; cs_free := lb_ [false; true] |} [1; 0]%nat.
Proof.
  replace (calc_g 2 G2 c2 (lv [0; 0])) with (lv [2; -3]) by (unfold calc_g, mv, G2, c2; ext2).
  rewrite search_start.
  rewrite loop_next by lia. rewrite (step_low G2 lo2 hi2 _ _ _ 0 0 1) by (cbn; try reflexivity; lra). cbn [andb].
  rewrite loop_next by lia. rewrite (step_free G2 lo2 hi2 _ _ _ 1 0 4 eq_refl eq_refl 3) by (cbn; lra).
  replace (upd (lv [0; 0]) 1 (lv [0; 0] 1%nat + 3)) with (lv [0; 3]) by ext2.
  replace (vadd (lv [2; -3]) (vscal 3 (fun i => G2 i 1%nat))) with (lv [-1; 0]) by (unfold vadd, vscal; ext2).
  rewrite loop_end by lia. replace (upd (upd (fun _ : nat => false) 0 false) 1 true) with (lb_ [false; true]) by ext2. reflexivity.
Qed.
Lemma cs2b : coordinateSearch 3 2 G2 lo2 hi2 true {| cs_x := lv [0; 3]; cs_g := calc_g 2 G2 c2 (lv [0; 3]); cs_free := lb_ [false; true] |} =
  CSDone {| cs_x := lv [1/2; 7/2]; cs_g := lv [-1/2; 0]; cs_free := lb_ [true; true] |} [1; 0]%nat.
Proof.
  replace (calc_g 2 G2 c2 (lv [0; 3])) with (lv [-1; 0]) by (unfold calc_g, mv, G2, c2; ext2).
  rewrite search_start.
  rewrite loop_next by lia. rewrite (step_free G2 lo2 hi2 _ _ _ 0 0 1 eq_refl eq_refl (1/2)) by (cbn; lra).
  replace (upd (lv [0; 3]) 0 (lv [0; 3] 0%nat + 1/2)) with (lv [1/2; 3]) by ext2.
  replace (vadd (lv [-1; 0]) (vscal (1/2) (fun i => G2 i 0%nat))) with (lv [0; -1/2]) by (unfold vadd, vscal; ext2).
  rewrite loop_next by lia. rewrite (step_free G2 lo2 hi2 _ _ _ 1 0 4 eq_refl eq_refl (1/2)) by (cbn; lra).
  replace (upd (lv [1/2; 3]) 1 (lv [1/2; 3] 1%nat + 1/2)) with (lv [1/2; 7/2]) by ext2.
  replace (vadd (lv [0; -1/2]) (vscal (1/2) (fun i => G2 i 1%nat))) with (lv [-1/2; 0]) by (unfold vadd, vscal; ext2).
  rewrite loop_end by lia. replace (upd (upd (lb_ [false; true]) 0 true) 1 true) with (lb_ [true; true]) by ext2. reflexivity.
Qed.
Lemma cs2c : coordinateSearch 3 2 G2 lo2 hi2 true {| cs_x := lv [3/4; 7/2]; cs_g := calc_g 2 G2 c2 (lv [3/4; 7/2]); cs_free := lb_ [true; true] |} =
  CSDone {| cs_x := lv [3/4; 15/4]; cs_g := lv [-1/4; 0]; cs_free := lb_ [true; true] |} [1; 0]%nat.
Proof.
  replace (calc_g 2 G2 c2 (lv [3/4; 7/2])) with (lv [0; -1/4]) by (unfold calc_g, mv, G2, c2; ext2).
  rewrite search_start.
  rewrite loop_next by lia. rewrite (step_stay G2 lo2 hi2 _ _ _ 0 0 1) by (cbn; try reflexivity; lra). cbn [andb].
  rewrite loop_next by lia. rewrite (step_free G2 lo2 hi2 _ _ _ 1 0 4 eq_refl eq_refl (1/4)) by (cbn; lra).
  replace (upd (lv [3/4; 7/2]) 1 (lv [3/4; 7/2] 1%nat + 1/4)) with (lv [3/4; 15/4]) by ext2.
  replace (vadd (lv [0; -1/4]) (vscal (1/4) (fun i => G2 i 1%nat))) with (lv [-1/4; 0]) by (unfold vadd, vscal; ext2).
  rewrite loop_end by lia. replace (upd (lb_ [true; true]) 1 true) with (lb_ [true; true]) by ext2. reflexivity.
Qed.

(** only variable 0 moves: the point, the marks and the other quantities of such a step *)
Lemma new2 L (d : vec) K a b : id2 L -> d 0%nat = 2 -> d 1%nat = 1 -> K 0%nat = true -> (forall i, K (S (S i)) = false) -> b = - a / 2 ->
  newton slvW 2 L d K (lv [a; 0]) = Some (Some (lv [b; 0])).
Proof.
  intros (A & B & C & D) D0 D1 K0 K2 ->.
  eapply newton_ok.
  - apply slvW_some. intros i Hi. small i; unfold mv, cand; cbn; rewrite ?A, ?B, ?C, ?D, ?K2, K0; destruct (K 1%nat); lra.
  - cbn. rewrite D0, D1. repeat (rewrite (proj2 (Reqb_false _ _)) by lra). reflexivity.
  - apply slvW_some. intros i Hi. small i; unfold mv, cand; cbn; rewrite ?A, ?B, ?C, ?D, ?D0, ?D1, ?K2, K0; destruct (K 1%nat); unfold Rdiv; lra.
  - apply functional_extensionality; intros i. unfold vneg, cand. destruct i as [|[|[|i]]]; cbn; rewrite ?K0, ?K2, ?A, ?B, ?C, ?D, ?D0, ?D1; cbn.
    + unfold Rdiv; lra.
    + destruct (K 1%nat); unfold Rdiv; lra.
    + destruct (K 1%nat); unfold Rdiv; ring.
    + destruct i; unfold Rdiv; ring.
Qed.

(** a step along variable 0 that reaches no bound, with alpha = 1 *)
Lemma only0 x y a : 0 < x -> x < 1 -> 0 < a -> x + a < 1 -> a < x ->
  range_low 2 lo2 hi2 (lv [x; y]) (lv [a; 0]) = Fin ((0 - x) / a) /\ range_high 2 lo2 hi2 (lv [x; y]) (lv [a; 0]) = Fin ((1 - x) / a) /\
  moved lo2 hi2 (lv [x; y]) (lv [a; 0]) 1 = lv [x + a; y] /\ (forall fr, still_free lo2 hi2 (lv [x; y]) (lv [a; 0]) fr 1 = fr).
Proof.
  intros X0 X1 A0 XA AX.
  assert (M : moving 2 (lv [a; 0]) = [0]%nat).
  { unfold moving. cbn [seq filter lv nth]. rewrite (proj2 (Reqb_false a 0)) by lra. rewrite (proj2 (Reqb_true 0 0)) by reflexivity. reflexivity. }
  assert (N0 : (0 - x) / a < 1) by (apply (Rmult_lt_reg_r a); [lra|unfold Rdiv; rewrite Rmult_assoc, Rinv_l by lra; lra]).
  assert (N1 : 1 < (1 - x) / a) by (apply (Rmult_lt_reg_r a); [lra|unfold Rdiv; rewrite Rmult_assoc, Rinv_l by lra; lra]).
  repeat split.
  - unfold range_low. rewrite M. cbn [fold_right lv nth]. rewrite (proj2 (Rltb_false a 0)) by lra. reflexivity.
  - unfold range_high. rewrite M. cbn [fold_right lv nth]. rewrite (proj2 (Rltb_false a 0)) by lra. reflexivity.
  - apply functional_extensionality; intros i. unfold moved, to_lower, to_upper, lo2, hi2, lx. destruct i as [|i].
    + cbn [lv nth xsub xdiv xis]. rewrite (proj2 (Reqb_false a 0)) by lra. rewrite (proj2 (Reqb_false 1 _)) by lra.
      rewrite (proj2 (Reqb_false 1 ((1 - x) / a))) by lra. lra.
    + rewrite (proj2 (Reqb_true (lv [a; 0] (S i)) 0)); [reflexivity|]. destruct i as [|[|i]]; reflexivity.
  - intros fr. apply functional_extensionality; intros i. unfold still_free, to_lower, to_upper, lo2, hi2, lx. destruct i as [|i].
    + cbn [lv nth xsub xdiv xis]. rewrite (proj2 (Reqb_false a 0)) by lra. rewrite (proj2 (Reqb_false 1 _)) by lra.
      rewrite (proj2 (Reqb_false 1 ((1 - x) / a))) by lra. reflexivity.
    + rewrite (proj2 (Reqb_true (lv [a; 0] (S i)) 0)); [reflexivity|]. destruct i as [|[|i]]; reflexivity.
Qed.
Lemma qm2 neps x y a : 0 <= neps <= 1/1000 -> 0 < x -> x < 1 -> 0 < a -> x + a < 1 -> a < x ->
  quadMin (range_low 2 lo2 hi2 (lv [x; y]) (lv [a; 0])) (range_high 2 lo2 hi2 (lv [x; y]) (lv [a; 0]))
    (slope neps 2 (lv [- 2 * a; 0]) (lv [a; 0])) (quad 2 G2 (lv [a; 0])) =
  {| qm_x := Some (Fin 1); qm_lba := false; qm_uba := false; qm_ier := false |}.
Proof.
  intros N X0 X1 A0 XA AX. destruct (only0 x y a X0 X1 A0 XA AX) as (-> & -> & _ & _).
  assert (N0 : (0 - x) / a < 1) by (apply (Rmult_lt_reg_r a); [lra|unfold Rdiv; rewrite Rmult_assoc, Rinv_l by lra; lra]).
  assert (N1 : 1 < (1 - x) / a) by (apply (Rmult_lt_reg_r a); [lra|unfold Rdiv; rewrite Rmult_assoc, Rinv_l by lra; lra]).
  replace (quad 2 G2 (lv [a; 0])) with (2 * (a * a)) by (unfold quad, dot, mv, G2; cbn; ring).
  assert (P : 0 < a * a) by (apply Rmult_lt_0_compat; lra).
  replace (slope neps 2 (lv [- 2 * a; 0]) (lv [a; 0])) with (- (2 * (a * a))).
  2:{ unfold slope, dot. cbn [rsum lv nth]. rewrite Rabs_R0.
      replace (- 2 * a * a) with (- (2 * (a * a))) by ring.
      replace (Rabs (- 2 * a)) with (2 * a) by (rewrite Rabs_left; lra). replace (Rabs a) with a by (rewrite Rabs_right; lra).
      replace (0 + - (2 * (a * a)) + 0 * 0) with (- (2 * (a * a))) by ring. rewrite Rabs_left by lra.
      rewrite (proj2 (Rltb_false _ _)); [reflexivity|]. replace (2 * a * a) with (2 * (a * a)) by ring. nra. }
  assert (E : - - (2 * (a * a)) / (2 * (a * a)) = 1) by (field; lra).
  rewrite (qm_in 0 _ _ _ _ _ _ _) || rewrite qm_in; rewrite ?E; try lra. reflexivity.
Qed.

Lemma none_down neps n fr (K : nat -> bool) L d : (forall i, (i < n)%nat -> fr i = true \/ K i = false) ->
  downdate neps slvW n (filter (fun i => negb (fr i) && K i) (seq 0 n)) L d K = Some (L, d, K).
Proof.
  intros H. rewrite filter_none; [reflexivity|]. intros i Hi. apply in_seq in Hi. destruct (H i ltac:(lia)) as [-> | ->]; cbn; [reflexivity|].
  destruct (fr i); reflexivity.
Qed.

(** the states before the three subspace steps *)
Definition s2a : mqstate := after_coord 2 G2 c2 0 (mq_init lo2 hi2 st2)
  {| cs_x := lv [0; 3]; cs_g := lv [-1; 0]; cs_free := lb_ [false; true] |} 0.
Ltac after := unfold after_coord, mq_init, count_free; cbn [m_x m_g m_free m_unfix m_nitref m_improved m_fval m_nfree m_nfree_old m_nsub m_L m_d m_K cs_x cs_g cs_free same_count andb lb_ nth seq filter List.length negb orb Nat.eqb];
  rewrite (proj2 (Rltb_true _ _)); [reflexivity|unfold dot, calc_g, mv, G2, c2; cbn; lra].

Lemma sub2a neps : 0 <= neps <= 1/1000 -> exists L d, subspaceSearch neps slvW 2 G2 lo2 hi2 s2a =
  SubDone {| m_x := lv [0; 3]; m_g := lv [-1; 0]; m_free := lb_ [false; true]; m_unfix := true; m_nitref := 0; m_improved := true;
    m_fval := Some 0; m_nfree := 1; m_nfree_old := Some 1%nat; m_nsub := 1; m_L := L; m_d := d; m_K := upd (fun _ => false) 1 true |} /\
  id2 L /\ d 1%nat = 1.
Proof.
  intros N.
  assert (E : s2a = {| m_x := lv [0; 3]; m_g := lv [-1; 0]; m_free := lb_ [false; true]; m_unfix := true; m_nitref := 0; m_improved := true;
    m_fval := Some 0; m_nfree := 1; m_nfree_old := Some 1%nat; m_nsub := 0; m_L := idm; m_d := fun _ => 1; m_K := fun _ => false |}).
  { unfold s2a. after. }
  assert (U : exists L d, update neps slvW 2 G2 [1]%nat idm (fun _ => 1) (fun _ => false) = Some (L, d, upd (fun _ => false) 1 true) /\ id2 L /\ d 0%nat = 1 /\ d 1%nat = 1).
  { cbn [update].
    erewrite ldlup_plain with (delta := 1); [|reflexivity|apply slvW_some; intros i Hi; small i; unfold mv, cand, new_col; cbn; lra
      |unfold dot, cand, new_col; cbn; lra|lra|lra|intros a Ha; lia].
    do 2 eexists. split; [reflexivity|]. unfold id2, block_up, cand, new_col. cbn. repeat split; try field. }
  destruct U as (L & d & U & I & D0 & D1). exists L, d. split; [|split; assumption].
  unfold subspaceSearch. rewrite E. cbn [m_improved m_nitref m_nfree negb orb Nat.ltb Nat.leb Nat.eqb].
  assert (Z : forall i, lv [0; 0] i = 0) by (intros [|[|i]]; try reflexivity; destruct i; reflexivity).
  assert (M : moving 2 (lv [0; 0]) = []).
  { unfold moving. cbn [seq filter lv nth]. rewrite (proj2 (Reqb_true 0 0)) by reflexivity. reflexivity. }
  assert (Q : quadMin (range_low 2 lo2 hi2 (lv [0; 3]) (lv [0; 0])) (range_high 2 lo2 hi2 (lv [0; 3]) (lv [0; 0]))
    (slope neps 2 (lv [-1; 0]) (lv [0; 0])) (quad 2 G2 (lv [0; 0])) = {| qm_x := Some (Fin 0); qm_lba := false; qm_uba := false; qm_ier := false |}).
  { unfold range_low, range_high. rewrite M. cbn [fold_right].
    replace (quad 2 G2 (lv [0; 0])) with 0 by (unfold quad, dot, mv; cbn; ring).
    replace (slope neps 2 (lv [-1; 0]) (lv [0; 0])) with 0.
    - unfold quadMin. cbn [is_ninf is_pinf]. cmp. reflexivity.
    - unfold slope, dot. cbn [rsum lv nth]. destruct (Rltb _ _); lra. }
  erewrite (sub_ok neps 2 G2 lo2 hi2 _ _ _ _ _ _ _ (lv [0; 0])); [|vals; reflexivity|vals; exact U| |vals; exact Q|reflexivity].
  - vals. cbn [qm_lba qm_uba orb negb].
    replace (moved lo2 hi2 (lv [0; 3]) (lv [0; 0]) 0) with (lv [0; 3]).
    2:{ apply functional_extensionality; intros i. unfold moved. rewrite (proj2 (Reqb_true (lv [0; 0] i) 0)) by apply Z. reflexivity. }
    replace (still_free lo2 hi2 (lv [0; 3]) (lv [0; 0]) (lb_ [false; true]) 0) with (lb_ [false; true]).
    2:{ apply functional_extensionality; intros i. unfold still_free. rewrite (proj2 (Reqb_true (lv [0; 0] i) 0)) by apply Z. reflexivity. }
    reflexivity.
  - vals. destruct I as (A & B & C & D). eapply newton_ok.
    + apply slvW_some. intros i Hi. small i; unfold mv, cand; cbn; rewrite ?A, ?B, ?C, ?D; lra.
    + cbn. rewrite D0, D1. repeat (rewrite (proj2 (Reqb_false _ _)) by lra). reflexivity.
    + apply slvW_some. intros i Hi. small i; unfold mv, cand; cbn; rewrite ?A, ?B, ?C, ?D, ?D0, ?D1; unfold Rdiv; lra.
    + apply functional_extensionality; intros i. unfold vneg, cand. destruct i as [|[|[|i]]]; cbn; unfold Rdiv; try ring; destruct i; cbn; unfold Rdiv; ring.
Qed.

Lemma sub2b neps L d : 0 <= neps <= 1/1000 -> id2 L -> d 1%nat = 1 -> exists d', subspaceSearch neps slvW 2 G2 lo2 hi2
  (after_coord 2 G2 c2 0 {| m_x := lv [0; 3]; m_g := lv [-1; 0]; m_free := lb_ [false; true]; m_unfix := true; m_nitref := 0; m_improved := true;
    m_fval := Some 0; m_nfree := 1; m_nfree_old := Some 1%nat; m_nsub := 1; m_L := L; m_d := d; m_K := upd (fun _ => false) 1 true |}
    {| cs_x := lv [1/2; 7/2]; cs_g := lv [-1/2; 0]; cs_free := lb_ [true; true] |} (-9/2)) =
  SubDone {| m_x := lv [3/4; 7/2]; m_g := lv [-1/2; 0]; m_free := lb_ [true; true]; m_unfix := true; m_nitref := 0; m_improved := true;
    m_fval := Some (-9/2); m_nfree := 2; m_nfree_old := Some 2%nat; m_nsub := 2; m_L := L; m_d := d'; m_K := upd (upd (fun _ => false) 1 true) 0 true |} /\
  d' 0%nat = 2 /\ d' 1%nat = 1.
Proof.
  intros N I D1. exists (d_upd 0 d 2). split; [|split; [reflexivity|exact D1]].
  match goal with |- subspaceSearch _ _ _ _ _ _ ?s = _ => replace s with {| m_x := lv [1/2; 7/2]; m_g := lv [-1/2; 0]; m_free := lb_ [true; true]; m_unfix := true; m_nitref := 0; m_improved := true;
    m_fval := Some (-9/2); m_nfree := 2; m_nfree_old := Some 2%nat; m_nsub := 1; m_L := L; m_d := d; m_K := upd (fun _ => false) 1 true |} by (symmetry; after) end.
  unfold subspaceSearch. cbn [m_improved m_nitref m_nfree negb orb Nat.ltb Nat.leb Nat.eqb].
  destruct (only0 (1/2) (7/2) (1/4) ltac:(lra) ltac:(lra) ltac:(lra) ltac:(lra) ltac:(lra)) as (_ & _ & EM & EF).
  erewrite (sub_ok neps 2 G2 lo2 hi2 _ _ _ _ L (d_upd 0 d 2) (upd (upd (fun _ => false) 1 true) 0 true) (lv [1/4; 0]) {| qm_x := Some (Fin 1); qm_lba := false; qm_uba := false; qm_ier := false |} 1).
  - vals. cbn [qm_lba qm_uba orb negb]. rewrite EM, EF. replace (1/2 + 1/4) with (3/4) by field. reflexivity.
  - vals. apply none_down. intros i Hi. small i; cbn; auto.
  - vals. cbn [seq filter lb_ nth upd Nat.eqb andb negb update]. unfold ldlup. cbn [Nat.eqb].
    replace (new_col G2 (upd (fun _ : nat => false) 1 true) 0 0%nat) with 2 by reflexivity. rewrite (proj2 (Rleb_false 2 neps)) by lra. reflexivity.
  - vals. apply new2; try assumption; try reflexivity. field.
  - vals. replace (-1/2) with (- 2 * (1/4)) by field. apply qm2; lra.
  - reflexivity.
Qed.

Lemma sub2c neps L d : 0 <= neps <= 1/1000 -> id2 L -> d 0%nat = 2 -> d 1%nat = 1 -> subspaceSearch neps slvW 2 G2 lo2 hi2
  (after_coord 2 G2 c2 0 {| m_x := lv [3/4; 7/2]; m_g := lv [-1/2; 0]; m_free := lb_ [true; true]; m_unfix := true; m_nitref := 0; m_improved := true;
    m_fval := Some (-9/2); m_nfree := 2; m_nfree_old := Some 2%nat; m_nsub := 2; m_L := L; m_d := d; m_K := upd (upd (fun _ => false) 1 true) 0 true |}
    {| cs_x := lv [3/4; 15/4]; cs_g := lv [-1/4; 0]; cs_free := lb_ [true; true] |} (-79/16)) =
  SubDone {| m_x := lv [7/8; 15/4]; m_g := lv [-1/4; 0]; m_free := lb_ [true; true]; m_unfix := true; m_nitref := 1; m_improved := true;
    m_fval := Some (-79/16); m_nfree := 2; m_nfree_old := Some 2%nat; m_nsub := 3; m_L := L; m_d := d; m_K := upd (upd (fun _ => false) 1 true) 0 true |}.
Proof.
  intros N I D0 D1.
  assert (EG : calc_g 2 G2 c2 (lv [3/4; 15/4]) = lv [-1/4; 0]) by (unfold calc_g, mv, G2, c2; ext2).
  match goal with |- subspaceSearch _ _ _ _ _ _ ?s = _ => replace s with {| m_x := lv [3/4; 15/4]; m_g := lv [-1/4; 0]; m_free := lb_ [true; true]; m_unfix := true; m_nitref := 1; m_improved := true;
    m_fval := Some (-79/16); m_nfree := 2; m_nfree_old := Some 2%nat; m_nsub := 2; m_L := L; m_d := d; m_K := upd (upd (fun _ => false) 1 true) 0 true |} end.
  2:{ symmetry. unfold after_coord, count_free; cbn [m_x m_g m_free m_unfix m_nitref m_improved m_fval m_nfree m_nfree_old m_nsub m_L m_d m_K cs_x cs_g cs_free same_count andb lb_ nth seq filter List.length negb orb Nat.eqb].
      rewrite EG. rewrite (proj2 (Rltb_true _ _)); [reflexivity|unfold dot, c2; cbn; lra]. }
  unfold subspaceSearch. cbn [m_improved m_nitref m_nfree negb orb Nat.ltb Nat.leb Nat.eqb].
  destruct (only0 (3/4) (15/4) (1/8) ltac:(lra) ltac:(lra) ltac:(lra) ltac:(lra) ltac:(lra)) as (_ & _ & EM & EF).
  erewrite (sub_ok neps 2 G2 lo2 hi2 _ _ _ _ L d (upd (upd (fun _ => false) 1 true) 0 true) (lv [1/8; 0]) {| qm_x := Some (Fin 1); qm_lba := false; qm_uba := false; qm_ier := false |} 1).
  - vals. cbn [qm_lba qm_uba orb negb]. rewrite EM, EF. replace (3/4 + 1/8) with (7/8) by field. reflexivity.
  - vals. apply none_down. intros i Hi. small i; cbn; auto.
  - vals. reflexivity.
  - vals. apply new2; try assumption; try reflexivity. field.
  - vals. replace (-1/4) with (- 2 * (1/8)) by field. apply qm2; lra.
  - reflexivity.
Qed.

Lemma run2 neps : 0 <= neps <= 1/1000 ->
  mq_loop neps slvW 2 G2 c2 0 lo2 hi2 4 3 (mq_init lo2 hi2 st2) = MqReturn RefinedSame (lv [7/8; 15/4]) (Some (-319/64)) 0 3.
Proof.
  intros N. destruct (sub2a neps N) as (L & d & E1 & I & D1). destruct (sub2b neps L d N I D1) as (d' & E2 & D0' & D1').
  pose proof (sub2c neps L d' N I D0' D1') as E3.
  erewrite pass; [|reflexivity| |cbn [mq_init m_x m_unfix m_free]; rewrite box2; exact cs2a|exact E1].
  2:{ unfold best_value. cbn [mq_init m_x m_nitref m_fval Nat.eqb]. rewrite box2. unfold calc_fval, calc_g, mv, dot, G2, c2. cbn. field. }
  erewrite pass; [|reflexivity| |vals; exact cs2b|exact E2].
  2:{ unfold best_value. cbn [m_x m_nitref m_fval Nat.eqb].
      replace (calc_fval 2 c2 0 (lv [0; 3]) (calc_g 2 G2 c2 (lv [0; 3]))) with (-9/2) by (unfold calc_fval, calc_g, mv, dot, G2, c2; cbn; field).
      unfold Rmin. destruct (Rle_dec _ _); lra. }
  erewrite pass; [|reflexivity| |vals; exact cs2c|exact E3].
  2:{ unfold best_value. cbn [m_x m_nitref m_fval Nat.eqb].
      replace (calc_fval 2 c2 0 (lv [3/4; 7/2]) (calc_g 2 G2 c2 (lv [3/4; 7/2]))) with (-79/16) by (unfold calc_fval, calc_g, mv, dot, G2, c2; cbn; field).
      unfold Rmin. destruct (Rle_dec _ _); lra. }
  cbn [mq_loop]. unfold stop_reason, best_value. cbn [m_x m_nitref m_nsub m_improved m_fval m_nfree m_nfree_old Nat.eqb Nat.mul Nat.add andb negb Nat.ltb Nat.leb same_count].
  replace (calc_fval 2 c2 0 (lv [7/8; 15/4]) (calc_g 2 G2 c2 (lv [7/8; 15/4]))) with (-319/64) by (unfold calc_fval, calc_g, mv, dot, G2, c2; cbn; field).
  rewrite (proj2 (Rleb_true _ _)) by lra. reflexivity.
Qed.

(** ** an indefinite matrix *)
Definition GI : mat := lm [[1; 2]; [2; 1]].
Definition cI : vec := lv [-1; -1].
Definition loI : nat -> xR := lx [-10; -10].
Definition hiI : nat -> xR := lx [10; 10].
Definition stI : vec := lv [0; 0].
Lemma csI : coordinateSearch 3 2 GI loI hiI true {| cs_x := lv [0; 0]; cs_g := calc_g 2 GI cI (lv [0; 0]); cs_free := fun _ => false |} =
  CSDone {| cs_x := lv [1; -1]; cs_g := lv [-2; 0]; cs_free := lb_ [true; true] |} [1; 0]%nat.
Proof.
  replace (calc_g 2 GI cI (lv [0; 0])) with (lv [-1; -1]) by (unfold calc_g, mv, GI, cI; ext2).
  rewrite search_start.
  rewrite loop_next by lia. rewrite (step_free GI loI hiI _ _ _ 0 (-10) 10 eq_refl eq_refl 1) by (cbn; lra).
  replace (upd (lv [0; 0]) 0 (lv [0; 0] 0%nat + 1)) with (lv [1; 0]) by ext2.
  replace (vadd (lv [-1; -1]) (vscal 1 (fun i => GI i 0%nat))) with (lv [0; 1]) by (unfold vadd, vscal; ext2).
  rewrite loop_next by lia. rewrite (step_free GI loI hiI _ _ _ 1 (-10) 10 eq_refl eq_refl (-1)) by (cbn; lra).
  replace (upd (lv [1; 0]) 1 (lv [1; 0] 1%nat + -1)) with (lv [1; -1]) by ext2.
  replace (vadd (lv [0; 1]) (vscal (-1) (fun i => GI i 1%nat))) with (lv [-2; 0]) by (unfold vadd, vscal; ext2).
  rewrite loop_end by lia. replace (upd (upd (fun _ : nat => false) 0 true) 1 true) with (lb_ [true; true]) by ext2. reflexivity.
Qed.
Lemma boxI : into_box loI hiI stI = lv [0; 0].
Proof.
  apply functional_extensionality; intros i. unfold into_box, loI, hiI, stI, lx, lv.
  destruct i as [|[|i]]; cbn; try (destruct i; cbn); unfold Rmin, Rmax;
    repeat match goal with |- context [Rle_dec ?a ?b] => lazymatch b with context [Rle_dec _ _] => fail | _ => destruct (Rle_dec a b) end end; lra.
Qed.
Lemma runI neps : 0 <= neps <= 1/1000 -> mq_loop neps slvW 2 GI cI 0 loI hiI 1 3 (mq_init loI hiI stI) = MqRaise.
Proof.
  intros N. cbn [mq_loop].
  replace (stop_reason 2 GI cI 0 (mq_init loI hiI stI)) with (@None mq_reason) by reflexivity.
  cbn [mq_init m_x m_unfix m_free]. rewrite boxI, csI. fold (mq_init loI hiI stI).
  match goal with |- context [subspaceSearch _ _ _ _ _ _ ?s] => assert (E : subspaceSearch neps slvW 2 GI loI hiI s = SubRaise); [|rewrite E; reflexivity] end.
  replace (best_value 2 GI cI 0 (mq_init loI hiI stI)) with 0.
  2:{ unfold best_value; cbn [mq_init m_x m_nitref m_fval Nat.eqb]. rewrite boxI. unfold calc_fval, calc_g, mv, dot, cI, GI; cbn; ring. }
  match goal with |- subspaceSearch _ _ _ _ _ _ ?s = _ => replace s with {| m_x := lv [1; -1]; m_g := lv [-2; 0]; m_free := lb_ [true; true]; m_unfix := true; m_nitref := 0; m_improved := true;
    m_fval := Some 0; m_nfree := 2; m_nfree_old := Some 2%nat; m_nsub := 0; m_L := idm; m_d := fun _ => 1; m_K := fun _ => false |} end.
  2:{ symmetry. unfold after_coord, mq_init, count_free; cbn [m_x m_g m_free m_unfix m_nitref m_improved m_fval m_nfree m_nfree_old m_nsub m_L m_d m_K cs_x cs_g cs_free same_count andb lb_ nth seq filter List.length negb orb Nat.eqb].
      rewrite (proj2 (Rltb_true _ _)); [reflexivity|unfold dot, cI; cbn; lra]. }
  unfold subspaceSearch. cbn [m_improved m_nitref m_nfree negb orb Nat.ltb Nat.leb Nat.eqb]. unfold subspace. vals.
  rewrite none_down by (intros i Hi; right; reflexivity).
  cbn [seq filter lb_ nth andb negb update]. unfold ldlup at 1. cbn [Nat.eqb].
  replace (new_col GI (fun _ : nat => false) 0 0%nat) with 1 by reflexivity. rewrite (proj2 (Rleb_false 1 neps)) by lra.
  unfold ldlup. cbn [Nat.eqb].
  rewrite slvW_some by (intros i Hi; small i; unfold mv, cand, new_col; cbn; lra).
  match goal with |- context [Rleb ?a neps] => replace a with (-3) by (unfold dot, cand, new_col; cbn; field) end.
  rewrite (proj2 (Rleb_true (-3) neps)) by lra.
  rewrite slvW_some by (intros i Hi; small i; unfold mv, cand, new_col; cbn; field).
  unfold any_nonzero. cbn [seq existsb Nat.ltb Nat.leb Nat.eqb]. rewrite (proj2 (Reqb_false (-1) 0)) by lra. cbn [negb orb]. rewrite orb_true_r. reflexivity.
Qed.

(** ** the statements *)
Lemma inv_range neps : 0 <= neps <= 1/1000 -> 999/1000 <= / (1 + neps) <= 1.
Proof.
  intros N. split; apply (Rmult_le_reg_r (1 + neps)); try lra; rewrite Rinv_l by lra; nra.
Qed.
Lemma psd3 neps : 0 <= neps <= 1/1000 -> possemidef 3 (undiag neps G3).
Proof.
  intros N z. pose proof (inv_range neps N) as I. unfold quad, dot, mv, undiag, G3. cbn. unfold Rdiv.
  set (t := / (1 + neps)) in *. generalize (z 0%nat) (z 1%nat) (z 2%nat). intros x y w. clearbody t.
  set (e := x + y - w).
  match goal with |- 0 <= ?q => replace q with (e * e + (2 * t - 1) * (x * x + y * y) - (1 - t) * (w * w)) by (unfold e; ring) end.
  assert (W : w * w <= 2 * (e * e) + 4 * (x * x + y * y)).
  { replace w with (x + y - e) by (unfold e; ring). generalize e. intros u. pose proof (Rle_0_sqr (x - y)) as H1. pose proof (Rle_0_sqr (x + y + u)) as H2. unfold Rsqr in *. lra. }
  pose proof (Rle_0_sqr e) as H1. pose proof (Rle_0_sqr x) as H2. pose proof (Rle_0_sqr y) as H3. pose proof (Rle_0_sqr w) as H4. unfold Rsqr in *.
  assert (B : (1 - t) * (w * w) <= 1/1000 * (w * w)) by (apply Rmult_le_compat_r; lra).
  assert (A : 998/1000 * (x * x + y * y) <= (2 * t - 1) * (x * x + y * y)) by (apply Rmult_le_compat_r; lra). lra.
Qed.
Lemma psd2 neps : 0 <= neps <= 1/1000 -> possemidef 2 (undiag neps G2).
Proof.
  intros N z. pose proof (inv_range neps N) as I. unfold quad, dot, mv, undiag, G2. cbn. unfold Rdiv.
  set (t := / (1 + neps)) in *. generalize (z 0%nat) (z 1%nat). intros x y. clearbody t.
  match goal with |- 0 <= ?q => replace q with (2 * t * (x * x) + t * (y * y) - 2 * (x * y)) by ring end.
  pose proof (Rle_0_sqr (5/4 * x - 4/5 * y)) as H1. pose proof (Rle_0_sqr x) as H2. pose proof (Rle_0_sqr y) as H3. unfold Rsqr in *.
  assert (B : 999/1000 * (y * y) <= t * (y * y)) by (apply Rmult_le_compat_r; lra).
  assert (A : 1998/1000 * (x * x) <= 2 * t * (x * x)) by (apply Rmult_le_compat_r; lra). lra.
Qed.
Lemma undiag_sym n neps G : symmetric n G -> symmetric n (undiag neps G).
Proof.
  intros S i j Hi Hj. unfold undiag. rewrite (Nat.eqb_sym j i). destruct (Nat.eqb_spec i j); [subst; reflexivity|apply S; assumption].
Qed.
Lemma sym3 : symmetric 3 G3.
Proof. intros i j Hi Hj. small i; small j; reflexivity. Qed.
Lemma sym2 : symmetric 2 G2.
Proof. intros i j Hi Hj. small i; small j; reflexivity. Qed.
Lemma symI : symmetric 2 GI.
Proof. intros i j Hi Hj. small i; small j; reflexivity. Qed.
Lemma lx_finite n a b : all_finite n (lx a) (lx b).
Proof. intros i _. split; eexists; reflexivity. Qed.
Lemma ne3 : nonempty 3 lo3 hi3.
Proof. intros i Hi. exists (lv [0; 0; 0] i). small i; split; cbn; lra. Qed.
Lemma ne2 : nonempty 2 lo2 hi2.
Proof. intros i Hi. exists (lv [0; 0; 0] i). small i; split; cbn; lra. Qed.
Lemma neI : nonempty 2 loI hiI.
Proof. intros i Hi. exists (lv [0; 0; 0] i). small i; split; cbn; lra. Qed.

Lemma w_info : forall neps, 0 <= neps <= 1/1000 -> exists slv fuel cfuel n G c xu xo x0 why x f k G',
  solves_systems slv /\ (2 <= n)%nat /\ symmetric n G /\ possemidef n G /\ nonempty n xu xo /\ all_finite n xu xo /\
  minq_search neps slv fuel cfuel n G c 0 xu xo x0 = (MqReturn why x f (-1) k, G') /\ ~ lowest_in_box 0 n G' c xu xo x.
Proof.
  intros neps N. destruct (run3 neps N) as (f & E).
  exists slvW, 2%nat, 4%nat, 3%nat, (undiag neps G3), c3, lo3, hi3, st3, NothingTried, (lv [0; 2; 5]), (Some f), 1%nat, G3.
  split; [apply slvW_solves|]. split; [lia|]. split; [apply undiag_sym, sym3|]. split; [apply psd3, N|]. split; [apply ne3|]. split; [apply lx_finite|].
  split; [unfold minq_search; rewrite regular_undiag by apply N; rewrite E; reflexivity|].
  intros [_ H]. specialize (H (lv [1/2; 2; 5])). assert (W : within 3 lo3 hi3 (lv [1/2; 2; 5])) by (intros i Hi; small i; split; cbn; lra).
  specialize (H W). unfold fobj, quad, dot, mv, G3, c3 in H. cbn in H. lra.
Qed.
Lemma w_optimal : forall neps, 0 <= neps <= 1/1000 -> exists slv fuel cfuel n G c xu xo x0 why x f k G',
  solves_systems slv /\ (2 <= n)%nat /\ symmetric n G /\ possemidef n G /\ nonempty n xu xo /\ all_finite n xu xo /\
  minq_search neps slv fuel cfuel n G c 0 xu xo x0 = (MqReturn why x f 0 k, G') /\ ~ lowest_in_box 0 n G' c xu xo x.
Proof.
  intros neps N. pose proof (run2 neps N) as E.
  exists slvW, 4%nat, 3%nat, 2%nat, (undiag neps G2), c2, lo2, hi2, st2, RefinedSame, (lv [7/8; 15/4]), (Some (-319/64)), 3%nat, G2.
  split; [apply slvW_solves|]. split; [lia|]. split; [apply undiag_sym, sym2|]. split; [apply psd2, N|]. split; [apply ne2|]. split; [apply lx_finite|].
  split; [unfold minq_search; rewrite regular_undiag by apply N; rewrite E; reflexivity|].
  intros [_ H]. specialize (H (lv [1; 4])). assert (W : within 2 lo2 hi2 (lv [1; 4])) by (intros i Hi; small i; split; cbn; lra).
  specialize (H W). unfold fobj, quad, dot, mv, G2, c2 in H. cbn in H. lra.
Qed.
Lemma w_indefinite : forall neps, 0 <= neps <= 1/1000 -> exists slv fuel cfuel n G c xu xo x0,
  solves_systems slv /\ (2 <= n)%nat /\ symmetric n G /\ nonempty n xu xo /\ all_finite n xu xo /\
  fst (minq_search neps slv fuel cfuel n G c 0 xu xo x0) = MqRaise.
Proof.
  intros neps N. exists slvW, 1%nat, 3%nat, 2%nat, (undiag neps GI), cI, loI, hiI, stI.
  split; [apply slvW_solves|]. split; [lia|]. split; [apply undiag_sym, symI|]. split; [apply neI|]. split; [apply lx_finite|].
  unfold minq_search. rewrite regular_undiag by apply N. cbn [fst]. apply runI, N.
Qed.

(** ** runs for the other statements *)
Definition GO : mat := lm [[1; 0]; [0; 1]].
Lemma csO : coordinateSearch 3 2 GO loI hiI true {| cs_x := lv [0; 0]; cs_g := calc_g 2 GO (lv [0; 0]) (lv [0; 0]); cs_free := fun _ => false |} =
  CSDone {| cs_x := lv [0; 0]; cs_g := lv [0; 0]; cs_free := fun _ => false |} [1; 0]%nat.
Proof.
  replace (calc_g 2 GO (lv [0; 0]) (lv [0; 0])) with (lv [0; 0]) by (unfold calc_g, mv, GO; ext2).
  rewrite search_start.
  rewrite loop_next by lia. rewrite (step_stay GO loI hiI _ _ _ 0 (-10) 10) by (cbn; try reflexivity; lra). cbn [andb].
  rewrite loop_next by lia. rewrite (step_stay GO loI hiI _ _ _ 1 (-10) 10) by (cbn; try reflexivity; lra).
  rewrite loop_end by lia. reflexivity.
Qed.
Lemma w_done : exists x f k G', symmetric 2 GO /\ possemidef 2 GO /\ nonempty 2 loI hiI /\
  minq_search 0 slvW 2 3 2 GO (lv [0; 0]) 0 loI hiI stI = (MqReturn NoImprovement x f 0 k, G').
Proof.
  exists (lv [0; 0]), (Some 0), 0%nat, GO.
  split; [intros i j Hi Hj; small i; small j; reflexivity|].
  split; [intros z; unfold quad, dot, mv, GO; cbn; nra|]. split; [apply neI|].
  unfold minq_search. replace (regular 0 GO) with GO.
  2:{ apply functional_extensionality; intros i. apply functional_extensionality; intros j. unfold regular. destruct (i =? j)%nat; [ring|reflexivity]. }
  f_equal. erewrite pass; [|reflexivity| |cbn [mq_init m_x m_unfix m_free]; rewrite boxI; exact csO|].
  - instantiate (1 := {| m_x := lv [0; 0]; m_g := lv [0; 0]; m_free := fun _ => false; m_unfix := true; m_nitref := 0; m_improved := false;
      m_fval := Some 0; m_nfree := 0; m_nfree_old := Some 0%nat; m_nsub := 0; m_L := idm; m_d := fun _ => 1; m_K := fun _ => false |}).
    cbn [mq_loop]. unfold stop_reason, best_value. cbn [m_x m_nitref m_nsub m_improved m_fval Nat.eqb Nat.mul Nat.add andb negb stop_info].
    replace (calc_fval 2 (lv [0; 0]) 0 (lv [0; 0]) (calc_g 2 GO (lv [0; 0]) (lv [0; 0]))) with 0 by (unfold calc_fval, calc_g, mv, dot; cbn; ring).
    do 2 f_equal. unfold Rmin. destruct (Rle_dec _ _); reflexivity.
  - unfold best_value. cbn [mq_init m_x m_nitref m_fval Nat.eqb]. rewrite boxI. 
    instantiate (1 := 0). unfold calc_fval, calc_g, mv, dot, GO. cbn. ring.
  - unfold after_coord, mq_init, count_free. cbn [m_x m_g m_free m_unfix m_nitref m_improved m_fval m_nfree m_nfree_old m_nsub m_L m_d m_K cs_x cs_g cs_free same_count andb seq filter List.length negb orb Nat.eqb].
    rewrite (proj2 (Rltb_false _ _)) by (unfold dot; cbn; lra). reflexivity.
Qed.
Lemma w_down : exists why x f k G', symmetric 2 (fun _ _ => 0) /\ nonempty 2 (fun _ => NInf) (fun _ => PInf) /\
  minq_search 0 slvW 1 1 2 (fun _ _ => 0) (lv [1; 0]) 0 (fun _ => NInf) (fun _ => PInf) stI = (MqReturn why x f 1 k, G').
Proof.
  do 5 eexists. split; [intros i j _ _; reflexivity|]. split; [intros i _; exists 0; split; exact I|].
  unfold minq_search. apply f_equal2; [|reflexivity]. cbn [mq_loop].
  replace (stop_reason _ _ _ _ _) with (@None mq_reason) by reflexivity. cbn [mq_init m_x m_unfix m_free].
  rewrite search_start. rewrite loop_next by lia. unfold coord_step, quadMin. cbn [cs_x cs_g cs_free xsub is_ninf is_pinf andb].
  replace (regular 0 (fun _ _ : nat => 0) 0%nat 0%nat) with 0 by (unfold regular; cbn; ring).
  rewrite (proj2 (Rltb_false 0 0)) by lra. rewrite (proj2 (Reqb_true 0 0)) by reflexivity.
  match goal with |- context [Rltb 0 ?g] => replace g with 1 by (unfold calc_g, mv, regular; cbn; ring) end.
  rewrite (proj2 (Rltb_true 0 1)) by lra. cbn [orb andb qm_x qm_lba]. reflexivity.
Qed.
