From Coq Require Import Reals Lra Psatz Lia Arith ZArith Bool.
From Verif Require Import RVec RBool Hess_Model Hess_Spec.
Open Scope R_scope.

Lemma mv_outer n u v x i : mv n (outer u v) x i = u i * dot n v x.
Proof. unfold mv, outer, dot. rewrite <- rsum_scal. apply rsum_ext. intros. ring. Qed.

Lemma mv_bfgs n H Hs y a b x i :
  mv n (fun i j => H i j - outer Hs Hs i j / a + outer y y i j / b) x i
  = mv n H x i - Hs i * dot n Hs x / a + y i * dot n y x / b.
Proof.
  rewrite <- !mv_outer. unfold mv.
  unfold Rdiv. rewrite <- !rsum_scal_r, <- rsum_minus, <- rsum_plus.
  apply rsum_ext. intros. ring.
Qed.

Lemma quad_bfgs n H Hs y a b x :
  quad n (fun i j => H i j - outer Hs Hs i j / a + outer y y i j / b) x
  = quad n H x - dot n Hs x * dot n Hs x / a + dot n y x * dot n y x / b.
Proof.
  unfold quad at 1.
  rewrite (dot_ext n x x _ (vadd (vsub (mv n H x) (vscal (dot n Hs x / a) Hs)) (vscal (dot n y x / b) y))).
  - rewrite dot_add_r, dot_sub_r, !dot_scal_r, (dot_sym n x Hs), (dot_sym n x y). unfold quad. unfold Rdiv. ring.
  - intros i Hi. reflexivity.
  - intros i Hi. rewrite mv_bfgs. unfold vadd, vsub, vscal, Rdiv. ring.
Qed.

Lemma bfgs_core n H y s : symmetric n H -> posdef n H -> ~ veq n s vzero ->
  0 < dot n y s ->
  let H' := fun i j => H i j - outer (mv n H s) (mv n H s) i j / dot n s (mv n H s) + outer y y i j / dot n y s in
  symmetric n H' /\ posdef n H' /\ (forall i, (i < n)%nat -> mv n H' s i = y i).
Proof.
  intros HS HP Hs Hys H'.
  assert (HsHs : 0 < dot n s (mv n H s)) by (apply HP; exact Hs).
  split; [|split].
  - intros i j Hi Hj. unfold H', outer. rewrite (HS i j Hi Hj). unfold Rdiv. ring.
  - intros z Hz. unfold H'. rewrite quad_bfgs.
    set (a := dot n s (mv n H s)) in *. set (b := dot n y s) in *.
    (* quad of the H-orthogonal part of z *)
    set (t := dot n (mv n H s) z / a).
    assert (Hw : quad n H (vsub z (vscal t s)) = quad n H z - dot n (mv n H s) z * dot n (mv n H s) z / a).
    { rewrite (quad_ext n H (vsub z (vscal t s)) (vadd z (vscal (- t) s))).
      2:{ intros i Hi. unfold vsub, vadd, vscal. lra. }
      rewrite quad_add by exact HS. rewrite quad_scal, dot_mv_scal, (dot_sym n z (mv n H s)).
      change (quad n H s) with a. unfold t. field. lra. }
    assert (Hq : 0 <= dot n y z * dot n y z / b).
    { apply Rmult_le_pos; [nra|]. left. apply Rinv_0_lt_compat. exact Hys. }
    destruct (Req_dec (dot n (vsub z (vscal t s)) (vsub z (vscal t s))) 0) as [E|E].
    + (* z parallel to s *)
      assert (Ez : veq n z (vscal t s)).
      { apply dot_self_zero in E. intros i Hi. specialize (E i Hi). unfold vsub, vzero in E. lra. }
      assert (Hw0 : 0 <= quad n H (vsub z (vscal t s))).
      { unfold quad. apply dot_self_zero in E.
        rewrite (dot_ext n _ vzero _ (mv n H (vsub z (vscal t s))) E (fun i _ => eq_refl)). rewrite dot_zero_l. lra. }
      assert (Ht : t <> 0).
      { intros Et. apply Hz. intros i Hi. rewrite (Ez i Hi), Et. unfold vscal, vzero. lra. }
      assert (Hyz : dot n y z = t * b).
      { rewrite (dot_ext n y y z (vscal t s) (fun i _ => eq_refl) Ez). apply dot_scal_r. }
      assert (0 < dot n y z * dot n y z / b).
      { rewrite Hyz. replace (t * b * (t * b) / b) with (t * t * b) by (field; lra).
        apply Rmult_lt_0_compat; [|exact Hys]. nra. }
      lra.
    + assert (0 < quad n H (vsub z (vscal t s))).
      { apply HP. intros C. apply E. apply dot_self_zero. exact C. }
      lra.
  - intros i Hi. unfold H'. rewrite mv_bfgs. rewrite (dot_sym n (mv n H s) s).
    field. split; lra.
Qed.

Lemma norm_zero_dot n s : norm n s = 0 <-> veq n s vzero.
Proof. apply norm_zero. Qed.

(** para*I with para > 0 *)
Lemma scaled_id_sym n p : symmetric n (fun i j => p * idm i j).
Proof. intros i j _ _. unfold idm. rewrite Nat.eqb_sym. reflexivity. Qed.

Lemma scaled_id_mv n p x i : (i < n)%nat -> mv n (fun i j => p * idm i j) x i = p * x i.
Proof.
  intros Hi. unfold mv. rewrite (rsum_ext n _ (fun j => p * (idm i j * x j))) by (intros; ring).
  rewrite rsum_scal. f_equal. apply (mv_idm n x i Hi).
Qed.

Lemma scaled_id_quad n p x : quad n (fun i j => p * idm i j) x = p * dot n x x.
Proof.
  unfold quad. rewrite (dot_ext n x x _ (vscal p x)).
  - apply dot_scal_r.
  - intros i Hi. reflexivity.
  - intros i Hi. rewrite scaled_id_mv by exact Hi. reflexivity.
Qed.

Lemma scaled_id_pd n p : 0 < p -> posdef n (fun i j => p * idm i j).
Proof.
  intros Hp x Hx. change (0 < quad n (fun i j => p * idm i j) x). rewrite scaled_id_quad.
  apply Rmult_lt_0_compat; [exact Hp|apply dot_self_pos; exact Hx].
Qed.

(** The gradient difference actually used (lines 49-55). *)
Definition y_used (n : nat) (H : mat) (y s : vec) : vec :=
  let sHs := dot n s (mv n H s) in
  if Rltb (dot n y s) (2 / 10 * sHs)
  then let pc := (1 - 2 / 10) * sHs / (sHs - dot n y s) in vadd (vscal pc y) (vscal (1 - pc) (mv n H s))
  else y.

Lemma y_used_pos n H y s : 0 < dot n s (mv n H s) -> 2 / 10 * dot n s (mv n H s) <= dot n (y_used n H y s) s.
Proof.
  intros Hp. unfold y_used. destruct (Rltb_spec (dot n y s) (2 / 10 * dot n s (mv n H s))) as [L|L]; [|lra].
  rewrite dot_add_l, !dot_scal_l, (dot_sym n (mv n H s) s).
  set (a := dot n s (mv n H s)) in *. set (b := dot n y s) in *.
  assert (E : (1 - 2 / 10) * a / (a - b) * b + (1 - (1 - 2 / 10) * a / (a - b)) * a = 2 / 10 * a) by (field; lra).
  lra.
Qed.

(** Result on a positive definite matrix and a non-zero step. *)
Lemma bfgs_success n H y s first : symmetric n H -> posdef n H -> ~ veq n s vzero ->
  let r := bfgs_update n H y s first in
  bf_flag r = 0%Z /\ symmetric n (bf_H r) /\ posdef n (bf_H r) /\
  (forall i, (i < n)%nat -> mv n (bf_H r) s i = y_used n H y s i) /\
  0 < bf_pc r <= 1.
Proof.
  intros HS HP Hs r. unfold r, bfgs_update.
  destruct (Reqb_spec (norm n s) 0) as [E|E]; [apply norm_zero in E; contradiction|].
  assert (HsHs : 0 < dot n s (mv n H s)) by (apply HP; exact Hs).
  destruct (Rleb_spec (dot n s (mv n H s)) 0) as [L|L]; [lra|].
  pose proof (y_used_pos n H y s HsHs) as Hyp. unfold y_used in Hyp |- *.
  assert (FIN : forall y' , 0 < dot n y' s ->
    let H1 := if first then (fun i j => dot n y' y' / dot n y' s * idm i j) else H in
    let Hs1 := if first then vscal (dot n y' y' / dot n y' s) s else mv n H s in
    let sHs1 := if first then dot n s (vscal (dot n y' y' / dot n y' s) s) else dot n s (mv n H s) in
    let H' := fun i j => H1 i j - outer Hs1 Hs1 i j / sHs1 + outer y' y' i j / dot n y' s in
    symmetric n H' /\ posdef n H' /\ (forall i, (i < n)%nat -> mv n H' s i = y' i)).
  { intros y' Hy'. destruct first; cbv zeta; [|apply bfgs_core; assumption].
    set (p := dot n y' y' / dot n y' s).
    assert (Hp : 0 < p).
    { unfold p. apply Rmult_lt_0_compat; [|apply Rinv_0_lt_compat; exact Hy'].
      apply dot_self_pos. intros C.
      rewrite (dot_ext n y' vzero s s C (fun i _ => eq_refl)), dot_zero_l in Hy'. lra. }
    destruct (bfgs_core n (fun i j => p * idm i j) y' s (scaled_id_sym n p) (scaled_id_pd n p Hp) Hs Hy') as [A [B C]].
    assert (Emv : forall i, (i < n)%nat -> mv n (fun i j => p * idm i j) s i = vscal p s i)
      by (intros i Hi; apply scaled_id_mv; exact Hi).
    assert (Ed : dot n s (mv n (fun i j => p * idm i j) s) = dot n s (vscal p s))
      by (apply dot_ext; [intros i Hi; reflexivity|exact Emv]).
    assert (EQ : forall i j, (i < n)%nat -> (j < n)%nat ->
       p * idm i j - outer (mv n (fun i j => p * idm i j) s) (mv n (fun i j => p * idm i j) s) i j / dot n s (mv n (fun i j => p * idm i j) s) + outer y' y' i j / dot n y' s
       = p * idm i j - outer (vscal p s) (vscal p s) i j / dot n s (vscal p s) + outer y' y' i j / dot n y' s).
    { intros i j Hi Hj. rewrite Ed. unfold outer. rewrite !Emv by assumption. reflexivity. }
    split; [|split].
    - intros i j Hi Hj. rewrite <- !EQ by assumption. apply A; assumption.
    - intros x Hx. rewrite <- (quad_ext_mat n _ _ x EQ). apply B. exact Hx.
    - intros i Hi. rewrite <- (C i Hi). unfold mv at 1 2. apply rsum_ext. intros j Hj. rewrite EQ by assumption. reflexivity. }
  destruct (Rltb_spec (dot n y s) (2 / 10 * dot n s (mv n H s))) as [C|C].
  - destruct (Rleb_spec (dot n (vadd (vscal ((1 - 2 / 10) * dot n s (mv n H s) / (dot n s (mv n H s) - dot n y s)) y)
        (vscal (1 - (1 - 2 / 10) * dot n s (mv n H s) / (dot n s (mv n H s) - dot n y s)) (mv n H s))) s) 0) as [D|D]; [cbv zeta in Hyp; lra|].
    cbn [bf_flag bf_H bf_pc]. split; [reflexivity|].
    apply Rnot_le_lt in D. destruct (FIN _ D) as [F1 [F2 F3]]. split; [exact F1|]. split; [exact F2|]. split; [exact F3|].
    set (a := dot n s (mv n H s)) in *. set (b := dot n y s) in *.
    split.
    + apply Rmult_lt_0_compat; [lra|apply Rinv_0_lt_compat; lra].
    + apply (Rmult_le_reg_r (a - b)); [lra|].
      replace ((1 - 2 / 10) * a / (a - b) * (a - b)) with ((1 - 2 / 10) * a) by (field; lra). lra.
  - destruct (Rleb_spec (dot n y s) 0) as [D|D]; [lra|].
    cbn [bf_flag bf_H bf_pc]. split; [reflexivity|].
    destruct (FIN y ltac:(lra)) as [F1 [F2 F3]]. split; [exact F1|]. split; [exact F2|]. split; [exact F3|]. lra.
Qed.

Lemma bfgs_null_step n H y s first : veq n s vzero ->
  bfgs_update n H y s first = {| bf_H := H; bf_pc := 1; bf_flag := 30 |}.
Proof.
  intros Hs. unfold bfgs_update. apply norm_zero in Hs. rewrite Hs.
  destruct (Reqb_spec 0 0); [reflexivity|lra].
Qed.

Lemma bfgs_fail_unchanged n H y s first :
  bf_flag (bfgs_update n H y s first) <> 0%Z ->
  bf_flag (bfgs_update n H y s first) = 30%Z /\ bf_H (bfgs_update n H y s first) = H.
Proof.
  unfold bfgs_update. destruct (Reqb _ _); [split; reflexivity|]. destruct (Rleb _ 0); [split; reflexivity|].
  destruct (Rltb _ _); destruct (Rleb _ 0); cbn; intros; split; congruence.
Qed.

(** When the update fails at all: only for a null step or a matrix that is
    not positive along the step - never after the correction. *)
Lemma bfgs_fail_iff n H y s first :
  bf_flag (bfgs_update n H y s first) = 30%Z <-> (veq n s vzero \/ dot n s (mv n H s) <= 0).
Proof.
  split.
  - unfold bfgs_update. destruct (Reqb_spec (norm n s) 0) as [E|E]; [intros; left; apply norm_zero; exact E|].
    destruct (Rleb_spec (dot n s (mv n H s)) 0) as [L|L]; [intros; right; exact L|].
    pose proof (y_used_pos n H y s ltac:(lra)) as Hyp. unfold y_used in Hyp. cbv zeta in Hyp.
    destruct (Rltb_spec (dot n y s) (2 / 10 * dot n s (mv n H s))) as [C|C].
    + destruct (Rleb_spec (dot n (vadd (vscal ((1 - 2 / 10) * dot n s (mv n H s) / (dot n s (mv n H s) - dot n y s)) y)
        (vscal (1 - (1 - 2 / 10) * dot n s (mv n H s) / (dot n s (mv n H s) - dot n y s)) (mv n H s))) s) 0) as [D|D]; [lra|].
      cbn. discriminate.
    + destruct (Rleb_spec (dot n y s) 0) as [D|D]; [lra|]. cbn. discriminate.
  - intros [Hz|Hn]; unfold bfgs_update.
    + apply norm_zero in Hz. destruct (Reqb_spec (norm n s) 0); [reflexivity|contradiction].
    + destruct (Reqb_spec (norm n s) 0); [reflexivity|].
      destruct (Rleb_spec (dot n s (mv n H s)) 0); [reflexivity|contradiction].
Qed.

(** ** Convexification *)

Definition vt (n : nat) (V : mat) (x : vec) : vec := fun k => rsum n (fun i => V i k * x i).

Lemma quad_decomp n d V x :
  quad n (fun i j => rsum n (fun k => V i k * (d k * V j k))) x = rsum n (fun k => d k * (vt n V x k * vt n V x k)).
Proof.
  unfold quad, dot, mv.
  rewrite (rsum_ext n _ (fun i => rsum n (fun k => d k * vt n V x k * (V i k * x i)))).
  - rewrite rsum_swap. apply rsum_ext. intros k Hk. rewrite rsum_scal. unfold vt. ring.
  - intros i Hi.
    rewrite (rsum_ext n (fun j => rsum n (fun k => V i k * (d k * V j k)) * x j) (fun j => rsum n (fun k => V i k * d k * (V j k * x j)))).
    2:{ intros j Hj. rewrite <- rsum_scal_r. apply rsum_ext. intros. ring. }
    rewrite rsum_swap, <- rsum_scal. apply rsum_ext. intros k Hk. rewrite rsum_scal. unfold vt. ring.
Qed.

Lemma vt_norm n V x :
  (forall i j, (i < n)%nat -> (j < n)%nat -> rsum n (fun k => V i k * V j k) = idm i j) ->
  rsum n (fun k => vt n V x k * vt n V x k) = dot n x x.
Proof.
  intros HV.
  rewrite <- (quad_idm n x).
  rewrite (quad_ext_mat n idm (fun i j => rsum n (fun k => V i k * (1 * V j k))) x).
  - rewrite (quad_decomp n (fun _ => 1) V x). apply rsum_ext. intros. ring.
  - intros i j Hi Hj. rewrite <- HV by assumption. apply rsum_ext. intros. ring.
Qed.

Lemma decomp_pd n d V : (forall k, (k < n)%nat -> 0 < d k) ->
  (forall i j, (i < n)%nat -> (j < n)%nat -> rsum n (fun k => V i k * V j k) = idm i j) ->
  posdef n (fun i j => rsum n (fun k => V i k * (d k * V j k))).
Proof.
  intros Hd HV x Hx. change (0 < quad n (fun i j => rsum n (fun k => V i k * (d k * V j k))) x).
  rewrite quad_decomp.
  assert (H0 : 0 <= rsum n (fun k => d k * (vt n V x k * vt n V x k))).
  { apply rsum_nonneg. intros k Hk. specialize (Hd k Hk). nra. }
  destruct (Req_dec (rsum n (fun k => d k * (vt n V x k * vt n V x k))) 0) as [E|E]; [|lra].
  exfalso. apply Hx. apply dot_self_zero. rewrite <- (vt_norm n V x HV). apply rsum_zero. intros k Hk.
  pose proof (rsum_ge_term n (fun k => d k * (vt n V x k * vt n V x k)) k Hk) as G.
  cbn beta in G. specialize (Hd k Hk) as Hdk.
  assert (Hall : forall i, (i < n)%nat -> 0 <= d i * (vt n V x i * vt n V x i)).
  { intros i Hi. specialize (Hd i Hi). nra. }
  specialize (G Hall). assert (0 <= vt n V x k * vt n V x k) by nra. nra.
Qed.

Lemma decomp_psd n d V : (forall k, (k < n)%nat -> 0 <= d k) ->
  possemidef n (fun i j => rsum n (fun k => V i k * (d k * V j k))).
Proof.
  intros Hd x. rewrite quad_decomp. apply rsum_nonneg. intros k Hk. specialize (Hd k Hk). nra.
Qed.

Lemma decomp_sym n d V : symmetric n (fun i j => rsum n (fun k => V i k * (d k * V j k))).
Proof. intros i j _ _. apply rsum_ext. intros. ring. Qed.

Lemma convex_pd n A evneg d V : eigendecomposition n A d V ->
  (evneg = true <-> exists k, (k < n)%nat /\ d k < 0) ->
  (evneg = true -> symmetric n (check_convex n A evneg d V) /\ posdef n (check_convex n A evneg d V)) /\
  (evneg = false -> check_convex n A evneg d V = A /\ possemidef n A) /\
  possemidef n (check_convex n A evneg d V).
Proof.
  intros [HA [HV _]] He. unfold check_convex.
  assert (HP : posdef n (fun i j => rsum n (fun k => V i k * ((fun i => if Rltb (d i) (1 / 10 ^ 10) then 1 / 10 ^ 9 else d i) k * V j k)))).
  { apply decomp_pd; [|exact HV]. intros k Hk. cbn beta.
    assert (0 < 1 / 10 ^ 9) by (simpl; lra). assert (0 < 1 / 10 ^ 10) by (simpl; lra).
    destruct (Rltb_spec (d k) (1 / 10 ^ 10)); lra. }
  assert (HN : evneg = false -> possemidef n A).
  { intros E x. rewrite (quad_ext_mat n A (fun i j => rsum n (fun k => V i k * (d k * V j k))) x HA).
    apply decomp_psd. intros k Hk. destruct (Rle_dec 0 (d k)) as [L|L]; [exact L|].
    assert (evneg = true) by (apply He; exists k; split; [exact Hk|lra]). congruence. }
  destruct evneg.
  - split; [intros _; split; [apply decomp_sym|exact HP]|]. split; [discriminate|].
    intros x. destruct (Req_dec (dot n x x) 0) as [E|E].
    + apply dot_self_zero in E. unfold quad. rewrite (dot_ext n x vzero _ _ E (fun i _ => eq_refl)), dot_zero_l. lra.
    + left. apply HP. intros C. apply E. apply dot_self_zero. exact C.
  - split; [discriminate|]. split; [intros _; split; [reflexivity|apply HN; reflexivity]|apply HN; reflexivity].
Qed.

(** Eigenvectors are kept; eigenvalues of at least 1e-10 too. *)
Lemma convex_eigen n A d V k : eigendecomposition n A d V ->
  (k < n)%nat ->
  forall i, (i < n)%nat -> mv n (check_convex n A true d V) (fun l => V l k) i
    = (if Rltb (d k) (1 / 10 ^ 10) then 1 / 10 ^ 9 else d k) * V i k.
Proof.
  intros [_ [_ HV]] Hk i Hi. cbn [check_convex]. unfold mv.
  set (d' := fun i => if Rltb (d i) (1 / 10 ^ 10) then 1 / 10 ^ 9 else d i).
  rewrite (rsum_ext n _ (fun j => rsum n (fun l => V i l * d' l * (V j l * V j k)))).
  2:{ intros j Hj. rewrite <- rsum_scal_r. apply rsum_ext. intros. unfold d'. ring. }
  rewrite rsum_swap.
  rewrite (rsum_ext n _ (fun l => V i l * d' l * idm l k)).
  2:{ intros l Hl. rewrite rsum_scal. rewrite HV by assumption. reflexivity. }
  rewrite (rsum_single n k); [|exact Hk|].
  - unfold idm, d'. rewrite Nat.eqb_refl. ring.
  - intros l Hl Hne. unfold idm. destruct (Nat.eqb_spec l k); [contradiction|lra].
Qed.

(** ** Conditioning *)

Lemma some_row_false k n A : some_row k n A = false ->
  forall i, (i < k)%nat -> rsum n (fun j => Rabs (A i j - A j i)) <= 1 / 10 ^ 14.
Proof.
  induction k as [|k IH]; intros H i Hi; [lia|].
  cbn [some_row] in H. apply orb_false_iff in H. destruct H as [H1 H2].
  destruct (Nat.eq_dec i k) as [->|Ne]; [apply Rltb_false in H1; exact H1|apply IH; [exact H2|lia]].
Qed.

Lemma check_cond_good n A t U sv V c : cond_ n sv = Some c -> c <= t -> check_cond n A t U sv V = (A, false).
Proof. intros E L. unfold check_cond. rewrite E. destruct (Rltb_spec t c); [lra|reflexivity]. Qed.

(** The repaired matrix is symmetric up to row sums of 1e-14. *)
Lemma check_cond_sym n A t U sv V : snd (check_cond n A t U sv V) = true ->
  let A' := fst (check_cond n A t U sv V) in
  symmetric n A' \/ forall i, (i < n)%nat -> rsum n (fun j => Rabs (A' i j - A' j i)) <= 1 / 10 ^ 14.
Proof.
  unfold check_cond. destruct (match cond_ n sv with None => true | Some c => Rltb t c end); [|discriminate].
  intros _. cbn [fst]. destruct (some_row n n _) eqn:E.
  - left. intros i j _ _. ring.
  - right. exact (some_row_false n n _ E).
Qed.

(** Bilinear form of [U diag(d) V']. *)
Lemma bilin_decomp n U d V x y :
  dot n x (mv n (fun i j => rsum n (fun k => V j k * (d k * U i k))) y)
  = rsum n (fun k => d k * (vt n U x k * vt n V y k)).
Proof.
  unfold dot, mv.
  rewrite (rsum_ext n _ (fun i => rsum n (fun k => d k * vt n V y k * (U i k * x i)))).
  - rewrite rsum_swap. apply rsum_ext. intros k Hk. rewrite rsum_scal. unfold vt. ring.
  - intros i Hi.
    rewrite (rsum_ext n (fun j => rsum n (fun k => V j k * (d k * U i k)) * y j) (fun j => rsum n (fun k => U i k * d k * (V j k * y j)))).
    2:{ intros j Hj. rewrite <- rsum_scal_r. apply rsum_ext. intros. ring. }
    rewrite rsum_swap, <- rsum_scal. apply rsum_ext. intros k Hk. rewrite rsum_scal. unfold vt. ring.
Qed.

(** Raising small singular values moves the form by at most 1e-7. *)
Lemma raise_close n A U sv V : svd_of n A U sv V ->
  within n (1 / 10 ^ 7) (fun i j => rsum n (fun k => V j k * ((if Rltb (sv k) (1 / 10 ^ 7) then 1 / 10 ^ 7 else sv k) * U i k))) A.
Proof.
  intros [HA [HU [HV [H0 _]]]] x y.
  rewrite (bilin_decomp n U (fun k => if Rltb (sv k) (1 / 10 ^ 7) then 1 / 10 ^ 7 else sv k) V x y).
  assert (EA : dot n x (mv n A y) = rsum n (fun k => sv k * (vt n U x k * vt n V y k))).
  { rewrite <- bilin_decomp. apply dot_ext; [intros i Hi; reflexivity|]. intros i Hi. unfold mv. apply rsum_ext.
    intros j Hj. f_equal. rewrite HA by assumption. apply rsum_ext. intros. ring. }
  rewrite EA, <- rsum_minus.
  set (e := fun k => (if Rltb (sv k) (1 / 10 ^ 7) then 1 / 10 ^ 7 else sv k) - sv k).
  set (w := fun k => e k * vt n U x k).
  rewrite (rsum_ext n _ (fun k => w k * vt n V y k)) by (intros; unfold w, e; ring).
  change (Rabs (dot n w (vt n V y)) <= 1 / 10 ^ 7 * (norm n x * norm n y)).
  assert (Hc : 0 < 1 / 10 ^ 7) by (simpl; lra).
  assert (He : forall k, (k < n)%nat -> 0 <= e k <= 1 / 10 ^ 7).
  { intros k Hk. specialize (H0 k Hk). unfold e. destruct (Rltb_spec (sv k) (1 / 10 ^ 7)); lra. }
  assert (Nw : norm n w <= 1 / 10 ^ 7 * norm n x).
  { unfold norm. apply Rle_trans with (sqrt ((1 / 10 ^ 7) * (1 / 10 ^ 7) * dot n x x)).
    - apply sqrt_le_1_alt. rewrite <- (vt_norm n U x HU), <- rsum_scal. apply rsum_le. intros k Hk.
      unfold w. specialize (He k Hk). set (c := 1 / 10 ^ 7) in *. set (u := vt n U x k).
      replace (e k * u * (e k * u)) with ((e k * e k) * (u * u)) by ring.
      apply Rmult_le_compat_r; [apply Rle_0_sqr|]. apply Rmult_le_compat; lra.
    - rewrite sqrt_mult_alt by (apply Rle_0_sqr). rewrite sqrt_square by lra. lra. }
  assert (Nv : norm n (vt n V y) = norm n y).
  { unfold norm, dot at 1. rewrite (vt_norm n V y HV). reflexivity. }
  pose proof (cauchy_schwarz n w (vt n V y)) as CS. rewrite Nv in CS.
  pose proof (norm_nonneg n y). pose proof (Rmult_le_compat_r (norm n y) _ _ H Nw). lra.
Qed.

Lemma dot_mv_transpose n A x y : dot n x (mv n (fun i j => A j i) y) = dot n y (mv n A x).
Proof.
  unfold dot, mv.
  rewrite (rsum_ext n _ (fun i => rsum n (fun j => x i * (A j i * y j)))) by (intros; rewrite rsum_scal; reflexivity).
  rewrite rsum_swap. apply rsum_ext. intros j Hj. rewrite <- rsum_scal. apply rsum_ext. intros. ring.
Qed.

Lemma within_sym_part n e A B : symmetric n B -> within n e A B ->
  within n e (fun i j => 5 / 10 * (A i j + A j i)) B.
Proof.
  intros HB HW x y.
  assert (E : dot n x (mv n (fun i j => 5 / 10 * (A i j + A j i)) y)
    = 5 / 10 * (dot n x (mv n A y) + dot n y (mv n A x))).
  { rewrite <- (dot_mv_transpose n A x y). rewrite <- dot_add_r, <- dot_scal_r.
    apply dot_ext; [intros i Hi; reflexivity|]. intros i Hi. unfold vscal, vadd, mv.
    rewrite <- rsum_plus, <- rsum_scal. apply rsum_ext. intros. ring. }
  rewrite E. pose proof (HW x y) as W1. pose proof (HW y x) as W2.
  rewrite (dot_mv_sym n B y x HB) in W2.
  rewrite (dot_sym n (mv n B y) x) in W2 || idtac.
  replace (norm n y * norm n x) with (norm n x * norm n y) in W2 by ring.
  set (w := e * (norm n x * norm n y)) in *.
  unfold Rabs in *. repeat destruct (Rcase_abs _); lra.
Qed.

Lemma check_cond_close n A t U sv V : symmetric n A -> svd_of n A U sv V ->
  within n (1 / 10 ^ 7) (fst (check_cond n A t U sv V)) A.
Proof.
  intros HS HD. unfold check_cond.
  destruct (match cond_ n sv with None => true | Some c => Rltb t c end); cbn [fst].
  - destruct (some_row n n _).
    + apply within_sym_part; [exact HS|]. apply raise_close. exact HD.
    + apply raise_close. exact HD.
  - intros x y. rewrite Rminus_diag_eq by reflexivity. rewrite Rabs_R0.
    apply Rmult_le_pos; [simpl; lra|]. apply Rmult_le_pos; apply norm_nonneg.
Qed.

(** ** computeHessian *)

Lemma idm_pd n : symmetric n idm /\ posdef n idm.
Proof.
  split; [intros i j _ _; unfold idm; rewrite Nat.eqb_sym; reflexivity|].
  intros x Hx. change (0 < quad n idm x). rewrite quad_idm. apply dot_self_pos. exact Hx.
Qed.

Lemma lag_diff_eq me g ae gx gce lm i :
  lag_diff me g ae gx gce lm i
  = (gx i + rsum me (fun k => lm k * gce k i)) - (g i + rsum me (fun k => lm k * ae k i)).
Proof.
  unfold lag_diff.
  rewrite (rsum_ext me (fun k => lm k * gce k i) (fun k => gce k i * lm k)) by (intros; ring).
  rewrite (rsum_ext me (fun k => lm k * ae k i) (fun k => ae k i * lm k)) by (intros; ring).
  destruct (Nat.ltb_spec 0 me); [ring|]. replace me with 0%nat by lia. cbn [rsum]. ring.
Qed.

(** The BFGS branch, whenever it returns: the matrix stays valid, and flag 30
    means exactly a null step. *)
Lemma bfgs_valid n M y s first : symmetric n M -> posdef n M ->
  symmetric n (bf_H (bfgs_update n M y s first)) /\ posdef n (bf_H (bfgs_update n M y s first)) /\
  (bf_flag (bfgs_update n M y s first) = 30%Z <-> veq n s vzero).
Proof.
  intros HS HP. destruct (Req_dec (norm n s) 0) as [Z|Z].
  - apply norm_zero in Z. rewrite (bfgs_null_step n M y s _ Z). cbn.
    split; [exact HS|]. split; [exact HP|]. split; intros; [exact Z|reflexivity].
  - assert (Hs : ~ veq n s vzero) by (intros C; apply Z, norm_zero; exact C).
    destruct (bfgs_success n M y s first HS HP Hs) as [Fl [A [B _]]].
    split; [exact A|]. split; [exact B|]. rewrite Fl. split; [discriminate|contradiction].
Qed.

Lemma hess_bfgs_valid n me r niter M s gx gce lb lm con fY ceY slk hP fH info M' pc info' :
  symmetric n M -> posdef n M ->
  compute_hessian n me false HBfgs r niter M s gx gce lb lm con fY ceY slk hP fH info = HRes M' pc info' ->
  symmetric n M' /\ posdef n M' /\ (hi_flag info' = 30%Z <-> veq n s vzero) /\ hi_g info' = gx /\ hi_ae info' = gce.
Proof.
  intros HS HP E. cbn [compute_hessian] in E. destruct r as [r|]; [|discriminate].
  destruct (0 <? r)%nat; [discriminate|]. destruct (idm_pd n) as [IS IP].
  destruct (Z.eqb _ 30); injection E as <- <- <-; cbn [hi_flag hi_g hi_ae].
  - destruct (bfgs_valid n idm (lag_diff me (hi_g info) (hi_ae info) gx gce lb) s (niter =? 1)%nat IS IP) as [A [B C]].
    repeat split; try assumption; apply C.
  - destruct (bfgs_valid n M (lag_diff me (hi_g info) (hi_ae info) gx gce lb) s (niter =? 1)%nat HS HP) as [A [B C]].
    repeat split; try assumption; apply C.
Qed.

(** From any matrix at all: a failing update is replaced by a valid matrix. *)
Lemma hess_bfgs_recover n me niter M s gx gce lb lm con fY ceY slk hP fH info :
  (veq n s vzero \/ dot n s (mv n M s) <= 0) ->
  exists M' pc info', compute_hessian n me false HBfgs (Some 0%nat) niter M s gx gce lb lm con fY ceY slk hP fH info = HRes M' pc info' /\
    symmetric n M' /\ posdef n M' /\ (hi_flag info' = 30%Z <-> veq n s vzero).
Proof.
  intros HF. cbn [compute_hessian]. change (0 <? 0)%nat with false. cbv iota zeta.
  apply (bfgs_fail_iff n M (lag_diff me (hi_g info) (hi_ae info) gx gce lb) s (niter =? 1)%nat) in HF.
  rewrite HF. cbn [Z.eqb Pos.eqb]. destruct (idm_pd n) as [IS IP].
  eexists _, _, _. split; [reflexivity|]. apply bfgs_valid; assumption.
Qed.

Lemma y_used_damped n H y s : 0 < dot n s (mv n H s) -> damped n H y s (y_used n H y s).
Proof.
  intros Hp. unfold damped. pose proof (y_used_pos n H y s Hp) as YP. unfold y_used in *. cbv zeta in *. unfold quad.
  destruct (Rltb_spec (dot n y s) (2 / 10 * dot n s (mv n H s))) as [L|L].
  - set (a := dot n s (mv n H s)) in *. set (b := dot n y s) in *.
    exists ((1 - 2 / 10) * a / (a - b)). split; [|split; [|split]].
    + split; [apply Rmult_lt_0_compat; [lra|apply Rinv_0_lt_compat; lra]|].
      apply (Rmult_le_reg_r (a - b)); [lra|].
      replace ((1 - 2 / 10) * a / (a - b) * (a - b)) with ((1 - 2 / 10) * a) by (field; lra). lra.
    + intros i Hi. reflexivity.
    + intros; lra.
    + intros _. rewrite dot_add_l, !dot_scal_l, (dot_sym n (mv n H s) s). fold a b. field. lra.
  - exists 1. split; [lra|]. split; [intros; ring|]. split; [reflexivity|lra].
Qed.

(** ** Statements used by the property file *)

Lemma bfgs_spd n H y s first : spd n H -> ~ veq n s vzero ->
  bf_flag (bfgs_update n H y s first) = 0%Z /\ spd n (bf_H (bfgs_update n H y s first)) /\
  exists yh, damped n H y s yh /\ veq n (mv n (bf_H (bfgs_update n H y s first)) s) yh.
Proof.
  intros [HS HP] Hs. destruct (bfgs_success n H y s first HS HP Hs) as [F [A [B [C _]]]].
  split; [exact F|]. split; [split; assumption|]. exists (y_used n H y s).
  split; [apply y_used_damped; apply HP; exact Hs|exact C].
Qed.

Lemma convex_all n A evneg d V : eigendecomposition n A d V ->
  (evneg = true <-> exists k, (k < n)%nat /\ d k < 0) ->
  possemidef n (check_convex n A evneg d V) /\
  (evneg = true -> spd n (check_convex n A evneg d V)) /\
  (evneg = false -> check_convex n A evneg d V = A).
Proof.
  intros HD He. destruct (convex_pd n A evneg d V HD He) as [P1 [P2 P3]].
  split; [exact P3|]. split; [exact P1|]. intros E. apply P2. exact E.
Qed.

(** ** The symmetrised matrix may be singular *)
Definition rot : mat := fun i j =>
  match i, j with O, S O => 1 | S O, O => -1 | _, _ => 0 end.

Lemma rot_svd : svd_of 2 (fun _ _ => 0) idm vzero rot.
Proof.
  unfold svd_of. split; [|split; [|split; [|split]]].
  - intros i j _ _. cbn [rsum]. unfold vzero. ring.
  - intros i j Hi Hj. destruct i as [|[|i]]; [| |lia]; destruct j as [|[|j]]; try lia; cbn; ring.
  - intros i j Hi Hj. destruct i as [|[|i]]; [| |lia]; destruct j as [|[|j]]; try lia; cbn; ring.
  - intros. unfold vzero. lra.
  - intros. unfold vzero. lra.
Qed.

Lemma rot_singular t i j : (i < 2)%nat -> (j < 2)%nat -> fst (check_cond 2 (fun _ _ => 0) t idm vzero rot) i j = 0.
Proof.
  intros Hi Hj. unfold check_cond, cond_. unfold vzero at 1.
  destruct (Reqb_spec 0 0) as [_|C]; [|contradiction]. cbv iota. cbn [fst].
  assert (L : Rltb 0 (1 / 10 ^ 7) = true) by (apply Rltb_true; simpl; lra).
  destruct (some_row 2 2 _) eqn:E.
  - destruct i as [|[|i]]; [| |lia]; destruct j as [|[|j]]; try lia; cbn [rsum]; unfold rot, idm, vzero; cbn [Nat.eqb]; ring.
  - exfalso. pose proof (some_row_false 2 2 _ E 0%nat ltac:(lia)) as H. cbn [rsum] in H.
    unfold rot, idm, vzero in H. cbn [Nat.eqb] in H. rewrite L in H.
    assert (10 ^ 7 = 10000000) by (simpl; ring). assert (10 ^ 14 = 100000000000000) by (simpl; ring).
    rewrite H0, H1 in H. unfold Rabs in H. repeat destruct (Rcase_abs _) in H; lra.
Qed.

Lemma cond_repair_undone :
  exists n A U sv V, symmetric n A /\ svd_of n A U sv V /\
    forall t, snd (check_cond n A t U sv V) = true /\
      forall i j, (i < n)%nat -> (j < n)%nat -> fst (check_cond n A t U sv V) i j = 0.
Proof.
  exists 2%nat, (fun _ _ => 0), idm, vzero, rot.
  split; [intros i j _ _; reflexivity|]. split; [exact rot_svd|].
  intros t. split; [|intros i j; apply rot_singular].
  unfold check_cond, cond_. unfold vzero at 1. destruct (Reqb_spec 0 0) as [_|C]; [reflexivity|contradiction].
Qed.

Lemma eigen_example : eigendecomposition 1 (fun _ _ => -1) (fun _ => -1) idm.
Proof.
  unfold eigendecomposition. repeat split; intros i j Hi Hj;
    replace i with 0%nat by lia; replace j with 0%nat by lia; cbn; ring.
Qed.

Lemma hess_null n me mode r niter M s gx gce lb lm con fY ceY slk hP fH info :
  compute_hessian n me true mode r niter M s gx gce lb lm con fY ceY slk hP fH info = HRes M 1 info.
Proof. reflexivity. Qed.

Lemma hess_unknown n me r niter M s gx gce lb lm con fY ceY slk hP fH info :
  exists info', compute_hessian n me false HOther r niter M s gx gce lb lm con fY ceY slk hP fH info = HRes M 1 info' /\
    hi_flag info' = 1%Z /\ hi_g info' = hi_g info.
Proof. eexists. split; [reflexivity|]. split; reflexivity. Qed.

Lemma damped_ext n H y y' s yh : veq n y y' -> damped n H y s yh -> damped n H y' s yh.
Proof.
  intros E [th [A [B [C D]]]]. exists th.
  assert (Ed : dot n y s = dot n y' s) by (apply dot_ext; [exact E|intros i Hi; reflexivity]).
  rewrite <- Ed. split; [exact A|]. split; [|split; assumption].
  intros i Hi. rewrite <- (E i Hi). apply B. exact Hi.
Qed.

Lemma hess_bfgs_secant n me niter M s gx gce lb lm con fY ceY slk hP fH info :
  spd n M -> ~ veq n s vzero ->
  exists M' pc info' yh,
    compute_hessian n me false HBfgs (Some 0%nat) niter M s gx gce lb lm con fY ceY slk hP fH info = HRes M' pc info' /\
    damped n M (vsub (lag_grad me gx gce lb) (lag_grad me (hi_g info) (hi_ae info) lb)) s yh /\
    veq n (mv n M' s) yh.
Proof.
  intros HM Hs. cbn [compute_hessian]. change (0 <? 0)%nat with false. cbv iota zeta.
  destruct (bfgs_spd n M (lag_diff me (hi_g info) (hi_ae info) gx gce lb) s (niter =? 1)%nat HM Hs) as [F [_ [yh [D E]]]].
  rewrite F. cbn [Z.eqb]. eexists _, _, _, yh. split; [reflexivity|]. split; [|exact E].
  apply (damped_ext n M (lag_diff me (hi_g info) (hi_ae info) gx gce lb)); [|exact D].
  intros i Hi. rewrite lag_diff_eq. reflexivity.
Qed.

Lemma hess_restart_crash n me niter M s gx gce lb lm con fY ceY slk hP fH info :
  (forall r, (0 < r)%nat ->
    compute_hessian n me false HBfgs (Some r) niter M s gx gce lb lm con fY ceY slk hP fH info = HNameError) /\
  compute_hessian n me false HBfgs None niter M s gx gce lb lm con fY ceY slk hP fH info = HAttributeError.
Proof.
  split; [|reflexivity]. intros r Hr. cbn [compute_hessian].
  destruct (Nat.ltb_spec 0 r); [reflexivity|lia].
Qed.
