(** The BFGS update entry by entry, and how much it can add. *)
From Coq Require Import Reals Lra Lia Arith ZArith.
From Verif Require Import RVec RBool Hess_Model Hess_Spec Hess_Proofs.
Open Scope R_scope.

Lemma bfgs_entries n H y s first : spd n H -> ~ veq n s vzero ->
  exists yh, (forall i, (i < n)%nat -> yh i = bf_pc (bfgs_update n H y s first) * y i + (1 - bf_pc (bfgs_update n H y s first)) * mv n H s i) /\
  (2 / 10 * quad n H s <= dot n y s -> bf_pc (bfgs_update n H y s first) = 1) /\
  (dot n y s < 2 / 10 * quad n H s -> 0 < bf_pc (bfgs_update n H y s first) < 1 /\ dot n yh s = 2 / 10 * quad n H s) /\
  bfgs_of n (if first then fun i j => dot n yh yh / dot n yh s * idm i j else H) s yh (bf_H (bfgs_update n H y s first)).
Proof.
  intros (HS & HP) Hs. unfold bfgs_update, quad.
  destruct (Reqb_spec (norm n s) 0) as [E|E]; [apply norm_zero in E; contradiction|].
  assert (HsHs : 0 < dot n s (mv n H s)) by (apply HP; exact Hs).
  destruct (Rleb_spec (dot n s (mv n H s)) 0) as [L|L]; [lra|].
  pose proof (y_used_pos n H y s HsHs) as Hyp. unfold y_used in Hyp.
  assert (FIN : forall y', 0 < dot n y' s ->
    bfgs_of n (if first then fun i j => dot n y' y' / dot n y' s * idm i j else H) s y'
      (fun i j => (if first then (fun i j => dot n y' y' / dot n y' s * idm i j) else H) i j
        - outer (if first then vscal (dot n y' y' / dot n y' s) s else mv n H s)
                (if first then vscal (dot n y' y' / dot n y' s) s else mv n H s) i j
          / (if first then dot n s (vscal (dot n y' y' / dot n y' s) s) else dot n s (mv n H s))
        + outer y' y' i j / dot n y' s)).
  { intros y' Hy' i j Hi Hj. unfold outer, quad. destruct first; [|reflexivity].
    set (p := dot n y' y' / dot n y' s).
    assert (Emv : forall i, (i < n)%nat -> mv n (fun i j => p * idm i j) s i = vscal p s i)
      by (intros k Hk; apply scaled_id_mv; exact Hk).
    rewrite !Emv by assumption.
    rewrite (dot_ext n s s (mv n (fun i j => p * idm i j) s) (vscal p s) (fun _ _ => eq_refl) Emv). reflexivity. }
  set (a := dot n s (mv n H s)) in *. set (b := dot n y s) in *. cbv zeta in Hyp.
  destruct (Rltb_spec b (2 / 10 * a)) as [C|C].
  - set (pc := (1 - 2 / 10) * a / (a - b)) in *.
    set (y' := vadd (vscal pc y) (vscal (1 - pc) (mv n H s))) in *.
    destruct (Rleb_spec (dot n y' s) 0) as [D|D]; [lra|]. apply Rnot_le_lt in D.
    exists y'. cbn [bf_pc bf_H]. split; [intros i _; reflexivity|]. split; [lra|]. split; [|apply FIN; exact D].
    intros _. split.
    + assert (PE : pc * (a - b) = (1 - 2 / 10) * a) by (unfold pc; field; lra).
      split; [unfold pc; apply Rmult_lt_0_compat; [lra|apply Rinv_0_lt_compat; lra]|].
      apply (Rmult_lt_reg_r (a - b)); lra.
    + unfold y'. rewrite dot_add_l, !dot_scal_l, (dot_sym n (mv n H s) s). fold a b. unfold pc. field. lra.
  - destruct (Rleb_spec b 0) as [D|D]; [lra|]. apply Rnot_le_lt in D.
    exists y. cbn [bf_pc bf_H]. split; [intros i _; ring|]. split; [reflexivity|]. split; [intros; lra|].
    apply FIN. exact D.
Qed.

(** the form of the updated matrix *)
Lemma bfgs_of_form n B s yh H' : bfgs_of n B s yh H' -> forall v w,
  dot n w (mv n H' v) = dot n w (mv n B v) - dot n w (mv n B s) * dot n (mv n B s) v / quad n B s
    + dot n w yh * dot n yh v / dot n yh s.
Proof.
  intros F v w.
  assert (E : forall i, (i < n)%nat -> mv n H' v i =
    vadd (vsub (mv n B v) (vscal (dot n (mv n B s) v / quad n B s) (mv n B s))) (vscal (dot n yh v / dot n yh s) yh) i).
  { intros i Hi. unfold vadd, vsub, vscal. unfold mv at 1.
    rewrite (rsum_ext n _ (fun j => B i j * v j - mv n B s i / quad n B s * (mv n B s j * v j) + yh i / dot n yh s * (yh j * v j))).
    - rewrite rsum_plus, rsum_minus, !rsum_scal. change (rsum n (fun j => B i j * v j)) with (mv n B v i).
      change (rsum n (fun j => mv n B s j * v j)) with (dot n (mv n B s) v).
      change (rsum n (fun j => yh j * v j)) with (dot n yh v). unfold Rdiv. ring.
    - intros j Hj. rewrite (F i j Hi Hj). unfold Rdiv. ring. }
  rewrite (dot_ext n w w _ _ (fun _ _ => eq_refl) E), dot_add_r, dot_sub_r, !dot_scal_r. unfold Rdiv. ring.
Qed.

Lemma bfgs_of_bounds n B s yh H' : bfgs_of n B s yh H' -> 0 < quad n B s -> 0 < dot n yh s -> forall v,
  quad n H' v <= quad n B v + dot n yh yh * dot n v v / dot n yh s /\
  quad n B v - dot n (mv n B s) v * dot n (mv n B s) v / quad n B s <= quad n H' v /\
  (dot n (mv n B s) v = 0 -> dot n yh v = 0 -> forall w, dot n w (mv n H' v) = dot n w (mv n B v)).
Proof.
  intros F Q0 D v. pose proof (bfgs_of_form n B s yh H' F v) as FM.
  assert (V : quad n H' v = quad n B v - dot n (mv n B s) v * dot n (mv n B s) v / quad n B s + dot n yh v * dot n yh v / dot n yh s).
  { unfold quad at 1 2. rewrite FM, (dot_sym n v (mv n B s)), (dot_sym n v yh). reflexivity. }
  set (q := quad n B s) in *. set (d := dot n yh s) in *. set (u := dot n (mv n B s) v) in *.
  assert (P1 : 0 <= u * u / q).
  { apply Rmult_le_pos; [apply Rle_0_sqr|left; apply Rinv_0_lt_compat; exact Q0]. }
  assert (ID : 0 < / d) by (apply Rinv_0_lt_compat; exact D).
  assert (P2 : 0 <= dot n yh v * dot n yh v / d).
  { apply Rmult_le_pos; [apply Rle_0_sqr|lra]. }
  assert (P3 : dot n yh v * dot n yh v / d <= dot n yh yh * dot n v v / d).
  { apply Rmult_le_compat_r; [lra|apply cauchy_schwarz_sq]. }
  rewrite V. split; [lra|]. split; [lra|].
  intros U Y w. rewrite FM. rewrite U, Y. unfold Rdiv. ring.
Qed.

Lemma bfgs_growth n H y s (first : bool) : spd n H -> ~ veq n s vzero ->
  exists yh, damped n H y s yh /\
  let B : mat := if first then fun i j => dot n yh yh / dot n yh s * idm i j else H in
  forall v, quad n (bf_H (bfgs_update n H y s first)) v <= quad n B v + dot n yh yh * dot n v v / dot n yh s /\
    quad n B v - dot n (mv n B s) v * dot n (mv n B s) v / quad n B s <= quad n (bf_H (bfgs_update n H y s first)) v /\
    (dot n (mv n B s) v = 0 -> dot n yh v = 0 ->
     forall i, (i < n)%nat -> mv n (bf_H (bfgs_update n H y s first)) v i = mv n B v i).
Proof.
  intros SP Hs. destruct (bfgs_entries n H y s first SP Hs) as (yh & Y1 & Y2 & Y3 & F). pose proof SP as (HS & HP).
  assert (Q0 : 0 < quad n H s) by (apply HP; exact Hs).
  assert (DD : 0 < bf_pc (bfgs_update n H y s first) <= 1 /\ 0 < dot n yh s /\
     (dot n y s < 2 / 10 * quad n H s -> dot n yh s = 2 / 10 * quad n H s)).
  { destruct (Rlt_le_dec (dot n y s) (2 / 10 * quad n H s)) as [L|L].
    - destruct (Y3 L) as (K1 & K2). split; [lra|]. split; [lra|auto].
    - pose proof (Y2 L) as K. rewrite K in *. split; [lra|]. split; [|intros; lra].
      assert (YE : veq n yh y) by (intros i Hi; rewrite (Y1 i Hi); ring).
      rewrite (dot_ext n yh y s s YE (fun _ _ => eq_refl)). lra. }
  destruct DD as (D1 & D2 & D3). exists yh. split.
  { exists (bf_pc (bfgs_update n H y s first)). auto. }
  cbv zeta. set (B := if first then fun i j => dot n yh yh / dot n yh s * idm i j else H) in *.
  assert (QB : 0 < quad n B s).
  { unfold B. destruct first; [|exact Q0].
    apply (scaled_id_pd n (dot n yh yh / dot n yh s)); [|exact Hs].
    apply Rmult_lt_0_compat; [|apply Rinv_0_lt_compat; exact D2].
    apply dot_self_pos. intros C.
    rewrite (dot_ext n yh vzero s s C (fun i _ => eq_refl)), dot_zero_l in D2. lra. }
  intros v. destruct (bfgs_of_bounds n B s yh _ F QB D2 v) as (K1 & K2 & K3).
  split; [exact K1|]. split; [exact K2|]. intros U V i Hi.
  pose proof (K3 U V (unitv i)) as K. rewrite !(dot_unitv n i _ Hi) in K. exact K.
Qed.
