(** C33: property theorems about the projected gradient. *)
From Coq Require Import Reals Arith Lra Lia.
From Verif Require Import RVec RBool ProjGrad_Model ProjGrad_Spec ProjGrad_Proofs.
Open Scope R_scope.

Theorem C33_projection : forall n nb x g bl bu, (n <= nb)%nat -> in_bounds n bl bu x ->
  forall i, (i < n)%nat -> snd (projgrad n nb x g bl bu) i = x i - proj (bl i) (bu i) (x i - g i).
Proof. exact projgrad_is_projection. Qed.
Print Assumptions C33_projection.

(** The reported number is the largest component in absolute value. *)
Theorem C33_norm : forall n nb x g bl bu, (n <= nb)%nat -> (0 < n)%nat ->
  (forall i, (i < n)%nat -> Rabs (snd (projgrad n nb x g bl bu) i) <= fst (projgrad n nb x g bl bu)) /\
  exists i, (i < n)%nat /\ fst (projgrad n nb x g bl bu) = Rabs (snd (projgrad n nb x g bl bu) i).
Proof. exact projgrad_max. Qed.
Print Assumptions C33_norm.

Theorem C33_zero_iff_first_order : forall n nb x g bl bu, (n <= nb)%nat -> in_bounds n bl bu x ->
  (fst (projgrad n nb x g bl bu) = 0 <-> first_order n bl bu x g).
Proof. exact projgrad_zero_iff. Qed.
Print Assumptions C33_zero_iff_first_order.

Theorem C33_outside_refuted :
  exists x g bl bu, ~ in_bounds 1 bl bu x /\
    snd (projgrad 1 1 x g bl bu) 0%nat <> x 0%nat - proj (bl 0%nat) (bu 0%nat) (x 0%nat - g 0%nat).
Proof. exact projgrad_outside_refuted. Qed.
Print Assumptions C33_outside_refuted.

(** x = (1, 3) in [0, inf) x (-inf, 3], g = (5, -2). *)
Example C33_example :
  let x := fun i => if (i =? 0)%nat then 1 else 3 in
  let g := fun i => if (i =? 0)%nat then 5 else -2 in
  let bl := fun i => if (i =? 0)%nat then Fin 0 else NInf in
  let bu := fun i => if (i =? 0)%nat then PInf else Fin 3 in
  in_bounds 2 bl bu x /\ snd (projgrad 2 2 x g bl bu) 0%nat = 1 /\ snd (projgrad 2 2 x g bl bu) 1%nat = 0.
Proof.
  cbv zeta. split; [|split].
  - intros i Hi. destruct i as [|[|i]]; cbn; try lia; split; try exact I; lra.
  - cbn. unfold projgrad1, min_dist. destruct (Rltb_spec 5 0); mm.
  - cbn. unfold projgrad1, min_dist. destruct (Rltb_spec (-2) 0); mm.
Qed.
