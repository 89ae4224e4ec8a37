(** C62, C63: the updates of the L D L' factorisation in minq.py. *)
From Coq Require Import Reals List Arith Lra Lia.
From Verif Require Import RVec RBool LDL_Model LDL_Spec LDL_Proofs LDL_Blocks LDL_Wit.
Import ListNotations.
Open Scope R_scope.

(** A successful rank-one update factorises the updated matrix, provided no nonzero
    entry of u is coupled by L to a zero entry further down. *)
Theorem C62_update : forall neps slv n L d alpha u L' d', unit_lower n L -> positive n d -> (alpha < 0 -> 0 <= neps) -> no_fill n L u ->
  ldlrk1 neps slv n L d alpha u = LdlOk L' d' ->
  unit_lower n L' /\ positive n d' /\ same_mat n (ldlt n L' d') (plus_rank_one (ldlt n L d) alpha u).
Proof. exact rk1_ok. Qed.
Print Assumptions C62_update.

Example C62_update_ex : exists L' d', ldlrk1 0 slvB 2 LA one2 1 (lv [1; 1]) = LdlOk L' d' /\
  no_fill 2 LA (lv [1; 1]) /\ unit_lower 2 LA /\ positive 2 one2.
Proof. destruct (wit_update 0 slvB) as (L' & d' & A & B). exists L', d'. repeat split; try assumption; apply LA_low || apply one2_pos. Qed.

(** An unsuccessful one leaves the factorisation alone and returns a direction, with a
    last nonzero entry 1, along which the updated matrix has curvature at most neps. *)
Theorem C62_direction : forall neps slv n L d alpha u L' d' p, solves_systems slv -> unit_lower n L -> positive n d -> 0 <= neps -> no_fill n L u ->
  ldlrk1 neps slv n L d alpha u = LdlBad L' d' p ->
  L' = L /\ d' = d /\ alpha < 0 /\ quad n (plus_rank_one (ldlt n L d) alpha u) p <= neps /\
  exists k, (k < n)%nat /\ p k = 1 /\ forall i, (k < i)%nat -> p i = 0.
Proof. exact rk1_bad. Qed.
Print Assumptions C62_direction.

Example C62_direction_ex : exists slv p, solves_systems slv /\ no_fill 2 LA (lv [0; 1]) /\
  ldlrk1 0 slv 2 LA one2 (-2) (lv [0; 1]) = LdlBad LA one2 p.
Proof. exact wit_direction. Qed.

(** A matrix L D L' with positive D is positive definite, so success means that the
    updated matrix is. *)
Theorem C62_definite : forall n L d p, unit_lower n L -> positive n d ->
  (exists i, (i < n)%nat /\ p i <> 0) -> 0 < quad n (ldlt n L d) p.
Proof. exact ldlt_posdef. Qed.
Print Assumptions C62_definite.

Example C62_definite_ex : unit_lower 2 LA /\ positive 2 one2.
Proof. exact (conj LA_low one2_pos). Qed.

(** Adding a positive multiple always succeeds, whatever L and u. *)
Theorem C62_positive : forall neps slv n L d alpha u, 0 < alpha -> positive n d ->
  exists L' d', ldlrk1 neps slv n L d alpha u = LdlOk L' d'.
Proof. exact rk1_positive. Qed.
Print Assumptions C62_positive.

Example C62_positive_ex : positive 2 one2.
Proof. exact one2_pos. Qed.

(** Failure never changes the factorisation. *)
Theorem C62_unchanged : forall neps slv n L d alpha u L' d' p,
  ldlrk1 neps slv n L d alpha u = LdlBad L' d' p -> L' = L /\ d' = d.
Proof. exact rk1_back. Qed.
Print Assumptions C62_unchanged.

(** A zero multiple returns nothing at all, and only that does. *)
Theorem C62_zero : forall neps slv n L d alpha u, ldlrk1 neps slv n L d alpha u = LdlNone <-> alpha = 0.
Proof. exact rk1_zero. Qed.
Print Assumptions C62_zero.

(** With fill-in the factorisation returned is that of another matrix. *)
Theorem C62_fill_refuted : forall neps slv, exists n L d u L' d', unit_lower n L /\ positive n d /\
  ldlrk1 neps slv n L d 1 u = LdlOk L' d' /\ ~ same_mat n (ldlt n L' d') (plus_rank_one (ldlt n L d) 1 u).
Proof. exact w_fill_refuted. Qed.
Print Assumptions C62_fill_refuted.

(** And an updated matrix that is positive definite can be rejected, with a direction
    along which its curvature is 1. *)
Theorem C62_alarm_refuted : forall neps, 0 <= neps <= 1 / 2 -> exists slv n L d alpha u p,
  solves_systems slv /\ unit_lower n L /\ positive n d /\
  (forall x, (exists i, (i < n)%nat /\ x i <> 0) -> 0 < quad n (plus_rank_one (ldlt n L d) alpha u) x) /\
  ldlrk1 neps slv n L d alpha u = LdlBad L d p /\ quad n (plus_rank_one (ldlt n L d) alpha u) p = 1.
Proof. exact w_alarm_refuted. Qed.
Print Assumptions C62_alarm_refuted.

(** Replacing a unit row and column j > 0 by g: success factorises the new matrix. *)
Theorem C63_insert : forall neps slv, solves_systems slv -> 0 <= neps -> forall n j L d g L' d',
  (0 < j < n)%nat -> unit_lower n L -> positive n d -> unit_at n j (ldlt n L d) ->
  (forall s, remainder n j L g s -> no_fill (n - S j) (below j L) s) ->
  ldlup neps slv n L d j g = LdlOk L' d' ->
  unit_lower n L' /\ positive n d' /\ same_mat n (ldlt n L' d') (with_row (ldlt n L d) j g).
Proof. exact up_ok. Qed.
Print Assumptions C63_insert.

Example C63_insert_ex : exists slv L' d', solves_systems slv /\ ldlup 0 slv 2 LI dJ 1 (lv [1; 1]) = LdlOk L' d' /\
  (forall s, remainder 2 1 LI (lv [1; 1]) s -> no_fill 0 (below 1 LI) s).
Proof. exact wit_insert. Qed.

(** ... and failure keeps the old factorisation and returns a nonzero direction along
    which the new matrix has curvature at most neps. *)
Theorem C63_insert_direction : forall neps slv, solves_systems slv -> 0 <= neps -> forall n j L d g L' d' p,
  (0 < j < n)%nat -> unit_lower n L -> positive n d -> unit_at n j (ldlt n L d) ->
  (forall s, remainder n j L g s -> no_fill (n - S j) (below j L) s) ->
  ldlup neps slv n L d j g = LdlBad L' d' p ->
  (forall a b, L' a b = L a b) /\ (forall a, d' a = d a) /\ (exists i, (i < n)%nat /\ p i <> 0) /\
  quad n (with_row (ldlt n L d) j g) p <= neps.
Proof. exact up_bad. Qed.
Print Assumptions C63_insert_direction.

Example C63_insert_direction_ex : exists slv p, solves_systems slv /\ ldlup 0 slv 2 LI dJ 1 (lv [2; 1]) = LdlBad LI dJ p /\
  (forall s, remainder 2 1 LI (lv [2; 1]) s -> no_fill 0 (below 1 LI) s).
Proof. exact wit_insert_bad. Qed.

(** For the first row only the diagonal entry of g is used: success factorises the
    matrix with the rest of the row zero. *)
Theorem C63_first : forall neps slv, 0 <= neps -> forall n L d g, (0 < n)%nat -> unit_lower n L -> positive n d -> unit_at n 0 (ldlt n L d) ->
  (g 0%nat <= neps -> ldlup neps slv n L d 0 g = LdlBad L d (unitv 0) /\ quad n (with_row (ldlt n L d) 0 g) (unitv 0) = g 0%nat) /\
  (neps < g 0%nat -> exists d', ldlup neps slv n L d 0 g = LdlOk L d' /\ positive n d' /\
     same_mat n (ldlt n L d') (with_row (ldlt n L d) 0 (fun i => if (i =? 0)%nat then g 0%nat else 0))).
Proof. exact up_first. Qed.
Print Assumptions C63_first.

Example C63_first_ex : unit_lower 2 LI /\ positive 2 dI /\ unit_at 2 0 (ldlt 2 LI dI).
Proof. exact (conj LI_low (conj dI_pos LI_unit)). Qed.

Theorem C63_first_refuted : forall neps slv, neps < 2 -> exists n L d g L' d', unit_lower n L /\ positive n d /\ unit_at n 0 (ldlt n L d) /\
  ldlup neps slv n L d 0 g = LdlOk L' d' /\ ~ same_mat n (ldlt n L' d') (with_row (ldlt n L d) 0 g).
Proof. exact w_first_refuted. Qed.
Print Assumptions C63_first_refuted.

(** Replacing row and column j by the unit vector always succeeds and factorises the
    new matrix, provided column j creates no fill-in. *)
Theorem C63_remove : forall neps slv n j L d, (j < n)%nat -> unit_lower n L -> positive n d ->
  no_fill (n - S j) (below j L) (fun a => L (S j + a)%nat j) ->
  exists L' d', ldldown neps slv n L d j = Some (L', d') /\
  unit_lower n L' /\ positive n d' /\ same_mat n (ldlt n L' d') (with_row (ldlt n L d) j (unitv j)).
Proof. exact down_ok. Qed.
Print Assumptions C63_remove.

Example C63_remove_ex : unit_lower 2 LA /\ positive 2 one2 /\ no_fill (2 - 1) (below 0 LA) (fun a => LA (1 + a)%nat 0%nat).
Proof. split; [exact LA_low|]. split; [exact one2_pos|]. intros i k H. lia. Qed.

(** With fill-in, as for the factor of a tridiagonal matrix, it does not. *)
Theorem C63_remove_refuted : forall neps slv, exists n j L d L' d', (j < n)%nat /\ unit_lower n L /\ positive n d /\
  ldldown neps slv n L d j = Some (L', d') /\ ~ same_mat n (ldlt n L' d') (with_row (ldlt n L d) j (unitv j)).
Proof. exact w_remove_refuted. Qed.
Print Assumptions C63_remove_refuted.
