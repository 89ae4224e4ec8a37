(** C88: when the interpolation set counts as poised, and what that decides
    (sqpdfo_main.py 487-521, 1005, 1127, 1167, 1257, 1380). *)
From Coq Require Import List Arith ZArith QArith.
Import ListNotations.
From Verif Require Import QB Book_Model Main_Model Main_Spec Main_Wit Poi_Proofs Poi_Wit.
Local Open Scope Q_scope.

(** the first set counts as poised *)
Theorem C88_first : forall (P : Type) (E : env P) k0 d0 s0, begins E k0 d0 s0 ->
  pm (sG s0) = true /\ epsc (sG s0) == 1 # 100000 /\ delta (sG s0) = d0.
Proof. exact (@first). Qed.
Print Assumptions C88_first.

(** After a pass with a poised set, the trial point is not the incumbent and was the only
    point evaluated; without an improvement of the set in this pass, the set counted as
    poised before, has as many points, and the incumbent is the same. *)
Theorem C88_flag : forall (P : Type) (E : env P), sane E ->
  forall k0 d0 s0 s a s', begins E k0 d0 s0 -> reach E s0 s -> pass E s a = Continue s' ->
  pm (sG s') = true ->
  ib (sI s') <> mlast (sA s') /\ length (calls (sA s')) = S (length (calls (sA s))) /\
  (niter (sN s') = (niter (sN s) + 1)%nat ->
   pm (sG s) = true /\ length (s_Y (iS (sI s'))) = length (s_Y (iS (sI s))) /\ ib (sI s') = ib (sI s)).
Proof. exact (@flag). Qed.
Print Assumptions C88_flag.

(** A poised set and a radius above the threshold: the trial point becomes the incumbent,
    or nothing changes, or it is added because there is room. *)
Theorem C88_kept : forall (P : Type) (E : env P), sane E ->
  forall k0 d0 s0 s a s', begins E k0 d0 s0 -> reach E s0 s -> pass E s a = Continue s' ->
  niter (sN s') = (niter (sN s) + 1)%nat -> pm (sG s) = true -> epsc (sG s) < delta (sG s) ->
  ib (sI s') = mlast (sA s') \/ sI s' = sI s \/
  (pm (sG s') = false /\ length (s_Y (iS (sI s'))) = S (length (s_Y (iS (sI s)))) /\
   (length (s_Y (iS (sI s))) < e_pfinal E \/
    (e_whichmodel E = 3 /\ length (s_Y (iS (sI s))) < e_pfinal E + e_pfinal E))%nat).
Proof. exact (@kept'). Qed.
Print Assumptions C88_kept.

Example C88_kept_ex : sane (pE f_up) /\ begins (pE f_up) 2 1 (ps f_up 1) /\
  exists s', pass (pE f_up) (ps f_up 1) pa = Continue s' /\
  pm (sG (ps f_up 1)) = true /\ sI s' = sI (ps f_up 1) /\ pm (sG s') = true /\ niter (sN s') = 1%nat.
Proof.
  split; [apply pE_sane|]. split; [apply ps_begins; [vm_compute; congruence|vm_compute; congruence|reflexivity]|].
  exact large_radius.
Qed.

(** with a set that does not count as poised, a point that is not better replaces another one *)
Example C88_flag_ex : exists s1 s2, pass (pE f88) (ps f88 1) pa = Continue s1 /\
  ib (sI s1) = mlast (sA s1) /\ pm (sG s1) = false /\ epsc (sG s1) < delta (sG s1) /\
  pass (pE f88) s1 pb = Continue s2 /\ ib (sI s2) = ib (sI s1) /\ In 6 (s_Y (iS (sI s2))).
Proof. exact next_point. Qed.

(** But a set can count as poised after one of its points was replaced. *)
Theorem C88_unchanged_refuted : ~ (forall (P : Type) (E : env P), sane E ->
  forall k0 d0 s0 s a s', begins E k0 d0 s0 -> reach E s0 s -> pass E s a = Continue s' ->
  niter (sN s') = (niter (sN s) + 1)%nat -> pm (sG s') = true -> s_Y (iS (sI s')) = s_Y (iS (sI s))).
Proof. exact unchanged_refuted. Qed.
Print Assumptions C88_unchanged_refuted.
