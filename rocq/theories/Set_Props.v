(** C59 (and the slacks of C07): which points enter and leave the interpolation set. *)
From Coq Require Import List Arith ZArith QArith Qabs Bool.
Import ListNotations.
From Verif Require Import QB Book_Model Book_Spec Main_Model Main_Spec Main_Wit Set_Spec Set_Proofs Set_Wit.
Local Open Scope Q_scope.

(** a pass prepares a set [Y2] (the old one, or an improved one) and then exchanges at
    most one point of it *)
Theorem C59_exchanges : forall (P : Type) (E : env P), sane E ->
  forall k0 d0 s0 s a s', 0 <= e_tolf E -> begins E k0 d0 s0 -> reach E s0 s -> pass E s a = Continue s' ->
  exists r Y2 b, working_radius E s a s' r /\ prepared E s a s' r Y2 b /\
    ((pred (sG s') == -1 /\ s_Y (iS (sI s')) = Y2 /\ pm (sG s') = b) \/
     (0 < pred (sG s') /\
      (exists won x, nth_error Y2 0 = Some x /\ (won = true <-> decreases (1 # 10000) s') /\
         exchange E a won b r (epsc (sG s')) x Y2 (s_Y (iS (sI s')))) /\
      (pm (sG s') = true <-> b = true /\ length (s_Y (iS (sI s'))) = length Y2 /\ ib (sI s') <> mlast (sA s')))).
Proof. exact (@exchanges). Qed.
Print Assumptions C59_exchanges.

(** all three situations occur: a point is added, an improvement replaces points, a point
    of a full set is exchanged *)
Example C59_exchanges_ex : sane w7E /\ begins w7E 2 1 w7s /\
  pass w7E w7s (w7 0) = Continue w7s1 /\ pass w7E w7s1 (w7 1) = Continue w7s2 /\
  s_Y (iS (sI w7s)) = [0; 1] /\ length (s_Y (iS (sI w7s1))) = 3%nat /\
  niter (sN w7s2) = (niter (sN w7s1) + 2)%nat /\
  exists s', pass w7E w7s2 (w7 2) = Continue s' /\ length (s_Y (iS (sI s'))) = 3%nat /\
    nth_error (s_Y (iS (sI s'))) 0 = Some 3 /\ pm (sG s') = false.
Proof. exact exchanges_run. Qed.

(** a trial point that differs from all points evaluated before and at which one Lagrange
    polynomial exceeds 1e-10 becomes the incumbent as soon as the decrease suffices *)
Theorem C59_kept : forall (P : Type) (E : env P), sane E ->
  forall k0 d0 s0 s a s' j, begins E k0 d0 s0 -> reach E s0 s -> pass E s a = Continue s' ->
  0 < pred (sG s') -> decreases (1 # 10000) s' ->
  (j < length (s_Y (iS (sI s))))%nat -> 1 # 10000000000 < Qabs (a_L1 a j) ->
  (forall k y, nth_error (calls (sA s')) k = Some y -> (S k < length (calls (sA s')))%nat -> 0 < e_dist E y (a_xnew a)) ->
  ib (sI s') = mlast (sA s') /\ ix (sI s') = a_xnew a.
Proof. exact (@kept). Qed.
Print Assumptions C59_kept.

Example C59_kept_ex : exists s', pass w7E w7s2 (w7 2) = Continue s' /\ 0 < pred (sG s') /\
  decreases (1 # 10000) s' /\ 1 # 10000000000 < Qabs (a_L1 (w7 2) 0) /\
  (forall k y, nth_error (calls (sA s')) k = Some y -> (S k < length (calls (sA s')))%nat -> 0 < e_dist w7E y 3).
Proof. exact kept_run. Qed.

(** the slacks after a trial point has become the incumbent *)
Theorem C07_new_slacks : forall (P : Type) (E : env P), sane E ->
  forall k0 d0 s0 s a s', begins E k0 d0 s0 -> reach E s0 s -> pass E s a = Continue s' ->
  ib (sI s') = mlast (sA s') -> e_me E <> 0%nat -> sl (sG s) <> [] ->
  sl (sG s') = e_adj E (a_slplus a) (ince (sN s')).
Proof. exact (@new_slacks). Qed.
Print Assumptions C07_new_slacks.

Example C07_new_slacks_ex : exists s0 s', begins E59 2 1 s0 /\ pass E59 s0 w59 = Continue s' /\
  ib (sI s') = mlast (sA s') /\ sl (sG s0) = [0] /\ sl (sG s') = [1 # 10].
Proof. exact slacks_run. Qed.
