(** C89: the radius in a sequence of unsuccessful passes
    (sqpdfo_main.py 1155-1158, 1266-1274, 1389-1396, 1425-1450). *)
From Coq Require Import List Arith ZArith QArith.
Import ListNotations.
From Verif Require Import QB Book_Model Main_Model Main_Spec Main_Wit Poi_Wit Fai_Spec Fai_Proofs Fai_Wit.
Local Open Scope Q_scope.

(** one unsuccessful pass: halved, kept, or at most half *)
Theorem C89_pass : forall (P : Type) (E : env P), sane E -> 0 <= e_tolf E ->
  forall k0 d0 s0 t a t', begins E k0 d0 s0 -> reach E s0 t -> pass E t a = Continue t' ->
  niter (sN t') = (niter (sN t) + 1)%nat -> 0 < pred (sG t') -> ib (sI t') <> mlast (sA t') ->
  (In (mlast (sA t')) (s_ind (iS (sI t'))) /\ 1 # 100000 < delta (sG t) /\ delta (sG t') == (1 # 2) * delta (sG t)) \/
  (In (mlast (sA t')) (s_ind (iS (sI t'))) /\ delta (sG t) <= 1 # 100000 /\ delta (sG t') == delta (sG t)) \/
  (~ In (mlast (sA t')) (s_ind (iS (sI t'))) /\ 1 # 10000000000 <= delta (sG t') /\ 2 * delta (sG t') <= delta (sG t)).
Proof. exact (@one_pass). Qed.
Print Assumptions C89_pass.

(** a sequence of them *)
Theorem C89_halving : forall (P : Type) (E : env P), sane E -> 0 <= e_tolf E ->
  forall k0 d0 s0 s k j i t, begins E k0 d0 s0 -> reach E s0 s -> failing E s k j i t ->
  delta (sG t) * 2 ^ Z.of_nat (k + j) <= delta (sG s) /\
  (1 # 10000000000 <= delta (sG s) \/ (0 < k)%nat -> 1 # 10000000000 <= delta (sG t)) /\
  ((0 < j)%nat -> 2 ^ Z.of_nat j <= (200000 # 1) * delta (sG s)) /\
  (k = 0%nat -> j = 0%nat -> delta (sG t) == delta (sG s)).
Proof. exact (@halving). Qed.
Print Assumptions C89_halving.

(** how many of them can reduce the radius *)
Theorem C89_count : forall (P : Type) (E : env P), sane E -> 0 <= e_tolf E ->
  forall k0 d0 s0 s k j i t, begins E k0 d0 s0 -> reach E s0 s -> failing E s k j i t ->
  (0 < k)%nat \/ (0 < j)%nat -> 2 ^ Z.of_nat (k + j) <= (10000000000 # 1) * delta (sG s).
Proof. exact (@count). Qed.
Print Assumptions C89_count.

Example C89_out_ex : sane (pE f_up) /\ begins (pE f_up) 2 1 (ps f_up 1) /\
  exists t, failing (pE f_up) (ps f_up 1) 1 0 0 t /\ 2 * delta (sG t) <= 1.
Proof.
  split; [apply pE_sane; vm_compute; congruence|]. split; [apply ps_begins; vm_compute; congruence|]. exact out_once.
Qed.

Example C89_in_ex : exists t, failing (wE (unc f_up) 0 9 100) (su (unc f_up) f_up 9 100) 0 1 0 t /\ delta (sG t) == 1 # 2.
Proof. exact in_once. Qed.

(** "Every unsuccessful pass reduces the radius" is false. *)
Theorem C89_shrinks_refuted : ~ (forall (P : Type) (E : env P), sane E -> 0 <= e_tolf E ->
  forall k0 d0 s0 s k j i t, begins E k0 d0 s0 -> reach E s0 s -> failing E s k j i t ->
  (0 < k + j + i)%nat -> delta (sG t) < delta (sG s)).
Proof. exact shrink_refuted. Qed.
Print Assumptions C89_shrinks_refuted.

Example C89_shrinks_ex : exists t, failing (pE f_up) (ps f_up (1 # 1000000)) 0 0 1 t /\ delta (sG t) = 1 # 1000000.
Proof. exact stays. Qed.
