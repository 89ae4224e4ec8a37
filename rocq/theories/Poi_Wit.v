(** C88: concrete passes (one variable, two points in the full set). *)
From Coq Require Import List Arith ZArith QArith Bool Lia Lqa.
Import ListNotations.
From Verif Require Import QB Book_Model Book_Spec Book_Wit Main_Model Main_Spec Main_Wit.
Local Open Scope Q_scope.

(** settings of [wE], but the set is full with two points *)
Definition pE (f : Q -> Q) : env Q :=
  mkenv (unc f) 0 9 100 (1 # 1000) (1 # 1000) (1 # 1000) 0 2 3 0
    (fun a b => qabs (a - b)) qabs qabs w_sort linf (fun _ => true) (fun s _ => s).

Lemma pE_sane f : sane (pE f).
Proof. split; [apply w_sort_ok|]. cbn. lia. Qed.

(** points 0 and 1 evaluated, radius d *)
Definition ps (f : Q -> Q) (d : Q) : st Q :=
  match start (pE f) [0; 1] [0; 1] [f 0; f 1] [] [] d with Some s => s | None => dummy end.

Lemma ps_begins f d : f 0 <= inject_Z (10 ^ 25) -> f 1 <= inject_Z (10 ^ 25) -> 0 < d ->
  begins (pE f) 2 d (ps f d).
Proof.
  intros F0 F1 D. exists [0; 1], [0; 1], [f 0; f 1], [], [].
  split; [|split; [reflexivity|split; [auto|reflexivity]]].
  split; [auto|]. split; [auto|]. split; [auto|]. split; [intros H; exfalso; apply H; reflexivity|].
  split; [intros c []|]. split; [|intros _ c v []].
  intros [|[|i]] y v; cbn [nth_error].
  - intros H1 H2; injection H1 as <-; injection H2 as <-. exists 0%nat, (f 0), [].
    split; [reflexivity|]. split; [split; [reflexivity|split; [reflexivity|intros []]]|].
    split; [reflexivity|]. intros K. exfalso. apply (Qlt_not_le _ _ K). exact F0.
  - intros H1 H2; injection H1 as <-; injection H2 as <-. exists 1%nat, (f 1), [].
    split; [reflexivity|]. split; [split; [reflexivity|split; [reflexivity|intros []]]|].
    split; [reflexivity|]. intros K. exfalso. apply (Qlt_not_le _ _ K). exact F1.
  - destruct i; discriminate.
Qed.

(** trial point 5, which is not better *)
Definition pa : answers Q := wa 5 (-1) 0 false 1 1 0.

(** a small radius: the point 1 is replaced, and the set still counts as poised *)
Lemma small_radius : exists s', pass (pE f_up) (ps f_up (1 # 1000000)) pa = Continue s' /\
  s_Y (iS (sI (ps f_up (1 # 1000000)))) = [0; 1] /\ s_Y (iS (sI s')) = [0; 5] /\
  niter (sN s') = 1%nat /\ pm (sG (ps f_up (1 # 1000000))) = true /\ pm (sG s') = true.
Proof. eexists. split; [vm_compute; reflexivity|]. repeat split. Qed.

Lemma unchanged_refuted : ~ (forall (P : Type) (E : env P), sane E ->
  forall k0 d0 s0 s a s', begins E k0 d0 s0 -> reach E s0 s -> pass E s a = Continue s' ->
  niter (sN s') = (niter (sN s) + 1)%nat -> pm (sG s') = true -> s_Y (iS (sI s')) = s_Y (iS (sI s))).
Proof.
  intros H. destruct small_radius as (s' & P1 & P2 & P3 & P4 & P5 & P6).
  assert (K : s_Y (iS (sI s')) = s_Y (iS (sI (ps f_up (1 # 1000000))))).
  { refine (H Q (pE f_up) (pE_sane _) 2%nat (1 # 1000000) _ _ pa s' (ps_begins _ _ _ _ _) (reach_start _ _) P1 P4 P6);
      [vm_compute; congruence|vm_compute; congruence|reflexivity]. }
  rewrite P2, P3 in K. discriminate.
Qed.

(** the radius 1: the trial point is not included *)
Lemma large_radius : exists s', pass (pE f_up) (ps f_up 1) pa = Continue s' /\
  pm (sG (ps f_up 1)) = true /\ sI s' = sI (ps f_up 1) /\ pm (sG s') = true /\ niter (sN s') = 1%nat.
Proof. eexists. split; [vm_compute; reflexivity|]. repeat split. Qed.

(** after an accepted step the set does not count as poised, and the next trial
    point is included although it is not better *)
Definition f88 (x : Q) : Q := if qeqb x 5 then 9 else 10 + x.
Definition pb : answers Q := wa 6 (-1) 0 false 1 1 0.

Lemma next_point : exists s1 s2, pass (pE f88) (ps f88 1) pa = Continue s1 /\
  ib (sI s1) = mlast (sA s1) /\ pm (sG s1) = false /\ epsc (sG s1) < delta (sG s1) /\
  pass (pE f88) s1 pb = Continue s2 /\ ib (sI s2) = ib (sI s1) /\ In 6 (s_Y (iS (sI s2))).
Proof.
  do 2 eexists. split; [vm_compute; reflexivity|]. split; [reflexivity|]. split; [reflexivity|].
  split; [vm_compute; reflexivity|]. split; [vm_compute; reflexivity|]. split; [reflexivity|]. vm_compute; auto.
Qed.
