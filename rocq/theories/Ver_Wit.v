(** Instances for the theorems about the accuracy test after an improvement. *)
From Coq Require Import Reals Lra Psatz Lia List Arith Bool ZArith QArith Qreals.
From Coq Require Lqa.
From Verif Require Import RVec RBool Tri Poly_Model Poly_Spec Poly_Proofs Int_Model Int_Spec Int_Proofs Int_Wit
  MS_Model MS_Spec MS_Proofs MS_Wit QB Book_Model Book_Spec Book_Wit Main_Model Main_Spec Main_Wit New_Model New_Spec New_Proofs New_Wit Ver_Spec.
Import ListNotations.
Open Scope R_scope.

(** f(x) = x/200, points 0 and 1, tolerances 1/100 *)
Definition slope (x : Q) : Q := (x * (1 # 200))%Q.
Definition verE : env Q :=
  mkenv (unc slope) 0 100 100 (1 # 100) (1 # 100) (1 # 100) 0 3 3 0%Q
    (fun a b => qabs (a - b)%Q) qabs qabs w_sort linf (fun x => true) (fun s _ => s).
Definition ver_s : st Q := su (unc slope) slope 100 100.
(** gradient 1/200, poisedness and radius 1, trial point -1 with predicted reduction 1/200 *)
Definition ver_a : answers Q :=
  mkans false false false false (1 # 200)%Q 1%Q 1%Q (1 # 200)%Q (wnew 1) None (1 # 200)%Q (-1)%Q 0%Q true [] 1%Q
    (- 1 # 200)%Q (- 1 # 200)%Q false (fun _ => 1%Q) (fun _ => 1%Q) (fun _ => 1%Q).

Lemma ver_begins : begins verE 2 1 ver_s.
Proof.
  exists [0%Q; 1%Q], [0%Q; 1%Q], [slope 0; slope 1], [], []. split; [|split; [reflexivity|split; [reflexivity|reflexivity]]].
  split; [auto|]. split; [auto|]. split; [auto|]. split; [intros H; exfalso; apply H; reflexivity|].
  split; [intros x []|]. split; [|intros _ x v []].
  intros i y f H1 H2. exists i, (slope y), []. assert (CL : nth_error [0%Q; 1%Q] i = Some y) by exact H1.
  assert (f = slope y) as -> by (destruct i as [|[|i]]; cbn in H1, H2; [congruence|congruence|destruct i; discriminate]).
  split; [exact CL|]. split; [split; [reflexivity|split; [reflexivity|intros []]]|].
  split; [reflexivity|]. intros K. exfalso.
  destruct i as [|[|i]]; cbn in H1; [injection H1 as <-; discriminate K|injection H1 as <-; discriminate K|destruct i; discriminate].
Qed.

Lemma ver_quiet : exists s' f, pass verE ver_s ver_a = Return 0 s' f /\ improved ver_s s' /\
  calls (sA s') = [0%Q; 1%Q] /\ s_Y (iS (sI s')) = [0%Q; 1%Q] /\ yrad (sN s') == 1%Q.
Proof. do 2 eexists. split; [vm_compute; reflexivity|]. repeat split. Qed.
Lemma ver_loud : exists s', pass verE ver_s (recomputed (1%Q, 1%Q) ver_a) = Continue s' /\ improved ver_s s' /\
  calls (sA s') = [0%Q; 1%Q; (-1)%Q] /\ poised (sN s') = 1%Q /\ yrad (sN s') = 1%Q.
Proof. eexists. split; [vm_compute; reflexivity|]. repeat split. Qed.

(** a pass whose improvement replaces nothing and which goes on (gradient 2 after it) *)
Definition ver_b : answers Q :=
  mkans false false false false (1 # 200)%Q 1%Q 1%Q (1 # 200)%Q (wnew 1) None 2%Q (-1)%Q 0%Q true [] 1%Q
    (- 1 # 200)%Q (- 1 # 200)%Q false (fun _ => 1%Q) (fun _ => 1%Q) (fun _ => 1%Q).
Lemma ver_on : exists s', pass verE ver_s ver_b = Continue s' /\ improved ver_s s' /\
  calls (sA s') = calls (sA ver_s) ++ [a_xnew ver_b].
Proof. eexists. split; [vm_compute; reflexivity|]. repeat split. Qed.
(** with a recomputed radius of 1/1000 the second test passes *)
Lemma ver_small : exists s' f, pass verE ver_s (recomputed (1%Q, (1 # 1000)%Q) ver_a) = Return 0 s' f /\ improved ver_s s'.
Proof. do 2 eexists. split; [vm_compute; reflexivity|]. reflexivity. Qed.

(** poisedness and radius of two points on a line *)
Lemma pair_poised Y (NE : Y 0%nat 0%nat <> Y 1%nat 0%nat) eps : 0 <= eps ->
  poisedness slv0 pinv0 (ms_solver chol1 slv1 eig0 1 eps) false 1 0 true 1 2 (b_pair Y) Y = Some (1, Rabs (Y 1%nat 0%nat - Y 0%nat 0%nat)).
Proof.
  intros HE. pose proof (w_pos Y NE) as WP.
  assert (RY : Y_radius 1 2 Y = Rabs (Y 1%nat 0%nat - Y 0%nat 0%nat)).
  { unfold Y_radius. cbn [seq fold_left Nat.sub]. rewrite norm1. unfold vsub. apply Rmax_right. lra. }
  unfold poisedness. cbv zeta. rewrite RY. cbn [Nat.sub seq poised_loop].
  destruct (pair_new Y NE (Rabs (Y 1%nat 0%nat - Y 0%nat 0%nat)) eps WP HE) as (y & imp & -> & _ & ->).
  do 2 f_equal. unfold Rdiv. rewrite Rinv_r by lra. apply Rmax_left. lra.
Qed.

Lemma ver_measured : measured slv0 pinv0 qr2 ill0 cure0 (ms_solver chol1 slv1 eig0 1 (/ 1000)) 1 0 true [0%Q; 1%Q] (1%Q, 1%Q).
Proof.
  set (L := line_set [0%Q; 1%Q]).
  assert (LA : L 0%nat 0%nat = 0) by apply RMicromega.Q2R_0. assert (LB : L 1%nat 0%nat = 1) by apply RMicromega.Q2R_1.
  assert (NE : L 0%nat 0%nat <> L 1%nat 0%nat) by lra.
  exists (b_pair L). split; [exact (pair_build L NE)|].
  cbn [length fst snd]. fold L. rewrite (pair_poised L NE) by lra. rewrite LA, LB, Rminus_0_r, Rabs_R1, RMicromega.Q2R_1. reflexivity.
Qed.

Lemma r_verbosity : ~ forall slv pinv qr ill cure chol slvv eig mode shift (E : env Q) k0 d0 s a s' f pr,
  tri_exact slv -> pinv_exact pinv -> chol_exact 1 chol -> slv_exact 1 slvv ->
  sane E -> begins E k0 d0 s -> (1 # 1000 < a_glagn1 a)%Q ->
  proposed slv pinv qr ill cure (ms_solver chol slvv eig 1 (/ 1000)) 1 mode shift (qmax (delta (sG s)) (1 # 100000)) (a_newpt a) ->
  pass E s a = Return 0 s' f -> improved s s' -> s_Y (iS (sI s')) = s_Y (iS (sI s)) ->
  measured slv pinv qr ill cure (ms_solver chol slvv eig 1 (/ 1000)) 1 mode shift (s_Y (iS (sI s'))) pr ->
  exists s2 f2, pass E s (recomputed pr a) = Return 0 s2 f2.
Proof.
  intros F. destruct ver_quiet as (s' & f & PQ & IM & CL & YY & _). destruct ver_loud as (s2 & PL & _).
  assert (X : exists s2 f2, pass verE ver_s (recomputed (1%Q, 1%Q) ver_a) = Return 0 s2 f2).
  { refine (F slv0 pinv0 qr2 ill0 cure0 chol1 slv1 eig0 0%nat true verE 2%nat 1%Q ver_s ver_a s' f (1%Q, 1%Q)
      slv0_exact pinv0_exact chol1_exact slv1_exact _ ver_begins _ _ PQ IM _ _).
    - split; [apply w_sort_ok|]. cbn. lia.
    - reflexivity.
    - change (qmax (delta (sG ver_s)) (1 # 100000)) with 1%Q. apply wnew_proposed. reflexivity.
    - rewrite YY. reflexivity.
    - rewrite YY. exact ver_measured. }
  destruct X as (s3 & f3 & X). rewrite PL in X. discriminate.
Qed.

(** an exact solver on two points: the hypotheses of the bound from below *)
Lemma ver_at_least : exists lam r, regular_case slv0 pinv0 qr01 ill0 cure0 0 false 1 2 Y01 b01 /\ (2 <= full 1)%nat /\
  honest 1 0 lin_solver /\ optimal 1 0 lin_solver /\ poisedness slv0 pinv0 lin_solver false 1 0 false 1 2 b01 Y01 = Some (lam, r).
Proof.
  destruct lin_poised as (lam & r & H). exists lam, r. split; [exact square_case|]. split; [vm_compute; lia|].
  split; [exact lin_honest|]. split; [exact lin_optimal|]. exact H.
Qed.
