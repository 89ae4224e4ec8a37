(** Witnesses for the constraint values of problem 1000. *)
From Coq Require Import List Arith ZArith QArith Bool Lia Lqa.
Import ListNotations.
From Verif Require Import QB Main_Model Cut_Model Cut_Spec.
Local Open Scope Q_scope.

(** x_1 between -1 and 1, x_2 = 3, x_3 >= 2 at the point (0, 3, 5). *)
Definition rows3 : list row := [mkrow (-1) 1 0; mkrow 3 3 3; mkrow 2 e20 5].
(** an inequality without bounds *)
Definition rows_free : list row := [mkrow (- e20) e20 0].
(** a finite lower bound of -2e7 that is violated *)
Definition rows_large : list row := [mkrow (-20000000) 0 (-30000000)].
(** an equality with right-hand side -1, not satisfied *)
Definition rows_eq : list row := [mkrow (-1) (-1) 0].

Lemma large_refuted : ~ (forall me rows, me = equalities rows -> (me < length rows)%nat ->
  accepted me (fst (c_values me rows)) -> Forall within rows).
Proof.
  intros H. assert (F : Forall within rows_large).
  { apply (H O); [reflexivity|apply Nat.lt_0_1|].
    assert (E : fst (c_values 0 rows_large) = [30000000 # 1]) by (vm_compute; reflexivity). rewrite E.
    split; intros q I; [destruct I|]. destruct I as [<-|[]]. discriminate. }
  inversion F as [|r t W _]; subst. destruct W as [W _]. vm_compute in W. apply W. reflexivity.
Qed.

Lemma free_refuted : ~ (forall me rows k, me = equalities rows -> (me < length rows)%nat ->
  (forall r, In r rows -> lo r <= up r) ->
  Drv_Model.slack_count me (length rows - me) (Some (map (fun r => Fin (lo r)) rows)) (Some (map (fun r => Fin (up r)) rows)) = Some k ->
  length (fst (c_values me rows)) = (me + k)%nat).
Proof.
  intros H. specialize (H O rows_free 1%nat eq_refl Nat.lt_0_1).
  assert (E : length (fst (c_values 0 rows_free)) = O) by (vm_compute; reflexivity). rewrite E in H.
  discriminate H; [|vm_compute; reflexivity]. intros r [<-|[]]. vm_compute. discriminate.
Qed.

Lemma equalities_refuted : ~ (forall me rows, me = equalities rows -> me = length rows ->
  snd (c_values me rows) = false -> accepted me (fst (c_values me rows)) -> Forall holds rows).
Proof.
  intros H. assert (F : Forall holds rows_eq).
  { apply (H 1%nat); [reflexivity|reflexivity|vm_compute; reflexivity|].
    assert (E : fst (c_values 1 rows_eq) = [0]) by (vm_compute; reflexivity). rewrite E.
    split; intros q I; [|destruct I]. destruct I as [<-|[]]. reflexivity. }
  inversion F as [|r t W _]; subst. vm_compute in W. discriminate W.
Qed.
