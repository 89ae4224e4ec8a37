(** Runs of the main loop that show the exchanges of C59 and the slacks of C07. *)
From Coq Require Import List Arith ZArith QArith Qabs Bool Lia Lqa.
Import ListNotations.
From Verif Require Import QB Book_Model Book_Spec Book_Wit Main_Model Main_Spec Main_Wit.
Local Open Scope Q_scope.

Lemma exchanges_run : sane w7E /\ begins w7E 2 1 w7s /\
  pass w7E w7s (w7 0) = Continue w7s1 /\ pass w7E w7s1 (w7 1) = Continue w7s2 /\
  s_Y (iS (sI w7s)) = [0; 1] /\ length (s_Y (iS (sI w7s1))) = 3%nat /\
  niter (sN w7s2) = (niter (sN w7s1) + 2)%nat /\
  exists s', pass w7E w7s2 (w7 2) = Continue s' /\ length (s_Y (iS (sI s'))) = 3%nat /\
    nth_error (s_Y (iS (sI s'))) 0 = Some 3 /\ pm (sG s') = false.
Proof.
  split; [apply wE_sane|]. split; [apply su_begins; vm_compute; congruence|].
  split; [exact w7_first|]. split; [exact w7_second|]. repeat (split; [reflexivity|]).
  eexists. split; [vm_compute; reflexivity|]. repeat split.
Qed.

Lemma kept_run : exists s', pass w7E w7s2 (w7 2) = Continue s' /\ 0 < pred (sG s') /\
  decreases (1 # 10000) s' /\ 1 # 10000000000 < Qabs (a_L1 (w7 2) 0) /\
  (forall k y, nth_error (calls (sA s')) k = Some y -> (S k < length (calls (sA s')))%nat -> 0 < e_dist w7E y 3).
Proof.
  eexists. split; [vm_compute; reflexivity|]. split; [vm_compute; reflexivity|].
  split; [vm_compute; congruence|]. split; [vm_compute; reflexivity|].
  intros k y H L. cbn [calls sA length] in *.
  do 12 (destruct k as [|k]; [cbn in H; try discriminate; try (injection H as <-; vm_compute; reflexivity); cbn in L; lia|]).
  cbn in L. lia.
Qed.

(** one constraint, counted as an inequality: slack 0 at the start; the trial point 2
    comes with the slack 1/10 *)
Definition E59 : env Q := E53 (fun _ => 1 # 1000).
Definition w59 : answers Q :=
  mkans false false false false 1 1 1 1 (fun _ _ _ => NoPt) None 1 2 0 false [1 # 10]
    1 (-1) (-1) false (fun _ => 1) (fun _ => 1) (fun _ => 1).
Definition s59 : st Q :=
  match start E59 [0; 1] [0; 1] [0; -1] [[1 # 1000]; [1 # 1000]] [0] 1 with Some s => s | None => dummy end.

Lemma s59_begins : begins E59 2 1 s59.
Proof.
  exists [0; 1], [0; 1], [0; -1], [[1 # 1000]; [1 # 1000]], [0].
  split; [|split; [reflexivity|split; [reflexivity|reflexivity]]].
  split; [cbn; lia|]. split; [auto|]. split; [discriminate|]. split; [auto|].
  split; [intros cc [<-|[<-|[]]]; reflexivity|].
  split; [|intros _ cc v [<-|[<-|[]]] [<-|[]] [K|K]; vm_compute in K; auto; discriminate].
  intros [|[|i]] y v; cbn [nth_error].
  - intros H1 H2; injection H1 as <-; injection H2 as <-. exists 0%nat, 0, [Fin (1 # 1000)].
    split; [reflexivity|]. split; [split; [reflexivity|split; [reflexivity|intros [K|[]]; discriminate]]|].
    split; [reflexivity|]. intros K. vm_compute in K. auto; discriminate.
  - intros H1 H2; injection H1 as <-; injection H2 as <-. exists 1%nat, (-1), [Fin (1 # 1000)].
    split; [reflexivity|]. split; [split; [reflexivity|split; [reflexivity|intros [K|[]]; discriminate]]|].
    split; [reflexivity|]. intros K. vm_compute in K. auto; discriminate.
  - destruct i; discriminate.
Qed.

Lemma slacks_run : exists s0 s', begins E59 2 1 s0 /\ pass E59 s0 w59 = Continue s' /\
  ib (sI s') = mlast (sA s') /\ sl (sG s0) = [0] /\ sl (sG s') = [1 # 10].
Proof.
  exists s59. eexists. split; [exact s59_begins|]. split; [vm_compute; reflexivity|]. repeat split.
Qed.
