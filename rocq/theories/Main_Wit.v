(** Concrete runs of the main loop (one variable, rational data): examples and
    counterexamples for the properties C01-C10, C16 and C53. *)
From Coq Require Import List Arith ZArith QArith Qabs Bool Lia Lqa.
Import ListNotations.
From Verif Require Import QB Book_Model Book_Spec Book_Wit Main_Model Main_Spec.
Local Open Scope Q_scope.

(** settings: tolerances 1/1000, linear start, quadratic end *)
Definition wE (user : nat -> Q -> outcome) (me miter msimul : nat) : env Q :=
  mkenv user me miter msimul (1 # 1000) (1 # 1000) (1 # 1000) 0 3 3 0
    (fun a b => qabs (a - b)) qabs qabs w_sort linf (fun _ => true) (fun s _ => s).

Lemma wE_sane u me mi ms : sane (wE u me mi ms).
Proof. split; [apply w_sort_ok|]. cbn. lia. Qed.

Definition unc (f : Q -> Q) (k : nat) (x : Q) : outcome := mkout (Some (Fin (f x))) (Some []).
Definition con (f c : Q -> Q) (k : nat) (x : Q) : outcome :=
  mkout (Some (Fin (f x))) (Some [Fin (c x)]).

(** answers: trial point, cost and predicted reductions, trust region active or not,
    Lagrangian gradient norm at the head and after an improvement, improvement point *)
Definition wa (x qcost rpred : Q) (act : bool) (gl gl2 y : Q) : answers Q :=
  mkans false false false false gl 1 1 1 (fun _ _ j => NewPt (y * inject_Z (Z.of_nat j)) (1 # 10)) None gl2 x rpred act []
    1 qcost (-1) false (fun _ => 1) (fun _ => 1) (fun _ => 1).

(** every pass: trial point 5, predicted reduction nonpositive; improvement
    point 1/2000000, within the radius *)
Definition w_bad : answers Q := wa 5 1 0 false 1 1 (1 # 2000000).

Definition f_up (x : Q) : Q := 10 + x.

(** first state of a run: points 0 and 1 evaluated, with given values *)
Definition dummy : st Q :=
  mkst (mkA 0 [] 0 [] [] []) (mkI (mkset [] [] [] [] []) 0 0 0)
    (mkInfo 0 0 [] 0 0 0 0 0 0) (mkG 0 0 0 0 false 0 0 0 0 false [] []).

Definition st0 (E : env Q) (f0 f1 : Q) (c : list (list Q)) (d0 : Q) : st Q :=
  match start E [0; 1] [0; 1] [f0; f1] c [] d0 with Some s => s | None => dummy end.

Lemma st0_begins u me mi ms f0 f1 c d0 :
  let E := wE u me mi ms in
  (exists c0 c1, answered E 0 0 f0 c0 /\ answered E 1 1 f1 c1) ->
  f0 <= inject_Z (10 ^ 25) -> f1 <= inject_Z (10 ^ 25) -> 0 < d0 ->
  (me = 0%nat -> c = []) -> (me <> 0%nat -> length c = 2%nat) ->
  (forall col, In col c -> length col = me) -> (forall col v, In col c -> In v col -> ~ huge v) ->
  begins E 2 d0 (st0 E f0 f1 c d0).
Proof.
  intros E (c0 & c1 & A0 & A1) F0 F1 D M1 M2 M3 M4.
  exists [0; 1], [0; 1], [f0; f1], c, []. split; [|split; [reflexivity|split; [auto|reflexivity]]].
  split; [auto|]. split; [auto|]. split; [auto|]. split; [auto|].
  split; [auto|]. split; [|intros _; auto].
  intros [|[|i]] y v; cbn [nth_error].
  - intros H1 H2; injection H1 as <-; injection H2 as <-. exists 0%nat, f0, c0.
    split; [reflexivity|]. split; [auto|].
    split; [reflexivity|]. intros K. exfalso. apply (Qlt_not_le _ _ K). exact F0.
  - intros H1 H2; injection H1 as <-; injection H2 as <-. exists 1%nat, f1, c1.
    split; [reflexivity|]. split; [auto|].
    split; [reflexivity|]. intros K. exfalso. apply (Qlt_not_le _ _ K). exact F1.
  - destruct i; discriminate.
Qed.

Definition su (u : nat -> Q -> outcome) (f : Q -> Q) (mi ms : nat) : st Q :=
  st0 (wE u 0 mi ms) (f 0) (f 1) [] 1.

Lemma su_begins u f mi ms :
  o_f (u 0%nat 0) = Some (Fin (f 0)) -> o_c (u 0%nat 0) = Some [] ->
  o_f (u 1%nat 1) = Some (Fin (f 1)) -> o_c (u 1%nat 1) = Some [] ->
  f 0 <= inject_Z (10 ^ 25) -> f 1 <= inject_Z (10 ^ 25) ->
  begins (wE u 0 mi ms) 2 1 (su u f mi ms).
Proof.
  intros U1 U2 U3 U4 F0 F1. apply st0_begins; trivial.
  - exists [], []. split; (split; [auto|split; [auto|intros []]]).
  - reflexivity.
  - intros H; exfalso; apply H; reflexivity.
  - intros col [].
  - intros col v [].
Qed.

Definition w_show (o : option (outc Q)) :=
  match o with
  | Some (Return fl s f) => Some (fl, f, niter (sN s), length (calls (sA s)), ix (sI s), ifx (sI s))
  | _ => None
  end.

(** ** C01: exit code 0 with a gradient norm 50 times the tolerance *)
Definition w_end : answers Q := wa 5 1 0 false 1 (1 # 20) (1 # 2000000).

(** a well-poised set and a vanishing gradient *)
Definition w_fine : answers Q :=
  mkans false false false false 0 (1 # 1000) 1 0 (fun _ _ _ => NoPt) None 0 5 0 false []
    1 1 (-1) false (fun _ => 1) (fun _ => 1) (fun _ => 1).

Lemma loose_certificate : exists s' f,
  run (wE (unc f_up) 0 9 100) 5 (fun _ => w_end) 0 (su (unc f_up) f_up 9 100) = Some (Return 0 s' f) /\
  glagn (sN s') == 50 * e_tolg (wE (unc f_up) 0 9 100).
Proof. do 2 eexists. split; [vm_compute; reflexivity|]. reflexivity. Qed.

(** ** C02: one iteration too many *)
Lemma extra_iteration : exists s' f,
  run (wE (unc f_up) 0 2 100) 5 (fun _ => w_bad) 0 (su (unc f_up) f_up 2 100) = Some (Return 5 s' f) /\
  niter (sN s') = 3%nat.
Proof. do 2 eexists. split; [vm_compute; reflexivity|]. reflexivity. Qed.

(** ** C03: one evaluation too many *)
Lemma extra_evaluation : exists s' f,
  run (wE (unc f_up) 0 100 4) 5 (fun _ => w_bad) 0 (su (unc f_up) f_up 100 4) = Some (Return 6 s' f) /\
  length (calls (sA s')) = 5%nat /\ length (s_Y (iS (sI s'))) = 2%nat.
Proof. do 2 eexists. split; [vm_compute; reflexivity|]. split; reflexivity. Qed.

(** ** C06: info.f is the value of another point *)
Lemma wrong_f : exists s',
  run (wE (unc f_up) 0 1 100) 5 (fun _ => w_bad) 0 (su (unc f_up) f_up 1 100) = Some (Return 5 s' (Fin 15)) /\
  ix (sI s') = 0 /\ ifx (sI s') = 10 /\ f_up (ix (sI s')) == 10.
Proof. eexists. split; [vm_compute; reflexivity|]. repeat split. Qed.

(** ** C07: accepted although the objective grows *)

(** values 10, 11, 12 at 0, 1, 2, value 1 at one improvement point, 5 at 3, else 9 *)
Definition f7 (x : Q) : Q :=
  if qeqb x 0 then 10 else if qeqb x 1 then 11 else if qeqb x 2 then 12 else if qeqb x 3 then 5
  else if qeqb x (1 # 1000000) then 1 else 9.

(** first pass: trial point 2 is rejected and added to the set; second pass: the
    gradient is small, the set is improved and its best point becomes the incumbent,
    no decrease is predicted; third pass: 3 is tried *)
Definition w7 (k : nat) : answers Q :=
  match k with
  | O => wa 2 (-1) 0 false 1 1 0
  | 1%nat => wa 4 1 0 false 0 1 (1 # 2000000)
  | _ => wa 3 (-1) 0 false 1 1 (1 # 3000000)
  end.

Definition w7E : env Q := wE (unc f7) 0 100 100.
Definition w7s : st Q := su (unc f7) f7 100 100.

Definition nextst (o : outc Q) (s : st Q) : st Q := match o with Continue s' => s' | _ => s end.
Definition w7s1 : st Q := Eval vm_compute in nextst (pass w7E w7s (w7 0)) w7s.
Definition w7s2 : st Q := Eval vm_compute in nextst (pass w7E w7s1 (w7 1)) w7s.

Lemma w7_first : pass w7E w7s (w7 0) = Continue w7s1.
Proof. vm_compute. reflexivity. Qed.
Lemma w7_second : pass w7E w7s1 (w7 1) = Continue w7s2.
Proof. vm_compute. reflexivity. Qed.

(** trial point 4 is rejected; all Lagrange values are 0, so it is not included *)
Definition w_out : answers Q :=
  mkans false false false false 1 1 1 1 (fun _ _ _ => NoPt) None 1 4 0 false []
    1 (-1) (-1) false (fun _ => 0) (fun _ => 0) (fun _ => 0).

Lemma stale_merit : exists (E : env Q) s0 s a s', sane E /\ begins E 2 1 s0 /\ e_me E = 0%nat /\
  reach E s0 s /\ pass E s a = Continue s' /\ ib (sI s') = mlast (sA s') /\
  ifx (sI s) == 1 /\ ifx (sI s') == 5.
Proof.
  exists w7E, w7s, w7s2, (w7 2). eexists. split; [apply wE_sane|].
  split; [apply su_begins; vm_compute; congruence|]. split; [reflexivity|].
  split; [econstructor; [econstructor; [constructor|exact w7_first]|exact w7_second]|].
  split; [vm_compute; reflexivity|]. repeat split.
Qed.

(** ** C09: a radius above 1e5 *)

(** every trial point decreases the objective, by half of the prediction from the
    second pass on, with the
    trust region active *)
Definition w9 (k : nat) : answers Q := wa (inject_Z (2 + Z.of_nat k)) (-2) 0 true 1 1 0.
Definition f9 (x : Q) : Q := - x.
Definition w9E : env Q := wE (unc f9) 0 17 100.

Lemma big_radius : exists s' f,
  run w9E 30 w9 0 (su (unc f9) f9 17 100) = Some (Return 5 s' f) /\ delta (sG s') == 327680.
Proof. do 2 eexists. split; [vm_compute; reflexivity|]. reflexivity. Qed.

(** ** C16: failures *)

(** the objective fails outside [-1, 2] / near the start *)
Definition far_fails (f : Q -> Q) (k : nat) (x : Q) : outcome :=
  if qltb 2 (qabs x) then mkout (Some NaN) (Some []) else unc f k x.
Definition near_fails (f : Q -> Q) (k : nat) (x : Q) : outcome :=
  if (qltb 0 x && qltb x (1 # 2))%bool then mkout None (Some []) else unc f k x.

Lemma trial_failure : exists s', 
  run (wE (far_fails f_up) 0 9 100) 5 (fun _ => w_bad) 0 (su (far_fails f_up) f_up 9 100) = Some (Return 3 s' NaN) /\
  calls (sA s') = [0; 1; 5] /\ ix (sI s') = 0.
Proof. eexists. split; [vm_compute; reflexivity|]. split; reflexivity. Qed.

Lemma improvement_failure :
  run (wE (near_fails f_up) 0 9 100) 5 (fun _ => w_bad) 0 (su (near_fails f_up) f_up 9 100) = Some Crash.
Proof. vm_compute. reflexivity. Qed.

(** ** C53: constraint values that are all zero *)

(** the objective decreases along the points tried *)
Definition w53 : answers Q := wa 2 (-1) 0 false 1 1 0.
Definition E53 (c : Q -> Q) : env Q := wE (con f9 c) 1 9 100.
Definition s53 (c : Q -> Q) : st Q := st0 (E53 c) 0 (-1) [[c 0]; [c 1]] 1.

Lemma s53_begins c : ~ huge (c 0) -> ~ huge (c 1) -> begins (E53 c) 2 1 (s53 c).
Proof.
  intros H0 H1. apply st0_begins.
  - exists [Fin (c 0)], [Fin (c 1)].
    split; (split; [reflexivity|split; [reflexivity|intros [K|[]]; discriminate]]).
  - vm_compute. congruence.
  - vm_compute. congruence.
  - reflexivity.
  - discriminate.
  - reflexivity.
  - intros col [<-|[<-|[]]]; reflexivity.
  - intros col v [<-|[<-|[]]] [<-|[]]; auto.
Qed.

Lemma zero_crash : pass (E53 (fun _ => 0)) (s53 (fun _ => 0)) w53 = Crash.
Proof. vm_compute. reflexivity. Qed.

Lemma nonzero_fine : exists s', pass (E53 (fun x => 1 # 1000)) (s53 (fun x => 1 # 1000)) w53 = Continue s' /\
  ix (sI s') = 2 /\ same_constraints s' /\ ib (sI s') = mlast (sA s').
Proof.
  eexists. split; [vm_compute; reflexivity|]. split; [reflexivity|]. split; [|reflexivity].
  split; [reflexivity|]. intros [|[|[|j]]] i; cbn [iS sI s_ind nth_error].
  - intros H; injection H as <-. eexists. split; reflexivity.
  - intros H; injection H as <-. eexists. split; reflexivity.
  - intros H; injection H as <-. eexists. split; reflexivity.
  - destruct j; discriminate.
Qed.
