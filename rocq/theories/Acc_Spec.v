(** Vocabulary for the accuracy of the models. *)
From Coq Require Import Reals List QArith Qreals.
From Verif Require Import RVec Int_Model New_Spec Acc_Model.
Open Scope R_scope.

(** [F] (values at the points of [Y]) belongs to a function with gradient [g] at the first
    point and curvature at most [2 K] (a Lipschitz constant [2 K] of the gradient suffices) *)
Definition curved (n p1 : nat) (Y : nat -> vec) (F : nat -> R) (g : vec) (K : R) : Prop :=
  forall j, (j < p1)%nat ->
    Rabs (F j - (F 0%nat + dot n g (vsub (Y j) (Y 0%nat)))) <= K * (norm n (vsub (Y j) (Y 0%nat)) * norm n (vsub (Y j) (Y 0%nat))).

(** the Lagrange polynomials but the first are bounded by [Lam] on the ball of radius [r]
    about the first point, which contains the set *)
Definition lagrange_bounded slv pinv (mode : nat) (shift : bool) (n p1 : nat) (b : built) (Y : nat -> vec) (Lam r : R) : Prop :=
  (forall j, (j < p1)%nat -> norm n (vsub (Y j) (Y 0%nat)) <= r) /\
  forall j, (1 <= j < p1)%nat -> exists len L, computeLj slv pinv mode n p1 (b_Q b) (b_R b) j = Some (len, L) /\
    forall x, norm n (vsub x (Y 0%nat)) <= r -> exists v, value shift n len L b x = Some v /\ Rabs v <= Lam.

(** the combination with weights [w] of [k] vectors *)
Definition combo (k : nat) (w : nat -> R) (v : nat -> vec) : vec := fun t => rsum k (fun i => w i * v i t).

(** [G] is the size of the gradient, at the first point, of the model through the values
    [fY] at the points [Y] (one variable) *)
Definition model_slope slv pinv qr ill cure (mode : nat) (shift : bool) (Y fY : list Q) (G : Q) : Prop :=
  exists b len P, build qr ill cure mode shift 1 (length Y) (line_set Y) = Some b /\
    computeP slv pinv mode 1 (length Y) (b_Q b) (b_R b) (fun j => Q2R (nth j fY 0%Q)) = Some (len, P) /\
    Q2R G = Rabs (grad_at_first shift 1 len P b (line_set Y) 0%nat).
