(** The gradient of a model at the incumbent, as the main loop takes it: the incumbent is
    the first point of the set and is passed as point and as base point.
    (/repo/sqpdfo/sqpdfo_main.py:547-557, 1017-1029, 1137-1149, 1285-1298, 1407-1421,
    /repo/sqpdfo/sqpdfo_prelim.py:440, 467, 481) *)
From Coq Require Import Reals.
From Verif Require Import RVec Poly_Model Int_Model.
Open Scope R_scope.

(** [len], [P]: number of coefficients and coefficients of the model; [b]: scaling of the set [Y] *)
Definition grad_at_first (shift : bool) (n len : nat) (P : vec) (b : built) (Y : nat -> vec) : vec :=
  if shift then gradP_shift n len P (Y 0%nat) (Y 0%nat) (b_scale b) else gradP n len P (Y 0%nat).
