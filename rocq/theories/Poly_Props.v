(** C27, C28: property theorems about the model polynomials. *)
From Coq Require Import Reals List Arith Lra Lia.
From Verif Require Import RVec Poly_Model Poly_Spec Poly_Proofs.
Open Scope R_scope.

(** C27: value, gradient and Hessian routines form an exact expansion, for
    every dimension and every model size from constant to fully quadratic. *)
Theorem C27_expansion : forall n q P x, (1 <= q)%nat -> (q <= full n)%nat ->
  exact_expansion n (evalP n q P) x (gradP n q P x) (hessP n q P).
Proof. exact taylor. Qed.
Print Assumptions C27_expansion.

(** C27 with shifting and scaling by any factor. *)
Theorem C27_expansion_shifted : forall n q P x xbase si,
  (1 <= n)%nat -> (1 <= q)%nat -> (q <= full n)%nat ->
  exact_expansion n (fun y => evalP_shift n q P y xbase (scale_vec n si)) x
    (gradP_shift n q P x xbase (scale_vec n si)) (hessP_shift n q P (scale_vec n si)).
Proof. exact taylor_shift. Qed.
Print Assumptions C27_expansion_shifted.

(** A partial quadratic model in three variables (8 of 10 coefficients)
    meets the hypotheses, and its expansion is not trivial. *)
Example C27_example : (1 <= 8)%nat /\ (8 <= full 3)%nat /\
  evalP 3 8 (fun i => INR i) (fun i => INR (S i)) = Some 67 /\
  hessP 3 8 (fun i => INR i) 0%nat 1%nat = 7.
Proof.
  split; [lia|]. split; [unfold full; cbn; lia|]. split.
  - unfold evalP. cbn. f_equal. field.
  - cbn. lra.
Qed.

(** C28: the Hessian is symmetric, whatever the coefficients. *)
Theorem C28_symmetric : forall n q P i j, hessP n q P i j = hessP n q P j i.
Proof. exact hessP_sym. Qed.
Print Assumptions C28_symmetric.

(** C28: every quadratic function is a model polynomial. *)
Theorem C28_complete : forall n c b A, symmetric n A -> (1 <= n)%nat ->
  exists P, forall x, evalP n (full n) P x = Some (quadratic n c b A x).
Proof. exact represent_ex. Qed.
Print Assumptions C28_complete.

(** C28: no monomial occurs twice: the function determines the coefficients. *)
Theorem C28_independent : forall n q P Q, (1 <= q)%nat -> (q <= full n)%nat ->
  (forall x, evalP n q P x = evalP n q Q x) -> forall i, (i < q)%nat -> P i = Q i.
Proof. exact independent. Qed.
Print Assumptions C28_independent.

(** C28: the number of monomials is the number asked for, up to the full
    basis; asking for more fails. *)
Theorem C28_count : forall n q x, (1 <= q)%nat -> (q <= full n)%nat -> length (evalZ n q x) = q.
Proof. exact evalZ_length. Qed.
Print Assumptions C28_count.

Theorem C28_too_many : forall n q P x, (1 <= n)%nat -> (full n < q)%nat -> evalP n q P x = None.
Proof. exact evalP_too_many. Qed.
Print Assumptions C28_too_many.

Example C28_example : full 3 = 10%nat /\ symmetric 2 (fun i j => INR (i + j)) /\
  hessP 3 10 (fun i => INR i) 0%nat 2%nat = 9.
Proof.
  split; [reflexivity|]. split.
  - intros i j _ _. f_equal. lia.
  - cbn. lra.
Qed.
