(** Model of the quadratic model polynomials:
    bcdfo_evalZ.py, bcdfo_evalP.py, bcdfo_gradP.py, bcdfo_hessP.py.

    Simplifications: exact reals instead of floats; one evaluation point
    (m = 1 column) at a time; a coefficient row vector [P] of length [q] is a
    function [nat -> R] together with [q]; a numpy shape mismatch is [None]. *)
From Coq Require Import Reals List Arith.
From Verif Require Import RVec.
Import ListNotations.
Open Scope R_scope.

(** bcdfo_evalZ.py 72-78: the sub-diagonal products [X[k:k+nsd]*X[0:nsd]],
    [ks] is what is left of [range(1,n)], [nquad] the number of monomials
    still wanted. *)
Fixpoint evalZ_sub (x : vec) (n : nat) (ks : list nat) (nquad : nat) : list R :=
  match ks with
  | [] => []
  | k :: ks' =>
      let nsd := Nat.min (n - k) nquad in
      map (fun i => x (k + i)%nat * x i) (seq 0 nsd) ++
      (if (nquad - nsd =? 0)%nat then [] else evalZ_sub x n ks' (nquad - nsd))
  end.

(** bcdfo_evalZ.py 58-79 for one column.  [q = 0] (no monomial) does not occur
    in /repo: every coefficient row has a constant term. *)
Definition evalZ (n q : nat) (x : vec) : list R :=
  let nlin := Nat.min (n + 1) q in
  let nquad := (q - nlin)%nat in
  if (q =? 1)%nat then [1]
  else if (q <=? n + 1)%nat then 1 :: map x (seq 0 (nlin - 1))
  else
    let ndiag := Nat.min n nquad in
    let nquad' := (nquad - ndiag)%nat in
    1 :: map x (seq 0 n) ++ map (fun i => / 2 * (x i * x i)) (seq 0 ndiag) ++
    (if (0 <? nquad')%nat then evalZ_sub x n (seq 1 (n - 1)) nquad' else []).

(** The product of a coefficient row with a column of monomials, numbered
    from [k]; [P.dot(Z)] of bcdfo_evalP.py 53, 55. *)
Fixpoint pdot (P : nat -> R) (k : nat) (l : list R) : R :=
  match l with
  | [] => 0
  | z :: l' => P k * z + pdot P (S k) l'
  end.

(** bcdfo_evalP.py 55 (shift_Y = 0): [None] is the ValueError of [dot] when
    the number of monomials differs from the number of coefficients. *)
Definition evalP (n q : nat) (P : nat -> R) (x : vec) : option R :=
  let z := evalZ n q x in
  if (length z =? q)%nat then Some (pdot P 0 z) else None.

(** bcdfo_evalP.py 53 (shift_Y = 1): the point is shifted by [xbase] and
    multiplied by [scale[1]]. *)
Definition evalP_shift (n q : nat) (P : nat -> R) (x xbase scale : vec) : option R :=
  evalP n q P (fun i => (x i - xbase i) * scale 1%nat).

(** bcdfo_gradP.py 82-90: the loop over sub-diagonals; [is] is what is left of
    [range(0,n-1)], [k] the position in [P], [g] the gradient so far. *)
Fixpoint gradP_sub (P : nat -> R) (x : vec) (n : nat) (is : list nat) (k nquad : nat) (g : vec) : vec :=
  match is with
  | [] => g
  | i :: is' =>
      let nsd := Nat.min (n - i - 1) nquad in
      let g1 := fun t => if ((i + 1 <=? t) && (t <? (i + 1) + nsd))%nat%bool
                         then g t + P (k + (t - (i + 1)))%nat * x (t - (i + 1))%nat else g t in
      let g2 := fun t => if ((0 <=? t) && (t <? 0 + nsd))%nat%bool
                         then g1 t + P (k + t)%nat * x (i + 1 + t)%nat else g1 t in
      if (nquad - nsd =? 0)%nat then g2
      else gradP_sub P x n is' (k + nsd) (nquad - nsd) g2
  end.

(** bcdfo_gradP.py 61-91 with shift_Y = 0. *)
Definition gradP (n p1 : nat) (P : nat -> R) (x : vec) : vec :=
  let ng := Nat.min n (p1 - 1) in
  let g0 : vec := fun t => if (t <? ng)%nat then P (1 + t)%nat else 0 in
  let nquad := (p1 - n - 1)%nat in
  if (0 <? nquad)%nat then
    let ndiag := Nat.min nquad n in
    let g1 : vec := fun t => if (t <? ndiag)%nat then g0 t + P (n + 1 + t)%nat * x t else g0 t in
    let nquad' := (nquad - ndiag)%nat in
    if (0 <? nquad')%nat then gradP_sub P x n (seq 0 (n - 1)) (2 * n + 1) nquad' g1
    else g1
  else g0.

(** bcdfo_gradP.py 63-65: with shift_Y = 1 the coefficients are multiplied by
    the scale vector and the point is shifted (but not scaled). *)
Definition gradP_shift (n p1 : nat) (P : nat -> R) (x xbase scale : vec) : vec :=
  gradP n p1 (fun i => P i * scale i) (vsub x xbase).

(** bcdfo_hessP.py 82-84: the inner loop writing one sub- and super-diagonal. *)
Fixpoint hessP_row (P : nat -> R) (i k : nat) (js : list nat) (H : mat) : mat :=
  match js with
  | [] => H
  | j :: js' =>
      let H1 : mat := fun a b => if ((a =? i + j + 1) && (b =? j))%nat%bool then P (k + j)%nat else H a b in
      let H2 : mat := fun a b => if ((a =? j) && (b =? i + j + 1))%nat%bool then P (k + j)%nat else H1 a b in
      hessP_row P i k js' H2
  end.

(** bcdfo_hessP.py 79-88: the outer loop. *)
Fixpoint hessP_sub (P : nat -> R) (n : nat) (is : list nat) (k nquad : nat) (H : mat) : mat :=
  match is with
  | [] => H
  | i :: is' =>
      let nsd := Nat.min (n - i - 1) nquad in
      let H' := hessP_row P i k (seq 0 nsd) H in
      if (nquad - nsd =? 0)%nat then H'
      else hessP_sub P n is' (k + nsd) (nquad - nsd) H'
  end.

(** bcdfo_hessP.py 64-91 with shift_Y = 0 (the point is not used). *)
Definition hessP (n p1 : nat) (P : nat -> R) : mat :=
  let nquad := (p1 - n - 1)%nat in
  if (0 <? nquad)%nat then
    let ndiag := Nat.min nquad n in
    let H0 : mat := fun a b => if (a =? b)%nat then (if (a <? ndiag)%nat then P (n + 1 + a)%nat else 0) else 0 in
    let nquad' := (nquad - ndiag)%nat in
    if (0 <? nquad')%nat then hessP_sub P n (seq 0 (n - 1)) (2 * n + 1) nquad' H0
    else H0
  else fun _ _ => 0.

(** bcdfo_hessP.py 67-69 with shift_Y = 1. *)
Definition hessP_shift (n p1 : nat) (P : nat -> R) (scale : vec) : mat :=
  hessP n p1 (fun i => P i * scale i).

(** bcdfo_build_QR_of_Y.py 90: the scale vector
    [1, 1/s (min(n,q-1) times), 1/s^2 (q-n-1 times)], with [si = 1/scaleY]. *)
Definition scale_vec (n : nat) (si : R) : vec :=
  fun i => if (i =? 0)%nat then 1 else if (i <=? n)%nat then si else si * si.
