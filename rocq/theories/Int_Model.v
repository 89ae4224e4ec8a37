(** Model of the interpolation routines: bcdfo_build_QR_of_Y.py, bcdfo_computeP.py,
    bcdfo_computeLj.py, bcdfo_evalL.py.

    Simplifications: exact reals; a matrix is a function of two indices together with
    its numbers of rows and columns; one right-hand side at a time.  The calls of
    numpy.linalg.solve ([slv], None is LinAlgError), numpy.linalg.pinv ([pinv]),
    numpy.linalg.qr ([qr]), the condition test ([ill]) and the replacement of small
    singular values ([cure]) are arguments. *)
From Coq Require Import Reals List Arith Bool.
From Verif Require Import RVec RBool Tri Poly_Model Poly_Spec.
Import ListNotations.
Open Scope R_scope.

(** the model is a minimum norm one if the regression set is too small
    (bcdfo_computeP.py:67-70, bcdfo_computeLj.py:53-56, bcdfo_evalL.py:58-62,
    bcdfo_build_QR_of_Y.py:77-81) *)
Definition eff_mode (mode n p1 : nat) : nat :=
  if ((mode =? 3) && (p1 <? full n))%nat%bool then 2%nat else mode.

(** [p1 == n+1 or p1 == q] *)
Definition compl (n p1 : nat) : bool := ((p1 =? n + 1) || (p1 =? full n))%nat%bool.

(** ** bcdfo_build_QR_of_Y *)

(** largest distance from the base point, bcdfo_build_QR_of_Y.py:85-89 *)
Definition scaleY (n p1 : nat) (Y : nat -> vec) : R :=
  fold_left (fun s i => Rmax s (norm n (vsub (Y i) (Y 0%nat)))) (seq 0 p1) 0.

(** bcdfo_build_QR_of_Y.py:84 *)
Definition shifts (shift : bool) (p1 : nat) : bool := (shift && (1 <? p1)%nat)%bool.

(** points, base point and scale vector used, bcdfo_build_QR_of_Y.py:84-95 *)
Definition pts (shift : bool) (n p1 : nat) (Y : nat -> vec) : nat -> vec :=
  if shifts shift p1 then fun j i => (Y j i - Y 0%nat i) / scaleY n p1 Y else Y.
Definition base (shift : bool) (p1 : nat) (Y : nat -> vec) : vec :=
  if shifts shift p1 then Y 0%nat else vzero.
Definition scl (shift : bool) (n p1 : nat) (Y : nat -> vec) : vec :=
  if shifts shift p1 then scale_vec n (/ scaleY n p1 Y) else fun _ => 1.

(** bcdfo_evalZ of all points: monomial i at point j *)
Definition zmat (n q : nat) (Y : nat -> vec) : mat := fun i j => nth i (evalZ n q (Y j)) 0.

(** the matrix that is factorised, with its numbers of rows and columns;
    bcdfo_build_QR_of_Y.py:100-104, 124-137, 154-157, 174-177 *)
Definition to_factor (mode n p1 : nat) (Y : nat -> vec) : nat * nat * mat :=
  match mode with
  | O => (p1, p1, zmat n p1 Y)
  | 1%nat =>
      if compl n p1 then (p1, p1, tr (zmat n p1 Y))
      else let M := zmat n (full n) Y in
        ((p1 + (n + 1))%nat, (p1 + (n + 1))%nat, fun i j =>
          if (i <? p1)%nat then
            if (j <? p1)%nat
            then rsum (full n - (n + 1)) (fun k => M (n + 1 + k)%nat i * M (n + 1 + k)%nat j)
            else M (j - p1)%nat i
          else if (j <? p1)%nat then M (i - p1)%nat j else 0)
  | 2%nat => (full n, p1, zmat n (full n) Y)
  | _ => (p1, full n, tr (zmat n (full n) Y))
  end.

Record built := mkbuilt { b_Q : mat; b_R : mat; b_base : vec; b_scale : vec }.

Section Int.
Variable slv : nat -> mat -> mat -> option mat.
Variable pinv : nat -> mat -> mat.
Variable qr : nat -> nat -> mat -> mat * mat.
Variable ill : nat -> nat -> mat -> bool.
Variable cure : nat -> nat -> mat -> mat.

(** the whole routine.  If all points coincide then scaleY is 0, the shifted points
    are NaN (0/0) and the singular value decomposition raises LinAlgError: None. *)
Definition build (mode : nat) (shift : bool) (n p1 : nat) (Y : nat -> vec) : option built :=
  if (shifts shift p1 && Reqb (scaleY n p1 Y) 0)%bool then None else
  let '(r, c, Z) := to_factor (eff_mode mode n p1) n p1 (pts shift n p1 Y) in
  let (Q, R) := qr r c (if ill r c Z then cure r c Z else Z) in
  Some (mkbuilt Q R (base shift p1 Y) (scl shift n p1 Y)).

(** bcdfo_evalP with the data of [b], bcdfo_evalP.py:52-55 *)
Definition value (shift : bool) (n len : nat) (P : vec) (b : built) (x : vec) : option R :=
  if shift then evalP_shift n len P x (b_base b) (b_scale b) else evalP n len P x.

(** ** bcdfo_computeP: number of coefficients and coefficients; None is an exception.
    In mode 1 with an incomplete set the name P_i is not defined
    (bcdfo_computeP.py:104: NameError). bcdfo_computeP.py:60-112 *)
Definition computeP (mode n p1 : nat) (Q R : mat) (f : vec) : option (nat * vec) :=
  match eff_mode mode n p1 with
  | O => match slv p1 (tr R) (fun i _ => f i) with
         | None => None
         | Some X => Some (p1, mv p1 Q (fun i => X i 0%nat))
         end
  | 1%nat =>
      if compl n p1 then
        match slv p1 R (fun i _ => mv p1 (tr Q) f i) with
        | None => None
        | Some X => Some (full n, fun i => if (i <? p1)%nat then X i 0%nat else 0)
        end
      else None
  | 2%nat => match slv p1 (tr R) (fun i _ => f i) with
         | None => None
         | Some X => Some (full n, mv p1 Q (fun i => X i 0%nat))
         end
  | 3%nat => Some (full n, mv (full n) (pinv (full n) R) (mv p1 (tr Q) f))
  | _ => None
  end.

(** ** bcdfo_computeLj; in mode 1 with an incomplete set the local variable Lj is used
    before it is assigned (bcdfo_computeLj.py:86: UnboundLocalError).  bcdfo_computeLj.py:51-102 *)
Definition computeLj (mode n p1 : nat) (Q R : mat) (j : nat) : option (nat * vec) :=
  match eff_mode mode n p1 with
  | O => match slv p1 (tr R) (fun i _ => unitv j i) with
         | None => None
         | Some X => Some (p1, mv p1 Q (fun i => X i 0%nat))
         end
  | 1%nat =>
      if compl n p1 then
        match slv p1 R (tr Q) with
        | None => None
        | Some X => Some (p1, mv p1 X (unitv j))
        end
      else None
  | 2%nat => if (p1 <? full n)%nat
         then Some (full n, mv p1 Q (mv p1 (pinv p1 (tr R)) (unitv j)))
         else match slv p1 (tr R) (fun i _ => unitv j i) with
              | None => None
              | Some X => Some (full n, mv p1 Q (fun i => X i 0%nat))
              end
  | 3%nat => Some (full n, mv (full n) (pinv (full n) R) (mv p1 (tr Q) (unitv j)))
  | _ => None
  end.

(** ** bcdfo_evalL

    Arithmetic with a possibly infinite or NaN operand: None stands for a value that
    is not finite; sums and products with such an operand are not finite either. *)
Definition xadd (a b : option R) : option R :=
  match a, b with Some x, Some y => Some (x + y) | _, _ => None end.
Definition xmul (a b : option R) : option R :=
  match a, b with Some x, Some y => Some (x * y) | _, _ => None end.
Definition xdiv (a b : R) : option R := if Reqb b 0 then None else Some (a / b).
Fixpoint xsum (n : nat) (f : nat -> option R) : option R :=
  match n with O => Some 0 | S k => xadd (xsum k f) (f k) end.

(** values of the Lagrange polynomials: an exception, or for each index a number or
    something infinite or NaN (None) *)
Inductive lres := LRaise | LVals (v : nat -> option R).

(** rows of coefficients, evaluated by bcdfo_evalP; positions not asked for are 0 *)
Definition lvals (shift : bool) (n len : nat) (b : built) (choice : list nat) (C : mat) (x : vec) : lres :=
  match value shift n len vzero b x with
  | None => LRaise
  | Some _ => LVals (fun j => if existsb (Nat.eqb j) choice then value shift n len (C j) b x else Some 0)
  end.

(** the rows of QZ / RZ.T (element-wise division), multiplied from the left by the
    rows of the identity, then by the monomials; bcdfo_evalL.py:66-70 *)
Definition frob_row (p1 : nat) (QZ RZ : mat) (j i : nat) : option R :=
  xsum p1 (fun k => xmul (Some (idm j k)) (xdiv (QZ k i) (RZ i k))).
Definition frob_value (p1 : nat) (QZ RZ : mat) (z : nat -> R) (j : nat) : option R :=
  xsum p1 (fun i => xmul (frob_row p1 QZ RZ j i) (Some (z i))).

(** bcdfo_evalL.py:47-98 *)
Definition evalL (mode : nat) (shift : bool) (n p1 : nat) (b : built) (choice : list nat) (x : vec) : lres :=
  match eff_mode mode n p1 with
  | O => match slv p1 (b_R b) (tr (b_Q b)) with
         | None => LRaise
         | Some C => lvals shift n p1 b choice C x
         end
  | 1%nat =>
      if compl n p1 then
        match value shift n p1 vzero b x with
        | None => LRaise
        | Some _ => LVals (fun j => if existsb (Nat.eqb j) choice
                    then frob_value p1 (b_Q b) (b_R b)
                           (fun i => nth i (evalZ n p1 (if shift then fun t => (x t - b_base b t) * b_scale b 1%nat else x)) 0) j
                    else Some 0)
        end
      else LRaise  (* bcdfo_evalZ_ is not imported: NameError, bcdfo_evalL.py:83 *)
  | 2%nat => if (p1 <? full n)%nat
         then lvals shift n (full n) b choice (fun j i => rsum p1 (fun k => pinv p1 (b_R b) j k * b_Q b i k)) x
         else match slv p1 (b_R b) (tr (b_Q b)) with
              | None => LRaise
              | Some C => lvals shift n (full n) b choice C x
              end
  | 3%nat => lvals shift n (full n) b choice
               (fun j i => rsum (full n) (fun k => b_Q b j k * pinv (full n) (tr (b_R b)) k i)) x
  | _ => LVals (fun _ => Some 0)
  end.
End Int.
