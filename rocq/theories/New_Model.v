(** Model of bcdfo_find_new_yj.py and bcdfo_poisedness_Y.py.

    Simplifications: exact reals, so the test for NaN or infinite coefficients
    (bcdfo_find_new_yj.py:86-90) is never true; the message is left out.  The trust-region
    solver is an argument: gradient, matrix and radius to step and value, None is an
    exception. *)
From Coq Require Import Reals List Arith Bool.
From Verif Require Import RVec RBool Poly_Model Int_Model.
Import ListNotations.
Open Scope R_scope.

Definition tr_solver := vec -> mat -> R -> option (vec * R).

Section New.
Variable slv : nat -> mat -> mat -> option mat.
Variable pinv : nat -> mat -> mat.
Variable solver : tr_solver.

(** the radius is enlarged for the solver with the infinity norm
    (bcdfo_find_new_yj.py:92-93) *)
Definition used_radius (lSolver n : nat) (Delta : R) : R :=
  if (lSolver =? 2)%nat then sqrt (INR n) * Delta else Delta.

(** the better of two answers, as a displacement multiplied by [u]
    (bcdfo_find_new_yj.py:120-125) *)
Definition pick (y0 : vec) (u : R) (p m : vec * R) : vec * R :=
  if Rltb (snd m) (snd p) then (vadd y0 (vscal u (fst m)), Rabs (snd m))
  else (vadd y0 (vscal u (fst p)), Rabs (snd p)).

(** bcdfo_find_new_yj.py:75-128: new point and improvement; None is an exception *)
Definition find_new (lSolver mode : nat) (shift : bool) (n p1 : nat) (b : built) (Y : nat -> vec)
    (j : nat) (Delta : R) : option (vec * R) :=
  if (j <? 1)%nat then Some (vzero, 0) else
  match computeLj slv pinv mode n p1 (b_Q b) (b_R b) j with
  | None => None
  | Some (len, L) =>
      let D := used_radius lSolver n Delta in
      let H := hessP n len L in
      if shift then
        let g := gradP n len L vzero in
        let sc := b_scale b 1%nat in
        match solver g H (D * sc) with
        | None => None
        | Some p =>
            match solver (fun i => - g i) (fun a c => - H a c) (D * sc) with
            | None => None
            | Some m => Some (pick (Y 0%nat) (/ sc) p m)
            end
        end
      else
        let g := gradP n len L (Y 0%nat) in
        match solver g H D with
        | None => None
        | Some p =>
            match solver (fun i => - g i) (fun a c => - H a c) D with
            | None => None
            | Some m => Some (pick (Y 0%nat) 1 p m)
            end
        end
  end.

(** largest distance from the first point (bcdfo_poisedness_Y.py:48-51) *)
Definition Y_radius (n p1 : nat) (Y : nat -> vec) : R :=
  fold_left (fun r j => Rmax r (norm n (vsub (Y j) (Y 0%nat)))) (seq 1 (p1 - 1)) 0.

(** the loop over the polynomials (bcdfo_poisedness_Y.py:52-59).  With [hardcons] equal
    to 1 the function bcdfo_find_new_yj_bc_ is called, which is neither imported nor
    defined anywhere: NameError *)
Fixpoint poised_loop (hardcons : bool) (f : nat -> option (vec * R)) (js : list nat) (lam : R) : option R :=
  match js with
  | [] => Some lam
  | j :: rest =>
      if hardcons then None else
      match f j with
      | None => None
      | Some (_, imp) => poised_loop hardcons f rest (Rmax imp lam)
      end
  end.

(** bcdfo_poisedness_Y.py:44-60: poisedness and radius *)
Definition poisedness (hardcons : bool) (lSolver mode : nat) (shift : bool) (n p1 : nat) (b : built)
    (Y : nat -> vec) : option (R * R) :=
  let r := Y_radius n p1 Y in
  match poised_loop hardcons (fun j => find_new lSolver mode shift n p1 b Y j r) (seq 1 (p1 - 1)) 0 with
  | None => None
  | Some lam => Some (lam, r)
  end.
End New.
