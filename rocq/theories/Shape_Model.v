(** Model of the array shapes of the start point and of the bounds, from the arguments
    of sqpdfo_ to the first use of the bounds after the initial evaluations.  Options are
    assumed valid, bounds not crossed and no variable fixed (see Opt_Model.v,
    Pre_Model.v); arrays with three or more dimensions and nested lists are not
    represented. *)
From Coq Require Import List Arith ZArith QArith Bool.
Import ListNotations.
From Verif Require Import Pre_Model.
Local Open Scope nat_scope.

(** an argument: a list of numbers of some length, a single number, or a numpy array *)
Inductive given := PList (n : nat) | PNumber | PArray (a : arr).

Definition transpose (a : arr) : arr := match a with Arr1 n => Arr1 n | Arr2 r c => Arr2 c r end.

(** size_, as used here: /repo/sqpdfo/runtime.py:197-212 *)
Definition size1 (a : arr) : nat := match a with Arr1 n => n | Arr2 r _ => r end.
Definition size2 (a : arr) : nat := match a with Arr1 _ => 1 | Arr2 _ c => c end.

(** array([v]), /repo/sqpdfo/sqpdfo.py:110-111 *)
Definition wrap (g : given) : arr :=
  match g with PList n => Arr2 1 n | PNumber => Arr1 1 | PArray a => a end.

(** bounds: by default the shape of the transposed start point
    (/repo/sqpdfo/sqpdfo.py:112-119) *)
Definition bound_arr (x0 : arr) (b : option given) : arr :=
  match b with
  | None => transpose x0
  | Some (PArray a) => a
  | Some g => transpose (wrap g)
  end.

(** concatenate((lb, zeros((mi,1)))): None is the ValueError
    (/repo/sqpdfo/sqpdfo.py:147-148; executed only with inequalities) *)
Definition append_rows (k : nat) (a : arr) : option arr :=
  match k with
  | O => Some a
  | S _ => match a with Arr2 r 1 => Some (Arr2 (r + k) 1) | _ => None end
  end.

(** /repo/sqpdfo/sqpdfo.py:186-187 *)
Definition upright (a : arr) : arr :=
  if ((size1 a =? 1) && (1 <? size2 a))%bool then transpose a else a.

Definition is_empty (a : arr) : bool :=
  match a with Arr1 n => n =? 0 | Arr2 r c => ((r =? 0) || (c =? 0))%bool end.

(** number of entries of row a[j]; None: j is out of range *)
Definition row_size (a : arr) (j : nat) : option nat :=
  if j <? size1 a then Some (size2 a) else None.

(** can [if (lb[j] > ub[j]):] be evaluated?  The rows must have compatible lengths, and a
    comparison with more than one entry has no truth value
    (/repo/sqpdfo/sqpdfo_prelim.py:180) *)
Definition comparable (lb ub : arr) (j : nat) : bool :=
  match row_size lb j, row_size ub j with
  | Some a, Some b => match bcast1 a b with Some c => c <=? 1 | None => false end
  | _, _ => false
  end.

(** shape of lb[0:n], and the sum of the two masks in the count of the bounds
    (/repo/sqpdfo/sqpdfo_prelim.py:161-163) *)
Definition head (n : nat) (a : arr) : arr :=
  match a with Arr1 m => Arr1 (Nat.min n m) | Arr2 r c => Arr2 (Nat.min n r) c end.
Definition as_matrix (a : arr) : nat * nat := match a with Arr1 m => (1, m) | Arr2 r c => (r, c) end.
Definition countable (n : nat) (lb ub : arr) : bool :=
  match bcast (as_matrix (head n lb)) (as_matrix (head n ub)) with Some _ => true | None => false end.

Inductive fate :=
| Rejected                       (* exit code 1, nothing evaluated *)
| EarlyError                     (* exception before any evaluation *)
| LateError                      (* exception after the initial evaluations *)
| Unclear                        (* one bound array is one-dimensional, the other is not *)
| Usable (n : nat) (lb ub : arr). (* shapes used in the main loop *)

(** bl[i,0] and bu[i,0] in /repo/sqpdfo/bcdfo_projgrad.py:30-36, called in
    /repo/sqpdfo/sqpdfo_prelim.py:441: one of the two is read for every component *)
Definition projected (n : nat) (lb ub : arr) : fate :=
  match lb, ub with
  | Arr1 _, Arr1 _ => LateError
  | Arr2 _ _, Arr2 _ _ => Usable n lb ub
  | _, _ => Unclear
  end.

(** /repo/sqpdfo/sqpdfo.py:107-190, /repo/sqpdfo/sqpdfo_prelim.py:135-213 *)
Definition shapes_of (x0 : given) (lb ub : option given) (k : nat) : fate :=
  let X := wrap x0 in
  match append_rows k (bound_arr X lb), append_rows k (bound_arr X ub) with
  | Some L, Some U =>
      let Y := upright X in
      if negb (size2 Y =? 1) then Rejected else
      let n := size1 Y in
      if n =? 0 then Rejected else
      let L' := if is_empty L then Arr2 n 1 else L in
      let U' := if is_empty U then Arr2 n 1 else U in
      if negb (countable n L' U') then EarlyError else
      if forallb (comparable L' U') (seq 0 n) then projected n L' U' else EarlyError
  | _, _ => EarlyError
  end.

(** ** Bounds of the slacks

    The arrays after the concatenation, and the entries that the step computation uses
    for the slacks, lb[n : n + nbr_slacks]
    (/repo/sqpdfo/sqpdfo.py:147-148, /repo/sqpdfo/sqpdfo_solve_TR_bc.py:209-210) *)
Definition with_slacks (b : list bnd) (k : nat) (fill : bnd) : list bnd := b ++ repeat fill k.
Definition slack_bounds (b : list bnd) (n k : nat) (fill : bnd) : list bnd :=
  firstn k (skipn n (with_slacks b k fill)).
(** the entries used for the variables (lines 209-210; projected gradient) *)
Definition variable_bounds (b : list bnd) (n k : nat) (fill : bnd) : list bnd :=
  firstn n (with_slacks b k fill).
